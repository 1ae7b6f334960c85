(** Lemmas about charge extraction in double precision. *)
From Coq Require Import List ZArith QArith Qcanon Bool Arith Lia Reals Permutation.
From Flocq Require Import Core.
From Verif.Base Require Import Py Num Lst Fl FlFacts FlSum FlSumFacts.
From Verif.WfUtils Require Import Model.
From Verif.Reducers Require Import Model Proofs Proofs2 ModelFloat.
From Coq Require Import Lra.
Import ListNotations.
Local Open Scope list_scope.
Local Open Scope R_scope.

Notation g64 := (growth 53).
Notation c64 := (normal_min 53 (-1074)).
Lemma c64_pos : 0 < c64. Proof. apply bpow_gt_0. Qed.
Definition rabs (q : Qc) : R := Rabs (q2r q).
(** Sum of the absolute values. *)
Definition l1 (l : list Qc) : R := rsum (map rabs l).
Lemma l1_nonneg : forall l, 0 <= l1 l.
Proof. intros. apply rsum_nonneg. intros. apply Rabs_pos. Qed.
(** The error of a correlation with [weights] of samples up to [B]. *)
Definition cc_err (weights : list Qc) (B : R) : R := (g64 (List.length weights) - 1) * (l1 weights * B + INR (List.length weights) * c64).
Lemma cc_err_nonneg : forall weights B, 0 <= B -> 0 <= cc_err weights B.
Proof. intros. unfold cc_err. pose proof (growth_1 53 (List.length weights)). pose proof (l1_nonneg weights). pose proof c64_pos. pose proof (pos_INR (List.length weights)). apply Rmult_le_pos; [lra|]. apply Rplus_le_le_0_compat; apply Rmult_le_pos; lra. Qed.
Lemma rsum_scale : forall A (f : A -> R) k l, rsum (map (fun x => f x * k) l) = rsum (map f l) * k.
Proof. unfold rsum. induction l as [|a l IH]; cbn [map fold_right]; [lra|]. rewrite IH. lra. Qed.
Lemma rsum_plus : forall A (f g : A -> R) l, rsum (map (fun x => f x + g x) l) = rsum (map f l) + rsum (map g l).
Proof. unfold rsum. induction l as [|a l IH]; cbn [map fold_right]; [lra|]. rewrite IH. lra. Qed.
Lemma rsum_minus : forall A (f g : A -> R) l, rsum (map f l) - rsum (map g l) = rsum (map (fun x => f x - g x) l).
Proof. unfold rsum. induction l as [|a l IH]; cbn [map fold_right]; [lra|]. rewrite <- IH. lra. Qed.
Lemma map_nth_seq : forall A B (f : A -> B) l d, map (fun j => f (nth j l d)) (seq 0 (List.length l)) = map f l.
Proof.
  intros A B f l d. apply list_ext. intro i. rewrite nth_error_map_seq, nth_error_map. destruct (Nat.ltb_spec i (List.length l)).
  - now rewrite (nth_error_nth' l d) by assumption.
  - replace (nth_error l i) with (@None A) by (symmetry; now apply nth_error_None). reflexivity.
Qed.
Lemma get0_bound : forall row B i, 0 <= B -> (forall x, In x row -> rabs x <= B) -> rabs (get0 row i) <= B.
Proof.
  intros row B i B0 H. unfold get0. destruct (_ && _)%bool eqn:E; [|unfold rabs; rewrite q2r_0, Rabs_R0; exact B0].
  apply andb_true_iff in E as [E1 E2]. apply Z.leb_le in E1. apply Z.ltb_lt in E2. apply H, nth_In. lia.
Qed.
Lemma taps_sum : forall row weights o i, (i < List.length row)%nat ->
  nth i (correlate1d row weights o) 0%Qc = qsum (map (fun xy => (fst xy * snd xy)%Qc) (taps row weights o i)).
Proof. intros row weights o i I. unfold correlate1d, taps. rewrite nth_map_seq by exact I. rewrite map_map. reflexivity. Qed.
Lemma taps_l1 : forall row weights o i B, 0 <= B -> (forall x, In x row -> rabs x <= B) ->
  rsum (map (fun xy => Rabs (q2r (fst xy * snd xy)%Qc)) (taps row weights o i)) <= l1 weights * B.
Proof.
  intros row weights o i B B0 H. unfold taps. rewrite map_map. cbn [fst snd]. unfold l1. rewrite <- (map_nth_seq _ _ rabs weights 0%Qc), <- rsum_scale. apply rsum_le.
  intros j _. rewrite q2r_mult, Rabs_mult. apply Rmult_le_compat_l; [apply Rabs_pos|]. now apply get0_bound.
Qed.
Lemma taps_length : forall row weights o i, List.length (taps row weights o i) = List.length weights.
Proof. intros. unfold taps. now rewrite map_length, seq_length. Qed.
Lemma correlate_error : forall row weights o out B i, 0 <= B -> (forall x, In x row -> rabs x <= B) -> fl_correlate row weights o out -> (i < List.length row)%nat ->
  Rabs (q2r (nth i out 0%Qc) - q2r (nth i (correlate1d row weights o) 0%Qc)) <= cc_err weights B.
Proof.
  intros row weights o out B i B0 H [L D] I. rewrite taps_sum by exact I. eapply Rle_trans; [apply (dot_error 53 (-1074) (ltac:(lia))); exact (D i I)|].
  rewrite taps_length. unfold cc_err. apply Rmult_le_compat_l; [pose proof (growth_1 53 (List.length weights)); lra|]. apply Rplus_le_compat_r. now apply taps_l1.
Qed.
Lemma correlate_bound : forall row weights o B i, 0 <= B -> (forall x, In x row -> rabs x <= B) -> (i < List.length row)%nat -> rabs (nth i (correlate1d row weights o) 0%Qc) <= l1 weights * B.
Proof. intros row weights o B i B0 H I. rewrite taps_sum by exact I. unfold rabs. rewrite q2r_qsum, map_map. eapply Rle_trans; [apply rsum_abs|]. rewrite map_map. now apply taps_l1. Qed.
(** Close lists have close maxima. *)
Lemma max_close : forall a b E, a <> [] -> List.length a = List.length b -> (forall i, (i < List.length a)%nat -> Rabs (q2r (nth i a 0%Qc) - q2r (nth i b 0%Qc)) <= E) ->
  Rabs (q2r (qmax a) - q2r (qmax b)) <= E.
Proof.
  intros a b E N L H. unfold qmax. assert (NB : b <> []) by (intros ->; destruct a; [easy|discriminate]).
  destruct (argmax_spec a N) as (A1 & A2 & _). destruct (argmax_spec b NB) as (B1 & B2 & _). rewrite <- L in *.
  pose proof (H _ A1) as HA. pose proof (H _ B1) as HB. pose proof (A2 _ B1) as QA. pose proof (B2 _ A1) as QB. apply q2r_le in QA, QB.
  apply Rabs_le. apply Rabs_le_inv in HA, HB. lra.
Qed.
(** The maximum of a list close to another: nearly a maximum of the other, and the same if that one is isolated. *)
Lemma peak_close : forall a b E, a <> [] -> List.length a = List.length b -> (forall i, (i < List.length a)%nat -> Rabs (q2r (nth i a 0%Qc) - q2r (nth i b 0%Qc)) <= E) ->
  (argmax a < List.length b)%nat /\ (forall j, (j < List.length b)%nat -> q2r (nth j b 0%Qc) <= q2r (nth (argmax a) b 0%Qc) + 2 * E) /\
  (forall k, (k < List.length b)%nat -> (forall j, (j < List.length b)%nat -> j <> k -> q2r (nth j b 0%Qc) + 2 * E < q2r (nth k b 0%Qc)) -> argmax a = k).
Proof.
  intros a b E N L H. destruct (argmax_spec a N) as (A1 & A2 & _). rewrite L in *.
  assert (M : forall j, (j < List.length b)%nat -> q2r (nth j b 0%Qc) <= q2r (nth (argmax a) b 0%Qc) + 2 * E).
  { intros j J. pose proof (H _ A1) as HA. pose proof (H _ J) as HJ. pose proof (A2 _ J) as Q. apply q2r_le in Q. apply Rabs_le_inv in HA, HJ. lra. }
  split; [exact A1|]. split; [exact M|]. intros k K HK. destruct (Nat.eq_dec (argmax a) k) as [|NE]; [assumption|]. pose proof (HK _ A1 NE). pose proof (M _ K). lra.
Qed.
Lemma mean_close : forall l l' v E B, l <> [] -> List.length l = List.length l' -> (forall i, (i < List.length l)%nat -> Rabs (q2r (nth i l 0%Qc) - q2r (nth i l' 0%Qc)) <= E) ->
  (forall x, In x l -> rabs x <= B) -> mean_to fl64 l v -> Rabs (q2r v - q2r (qmean l')) <= (g64 (List.length l) - 1) * (B + c64) + E.
Proof.
  intros l l' v E B N L H HB V. assert (N0 : (0 < List.length l)%nat) by (destruct l; [easy|cbn; lia]). assert (NR : 0 < INR (List.length l)) by now apply lt_0_INR.
  assert (QN : qn (List.length l) <> 0%Qc) by (intro K; pose proof (q2r_qn (List.length l)) as Q; rewrite K, q2r_0 in Q; lra).
  replace (q2r v - q2r (qmean l')) with ((q2r v - q2r (qmean l)) + (q2r (qmean l) - q2r (qmean l'))) by lra. eapply Rle_trans; [apply Rabs_triang|]. apply Rplus_le_compat.
  - eapply Rle_trans; [apply (mean_error 53 (-1074) (ltac:(lia)) l v N V)|]. apply Rmult_le_compat_l; [pose proof (growth_1 53 (List.length l)); lra|]. apply Rplus_le_compat_r.
    apply Rmult_le_reg_r with (INR (List.length l)); [exact NR|]. unfold Rdiv. rewrite Rmult_assoc, Rinv_l, Rmult_1_r by lra. rewrite Rmult_comm, <- rsum_const. now apply rsum_le.
  - unfold qmean. rewrite <- L. rewrite !q2r_div by exact QN. rewrite q2r_qn, !q2r_qsum. replace (rsum (map q2r l) / INR (List.length l) - rsum (map q2r l') / INR (List.length l)) with ((rsum (map q2r l) - rsum (map q2r l')) / INR (List.length l)) by (field; lra).
    unfold Rdiv. rewrite Rabs_mult, (Rabs_pos_eq (/ INR (List.length l))) by (left; now apply Rinv_0_lt_compat).
    apply Rmult_le_reg_r with (INR (List.length l)); [exact NR|]. rewrite Rmult_assoc, Rinv_l, Rmult_1_r by lra. clear -L H. revert l' L H. induction l as [|a l IH]; intros [|b l'] L H; try discriminate.
    + unfold rsum. cbn. rewrite Rminus_diag_eq by reflexivity. rewrite Rabs_R0. lra.
    + injection L as L. cbn [map List.length]. rewrite S_INR. unfold rsum in *. cbn [fold_right].
      pose proof (H 0%nat (ltac:(cbn; lia))) as H0. cbn [nth] in H0. assert (HI := IH l' L (fun i I => H (S i) (ltac:(cbn; lia)))).
      replace (q2r a + fold_right Rplus 0 (map q2r l) - (q2r b + fold_right Rplus 0 (map q2r l'))) with ((q2r a - q2r b) + (fold_right Rplus 0 (map q2r l) - fold_right Rplus 0 (map q2r l'))) by lra.
      eapply Rle_trans; [apply Rabs_triang|]. lra.
Qed.
Lemma sum_close : forall l v B, (forall x, In x l -> rabs x <= B) -> sums_to fl64 l v ->
  Rabs (q2r v - q2r (qsum l)) <= (g64 (List.length l - 1) - 1) * (INR (List.length l) * (B + c64)).
Proof.
  intros l v B HB V. eapply Rle_trans; [apply (sum_error 53 (-1074) (ltac:(lia)) l v V)|]. apply Rmult_le_compat_l; [pose proof (growth_1 53 (List.length l - 1)); lra|].
  rewrite Rmult_plus_distr_l. apply Rplus_le_compat_r. rewrite <- rsum_const. now apply rsum_le.
Qed.
Lemma pyslice_In : forall (row : list Qc) a b x, In x (pyslice row a b) -> In x row.
Proof.
  assert (H : forall k j (row : list Qc) x, In x (firstn k (skipn j row)) -> In x row).
  { intros k j row x X. rewrite <- (firstn_skipn j row). apply in_or_app. right. rewrite <- (firstn_skipn k (skipn j row)). apply in_or_app. now left. }
  intros row a b x. unfold pyslice. apply H.
Qed.
