(** Property C113: standard deviations of the Common reducer in double precision. *)
From Coq Require Import List ZArith QArith Qcanon Bool Arith Lia Reals Permutation.
From Flocq Require Import Core Relative.
From Verif.Base Require Import Py Num Lst Fl FlFacts FlSum FlSumFacts.
From Verif.WfUtils Require Import Model.
From Verif.Reducers Require Import Model Proofs Proofs2 ModelFloat ProofsFloat.
From Verif.Resol Require Import ModelFloat.
From Verif.Reducers Require Import ModelRms.
From Coq Require Import Lra.
Import ListNotations.
Local Open Scope list_scope.
Local Open Scope R_scope.

Notation u64 := (ulp1 53).
Lemma u64_small : 0 < u64 <= / 1000.
Proof. unfold ulp1. split; [apply bpow_gt_0|]. apply Rle_trans with (bpow radix2 (-10)); [apply bpow_le; lia|cbn; lra]. Qed.
Lemma c64_small : 0 < c64 <= / 1000.
Proof. unfold normal_min. split; [apply bpow_gt_0|]. apply Rle_trans with (bpow radix2 (-10)); [apply bpow_le; lia|cbn; lra]. Qed.
Lemma err64' : forall q, Rabs (q2r (fl64 q) - q2r q) <= u64 * (Rabs (q2r q) + c64).
Proof. intro q. exact (fl_error' 53 (-1074) ltac:(lia) q). Qed.
(** One more rounding. *)
Lemma one_more : forall k q (e : R), Rabs (q2r q - e) <= (g64 k - 1) * (Rabs e + c64) -> Rabs (q2r (fl64 q) - e) <= (g64 (S k) - 1) * (Rabs e + c64).
Proof.
  intros k q e H. pose proof (err64' q) as F. pose proof (growth_S 53 k) as GS. rewrite GS. pose proof u64_small as U. pose proof c64_small as C. revert H F U C. generalize (q2r (fl64 q)), (q2r q), u64, c64, (g64 k). clear. intros y q u c g H F U C.
  assert (Rabs q <= Rabs e + (g - 1) * (Rabs e + c)). { replace q with (e + (q - e)) by ring. eapply Rle_trans; [apply Rabs_triang|]. lra. }
  assert (u * (Rabs q + c) <= u * (Rabs e + (g - 1) * (Rabs e + c) + c)) by (apply Rmult_le_compat_l; lra). replace (y - e) with ((y - q) + (q - e)) by ring. eapply Rle_trans; [apply Rabs_triang|].
  replace (((1 + u) * g - 1) * (Rabs e + c)) with (u * (Rabs e + (g - 1) * (Rabs e + c) + c) + (g - 1) * (Rabs e + c)) by ring. lra.
Qed.
(** A sum of rounded terms. *)
Lemma map_sum_error : forall k (f e : Qc -> Qc) l v, (forall x, In x l -> Rabs (q2r (f x) - q2r (e x)) <= (g64 k - 1) * (Rabs (q2r (e x)) + c64)) -> sums_to fl64 (map f l) v ->
  Rabs (q2r v - rsum (map (fun x => q2r (e x)) l)) <= (g64 (k + (List.length l - 1)) - 1) * (rsum (map (fun x => Rabs (q2r (e x))) l) + INR (List.length l) * c64).
Proof.
  intros k f e l v HE [[E ->]|(t & PM & ->)].
  - apply map_eq_nil in E as ->. cbn [map List.length Nat.sub]. unfold rsum. cbn [fold_right INR map]. rewrite q2r_0. rewrite Rminus_diag_eq by reflexivity. rewrite Rabs_R0. lra.
  - destruct (Permutation_map_inv _ _ PM) as (l3 & E & P3).
    destruct (tree_lift _ _ f t l3 E) as (t' & <- & L'). pose proof (tree_error 53 (-1074) ltac:(lia) k (tmap (fun x => (f x, e x)) t')) as H.
    assert (TM : tmap fst (tmap (fun x : Qc => (f x, e x)) t') = tmap f t') by (clear; induction t'; cbn [tmap fst]; congruence).
    rewrite TM, leaves_tmap, !map_map, map_length in H. cbn [snd] in H. rewrite L' in H.
    rewrite (rsum_perm _ _ (Permutation_map (fun x => q2r (e x)) P3)). rewrite (rsum_perm _ _ (Permutation_map (fun x => Rabs (q2r (e x))) P3)). rewrite (Permutation_length P3). apply H.
    intros a b I. apply in_map_iff in I as (x & E2 & I). injection E2 as <- <-. apply HE. apply Permutation_in with l3; [now apply Permutation_sym|exact I].
Qed.
(** The square of a rounded deviation. *)
Lemma square_error : forall m x, Rabs (q2r (fl_square m x) - q2r ((x - m) * (x - m))%Qc) <= (g64 5 - 1) * (Rabs (q2r ((x - m) * (x - m))%Qc) + c64).
Proof.
  intros m x. unfold fl_square. cbv zeta. apply one_more. pose proof (err64' (x - m)%Qc) as F. rewrite !q2r_mult. revert F. generalize (q2r (fl64 (x - m)%Qc)), (q2r (x - m)%Qc). clear. intros y d F. pose proof u64_small as U. pose proof c64_small as C. unfold growth. revert F U C. generalize u64, c64. intros u c F U C.
  rewrite Rabs_mult. replace (y * y - d * d) with ((y - d) * (y - d + 2 * d)) by ring. rewrite Rabs_mult. set (D := Rabs d) in *. assert (D0 : 0 <= D) by apply Rabs_pos.
  assert (Rabs (y - d + 2 * d) <= u * (D + c) + 2 * D). { eapply Rle_trans; [apply Rabs_triang|]. rewrite Rabs_mult, (Rabs_pos_eq 2) by lra. fold D. lra. }
  assert (P : Rabs (y - d) * Rabs (y - d + 2 * d) <= u * (D + c) * (u * (D + c) + 2 * D)) by (apply Rmult_le_compat; [apply Rabs_pos|apply Rabs_pos|exact F|assumption]). eapply Rle_trans; [exact P|].
  assert (Q : u * (D + c) * (u * (D + c) + 2 * D) <= u * (2 + u) * ((D + c) * (D + c))). { replace (u * (2 + u) * ((D + c) * (D + c))) with (u * (D + c) * (u * (D + c) + 2 * D) + u * (D + c) * (2 * c)) by ring. assert (0 <= u * (D + c) * (2 * c)); [|lra]. repeat apply Rmult_le_pos; lra. }
  eapply Rle_trans; [exact Q|]. assert (S2 : (D + c) * (D + c) <= 2 * (D * D + c)). { assert (0 <= (D - c) * (D - c)) by apply Rle_0_sqr. assert (c * c <= 1 * c) by (apply Rmult_le_compat_r; lra). nra. }
  apply Rle_trans with (u * (2 + u) * (2 * (D * D + c))); [apply Rmult_le_compat_l; [apply Rmult_le_pos; lra|exact S2]|]. replace (u * (2 + u) * (2 * (D * D + c))) with ((4 * u + 2 * (u * u)) * (D * D + c)) by ring.
  apply Rmult_le_compat_r; [assert (0 <= D * D) by (apply Rmult_le_pos; lra); lra|]. assert (0 <= u * u) by (apply Rmult_le_pos; lra). assert (0 <= u * u * u) by (apply Rmult_le_pos; lra). assert (0 <= u * u * u * u) by (apply Rmult_le_pos; lra). replace ((1 + u) ^ 4 - 1) with (4 * u + 6 * (u * u) + 4 * (u * u * u) + u * u * u * u) by ring. lra.
Qed.
Lemma rsum_nonneg' : forall (l : list R), (forall x, In x l -> 0 <= x) -> 0 <= rsum l.
Proof. unfold rsum. induction l as [|a l IH]; intros H; cbn [fold_right]; [lra|]. pose proof (H a (or_introl eq_refl)). assert (0 <= fold_right Rplus 0 l) by (apply IH; intros; apply H; now right). lra. Qed.
(** ** Never NaN *)
Lemma fl64_nonneg : forall q, 0 <= q2r q -> 0 <= q2r (fl64 q).
Proof. intros q H. now apply fl_nonneg. Qed.
Lemma tree_nonneg : forall t, (forall x, In x (leaves t) -> 0 <= q2r x) -> 0 <= q2r (tree_sum fl64 t).
Proof. induction t as [a|l IHl r IHr]; intros H; cbn [tree_sum leaves] in *; [apply H; now left|]. apply fl64_nonneg. rewrite q2r_plus. assert (0 <= q2r (tree_sum fl64 l)) by (apply IHl; intros; apply H, in_or_app; auto). assert (0 <= q2r (tree_sum fl64 r)) by (apply IHr; intros; apply H, in_or_app; auto). lra. Qed.
Lemma sums_nonneg : forall l v, (forall x, In x l -> 0 <= q2r x) -> sums_to fl64 l v -> 0 <= q2r v.
Proof. intros l v H [[_ ->]|(t & P & ->)]; [rewrite q2r_0; lra|]. apply tree_nonneg. intros x X. apply H. eapply Permutation_in; eauto. Qed.
Lemma square_nonneg : forall m x, 0 <= q2r (fl_square m x).
Proof. intros m x. unfold fl_square. cbv zeta. apply fl64_nonneg. rewrite q2r_mult. apply Rle_0_sqr. Qed.
Lemma var_nonneg : forall m l s, l <> [] -> sums_to fl64 (map (fl_square m) l) s -> 0 <= q2r (fl64 (s / qn (List.length l))%Qc).
Proof.
  intros m l s N H. apply fl64_nonneg. assert (0 < INR (List.length l)) by (apply lt_0_INR; destruct l; [easy|cbn; lia]). rewrite q2r_div, q2r_qn by (intro E; apply (f_equal q2r) in E; rewrite q2r_qn, q2r_0 in E; lra).
  apply Rmult_le_pos; [|left; now apply Rinv_0_lt_compat]. apply sums_nonneg in H; [exact H|]. intros x X. apply in_map_iff in X as (y & <- & _). apply square_nonneg.
Qed.
Theorem C113_defined : forall l r, l <> [] -> fl_std l r -> exists v, r = Some v /\ 0 <= v.
Proof.
  intros l r N (m & s & M & H & ->). pose proof (var_nonneg m l s N H) as V. revert V. generalize (fl64 (s / qn (List.length l))%Qc). intros q V. unfold fl_sqrt. destruct (qltb_spec q 0%Qc) as [L|_]; [apply q2r_lt in L; rewrite q2r_0 in L; lra|]. eexists. split; [reflexivity|].
  unfold rnd64. rewrite <- (round_0 radix2 (FLT_exp (-1074) 53) ZnearestE). apply round_le; [apply FLT_exp_valid; red; lia|apply valid_rnd_N|apply sqrt_pos].
Qed.
Print Assumptions C113_defined.

(** ** Error *)
Lemma sum_squares : forall (k : R) l, rsum (map (fun x => (q2r x - k) * (q2r x - k)) l) = rsum (map (fun x => q2r x * q2r x) l) - 2 * k * rsum (map q2r l) + INR (List.length l) * (k * k).
Proof. intros k l. unfold rsum. induction l as [|x l IH]; [cbn; ring|]. cbn [map fold_right List.length]. rewrite IH, S_INR. ring. Qed.
(** Squares about any point are those about the mean plus the square of the distance. *)
Lemma steiner : forall l (m : R), l <> [] -> rsum (map (fun x => (q2r x - m) * (q2r x - m)) l) = INR (List.length l) * (q2r (qvar l) + (m - q2r (qmean l)) * (m - q2r (qmean l))).
Proof.
  intros l m N. assert (L : 0 < INR (List.length l)) by (apply lt_0_INR; destruct l; [easy|cbn; lia]). assert (QN : qn (List.length l) <> 0%Qc) by (intro E; apply (f_equal q2r) in E; rewrite q2r_qn, q2r_0 in E; lra).
  assert (V : q2r (qvar l) = rsum (map (fun x => (q2r x - q2r (qmean l)) * (q2r x - q2r (qmean l))) l) / INR (List.length l)). { unfold qvar. unfold qmean at 1. rewrite map_length, q2r_div, q2r_qn, q2r_qsum, map_map by exact QN. do 2 f_equal. apply map_ext. intro x. now rewrite q2r_mult, q2r_minus. }
  assert (MU : rsum (map q2r l) = INR (List.length l) * q2r (qmean l)) by (unfold qmean; rewrite q2r_div, q2r_qn, q2r_qsum by exact QN; field; lra). rewrite V, !sum_squares, MU. field. lra.
Qed.
Lemma root_close : forall V A G c, 0 <= V -> 0 <= A -> 0 <= G <= 1 -> 0 <= c -> Rabs (V - A) <= G * (A + c) -> Rabs (sqrt V - sqrt A) <= G * sqrt A + sqrt c.
Proof.
  intros V A G c V0 A0 G0 C0 H. apply Rabs_le_inv in H. pose proof (sqrt_sqrt V V0) as SV. pose proof (sqrt_sqrt A A0) as SA. pose proof (sqrt_sqrt c C0) as SC. pose proof (sqrt_pos V). pose proof (sqrt_pos A). pose proof (sqrt_pos c). set (r := sqrt V) in *. set (a := sqrt A) in *. set (k := sqrt c) in *.
  assert (GC : G * c <= 1 * c) by (apply Rmult_le_compat_r; lra). assert (GA : 0 <= G * A) by (apply Rmult_le_pos; lra). assert (GGA : G * G * A <= 1 * G * A) by (apply Rmult_le_compat_r; [lra|apply Rmult_le_compat_r; lra]). assert (G2 : 0 <= G * G * A) by (repeat apply Rmult_le_pos; lra). assert (GAA : 0 <= G * a) by (apply Rmult_le_pos; lra).
  assert (UP : r <= a * (1 + G) + k). { apply Rnot_lt_le. intro X. assert (0 <= a * (1 + G) + k) by (rewrite Rmult_plus_distr_l; lra). assert ((a * (1 + G) + k) * (a * (1 + G) + k) < r * r) by (apply Rmult_le_0_lt_compat; lra). assert (0 <= a * (1 + G) * k) by (apply Rmult_le_pos; [rewrite Rmult_plus_distr_l; lra|lra]). replace ((a * (1 + G) + k) * (a * (1 + G) + k)) with (a * a * (1 + 2 * G + G * G) + 2 * (a * (1 + G) * k) + k * k) in * by ring. rewrite SA, SC in *. lra. }
  assert (LO : a * (1 - G) <= r + k). { apply Rnot_lt_le. intro X. assert ((r + k) * (r + k) < a * (1 - G) * (a * (1 - G))) by (apply Rmult_le_0_lt_compat; lra). assert (0 <= r * k) by (apply Rmult_le_pos; lra). replace ((r + k) * (r + k)) with (r * r + 2 * (r * k) + k * k) in * by ring. replace (a * (1 - G) * (a * (1 - G))) with (a * a * (1 - 2 * G + G * G)) in * by ring. rewrite SV, SA, SC in *. lra. }
  apply Rabs_le. lra.
Qed.
Lemma rnd64_error : forall x, Rabs (rnd64 x - x) <= u64 * Rabs x + bpow radix2 (-1075).
Proof.
  intro x. unfold rnd64. destruct (error_N_FLT radix2 (-1074) 53 ltac:(reflexivity) (fun z => negb (Z.even z)) x) as (eps & eta & E1 & E2 & _ & E). rewrite E. replace (x * (1 + eps) + eta - x) with (eps * x + eta) by ring. eapply Rle_trans; [apply Rabs_triang|]. rewrite Rabs_mult. apply Rplus_le_compat.
  - apply Rmult_le_compat_r; [apply Rabs_pos|]. eapply Rle_trans; [exact E1|]. unfold ulp1. right. change (/ 2) with (bpow radix2 (-1)). rewrite <- bpow_plus. reflexivity.
  - eapply Rle_trans; [exact E2|]. right. change (/ 2) with (bpow radix2 (-1)). rewrite <- bpow_plus. reflexivity.
Qed.
(** The standard deviation differs from the exact one by at most the error [E] of the mean and a relative error; no cancellation of large squares. *)
Theorem C113_error : forall l v B, l <> [] -> (Z.of_nat (List.length l) <= 2 ^ 40)%Z -> 0 <= B -> (forall x, In x l -> rabs x <= B) -> fl_std l (Some v) ->
  let n := List.length l in let sigma := sqrt (q2r (qvar l)) in let E := (g64 n - 1) * (B + c64) in
  Rabs (v - sigma) <= E + (g64 (n + 6) - 1) * (sigma + E) + bpow radix2 (-510).
Proof.
  intros l v B N LN B0 HB (m & s & M & H & R) n sigma E. pose proof (var_nonneg m l s N H) as V0. fold n in V0, R. set (q := fl64 (s / qn n)%Qc) in *.
  assert (L : 0 < INR n) by (apply lt_0_INR; unfold n; destruct l; [easy|cbn; lia]). assert (QN : qn n <> 0%Qc) by (intro X; apply (f_equal q2r) in X; rewrite q2r_qn, q2r_0 in X; lra).
  assert (VE : v = rnd64 (sqrt (q2r q))). { unfold fl_sqrt in R. destruct (qltb_spec q 0%Qc) as [X|_]; [discriminate|]. now injection R. } clear R.
  assert (D : Rabs (q2r m - q2r (qmean l)) <= E). { pose proof (mean_close l l m 0 B N eq_refl) as X. rewrite Rplus_0_r in X. apply X; [intros; rewrite Rminus_diag_eq by reflexivity; rewrite Rabs_R0; lra|exact HB|exact M]. }
  set (d := q2r m - q2r (qmean l)) in *. set (A := q2r (qvar l) + d * d). assert (VN : 0 <= q2r (qvar l)). { assert (X := steiner l (q2r (qmean l)) N). rewrite Rminus_diag_eq, Rmult_0_l, Rplus_0_r in X by reflexivity. fold n in X. assert (0 <= INR n * q2r (qvar l)) as Y by (rewrite <- X; apply rsum_nonneg; intros; apply Rle_0_sqr). apply Rmult_le_reg_l with (INR n); [exact L|]. lra. }
  assert (DD : 0 <= d * d) by apply Rle_0_sqr. assert (A0 : 0 <= A) by (unfold A; lra).
  assert (ST : rsum (map (fun x => q2r ((x - m) * (x - m))%Qc) l) = INR n * A). { rewrite (map_ext _ (fun x => (q2r x - q2r m) * (q2r x - q2r m))) by (intro x; now rewrite q2r_mult, q2r_minus). now apply steiner. }
  assert (SA : rsum (map (fun x => Rabs (q2r ((x - m) * (x - m))%Qc)) l) = INR n * A). { rewrite <- ST. f_equal. apply map_ext. intro x. apply Rabs_pos_eq. rewrite q2r_mult. apply Rle_0_sqr. }
  pose proof (map_sum_error 5 (fl_square m) (fun x => (x - m) * (x - m))%Qc l s (fun x _ => square_error m x) H) as SE. cbv beta in SE. rewrite ST, SA in SE. fold n in SE.
  assert (DE : Rabs (q2r (s / qn n)%Qc - A) <= (g64 (n + 4) - 1) * (Rabs A + c64)). { rewrite q2r_div, q2r_qn by exact QN. replace (q2r s / INR n - A) with ((q2r s - INR n * A) / INR n) by (field; lra). unfold Rdiv. rewrite Rabs_mult, (Rabs_pos_eq (/ INR n)) by (left; now apply Rinv_0_lt_compat). rewrite (Rabs_pos_eq A) by exact A0. apply Rmult_le_reg_r with (INR n); [exact L|]. rewrite Rmult_assoc, Rinv_l, Rmult_1_r by lra. eapply Rle_trans; [exact SE|]. right. replace (5 + (n - 1))%nat with (n + 4)%nat by (unfold n; destruct l; [easy|cbn; lia]). ring. }
  apply one_more in DE. fold q in DE. rewrite (Rabs_pos_eq A) in DE by exact A0. replace (S (n + 4)) with (n + 5)%nat in DE by lia.
  assert (G0 : 0 <= g64 (n + 5) - 1 <= 1). { pose proof (growth_1 53 (n + 5)). split; [lra|]. assert (INR (n + 5) * u64 <= / 4). { apply Rle_trans with (IZR (2 ^ 41) * bpow radix2 (-53)). - apply Rmult_le_compat_r; [apply bpow_ge_0|]. rewrite INR_IZR_INZ. apply IZR_le. rewrite Nat2Z.inj_add. fold n in LN. lia. - change (2 ^ 41)%Z with (radix2 ^ 41)%Z. rewrite (IZR_Zpower radix2 41) by lia. rewrite <- bpow_plus. apply Rle_trans with (bpow radix2 (-2)); [apply bpow_le; lia|cbn; lra]. } pose proof (growth_small 53 (n + 5)) as GS. lra. }
  pose proof (root_close (q2r q) A (g64 (n + 5) - 1) c64 V0 A0 G0 ltac:(pose proof c64_small; lra) DE) as RC.
  assert (KC : sqrt c64 = bpow radix2 (-511)). { unfold normal_min. replace (bpow radix2 (-1074 + 53 - 1)) with (bpow radix2 (-511) * bpow radix2 (-511)) by (rewrite <- bpow_plus; reflexivity). apply sqrt_square. apply bpow_ge_0. }
  rewrite KC in RC. pose proof (rnd64_error (sqrt (q2r q))) as RE. rewrite <- VE in RE. rewrite (Rabs_pos_eq (sqrt (q2r q))) in RE by apply sqrt_pos.
  assert (AS : sigma <= sqrt A <= sigma + E). { unfold sigma. split; [apply sqrt_le_1_alt; unfold A; lra|]. assert (E0 : 0 <= E) by (eapply Rle_trans; [apply Rabs_pos|exact D]). pose proof (sqrt_pos (q2r (qvar l))) as S0. rewrite <- (sqrt_square (sqrt (q2r (qvar l)) + E)) by lra. apply sqrt_le_1_alt. unfold A. pose proof (sqrt_sqrt _ VN) as SS. assert (d * d <= E * E). { rewrite <- (Rabs_pos_eq (d * d)) by exact DD. rewrite Rabs_mult. apply Rmult_le_compat; try apply Rabs_pos; exact D. } assert (0 <= sqrt (q2r (qvar l)) * E) by (apply Rmult_le_pos; lra). replace ((sqrt (q2r (qvar l)) + E) * (sqrt (q2r (qvar l)) + E)) with (sqrt (q2r (qvar l)) * sqrt (q2r (qvar l)) + 2 * (sqrt (q2r (qvar l)) * E) + E * E) by ring. lra. }
  replace (n + 6)%nat with (S (n + 5)) by lia. rewrite growth_S. assert (K0 : bpow radix2 (-510) = 2 * bpow radix2 (-511)) by (change 2 with (bpow radix2 1); rewrite <- bpow_plus; reflexivity). assert (T0 : bpow radix2 (-1075) <= / 4 * bpow radix2 (-511)). { change (/ 4) with (bpow radix2 (-2)). rewrite <- bpow_plus. apply bpow_le. lia. }
  pose proof (bpow_gt_0 radix2 (-511)) as K1. rewrite K0. pose proof u64_small as U. pose proof (sqrt_pos A) as A1. revert RC RE AS G0 T0 K1 U A1. clearbody sigma E. generalize (sqrt (q2r q)), (sqrt A), (bpow radix2 (-511)), (bpow radix2 (-1075)), u64, (g64 (n + 5)). clear. intros r a k t u g RC RE AS G0 T0 K1 U A1.
  assert (RU : r <= a + ((g - 1) * a + k)) by (apply Rabs_le_inv in RC; lra). assert (u * r <= u * (a + ((g - 1) * a + k))) by (apply Rmult_le_compat_l; lra). assert (u * k <= / 1000 * k) by (apply Rmult_le_compat_r; lra).
  assert (((1 + u) * g - 1) * a <= ((1 + u) * g - 1) * (sigma + E)). { apply Rmult_le_compat_l; [|lra]. assert (0 <= u * g) by (apply Rmult_le_pos; lra). lra. }
  assert (Rabs (a - sigma) <= E) by (apply Rabs_le; lra). replace (v - sigma) with ((v - r) + ((r - a) + (a - sigma))) by ring. eapply Rle_trans; [apply Rabs_triang|]. eapply Rle_trans; [apply Rplus_le_compat_l, Rabs_triang|].
  replace (((1 + u) * g - 1) * a) with ((g - 1) * a + u * (a + (g - 1) * a)) in * by ring. lra.
Qed.
Print Assumptions C113_error.

(** ** The columns: bounds [a], [b] are (0, 20), (-20, end) and (start, end) *)
Theorem C113_columns : forall a b w col B i row, fl_std_column a b w col -> nth_error w i = Some row -> pyslice row a b <> [] -> (Z.of_nat (List.length row) <= 2 ^ 40)%Z -> 0 <= B -> (forall x, In x row -> rabs x <= B) ->
  exists v, nth_error col i = Some (Some v) /\ 0 <= v /\
  let l := pyslice row a b in let n := List.length l in let sigma := sqrt (q2r (qvar l)) in let E := (g64 n - 1) * (B + c64) in
  Rabs (v - sigma) <= E + (g64 (n + 6) - 1) * (sigma + E) + bpow radix2 (-510).
Proof.
  intros a b w col B i row F R N L B0 HB. assert (exists r, nth_error col i = Some r /\ fl_std (pyslice row a b) r) as (r & C & S). { unfold fl_std_column in F. clear - F R. revert i R. induction F as [|x r w col X F IH]; intros [|i] R; cbn in *; try discriminate; [injection R as ->; eauto|now apply IH]. }
  destruct (C113_defined _ _ N S) as (v & -> & V). exists v. split; [exact C|]. split; [exact V|]. cbv zeta. apply C113_error; [exact N| |exact B0|intros x X; apply HB; eapply pyslice_In; exact X|exact S].
  eapply Z.le_trans; [|exact L]. unfold pyslice. rewrite firstn_length, skipn_length. lia.
Qed.
Print Assumptions C113_columns.
(** 128 samples up to 4000 mV: below 1e-9 mV. *)
Theorem C113_numbers : forall l v, l <> [] -> (List.length l <= 128)%nat -> (forall x, In x l -> rabs x <= 4000) -> fl_std l (Some v) -> Rabs (v - sqrt (q2r (qvar l))) <= / 10 ^ 9.
Proof.
  intros l v N L HB S. pose proof (C113_error l v 4000 N ltac:(lia) ltac:(lra) HB S) as X. cbv zeta in X. eapply Rle_trans; [exact X|]. clear X.
  assert (U : u64 = / 9007199254740992) by (unfold ulp1; cbn; lra). assert (N128 : INR 134 = 134) by (rewrite INR_IZR_INZ; reflexivity).
  assert (G : g64 134 - 1 <= 2 * (INR 134 * u64)) by (apply growth_small; rewrite U, N128; lra). rewrite U, N128 in G. assert (G1 : g64 (List.length l) <= g64 134) by (apply growth_le; lia). assert (G2 : g64 (List.length l + 6) <= g64 134) by (apply growth_le; lia). pose proof (growth_1 53 (List.length l)) as G3. pose proof (growth_1 53 (List.length l + 6)) as G4. pose proof c64_small as C.
  assert (E : (g64 (List.length l) - 1) * (4000 + c64) <= 2 * (134 * / 9007199254740992) * 4001) by (apply Rmult_le_compat; lra). assert (E0 : 0 <= (g64 (List.length l) - 1) * (4000 + c64)) by (apply Rmult_le_pos; lra).
  assert (SG : sqrt (q2r (qvar l)) <= 4000).
  { rewrite <- (sqrt_square 4000) by lra. apply sqrt_le_1_alt. assert (LP : 0 < INR (List.length l)) by (apply lt_0_INR; destruct l; [easy|cbn; lia]). pose proof (steiner l 0 N) as ST. assert (rsum (map (fun x => (q2r x - 0) * (q2r x - 0)) l) <= INR (List.length l) * (4000 * 4000)) as Q. { rewrite <- (rsum_const _ l). apply rsum_le. intros x X. rewrite Rminus_0_r. rewrite <- (Rabs_pos_eq (q2r x * q2r x)) by apply Rle_0_sqr. rewrite Rabs_mult. apply Rmult_le_compat; try apply Rabs_pos; now apply HB. }
    rewrite ST in Q. apply Rmult_le_reg_l in Q; [|exact LP]. assert (0 <= (0 - q2r (qmean l)) * (0 - q2r (qmean l))) by apply Rle_0_sqr. lra. }
  pose proof (sqrt_pos (q2r (qvar l))) as S0. assert (F : (g64 (List.length l + 6) - 1) * (sqrt (q2r (qvar l)) + (g64 (List.length l) - 1) * (4000 + c64)) <= 2 * (134 * / 9007199254740992) * 4001) by (apply Rmult_le_compat; lra).
  assert (K : bpow radix2 (-510) <= / 10 ^ 10). { apply Rle_trans with (bpow radix2 (-40)); [apply bpow_le; lia|]. cbn. lra. } lra.
Qed.
Print Assumptions C113_numbers.

(** ** Constant waveforms *)
Lemma fl64_0 : fl64 0%Qc = 0%Qc.
Proof. apply Qc_is_canon, Qeq_bool_iff. vm_compute. reflexivity. Qed.
Lemma tree_zero : forall t, (forall x, In x (leaves t) -> x = 0%Qc) -> tree_sum fl64 t = 0%Qc.
Proof. induction t as [a|l IHl r IHr]; intros H; cbn [tree_sum leaves] in *; [apply H; now left|]. rewrite IHl, IHr by (intros; apply H, in_or_app; auto). replace (0 + 0)%Qc with 0%Qc by ring. apply fl64_0. Qed.
(** A waveform constant at a number with few bits, as a count of the digitiser, has standard deviation exactly 0 ... *)
Theorem C113_constant : forall l z e r, l <> [] -> (-1074 <= e)%Z -> (forall x, In x l -> x = (qz z * two e)%Qc) -> (Z.of_nat (List.length l) * Z.abs z < 2 ^ 53)%Z -> fl_std l r -> r = Some 0.
Proof.
  intros l z e r N EM HC LZ (m & s & (t & T & ->) & H & ->). set (c := (qz z * two e)%Qc) in *. assert (L : (0 < List.length l)%nat) by (destruct l; [easy|cbn; lia]). assert (LR : 0 < INR (List.length l)) by now apply lt_0_INR. assert (QN : qn (List.length l) <> 0%Qc) by (intro X; apply (f_equal q2r) in X; rewrite q2r_qn, q2r_0 in X; lra).
  assert (QS : q2r (qsum l) = INR (List.length l) * q2r c). { rewrite q2r_qsum, <- (rsum_const _ l). f_equal. apply map_ext_in. intros x X. now rewrite (HC x X). }
  assert (TE : t = qsum l). { apply (sum_exact 53 (-1074) ltac:(lia) e); [exact EM|intros x X; exists z; now apply HC| |exact T]. replace (rsum (map (fun x => Rabs (q2r x)) l)) with (INR (List.length l) * Rabs (q2r c)) by (rewrite <- (rsum_const _ l); f_equal; apply map_ext_in; intros x X; now rewrite (HC x X)). unfold c. rewrite q2r_mult, q2r_qz, q2r_two, Rabs_mult, (Rabs_pos_eq (bpow _ _)) by apply bpow_ge_0. rewrite bpow_plus, <- Rmult_assoc. apply Rmult_le_compat_r; [apply bpow_ge_0|]. rewrite <- abs_IZR, INR_IZR_INZ, <- mult_IZR. rewrite <- (IZR_Zpower radix2 53) by lia. apply IZR_le. change (radix2 ^ 53)%Z with (2 ^ 53)%Z. lia. }
  assert (ME : fl64 (t / qn (List.length l))%Qc = c). { replace (t / qn (List.length l))%Qc with c by (apply q2r_eq; rewrite TE, q2r_div, QS, q2r_qn by exact QN; field; lra). apply fl_format. unfold c. rewrite q2r_mult, q2r_qz, q2r_two. apply generic_format_FLT. exists (Float radix2 z e); [reflexivity|cbn [Fnum]; change (radix2 ^ 53)%Z with (2 ^ 53)%Z; nia|exact EM]. }
  rewrite ME in H. clear T TE QS ME t. assert (SE : s = 0%Qc). { destruct H as [[_ ->]|(t & P & ->)]; [reflexivity|]. apply tree_zero. intros x X. eapply Permutation_in in X; [|exact P]. apply in_map_iff in X as (y & <- & Y). rewrite (HC y Y). unfold fl_square. cbv zeta. replace (c - c)%Qc with 0%Qc by ring. rewrite fl64_0. replace (0 * 0)%Qc with 0%Qc by ring. apply fl64_0. }
  rewrite SE. replace (0 / qn (List.length l))%Qc with 0%Qc by (unfold Qcdiv; ring). rewrite fl64_0. unfold fl_sqrt. destruct (qltb_spec 0%Qc 0%Qc) as [X|_]; [apply q2r_lt in X; lra|]. rewrite q2r_0, sqrt_0. unfold rnd64. now rewrite round_0 by apply valid_rnd_N.
Qed.
Print Assumptions C113_constant.
(** ... but one at 0.1 mV has not: numpy's order of adding 20 samples (eight lanes, pairwise, then the remaining four) rounds the mean to another number. *)
Definition numpy_20 (c : Qc) : tree Qc :=
  let lane := Node (Leaf c) (Leaf c) in let two := Node lane lane in let four := Node two two in in_order (Node four four) [c; c; c; c].
Definition tenth : Qc := fl64 (Q2Qc (1 # 10)).
Definition tenth_mean : Qc := fl64 (tree_sum fl64 (numpy_20 tenth) / qn 20)%Qc.
Definition tenth_var : Qc := fl64 (tree_sum fl64 (numpy_20 (fl_square tenth_mean tenth)) / qn 20)%Qc.
Lemma tenth_var_positive : Qle_bool (this (two (-120))) (this tenth_var) = true.
Proof. vm_compute. reflexivity. Qed.
Lemma numpy_20_sums : forall c, sums_to fl64 (repeat c 20) (tree_sum fl64 (numpy_20 c)).
Proof. intro c. right. exists (numpy_20 c). split; [|reflexivity]. apply Permutation_refl. Qed.
Theorem C113_constant_refuted : exists v, fl_std (repeat tenth 20) (Some v) /\ 0 < v.
Proof.
  exists (rnd64 (sqrt (q2r tenth_var))). assert (P : (two (-120) <= tenth_var)%Qc) by (apply Qle_bool_iff, tenth_var_positive). assert (PR := P). apply q2r_le in PR. rewrite q2r_two in PR. split.
  - exists tenth_mean, (tree_sum fl64 (numpy_20 (fl_square tenth_mean tenth))). split; [exists (tree_sum fl64 (numpy_20 tenth)); split; [apply numpy_20_sums|unfold tenth_mean; now rewrite repeat_length]|]. split.
    + replace (map (fl_square tenth_mean) (repeat tenth 20)) with (repeat (fl_square tenth_mean tenth) 20) by (generalize tenth_mean, tenth; reflexivity). apply numpy_20_sums.
    + rewrite repeat_length. fold tenth_var. revert P PR. generalize tenth_var. intros q P PR. unfold fl_sqrt. destruct (qltb_spec q 0%Qc) as [X|_]; [apply q2r_lt in X; rewrite q2r_0 in X; pose proof (bpow_gt_0 radix2 (-120)); lra|reflexivity].
  - revert P PR. generalize tenth_var. intros q _ PR. apply Rlt_le_trans with (bpow radix2 (-60)); [apply bpow_gt_0|]. unfold rnd64. rewrite <- (round_generic radix2 (FLT_exp (-1074) 53) ZnearestE (bpow radix2 (-60))) by (apply generic_format_bpow; unfold FLT_exp; lia). apply round_le; [apply FLT_exp_valid; red; lia|apply valid_rnd_N|].
    rewrite <- (sqrt_square (bpow radix2 (-60))) by apply bpow_ge_0. apply sqrt_le_1_alt. rewrite <- bpow_plus. exact PR.
Qed.
Print Assumptions C113_constant_refuted.
(** Samples 1, 2, 3, 6: mean 3, squares 4, 1, 0, 9, variance 7/2. *)
Example C113_ex : fl_std (map qz [1; 2; 3; 6]%Z) (fl_sqrt (Q2Qc (7 # 2))) /\ Qeq_bool (this (qvar (map qz [1; 2; 3; 6]%Z))) (7 # 2) = true.
Proof.
  split; [|vm_compute; reflexivity]. set (tr := fun f : Qc -> Qc => in_order (Leaf (f (qz 1))) (map f (map qz [2; 3; 6]%Z))). exists (qz 3), (qz 14).
  assert (P : forall f, Permutation (leaves (tr f)) (map f (map qz [1; 2; 3; 6]%Z))) by (intro f; apply Permutation_refl).
  split; [|split].
  - exists (tree_sum fl64 (tr (fun x => x))). split; [right; exists (tr (fun x => x)); split; [|reflexivity]; specialize (P (fun x => x)); now rewrite map_id in P|]. apply Qc_is_canon, Qeq_bool_iff. vm_compute. reflexivity.
  - right. exists (tr (fl_square (qz 3))). split; [apply P|]. apply Qc_is_canon, Qeq_bool_iff. vm_compute. reflexivity.
  - f_equal. apply Qc_is_canon, Qeq_bool_iff. vm_compute. reflexivity.
Qed.
