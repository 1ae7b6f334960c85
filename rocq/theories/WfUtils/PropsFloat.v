(** Property C91: the rolling baseline in double precision.

    [after s evs] is the subtractor once [subtract] has been called on each event of [evs]; [rect np n w]: [w] has [np] rows of
    [n] samples; [fl_baseline s p v]: np.mean may return [v] for pixel [p], for some order of the additions;
    [b_baseline] is the exact mean (C41 says of which samples); [growth 53 k] is (1 + 2^-53)^k; [normal_min 53 (-1074)] is 2^-1022. *)
From Coq Require Import List ZArith QArith Qcanon Bool Arith Lia Reals Permutation.
From Flocq Require Import Core.
From Verif.Base Require Import Py Num Lst Fl FlFacts FlSum FlSumFacts.
From Verif.WfUtils Require Import Model Proofs ModelFloat.
From Coq Require Import Lra.
Import ListNotations.
Local Open Scope list_scope.

Notation g64 := (growth 53).
Notation c64 := (normal_min 53 (-1074)).

Lemma buf_perm : forall np src nb ns evs, (0 < nb)%nat ->
  Permutation (b_buf (after (new_subtractor np src nb ns) evs)) (skipn (List.length evs) (initial_entries np nb ns src ++ map (head ns) evs)).
Proof.
  intros np src nb ns evs Hn. set (b0 := new_subtractor np src nb ns). set (b := after b0 evs). pose proof (after_unroll evs b0) as AU. cbn [b_n b_iev b_samples b0 new_subtractor] in AU.
  fold b0 in AU. rewrite <- (unroll_perm _ nb (List.length evs) (b_buf b)). unfold b. rewrite Nat.add_0_l in AU. rewrite AU.
  - unfold unroll. rewrite Nat.mod_0_l by lia. cbn [skipn firstn]. rewrite app_nil_r. unfold b0. rewrite initial_buf. reflexivity.
  - exact Hn.
  - unfold b0. rewrite initial_buf. apply initial_length.
Qed.
Lemma baseline_is_mean : forall np src nb ns evs p, (p < np)%nat ->
  let b := after (new_subtractor np src nb ns) evs in nth p (b_baseline b) 0%Qc = mean02 nb ns (b_buf b) p.
Proof.
  intros np src nb ns evs p Hp b. assert (BL : b_baseline b = map (mean02 nb ns (b_buf b)) (seq 0 np)).
  { unfold b, after. destruct evs as [|w evs _] using rev_ind; [reflexivity|]. rewrite fold_left_app. cbn [fold_left].
    rewrite baseline_step. destruct (after_fields evs (new_subtractor np src nb ns)) as (A & B & C & _). fold (after (new_subtractor np src nb ns) evs). rewrite A, B, C. reflexivity. }
  rewrite BL. rewrite nth_indep with (d' := mean02 nb ns (b_buf b) 0) by (rewrite map_length, seq_length; auto). rewrite map_nth, seq_nth by auto. reflexivity.
Qed.
Lemma qsum_concat : forall l, qsum (map qsum l) = qsum (concat l).
Proof. induction l as [|a l IH]; [reflexivity|]. cbn [map concat]. rewrite qsum_cons, qsum_app, IH. reflexivity. Qed.
Lemma head_row : forall ns p e, nth p (head ns e) [] = firstn ns (nth p e []).
Proof.
  intros ns p e. unfold head. revert p. induction e as [|r e IH]; intros [|p]; cbn [map nth]; auto.
  - now rewrite firstn_nil.
  - now rewrite firstn_nil.
  - apply list_ext. intro i. rewrite nth_error_pyslice, nth_error_firstn. unfold slice_bound. cases_ltb; auto. symmetry. apply nth_error_None. lia.
Qed.
(** The entries of the buffer for pixel [p]. *)
Definition entries (b : subtractor) (p : nat) : list Qc := concat (map (fun e => nth p e []) (b_buf b)).
Lemma buf_In : forall np src nb ns evs e, (0 < nb)%nat -> In e (b_buf (after (new_subtractor np src nb ns) evs)) ->
  e = zero_event np ns \/ exists w, In w (src ++ evs) /\ e = head ns w.
Proof.
  intros np src nb ns evs e Hn I. apply (Permutation_in _ (buf_perm np src nb ns evs Hn)) in I.
  assert (I2 : In e (initial_entries np nb ns src ++ map (head ns) evs)) by (rewrite <- (firstn_skipn (List.length evs)); apply in_or_app; now right).
  apply in_app_or in I2 as [I2|I2]; [unfold initial_entries in I2; apply in_app_or in I2 as [I2|I2]|].
  - apply in_map_iff in I2 as (w & <- & W). right. exists w. split; [|reflexivity]. apply in_or_app. left. rewrite <- (firstn_skipn nb src). apply in_or_app. now left.
  - apply repeat_spec in I2. now left.
  - apply in_map_iff in I2 as (w & <- & W). right. exists w. split; [|reflexivity]. apply in_or_app. now right.
Qed.
Lemma entries_In : forall np src nb ns evs p x, (0 < nb)%nat -> In x (entries (after (new_subtractor np src nb ns) evs) p) ->
  x = 0%Qc \/ exists w, In w (src ++ evs) /\ In x (firstn ns (nth p w [])).
Proof.
  intros np src nb ns evs p x Hn I. unfold entries in I. apply in_concat in I as (l & L & X). apply in_map_iff in L as (e & <- & E).
  destruct (buf_In _ _ _ _ _ _ Hn E) as [ ->|(w & W & ->)].
  - left. unfold zero_event in X. rewrite nth_of_error, nth_error_repeat in X. destruct (p <? np)%nat; [|destruct X]. now apply repeat_spec in X.
  - right. exists w. split; [exact W|]. now rewrite head_row in X.
Qed.
Lemma entries_length : forall np src nb ns evs p n, (0 < nb)%nat -> (p < np)%nat -> (ns <= n)%nat -> Forall (rect np n) (src ++ evs) ->
  List.length (entries (after (new_subtractor np src nb ns) evs) p) = (nb * ns)%nat.
Proof.
  intros np src nb ns evs p n Hn Hp Hs R. rewrite Forall_forall in R.
  assert (LB : List.length (b_buf (after (new_subtractor np src nb ns) evs)) = nb).
  { rewrite (Permutation_length (buf_perm np src nb ns evs Hn)), skipn_length, app_length, map_length, initial_length. lia. }
  assert (A : forall e, In e (b_buf (after (new_subtractor np src nb ns) evs)) -> List.length (nth p e []) = ns).
  { intros e E. destruct (buf_In _ _ _ _ _ _ Hn E) as [ ->|(w & W & ->)].
    - unfold zero_event. rewrite nth_of_error, nth_error_repeat. destruct (Nat.ltb_spec p np); [|lia]. apply repeat_length.
    - rewrite head_row, firstn_length. destruct (R w W) as [LW FW]. rewrite Forall_forall in FW. rewrite (FW (nth p w [])) by (apply nth_In; lia). lia. }
  unfold entries. revert LB A. generalize (b_buf (after (new_subtractor np src nb ns) evs)). intros buf <- A. clear -A. induction buf as [|e buf IH]; [reflexivity|].
  cbn [map concat List.length]. rewrite app_length, (A e (or_introl eq_refl)), IH; [lia|]. intros; apply A; now right.
Qed.
Lemma exact_baseline : forall np src nb ns evs p n, (0 < nb)%nat -> (p < np)%nat -> (ns <= n)%nat -> Forall (rect np n) (src ++ evs) ->
  let b := after (new_subtractor np src nb ns) evs in nth p (b_baseline b) 0%Qc = (qsum (entries b p) / qn (List.length (entries b p)))%Qc.
Proof.
  intros np src nb ns evs p n Hn Hp Hs R b. unfold b. rewrite baseline_is_mean by exact Hp. rewrite (entries_length np src nb ns evs p n) by assumption. unfold mean02, entries. f_equal.
  rewrite <- qsum_concat, map_map. reflexivity.
Qed.
Lemma bounded_sum : forall B l, (forall x, In x l -> Rabs (q2r x) <= B)%R -> (rsum (map (fun x => Rabs (q2r x)) l) <= INR (List.length l) * B)%R.
Proof. intros B l H. rewrite <- rsum_const. now apply rsum_le. Qed.

(** ** C91 *)
(** However long the run: the error depends on the number of averaged samples only. *)
Theorem C91_error : forall n_pixels n_samples source n_base n_base_samples evs p B v,
  (0 < n_base)%nat -> (0 < n_base_samples <= n_samples)%nat -> (p < n_pixels)%nat -> Forall (rect n_pixels n_samples) (source ++ evs) ->
  (0 <= B)%R -> (forall w x, In w (source ++ evs) -> In x (firstn n_base_samples (nth p w [])) -> Rabs (q2r x) <= B)%R ->
  let s := after (new_subtractor n_pixels source n_base n_base_samples) evs in
  fl_baseline s p v ->
  (Rabs (q2r v - q2r (nth p (b_baseline s) 0%Qc)) <= (g64 (n_base * n_base_samples) - 1) * (B + c64))%R.
Proof.
  intros np n src nb ns evs p B v Hn Hs Hp R B0 HB s V. unfold s. rewrite (exact_baseline np src nb ns evs p n) by (assumption || lia). fold s.
  assert (L : List.length (entries s p) = (nb * ns)%nat) by (unfold s; apply (entries_length np src nb ns evs p n); assumption || lia).
  assert (N0 : (0 < nb * ns)%nat) by (apply Nat.mul_pos_pos; lia).
  assert (NE : entries s p <> []) by (intros K; rewrite K in L; cbn in L; lia).
  eapply Rle_trans; [apply (mean_error 53 (-1074)); [lia|exact NE|exact V]|].
  change (concat (map (fun e : list (list Qc) => nth p e []) (b_buf s))) with (entries s p). rewrite L.
  apply Rmult_le_compat_l; [pose proof (growth_1 53 (nb * ns)); lra|]. apply Rplus_le_compat_r.
  assert (NR : (0 < INR (nb * ns))%R) by now apply lt_0_INR.
  apply Rmult_le_reg_r with (INR (nb * ns)); [exact NR|]. unfold Rdiv. rewrite Rmult_assoc, Rinv_l, Rmult_1_r by lra.
  eapply Rle_trans; [apply (bounded_sum B)|].
  - intros x X. destruct (entries_In np src nb ns evs p x Hn X) as [ ->|(w & W & WX)]; [rewrite q2r_0, Rabs_R0; exact B0|]. exact (HB w x W WX).
  - rewrite L. lra.
Qed.
Print Assumptions C91_error.

(** The defaults, 50 events of 16 samples: below 1.8e-13 of the largest sample. *)
Theorem C91_default : forall n_pixels n_samples source evs p B v,
  (16 <= n_samples)%nat -> (p < n_pixels)%nat -> Forall (rect n_pixels n_samples) (source ++ evs) ->
  (bpow radix2 (-1000) <= B)%R -> (forall w x, In w (source ++ evs) -> In x (firstn 16 (nth p w [])) -> Rabs (q2r x) <= B)%R ->
  let s := after (new_subtractor n_pixels source 50 16) evs in
  fl_baseline s p v -> (Rabs (q2r v - q2r (nth p (b_baseline s) 0%Qc)) <= B * (18 / 10 ^ 14))%R.
Proof.
  intros np n src evs p B v Hs Hp R HB0 HB s V. assert (B0 : (0 <= B)%R) by (pose proof (bpow_ge_0 radix2 (-1000)); lra).
  assert (H := C91_error np n src 50 16 evs p B v (ltac:(lia)) (ltac:(lia)) Hp R B0 HB V). fold s in H. eapply Rle_trans; [exact H|].
  change (50 * 16)%nat with 800%nat. assert (U : ulp1 53 = (/ 9007199254740992)%R) by (unfold ulp1; cbn; lra).
  assert (N : INR 800 = 800%R) by (rewrite INR_IZR_INZ; reflexivity).
  assert (G : (g64 800 - 1 <= 2 * (INR 800 * ulp1 53))%R) by (apply growth_small; rewrite U, N; lra). rewrite U, N in G.
  assert (C : (c64 <= B * / 1000000)%R).
  { apply Rle_trans with (bpow radix2 (-1000) * / 1000000)%R; [|apply Rmult_le_compat_r; [lra|exact HB0]]. apply Rle_trans with (bpow radix2 (-1000) * bpow radix2 (-20))%R.
    - rewrite <- bpow_plus. unfold normal_min. apply bpow_le. lia.
    - apply Rmult_le_compat_l; [apply bpow_ge_0|]. cbn. lra. }
  assert (GP := growth_1 53 800).
  apply Rle_trans with (2 * (800 * / 9007199254740992) * (B + B * / 1000000))%R; [apply Rmult_le_compat; try lra; pose proof (bpow_ge_0 radix2 (-1074 + 53 - 1)); unfold normal_min; lra|].
  replace (2 * (800 * / 9007199254740992) * (B + B * / 1000000))%R with (B * (2 * (800 * / 9007199254740992) * (1 + / 1000000)))%R by ring. apply Rmult_le_compat_l; [exact B0|]. lra.
Qed.
Print Assumptions C91_default.

(** No memory beyond the last n_base events: the possible values are the same whatever the source and the events before. *)
Theorem C91_no_drift : forall n_pixels n_base n_base_samples source1 source2 evs1 evs2 latest p v,
  (0 < n_base)%nat -> List.length latest = n_base ->
  fl_baseline (after (new_subtractor n_pixels source1 n_base n_base_samples) (evs1 ++ latest)) p v ->
  fl_baseline (after (new_subtractor n_pixels source2 n_base n_base_samples) (evs2 ++ latest)) p v.
Proof.
  assert (S : forall np nb ns src evs last, (0 < nb)%nat -> List.length last = nb ->
    Permutation (b_buf (after (new_subtractor np src nb ns) (evs ++ last))) (map (head ns) last)).
  { intros np nb ns src evs last Hn L. rewrite buf_perm by exact Hn. rewrite map_app, !app_length, app_assoc, skipn_app. rewrite app_length, initial_length, map_length.
    replace (List.length evs + List.length last - (nb + List.length evs))%nat with 0%nat by lia. rewrite skipn_all2 by (rewrite app_length, initial_length, map_length; lia). reflexivity. }
  intros np nb ns s1 s2 e1 e2 last p v Hn L V. unfold fl_baseline in *.
  assert (PM : Permutation (b_buf (after (new_subtractor np s1 nb ns) (e1 ++ last))) (b_buf (after (new_subtractor np s2 nb ns) (e2 ++ last)))) by (rewrite S by assumption; symmetry; now apply S).
  apply (Permutation_map (fun e => nth p e [])) in PM.
  assert (PC : forall A (l1 l2 : list (list A)), Permutation l1 l2 -> Permutation (concat l1) (concat l2)).
  { clear. intros A l1 l2. induction 1; cbn [concat]; auto.
    - now apply Permutation_app_head.
    - rewrite !app_assoc. apply Permutation_app_tail, Permutation_app_comm.
    - etransitivity; eauto. }
  apply PC in PM. destruct V as (s & [[E ->]|(t & T & ->)] & ->).
  - exists 0%Qc. split; [left; split; [|reflexivity]; rewrite E in PM; now apply Permutation_nil|]. now rewrite (Permutation_length PM).
  - eexists. split; [right; exists t; split; [etransitivity; eauto|reflexivity]|]. now rewrite (Permutation_length PM).
Qed.
Print Assumptions C91_no_drift.

(** Samples on a grid of step 2^e: no addition rounds, the baseline is the exact mean rounded once, whatever the order. *)
Theorem C91_exact : forall n_pixels n_samples source n_base n_base_samples evs p e B v,
  (0 < n_base)%nat -> (0 < n_base_samples <= n_samples)%nat -> (p < n_pixels)%nat -> Forall (rect n_pixels n_samples) (source ++ evs) ->
  (-1074 <= e)%Z -> (0 <= B)%R -> (INR (n_base * n_base_samples) * B <= bpow radix2 (53 + e))%R ->
  (forall w x, In w (source ++ evs) -> In x (firstn n_base_samples (nth p w [])) -> (Rabs (q2r x) <= B)%R /\ exists z, x = (qz z * two e)%Qc) ->
  let s := after (new_subtractor n_pixels source n_base n_base_samples) evs in
  fl_baseline s p v -> v = fl64 (nth p (b_baseline s) 0%Qc).
Proof.
  intros np n src nb ns evs p e B v Hn Hs Hp R E B0 NB HB s V. unfold s. rewrite (exact_baseline np src nb ns evs p n) by (assumption || lia). fold s.
  assert (L : List.length (entries s p) = (nb * ns)%nat) by (unfold s; apply (entries_length np src nb ns evs p n); assumption || lia).
  destruct V as (t & T & ->). change (concat (map (fun e0 : list (list Qc) => nth p e0 []) (b_buf s))) with (entries s p) in *. f_equal. f_equal.
  apply (sum_exact 53 (-1074) (ltac:(lia)) e (entries s p) t E); [| |exact T].
  - intros x X. destruct (entries_In np src nb ns evs p x Hn X) as [ ->|(w & W & WX)]; [exists 0%Z; change (qz 0) with 0%Qc; ring|]. exact (proj2 (HB w x W WX)).
  - eapply Rle_trans; [apply (bounded_sum B)|].
    + intros x X. destruct (entries_In np src nb ns evs p x Hn X) as [ ->|(w & W & WX)]; [rewrite q2r_0, Rabs_R0; exact B0|]. exact (proj1 (HB w x W WX)).
    + rewrite L. exact NB.
Qed.
Print Assumptions C91_exact.

(** Raw waveforms (uint16): with up to 2^37 averaged samples. *)
Theorem C91_raw_exact : forall n_pixels n_samples source n_base n_base_samples evs p v,
  (0 < n_base)%nat -> (0 < n_base_samples <= n_samples)%nat -> (p < n_pixels)%nat -> Forall (rect n_pixels n_samples) (source ++ evs) ->
  (Z.of_nat (n_base * n_base_samples) <= 2 ^ 37)%Z ->
  (forall w x, In w (source ++ evs) -> In x (nth p w []) -> exists z, (0 <= z < 65536)%Z /\ x = qz z) ->
  let s := after (new_subtractor n_pixels source n_base n_base_samples) evs in
  fl_baseline s p v -> v = fl64 (nth p (b_baseline s) 0%Qc).
Proof.
  intros np n src nb ns evs p v Hn Hs Hp R N37 HZ s V.
  apply (C91_exact np n src nb ns evs p 0 65536 v); [exact Hn|exact Hs|exact Hp|exact R|lia|lra| |intros w x W X|exact V].
  - apply IZR_le in N37. rewrite <- INR_IZR_INZ in N37. cbn in N37. cbn. lra.
  - assert (WX : In x (nth p w [])) by (rewrite <- (firstn_skipn ns); apply in_or_app; now left). destruct (HZ w x W WX) as (z & Z & ->). split.
    + rewrite q2r_qz. rewrite Rabs_pos_eq by (apply IZR_le; lia). apply IZR_le. lia.
    + exists z. change (two 0) with 1%Qc. ring.
Qed.
Print Assumptions C91_raw_exact.

(** The subtracted samples. *)
Theorem C91_subtract : forall n_pixels n_samples source n_base n_base_samples evs w s' out p j B,
  (0 < n_base)%nat -> (0 < n_base_samples <= n_samples)%nat -> (p < n_pixels)%nat -> (j < n_samples)%nat -> Forall (rect n_pixels n_samples) (source ++ evs ++ [w]) ->
  (0 <= B)%R -> (forall e x, In e (source ++ evs ++ [w]) -> In x (nth p e []) -> Rabs (q2r x) <= B)%R ->
  let s := after (new_subtractor n_pixels source n_base n_base_samples) evs in
  fl_subtract s w s' out ->
  (Rabs (q2r (nth j (nth p out []) 0%Qc) - q2r (nth j (nth p (snd (subtract s w)) []) 0%Qc)) <= (g64 (n_base * n_base_samples + 1) - 1) * (2 * B + 2 * c64))%R.
Proof.
  intros np n src nb ns evs w s' out p j B Hn Hs Hp Hj R B0 HB s (ES & bl & LB & VB & ->).
  assert (PX : b_pixels s = np) by (unfold s; destruct (after_fields evs (new_subtractor np src nb ns)) as (_ & _ & C & _); rewrite C; reflexivity). rewrite PX in *.
  assert (ES' : s' = after (new_subtractor np src nb ns) (evs ++ [w])) by (rewrite ES; unfold after; rewrite fold_left_app; reflexivity).
  assert (RW : rect np n w) by (rewrite Forall_forall in R; apply R; apply in_or_app; right; apply in_or_app; right; now left). 
  assert (SX : nth j (nth p (snd (subtract s w)) []) 0%Qc = (nth j (nth p w []) 0 - nth p (b_baseline s') 0)%Qc).
  { cbn [subtract snd]. change (snd (subtract s w)) with (minus_baseline w (b_baseline (update_baseline s w))). rewrite <- ES. apply (minus_baseline_nth w _ np n); auto.
    rewrite ES'. apply baseline_length. cbn. now rewrite map_length, seq_length. }
  assert (FX : nth j (nth p (fl_minus w bl) []) 0%Qc = fl64 (nth j (nth p w []) 0 - nth p bl 0)%Qc).
  { destruct RW as [LW FW]. unfold fl_minus. rewrite nth_of_error with (i := p), nth_error_map, nth_error_combine.
    rewrite nth_error_nth' with (d := []) by lia. rewrite nth_error_nth' with (d := 0%Qc) by lia. cbn [option_map fst snd].
    rewrite nth_of_error, nth_error_map. rewrite Forall_forall in FW. rewrite nth_error_nth' with (d := 0%Qc) by (rewrite (FW (nth p w [])); [lia|apply nth_In; lia]). reflexivity. }
  rewrite SX, FX. set (x := nth j (nth p w []) 0%Qc). set (v := nth p bl 0%Qc). set (b := nth p (b_baseline s') 0%Qc).
  assert (V : fl_baseline s' p v) by (apply VB; exact Hp).
  assert (XB : (Rabs (q2r x) <= B)%R).
  { apply (HB w); [apply in_or_app; right; apply in_or_app; right; now left|]. unfold x. apply nth_In. destruct RW as [LW FW]. rewrite Forall_forall in FW. rewrite (FW (nth p w [])); [exact Hj|apply nth_In; lia]. }
  assert (E : (Rabs (q2r v - q2r b) <= (g64 (nb * ns) - 1) * (B + c64))%R).
  { unfold b. rewrite ES' in *. apply (C91_error np n); auto. intros e y I Y. apply (HB e); [exact I|]. rewrite <- (firstn_skipn ns). apply in_or_app. now left. }
  assert (BB : (Rabs (q2r b) <= B)%R).
  { unfold b. rewrite ES'. rewrite (exact_baseline np src nb ns (evs ++ [w]) p n) by (assumption || lia).
    set (s2 := after (new_subtractor np src nb ns) (evs ++ [w])). assert (L : List.length (entries s2 p) = (nb * ns)%nat) by (unfold s2; apply (entries_length np src nb ns (evs ++ [w]) p n); assumption || lia).
    assert (N0 : (0 < nb * ns)%nat) by (apply Nat.mul_pos_pos; lia). rewrite L. assert (NR : (0 < INR (nb * ns))%R) by now apply lt_0_INR.
    assert (QN : qn (nb * ns) <> 0%Qc) by (intro K; pose proof (q2r_qn (nb * ns)) as Q; rewrite K, q2r_0 in Q; lra).
    rewrite q2r_div by exact QN. rewrite q2r_qn. unfold Rdiv. rewrite Rabs_mult, (Rabs_pos_eq (/ INR (nb * ns))) by (left; now apply Rinv_0_lt_compat).
    apply Rmult_le_reg_r with (INR (nb * ns)); [exact NR|]. rewrite Rmult_assoc, Rinv_l, Rmult_1_r by lra. rewrite q2r_qsum. eapply Rle_trans; [apply rsum_abs|]. rewrite map_map.
    eapply Rle_trans; [apply (bounded_sum B)|rewrite L; lra].
    intros y Y. destruct (entries_In np src nb ns (evs ++ [w]) p y Hn Y) as [ ->|(e & I & IY)]; [rewrite q2r_0, Rabs_R0; exact B0|]. apply (HB e); [exact I|]. rewrite <- (firstn_skipn ns). apply in_or_app. now left. }
  pose proof (fl_error' 53 (-1074) (ltac:(lia)) (x - v)%Qc) as F. rewrite q2r_minus in F. change (fl 53 (-1074)) with fl64 in F.
  rewrite q2r_minus. pose proof (bpow_gt_0 radix2 (-53)) as U. change (bpow radix2 (-53)) with (ulp1 53) in U. pose proof (bpow_gt_0 radix2 (-1074 + 53 - 1)) as C. change (bpow radix2 (-1074 + 53 - 1)) with c64 in C.
  replace (nb * ns + 1)%nat with (S (nb * ns)) by lia. rewrite growth_S. set (g := g64 (nb * ns)) in *. assert (G1 : (1 <= g)%R) by apply growth_1.
  set (u := ulp1 53) in *. set (c := c64) in *.
  replace (q2r (fl64 (x - v)%Qc) - (q2r x - q2r b))%R with ((q2r (fl64 (x - v)%Qc) - (q2r x - q2r v)) + - (q2r v - q2r b))%R by lra.
  eapply Rle_trans; [apply Rabs_triang|]. rewrite Rabs_Ropp.
  assert (A : (Rabs (q2r x - q2r v) <= 2 * B + (g - 1) * (B + c))%R).
  { replace (q2r x - q2r v)%R with (q2r x + - q2r b + - (q2r v - q2r b))%R by lra. eapply Rle_trans; [apply Rabs_triang|]. rewrite Rabs_Ropp. pose proof (Rabs_triang (q2r x) (- q2r b)) as T. rewrite Rabs_Ropp in T. lra. }
  assert (M : (u * (Rabs (q2r x - q2r v) + c) <= u * (2 * B + (g - 1) * (B + c) + c))%R) by (apply Rmult_le_compat_l; lra).
  assert (GB : (0 <= (g - 1) * (B + c))%R) by (apply Rmult_le_pos; lra). assert (UB : (0 <= u * ((g - 1) * (B + c)))%R) by (apply Rmult_le_pos; lra). assert (UC : (0 <= u * c)%R) by (apply Rmult_le_pos; lra).
  replace (((1 + u) * g - 1) * (2 * B + 2 * c))%R with (u * (2 * B + (g - 1) * (B + c) + c) + u * ((g - 1) * (B + c)) + u * c + 2 * ((g - 1) * (B + c)))%R by ring. lra.
Qed.
Print Assumptions C91_subtract.

(** One event of three samples 0.1, 0.2, 0.3 (as doubles): the two orders of addition differ in the last bit, both are within the bound. *)
Definition tenth (k : Z) : Qc := fl64 (qz k / qz 10)%Qc.
Example C91_ex_order : let a := tree_sum fl64 (Node (Node (Leaf (tenth 1)) (Leaf (tenth 2))) (Leaf (tenth 3))) in
  let b := tree_sum fl64 (Node (Leaf (tenth 1)) (Node (Leaf (tenth 2)) (Leaf (tenth 3)))) in
  Qeq_bool (this (a - b)%Qc) (this (two (-53))) = true.
Proof. vm_compute. reflexivity. Qed.
(** Raw samples 1000, 1001, 1003: the mean 3004/3 rounded once. *)
Example C91_ex_raw : let s := after (new_subtractor 1 [[[qz 1000; qz 1001; qz 1003]]] 1 3) [[[qz 1000; qz 1001; qz 1003]]] in
  fl_baseline s 0 (fl64 (qz 3004 / qz 3)%Qc) /\ Qeq_bool (this (fl64 (qz 3004 / qz 3)%Qc)) (this (qz 8807821146237611 * two (-43))%Qc) = true.
Proof.
  intros s. split; [|vm_compute; reflexivity]. exists (qz 3004). split; [right|reflexivity]. exists (Node (Node (Leaf (qz 1000)) (Leaf (qz 1001))) (Leaf (qz 1003))). split.
  - apply Permutation_refl.
  - apply Qc_is_canon. apply Qeq_bool_iff. vm_compute. reflexivity.
Qed.
