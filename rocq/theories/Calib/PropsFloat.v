(** Property C95: the time correction in floating point.

    [fl64], [fl32]: rounding to double and single precision (Base/Fl.v); [q2r]: the real number; [interpolated w x y] (C49):
    [y] is the value at [x] of the lines through the samples [w]. *)
From Coq Require Import List ZArith QArith Qcanon Bool Arith Lia Reals.
From Flocq Require Import Core.
From Verif.Base Require Import Py PyFacts Num Lst Fl FlFacts.
From Verif.Calib Require Import Model Proofs ModelFloat.
From Coq Require Import Lra.
Import ListNotations.
Local Open Scope list_scope.
Local Open Scope Qc_scope.

(** The two compiled versions. *)
Inductive version := Double | Single.
Definition rnd (v : version) : Qc -> Qc := match v with Double => fl64 | Single => fl32 end.
Definition unit_of (v : version) : R := match v with Double => bpow radix2 (-53) | Single => bpow radix2 (-24) end.
Definition tiny_of (v : version) : R := match v with Double => bpow radix2 (-1075) | Single => bpow radix2 (-150) end.

(** ** Exact operations *)
Lemma format_of : forall x, fl64 x = x -> generic_format radix2 (FLT_exp (-1074) 53) (q2r x).
Proof. intros x E. rewrite <- E. unfold fl64. rewrite fl_round. apply generic_format_round; [apply FLT_exp_valid; unfold Prec_gt_0; lia|apply valid_rnd_N]. Qed.
Lemma frac_exact : forall x z, fl64 x = x -> (0 <= z)%Z -> qz z <= x -> (q2r x < bpow radix2 53)%R -> fl64 (x - qz z) = x - qz z.
Proof.
  intros x z F Z L B. unfold fl64; apply (fl_format 53 (-1074)); try lia. apply format_of in F. apply FLT_format_generic in F; [|unfold Prec_gt_0; lia]. destruct F as [[m e] E M EM]. cbn [Fnum Fexp] in *.
  apply q2r_le in L. rewrite q2r_qz in L. rewrite q2r_minus, q2r_qz. apply IZR_le in Z. 
  destruct (Z.le_gt_cases 0 e) as [P|N].
  - apply generic_format_FLT. assert (X : q2r x = IZR (m * 2 ^ e)) by (rewrite E; unfold F2R; cbn [Fnum Fexp]; rewrite mult_IZR, <- (IZR_Zpower radix2) by exact P; reflexivity).
    exists (Float radix2 (m * 2 ^ e - z) 0); cbn [Fnum Fexp]; [unfold F2R; cbn [Fnum Fexp bpow]; rewrite minus_IZR, X; ring| |lia].
    rewrite X in *. apply le_IZR in L. apply le_IZR in Z. change (bpow radix2 53) with (IZR (2 ^ 53)) in B. apply lt_IZR in B. change (radix_val radix2 ^ 53)%Z with (2 ^ 53)%Z. lia.
  - apply generic_format_FLT. exists (Float radix2 (m - z * 2 ^ (- e)) e); cbn [Fnum Fexp]; [| |exact EM].
    + unfold F2R. cbn [Fnum Fexp]. rewrite E. unfold F2R. cbn [Fnum Fexp]. rewrite minus_IZR, mult_IZR. change (2 ^ (- e))%Z with (radix_val radix2 ^ (- e))%Z. rewrite (IZR_Zpower radix2) by lia.
      rewrite Rmult_minus_distr_r, Rmult_assoc, <- bpow_plus. replace (- e + e)%Z with 0%Z by lia. cbn [bpow]. ring.
    + assert (MZ : (0 <= m - z * 2 ^ (- e) <= m)%Z); [|change (radix_val radix2 ^ 53)%Z with (2 ^ 53)%Z in *; lia]. split.
      * rewrite E in L. unfold F2R in L. cbn [Fnum Fexp] in L. assert (IZR (z * 2 ^ (- e)) <= IZR m)%R; [|apply le_IZR in H; lia]. rewrite mult_IZR. change (2 ^ (- e))%Z with (radix_val radix2 ^ (- e))%Z. rewrite (IZR_Zpower radix2) by lia.
        apply Rmult_le_reg_r with (bpow radix2 e); [apply bpow_gt_0|]. rewrite Rmult_assoc, <- bpow_plus. replace (- e + e)%Z with 0%Z by lia. cbn [bpow]. lra.
      * apply le_IZR in Z. assert (0 <= z * 2 ^ (- e))%Z by (apply Z.mul_nonneg_nonneg; [exact Z|apply Z.pow_nonneg; lia]). lia.
Qed.
Lemma fl64_idem : forall x, fl64 (fl64 x) = fl64 x. Proof. intros. apply fl_idem. lia. Qed.
Lemma fl64_nat : forall k, (Z.of_nat k < 2 ^ 53)%Z -> fl64 (qn k) = qn k.
Proof. intros k K. change (qn k) with (qz (Z.of_nat k)). apply fl_int; lia. Qed.
Lemma fl64_le : forall a b, a <= b -> fl64 a <= fl64 b. Proof. intros a b H. apply q2r_le. apply fl_le; [lia|]. now apply q2r_le. Qed.
Lemma rnd_le : forall v a b, a <= b -> rnd v a <= rnd v b. Proof. intros [|] a b H; apply q2r_le; apply fl_le; try lia; now apply q2r_le. Qed.
Lemma rnd_64 : forall v a, rnd v a = a -> fl64 a = a.
Proof.
  intros [|] a E; [exact E|]. cbn in E. unfold fl64. apply (fl_format 53 (-1074)). rewrite <- E. unfold fl32. rewrite fl_round. set (r := round _ _ _ _).
  assert (G : generic_format radix2 (FLT_exp (-149) 24) r) by (apply generic_format_round; [apply FLT_exp_valid; unfold Prec_gt_0; lia|apply valid_rnd_N]).
  apply FLT_format_generic in G; [|unfold Prec_gt_0; lia]. destruct G as [f F1 F2 F3]. apply generic_format_FLT. exists f; [exact F1| |lia]. eapply Z.lt_le_trans; [exact F2|]. discriminate.
Qed.

Lemma q_le_true : forall a b : Qc, Qle_bool (this a) (this b) = true -> a <= b. Proof. intros a b H. unfold Qcle. now apply Qle_bool_iff. Qed.

(** ** One sample *)
Lemma floor_nat : forall x k, qn k < x -> x < qn (S k) -> qfloor x = Z.of_nat k /\ qceil x = Z.of_nat (S k).
Proof.
  intros x k A B. change (qn k) with (qz (Z.of_nat k)) in *. change (qn (S k)) with (qz (Z.of_nat (S k))) in *. replace (Z.of_nat (S k)) with (Z.of_nat k + 1)%Z in * by lia. split.
  - apply qfloor_unique; [now apply Qclt_le_weak|exact B].
  - apply qceil_unique; [now apply Qclt_le_weak|]. now replace (Z.of_nat k + 1 - 1)%Z with (Z.of_nat k) by lia.
Qed.
Lemma fl_mid : forall v w c i k, (S k < List.length w)%nat -> (Z.of_nat (List.length w) <= 2 ^ 53)%Z -> qn k < fl64 (qn i - c) -> fl64 (qn i - c) < qn (S k) ->
  fl_t_cor_sample (rnd v) w c i = Ok (rnd v (fl64 (nth k w 0 + fl64 (rnd v (nth (S k) w 0 - nth k w 0) * (fl64 (qn i - c) - qn k))))).
Proof.
  intros v w c i k K N A B. unfold fl_t_cor_sample. cbv zeta. set (x := fl64 (qn i - c)) in *. destruct (floor_nat x k A B) as [-> ->].
  rewrite (proj2 (Z.ltb_ge _ _)) by lia. rewrite (proj2 (Z.leb_gt _ _)) by lia. rewrite !Nat2Z.id. replace (Z.of_nat (S k) - Z.of_nat k)%Z with 1%Z by lia. cbn [Z.eqb]. do 4 f_equal.
  rewrite frac_exact; [| |lia| |].
  - change (qz (Z.of_nat k)) with (qn k). set (p := fl64 (rnd v _ * _)). replace (p / qz 1) with p; [apply fl64_idem|]. change (qz 1) with 1. field. discriminate.
  - apply fl64_idem.
  - apply Qclt_le_weak. exact A.
  - apply Rlt_le_trans with (q2r (qn (S k))); [now apply q2r_lt|]. rewrite q2r_qn, INR_IZR_INZ. change (bpow radix2 53) with (IZR (2 ^ 53)). apply IZR_le. lia.
Qed.
Lemma fl_raise : forall f w c i k, (k < List.length w)%nat -> fl64 (qn i - c) = qn k -> fl_t_cor_sample f w c i = Raise ZeroDivisionError.
Proof.
  intros f w c i k K E. unfold fl_t_cor_sample. cbv zeta. rewrite E. change (qn k) with (qz (Z.of_nat k)).
  assert (F : qfloor (qz (Z.of_nat k)) = Z.of_nat k) by (apply qfloor_unique; [apply Qcle_refl|]; apply q2r_lt; rewrite !q2r_qz; apply IZR_lt; lia).
  assert (G : qceil (qz (Z.of_nat k)) = Z.of_nat k) by (apply qceil_unique; [apply Qcle_refl|]; apply q2r_lt; rewrite !q2r_qz; apply IZR_lt; lia).
  rewrite F, G. rewrite (proj2 (Z.ltb_ge _ _)) by lia. rewrite (proj2 (Z.leb_gt _ _)) by lia. rewrite Z.sub_diag. reflexivity.
Qed.
Lemma fl_no_raise : forall f w c i, (2 <= List.length w)%nat -> (forall k, (k < List.length w)%nat -> fl64 (qn i - c) <> qn k) -> exists y, fl_t_cor_sample f w c i = Ok y.
Proof.
  intros f w c i L N. unfold fl_t_cor_sample. cbv zeta. set (x := fl64 (qn i - c)) in *. destruct (Z.ltb_spec (qfloor x) 0) as [H|H]; [eexists; reflexivity|]. destruct (Z.leb_spec (Z.of_nat (List.length w)) (qceil x)) as [G|G].
  - replace (Z.of_nat (List.length w) - 1 - (Z.of_nat (List.length w) - 2))%Z with 1%Z by lia. eexists. reflexivity.
  - destruct (Z.eqb_spec (qceil x - qfloor x) 0) as [Q|Q]; [|eexists; reflexivity]. exfalso. apply (N (Z.to_nat (qfloor x))); [lia|]. change (x = qz (Z.of_nat (Z.to_nat (qfloor x)))). rewrite Z2Nat.id by lia.
    destruct (qfloor_spec x) as [F _], (qceil_spec x) as [C _]. replace (qceil x) with (qfloor x) in C by lia. now apply Qcle_antisym.
Qed.

(** The correction of a pixel raises exactly if some rounded position is the number of a sample. *)
Theorem C95_raises : forall v w c, (2 <= List.length w)%nat ->
  (fl_t_cor_pixel (rnd v) w c = Raise ZeroDivisionError <-> exists i k, (i < List.length w)%nat /\ (k < List.length w)%nat /\ fl64 (qn i - c) = qn k) /\
  (fl_t_cor_pixel (rnd v) w c = Raise ZeroDivisionError \/ exists out, fl_t_cor_pixel (rnd v) w c = Ok out).
Proof.
  intros v w c L. assert (D : forall i, fl_t_cor_sample (rnd v) w c i = Raise ZeroDivisionError \/ exists y, fl_t_cor_sample (rnd v) w c i = Ok y).
  { intros i. unfold fl_t_cor_sample. cbv zeta. destruct (if (qfloor _ <? 0)%Z then _ else _) as [x1 x2]. destruct (x2 - x1 =? 0)%Z; eauto. }
  assert (X : (exists i k, (i < List.length w)%nat /\ (k < List.length w)%nat /\ fl64 (qn i - c) = qn k) \/ (forall i k, (i < List.length w)%nat -> (k < List.length w)%nat -> fl64 (qn i - c) <> qn k)).
  { set (n := List.length w). destruct (existsb (fun i => existsb (fun k => qeqb (fl64 (qn i - c)) (qn k)) (seq 0 n)) (seq 0 n)) eqn:E.
    - left. apply existsb_exists in E as (i & I & E). apply existsb_exists in E as (k & K & E). apply in_seq in I, K. exists i, k. repeat split; try lia. now destruct (qeqb_spec (fl64 (qn i - c)) (qn k)).
    - right. intros i k I K Q. assert (T : existsb (fun i => existsb (fun k => qeqb (fl64 (qn i - c)) (qn k)) (seq 0 n)) (seq 0 n) = true); [|congruence].
      apply existsb_exists. exists i. split; [apply in_seq; lia|]. apply existsb_exists. exists k. split; [apply in_seq; lia|]. now destruct (qeqb_spec (fl64 (qn i - c)) (qn k)). }
  assert (R1 : (exists i k, (i < List.length w)%nat /\ (k < List.length w)%nat /\ fl64 (qn i - c) = qn k) -> fl_t_cor_pixel (rnd v) w c = Raise ZeroDivisionError).
  { intros (i & k & I & K & E). apply (mapM_raise _ _ _ _ i); [apply in_seq; lia|now apply (fl_raise _ w c i k)|]. intros; apply D. }
  assert (R2 : (forall i k, (i < List.length w)%nat -> (k < List.length w)%nat -> fl64 (qn i - c) <> qn k) -> exists out, fl_t_cor_pixel (rnd v) w c = Ok out).
  { intros N. apply mapM_ok_all. intros i I. apply in_seq in I. apply fl_no_raise; [exact L|]. intros k K. apply N; lia. }
  split; [split; [|exact R1]|destruct X; auto]. intros E. destruct X as [X|X]; [exact X|]. destruct (R2 X) as [out O]. congruence.
Qed.
Print Assumptions C95_raises.

(** Corrections up to 2^-54 of a sample are rounded away and raise, as the correction 0 does. *)
Theorem C95_tiny : forall v w c, (2 <= List.length w)%nat -> (Rabs (q2r c) <= bpow radix2 (-54))%R -> fl_t_cor_pixel (rnd v) w c = Raise ZeroDivisionError.
Proof.
  intros v w c L C. apply (proj1 (C95_raises v w c L)). exists 1%nat, 1%nat. split; [lia|]. split; [lia|]. 
  assert (B : forall d, (Rabs d <= bpow radix2 (-54))%R -> (1 - bpow radix2 (-54) <= 1 - d <= 1 + bpow radix2 (-53))%R).
  { intros d D. apply Rabs_le_inv in D. assert (bpow radix2 (-54) <= bpow radix2 (-53))%R by (apply bpow_le; lia). lra. }
  specialize (B _ C). change (qn 1) with 1. apply Qcle_antisym.
  - apply Qcle_trans with (fl64 (1 + two (-53))); [|apply q_le_true; vm_compute; reflexivity].
    apply fl64_le. apply q2r_le. rewrite q2r_minus, q2r_plus, q2r_1, q2r_two. lra.
  - apply Qcle_trans with (fl64 (1 - two (-54))); [apply q_le_true; vm_compute; reflexivity|].
    apply fl64_le. apply q2r_le. rewrite !q2r_minus, q2r_1, q2r_two. lra.
Qed.
Print Assumptions C95_tiny.

(** The promise that the correction fails only for whole numbers of samples (C49) fails in floating point. *)
Theorem C95_refuted : ~ (forall v w c, (2 <= List.length w)%nat -> ~ integer c -> exists out, fl_t_cor_pixel (rnd v) w c = Ok out).
Proof.
  intros H. destruct (H Double [0; 1] (two (-60))) as [out E]; [cbn; lia| |].
  - intros [z Z]. apply (f_equal q2r) in Z. rewrite q2r_two, q2r_qz in Z. assert (A : (IZR 0 < IZR z < IZR 1)%R); [|destruct A as [A1 A2]; apply lt_IZR in A1; apply lt_IZR in A2; lia].
    rewrite <- Z. split; [apply bpow_gt_0|]. change 1%R with (bpow radix2 0). apply bpow_lt. lia.
  - rewrite C95_tiny in E; [discriminate|cbn; lia|]. rewrite q2r_two, Rabs_pos_eq by apply bpow_ge_0. apply bpow_le. lia.
Qed.
Print Assumptions C95_refuted.

(** ** The value of a sample *)
Lemma apply_nth : forall f ws cs outs p w c i, fl_apply_t_cor f ws cs = Ok outs -> nth_error ws p = Some w -> nth_error cs p = Some c -> (i < List.length w)%nat ->
  fl_t_cor_sample f w c i = Ok (nth i (nth p outs []) 0).
Proof.
  intros f ws cs outs p w c i E W C I. assert (Z : nth_error (combine ws cs) p = Some (w, c)).
  { clear E. revert cs p W C. induction ws as [|a ws IH]; intros [|b cs] [|p] W C; cbn in *; try discriminate; [injection W as <-; injection C as <-; reflexivity|now apply IH]. }
  destruct (mapM_nth _ _ _ _ _ _ _ E Z) as (o & O & N). cbn in O. rewrite (nth_error_nth _ _ _ N). 
  destruct (mapM_nth _ _ _ _ _ i i O) as (y & Y & M); [rewrite nth_error_seq; now apply Nat.ltb_lt in I as ->|]. now rewrite (nth_error_nth _ _ _ M).
Qed.
(** The cell of the position: rounding does not leave it. *)
Lemma cell : forall f w c i y, (2 <= List.length w)%nat -> (Z.of_nat (List.length w) <= 2 ^ 53)%Z -> 0 <= qn i - c -> qn i - c <= qn (List.length w - 1) -> fl_t_cor_sample f w c i = Ok y ->
  exists k, (S k < List.length w)%nat /\ (qn k < fl64 (qn i - c) /\ fl64 (qn i - c) < qn (S k)) /\ (qn k < qn i - c /\ qn i - c < qn (S k)).
Proof.
  intros f w c i y L B A Z E. set (x := fl64 (qn i - c)). destruct (position (List.length w) x L) as [H|[H|[(k & K & H1 & H2)|(k & K & H)]]].
  - exfalso. apply fl64_le in A. replace (fl64 0) with 0 in A by (symmetry; apply Qc_is_canon, Qeq_bool_iff; vm_compute; reflexivity). exact (Qclt_not_le _ _ H A).
  - exfalso. apply fl64_le in Z. rewrite fl64_nat in Z by lia. apply (Qclt_not_le _ _ H). unfold qn in Z. now replace (Z.of_nat (List.length w) - 1)%Z with (Z.of_nat (List.length w - 1)) by lia.
  - exists k. split; [exact K|]. split; [now split|]. split; apply Qcnot_le_lt; intros C; apply fl64_le in C; rewrite fl64_nat in C by lia.
    + exact (Qclt_not_le _ _ H1 C).
    + exact (Qclt_not_le _ _ H2 C).
  - rewrite (fl_raise f w c i k K H) in E. discriminate.
Qed.
Lemma err64 : forall q, (Rabs (q2r (fl64 q) - q2r q) <= bpow radix2 (-53) * Rabs (q2r q) + bpow radix2 (-1075))%R.
Proof. intros. exact (fl_error 53 (-1074) ltac:(lia) q). Qed.
Lemma err_rnd : forall v q, (Rabs (q2r (rnd v q) - q2r q) <= unit_of v * Rabs (q2r q) + tiny_of v)%R.
Proof. intros [|] q; [exact (fl_error 53 (-1074) ltac:(lia) q)|exact (fl_error 24 (-149) ltac:(lia) q)]. Qed.
Lemma units : forall v, (0 < bpow radix2 (-53) <= unit_of v)%R /\ (unit_of v <= / 4096)%R /\ (0 < bpow radix2 (-1075) <= tiny_of v)%R.
Proof.
  intros v. assert (E : (/ 4096 = bpow radix2 (-12))%R) by reflexivity. rewrite E. destruct v; cbn [unit_of tiny_of]; repeat split; try apply bpow_gt_0; try apply Rle_refl; apply bpow_le; lia.
Qed.
(** Rounded combination of two samples *)
Lemma combine_error : forall v B y1 y2 t, (Rabs (q2r y1) <= B)%R -> (Rabs (q2r y2) <= B)%R -> (0 <= q2r t <= 1)%R ->
  (Rabs (q2r (rnd v (fl64 (y1 + fl64 (rnd v (y2 - y1) * t))))%Qc - q2r (y1 + (y2 - y1) * t)%Qc) <= 6 * unit_of v * B + 6 * tiny_of v)%R.
Proof.
  intros v B y1 y2 t B1 B2 T. destruct (units v) as ((U0 & U1) & U2 & T0 & T1). set (d := rnd v (y2 - y1)). set (p := fl64 (d * t)). set (s := fl64 (y1 + p)).
  pose proof (err_rnd v (y2 - y1)) as E1. fold d in E1. pose proof (err64 (d * t)) as E2. fold p in E2. pose proof (err64 (y1 + p)) as E3. fold s in E3. pose proof (err_rnd v s) as E4.
  assert (E5 : match v with Double => rnd v s = s | Single => (bpow radix2 (-53) <= unit_of v / 4096 /\ bpow radix2 (-1075) <= tiny_of v / 4096)%R end).
  { destruct v; [apply fl64_idem|]. cbn [unit_of tiny_of]. assert (E : (/ 4096 = bpow radix2 (-12))%R) by reflexivity. unfold Rdiv. rewrite E, <- !bpow_plus. split; apply bpow_le; lia. }
  rewrite !q2r_plus, !q2r_mult, !q2r_minus in *. 
  set (u := bpow radix2 (-53)) in *. set (n := bpow radix2 (-1075)) in *. set (us := unit_of v) in *. set (ts := tiny_of v) in *.
  set (a := q2r y1) in *. set (b := q2r y2) in *. set (x := q2r t) in *. set (dr := q2r d) in *. set (pr := q2r p) in *. set (sr := q2r s) in *. set (o := q2r (rnd v s)) in *.
  assert (B0 : (0 <= B)%R) by (eapply Rle_trans; [apply Rabs_pos|exact B1]).
  assert (C : (Rabs (a + (b - a) * x) <= B)%R).
  { apply Rabs_le. apply Rabs_le_inv in B1, B2. split; nra. }
  assert (D : (Rabs (b - a) <= 2 * B)%R) by (apply Rabs_le; apply Rabs_le_inv in B1, B2; lra).
  assert (F1 : (Rabs (dr - (b - a)) <= us * (2 * B) + ts)%R) by (eapply Rle_trans; [exact E1|]; apply Rplus_le_compat_r, Rmult_le_compat_l; lra).
  set (e1 := (us * (2 * B) + ts)%R) in *. assert (e1p : (0 <= e1)%R) by (unfold e1; nra).
  assert (F2 : (Rabs (dr * x) <= 2 * B + e1)%R).
  { rewrite Rabs_mult, (Rabs_pos_eq x) by lra. assert (Rabs dr <= 2 * B + e1)%R; [replace dr with ((b - a) + (dr - (b - a)))%R by ring; eapply Rle_trans; [apply Rabs_triang|lra]|]. pose proof (Rabs_pos dr). nra. }
  assert (F3 : (Rabs (pr - (b - a) * x) <= e1 + u * (2 * B + e1) + n)%R).
  { replace (pr - (b - a) * x)%R with ((pr - dr * x) + (dr - (b - a)) * x)%R by ring. eapply Rle_trans; [apply Rabs_triang|]. rewrite (Rabs_mult _ x), (Rabs_pos_eq x) by lra.
    assert (Rabs (dr - (b - a)) * x <= e1)%R by (pose proof (Rabs_pos (dr - (b - a))); nra). assert (u * Rabs (dr * x) <= u * (2 * B + e1))%R by (apply Rmult_le_compat_l; lra). lra. }
  set (e2 := (e1 + u * (2 * B + e1) + n)%R) in *. assert (e2p : (0 <= e2)%R) by (unfold e2; nra).
  assert (F4 : (Rabs (a + pr) <= B + e2)%R) by (replace (a + pr)%R with ((a + (b - a) * x) + (pr - (b - a) * x))%R by ring; eapply Rle_trans; [apply Rabs_triang|lra]).
  assert (F5 : (Rabs (sr - (a + (b - a) * x)) <= e2 + u * (B + e2) + n)%R).
  { replace (sr - (a + (b - a) * x))%R with ((sr - (a + pr)) + (pr - (b - a) * x))%R by ring. eapply Rle_trans; [apply Rabs_triang|]. assert (u * Rabs (a + pr) <= u * (B + e2))%R by (apply Rmult_le_compat_l; lra). lra. }
  set (e3 := (e2 + u * (B + e2) + n)%R) in *. assert (e3p : (0 <= e3)%R) by (unfold e3; nra).
  assert (uB : (0 <= u * B)%R) by nra. assert (usB : (0 <= us * B)%R) by nra. assert (uu : (u * (us * B) <= us * B / 4096)%R) by nra. assert (ut : (u * ts <= ts / 4096)%R) by nra. assert (un : (u * n <= n / 4096)%R) by nra.
  destruct v.
  - assert (O : o = sr) by (unfold o; rewrite E5; reflexivity). rewrite O. eapply Rle_trans; [exact F5|]. clear -e1p e2p uB usB uu ut un U0 U1 U2 T0 T1 B0. change us with u in *. change ts with n in *. subst e3 e2 e1.
    assert (X : (u * (u * (u * B)) <= u * B / 4096)%R) by nra. assert (Y : (u * (u * n) <= n / 4096)%R) by nra. nra.
  - destruct E5 as [V1 V2]. assert (S : (Rabs sr <= B + e3)%R) by (replace sr with ((a + (b - a) * x) + (sr - (a + (b - a) * x)))%R by ring; eapply Rle_trans; [apply Rabs_triang|lra]).
    replace (o - (a + (b - a) * x))%R with ((o - sr) + (sr - (a + (b - a) * x)))%R by ring. eapply Rle_trans; [apply Rabs_triang|]. assert (us * Rabs sr <= us * (B + e3))%R by (apply Rmult_le_compat_l; lra).
    assert (G : (e3 <= 3 * us * B + 2 * ts)%R).
    { subst e3 e2 e1. assert (u * B <= us * B / 4096)%R by nra. assert (X : (u * (u * (us * B)) <= us * B / 4096)%R) by nra. assert (Y : (u * (u * ts) <= ts / 4096)%R) by nra. assert (Z : (u * (u * B) <= us * B / 4096)%R) by nra. nra. }
    assert (us * e3 <= us * (3 * us * B + 2 * ts))%R by (apply Rmult_le_compat_l; lra). assert (us * (us * B) <= us * B / 4096)%R by nra. assert (us * ts <= ts / 4096)%R by nra. nra.
Qed.

(** Inside the waveform a sample that is given differs from the point of the exact line by no more than the rounding of the position and of the values. *)
Theorem C95_error : forall v ws cs outs p w c i B, fl_apply_t_cor (rnd v) ws cs = Ok outs -> nth_error ws p = Some w -> nth_error cs p = Some c -> (i < List.length w)%nat ->
  (2 <= List.length w)%nat -> (Z.of_nat (List.length w) <= 2 ^ 53)%Z -> (forall y, In y w -> Rabs (q2r y) <= B)%R -> 0 <= qn i - c -> qn i - c <= qn (List.length w - 1) ->
  exists k, (S k < List.length w)%nat /\ qn k < qn i - c /\ qn i - c < qn (S k) /\
  (Rabs (q2r (nth i (nth p outs []) 0%Qc) - q2r (nth k w 0 + (nth (S k) w 0 - nth k w 0) * (qn i - c - qn k))%Qc) <= B * (6 * unit_of v + 2 * INR (List.length w) * bpow radix2 (-53)) + 6 * tiny_of v)%R.
Proof.
  intros v ws cs outs p w c i B E W C I L N BB A Z. apply (apply_nth _ _ _ _ p w c i) in E; auto. destruct (cell _ w c i _ L N A Z E) as (k & K & (X1 & X2) & P1 & P2). exists k. split; [exact K|]. split; [exact P1|]. split; [exact P2|].
  rewrite (fl_mid v w c i k K N X1 X2) in E. injection E as E. rewrite <- E. clear E. set (x := fl64 (qn i - c)) in *. set (y1 := nth k w 0). set (y2 := nth (S k) w 0).
  assert (Y1 : (Rabs (q2r y1) <= B)%R) by (apply BB, nth_In; lia). assert (Y2 : (Rabs (q2r y2) <= B)%R) by (apply BB, nth_In; lia). assert (B0 : (0 <= B)%R) by (eapply Rle_trans; [apply Rabs_pos|exact Y1]).
  assert (KK : (q2r (qn (S k)) = q2r (qn k) + 1)%R) by (rewrite !q2r_qn; apply S_INR).
  pose proof (err64 (qn i - c)) as EX. fold x in EX. apply q2r_lt in X1, X2, P1, P2. apply q2r_le in A, Z. rewrite KK in *.
  pose proof (combine_error v B y1 y2 (x - qn k) Y1 Y2 ltac:(rewrite q2r_minus; lra)) as CE. set (o := q2r (rnd v _)) in *.
  rewrite !q2r_plus, !q2r_mult, !q2r_minus in *. rewrite q2r_0 in A. set (r := (q2r (qn i) - q2r c)%R) in *. set (a := q2r y1) in *. set (b := q2r y2) in *. set (q := q2r (qn k)) in *.
  replace (o - (a + (b - a) * (r - q)))%R with ((o - (a + (b - a) * (q2r x - q))) + (b - a) * (q2r x - r))%R by ring. eapply Rle_trans; [apply Rabs_triang|]. rewrite (Rabs_mult (b - a)).
  assert (D : (Rabs (b - a) <= 2 * B)%R) by (apply Rabs_le; apply Rabs_le_inv in Y1, Y2; lra).
  assert (F : (Rabs (q2r x - r) <= INR (List.length w) * bpow radix2 (-53))%R).
  { eapply Rle_trans; [exact EX|]. rewrite (Rabs_pos_eq r) by exact A. rewrite q2r_qn, minus_INR in Z by lia. cbn [INR] in Z. assert (T : (bpow radix2 (-1075) <= bpow radix2 (-53))%R) by (apply bpow_le; lia). pose proof (bpow_gt_0 radix2 (-53)). nra. }
  assert (G : (Rabs (b - a) * Rabs (q2r x - r) <= 2 * B * (INR (List.length w) * bpow radix2 (-53)))%R) by (apply Rmult_le_compat; auto using Rabs_pos). lra.
Qed.
Print Assumptions C95_error.

(** The value lies between the two samples next to the position, if their difference is exact in the precision of the waveforms. *)
Theorem C95_between : forall v ws cs outs p w c i, fl_apply_t_cor (rnd v) ws cs = Ok outs -> nth_error ws p = Some w -> nth_error cs p = Some c -> (i < List.length w)%nat ->
  (2 <= List.length w)%nat -> (Z.of_nat (List.length w) <= 2 ^ 53)%Z -> (forall y, In y w -> rnd v y = y) -> 0 <= qn i - c -> qn i - c <= qn (List.length w - 1) ->
  exists k, (S k < List.length w)%nat /\ qn k < qn i - c /\ qn i - c < qn (S k) /\ let y1 := nth k w 0 in let y2 := nth (S k) w 0 in let y := nth i (nth p outs []) 0 in
  (rnd v (y2 - y1) = y2 - y1 -> (y1 <= y /\ y <= y2) \/ (y2 <= y /\ y <= y1)).
Proof.
  intros v ws cs outs p w c i E W C I L N ST A Z. apply (apply_nth _ _ _ _ p w c i) in E; auto. destruct (cell _ w c i _ L N A Z E) as (k & K & (X1 & X2) & P1 & P2). exists k. split; [exact K|]. split; [exact P1|]. split; [exact P2|]. intros y1 y2 y D.
  rewrite (fl_mid v w c i k K N X1 X2) in E. injection E as E. fold y1 y2 y in E. rewrite D in E. rewrite <- E. clear E y. set (x := fl64 (qn i - c)) in *.
  assert (S1 : rnd v y1 = y1) by (apply ST, nth_In; lia). assert (S2 : rnd v y2 = y2) by (apply ST, nth_In; lia). pose proof (rnd_64 v _ D) as D'. set (d := y2 - y1) in *.
  assert (F0 : fl64 0 = 0) by (apply Qc_is_canon, Qeq_bool_iff; vm_compute; reflexivity).
  assert (KK : (q2r (qn (S k)) = q2r (qn k) + 1)%R) by (rewrite !q2r_qn; apply S_INR). apply q2r_lt in X1, X2. rewrite KK in X2.
  assert (M : forall u lo hi, rnd v lo = lo -> rnd v hi = hi -> lo <= u -> u <= hi -> lo <= rnd v (fl64 u) /\ rnd v (fl64 u) <= hi).
  { intros u lo hi H1 H2 U1 U2. apply fl64_le in U1, U2. rewrite (rnd_64 v lo H1) in U1. rewrite (rnd_64 v hi H2) in U2. apply (rnd_le v) in U1, U2. rewrite H1 in U1. rewrite H2 in U2. now split. }
  destruct (Qclt_le_dec d 0) as [G|G].
  - right. apply M; auto.
    + assert (d <= fl64 (d * (x - qn k))) as H; [rewrite <- D' at 1; apply fl64_le; apply q2r_le; rewrite q2r_mult, q2r_minus; apply q2r_lt in G; rewrite q2r_0 in G; nra|]. unfold d in *. apply q2r_le in H. apply q2r_le. rewrite q2r_plus. rewrite q2r_minus in H at 1. lra.
    + assert (fl64 (d * (x - qn k)) <= 0) as H; [rewrite <- F0; apply fl64_le; apply q2r_le; rewrite q2r_mult, q2r_minus; apply q2r_lt in G; rewrite q2r_0 in *; nra|]. apply q2r_le in H. apply q2r_le. rewrite q2r_plus. rewrite q2r_0 in H. lra.
  - left. apply M; auto.
    + assert (0 <= fl64 (d * (x - qn k))) as H; [rewrite <- F0; apply fl64_le; apply q2r_le; rewrite q2r_mult, q2r_minus; apply q2r_le in G; rewrite q2r_0 in *; nra|]. apply q2r_le in H. apply q2r_le. rewrite q2r_plus. rewrite q2r_0 in H. lra.
    + assert (fl64 (d * (x - qn k)) <= d) as H; [rewrite <- D' at 2; apply fl64_le; apply q2r_le; rewrite q2r_mult, q2r_minus; apply q2r_le in G; rewrite q2r_0 in G; nra|]. unfold d in *. apply q2r_le in H. apply q2r_le. rewrite q2r_plus. rewrite (q2r_minus y2) in H. lra.
Qed.
Print Assumptions C95_between.

(** Without the condition it may not: in single precision the corrected sample can exceed every sample of the waveform. *)
Definition over : list Qc := [-(1); Q2Qc (3 # 33554432)].
Theorem C95_between_refuted : exists out, fl_t_cor_pixel (rnd Single) over (two (-50)) = Ok out /\ forallb (fun y => qeqb (rnd Single y) y) over = true /\
  forallb (fun y => qltb y (nth 1 out 0)) over = true.
Proof. eexists. split; [vm_compute; reflexivity|]. split; vm_compute; reflexivity. Qed.
Print Assumptions C95_between_refuted.

(** A constant waveform stays as it is. *)
Theorem C95_constant : forall v y n c out, rnd v y = y -> (2 <= n)%nat -> fl_t_cor_pixel (rnd v) (repeat y n) c = Ok out -> out = repeat y n.
Proof.
  intros v y n c out Y L E. pose proof (mapM_length _ _ _ _ _ E) as LE. rewrite seq_length, repeat_length in LE.
  assert (F : forall j, (j < n)%nat -> nth j (repeat y n) 0 = y) by (intros; rewrite nth_indep with (d' := y) by (now rewrite repeat_length); apply nth_repeat).
  assert (R0 : rnd v 0 = 0) by (destruct v; apply Qc_is_canon, Qeq_bool_iff; vm_compute; reflexivity). assert (F0 : fl64 0 = 0) by (apply Qc_is_canon, Qeq_bool_iff; vm_compute; reflexivity).
  apply (nth_ext _ _ 0 0); [now rewrite repeat_length|]. intros i I. rewrite LE in I. rewrite F by exact I. 
  destruct (mapM_nth _ _ _ _ _ i i E) as (z & Q & M); [rewrite nth_error_seq, repeat_length; now apply Nat.ltb_lt in I as ->|]. rewrite (nth_error_nth _ _ _ M). clear E M.
  unfold fl_t_cor_sample in Q. cbv zeta in Q. rewrite repeat_length in Q. set (x := fl64 (qn i - c)) in *.
  assert (H : exists x1 x2, (if (qfloor x <? 0)%Z then (0, 1)%Z else if (Z.of_nat n <=? qceil x)%Z then (Z.of_nat n - 2, Z.of_nat n - 1)%Z else (qfloor x, qceil x)) = (x1, x2) /\ (0 <= x1 < Z.of_nat n)%Z /\ (0 <= x2 < Z.of_nat n)%Z).
  { destruct (Z.ltb_spec (qfloor x) 0) as [G|G]; [exists 0%Z, 1%Z; split; [reflexivity|lia]|]. destruct (Z.leb_spec (Z.of_nat n) (qceil x)) as [P|P]; [do 2 eexists; split; [reflexivity|lia]|].
    do 2 eexists. split; [reflexivity|]. assert (qfloor x <= qceil x)%Z; [|lia]. destruct (qfloor_spec x) as [A _], (qceil_spec x) as [B _]. pose proof (Qcle_trans _ _ _ A B) as C. apply q2r_le in C. rewrite !q2r_qz in C. now apply le_IZR. }
  destruct H as (x1 & x2 & H & X1 & X2). rewrite H in Q. rewrite !F in Q by lia. destruct (x2 - x1 =? 0)%Z; [discriminate|]. injection Q as <-.
  replace (y - y) with 0 by ring. rewrite R0, Qcmult_0_l, F0. unfold Qcdiv at 1. rewrite Qcmult_0_l, F0, Qcplus_0_r. now rewrite (rnd_64 v y Y).
Qed.
Print Assumptions C95_constant.

(** Half a sample: exact values; the edges go on along the last line. *)
Example C95_ex : rmap (map (map this)) (fl_apply_t_cor (rnd Single) [map qz [1; 2; 4; 8]%Z; map qz [5; 5; 5; 5]%Z] [Q2Qc (1 # 2); Q2Qc (1 # 3)]) = Ok [map this [Q2Qc (1 # 2); Q2Qc (3 # 2); qz 3; qz 6]; map this (map qz [5; 5; 5; 5]%Z)].
Proof. vm_compute. reflexivity. Qed.
Example C95_ex_raise : fl_apply_t_cor (rnd Double) [map qz [1; 2; 4]%Z; map qz [1; 2; 4]%Z] [Q2Qc (1 # 2); two (-80)] = Raise ZeroDivisionError.
Proof. vm_compute. reflexivity. Qed.
