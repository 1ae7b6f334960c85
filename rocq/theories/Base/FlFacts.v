(** [fl] is the rounding of Flocq, and its errors. *)
From Coq Require Import ZArith QArith Qcanon Qround Qreals Reals Lia.
From Flocq Require Import Core Relative.
From Verif.Base Require Import Num Fl.
From Coq Require Import Lra.
Local Open Scope R_scope.

Definition q2r (q : Qc) : R := Q2R (this q).
Lemma q2r_plus : forall a b, q2r (a + b)%Qc = q2r a + q2r b.
Proof. intros. unfold q2r. rewrite (Qeq_eqR _ _ (this_plus a b)). apply Q2R_plus. Qed.
Lemma q2r_minus : forall a b, q2r (a - b)%Qc = q2r a - q2r b.
Proof. intros. unfold q2r. rewrite (Qeq_eqR _ _ (this_minus a b)). apply Q2R_minus. Qed.
Lemma q2r_opp : forall a, q2r (- a)%Qc = - q2r a.
Proof. intros. unfold q2r. rewrite (Qeq_eqR _ _ (this_opp a)). apply Q2R_opp. Qed.
Lemma q2r_mult : forall a b, q2r (a * b)%Qc = q2r a * q2r b.
Proof. intros. unfold q2r. rewrite (Qeq_eqR _ _ (this_mult a b)). apply Q2R_mult. Qed.
Lemma q2r_Q2Qc : forall q, q2r (Q2Qc q) = Q2R q.
Proof. intros. unfold q2r. apply Qeq_eqR, this_Q2Qc. Qed.
Lemma q2r_qz : forall z, q2r (qz z) = IZR z.
Proof. intros. unfold qz. rewrite q2r_Q2Qc. unfold Q2R. cbn. field. Qed.
Lemma q2r_qn : forall n, q2r (qn n) = INR n.
Proof. intros. unfold qn. rewrite q2r_qz. symmetry. apply INR_IZR_INZ. Qed.
Lemma q2r_0 : q2r 0%Qc = 0.
Proof. exact (q2r_qz 0). Qed.
Lemma q2r_1 : q2r 1%Qc = 1.
Proof. exact (q2r_qz 1). Qed.
Lemma q2r_lt : forall a b, (a < b)%Qc <-> q2r a < q2r b.
Proof. intros. split; [apply Qlt_Rlt|apply Rlt_Qlt]. Qed.
Lemma q2r_le : forall a b, (a <= b)%Qc <-> q2r a <= q2r b.
Proof. intros. split; [apply Qle_Rle|apply Rle_Qle]. Qed.
Lemma q2r_eq : forall a b, q2r a = q2r b -> a = b.
Proof. intros a b H. apply Qc_is_canon. now apply eqR_Qeq. Qed.
Lemma q2r_inv : forall a, a <> 0%Qc -> q2r (/ a)%Qc = / q2r a.
Proof.
  intros a N. apply Rmult_eq_reg_l with (q2r a); [|intro E; apply N, q2r_eq; now rewrite q2r_0]. rewrite <- q2r_mult, Qcmult_inv_r, q2r_1 by exact N. symmetry. apply Rinv_r. intro E. apply N, q2r_eq. now rewrite q2r_0.
Qed.
Lemma q2r_div : forall a b, b <> 0%Qc -> q2r (a / b)%Qc = q2r a / q2r b.
Proof. intros a b N. unfold Qcdiv, Rdiv. now rewrite q2r_mult, q2r_inv. Qed.
Lemma q2r_half : q2r (Q2Qc (1 # 2)) = / 2.
Proof. rewrite q2r_Q2Qc. unfold Q2R. cbn. lra. Qed.
Lemma q2r_two : forall e, q2r (two e) = bpow radix2 e.
Proof.
  intros e. unfold two. destruct (Z.leb_spec 0 e) as [E|E].
  - rewrite q2r_qz. change (2 ^ e)%Z with (radix2 ^ e)%Z. now apply IZR_Zpower.
  - rewrite q2r_inv, q2r_qz; [|intro H; apply (qz_inj _ 0) in H; pose proof (Z.pow_pos_nonneg 2 (- e)); lia].
    change (2 ^ (- e))%Z with (radix2 ^ (- e))%Z. rewrite IZR_Zpower by lia. rewrite <- bpow_opp. f_equal. lia.
Qed.

Lemma q2r_abs : forall q, q2r (if qltb q 0 then - q else q)%Qc = Rabs (q2r q).
Proof.
  intros q. destruct (qltb_spec q 0%Qc) as [H|H].
  - apply q2r_lt in H. rewrite q2r_0 in H. rewrite q2r_opp. now rewrite Rabs_left.
  - symmetry. apply Rabs_right. apply Rle_ge. rewrite <- q2r_0. apply q2r_le. now apply Qcnot_lt_le.
Qed.
Lemma log2_bound : forall z, (0 < z)%Z -> bpow radix2 (Z.log2 z) <= IZR z < bpow radix2 (Z.log2 z + 1).
Proof.
  intros z Z0. pose proof (Z.log2_spec z Z0) as [A B]. pose proof (Z.log2_nonneg z). rewrite <- !IZR_Zpower by lia.
  split; [apply IZR_le; exact A|apply IZR_lt; rewrite Z.add_1_r; exact B].
Qed.
Lemma qmag_spec : forall q, q <> 0%Qc -> qmag q = mag radix2 (q2r q).
Proof.
  intros q N. symmetry. apply mag_unique. unfold qmag. set (a := Z.abs (Qnum (this q))). set (b := Zpos (Qden (this q))). cbv zeta.
  assert (A0 : (0 < a)%Z). { unfold a. assert (Qnum (this q) <> 0)%Z; [|lia]. intro H. apply N. apply Qc_is_canon. unfold Qeq. cbn. rewrite H. reflexivity. }
  assert (B0 : (0 < b)%Z) by (unfold b; lia).
  assert (E : Rabs (q2r q) = IZR a / IZR b). { unfold q2r, Q2R. rewrite Rabs_mult, (Rabs_right (/ _)); [|apply Rle_ge, Rlt_le, Rinv_0_lt_compat, IZR_lt; lia]. unfold a. now rewrite abs_IZR. }
  pose proof (log2_bound a A0) as [LA UA]. pose proof (log2_bound b B0) as [LB UB].
  assert (PB : 0 < IZR b) by (apply IZR_lt; exact B0).
  set (la := Z.log2 a) in *. set (lb := Z.log2 b) in *.
  assert (Low : bpow radix2 (la - lb - 1) <= Rabs (q2r q)).
  { rewrite E. apply Rmult_le_reg_r with (IZR b); [exact PB|]. unfold Rdiv. rewrite Rmult_assoc, Rinv_l, Rmult_1_r by lra. apply Rle_trans with (2 := LA).
    replace (bpow radix2 la) with (bpow radix2 (la - lb - 1) * bpow radix2 (lb + 1)) by (rewrite <- bpow_plus; f_equal; lia).
    apply Rmult_le_compat_l; [apply bpow_ge_0|]. now apply Rlt_le. }
  assert (Up : Rabs (q2r q) < bpow radix2 (la - lb + 1)).
  { rewrite E. apply Rmult_lt_reg_r with (IZR b); [exact PB|]. unfold Rdiv. rewrite Rmult_assoc, Rinv_l, Rmult_1_r by lra. apply Rlt_le_trans with (1 := UA).
    replace (bpow radix2 (la + 1)) with (bpow radix2 (la - lb + 1) * bpow radix2 lb) by (rewrite <- bpow_plus; f_equal; lia).
    apply Rmult_le_compat_l; [apply bpow_ge_0|exact LB]. }
  destruct (qltb_spec (if qltb q 0 then - q else q)%Qc (two (la - lb))) as [H|H].
  - apply q2r_lt in H. rewrite q2r_abs, q2r_two in H. split; [exact Low|exact H].
  - split; [|exact Up]. replace (la - lb + 1 - 1)%Z with (la - lb)%Z by lia. apply Rnot_lt_le. intro K. apply H. apply q2r_lt. now rewrite q2r_abs, q2r_two.
Qed.
Lemma qfloor_spec : forall q, Qfloor (this q) = Zfloor (q2r q).
Proof.
  intros q. symmetry. apply Zfloor_imp. unfold q2r. pose proof (Qfloor_le (this q)) as A. pose proof (Qlt_floor (this q)) as B. apply Qle_Rle in A. apply Qlt_Rlt in B.
  assert (E : forall z, Q2R (inject_Z z) = IZR z) by (intros; unfold Q2R; cbn; field). rewrite E in A, B. now rewrite plus_IZR in *.
Qed.
Lemma qnearest_spec : forall q, qnearest q = ZnearestE (q2r q).
Proof.
  intros q. unfold qnearest, Znearest. rewrite qfloor_spec. set (f := Zfloor (q2r q)). cbv zeta.
  assert (ER : q2r (q - qz f)%Qc = q2r q - IZR f) by now rewrite q2r_minus, q2r_qz.
  assert (EC : q2r q <> IZR f -> Zceil (q2r q) = (f + 1)%Z) by (intros H; apply Zceil_floor_neq; intro K; apply H; now symmetry).
  destruct (qltb_spec (q - qz f) (Q2Qc (1 # 2))) as [H|H].
  { apply q2r_lt in H. rewrite ER, q2r_half in H. rewrite Rcompare_Lt; [reflexivity|lra]. }
  destruct (qltb_spec (Q2Qc (1 # 2)) (q - qz f)) as [K|K].
  { apply q2r_lt in K. rewrite ER, q2r_half in K. rewrite Rcompare_Gt by lra. symmetry. apply EC. lra. }
  assert (EQ : q2r q - IZR f = / 2).
  { rewrite <- ER, <- q2r_half. apply Rle_antisym; [apply q2r_le; now apply Qcnot_lt_le|apply q2r_le; now apply Qcnot_lt_le]. }
  rewrite Rcompare_Eq by exact EQ. destruct (Z.even f); cbn; [reflexivity|]. symmetry. apply EC. lra.
Qed.
Theorem fl_round : forall prec emin q, q2r (fl prec emin q) = round radix2 (FLT_exp emin prec) ZnearestE (q2r q).
Proof.
  intros prec emin q. unfold fl. destruct (qeqb_spec q 0%Qc) as [->|N]; [rewrite q2r_0; symmetry; apply round_0; apply valid_rnd_N|].
  unfold round, F2R, scaled_mantissa, cexp, FLT_exp. cbn [Fnum Fexp]. rewrite <- qmag_spec by exact N. set (e := Z.max (qmag q - prec) emin). cbv zeta.
  now rewrite q2r_mult, q2r_qz, q2r_two, qnearest_spec, q2r_mult, q2r_two.
Qed.
Lemma qtrunc_spec : forall q, qtrunc q = Ztrunc (q2r q).
Proof.
  intros q. unfold qtrunc, Ztrunc. rewrite !qfloor_spec, q2r_opp. destruct (qltb_spec q 0%Qc) as [H|H].
  - apply q2r_lt in H. rewrite q2r_0 in H. rewrite Rlt_bool_true by exact H. reflexivity.
  - rewrite Rlt_bool_false; [reflexivity|]. rewrite <- q2r_0. apply q2r_le. now apply Qcnot_lt_le.
Qed.

(** ** Errors *)
Section Errors.
Variables (prec emin : Z).
Hypothesis (P : (1 < prec)%Z).
Let fexp := FLT_exp emin prec.
Local Instance valid_prec : Prec_gt_0 prec.
Proof. unfold Prec_gt_0. lia. Qed.
Definition ulp1 : R := bpow radix2 (- prec).
Definition tiny : R := bpow radix2 (emin - 1).
Lemma fl_error : forall q, Rabs (q2r (fl prec emin q) - q2r q) <= ulp1 * Rabs (q2r q) + tiny.
Proof.
  intros q. rewrite fl_round. destruct (error_N_FLT radix2 emin prec valid_prec (fun x => negb (Z.even x)) (q2r q)) as (eps & eta & E1 & E2 & _ & E).
  rewrite E. replace (q2r q * (1 + eps) + eta - q2r q) with (q2r q * eps + eta) by ring.
  apply Rle_trans with (1 := Rabs_triang _ _). apply Rplus_le_compat.
  - rewrite Rabs_mult, Rmult_comm. apply Rmult_le_compat_r; [apply Rabs_pos|]. apply Rle_trans with (1 := E1). apply Req_le. unfold ulp1.
    replace (- prec)%Z with (-1 + (- prec + 1))%Z by lia. rewrite bpow_plus. cbn. lra.
  - apply Rle_trans with (1 := E2). apply Req_le. unfold tiny. replace (emin - 1)%Z with (-1 + emin)%Z by lia. rewrite bpow_plus. cbn. lra.
Qed.
Lemma fl_le : forall a b, q2r a <= q2r b -> q2r (fl prec emin a) <= q2r (fl prec emin b).
Proof. intros. rewrite !fl_round. apply round_le; [apply FLT_exp_valid; apply valid_prec|apply valid_rnd_N|assumption]. Qed.
Lemma fl_nonneg : forall a, 0 <= q2r a -> 0 <= q2r (fl prec emin a).
Proof. intros a H. rewrite fl_round. rewrite <- (round_0 radix2 fexp ZnearestE). apply round_le; [apply FLT_exp_valid; apply valid_prec|apply valid_rnd_N|assumption]. Qed.
Lemma fl_format : forall q, generic_format radix2 fexp (q2r q) -> fl prec emin q = q.
Proof. intros q H. apply q2r_eq. rewrite fl_round. apply round_generic; [apply valid_rnd_N|exact H]. Qed.
Lemma fl_idem : forall q, fl prec emin (fl prec emin q) = fl prec emin q.
Proof. intros q. apply fl_format. rewrite fl_round. apply generic_format_round; [apply FLT_exp_valid; apply valid_prec|apply valid_rnd_N]. Qed.
Lemma fl_int : forall z, (emin <= 0)%Z -> (Z.abs z < 2 ^ prec)%Z -> fl prec emin (qz z) = qz z.
Proof.
  intros z E Z. apply fl_format. rewrite q2r_qz. apply generic_format_FLT. exists (Float radix2 z 0); [unfold F2R; cbn; ring|exact Z|exact E].
Qed.
End Errors.
