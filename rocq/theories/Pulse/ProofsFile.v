(** Six significant decimal digits: [sci] is Flocq's rounding to nearest even with radix 10 and precision 6. *)
From Coq Require Import List ZArith NArith QArith Qcanon Qround Bool Arith Reals Lia.
From Flocq Require Import Core Relative.
From Verif.Base Require Import Py Num Fl FlFacts.
From Verif.Pulse Require Import ModelFile.
From Coq Require Import Lra.
Import ListNotations.
Local Open Scope R_scope.

Definition radix10 : radix := Build_radix 10 eq_refl.
Definition b10 (e : Z) : R := bpow radix10 e.
Definition dround (x : R) : R := round radix10 (FLX_exp 6) ZnearestE x.
Local Instance prec6 : Prec_gt_0 6. Proof. reflexivity. Qed.

Lemma q2r_ten : forall e, q2r (ten e) = b10 e.
Proof.
  intros e. unfold ten, b10. destruct (Z.leb_spec 0 e) as [H|H].
  - rewrite q2r_qz. rewrite <- IZR_Zpower by exact H. reflexivity.
  - assert (0 < 10 ^ (- e))%Z by (apply Z.pow_pos_nonneg; lia).
    rewrite q2r_inv.
    + rewrite q2r_qz. replace e with (- - e)%Z at 2 by lia. rewrite bpow_opp. rewrite <- IZR_Zpower by lia. reflexivity.
    + intro E. apply (f_equal q2r) in E. rewrite q2r_qz, q2r_0 in E. apply (eq_IZR _ 0) in E. lia.
Qed.
Lemma b10_pos : forall e, 0 < b10 e. Proof. intros. apply bpow_gt_0. Qed.
Lemma b10_plus : forall a b, b10 (a + b) = b10 a * b10 b. Proof. intros. apply bpow_plus. Qed.
Lemma b10_0 : b10 0 = 1. Proof. reflexivity. Qed.
Lemma b10_1 : b10 1 = 10. Proof. cbn. lra. Qed.
Lemma b10_S : forall e, b10 (e + 1) = 10 * b10 e. Proof. intros. rewrite b10_plus, b10_1. ring. Qed.
Lemma b10_le : forall a b, (a <= b)%Z -> b10 a <= b10 b. Proof. intros. now apply bpow_le. Qed.
Lemma qz10 : qz 10 <> 0%Qc. Proof. intro E. apply (f_equal q2r) in E. rewrite q2r_qz, q2r_0 in E. lra. Qed.

Lemma up_spec : forall f q, 1 <= q2r q < b10 (Z.of_nat f) -> b10 (up f q) <= q2r q < b10 (up f q + 1).
Proof.
  induction f as [|f IH]; intros q H.
  - change (Z.of_nat 0) with 0%Z in H. rewrite b10_0 in H. lra.
  - cbn [up]. destruct (qltb_spec q (qz 10)) as [L|L].
    + apply q2r_lt in L. rewrite q2r_qz in L. rewrite b10_0. change (0 + 1)%Z with 1%Z. rewrite b10_1. lra.
    + assert (L' : 10 <= q2r q). { apply Rnot_lt_le. intro K. apply L, q2r_lt. now rewrite q2r_qz. }
      assert (E : q2r (q / qz 10) = q2r q / 10) by (rewrite q2r_div, q2r_qz; [reflexivity|apply qz10]).
      destruct (IH (q / qz 10)%Qc) as [A B].
      { rewrite E. rewrite Nat2Z.inj_succ in H. unfold Z.succ in H. rewrite b10_S in H. lra. }
      rewrite E in A, B. rewrite (Z.add_comm 1). rewrite b10_S. rewrite b10_S in B. rewrite !b10_S. lra.
Qed.
Lemma down_spec : forall f q, b10 (- Z.of_nat f) <= q2r q < 10 -> b10 (down f q) <= q2r q < b10 (down f q + 1).
Proof.
  induction f as [|f IH]; intros q H.
  - cbn [down]. change (- Z.of_nat 0)%Z with 0%Z in H. rewrite b10_0 in *. change (0 + 1)%Z with 1%Z. rewrite b10_1. exact H.
  - cbn [down]. destruct (qltb_spec q 1) as [L|L].
    + apply q2r_lt in L. rewrite q2r_1 in L.
      assert (E : q2r (q * qz 10) = 10 * q2r q) by (rewrite q2r_mult, q2r_qz; ring).
      destruct (IH (q * qz 10)%Qc) as [A B].
      { rewrite E. replace (- Z.of_nat f)%Z with (- Z.of_nat (S f) + 1)%Z by lia. rewrite b10_S. lra. }
      rewrite E in A, B. set (d := down f (q * qz 10)) in *. replace d with (d - 1 + 1)%Z in A, B by lia. rewrite !b10_S in B. rewrite b10_S in A. rewrite b10_S. lra.
    + rewrite b10_0. change (0 + 1)%Z with 1%Z. rewrite b10_1. split; [|apply H]. apply Rnot_lt_le. intro K. apply L, q2r_lt. now rewrite q2r_1.
Qed.
Lemma two_ten : forall n, (0 <= n)%Z -> bpow radix2 n <= b10 n.
Proof.
  intros n N. unfold b10. rewrite <- !IZR_Zpower by exact N. apply IZR_le. apply Z.pow_le_mono_l. cbn. lia.
Qed.
Lemma q2r_frac : forall q, q2r q = IZR (Qnum (this q)) / IZR (Zpos (Qden (this q))).
Proof. reflexivity. Qed.
Lemma expo_spec : forall q, 0 < q2r q -> b10 (expo q) <= q2r q < b10 (expo q + 1).
Proof.
  intros q P. unfold expo. assert (D : 1 <= IZR (Zpos (Qden (this q)))) by (apply IZR_le; lia).
  assert (Q : q2r q * IZR (Zpos (Qden (this q))) = IZR (Qnum (this q))) by (rewrite q2r_frac; field; lra).
  assert (PN : 0 < IZR (Qnum (this q))) by (rewrite <- Q; nra). apply (lt_IZR 0) in PN. assert (N1 : 1 <= IZR (Qnum (this q))) by (apply IZR_le; lia).
  destruct (qltb_spec q 1) as [L|L].
  - apply q2r_lt in L. rewrite q2r_1 in L. apply down_spec. split; [|lra].
    set (l := Z.log2 (Zpos (Qden (this q)))). assert (0 <= l)%Z by apply Z.log2_nonneg.
    rewrite Nat2Z.inj_succ, Z2Nat.id by assumption. unfold Z.succ.
    destruct (log2_bound (Zpos (Qden (this q))) ltac:(lia)) as [_ B]. fold l in B.
    unfold b10. rewrite bpow_opp. fold (b10 (l + 1)). pose proof (two_ten (l + 1) ltac:(lia)). pose proof (b10_pos (l + 1)).
    apply Rmult_le_reg_r with (b10 (l + 1)); [assumption|]. rewrite Rinv_l by lra. nra.
  - assert (1 <= q2r q). { apply Rnot_lt_le. intro K. apply L, q2r_lt. now rewrite q2r_1. }
    apply up_spec. split; [assumption|].
    set (l := Z.log2 (Qnum (this q))). assert (0 <= l)%Z by apply Z.log2_nonneg.
    rewrite Nat2Z.inj_succ, Z2Nat.id by assumption. unfold Z.succ.
    destruct (log2_bound (Qnum (this q)) PN) as [_ B]. fold l in B. pose proof (two_ten (l + 1) ltac:(lia)). nra.
Qed.

(** The decimal number that is written. *)
Definition decimal (q : Qc) : Qc := let '(neg, m, e) := sci q in (qz (if neg : bool then - m else m) * ten (e - 5))%Qc.
Lemma b10_5 : b10 5 = 100000. Proof. unfold b10. cbn. lra. Qed.
Lemma b10_6 : b10 6 = 1000000. Proof. unfold b10. cbn. lra. Qed.
Lemma mantissa : forall q, 0 < q2r q -> let x := q2r (q * ten (5 - expo q))%Qc in 100000 <= x < 1000000 /\ x * b10 (expo q - 5) = q2r q.
Proof.
  intros q P. cbv zeta. rewrite q2r_mult, q2r_ten. destruct (expo_spec q P) as [A B].
  assert (E : b10 (5 - expo q) * b10 (expo q - 5) = 1) by (rewrite <- b10_plus; replace (5 - expo q + (expo q - 5))%Z with 0%Z by lia; reflexivity).
  pose proof (b10_pos (5 - expo q)). pose proof (b10_pos (expo q - 5)). rewrite b10_S in B.
  assert (E5 : b10 (expo q) * b10 (5 - expo q) = 100000) by (rewrite <- b10_plus; replace (expo q + (5 - expo q))%Z with 5%Z by lia; apply b10_5).
  split; [nra|]. rewrite Rmult_assoc, E. ring.
Qed.
Lemma nearest_range : forall x, 100000 <= x < 1000000 -> (100000 <= ZnearestE x <= 1000000)%Z.
Proof.
  intros x [A B].
  split.
  - rewrite <- (@Zrnd_IZR ZnearestE (valid_rnd_N _) 100000) at 1. apply (@Zrnd_le ZnearestE (valid_rnd_N _)). exact A.
  - rewrite <- (@Zrnd_IZR ZnearestE (valid_rnd_N _) 1000000). apply (@Zrnd_le ZnearestE (valid_rnd_N _)). lra.
Qed.
Lemma sci_range : forall q, q <> 0%Qc -> let '(neg, m, e) := sci q in neg = qltb q 0 /\ (100000 <= m < 1000000)%Z.
Proof.
  intros q N. unfold sci. destruct (qeqb_spec q 0) as [E|_]; [contradiction|].
  set (a := if qltb q 0 then (- q)%Qc else q). assert (Pa : 0 < q2r a). { unfold a. rewrite q2r_abs. apply Rabs_pos_lt. intro E. apply N, q2r_eq. now rewrite q2r_0. }
  destruct (mantissa a Pa) as [M _]. cbv zeta in M. apply nearest_range in M. rewrite <- qnearest_spec in M.
  destruct (Z.eqb_spec (qnearest (a * ten (5 - expo a))) (10 ^ 6)) as [E|E]; (split; [reflexivity|]); [lia|]. change (10 ^ 6)%Z with 1000000%Z in E. lia.
Qed.
Lemma sci_0 : sci 0 = (false, 0, 0)%Z. Proof. reflexivity. Qed.
Lemma dround_pos : forall q, 0 < q2r q -> dround (q2r q) = IZR (qnearest (q * ten (5 - expo q))) * b10 (expo q - 5).
Proof.
  intros q P. destruct (mantissa q P) as [_ M]. cbv zeta in M. unfold dround, round, F2R, scaled_mantissa, cexp. cbn [Fnum Fexp].
  assert (MG : mag radix10 (q2r q) = (expo q + 1)%Z :> Z).
  { apply mag_unique. rewrite Rabs_pos_eq by lra. destruct (expo_spec q P). replace (expo q + 1 - 1)%Z with (expo q) by lia. split; assumption. }
  unfold FLX_exp. rewrite MG. replace (expo q + 1 - 6)%Z with (expo q - 5)%Z by lia. rewrite qnearest_spec. f_equal. do 2 f_equal.
  rewrite q2r_mult, q2r_ten. unfold b10. do 2 f_equal. lia.
Qed.
Lemma dround_opp : forall x, dround (- x) = - dround x.
Proof. intros. unfold dround. apply round_NE_opp. Qed.
Lemma decimal_round : forall q, q2r (decimal q) = dround (q2r q).
Proof.
  intros q. destruct (Qc_eq_dec q 0) as [->|N].
  - unfold decimal. rewrite sci_0, q2r_mult, q2r_qz, q2r_0. unfold dround. rewrite round_0 by apply valid_rnd_N. ring.
  - unfold decimal, sci. destruct (qeqb_spec q 0) as [E|_]; [contradiction|].
    set (a := if qltb q 0 then (- q)%Qc else q). assert (Pa : 0 < q2r a). { unfold a. rewrite q2r_abs. apply Rabs_pos_lt. intro E. apply N, q2r_eq. now rewrite q2r_0. }
    assert (S : forall (neg : bool), dround (if neg then - q2r a else q2r a) = (if neg then -1 else 1) * (IZR (qnearest (a * ten (5 - expo a))) * b10 (expo a - 5))).
    { intros []; rewrite ?dround_opp, dround_pos by assumption; ring. }
    replace (q2r q) with (if qltb q 0 then - q2r a else q2r a).
    2:{ unfold a. destruct (qltb q 0); rewrite ?q2r_opp; ring. }
    rewrite S. destruct (Z.eqb_spec (qnearest (a * ten (5 - expo a))) (10 ^ 6)) as [E|E]; rewrite q2r_mult, q2r_qz, q2r_ten.
    + rewrite E. replace (expo a + 1 - 5)%Z with (expo a - 5 + 1)%Z by lia. rewrite b10_S. change (10 ^ 5)%Z with 100000%Z. change (10 ^ 6)%Z with 1000000%Z. destruct (qltb q 0); rewrite ?opp_IZR; ring.
    + destruct (qltb q 0); rewrite ?opp_IZR; ring.
Qed.
Lemma dround_error : forall x, Rabs (dround x - x) <= 5 / 1000000 * Rabs x.
Proof.
  intros x. unfold dround. pose proof (relative_error_N_FLX radix10 6 prec6 (fun x => negb (Z.even x)) x) as H. eapply Rle_trans; [exact H|]. apply Rmult_le_compat_r; [apply Rabs_pos|].
  change (- (6) + 1)%Z with (-5)%Z. unfold bpow. cbn. lra.
Qed.
Lemma dround_le : forall x y, x <= y -> dround x <= dround y.
Proof. intros. apply round_le; [apply FLX_exp_valid; exact prec6|apply valid_rnd_N|assumption]. Qed.
Lemma dround_id : forall m e, (Z.abs m < 1000000)%Z -> dround (IZR m * b10 e) = IZR m * b10 e.
Proof.
  intros m e M. apply round_generic; [apply valid_rnd_N|]. apply generic_format_FLX. exists (Float radix10 m e); [reflexivity|exact M].
Qed.
(** Nothing with six digits is nearer. *)
Lemma dround_nearest : forall x m e, (Z.abs m < 1000000)%Z -> Rabs (dround x - x) <= Rabs (IZR m * b10 e - x).
Proof.
  intros x m e M. destruct (round_N_pt radix10 (FLX_exp 6) (fun x => negb (Z.even x)) x) as [_ H]. apply H. apply generic_format_FLX. exists (Float radix10 m e); [reflexivity|exact M].
Qed.
(** A number close to one with six digits is written as that one. *)
Lemma dround_close : forall g x, 0 < g -> dround g = g -> Rabs (x - g) <= g / 40000000 -> dround x = g.
Proof.
  intros g x G DG X. assert (FG : generic_format radix10 (FLX_exp 6) g) by (rewrite <- DG; apply generic_format_round; [apply FLX_exp_valid; exact prec6|apply valid_rnd_N]).
  set (v := dround x). assert (FV : generic_format radix10 (FLX_exp 6) v) by (apply generic_format_round; [apply FLX_exp_valid; exact prec6|apply valid_rnd_N]).
  assert (V : Rabs (v - x) <= Rabs (g - x)). { destruct (round_N_pt radix10 (FLX_exp 6) (fun x => negb (Z.even x)) x) as [_ H]. apply H, FG. }
  rewrite (Rabs_minus_sym g x) in V. assert (D : Rabs (v - g) <= g / 20000000). { replace (v - g) with ((v - x) + (x - g)) by ring. eapply Rle_trans; [apply Rabs_triang|]. lra. }
  destruct (Req_dec v g) as [E|E]; [exact E|exfalso].
  assert (Pv : 0 < v) by (apply Rabs_le_inv in D; lra).
  set (mg := mag radix10 g : Z). set (mv := mag radix10 v : Z).
  assert (BG : b10 (mg - 1) <= g < b10 mg). { unfold b10, mg. pose proof (bpow_mag_le radix10 g ltac:(lra)) as U1. pose proof (bpow_mag_gt radix10 g) as U2. rewrite Rabs_pos_eq in U1, U2 by lra. split; assumption. }
  assert (MV : (mg - 1 <= mv)%Z).
  { unfold mv. apply mag_ge_bpow. rewrite Rabs_pos_eq by lra. fold (b10 (mg - 1 - 1)). replace (mg - 1)%Z with (mg - 1 - 1 + 1)%Z in BG at 1 by lia. rewrite b10_S in BG. apply Rabs_le_inv in D. lra. }
  assert (IG : exists z, g = IZR z * b10 (mg - 7)).
  { unfold generic_format, F2R in FG. cbn [Fnum Fexp] in FG. rewrite FG. exists (Ztrunc (scaled_mantissa radix10 (FLX_exp 6) g) * 10)%Z. unfold cexp, FLX_exp. fold mg. fold (b10 (mg - 6)). replace (mg - 6)%Z with (mg - 7 + 1)%Z by lia. rewrite b10_S, mult_IZR. ring. }
  assert (IV : exists z, v = IZR z * b10 (mg - 7)).
  { unfold generic_format, F2R in FV. cbn [Fnum Fexp] in FV. rewrite FV. exists (Ztrunc (scaled_mantissa radix10 (FLX_exp 6) v) * 10 ^ (mv - 6 - (mg - 7)))%Z. unfold cexp, FLX_exp. fold mv. fold (b10 (mv - 6)). rewrite mult_IZR. change (10 ^ (mv - 6 - (mg - 7)))%Z with (Zpower radix10 (mv - 6 - (mg - 7))). rewrite IZR_Zpower by lia. fold (b10 (mv - 6 - (mg - 7))). rewrite Rmult_assoc, <- b10_plus. do 2 f_equal. lia. }
  destruct IG as [zg IG], IV as [zv IV]. pose proof (b10_pos (mg - 7)) as B.
  assert (NE : zv <> zg) by (intros ->; congruence).
  assert (1 <= Rabs (IZR zv - IZR zg)). { rewrite <- minus_IZR, <- abs_IZR. apply IZR_le. lia. }
  assert (Rabs (v - g) = Rabs (IZR zv - IZR zg) * b10 (mg - 7)). { rewrite IG, IV, <- Rmult_minus_distr_r, Rabs_mult, (Rabs_pos_eq (b10 (mg - 7))) by lra. reflexivity. }
  assert (b10 mg = b10 7 * b10 (mg - 7)) by (rewrite <- b10_plus; f_equal; lia). assert (b10 7 = 10000000) by (unfold b10; cbn; lra). nra.
Qed.
