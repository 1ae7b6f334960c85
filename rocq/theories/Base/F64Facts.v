(** Facts about double precision arithmetic. *)
From Coq Require Import ZArith Reals Bool Lia Lra.
From Flocq Require Import Core BinarySingleNaN Relative.
From Verif.Base Require Import Py F64.
Local Open Scope R_scope.

Notation fexp64 := (FLT_exp (-1074) 53).
Definition fmt (x : R) : Prop := generic_format radix2 fexp64 x.
Definition rnd (x : R) : R := round radix2 fexp64 ZnearestE x.
Global Instance prec53 : Prec_gt_0 53 := Hprec.

Lemma fexp_eq : forall e, SpecFloat.fexp 53 1024 e = FLT_exp (-1074) 53 e.
Proof. reflexivity. Qed.
Lemma round64 : forall x, round radix2 (SpecFloat.fexp 53 1024) (round_mode mode_NE) x = rnd x.
Proof. reflexivity. Qed.

Lemma rnd_le : forall x y, x <= y -> rnd x <= rnd y.
Proof. intros. apply round_le; auto with typeclass_instances. Qed.
Lemma rnd_fmt : forall x, fmt x -> rnd x = x.
Proof. intros. apply round_generic; auto with typeclass_instances. Qed.
Lemma fmt_rnd : forall x, fmt (rnd x).
Proof. intros. apply generic_format_round; auto with typeclass_instances. Qed.
Lemma fmt_B2R : forall x : b64, fmt (B2R x).
Proof. intros. apply (generic_format_B2R 53 1024). Qed.
Lemma fmt_bpow : forall e, (-1074 <= e)%Z -> fmt (bpow radix2 e).
Proof. intros e E. apply generic_format_bpow. unfold FLT_exp. lia. Qed.
Lemma rnd_0 : rnd 0 = 0.
Proof. apply round_0; auto with typeclass_instances. Qed.
Lemma rnd_opp : forall x, rnd (- x) = - rnd x.
Proof. intros. apply round_NE_opp. Qed.
Lemma rnd_abs_le : forall x e, (-1074 <= e)%Z -> Rabs x <= bpow radix2 e -> Rabs (rnd x) <= bpow radix2 e.
Proof. intros x e E H. apply abs_round_le_generic; auto with typeclass_instances. now apply fmt_bpow. Qed.
Lemma rnd_nonneg : forall x, 0 <= x -> 0 <= rnd x.
Proof. intros. rewrite <- rnd_0. now apply rnd_le. Qed.

(** Integers and dyadic numbers. *)
Lemma fmt_dyadic : forall m e, (Z.abs m < 2 ^ 53)%Z -> (-1074 <= e)%Z -> fmt (IZR m * bpow radix2 e).
Proof. intros m e M E. apply generic_format_FLT. exists (Float radix2 m e); [reflexivity|exact M|exact E]. Qed.
Lemma fmt_Z : forall z, (Z.abs z < 2 ^ 53)%Z -> fmt (IZR z).
Proof. intros z H. replace (IZR z) with (IZR z * bpow radix2 0) by (cbn; lra). apply fmt_dyadic; [exact H|lia]. Qed.

(** The error of one rounding. *)
Definition u : R := bpow radix2 (-53).
Lemma u_val : u = / 9007199254740992.
Proof. reflexivity. Qed.
Lemma rnd_error : forall x, bpow radix2 (-1022) <= Rabs x -> Rabs (rnd x - x) <= u * Rabs x.
Proof.
  intros x H. pose proof (relative_error_N_FLT radix2 (-1074) 53 Hprec (fun x => negb (Z.even x)) x) as E.
  cbn [Z.add Z.opp] in E. specialize (E H). unfold rnd. eapply Rle_trans; [exact E|].
  apply Rmult_le_compat_r; [apply Rabs_pos|]. apply Req_le. unfold u. cbn. lra.
Qed.

(** Operations without overflow: finite, and the rounded result. *)
Section Ops.
  Variables x y : b64.
  Hypothesis Fx : is_finite x = true.
  Hypothesis Fy : is_finite y = true.
  Let big := bpow radix2 1023.
  Lemma below : forall r, Rabs r <= big -> Rlt_bool (Rabs (rnd r)) (bpow radix2 1024) = true.
  Proof.
    intros r H. apply Rlt_bool_true. apply Rle_lt_trans with big; [apply rnd_abs_le; [lia|exact H]|]. apply bpow_lt. lia.
  Qed.
  Lemma add_spec : Rabs (B2R x + B2R y) <= big -> is_finite (b64_add x y) = true /\ B2R (b64_add x y) = rnd (B2R x + B2R y).
  Proof.
    intros H. pose proof (@Bplus_correct 53 1024 Hprec Hmax mode_NE x y Fx Fy) as C. rewrite round64, below in C by exact H. now destruct C as (A & B & _).
  Qed.
  Lemma sub_spec : Rabs (B2R x - B2R y) <= big -> is_finite (b64_sub x y) = true /\ B2R (b64_sub x y) = rnd (B2R x - B2R y).
  Proof.
    intros H. pose proof (@Bminus_correct 53 1024 Hprec Hmax mode_NE x y Fx Fy) as C. rewrite round64, below in C by exact H. now destruct C as (A & B & _).
  Qed.
  Lemma mul_spec : Rabs (B2R x * B2R y) <= big -> is_finite (b64_mul x y) = true /\ B2R (b64_mul x y) = rnd (B2R x * B2R y).
  Proof.
    intros H. pose proof (@Bmult_correct 53 1024 Hprec Hmax mode_NE x y) as C. rewrite round64, below in C by exact H. destruct C as (A & B & _). split; [|exact A].
    unfold b64_mul. now rewrite B, Fx, Fy.
  Qed.
  Lemma div_spec : B2R y <> 0 -> Rabs (B2R x / B2R y) <= big -> is_finite (b64_div x y) = true /\ B2R (b64_div x y) = rnd (B2R x / B2R y).
  Proof.
    intros N H. pose proof (@Bdiv_correct 53 1024 Hprec Hmax mode_NE x y N) as C. rewrite round64, below in C by exact H. destruct C as (A & B & _). split; [|exact A].
    unfold b64_div. now rewrite B, Fx.
  Qed.
  Lemma le_spec : b64_le x y = true <-> B2R x <= B2R y.
  Proof. unfold b64_le. rewrite Bleb_correct by assumption. case Rle_bool_spec; split; intro; (reflexivity || lra || discriminate || assumption). Qed.
  Lemma lt_spec : b64_lt x y = true <-> B2R x < B2R y.
  Proof. unfold b64_lt. rewrite Bltb_correct by assumption. case Rlt_bool_spec; split; intro; (reflexivity || lra || discriminate || assumption). Qed.
End Ops.
Lemma lit_spec : forall m e, Rabs (IZR m * bpow radix2 e) <= bpow radix2 1023 -> is_finite (b64_lit m e) = true /\ B2R (b64_lit m e) = rnd (IZR m * bpow radix2 e).
Proof.
  intros m e H. pose proof (binary_normalize_correct 53 1024 Hprec Hmax mode_NE m e false) as C. cbv zeta in C.
  change (F2R (Float radix2 m e)) with (IZR m * bpow radix2 e) in C. rewrite round64, below in C by exact H. now destruct C as (A & B & _).
Qed.
Lemma of_Z_spec : forall z, (Z.abs z < 2 ^ 53)%Z -> is_finite (b64_of_Z z) = true /\ B2R (b64_of_Z z) = IZR z.
Proof.
  intros z H. assert (E : IZR z * bpow radix2 0 = IZR z) by (cbn; lra). unfold b64_of_Z. destruct (lit_spec z 0) as [A B].
  - rewrite E, <- abs_IZR. apply Rle_trans with (IZR (2 ^ 53)); [apply IZR_le; lia|]. change (IZR (2 ^ 53)) with (IZR (Zpower radix2 53)). rewrite IZR_Zpower by lia. apply bpow_le. lia.
  - split; [exact A|]. rewrite B, E. apply rnd_fmt. now apply fmt_Z.
Qed.
(** Truncation. *)
Lemma trunc_spec : forall x : b64, Btrunc x = Ztrunc (B2R x).
Proof.
  intros x. apply eq_IZR. rewrite (Btrunc_correct 53 1024 Hmax). unfold round, scaled_mantissa, cexp, FIX_exp, F2R. cbn. now rewrite !Rmult_1_r.
Qed.
Lemma int_spec : forall x : b64, is_finite x = true -> b64_int x = Ok (Ztrunc (B2R x)).
Proof. intros x F. destruct x; try discriminate; unfold b64_int; now rewrite trunc_spec. Qed.
