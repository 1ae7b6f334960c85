(** The double precision product in Waveform.t_cpu is exact. *)
From Coq Require Import ZArith Reals Bool Lia Lra.
From Flocq Require Import Core BinarySingleNaN.
From Verif.Reader Require Import Model.
Local Open Scope Z_scope.

Notation fmt := (generic_format radix2 (SpecFloat.fexp 53 1024)).

Lemma fmt_int : forall m e, Z.abs m < 2 ^ 53 -> 0 <= e -> fmt (IZR (m * 2 ^ e)).
Proof.
  intros m e Hm He. unfold SpecFloat.fexp, SpecFloat.emin. change (generic_format radix2 (FLT_exp (3 - 1024 - 53) 53) (IZR (m * 2 ^ e))).
  apply generic_format_FLT. exists (Float radix2 m e).
  - unfold F2R. cbn [Fnum Fexp]. rewrite mult_IZR. f_equal. rewrite <- IZR_Zpower by auto. reflexivity.
  - exact Hm.
  - cbn [Fexp]. lia.
Qed.

Lemma small_lt_emax : forall z, Z.abs z < 2 ^ 64 -> (Rabs (IZR z) < bpow radix2 1024)%R.
Proof.
  intros z H. rewrite <- abs_IZR. apply Rlt_trans with (IZR (2 ^ 64)); [now apply IZR_lt|].
  change (IZR (2 ^ 64)) with (IZR (Zpower radix2 64)). rewrite IZR_Zpower by lia. apply bpow_lt. lia.
Qed.

Lemma b64_of_Z_exact : forall z, Z.abs z < 2 ^ 53 -> B2R (b64_of_Z z) = IZR z.
Proof.
  intros z H. unfold b64_of_Z.
  assert (F2R (Float radix2 z 0) = IZR z) as E by (unfold F2R; cbn; lra).
  pose proof (binary_normalize_correct 53 1024 Hprec Hmax mode_NE z 0 false) as C. cbv zeta in C. rewrite E in C.
  rewrite round_generic in C.
  - rewrite Rlt_bool_true in C; [apply C|]. apply small_lt_emax. lia.
  - apply valid_rnd_round_mode.
  - replace z with (z * 2 ^ 0) by lia. apply fmt_int; auto. lia.
Qed.

Lemma product_exact : forall s, 0 <= s < 2 ^ 32 ->
  B2R (b64_mult (b64_of_Z s) (b64_of_Z 1000000000)) = IZR (s * 1000000000).
Proof.
  intros s H. unfold b64_mult.
  pose proof (Bmult_correct 53 1024 Hprec Hmax mode_NE (b64_of_Z s) (b64_of_Z 1000000000)) as C.
  rewrite !b64_of_Z_exact, <- mult_IZR in C by lia.
  rewrite round_generic in C.
  - rewrite Rlt_bool_true in C; [apply C|]. apply small_lt_emax. lia.
  - apply valid_rnd_round_mode.
  - replace (s * 1000000000) with (s * 1953125 * 2 ^ 9) by lia. apply fmt_int; lia.
Qed.

Lemma wrap64_id : forall z, - 2 ^ 63 <= z < 2 ^ 63 -> wrap64 z = z.
Proof. intros z H. unfold wrap64. rewrite Z.mod_small by lia. lia. Qed.

Lemma c27 : forall s ns, 0 <= s < 2 ^ 32 -> 0 <= ns < 2 ^ 32 -> t_cpu s ns = s * 1000000000 + ns.
Proof.
  intros s ns Hs Hn. unfold t_cpu, int64_of_b64.
  assert (Btrunc (b64_mult (b64_of_Z s) (b64_of_Z 1000000000)) = s * 1000000000) as ->.
  { apply eq_IZR. rewrite Btrunc_correct by (exact Hmax). rewrite product_exact by auto.
    apply round_generic; [apply valid_rnd_ZR|].
    apply generic_format_FIX. exists (Float radix2 (s * 1000000000) 0); [|reflexivity]. unfold F2R. cbn. lra. }
  rewrite (wrap64_id (s * 1000000000)), (wrap64_id ns), wrap64_id; lia.
Qed.

Lemma c27_order : forall s ns s' ns', 0 <= s < 2 ^ 32 -> 0 <= s' < 2 ^ 32 ->
  0 <= ns < 1000000000 -> 0 <= ns' < 1000000000 ->
  (t_cpu s ns < t_cpu s' ns' <-> s < s' \/ s = s' /\ ns < ns') /\
  (t_cpu s ns = t_cpu s' ns' <-> s = s' /\ ns = ns').
Proof. intros. rewrite !c27 by lia. lia. Qed.
