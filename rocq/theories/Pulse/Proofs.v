(** Proofs about the times at which the reference pulse is sampled (double precision). *)
From Coq Require Import List ZArith Reals Bool Arith Lia Lra Psatz.
From Flocq Require Import Core BinarySingleNaN.
From Verif.Base Require Import Py PyFacts Lst F64 F64Facts.
From Verif.Pulse Require Import Model.
Import ListNotations.
Local Open Scope R_scope.

Definition T : R := / 1000000000.
Lemma slice_spec : is_finite time_slice = true /\ Rabs (B2R time_slice - T) <= u * T.
Proof.
  assert (P : IZR 4835703278458517 * bpow radix2 (-82) = 4835703278458517 / 4835703278458516698824704) by (cbn; lra).
  destruct (lit_spec 4835703278458517 (-82)) as [A B].
  - rewrite P, Rabs_pos_eq by lra. apply Rle_trans with (bpow radix2 0); [cbn; lra|apply bpow_le; lia].
  - split; [exact A|]. change (B2R time_slice) with (B2R (b64_lit 4835703278458517 (-82))). rewrite B, rnd_fmt.
    + rewrite P. unfold T. rewrite u_val. apply Rabs_le. lra.
    + apply fmt_dyadic; lia.
Qed.

(** Products and quotients of moderate size are rounded with a relative error of at most u. *)
Lemma small : forall x, / 1000000000000 <= x -> bpow radix2 (-1022) <= Rabs x.
Proof. intros x H. rewrite Rabs_pos_eq by lra. apply Rle_trans with (bpow radix2 (-40)); [apply bpow_le; lia|]. cbn. lra. Qed.
Lemma large : forall x, 0 <= x <= 1000000000000000000000000000 -> Rabs x <= bpow radix2 1023.
Proof. intros x H. rewrite Rabs_pos_eq by lra. apply Rle_trans with (bpow radix2 90); [cbn; lra|apply bpow_le; lia]. Qed.
Lemma rnd_near : forall x, / 1000000000000 <= x -> x * (1 - u) <= rnd x <= x * (1 + u).
Proof. intros x H. pose proof (rnd_error x (small x H)) as E. rewrite (Rabs_pos_eq x) in E by lra. apply Rabs_le_inv in E. lra. Qed.

Lemma Rle_div_r : forall a b c, 0 < c -> a * c <= b -> a <= b / c.
Proof. intros a b c C H. apply Rmult_le_reg_r with c; [exact C|]. unfold Rdiv. rewrite Rmult_assoc, Rinv_l by lra. lra. Qed.
Lemma Rle_div_l : forall a b c, 0 < c -> a <= b * c -> a / c <= b.
Proof. intros a b c C H. apply Rmult_le_reg_r with c; [exact C|]. unfold Rdiv. rewrite Rmult_assoc, Rinv_l by lra. lra. Qed.

Section Times.
  Variable r : b64.
  Variable N : Z.
  Hypothesis Fr : is_finite r = true.
  Hypothesis HN : (1 <= N < 2 ^ 32)%Z.
  Let v := bpow radix2 (-50).
  Lemma v_val : v = / 1125899906842624. Proof. reflexivity. Qed.
  Hypothesis Lo : IZR N * T * (1 + v) <= B2R r.
  Hypothesis Hi : B2R r <= (IZR N + 1) * T * (1 - v).

  Lemma NR : 1 <= IZR N <= 4294967296.
  Proof. split; [apply (IZR_le 1); lia|apply (IZR_le N 4294967296); lia]. Qed.
  Lemma slice_near : T * (1 - u) <= B2R time_slice <= T * (1 + u).
  Proof. destruct slice_spec as [_ E]. apply Rabs_le_inv in E. lra. Qed.

  Lemma quotient : is_finite (b64_div r time_slice) = true /\ Ztrunc (B2R (b64_div r time_slice)) = N.
  Proof.
    pose proof NR as Hn. pose proof slice_near as Hs. pose proof v_val as Hv. pose proof u_val as Hu. unfold T in *. rewrite Hu in *. rewrite Hv in *.
    set (s := B2R time_slice) in *. set (n := IZR N) in *.
    assert (S0 : 0 < s) by lra.
    assert (Q1 : n <= B2R r / s) by (apply Rle_div_r; [lra|]; nra).
    assert (Q2 : B2R r / s <= (n + 1) * (1 - / 2251799813685248)) by (apply Rle_div_l; [lra|]; nra).
    destruct (div_spec r time_slice Fr) as [A B]; [fold s; lra|fold s; apply large; nra|]. split; [exact A|]. rewrite B. fold s.
    assert (R1 : n <= rnd (B2R r / s)).
    { replace n with (rnd n) by (apply rnd_fmt, fmt_Z; lia). now apply rnd_le. }
    assert (R2 : rnd (B2R r / s) < n + 1).
    { destruct (rnd_near (B2R r / s)) as [_ E]; [lra|]. rewrite Hu in E. nra. }
    rewrite Ztrunc_floor by lra. apply Zfloor_imp. rewrite plus_IZR. fold n. lra.
  Qed.
  Lemma end_time : let stop := b64_mul (b64_of_Z N) time_slice in is_finite stop = true /\ B2R stop <= B2R r /\ IZR N * T * (1 - u) * (1 - u) <= B2R stop <= IZR N * T * (1 + u) * (1 + u).
  Proof.
    pose proof NR as Hn. pose proof slice_near as Hs. destruct slice_spec as [Fs _]. destruct (of_Z_spec N) as [F E]; [lia|].
    assert (Hu := u_val). assert (Hv := v_val).
    destruct (mul_spec (b64_of_Z N) time_slice F Fs) as [A B]; [rewrite E; apply large; unfold T in *; rewrite Hu in *; nra|]. rewrite E in B. cbv zeta. split; [exact A|]. rewrite B. split.
    - rewrite <- (rnd_fmt (B2R r)) by apply fmt_B2R. apply rnd_le. apply Rle_trans with (2 := Lo). unfold T in *. rewrite Hu, Hv in *. nra.
    - destruct (rnd_near (IZR N * B2R time_slice)) as [R1 R2]; [unfold T in *; rewrite Hu in *; nra|]. rewrite Hu in *. unfold T in *. split; nra.
  Qed.
  (** The k-th time, k < N. *)
  Lemma inner_time : forall k, (0 <= k < N)%Z -> let stop := b64_mul (b64_of_Z N) time_slice in let step := b64_div stop (b64_of_Z N) in
    0 < B2R step /\ is_finite step = true /\ let t := b64_mul (b64_of_Z k) step in is_finite t = true /\ B2R t <= B2R r /\ 0 <= B2R t /\ Rabs (B2R t - IZR k * T) <= v * (IZR k * T).
  Proof.
    intros k Hk stop step. pose proof NR as Hn. destruct end_time as (Fs & _ & S1 & S2). fold stop in Fs, S1, S2. assert (Hu := u_val). assert (Hv := v_val).
    destruct (of_Z_spec N) as [F E]; [lia|]. destruct (of_Z_spec k) as [Fk Ek]; [lia|].
    assert (K : 0 <= IZR k <= IZR N - 1). { split; [apply (IZR_le 0); lia|]. replace (IZR N - 1) with (IZR (N - 1)) by now rewrite minus_IZR. apply IZR_le. lia. }
    set (n := IZR N) in *. set (S := B2R stop) in *. set (kk := IZR k) in *.
    assert (D1 : T * (1 - u) * (1 - u) <= S / n) by (apply Rle_div_r; lra).
    assert (D2 : S / n <= T * (1 + u) * (1 + u)) by (apply Rle_div_l; lra).
    destruct (div_spec stop (b64_of_Z N) Fs) as [A B]; [rewrite E; lra|rewrite E; fold S; apply large; unfold T in *; rewrite Hu in *; lra|].
    rewrite E in B. fold S step in A, B. destruct (rnd_near (S / n)) as [R1 R2]; [unfold T in *; rewrite Hu in *; lra|]. rewrite <- B in R1, R2.
    assert (P : T * (1 - u) * (1 - u) * (1 - u) <= B2R step <= T * (1 + u) * (1 + u) * (1 + u)) by (unfold T in *; rewrite Hu in *; split; nra).
    assert (P0 : 0 < B2R step) by (unfold T in *; rewrite Hu in *; lra).
    split; [exact P0|]. split; [exact A|]. intros t.
    destruct (mul_spec (b64_of_Z k) step Fk A) as [Ft Et]; [rewrite Ek; apply large; unfold T in *; rewrite Hu in *; fold kk; nra|]. fold t in Ft, Et. rewrite Ek in Et. fold kk in Et.
    split; [exact Ft|].
    assert (Z : k = 0%Z \/ 1 <= kk) by (destruct (Z.eq_dec k 0); [now left|right; apply (IZR_le 1); lia]).
    destruct Z as [->|Z].
    - unfold kk in *. rewrite Rmult_0_l, rnd_0 in Et. rewrite Et. unfold T in *. rewrite Hv in *. split; [nra|]. split; [lra|]. rewrite !Rmult_0_l, Rmult_0_r, Rminus_0_r, Rabs_R0. lra.
    - destruct (rnd_near (kk * B2R step)) as [R3 R4]; [unfold T in *; rewrite Hu in *; nra|]. rewrite <- Et in R3, R4.
      assert (P1 : kk * T * (1 - v) <= B2R t) by (apply Rle_trans with (2 := R3); unfold T in *; rewrite Hu, Hv in *; nra).
      assert (P2 : B2R t <= kk * T * (1 + v)) by (apply Rle_trans with (1 := R4); unfold T in *; rewrite Hu, Hv in *; nra).
      split; [|split].
      + unfold T in *. rewrite Hv in *. nra.
      + unfold T in *. rewrite Hv in *. nra.
      + apply Rabs_le. unfold T in *. rewrite Hv in *. nra.
  Qed.
End Times.
