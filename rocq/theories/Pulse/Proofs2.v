(** Proofs: sampling the reference pulse as a whole. *)
From Coq Require Import List ZArith Reals Bool Arith Lia Lra Psatz.
From Flocq Require Import Core BinarySingleNaN.
From Verif.Base Require Import Py PyFacts Lst F64 F64Facts.
From Verif.Pulse Require Import Model Proofs.
Import ListNotations.
Local Open Scope R_scope.

Lemma min_spec : forall t x0, is_finite x0 = true -> (forall x, In x t -> is_finite x = true) ->
  is_finite (fold_left b64_min t x0) = true /\ B2R (fold_left b64_min t x0) <= B2R x0 /\ forall x, In x t -> B2R (fold_left b64_min t x0) <= B2R x.
Proof.
  induction t as [|y t IH]; intros x0 F0 F; cbn [fold_left]; [repeat split; auto; [lra|intros x []]|].
  assert (Fy : is_finite y = true) by (apply F; now left). assert (Ft : forall x, In x t -> is_finite x = true) by (intros; apply F; now right).
  unfold b64_min at 2 4 6. destruct (b64_lt y x0) eqn:E.
  - apply lt_spec in E; auto. destruct (IH y Fy Ft) as (A & B & C). split; [exact A|]. split; [lra|]. intros x [<-|X]; auto.
  - assert (~ B2R y < B2R x0) by (intro H; apply lt_spec in H; auto; congruence). destruct (IH x0 F0 Ft) as (A & B & C). split; [exact A|]. split; [exact B|]. intros x [<-|X]; auto. lra.
Qed.
Lemma max_spec : forall t x0, is_finite x0 = true -> (forall x, In x t -> is_finite x = true) ->
  is_finite (fold_left b64_max t x0) = true /\ B2R x0 <= B2R (fold_left b64_max t x0) /\ forall x, In x t -> B2R x <= B2R (fold_left b64_max t x0).
Proof.
  induction t as [|y t IH]; intros x0 F0 F; cbn [fold_left]; [repeat split; auto; [lra|intros x []]|].
  assert (Fy : is_finite y = true) by (apply F; now left). assert (Ft : forall x, In x t -> is_finite x = true) by (intros; apply F; now right).
  unfold b64_max at 2 4 6. destruct (b64_lt x0 y) eqn:E.
  - apply lt_spec in E; auto. destruct (IH y Fy Ft) as (A & B & C). split; [exact A|]. split; [lra|]. intros x [<-|X]; auto.
  - assert (~ B2R x0 < B2R y) by (intro H; apply lt_spec in H; auto; congruence). destruct (IH x0 F0 Ft) as (A & B & C). split; [exact A|]. split; [exact B|]. intros x [<-|X]; auto. lra.
Qed.

Lemma last_In : forall A (l : list A) x0, l <> [] -> In (last l x0) l.
Proof. induction l as [|a l IH]; intros x0 H; [congruence|]. destruct l as [|b l]; [now left|]. right. apply (IH x0). discriminate. Qed.
Lemma last_default : forall A (l : list A) x y, l <> [] -> last l x = last l y.
Proof. induction l as [|a l IH]; intros x y H; [congruence|]. destruct l as [|b l]; [reflexivity|]. apply IH. discriminate. Qed.

Lemma times_cons : forall refx x0 t, refx = x0 :: t -> sample_times refx =
  (if (List.length refx <? 4)%nat then Raise ValueError
   else do max_sample <- b64_int (b64_div (last refx x0) time_slice);
        do x <- b64_linspace0 (b64_mul (b64_of_Z max_sample) time_slice) (max_sample + 1);
        if existsb (fun v => b64_lt v (fold_left b64_min t x0) || b64_lt (fold_left b64_max t x0) v) x then Raise ValueError else Ok x)%py.
Proof. intros refx x0 t ->. reflexivity. Qed.
Lemma times_spec : forall refx d N, (4 <= List.length refx)%nat -> (forall x, In x refx -> is_finite x = true) ->
  (exists x, In x refx /\ B2R x <= 0) -> (1 <= N < 2 ^ 32)%Z ->
  IZR N * T * (1 + bpow radix2 (-50)) <= B2R (last refx d) <= (IZR N + 1) * T * (1 - bpow radix2 (-50)) ->
  exists ts, sample_times refx = Ok ts /\ List.length ts = S (Z.to_nat N) /\
  forall k t, nth_error ts k = Some t -> is_finite t = true /\ 0 <= B2R t <= B2R (last refx d) /\ Rabs (B2R t - INR k * T) <= bpow radix2 (-50) * (INR k * T).
Proof.
  intros refx d N L F Z HN [Lo Hi]. destruct refx as [|x0 rest] eqn:ER; [cbn in L; lia|]. rewrite <- ER in *.
  assert (NE : refx <> []) by (rewrite ER; discriminate). rewrite (times_cons _ _ _ ER). replace (List.length refx <? 4)%nat with false by (symmetry; apply Nat.ltb_ge; lia).
  rewrite (last_default _ refx x0 d NE). set (r := last refx d) in *.
  assert (Ir : In r refx) by now apply last_In. assert (Fr : is_finite r = true) by auto.
  destruct (quotient r N Fr HN Lo Hi) as [Fq Q]. rewrite int_spec, Q by exact Fq. cbn [bind].
  pose proof (end_time r N HN Lo Hi) as ET. cbv zeta in ET. destruct ET as (Fs & Sr & S1 & S2). set (stop := b64_mul (b64_of_Z N) time_slice) in *.
  unfold b64_linspace0. replace (N + 1 <? 0)%Z with false by (symmetry; apply Z.ltb_ge; lia). replace (N + 1 <=? 1)%Z with false by (symmetry; apply Z.leb_gt; lia).
  replace (N + 1 - 1)%Z with N by lia.
  assert (Fx0 : is_finite x0 = true) by (apply F; rewrite ER; now left).
  assert (Ft : forall x, In x rest -> is_finite x = true) by (intros; apply F; rewrite ER; now right).
  destruct (min_spec rest x0 Fx0 Ft) as (FL & L0 & LL). destruct (max_spec rest x0 Fx0 Ft) as (FH & H0 & HH).
  set (lo := fold_left b64_min rest x0) in *. set (hi := fold_left b64_max rest x0) in *.
  assert (RH : B2R r <= B2R hi) by (rewrite ER in Ir; destruct Ir as [<-|I]; auto).
  assert (RL : B2R lo <= 0) by (destruct Z as (x & X & X0); rewrite ER in X; destruct X as [<-|I]; [lra|specialize (LL x I); lra]).
  assert (B0 : 0 <= B2R stop). { apply Rle_trans with (2 := S1). pose proof (NR N HN). pose proof u_val as Hu. unfold T. rewrite Hu. nra. }
  assert (ST : 0 < B2R (b64_div stop (b64_of_Z N)) /\ is_finite (b64_div stop (b64_of_Z N)) = true) by (destruct (inner_time r N HN Lo Hi 0%Z) as (A & B & _); [lia|]; split; assumption).
  destruct ST as [ST0 STF]. destruct (of_Z_spec 0) as [Fz Ez]; [lia|].
  replace (b64_le (b64_div stop (b64_of_Z N)) (b64_of_Z 0)) with false.
  2: { symmetry. apply not_true_is_false. intro H. apply le_spec in H; auto. rewrite Ez in H. lra. }
  cbn [andb bind].
  set (ts := map (fun k => b64_mul (b64_of_Z (Z.of_nat k)) (b64_div stop (b64_of_Z N))) (seq 0 (Z.to_nat N)) ++ [stop]).
  assert (P : forall k t, nth_error ts k = Some t -> is_finite t = true /\ 0 <= B2R t <= B2R r /\ Rabs (B2R t - INR k * T) <= bpow radix2 (-50) * (INR k * T)).
  { intros k t E. unfold ts in E. destruct (Nat.ltb_spec k (Z.to_nat N)) as [K|K].
    - rewrite nth_error_app1 in E by (rewrite map_length, seq_length; exact K). rewrite nth_error_map, nth_error_seq in E. destruct (Nat.ltb_spec k (Z.to_nat N)) as [_|]; [|lia]. injection E as <-.
      destruct (inner_time r N HN Lo Hi (Z.of_nat k)) as (_ & _ & A & B & C & D); [lia|]. rewrite INR_IZR_INZ. repeat split; auto.
    - rewrite nth_error_app2 in E by (rewrite map_length, seq_length; exact K). rewrite map_length, seq_length in E.
      destruct (k - Z.to_nat N)%nat as [|j] eqn:EK; [|destruct j; discriminate]. injection E as <-. assert (k = Z.to_nat N) by lia. subst k.
      split; [exact Fs|]. split; [split; assumption|]. rewrite INR_IZR_INZ, Z2Nat.id by lia. pose proof (NR N HN). pose proof u_val as Hu. apply Rabs_le. change (bpow radix2 (-50)) with (/ 1125899906842624). unfold T in *. rewrite Hu in *. nra. }
  assert (X : existsb (fun x => b64_lt x lo || b64_lt hi x) ts = false).
  { apply not_true_is_false. intro E. apply existsb_exists in E as (t & I & E). apply In_nth_error in I as (k & I). destruct (P k t I) as (A & [B C] & _).
    apply orb_true_iff in E as [E|E]; apply lt_spec in E; auto; lra. }
  rewrite X. exists ts. split; [reflexivity|]. split; [unfold ts; rewrite app_length, map_length, seq_length; cbn; lia|exact P].
Qed.

(** The number of samples is never off by more than one. *)
Lemma samples_bound : forall r : b64, is_finite r = true -> 0 <= B2R r <= 1 ->
  exists m, b64_int (b64_div r time_slice) = Ok m /\ (0 <= m)%Z /\ IZR m * T * (1 - bpow radix2 (-50)) <= B2R r < (IZR m + 1) * T * (1 + bpow radix2 (-50)).
Proof.
  intros r F R. destruct slice_spec as [Fs _]. pose proof (slice_near) as Hs. assert (Hu := u_val). change (bpow radix2 (-50)) with (/ 1125899906842624). unfold T in *. rewrite Hu in *. set (s := B2R time_slice) in *.
  assert (Q0 : 0 <= B2R r / s) by (apply Rle_div_r; lra). assert (Q1 : B2R r / s <= 2000000000) by (apply Rle_div_l; lra).
  destruct (div_spec r time_slice F) as [A B]; [fold s; lra|fold s; apply large; lra|]. fold s in B. rewrite int_spec by exact A. rewrite B.
  assert (R0 : 0 <= rnd (B2R r / s)) by now apply rnd_nonneg. rewrite Ztrunc_floor by exact R0. exists (Zfloor (rnd (B2R r / s))). split; [reflexivity|].
  set (m := Zfloor (rnd (B2R r / s))). assert (M0 : (0 <= m)%Z) by (apply Zfloor_lub; exact R0). split; [exact M0|].
  pose proof (Zfloor_lb (rnd (B2R r / s))) as LB. pose proof (Zfloor_ub (rnd (B2R r / s))) as UB. fold m in LB, UB.
  assert (EQ : B2R r = B2R r / s * s) by (field; lra). set (q := B2R r / s) in *.
  assert (R2 : rnd q <= 4000000000).
  { rewrite <- (rnd_fmt 4000000000) by (apply (fmt_Z 4000000000); lia). apply rnd_le. lra. }
  assert (M1 : IZR m <= 4000000000) by lra. split.
  - destruct (Z.eq_dec m 0) as [->|N]; [rewrite !Rmult_0_l; lra|]. assert (1 <= IZR m) by (apply (IZR_le 1); lia).
    assert (/ 2 <= q). { destruct (Rle_lt_dec (/ 2) q); [assumption|]. exfalso. assert (rnd q <= / 2); [|lra]. replace (/ 2) with (rnd (/ 2)); [apply rnd_le; lra|]. apply rnd_fmt. apply (fmt_bpow (-1)). lia. }
    destruct (rnd_near q) as [_ E]; [lra|]. rewrite Hu in E. rewrite EQ. nra.
  - assert (q < IZR m + 1). { destruct (Rlt_le_dec q (IZR m + 1)); [assumption|]. exfalso. assert (IZR m + 1 <= rnd q); [|lra]. rewrite <- plus_IZR in *.
      rewrite <- (rnd_fmt (IZR (m + 1))); [now apply rnd_le|]. apply fmt_Z. assert (m <= 4000000000)%Z by (apply le_IZR; exact M1). lia. }
    assert (0 <= IZR m) by (apply (IZR_le 0); lia). rewrite EQ. nra.
Qed.

(** Whole nanoseconds as they are read from a file: the double next to k * 10^-9. *)
Definition whole_ns (k : nat) : b64 := b64_div (b64_of_Z (Z.of_nat k)) (b64_of_Z 1000000000).
Lemma whole_ns_spec : forall k, (Z.of_nat k < 2 ^ 53)%Z -> is_finite (whole_ns k) = true /\ B2R (whole_ns k) = rnd (INR k * T).
Proof.
  intros k K. destruct (of_Z_spec (Z.of_nat k)) as [F E]; [lia|]. destruct (of_Z_spec 1000000000) as [F' E']; [lia|].
  assert (0 <= IZR (Z.of_nat k) <= 9007199254740992) by (split; [apply (IZR_le 0); lia|apply (IZR_le _ 9007199254740992); lia]).
  destruct (div_spec (b64_of_Z (Z.of_nat k)) (b64_of_Z 1000000000) F) as [A B]; [rewrite E'; lra|rewrite E, E'; apply large; lra|]. split; [exact A|]. unfold whole_ns. rewrite B, E, E', INR_IZR_INZ. reflexivity.
Qed.
