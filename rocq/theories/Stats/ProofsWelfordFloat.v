(** One step of Welford's algorithm with rounding, in R. *)
From Coq Require Import ZArith QArith Qcanon Reals Lia List.
From Flocq Require Import Core Relative Plus_error.
From Verif.Base Require Import Num Fl FlFacts.
From Verif.Stats Require Import ModelWelford ModelWelfordFloat.
From Coq Require Import Lra.
Import ListNotations.
Local Open Scope R_scope.

Definition fx := FLT_exp (-1074) 53.
Definition rnd (x : R) : R := round radix2 fx ZnearestE x.
Definition F (x : R) : Prop := generic_format radix2 fx x.
Definition u : R := bpow radix2 (-53).
Definition t : R := bpow radix2 (-1075).
Local Instance P53 : Prec_gt_0 53.
Proof. reflexivity. Qed.
Local Instance V53 : Valid_exp fx.
Proof. apply FLT_exp_valid. reflexivity. Qed.

Lemma fl64_rnd : forall q, q2r (fl64 q) = rnd (q2r q).
Proof. intros. apply fl_round. Qed.
Lemma rnd_F : forall x, F (rnd x).
Proof. intros. apply generic_format_round; [apply V53|apply valid_rnd_N]. Qed.
Lemma rnd_id : forall x, F x -> rnd x = x.
Proof. intros. apply round_generic; [apply valid_rnd_N|assumption]. Qed.
Lemma rnd_le : forall x y, x <= y -> rnd x <= rnd y.
Proof. intros. apply round_le; [apply V53|apply valid_rnd_N|assumption]. Qed.
Lemma rnd_opp : forall x, rnd (- x) = - rnd x.
Proof. intros. apply round_NE_opp. Qed.
Lemma F_opp : forall x, F x -> F (- x).
Proof. intros. now apply generic_format_opp. Qed.
Lemma F_0 : F 0.
Proof. apply generic_format_0. Qed.
Lemma rnd_0 : rnd 0 = 0.
Proof. apply rnd_id, F_0. Qed.
Lemma u_pos : 0 < u.
Proof. apply bpow_gt_0. Qed.
Lemma t_pos : 0 < t.
Proof. apply bpow_gt_0. Qed.
Lemma u_small : u <= / 1024.
Proof. unfold u. change (/1024) with (bpow radix2 (-10)). apply bpow_le. lia. Qed.
Lemma t_u : forall d, bpow radix2 (-1021) <= d -> t <= u * d.
Proof.
  intros d H. unfold t, u. apply Rle_trans with (bpow radix2 (-53) * bpow radix2 (-1021)).
  - rewrite <- bpow_plus. apply bpow_le. lia.
  - apply Rmult_le_compat_l; [apply bpow_ge_0|exact H].
Qed.
Lemma u_eq : u = / 2 * bpow radix2 (- (53) + 1).
Proof. unfold u. change (/ 2) with (bpow radix2 (-1)). rewrite <- bpow_plus. reflexivity. Qed.
Lemma t_eq : t = / 2 * bpow radix2 (-1074).
Proof. unfold t. change (/ 2) with (bpow radix2 (-1)). rewrite <- bpow_plus. reflexivity. Qed.
Lemma rnd_err : forall x, Rabs (rnd x - x) <= u * Rabs x + t.
Proof.
  intros x. unfold rnd, u, t. destruct (error_N_FLT radix2 (-1074) 53 P53 (fun x => negb (Z.even x)) x) as (eps & eta & E1 & E2 & _ & E).
  unfold fx. rewrite E. replace (x * (1 + eps) + eta - x) with (x * eps + eta) by ring.
  apply Rle_trans with (1 := Rabs_triang _ _). apply Rplus_le_compat.
  - rewrite Rabs_mult, Rmult_comm. apply Rmult_le_compat_r; [apply Rabs_pos|]. apply Rle_trans with (1 := E1). apply Req_le.
    symmetry. exact u_eq.
  - apply Rle_trans with (1 := E2). apply Req_le. symmetry. exact t_eq.
Qed.
(** Differences of doubles have no error from underflow. *)
Lemma rnd_minus : forall x y, F x -> F y -> Rabs (rnd (x - y) - (x - y)) <= u * Rabs (x - y).
Proof.
  intros x y Fx Fy. unfold rnd, Rminus at 2 3 4. destruct (FLT_plus_error_N_ex radix2 (-1074) 53 (fun x => negb (Z.even x)) x (- y) Fx (F_opp y Fy)) as (eps & B & E).
  fold fx in E. change (Znearest (fun x0 : Z => negb (Z.even x0))) with ZnearestE in E. rewrite E. replace ((x + - y) * (1 + eps) - (x + - y)) with ((x + - y) * eps) by ring. rewrite Rabs_mult, Rmult_comm. apply Rmult_le_compat_r; [apply Rabs_pos|].
  apply Rle_trans with (1 := B). replace (u_ro radix2 53) with u.
  - pose proof u_pos. apply Rmult_le_reg_r with (1 + u); [lra|]. unfold Rdiv. rewrite Rmult_assoc, Rinv_l by lra. nra.
  - exact u_eq.
Qed.
Lemma rnd_nonneg : forall x, 0 <= x -> 0 <= rnd x.
Proof. intros x H. rewrite <- rnd_0. now apply rnd_le. Qed.

(** A step of at most half of the rounded difference does not go beyond the sample. *)
Lemma step_le : forall x m y, F x -> F m -> m <= x -> 0 <= y <= rnd (x - m) / 2 -> m + rnd y <= x /\ m + y <= x.
Proof.
  intros x m y Fx Fm L [Y0 Y1]. destruct (Rle_or_lt (Rabs (x - m)) (bpow radix2 (53 + -1074))) as [H|H].
  - assert (FD : F (x - m)) by (apply (FLT_format_plus_small radix2 (-1074) 53); [exact Fx|now apply F_opp|exact H]).
    rewrite (rnd_id _ FD) in Y1. split; [|lra]. assert (rnd y <= x - m); [|lra]. rewrite <- (rnd_id _ FD). apply rnd_le. lra.
  - rewrite Rabs_pos_eq in H by lra. pose proof (rnd_minus x m Fx Fm) as E. rewrite (Rabs_pos_eq (x - m)) in E by lra. apply Rabs_le_inv in E.
    pose proof (rnd_err y) as EY. rewrite (Rabs_pos_eq y) in EY by lra. apply Rabs_le_inv in EY.
    pose proof (t_u (x - m) (Rlt_le _ _ H)) as T. pose proof u_pos. pose proof u_small. set (d := x - m) in *. set (e := rnd d) in *. assert (D0 : 0 < d) by (unfold d in *; pose proof (bpow_gt_0 radix2 (53 + -1074)); lra).
    assert (u * d <= d / 1024) by nra. assert (Y2 : y <= d * (1 + / 1024) / 2) by lra. assert (u * y <= y / 1024) by nra.
    split; unfold d in *; lra.
Qed.

Definition btw (a b c : R) : Prop := (a <= b <= c) \/ (c <= b <= a).
Lemma btw_bounds : forall a b c lo hi, btw a b c -> lo <= a <= hi -> lo <= c <= hi -> lo <= b <= hi.
Proof. unfold btw. intros. lra. Qed.
Lemma btw_rnd : forall a b c, F a -> F c -> btw a b c -> btw a (rnd b) c.
Proof.
  unfold btw. intros a b c Fa Fc [[A B]|[A B]]; [left|right]; (split; [rewrite <- (rnd_id _ Fa) || rewrite <- (rnd_id _ Fc)|rewrite <- (rnd_id _ Fc) || rewrite <- (rnd_id _ Fa)]; apply rnd_le; assumption).
Qed.

(** The step of the mean, rounded or not, with [r] the reciprocal of the count. *)
Lemma step_btw : forall x m r, F x -> F m -> 0 <= r <= / 2 ->
  btw m (m + rnd (rnd (x - m) * r)) x /\ btw m (m + rnd (x - m) * r) x /\ btw 0 (rnd (rnd (x - m) * r)) (rnd (x - m)).
Proof.
  intros x m r Fx Fm R0. destruct (Rle_or_lt m x) as [L|L].
  - assert (D : 0 <= rnd (x - m)) by (apply rnd_nonneg; lra). assert (Y : 0 <= rnd (x - m) * r <= rnd (x - m) / 2) by (split; nra).
    destruct (step_le x m _ Fx Fm L Y) as [A B]. pose proof (rnd_nonneg _ (proj1 Y)). unfold btw. repeat split; try (left; lra).
    left. split; [lra|]. rewrite <- (rnd_id (rnd (x - m))) at 2 by apply rnd_F. apply rnd_le. lra.
  - assert (E : rnd (x - m) = - rnd (- x - - m)) by (rewrite <- rnd_opp; f_equal; ring).
    assert (D : 0 <= rnd (- x - - m)) by (apply rnd_nonneg; lra). assert (Y : 0 <= rnd (- x - - m) * r <= rnd (- x - - m) / 2) by (split; nra).
    destruct (step_le (- x) (- m) _ (F_opp x Fx) (F_opp m Fm) ltac:(lra) Y) as [A B]. pose proof (rnd_nonneg _ (proj1 Y)) as NN. rewrite E.
    assert (E2 : rnd (- rnd (- x - - m) * r) = - rnd (rnd (- x - - m) * r)) by (rewrite <- (rnd_opp (rnd (- x - - m) * r)); f_equal; ring). rewrite E2. clear E2 E. unfold btw. repeat split; try (right; lra).
    right. split; [|lra]. assert (rnd (rnd (- x - - m) * r) <= rnd (rnd (- x - - m))) by (apply rnd_le; lra). rewrite (rnd_id (rnd (- x - - m))) in H by apply rnd_F. lra.
Qed.

(** ** The shape of a step of the model *)
Definition recip (n : nat) (r : R) : Prop := 0 <= r <= / 2 /\ ((Z.of_nat n <= 2 ^ 53)%Z -> Rabs (r - / INR n) <= u * / INR n).
Lemma F_pow : forall e, (-1074 <= e)%Z -> F (bpow radix2 e).
Proof. intros e H. apply generic_format_bpow. unfold fx, FLT_exp. lia. Qed.
Lemma F_nat : forall n, (Z.of_nat n <= 2 ^ 53)%Z -> F (INR n).
Proof.
  intros n H. destruct (Z.eq_dec (Z.of_nat n) (2 ^ 53)) as [E|E].
  - rewrite INR_IZR_INZ, E. apply (F_pow 53). lia.
  - rewrite INR_IZR_INZ. apply generic_format_FLT. exists (Float radix2 (Z.of_nat n) 0); [unfold F2R; cbn; ring|cbn in *; lia|cbn; lia].
Qed.
Lemma INR2 : forall n, (2 <= n)%nat -> 2 <= INR n.
Proof. intros n H. change 2 with (INR 2). now apply le_INR. Qed.
Lemma count_ge : forall n, (2 <= n)%nat -> 2 <= rnd (INR n).
Proof. intros n H. rewrite <- (rnd_id 2); [apply rnd_le; now apply INR2|apply (F_pow 1); lia]. Qed.
Lemma half_inv : forall a, 2 <= a -> 0 <= / a <= / 2.
Proof. intros a H. split; [left; apply Rinv_0_lt_compat; lra|apply Rinv_le; lra]. Qed.
Lemma recip_exact : forall n, (2 <= n)%nat -> recip n (/ rnd (INR n)).
Proof.
  intros n H. split; [apply half_inv, count_ge, H|]. intros S. rewrite (rnd_id _ (F_nat n S)). replace (/ INR n - / INR n) with 0 by ring. rewrite Rabs_R0. apply Rmult_le_pos; [apply Rlt_le, u_pos|apply half_inv, INR2, H].
Qed.
Lemma recip_rnd : forall n, (2 <= n)%nat -> recip n (rnd (/ rnd (INR n))).
Proof.
  intros n H. pose proof (half_inv _ (count_ge n H)) as I. split.
  - split; [apply rnd_nonneg; lra|]. rewrite <- (rnd_id (/ 2)) by (apply (F_pow (-1)); lia). apply rnd_le. lra.
  - intros S. rewrite (rnd_id _ (F_nat n S)). pose proof (half_inv _ (INR2 n H)) as J.
    pose proof (relative_error_N_FLT radix2 (-1074) 53 P53 (fun x => negb (Z.even x)) (/ INR n)) as E. fold fx in E. change (round radix2 fx (Znearest (fun x => negb (Z.even x)))) with rnd in E. rewrite <- u_eq in E. rewrite (Rabs_pos_eq (/ INR n)) in E by lra. apply E. apply Rle_trans with (bpow radix2 (-53)); [apply bpow_le; lia|].
    change (-53)%Z with (- (53))%Z. rewrite bpow_opp. apply Rinv_le; [pose proof (INR2 n H); lra|]. rewrite INR_IZR_INZ. change (bpow radix2 53) with (IZR (2 ^ 53)). now apply IZR_le.
Qed.

Lemma shape : forall w x m c m2 m' c' m2', fwelford w x (m, c, m2) = (m', c', m2') -> (1 <= c)%nat ->
  c' = S c /\
  exists d2,
    (exists r, recip (S c) r /\ (q2r m' = rnd (q2r m + rnd (q2r x - q2r m) * r) \/ q2r m' = rnd (q2r m + rnd (rnd (q2r x - q2r m) * r)))) /\
    (d2 = rnd (q2r x - q2r m') \/ exists r, recip (S c) r /\ (d2 = rnd (rnd (q2r x - q2r m) - rnd (q2r x - q2r m) * r) \/ d2 = rnd (rnd (q2r x - q2r m) - rnd (rnd (q2r x - q2r m) * r)))) /\
    (q2r m2' = rnd (q2r m2 + rnd (q2r x - q2r m) * d2) \/ q2r m2' = rnd (q2r m2 + rnd (rnd (q2r x - q2r m) * d2))).
Proof.
  intros w x m c m2 m' c' m2' E C. unfold fwelford in E. cbv zeta in E. set (d := fl64 (x - m)) in *. set (n := fl64 (qn (S c))) in *.
  assert (En : q2r n = rnd (INR (S c))) by (unfold n; now rewrite fl64_rnd, q2r_qn).
  assert (Nn : n <> 0%Qc). { intro Z. rewrite Z, q2r_0 in En. pose proof (count_ge (S c) ltac:(lia)). lra. }
  assert (Er : q2r (fl64 (1 / n)) = rnd (/ rnd (INR (S c)))). { rewrite fl64_rnd, q2r_div, q2r_1, En by exact Nn. f_equal. unfold Rdiv. ring. }
  assert (Ed : q2r d = rnd (q2r x - q2r m)) by (unfold d; now rewrite fl64_rnd, q2r_minus).
  set (r := fl64 (1 / n)) in *. pose proof (recip_exact (S c) ltac:(lia)) as RE. pose proof (recip_rnd (S c) ltac:(lia)) as RR. rewrite <- En in RE, RR. rewrite <- En in Er. rewrite <- Er in RR.
  set (q := if reciprocal w then fl64 (d * r) else fl64 (d / n)) in *.
  assert (Eq : exists rr, recip (S c) rr /\ q2r q = rnd (q2r d * rr)).
  { unfold q. destruct (reciprocal w).
    - exists (q2r r). split; [exact RR|]. now rewrite fl64_rnd, q2r_mult.
    - exists (/ q2r n). split; [exact RE|]. now rewrite fl64_rnd, q2r_div by exact Nn. }
  set (mm := if fuse_mean w then fl64 (m + d * r) else fl64 (m + q)) in *.
  set (d2 := match second_way w with FromMean => fl64 (x - mm) | FromStep => fl64 (d - q) | Fused => fl64 (d - d * r) end) in *.
  injection E as E1 E2 E3. split; [symmetry; exact E2|]. exists (q2r d2). rewrite <- Ed. rewrite <- E1, <- E3. repeat split.
  - unfold mm. destruct (fuse_mean w).
    + exists (q2r r). split; [exact RR|]. left. now rewrite fl64_rnd, q2r_plus, q2r_mult.
    + destruct Eq as (rr & A & B). exists rr. split; [exact A|]. right. rewrite fl64_rnd, q2r_plus, B. reflexivity.
  - unfold d2. destruct (second_way w).
    + left. now rewrite fl64_rnd, q2r_minus.
    + right. destruct Eq as (rr & A & B). exists rr. split; [exact A|]. right. rewrite fl64_rnd, q2r_minus, B. reflexivity.
    + right. exists (q2r r). split; [exact RR|]. left. now rewrite fl64_rnd, q2r_minus, q2r_mult.
  - destruct (fuse_m2 w); [left|right]; now rewrite ?fl64_rnd, q2r_plus, ?fl64_rnd, q2r_mult.
Qed.
