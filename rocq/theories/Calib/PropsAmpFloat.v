(** Property C112: amplitude calibration and illumination profile in double precision. *)
From Coq Require Import List ZArith QArith Qcanon Bool Arith Lia Reals.
From Flocq Require Import Core.
From Verif.Base Require Import Py PyFacts Num Lst Fl FlFacts.
From Verif.Calib Require Import Model Proofs ModelShipped ModelAmpFloat.
From Coq Require Import Lra.
Import ListNotations.
Local Open Scope list_scope.
Local Open Scope Qc_scope.

Notation u := (bpow radix2 (-53)).
Notation t := (bpow radix2 (-1075)).
Lemma e64 : forall q, (Rabs (q2r (fl64 q) - q2r q) <= u * Rabs (q2r q) + t)%R.
Proof. intro q. exact (fl_error 53 (-1074) ltac:(lia) q). Qed.
Lemma u_small : (0 < u <= / 1000)%R.
Proof. split; [apply bpow_gt_0|]. apply Rle_trans with (bpow radix2 (-10)); [apply bpow_le; lia|]. cbn. lra. Qed.
Lemma t_pos : (0 < t)%R.
Proof. apply bpow_gt_0. Qed.
Lemma fl64_le : forall a b, a <= b -> fl64 a <= fl64 b.
Proof. intros a b H. apply q2r_le. apply fl_le; [lia|]. now apply q2r_le. Qed.
Lemma fl64_0 : fl64 0 = 0.
Proof. apply Qc_is_canon, Qeq_bool_iff. vm_compute. reflexivity. Qed.

(** ** AmplitudeCalibrator *)
(** The pedestal gives exactly 0. *)
Theorem C112_pedestal : forall ff pedestal conversion pixel p f, nth_error pedestal pixel = Some p -> nth_error ff pixel = Some f -> fl_calibrate ff pedestal conversion p pixel = Ok 0.
Proof.
  intros ff pedestal conversion pixel p f P F. unfold fl_calibrate. rewrite P, F. f_equal. replace (p - p) with 0 by ring. rewrite fl64_0. replace (0 / conversion) with 0 by (unfold Qcdiv; ring). rewrite fl64_0. replace (0 * f) with 0 by ring. apply fl64_0.
Qed.
Print Assumptions C112_pedestal.
(** Larger values of a pixel never give smaller amplitudes; values above the pedestal give nonnegative amplitudes and values below nonpositive ones. *)
Theorem C112_monotone : forall ff pedestal conversion pixel f v1 v2 a1 a2, 0 < conversion -> nth_error ff pixel = Some f -> 0 <= f -> v1 <= v2 ->
  fl_calibrate ff pedestal conversion v1 pixel = Ok a1 -> fl_calibrate ff pedestal conversion v2 pixel = Ok a2 -> a1 <= a2.
Proof.
  intros ff pedestal conversion pixel f v1 v2 a1 a2 C F F0 V. unfold fl_calibrate. rewrite F. destruct (nth_error pedestal pixel) as [p|]; [|discriminate]. intros E1 E2. injection E1 as <-. injection E2 as <-.
  apply fl64_le, Qcmult_le_compat_r; [|exact F0]. apply fl64_le. unfold Qcdiv. apply Qcmult_le_compat_r; [|apply Qclt_le_weak; apply q2r_lt; rewrite q2r_0, q2r_inv by (intro X; rewrite X in C; apply q2r_lt in C; lra); apply Rinv_0_lt_compat; apply q2r_lt in C; now rewrite q2r_0 in C].
  apply fl64_le. apply q2r_le. rewrite !q2r_minus. apply q2r_le in V. lra.
Qed.
Print Assumptions C112_monotone.
Lemma two_step : forall a a' e d, (Rabs (a' - a) <= e * Rabs a + d -> Rabs a' <= (1 + e) * Rabs a + d)%R.
Proof. intros a a' e d H. replace a' with (a + (a' - a))%R by ring. eapply Rle_trans; [apply Rabs_triang|]. lra. Qed.
(** The amplitude differs from the exact one by at most four units of rounding (and of underflow). *)
Theorem C112_calibrate_error : forall ff pedestal conversion pixel p f v a, conversion <> 0 -> nth_error pedestal pixel = Some p -> nth_error ff pixel = Some f ->
  fl_calibrate ff pedestal conversion v pixel = Ok a ->
  let x := (v - p) / conversion * f in (Rabs (q2r a - q2r x) <= 4 * u * Rabs (q2r x) + t * (2 * Rabs (q2r f) / Rabs (q2r conversion) + 2 * Rabs (q2r f) + 1))%R.
Proof.
  intros ff pedestal conversion pixel p f v a C P F E x. unfold fl_calibrate in E. rewrite P, F in E. injection E as <-. unfold x. clear x P F.
  pose proof (e64 (v - p)) as A. set (s := v - p) in *. clearbody s. pose proof (e64 (fl64 s / conversion)) as B. pose proof (e64 (fl64 (fl64 s / conversion) * f)) as D.
  revert A B D. generalize (fl64 (fl64 (fl64 s / conversion) * f)). generalize (fl64 (fl64 s / conversion)). generalize (fl64 s). intros s' d' a A B D.
  rewrite q2r_mult in D. rewrite q2r_div in B by exact C. rewrite q2r_mult, q2r_div by exact C. pose proof u_small as U. pose proof t_pos as T. assert (C' : q2r conversion <> 0%R) by (intro X; apply C, q2r_eq; now rewrite q2r_0).
  revert U T A B D. generalize u, t. generalize dependent (q2r conversion). generalize (q2r f), (q2r a), (q2r d'), (q2r s'), (q2r s). clear. intros f a d' s' s c C u t U T A B D.
  assert (C0 : (0 < / Rabs c)%R) by (apply Rinv_0_lt_compat, Rabs_pos_lt; exact C). unfold Rdiv in *. rewrite !Rabs_mult in *. rewrite Rabs_Rinv in * by exact C. set (k := (/ Rabs c)%R) in *. set (h := Rabs f) in *. assert (H0 : (0 <= h)%R) by apply Rabs_pos.
  assert (E1 : (Rabs (s' * / c * f - s * / c * f) <= (u * Rabs s + t) * (k * h))%R). { replace (s' * / c * f - s * / c * f)%R with ((s' - s) * (/ c * f))%R by ring. rewrite !Rabs_mult, Rabs_Rinv by exact C. fold k h. apply Rmult_le_compat_r; [apply Rmult_le_pos; lra|exact A]. }
  assert (E2 : (Rabs (d' * f - s' * / c * f) <= (u * (Rabs s' * k) + t) * h)%R). { replace (d' * f - s' * / c * f)%R with ((d' - s' * / c) * f)%R by ring. rewrite Rabs_mult. fold h. apply Rmult_le_compat_r; [exact H0|exact B]. }
  assert (S' : (Rabs s' * (k * h) <= ((1 + u) * Rabs s + t) * (k * h))%R) by (apply Rmult_le_compat_r; [apply Rmult_le_pos; lra|now apply two_step]).
  assert (B' : (Rabs d' * h <= ((1 + u) * (Rabs s' * k) + t) * h)%R). { apply Rmult_le_compat_r; [exact H0|]. pose proof (two_step (s' * / c) d' u t) as X. rewrite Rabs_mult, Rabs_Rinv in X by exact C. fold k in X. exact (X B). }
  replace (a - s * / c * f)%R with ((a - d' * f) + ((d' * f - s' * / c * f) + (s' * / c * f - s * / c * f)))%R by ring. eapply Rle_trans; [apply Rabs_triang|]. eapply Rle_trans; [apply Rplus_le_compat_l, Rabs_triang|].
  set (m := (Rabs s * (k * h))%R). assert (M0 : (0 <= m)%R) by (apply Rmult_le_pos; [apply Rabs_pos|apply Rmult_le_pos; lra]). assert (KH : (0 <= k * h)%R) by (apply Rmult_le_pos; lra).
  set (kh := (k * h)%R) in *. set (sk := (Rabs s' * kh)%R) in *.
  assert (X1 : (sk <= (1 + u) * m + t * kh)%R) by (unfold m; lra).
  assert (X2 : (Rabs d' * h <= (1 + u) * sk + t * h)%R) by (unfold sk, kh; lra).
  assert (X3 : (Rabs (a - d' * f) <= u * ((1 + u) * sk + t * h) + t)%R). { eapply Rle_trans; [exact D|]. apply Rplus_le_compat_r, Rmult_le_compat_l; [lra|exact X2]. }
  assert (X4 : (Rabs (d' * f - s' * / c * f) <= u * sk + t * h)%R) by (unfold sk, kh; lra).
  assert (X5 : (Rabs (s' * / c * f - s * / c * f) <= u * m + t * kh)%R) by (unfold m; lra).
  assert (UU : (0 <= u * u <= u * / 1000)%R) by (split; [apply Rmult_le_pos; lra|apply Rmult_le_compat_l; lra]).
  assert (Y1 : ((u * (1 + u) + u) * sk <= (u * (1 + u) + u) * ((1 + u) * m + t * kh))%R) by (apply Rmult_le_compat_l; [nra|exact X1]).
  assert (W1 : ((u * (1 + u) + u) * (1 + u) * m <= 3 * u * m)%R). { apply Rmult_le_compat_r; [exact M0|]. nra. }
  assert (W2 : ((u * (1 + u) + u) * (t * kh) <= t * kh)%R). { rewrite <- (Rmult_1_l (t * kh)) at 2. apply Rmult_le_compat_r; [apply Rmult_le_pos; lra|]. lra. }
  assert (W3 : (u * (t * h) <= t * h)%R). { rewrite <- (Rmult_1_l (t * h)) at 2. apply Rmult_le_compat_r; [apply Rmult_le_pos; lra|]. lra. }
  replace (Rabs s * k * h)%R with m by (unfold m, kh; ring). replace (2 * h * k)%R with (2 * kh)%R by (unfold kh; ring). lra.
Qed.
Print Assumptions C112_calibrate_error.

(** ** IlluminationProfile *)
Lemma nth_pairs : forall (A : Type) (g : A * A -> A) (a b : list A) i (x y d : A), nth_error a i = Some x -> nth_error b i = Some y -> nth i (map g (combine a b)) d = g (x, y).
Proof.
  intros A g a. induction a as [|x a IH]; intros [|y b] [|i] x' y' d H1 H2; cbn in *; try discriminate.
  - now injection H1 as <-; injection H2 as <-.
  - now apply IH.
Qed.
Lemma nth_pairs_error : forall (A : Type) (g : A * A -> A) (a b : list A) i (x y : A), nth_error a i = Some x -> nth_error b i = Some y -> nth_error (map g (combine a b)) i = Some (g (x, y)).
Proof.
  intros A g a. induction a as [|x a IH]; intros [|y b] [|i] x' y' H1 H2; cbn in *; try discriminate.
  - now injection H1 as <-; injection H2 as <-.
  - now apply IH.
Qed.
Lemma fold_unfold_real : forall x p, p <> 0 -> (Rabs (q2r (fl64 (fl64 (x / p) * p)) - q2r x) <= 3 * u * Rabs (q2r x) + t * (2 * Rabs (q2r p) + 1))%R.
Proof.
  intros x p N. pose proof (e64 (x / p)) as A. pose proof (e64 (fl64 (x / p) * p)) as B. revert A B. generalize (fl64 (fl64 (x / p) * p)). generalize (fl64 (x / p)). intros y z A B. rewrite q2r_div in A by exact N. rewrite q2r_mult in B.
  assert (N' : q2r p <> 0%R) by (intro X; apply N, q2r_eq; now rewrite q2r_0). pose proof u_small as U. pose proof t_pos as T. revert A B U T. generalize u, t. generalize dependent (q2r p). generalize (q2r x), (q2r y), (q2r z). clear. intros x y z p P u t A B U T.
  assert (E : (Rabs (y * p - x) <= u * Rabs x + t * Rabs p)%R). { replace (y * p - x)%R with ((y - x / p) * p)%R by (field; exact P). rewrite Rabs_mult. eapply Rle_trans; [apply Rmult_le_compat_r; [apply Rabs_pos|exact A]|]. rewrite Rmult_plus_distr_r, Rmult_assoc, <- Rabs_mult. replace (x / p * p)%R with x by (field; exact P). lra. }
  pose proof (two_step _ _ _ _ E) as E'. pose proof (Rabs_pos x) as X0. pose proof (Rabs_pos p) as P0. replace (z - x)%R with ((z - y * p) + (y * p - x))%R by ring. eapply Rle_trans; [apply Rabs_triang|].
  assert (u * Rabs (y * p) <= u * ((1 + u) * Rabs x + t * Rabs p))%R by (apply Rmult_le_compat_l; lra).
  assert (u * u * Rabs x <= u * / 1000 * Rabs x)%R by (apply Rmult_le_compat_r; [lra|apply Rmult_le_compat_l; lra]). assert (0 <= u * Rabs x)%R by (apply Rmult_le_pos; lra).
  assert (0 <= t * Rabs p)%R by (apply Rmult_le_pos; lra). assert (u * (t * Rabs p) <= 1 * (t * Rabs p))%R by (apply Rmult_le_compat_r; lra). lra.
Qed.
Lemma unfold_fold_real : forall x p, p <> 0 -> (Rabs (q2r (fl64 (fl64 (x * p) / p)) - q2r x) <= 3 * u * Rabs (q2r x) + t * (2 / Rabs (q2r p) + 1))%R.
Proof.
  intros x p N. pose proof (e64 (x * p)) as A. pose proof (e64 (fl64 (x * p) / p)) as B. revert A B. generalize (fl64 (fl64 (x * p) / p)). generalize (fl64 (x * p)). intros y z A B. rewrite q2r_div in B by exact N. rewrite q2r_mult in A.
  assert (N' : q2r p <> 0%R) by (intro X; apply N, q2r_eq; now rewrite q2r_0). pose proof u_small as U. pose proof t_pos as T. revert A B U T. generalize u, t. generalize dependent (q2r p). generalize (q2r x), (q2r y), (q2r z). clear. intros x y z p P u t A B U T.
  assert (P1 : (0 < / Rabs p)%R) by (apply Rinv_0_lt_compat, Rabs_pos_lt; exact P).
  assert (E : (Rabs (y / p - x) <= u * Rabs x + t * / Rabs p)%R). { replace (y / p - x)%R with ((y - x * p) * / p)%R by (field; exact P). rewrite Rabs_mult, Rabs_Rinv by exact P. eapply Rle_trans; [apply Rmult_le_compat_r; [lra|exact A]|]. rewrite Rabs_mult. right. field. apply Rabs_no_R0. exact P. }
  pose proof (two_step _ _ _ _ E) as E'. pose proof (Rabs_pos x) as X0. unfold Rdiv in *. set (k := (/ Rabs p)%R) in *. replace (z - x)%R with ((z - y * / p) + (y * / p - x))%R by ring. eapply Rle_trans; [apply Rabs_triang|].
  assert (u * Rabs (y * / p) <= u * ((1 + u) * Rabs x + t * k))%R by (apply Rmult_le_compat_l; lra).
  assert (u * u * Rabs x <= u * / 1000 * Rabs x)%R by (apply Rmult_le_compat_r; [lra|apply Rmult_le_compat_l; lra]). assert (0 <= u * Rabs x)%R by (apply Rmult_le_pos; lra).
  assert (0 <= t * k)%R by (apply Rmult_le_pos; lra). assert (u * (t * k) <= 1 * (t * k))%R by (apply Rmult_le_compat_r; lra). lra.
Qed.
(** Folding an unfolded image, and unfolding a folded one, gives it back up to three units of rounding. *)
Theorem C112_fold_unfold : forall profile image i x p, nth_error image i = Some x -> nth_error profile i = Some p -> p <> 0 ->
  exists y, nth_error (fl_fold profile (fl_unfold profile image)) i = Some y /\ (Rabs (q2r y - q2r x) <= 3 * u * Rabs (q2r x) + t * (2 * Rabs (q2r p) + 1))%R.
Proof.
  intros profile image i x p X P N. eexists. split; [|exact (fold_unfold_real x p N)]. unfold fl_fold, fl_unfold. rewrite (nth_pairs_error _ _ _ _ i (fl64 (x / p)) p); [reflexivity| |exact P]. now rewrite (nth_pairs_error _ _ _ _ i x p).
Qed.
Print Assumptions C112_fold_unfold.
Theorem C112_unfold_fold : forall profile image i x p, nth_error image i = Some x -> nth_error profile i = Some p -> p <> 0 ->
  exists y, nth_error (fl_unfold profile (fl_fold profile image)) i = Some y /\ (Rabs (q2r y - q2r x) <= 3 * u * Rabs (q2r x) + t * (2 / Rabs (q2r p) + 1))%R.
Proof.
  intros profile image i x p X P N. eexists. split; [|exact (unfold_fold_real x p N)]. unfold fl_fold, fl_unfold. rewrite (nth_pairs_error _ _ _ _ i (fl64 (x * p)) p); [reflexivity| |exact P]. now rewrite (nth_pairs_error _ _ _ _ i x p).
Qed.
Print Assumptions C112_unfold_fold.

(** ** Images in single precision *)
(** A number close to one in single precision is rounded to it. *)
Lemma back_single : forall x y, fl32 x = x -> (Rabs (q2r y - q2r x) <= 3 * u * Rabs (q2r x) + 5 * t)%R -> x <> 0 -> fl32 y = x.
Proof.
  intros x y F H N. apply q2r_eq. unfold fl32 in *. rewrite fl_round. set (fexp := FLT_exp (-149) 24). assert (G : generic_format radix2 fexp (q2r x)). { rewrite <- F, fl_round. apply generic_format_round; [apply FLT_exp_valid; red; lia|apply valid_rnd_N]. }
  assert (X0 : q2r x <> 0%R) by (intro X; apply N, q2r_eq; now rewrite q2r_0). clear F N. revert H G X0. generalize (q2r x), (q2r y). clear. intros x y H G X0. set (z := round radix2 fexp ZnearestE y).
  assert (V : Valid_exp fexp) by (apply FLT_exp_valid; red; lia). assert (GZ : generic_format radix2 fexp z) by (apply generic_format_round; [exact V|apply valid_rnd_N]).
  assert (NE : (Rabs (z - y) <= Rabs (x - y))%R). { destruct (round_N_pt radix2 fexp (fun k => negb (Z.even k)) y) as [_ NP]. now apply NP. }
  assert (D : (Rabs (z - x) <= 6 * u * Rabs x + 10 * t)%R). { replace (z - x)%R with ((z - y) + (y - x))%R by ring. eapply Rle_trans; [apply Rabs_triang|]. rewrite Rabs_minus_sym in H. rewrite (Rabs_minus_sym y x). lra. }
  set (M := mag radix2 x : Z). assert (XM : (bpow radix2 (M - 1) <= Rabs x < bpow radix2 M)%R) by (unfold M; destruct (mag radix2 x) as [m Hm]; cbn; now apply Hm).
  assert (CX : (-149 <= cexp radix2 fexp x)%Z) by (unfold cexp, fexp, FLT_exp; lia).
  assert (XT : (bpow radix2 (-149) <= Rabs x)%R). { apply Rle_trans with (bpow radix2 (cexp radix2 fexp x)); [now apply bpow_le|]. rewrite G at 2. unfold F2R. cbn [Fnum Fexp]. rewrite Rabs_mult, (Rabs_pos_eq (bpow _ _)) by apply bpow_ge_0. rewrite <- (Rmult_1_l (bpow radix2 (cexp radix2 fexp x))) at 1. apply Rmult_le_compat_r; [apply bpow_ge_0|]. rewrite <- abs_IZR. apply IZR_le. assert (Ztrunc (scaled_mantissa radix2 fexp x) <> 0)%Z; [|lia]. intro E. apply X0. rewrite G, E. unfold F2R. cbn. ring. }
  assert (T1 : (10 * t <= / 8 * bpow radix2 (-149))%R). { replace (bpow radix2 (-149)) with (bpow radix2 926 * t)%R by (rewrite <- bpow_plus; reflexivity). assert (80 <= bpow radix2 926)%R. { apply Rle_trans with (bpow radix2 7); [cbn; lra|apply bpow_le; lia]. } pose proof t_pos. assert (80 * t <= bpow radix2 926 * t)%R by (apply Rmult_le_compat_r; lra). lra. }
  assert (U1 : (6 * u <= / 8 * bpow radix2 (-25))%R). { replace (bpow radix2 (-25)) with (bpow radix2 28 * u)%R by (rewrite <- bpow_plus; reflexivity). assert (48 <= bpow radix2 28)%R. { apply Rle_trans with (bpow radix2 7); [cbn; lra|apply bpow_le; lia]. } pose proof u_small. assert (48 * u <= bpow radix2 28 * u)%R by (apply Rmult_le_compat_r; lra). lra. }
  assert (B25 : (0 < bpow radix2 (-25) <= / 1000)%R). { split; [apply bpow_gt_0|]. apply Rle_trans with (bpow radix2 (-10)); [apply bpow_le; lia|cbn; lra]. }
  pose proof (Rabs_pos x) as AX. assert (D1 : (6 * u * Rabs x <= / 8 * (bpow radix2 (-25) * Rabs x))%R). { rewrite <- Rmult_assoc. apply Rmult_le_compat_r; [exact AX|exact U1]. }
  assert (D2 : (bpow radix2 (-25) * Rabs x <= / 1000 * Rabs x)%R) by (apply Rmult_le_compat_r; lra).
  assert (ZH : (/ 2 * Rabs x <= Rabs z)%R). { pose proof (Rabs_triang_inv x (x - z)) as Q. replace (x - (x - z))%R with z in Q by ring. rewrite (Rabs_minus_sym x z) in Q. lra. }
  assert (MZ : (M - 1 <= mag radix2 z)%Z). { apply mag_ge_bpow. apply Rle_trans with (2 := ZH). replace (M - 1 - 1)%Z with (-1 + (M - 1))%Z by ring. rewrite bpow_plus. change (bpow radix2 (-1)) with (/ 2)%R. lra. }
  set (e := Z.max (M - 25) (-149)). assert (EX : (e <= cexp radix2 fexp x)%Z) by (unfold e, cexp, fexp, FLT_exp; fold M; lia). assert (EZ : (e <= cexp radix2 fexp z)%Z) by (unfold e, cexp, fexp, FLT_exp; lia).
  assert (MU : forall w, generic_format radix2 fexp w -> (e <= cexp radix2 fexp w)%Z -> exists k, w = (IZR k * bpow radix2 e)%R). { intros w GW L. exists (Ztrunc (scaled_mantissa radix2 fexp w) * 2 ^ (cexp radix2 fexp w - e))%Z. rewrite GW at 1. unfold F2R. cbn [Fnum Fexp]. rewrite mult_IZR, (IZR_Zpower radix2) by lia. rewrite Rmult_assoc, <- bpow_plus. do 2 f_equal. lia. }
  destruct (MU x G EX) as [kx KX]. destruct (MU z GZ EZ) as [kz KZ]. destruct (Z.eq_dec kx kz) as [E|E]; [congruence|exfalso].
  assert (L : (bpow radix2 e <= Rabs (z - x))%R). { rewrite KX, KZ, <- Rmult_minus_distr_r, Rabs_mult, (Rabs_pos_eq (bpow _ _)) by apply bpow_ge_0. rewrite <- (Rmult_1_l (bpow radix2 e)) at 1. apply Rmult_le_compat_r; [apply bpow_ge_0|]. rewrite <- minus_IZR, <- abs_IZR. apply IZR_le. lia. }
  assert (L1 : (bpow radix2 (M - 25) <= bpow radix2 e)%R) by (apply bpow_le; lia). assert (L2 : (bpow radix2 (-149) <= bpow radix2 e)%R) by (apply bpow_le; lia).
  assert (L3 : (bpow radix2 (-25) * Rabs x <= bpow radix2 (M - 25))%R). { replace (M - 25)%Z with (-25 + M)%Z by ring. rewrite bpow_plus. apply Rmult_le_compat_l; lra. }
  pose proof (bpow_gt_0 radix2 e). lra.
Qed.
(** An image in single precision is recovered exactly when the result is stored in single precision again, for profiles between 1/2 and 2. *)
Theorem C112_single : forall profile image i x p, nth_error image i = Some x -> nth_error profile i = Some p -> fl32 x = x -> Q2Qc (1 # 2) <= p -> p <= qz 2 ->
  exists y z, nth_error (fl_fold profile (fl_unfold profile image)) i = Some y /\ nth_error (fl_unfold profile (fl_fold profile image)) i = Some z /\ fl32 y = x /\ fl32 z = x.
Proof.
  intros profile image i x p X P F P1 P2. apply q2r_le in P1, P2. rewrite q2r_half in P1. rewrite q2r_qz in P2. assert (N : p <> 0) by (intro E; rewrite E, q2r_0 in P1; lra).
  destruct (C112_fold_unfold profile image i x p X P N) as (y & Y & EY). destruct (C112_unfold_fold profile image i x p X P N) as (z & Z & EZ). exists y, z. split; [exact Y|]. split; [exact Z|].
  rewrite (Rabs_pos_eq (q2r p)) in * by lra. pose proof t_pos as T. assert (K : (2 / q2r p <= 4)%R). { apply Rmult_le_reg_r with (q2r p); [lra|]. unfold Rdiv. rewrite Rmult_assoc, Rinv_l by lra. lra. }
  destruct (Qc_eq_dec x 0) as [E|E].
  - subst x. clear EY EZ. unfold fl_fold, fl_unfold in Y, Z. rewrite (nth_pairs_error _ _ _ _ i (fl64 (0 / p)) p) in Y; [|now rewrite (nth_pairs_error _ _ _ _ i 0 p)|exact P]. rewrite (nth_pairs_error _ _ _ _ i (fl64 (0 * p)) p) in Z; [|now rewrite (nth_pairs_error _ _ _ _ i 0 p)|exact P]. cbn [fst snd] in Y, Z. replace (0 / p) with 0 in Y by (unfold Qcdiv; ring). replace (0 * p) with 0 in Z by ring. rewrite fl64_0 in Y, Z. replace (0 * p) with 0 in Y by ring. replace (0 / p) with 0 in Z by (unfold Qcdiv; ring). rewrite fl64_0 in Y, Z. injection Y as <-. injection Z as <-. now split.
  - split; (apply back_single; [exact F| |exact E]).
    + eapply Rle_trans; [exact EY|]. apply Rplus_le_compat_l. rewrite (Rmult_comm 5). apply Rmult_le_compat_l; lra.
    + eapply Rle_trans; [exact EZ|]. apply Rplus_le_compat_l. rewrite (Rmult_comm 5). apply Rmult_le_compat_l; lra.
Qed.
Print Assumptions C112_single.

(** ** The profile that comes with the code *)
(** What is read: numbers as near to those of the file as any conversion to double precision. *)
Definition read_profile (ps : list Qc) : Prop := Forall2 (fun p d => Rabs (q2r p - q2r d) <= / 1000000)%R ps mpik_profile.
Lemma profile_range : forallb (fun z => (923000 <=? z) && (z <=? 1044000))%Z profile_millionths = true.
Proof. vm_compute. reflexivity. Qed.
Lemma forall2_nth : forall (A B : Type) (P : A -> B -> Prop) l m i x, Forall2 P l m -> nth_error l i = Some x -> exists y, nth_error m i = Some y /\ P x y.
Proof. intros A B P l m i x H. revert i x. induction H as [|a b l m X H IH]; intros [|i] x E; cbn in *; try discriminate; [injection E as <-; now exists b|now apply IH]. Qed.
Lemma forall2_nth_r : forall (A B : Type) (P : A -> B -> Prop) l m i y, Forall2 P l m -> nth_error m i = Some y -> exists x, nth_error l i = Some x /\ P x y.
Proof. intros A B P l m i x H. revert i x. induction H as [|a b l m X H IH]; intros [|i] x E; cbn in *; try discriminate; [injection E as <-; now exists a|now apply IH]. Qed.
Lemma profile_value : forall ps i, read_profile ps -> (i < 2048)%nat -> exists p, nth_error ps i = Some p /\ (922 / 1000 <= q2r p <= 1045 / 1000)%R.
Proof.
  intros ps i H I. assert (L : List.length profile_millionths = 2048%nat) by (vm_compute; reflexivity). destruct (nth_error profile_millionths i) as [z|] eqn:E; [|apply nth_error_None in E; rewrite L in E; exfalso; clear - I E; lia].
  pose proof profile_range as G. rewrite forallb_forall in G. specialize (G z (nth_error_In _ _ E)). apply andb_true_iff in G as [G1 G2]. apply Z.leb_le in G1, G2. apply IZR_le in G1, G2.
  assert (nth_error mpik_profile i = Some (qz z / qz 1000000)) as D by (unfold mpik_profile; now rewrite nth_error_map, E). destruct (forall2_nth_r _ _ _ _ _ _ _ H D) as (p & P & X). exists p. split; [exact P|].
  rewrite q2r_div, !q2r_qz in X by (intro Y; apply (f_equal q2r) in Y; rewrite q2r_0, q2r_qz in Y; apply eq_IZR in Y; discriminate). apply Rabs_le_inv in X. lra.
Qed.
(** With this profile every image of 2048 pixels is changed by at most 9 percent, and recovered as said above; also the other way round. *)
Theorem C112_shipped : forall ps image i x, read_profile ps -> List.length image = 2048%nat -> nth_error image i = Some x ->
  exists y z w, nth_error (fl_unfold ps image) i = Some w /\ (Rabs (q2r w - q2r x) <= 9 / 100 * Rabs (q2r x) + t)%R /\
  nth_error (fl_fold ps (fl_unfold ps image)) i = Some y /\ (Rabs (q2r y - q2r x) <= 3 * u * Rabs (q2r x) + 5 * t)%R /\
  nth_error (fl_unfold ps (fl_fold ps image)) i = Some z /\ (Rabs (q2r z - q2r x) <= 3 * u * Rabs (q2r x) + 5 * t)%R /\ (fl32 x = x -> fl32 y = x /\ fl32 z = x).
Proof.
  intros ps image i x H L X. assert (I : (i < 2048)%nat) by (rewrite <- L; apply nth_error_Some; congruence). destruct (profile_value ps i H I) as (p & P & R). assert (N : p <> 0) by (intro E; rewrite E, q2r_0 in R; lra). clear H L I.
  destruct (C112_fold_unfold ps image i x p X P N) as (y & Y & EY). destruct (C112_unfold_fold ps image i x p X P N) as (z & Z & EZ). exists y, z, (fl64 (x / p)).
  rewrite (Rabs_pos_eq (q2r p)) in * by lra. pose proof t_pos as T. assert (K : (2 / q2r p <= 4)%R). { apply Rmult_le_reg_r with (q2r p); [lra|]. unfold Rdiv. rewrite Rmult_assoc, Rinv_l by lra. lra. }
  split; [unfold fl_unfold; now rewrite (nth_pairs_error _ _ _ _ i x p)|]. split.
  - pose proof (e64 (x / p)) as E. revert E. generalize (fl64 (x / p)). intros w E. rewrite q2r_div in E by exact N. pose proof u_small as U. revert R T U E. generalize u, t, (q2r x), (q2r p), (q2r w). clear. intros u t x p w R T U E.
    assert (Q : (Rabs (x / p - x) <= 85 / 1000 * Rabs x)%R). { replace (x / p - x)%R with (x * (/ p - 1))%R by (unfold Rdiv; ring). rewrite Rabs_mult, Rmult_comm. apply Rmult_le_compat_r; [apply Rabs_pos|]. assert (/ p <= 1085 / 1000)%R by (apply Rmult_le_reg_r with p; [lra|]; rewrite Rinv_l by lra; lra). assert (950 / 1000 <= / p)%R by (apply Rmult_le_reg_r with p; [lra|]; rewrite Rinv_l by lra; lra). apply Rabs_le. lra. }
    assert (Q' : (Rabs (x / p) <= 1085 / 1000 * Rabs x)%R). { replace (x / p)%R with (x + (x / p - x))%R by ring. eapply Rle_trans; [apply Rabs_triang|]. lra. }
    pose proof (Rabs_pos x). replace (w - x)%R with ((w - x / p) + (x / p - x))%R by ring. eapply Rle_trans; [apply Rabs_triang|]. assert (u * Rabs (x / p) <= / 1000 * (1085 / 1000 * Rabs x))%R by (apply Rmult_le_compat; [lra|apply Rabs_pos|lra|exact Q']). lra.
  - split; [exact Y|]. split; [eapply Rle_trans; [exact EY|]; apply Rplus_le_compat_l; rewrite (Rmult_comm 5); apply Rmult_le_compat_l; lra|]. split; [exact Z|]. split; [eapply Rle_trans; [exact EZ|]; apply Rplus_le_compat_l; rewrite (Rmult_comm 5); apply Rmult_le_compat_l; lra|].
    intro F. destruct (C112_single ps image i x p X P F) as (y' & z' & Y' & Z' & F1 & F2); [apply q2r_le; rewrite q2r_half; lra|apply q2r_le; rewrite q2r_qz; lra|]. rewrite Y in Y'. rewrite Z in Z'. injection Y' as <-. injection Z' as <-. now split.
Qed.
Print Assumptions C112_shipped.
(** Exact inverses they are not: with the profile of the file a uniform image of 1 comes back different in pixel 16, one of 3 in pixel 12 the other way round. *)
Lemma pixels_refuted : let p := fl64 (nth 16 mpik_profile 0) in let q := fl64 (nth 12 mpik_profile 0) in
  Qeq_bool (this (fl64 (fl64 (1 / p) * p))) (this 1) = false /\ Qeq_bool (this (fl64 (fl64 (qz 3 * q) / q))) (this (qz 3)) = false.
Proof. vm_compute. split; reflexivity. Qed.
Lemma map_at : forall (g : Qc -> Qc) l i, (i < List.length l)%nat -> nth_error (map g l) i = Some (g (nth i l 0)).
Proof. intros g l i I. rewrite nth_error_map, (nth_error_nth' _ 0 I). reflexivity. Qed.
Lemma at_16 : nth_error (map fl64 mpik_profile) 16 = Some (fl64 (nth 16 mpik_profile 0)).
Proof. apply map_at. apply Nat.leb_le. vm_compute. reflexivity. Qed.
Lemma at_12 : nth_error (map fl64 mpik_profile) 12 = Some (fl64 (nth 12 mpik_profile 0)).
Proof. apply map_at. apply Nat.leb_le. vm_compute. reflexivity. Qed.
Lemma back_not_equal : forall (a b : Qc), Qeq_bool (this a) (this b) = false -> a <> b.
Proof. intros a b H E. rewrite E in H. rewrite (proj2 (Qeq_bool_iff (this b) (this b)) (Qeq_refl _)) in H. discriminate. Qed.
Lemma repeat_at : forall (x : Qc) n i, (i < n)%nat -> nth_error (repeat x n) i = Some x.
Proof. intros x n. induction n as [|n IH]; intros [|i] H; cbn; try lia; [reflexivity|apply IH; lia]. Qed.
Theorem C112_exact_refuted : let ps := map fl64 mpik_profile in exists a b, List.length a = 2048%nat /\ List.length b = 2048%nat /\
  fl_fold ps (fl_unfold ps a) <> a /\ fl_unfold ps (fl_fold ps b) <> b.
Proof.
  intro ps. exists (repeat 1 2048), (repeat (qz 3) 2048). split; [apply repeat_length|]. split; [apply repeat_length|]. destruct pixels_refuted as [H1 H2]. pose proof at_16 as P1. pose proof at_12 as P2. fold ps in P1, P2. revert H1 H2 P1 P2. generalize (fl64 (nth 16 mpik_profile 0)), (fl64 (nth 12 mpik_profile 0)). intros p q H1 H2 P1 P2. clearbody ps. split; intro E.
  - apply (f_equal (fun l => nth_error l 16)) in E. unfold fl_fold, fl_unfold in E. rewrite repeat_at in E by lia. rewrite (nth_pairs_error _ _ _ _ 16 (fl64 (1 / p)) p) in E; [|rewrite (nth_pairs_error _ _ _ _ 16 1 p); [reflexivity|apply repeat_at; lia|exact P1]|exact P1]. cbn [fst snd] in E. apply back_not_equal in H1. apply H1. now injection E.
  - apply (f_equal (fun l => nth_error l 12)) in E. unfold fl_fold, fl_unfold in E. rewrite repeat_at in E by lia. rewrite (nth_pairs_error _ _ _ _ 12 (fl64 (qz 3 * q)) q) in E; [|rewrite (nth_pairs_error _ _ _ _ 12 (qz 3) q); [reflexivity|apply repeat_at; lia|exact P2]|exact P2]. cbn [fst snd] in E. apply back_not_equal in H2. apply H2. now injection E.
Qed.
Print Assumptions C112_exact_refuted.

(** The first two pixels of the file; a value 10 above the pedestal with conversion 4 and flat-field 11/10; the pedestal itself. *)
Example C112_ex : List.length mpik_profile = 2048%nat /\ Qeq_bool (this (nth 0 mpik_profile 0)) (1019573 # 1000000) = true /\
  match fl_calibrate [1; fl64 (Q2Qc (11 # 10))] [0; qn 5] (qn 4) (qn 15) 1 with Ok a => Qeq_bool (this a) (this (fl64 (Q2Qc (11 # 4)))) | _ => false end = true /\
  match fl_calibrate [1; fl64 (Q2Qc (11 # 10))] [0; qn 5] (qn 4) (qn 5) 1 with Ok a => Qeq_bool (this a) 0 | _ => false end = true /\
  match fl_calibrate [1; 1] [0; qn 5] (qn 4) (qn 5) 2 with Raise IndexError => true | _ => false end = true.
Proof. repeat split; vm_compute; reflexivity. Qed.

(** A pixel that the calibration does not have is refused. *)
Theorem C112_beyond : forall ff pedestal conversion value pixel, (List.length pedestal <= pixel \/ List.length ff <= pixel)%nat ->
  fl_calibrate ff pedestal conversion value pixel = Raise IndexError.
Proof.
  intros ff pedestal conversion value pixel H. unfold fl_calibrate. destruct H as [H|H]; apply nth_error_None in H; rewrite H; [reflexivity|]. now destruct (nth_error pedestal pixel).
Qed.
Print Assumptions C112_beyond.
