(** Rounding errors of the columns of the tables. *)
From Coq Require Import List ZArith QArith Qcanon Bool Lia Permutation Reals.
From Flocq Require Import Core Relative Plus_error.
From Verif.Base Require Import Py PyFacts Num Lst Fl FlFacts FlSum FlSumFacts.
From Verif.Resol Require Import Model ModelFloat.
From Coq Require Import Lra.
Import ListNotations.
Local Open Scope list_scope.
Local Open Scope R_scope.

(** Unit roundoff 2^-53 and smallest normal number 2^-1022. *)
Notation u64 := (bpow radix2 (- 53)).
Notation c64 := (normal_min 53 (-1074)).
Notation g64 := (growth 53).
Lemma P53 : (1 < 53)%Z. Proof. lia. Qed.
Lemma u0 : 0 < u64. Proof. apply bpow_gt_0. Qed.
Lemma u1 : u64 <= 1. Proof. change 1 with (bpow radix2 0). apply bpow_le. lia. Qed.
Lemma c0 : 0 < c64. Proof. apply bpow_gt_0. Qed.
Lemma c1 : c64 <= 1. Proof. change 1 with (bpow radix2 0). apply bpow_le. lia. Qed.
Lemma g1 : forall k, 1 <= g64 k. Proof. apply growth_1. Qed.
Lemma gS : forall k, g64 (S k) = (1 + u64) * g64 k. Proof. reflexivity. Qed.
Lemma err : forall q, Rabs (q2r (fl64 q) - q2r q) <= u64 * (Rabs (q2r q) + c64).
Proof. intros q. exact (fl_error' 53 (-1074) P53 q). Qed.
Lemma half : forall k, / 2 * bpow radix2 (k + 1) = bpow radix2 k.
Proof. intros k. rewrite bpow_plus. change (bpow radix2 1) with 2. lra. Qed.
Lemma rnd_err : forall x, Rabs (rnd64 x - x) <= u64 * (Rabs x + c64).
Proof.
  intros x. unfold rnd64. assert (V : Prec_gt_0 53) by (unfold Prec_gt_0; lia). destruct (error_N_FLT radix2 (-1074) 53 V (fun x => negb (Z.even x)) x) as (eps & eta & E1 & E2 & _ & E).
  rewrite E. replace (x * (1 + eps) + eta - x) with (x * eps + eta) by ring. apply Rle_trans with (1 := Rabs_triang _ _). rewrite Rmult_plus_distr_l. apply Rplus_le_compat.
  - rewrite Rabs_mult, Rmult_comm. apply Rmult_le_compat_r; [apply Rabs_pos|]. apply Rle_trans with (1 := E1). apply Req_le. apply half.
  - apply Rle_trans with (1 := E2). apply Req_le. unfold normal_min. rewrite <- bpow_plus. change (-1074)%Z with (-1075 + 1)%Z at 1. rewrite half. reflexivity.
Qed.
Lemma format64 : forall x, fl64 x = x -> generic_format radix2 (FLT_exp (-1074) 53) (q2r x).
Proof. intros x E. rewrite <- E. unfold fl64. rewrite fl_round. apply generic_format_round; [apply FLT_exp_valid; unfold Prec_gt_0; lia|apply valid_rnd_N]. Qed.
(** The difference of two doubles has a relative error only. *)
Lemma diff_err : forall a b, fl64 a = a -> fl64 b = b -> exists eps, Rabs eps <= u64 /\ q2r (fl64 (a - b)%Qc) = (q2r a - q2r b) * (1 + eps).
Proof.
  intros a b A B. assert (V : Prec_gt_0 53) by (unfold Prec_gt_0; lia).
  destruct (FLT_plus_error_N_ex radix2 (-1074) 53 (fun x => negb (Z.even x)) (q2r a) (- q2r b)) as (eps & E & H); [now apply format64|apply generic_format_opp; now apply format64|].
  exists eps. split.
  - eapply Rle_trans; [exact E|]. unfold u_ro. rewrite half. change (bpow radix2 (- (53))) with u64. pose proof u0. set (w := u64) in *.
    apply Rmult_le_reg_r with (1 + w); [lra|]. unfold Rdiv. rewrite Rmult_assoc, Rinv_l by lra. rewrite Rmult_1_r. rewrite <- (Rmult_1_r w) at 1. apply Rmult_le_compat_l; lra.
  - unfold fl64. rewrite fl_round, q2r_minus. unfold Rminus. exact H.
Qed.
(** A rounded square of a rounded difference. *)
Lemma square_err : forall a b, fl64 a = a -> fl64 b = b -> let d := fl64 (a - b)%Qc in
  Rabs (q2r (fl64 (d * d)%Qc) - q2r ((a - b) * (a - b))%Qc) <= (g64 3 - 1) * (Rabs (q2r ((a - b) * (a - b))%Qc) + c64).
Proof.
  intros a b A B d. destruct (diff_err a b A B) as (eps & E & D). fold d in D. pose proof (err (d * d)%Qc) as F. rewrite q2r_mult, D in F. rewrite q2r_mult, q2r_minus in *. set (x := q2r a - q2r b) in *.
  pose proof u0. pose proof u1. pose proof c0. set (u := u64) in *. apply Rabs_le_inv in E.
  replace (x * (1 + eps) * (x * (1 + eps))) with (x * x * ((1 + eps) * (1 + eps))) in F by ring. assert (XX : 0 <= x * x) by (replace (x * x) with (Rsqr x) by reflexivity; apply Rle_0_sqr). rewrite (Rabs_pos_eq (x * x)) by exact XX.
  assert (S2 : (1 + eps) * (1 + eps) <= (1 + u) * (1 + u)) by (apply Rmult_le_compat; lra). assert (S0 : 0 <= (1 + eps) * (1 + eps)) by (apply Rmult_le_pos; lra).
  assert (S3 : (1 - u) * (1 - u) <= (1 + eps) * (1 + eps)) by (apply Rmult_le_compat; lra).
  rewrite (Rabs_pos_eq (x * x * ((1 + eps) * (1 + eps)))) in F by (apply Rmult_le_pos; assumption).
  assert (M1 : x * x * ((1 + eps) * (1 + eps)) <= x * x * ((1 + u) * (1 + u))) by (apply Rmult_le_compat_l; assumption).
  assert (M3 : x * x * ((1 - u) * (1 - u)) <= x * x * ((1 + eps) * (1 + eps))) by (apply Rmult_le_compat_l; assumption).
  assert (F2 : u * (x * x * ((1 + eps) * (1 + eps)) + c64) <= u * (x * x * ((1 + u) * (1 + u)) + c64)) by (apply Rmult_le_compat_l; lra).
  assert (D2 : Rabs (x * x * ((1 + eps) * (1 + eps)) - x * x) <= x * x * ((1 + u) * (1 + u) - 1)).
  { apply Rabs_le. assert (0 <= x * x * (u * u)) by (apply Rmult_le_pos; [exact XX|apply Rmult_le_pos; lra]). split; [|lra].
    replace (- (x * x * ((1 + u) * (1 + u) - 1))) with (x * x * ((1 - u) * (1 - u)) - x * x - 2 * (x * x * (u * u))) by ring. lra. }
  replace (q2r (fl64 (d * d)%Qc) - x * x) with ((q2r (fl64 (d * d)%Qc) - x * x * ((1 + eps) * (1 + eps))) + (x * x * ((1 + eps) * (1 + eps)) - x * x)) by ring.
  eapply Rle_trans; [apply Rabs_triang|]. unfold growth, ulp1. cbn [pow]. change (bpow radix2 (Z.opp 53)) with u.
  replace ((1 + u) * ((1 + u) * ((1 + u) * 1)) - 1) with (u * ((1 + u) * (1 + u)) + ((1 + u) * (1 + u) - 1)) by ring.
  assert (UC : u * c64 <= (u * ((1 + u) * (1 + u)) + ((1 + u) * (1 + u) - 1)) * c64). { apply Rmult_le_compat_r; [lra|]. assert (0 <= u * u) by (apply Rmult_le_pos; lra). assert (0 <= u * (u * u)) by (apply Rmult_le_pos; lra). lra. }
  rewrite (Rmult_plus_distr_l _ (x * x) c64). eapply Rle_trans; [apply Rplus_le_compat; [eapply Rle_trans; [exact F|exact F2]|exact D2]|].
  replace (u * (x * x * ((1 + u) * (1 + u)) + c64) + x * x * ((1 + u) * (1 + u) - 1)) with ((u * ((1 + u) * (1 + u)) + ((1 + u) * (1 + u) - 1)) * (x * x) + u * c64) by ring. lra.
Qed.

(** Sum and mean of numbers that approximate others. *)
Lemma sum_near : forall k (l : list (Qc * Qc)) v, l <> [] ->
  (forall a e, In (a, e) l -> Rabs (q2r a - q2r e) <= (g64 k - 1) * (Rabs (q2r e) + c64)) -> sums_to fl64 (map fst l) v ->
  Rabs (q2r v - rsum (map (fun p => q2r (snd p)) l)) <= (g64 (k + (length l - 1)) - 1) * (rsum (map (fun p => Rabs (q2r (snd p))) l) + INR (length l) * c64).
Proof.
  intros k l v NE H [[E _]|(t & PM & ->)]; [apply map_eq_nil in E; contradiction|].
  destruct (Permutation_map_inv _ _ PM) as (l3 & E & P3). destruct (tree_lift _ _ fst t l3 E) as (t' & <- & L').
  pose proof (tree_error 53 (-1074) P53 k t') as T. rewrite L' in T.
  rewrite (rsum_perm _ _ (Permutation_map (fun p : Qc * Qc => q2r (snd p)) P3)). rewrite (rsum_perm _ _ (Permutation_map (fun p : Qc * Qc => Rabs (q2r (snd p))) P3)). rewrite (Permutation_length P3).
  apply T. intros a e I. apply H. eapply Permutation_in; [apply Permutation_sym; exact P3|exact I].
Qed.
Lemma mean_near : forall k (l : list (Qc * Qc)) v, l <> [] ->
  (forall a e, In (a, e) l -> Rabs (q2r a - q2r e) <= (g64 k - 1) * (Rabs (q2r e) + c64)) -> sums_to fl64 (map fst l) v ->
  Rabs (q2r (fl64 (v / qn (length l))%Qc) - rsum (map (fun p => q2r (snd p)) l) / INR (length l)) <= (g64 (k + length l) - 1) * (rsum (map (fun p => Rabs (q2r (snd p))) l) / INR (length l) + c64).
Proof.
  intros k l s NE H S. pose proof (sum_near k l s NE H S) as E. pose proof u0 as U. pose proof c0 as C. set (u := u64) in *. set (c := c64) in *.
  assert (N0 : (0 < length l)%nat) by (destruct l; [easy|cbn; lia]). set (n := length l) in *.
  assert (NR : 0 < INR n) by now apply lt_0_INR. assert (QN : qn n <> 0%Qc) by (intro K; pose proof (q2r_qn n) as Q; rewrite K, q2r_0 in Q; lra).
  set (M := rsum (map (fun p : Qc * Qc => Rabs (q2r (snd p))) l)) in *. assert (M0 : 0 <= M) by (apply rsum_nonneg; intros; apply Rabs_pos).
  set (X := rsum (map (fun p : Qc * Qc => q2r (snd p)) l)) in *. pose proof (err (s / qn n)%Qc) as F. fold u c in F. rewrite !q2r_div, q2r_qn in * by exact QN.
  assert (AS : Rabs X <= M) by (unfold X, M; rewrite <- (map_map (fun p : Qc * Qc => q2r (snd p)) Rabs); apply rsum_abs).
  replace (k + n)%nat with (Datatypes.S (k + (n - 1))) by lia. rewrite gS. fold u. set (g := g64 (k + (n - 1))) in *. assert (G1 : 1 <= g) by apply g1.
  assert (SM : Rabs (q2r s) <= M + (g - 1) * (M + INR n * c)). { replace (q2r s) with ((q2r s - X) + X) by lra. eapply Rle_trans; [apply Rabs_triang|]. lra. }
  assert (IN : 0 < / INR n) by now apply Rinv_0_lt_compat.
  assert (D : forall x, Rabs (x / INR n) = Rabs x / INR n) by (intros x; unfold Rdiv; rewrite Rabs_mult, (Rabs_pos_eq (/ INR n)) by lra; reflexivity).
  replace (q2r (fl64 (s / qn n)%Qc) - X / INR n) with ((q2r (fl64 (s / qn n)%Qc) - q2r s / INR n) + (q2r s - X) / INR n) by (field; lra).
  eapply Rle_trans; [apply Rabs_triang|]. rewrite (D (q2r s - X)). rewrite D in F.
  assert (E1 : Rabs (q2r s - X) / INR n <= (g - 1) * (M / INR n + c)).
  { apply Rmult_le_reg_r with (INR n); [exact NR|]. unfold Rdiv at 1. rewrite Rmult_assoc, Rinv_l, Rmult_1_r by lra. eapply Rle_trans; [exact E|]. apply Req_le. field. lra. }
  assert (E2 : Rabs (q2r s) / INR n <= M / INR n + (g - 1) * (M / INR n + c)).
  { apply Rmult_le_reg_r with (INR n); [exact NR|]. unfold Rdiv at 1. rewrite Rmult_assoc, Rinv_l, Rmult_1_r by lra. eapply Rle_trans; [exact SM|]. apply Req_le. field. lra. }
  set (Z := M / INR n + c) in *. assert (E3 : u * (Rabs (q2r s) / INR n + c) <= u * (Z + (g - 1) * Z)) by (apply Rmult_le_compat_l; [lra|unfold Z in *; lra]).
  replace (((1 + u) * g - 1) * Z) with (u * (Z + (g - 1) * Z) + (g - 1) * Z) by ring. lra.
Qed.
(** Roots: half of the relative error of the argument would do; a factor of two is simpler. *)
Lemma root_near : forall x y g, 0 <= x -> 1 <= g -> c64 <= y -> Rabs (x - y) <= (g - 1) * (y + c64) ->
  Rabs (rnd64 (sqrt x) - sqrt y) <= 2 * ((1 + u64) * g - 1) * sqrt y.
Proof.
  intros x y g X G Y E. pose proof u0. pose proof c0. pose proof c1. assert (Y0 : 0 < y) by lra. assert (SY : 0 < sqrt y) by now apply sqrt_lt_R0. assert (SX : 0 <= sqrt x) by apply sqrt_pos.
  assert (YC : (g - 1) * (y + c64) <= (g - 1) * (2 * y)) by (apply Rmult_le_compat_l; lra).
  assert (D : Rabs (sqrt x - sqrt y) <= 2 * (g - 1) * sqrt y).
  { apply Rmult_le_reg_r with (sqrt x + sqrt y); [lra|]. rewrite <- (Rabs_pos_eq (sqrt x + sqrt y)) at 1 by lra. rewrite <- Rabs_mult.
    replace ((sqrt x - sqrt y) * (sqrt x + sqrt y)) with (sqrt x * sqrt x - sqrt y * sqrt y) by ring. rewrite !sqrt_sqrt by lra.
    apply Rle_trans with ((g - 1) * (2 * y)); [lra|]. replace ((g - 1) * (2 * y)) with (2 * (g - 1) * (sqrt y * sqrt y)) by (rewrite sqrt_sqrt by lra; ring). rewrite !Rmult_assoc. apply Rmult_le_compat_l; [lra|]. apply Rmult_le_compat_l; [lra|]. apply Rmult_le_compat_l; lra. }
  pose proof (rnd_err (sqrt x)) as F. rewrite (Rabs_pos_eq (sqrt x)) in F by exact SX. 
  assert (CY : c64 <= sqrt y). { apply Rle_trans with (sqrt c64); [|now apply sqrt_le_1_alt]. rewrite <- (sqrt_square c64) at 1 by lra. apply sqrt_le_1_alt. rewrite <- (Rmult_1_r c64) at 3. apply Rmult_le_compat_l; lra. }
  assert (B : sqrt x <= sqrt y + 2 * (g - 1) * sqrt y) by (apply Rabs_le_inv in D; lra).
  assert (F2 : u64 * (sqrt x + c64) <= u64 * (sqrt y + 2 * (g - 1) * sqrt y + sqrt y)) by (apply Rmult_le_compat_l; lra).
  replace (rnd64 (sqrt x) - sqrt y) with ((rnd64 (sqrt x) - sqrt x) + (sqrt x - sqrt y)) by ring. eapply Rle_trans; [apply Rabs_triang|].
  replace (2 * ((1 + u64) * g - 1) * sqrt y) with (u64 * (sqrt y + 2 * (g - 1) * sqrt y + sqrt y) + 2 * (g - 1) * sqrt y) by ring. lra.
Qed.
Lemma quotient_near : forall x y t g, 0 < t -> 1 <= g -> 0 <= y -> Rabs (x - y) <= 2 * (g - 1) * y ->
  Rabs (rnd64 (x / t) - y / t) <= 2 * ((1 + u64) * g - 1) * (y / t + c64).
Proof.
  intros x y t g T G Y E. pose proof u0. pose proof c0. pose proof (rnd_err (x / t)) as F. assert (IT : 0 < / t) by now apply Rinv_0_lt_compat. set (Z := y / t) in *. assert (Z0 : 0 <= Z) by (unfold Z, Rdiv; apply Rmult_le_pos; lra).
  assert (D : Rabs (x / t - Z) <= 2 * (g - 1) * Z). { unfold Z, Rdiv. rewrite <- Rmult_minus_distr_r, Rabs_mult, (Rabs_pos_eq (/ t)) by lra. rewrite <- Rmult_assoc. apply Rmult_le_compat_r; [lra|exact E]. }
  assert (B : Rabs (x / t) <= Z + 2 * (g - 1) * Z). { replace (x / t) with ((x / t - Z) + Z) by ring. eapply Rle_trans; [apply Rabs_triang|]. rewrite (Rabs_pos_eq Z) by exact Z0. lra. }
  assert (F2 : u64 * (Rabs (x / t) + c64) <= u64 * (Z + 2 * (g - 1) * Z + c64)) by (apply Rmult_le_compat_l; lra).
  replace (rnd64 (x / t) - Z) with ((rnd64 (x / t) - x / t) + (x / t - Z)) by ring. eapply Rle_trans; [apply Rabs_triang|].
  set (u := u64) in *. assert (UG : u * 1 <= u * g) by (apply Rmult_le_compat_l; lra). assert (UZ : 0 <= u * Z) by (apply Rmult_le_pos; lra). assert (UC : 0 <= (2 * (g - 1) + 2 * (u * g) - u) * c64) by (apply Rmult_le_pos; lra).
  replace (2 * ((1 + u) * g - 1) * (Z + c64)) with (u * (Z + 2 * (g - 1) * Z + c64) + 2 * (g - 1) * Z + u * Z + (2 * (g - 1) + 2 * (u * g) - u) * c64) by ring. lra.
Qed.
(** Mean of the squares minus square of the mean. *)
Lemma variance_near : forall A m a b g1' g2 mu M2, 1 <= g1' -> 1 <= g2 -> g2 <= g1' -> 0 <= a -> 0 <= M2 -> Rabs mu <= a ->
  Rabs (q2r A - M2) <= ((1 + u64) * g1' - 1) * (M2 + c64) -> Rabs (q2r m - mu) <= (g2 - 1) * (a + c64) -> b = fl64 (m * m)%Qc -> g2 * g2 <= g1' ->
  Rabs (q2r (fl64 (A - b)%Qc) - (M2 - mu * mu)) <= ((1 + u64) * ((1 + u64) * g1') - 1) * (M2 + (a + c64) * (a + c64) + 3 * c64).
Proof.
  intros A m a b g h mu M2 G H HG A0 M0 MU EA EM -> HH. pose proof u0. pose proof c0. set (u := u64) in *. set (c := c64) in *. set (w := a + c) in *.
  assert (W : 0 <= w) by (unfold w; lra). assert (WW : 0 <= w * w) by (apply Rmult_le_pos; lra).
  assert (M : Rabs (q2r m) <= h * w). { replace (q2r m) with ((q2r m - mu) + mu) by ring. eapply Rle_trans; [apply Rabs_triang|]. replace (h * w) with ((h - 1) * w + w) by ring. unfold w in *. lra. }
  assert (MM : q2r m * q2r m <= h * h * (w * w)). { replace (q2r m * q2r m) with (Rabs (q2r m) * Rabs (q2r m)) by (rewrite <- Rabs_mult, Rabs_pos_eq; [ring|apply Rle_0_sqr]). replace (h * h * (w * w)) with (h * w * (h * w)) by ring. apply Rmult_le_compat; try apply Rabs_pos; exact M. }
  assert (DS : Rabs (q2r m * q2r m - mu * mu) <= (h * h - 1) * (w * w)).
  { replace (q2r m * q2r m - mu * mu) with ((q2r m - mu) * (q2r m + mu)) by ring. rewrite Rabs_mult. replace ((h * h - 1) * (w * w)) with ((h - 1) * w * (h * w + w)) by ring. apply Rmult_le_compat; try apply Rabs_pos; [exact EM|]. eapply Rle_trans; [apply Rabs_triang|]. unfold w in *. lra. }
  pose proof (err (m * m)%Qc) as EB. fold u c in EB. rewrite q2r_mult in EB. rewrite (Rabs_pos_eq (q2r m * q2r m)) in EB by apply Rle_0_sqr. set (B := q2r (fl64 (m * m)%Qc)) in *.
  assert (EB2 : Rabs (B - mu * mu) <= ((1 + u) * g - 1) * (w * w) + u * c).
  { replace (B - mu * mu) with ((B - q2r m * q2r m) + (q2r m * q2r m - mu * mu)) by ring. eapply Rle_trans; [apply Rabs_triang|].
    assert (u * (q2r m * q2r m + c) <= u * (h * h * (w * w) + c)) by (apply Rmult_le_compat_l; lra). assert (X : (1 + u) * (h * h) * (w * w) <= (1 + u) * g * (w * w)) by (apply Rmult_le_compat_r; [exact WW|]; apply Rmult_le_compat_l; lra).
    replace (((1 + u) * g - 1) * (w * w) + u * c) with ((1 + u) * g * (w * w) - w * w + u * c) by ring. replace ((1 + u) * (h * h) * (w * w)) with (u * (h * h * (w * w) + c) + (h * h - 1) * (w * w) + w * w - u * c) in X by ring. lra. }
  pose proof (err (A - fl64 (m * m))%Qc) as EV. fold u c in EV. rewrite q2r_minus in EV. fold B in EV. set (V := q2r (fl64 (A - fl64 (m * m))%Qc)) in *. set (X := q2r A) in *.
  set (k := (1 + u) * g) in *. assert (UG : u * 1 <= u * g) by (apply Rmult_le_compat_l; lra). assert (K1 : 1 + u <= k) by (unfold k; lra).
  assert (MU2 : mu * mu <= w * w). { replace (mu * mu) with (Rabs mu * Rabs mu) by (rewrite <- Rabs_mult, Rabs_pos_eq; [ring|apply Rle_0_sqr]). apply Rmult_le_compat; try apply Rabs_pos; unfold w; lra. }
  assert (Q0 : 0 <= mu * mu) by apply Rle_0_sqr.
  assert (S : Rabs (X - B) <= k * (M2 + w * w) + 2 * (k * c)).
  { replace (X - B) with ((X - M2) - (B - mu * mu) + (M2 - mu * mu)) by ring. eapply Rle_trans; [apply Rabs_triang|]. assert (Rabs (M2 - mu * mu) <= M2 + w * w) by (apply Rabs_le; lra). assert (Rabs (X - M2 - (B - mu * mu)) <= Rabs (X - M2) + Rabs (B - mu * mu)) by (unfold Rminus at 1; eapply Rle_trans; [apply Rabs_triang|]; rewrite Rabs_Ropp; lra).
    assert (u * c <= k * c) by (apply Rmult_le_compat_r; lra). lra. }
  replace (V - (M2 - mu * mu)) with ((V - (X - B)) + ((X - M2) - (B - mu * mu))) by ring. eapply Rle_trans; [apply Rabs_triang|].
  assert (T : Rabs (X - M2 - (B - mu * mu)) <= Rabs (X - M2) + Rabs (B - mu * mu)) by (unfold Rminus at 1; eapply Rle_trans; [apply Rabs_triang|]; rewrite Rabs_Ropp; lra).
  assert (EV2 : u * (Rabs (X - B) + c) <= u * (k * (M2 + w * w) + 2 * (k * c) + c)) by (apply Rmult_le_compat_l; lra).
  replace (((1 + u) * k - 1) * (M2 + w * w + 3 * c)) with (u * (k * (M2 + w * w) + 2 * (k * c) + c) + (k - 1) * (M2 + c) + ((k - 1) * (w * w) + u * c) + (u * (k * c) - 2 * (u * c) + 2 * ((k - 1) * c))) by ring.
  assert (0 <= u * (k * c) - 2 * (u * c) + 2 * ((k - 1) * c)); [|lra]. assert (u * c <= (k - 1) * c) by (apply Rmult_le_compat_r; lra). assert (0 <= u * (k * c)) by (apply Rmult_le_pos; [lra|]; apply Rmult_le_pos; lra). lra.
Qed.

(** Numbers on a grid. *)
Lemma grid_format : forall z e, (-1074 <= e)%Z -> Rabs (q2r (qz z * two e)%Qc) <= bpow radix2 (53 + e) -> fl64 (qz z * two e)%Qc = (qz z * two e)%Qc.
Proof.
  intros z e E B. assert (S : sums_to fl64 [(qz z * two e)%Qc; 0%Qc] (fl64 (qz z * two e + 0)%Qc)) by (right; exists (Node (Leaf (qz z * two e)%Qc) (Leaf 0%Qc)); split; [apply Permutation_refl|reflexivity]).
  apply (sum_exact 53 (-1074) P53 e) in S; [|exact E| |].
  - rewrite Qcplus_0_r in S. rewrite S. unfold qsum. cbn [fold_right]. ring.
  - intros x [<-|[<-|[]]]; [eexists; reflexivity|]. exists 0%Z. change (qz 0) with 0%Qc. ring.
  - unfold rsum. cbn [map fold_right]. rewrite q2r_0, Rabs_R0. lra.
Qed.
