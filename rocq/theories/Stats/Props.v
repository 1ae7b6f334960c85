(** Properties C33, C34, C35, C74: probability functions, photoelectron spectra and their likelihood. *)
From Coq Require Import Reals List Lia Lra.
From Verif.Stats Require Import Model Proofs.
Import ListNotations.
Local Open Scope R_scope.

(** * C33 *)
(** Pascal's triangle. *)
Fixpoint choose (n k : nat) : nat :=
  match n, k with
  | _, O => 1
  | O, S _ => 0
  | S n', S k' => choose n' k' + choose n' k
  end%nat.
Lemma choose_out : forall n k, (n < k)%nat -> choose n k = O.
Proof. induction n as [|n IH]; intros [|k] L; try lia; cbn [choose]; [reflexivity|]. rewrite !IH by lia. reflexivity. Qed.
Theorem C33_binom : forall n k, (k <= n)%nat -> binom n k = INR (choose n k).
Proof.
  induction n as [|n IH]; intros [|k] L; try lia.
  - apply binom_n_0.
  - rewrite binom_n_0. reflexivity.
  - cbn [choose]. rewrite plus_INR. destruct (Nat.eq_dec k n) as [->|].
    + rewrite binom_n_n, <- IH, binom_n_n by lia. rewrite choose_out by lia. cbn [INR]. ring.
    + rewrite binom_pascal, !IH by lia. reflexivity.
Qed.
Print Assumptions C33_binom.
Theorem C33_poisson : forall k mu, 0 < mu -> poisson k mu = mu ^ k * exp (- mu) / INR (fact k) /\ 0 < poisson k mu.
Proof. intros k mu P. split; [now apply poisson_eq|apply poisson_pos]. Qed.
Print Assumptions C33_poisson.
Theorem C33_poisson_sum : forall mu, 0 < mu -> infinite_sum (fun k => poisson k mu) 1.
Proof. exact poisson_sum. Qed.
Print Assumptions C33_poisson_sum.
Theorem C33_logpmf : forall k mu, 0 < mu -> poisson_logpmf k mu = ln (poisson k mu).
Proof.
  intros k mu P. unfold poisson_logpmf, poisson, xlogy. rewrite ln_exp. destruct (Req_EM_T (INR k) 0) as [->|]; ring.
Qed.
Print Assumptions C33_logpmf.
(** 0 log 0 counts as 0: an empty bin with expectation 0 is certain. *)
Theorem C33_logpmf_empty : forall mu, poisson_logpmf 0 mu = - mu.
Proof. intros mu. unfold poisson_logpmf, xlogy, lgamma. cbn. destruct (Req_EM_T 0 0); [|easy]. rewrite ln_1. ring. Qed.
Print Assumptions C33_logpmf_empty.
Theorem C33_normal : forall mean s, 0 < s -> forall d, 0 < normal_pdf (mean + d) mean s /\ normal_pdf (mean + d) mean s = normal_pdf (mean - d) mean s /\ (d <> 0 -> normal_pdf (mean + d) mean s < normal_pdf mean mean s).
Proof.
  intros m s P d. split; [now apply normal_pos|]. split.
  - unfold normal_pdf. f_equal. f_equal. f_equal. replace ((m - d - m) / s) with (- ((m + d - m) / s)) by (field; lra). ring.
  - intros D. unfold normal_pdf, Rdiv. apply Rmult_lt_compat_r.
    + apply Rinv_0_lt_compat, Rmult_lt_0_compat; [|exact P]. apply sqrt_lt_R0. pose proof PI_RGT_0. lra.
    + apply exp_increasing. replace (m + d - m) with d by ring. replace (m - m) with 0 by ring. rewrite Rmult_0_l.
      assert (N : d * / s <> 0) by (apply Rmult_integral_contrapositive_currified; [exact D|apply Rinv_neq_0_compat; lra]).
      pose proof (Rsqr_pos_lt _ N) as Q. unfold Rsqr in Q. cbn [pow]. lra.
Qed.
Print Assumptions C33_normal.
Example C33_example : INR (choose 5 2) = 10 /\ binom 5 2 = 10 /\ poisson 2 2 = 2 * exp (Ropp 2).
Proof.
  assert (E : INR (choose 5 2) = 10) by (change (choose 5 2) with 10%nat; cbn [INR]; ring). split; [exact E|]. split; [now rewrite C33_binom by lia|].
  destruct (C33_poisson 2 2) as [-> _]; [lra|]. cbn [pow fact Nat.mul Nat.add INR]. field.
Qed.

Lemma mapm_loop_peaks : forall N l, 0 < l -> exists n, (n <= N)%nat /\
  (forall x e es sp ss s, mapm_loop N 1 0 x e es sp ss l s = s + sum1 (fun k => poisson k l * normal_pdf x (e + INR k * sp) (sqrt (INR k * ss ^ 2 + es ^ 2))) n) /\
  (n = N \/ (poisson (S n) l < cut /\ l <= INR (S n))).
Proof.
  intros N l L. destruct (stop_spec (fun k => poisson k l) N 1 0) as [B E]; [lia|now left|intros; lia|lra|]. exists (stop (fun k => poisson k l) N 1 0).
  split; [lia|]. split.
  - intros. rewrite mapm_is_loop, <- loop_sum by lia. cbn [pred]. rewrite sum1_0. ring.
  - generalize dependent (stop (fun k => poisson k l) N 1 0). intros n B E.
    destruct E as [E|(C & [Z|(i & I & W)])]; [left; exact E|pose proof (poisson_pos (S n) l); lra|]. right. split; [exact C|].
    destruct (Rle_lt_dec l (INR (S n))) as [|G]; [assumption|]. pose proof (poisson_ups i (S n) l L ltac:(lia) G). lra.
Qed.
(** * C34: one number of peaks n, the same for every x, with the claimed weights. *)
Theorem C34_mapm : forall lambda_, 0 < lambda_ -> exists n, (n <= 99)%nat /\
  (forall x eped eped_sigma spe spe_sigma, mapm_spe x eped eped_sigma spe spe_sigma lambda_ =
     exp (- lambda_) * normal_pdf x eped eped_sigma +
     rsum (map (fun k => poisson k lambda_ * normal_pdf x (eped + INR k * spe) (sqrt (INR k * spe_sigma ^ 2 + eped_sigma ^ 2))) (seq 1 n))) /\
  exp (- lambda_) + rsum (map (fun k => poisson k lambda_) (seq 1 n)) <= 1 /\
  (forall k, (n < k < 100)%nat -> poisson k lambda_ < 1 / 10000) /\
  (forall k, (1 <= k < 100)%nat -> INR k < lambda_ -> (k <= n)%nat).
Proof.
  intros l L. unfold mapm_spe. destruct (mapm_loop_peaks 99 l L) as (n & B & EQ & END). exists n. split; [exact B|]. split; [|split; [|split]].
  - intros. rewrite EQ. reflexivity.
  - assert (P0 : poisson 0 l = exp (- l)) by (rewrite poisson_eq by exact L; cbn [pow fact INR]; field). rewrite <- P0. fold (sum1 (fun k => poisson k l) n). rewrite (sum1_f (fun k => poisson k l)). now apply poisson_sum_le.
  - intros k K. destruct END as [->|[C M]]; [lia|]. eapply Rle_lt_trans; [apply (poisson_downs (S n)); [exact L|lia|]|exact C]. eapply Rle_trans; [exact M|]. apply le_INR. lia.
  - intros k K G. destruct END as [->|[C M]]; [lia|]. destruct (le_lt_dec k n) as [|X]; [assumption|]. pose proof (le_INR (S n) k X). lra.
Qed.
Print Assumptions C34_mapm.
(** The evaluated spectrum is positive. *)
Theorem C34_positive : forall x eped eped_sigma spe spe_sigma lambda_, 0 < eped_sigma -> 0 < lambda_ -> 0 < mapm_spe x eped eped_sigma spe spe_sigma lambda_.
Proof.
  intros x e es sp ss l ES L. destruct (C34_mapm l L) as (n & _ & -> & _). apply Rplus_lt_le_0_compat.
  - apply Rmult_lt_0_compat; [apply exp_pos|now apply normal_pos].
  - fold (sum1 (fun k => poisson k l * normal_pdf x (e + INR k * sp) (sqrt (INR k * ss ^ 2 + es ^ 2))) n). rewrite <- (sum1_zero n). apply sum1_le. intros k _. left. apply Rmult_lt_0_compat; [apply poisson_pos|now apply normal_pos, sigma_pos].
Qed.
Print Assumptions C34_positive.

(** * C35 *)
(** Probability of k fired cells: j initial cells with Poisson probability of at least 1e-4, and k-j crosstalk cells. *)
Definition gentile_probability (opct lambda_ : R) (k : nat) : R :=
  rsum (map (fun j => (if Rlt_dec (poisson j lambda_) (1 / 10000) then 0 else poisson j lambda_) * ((1 - opct) ^ j * opct ^ (k - j) * INR (choose (k - 1) (j - 1)))) (seq 1 k)).
Lemma gentile_probability_pk : forall q l k, (1 <= k)%nat -> gentile_pk k 1 k q l 0 = gentile_probability q l k.
Proof.
  intros q l k K. rewrite gentile_pk_sum by lia. cbn [pred]. rewrite sum1_0. cbn [Nat.add]. rewrite Rplus_0_l, Rminus_0_r. apply sum1_ext. intros j J. rewrite C33_binom by lia. reflexivity.
Qed.
Lemma gentile_loop_peaks : forall N q l, exists n, (n <= N)%nat /\
  (forall x e es sp ss s, gentile_loop N 1 0 x e es sp ss q l s = s + sum1 (fun k => gentile_pk k 1 k q l 0 * normal_pdf x (e + INR k * sp) (sqrt (INR k * ss ^ 2 + es ^ 2))) n) /\
  (n = N \/ gentile_pk (S n) 1 (S n) q l 0 < cut).
Proof.
  intros N q l. destruct (stop_spec (fun k => gentile_pk k 1 k q l 0) N 1 0) as [B E]; [lia|now left|intros; lia|lra|]. exists (stop (fun k => gentile_pk k 1 k q l 0) N 1 0).
  split; [lia|]. split.
  - intros. rewrite gentile_is_loop, <- loop_sum by lia. cbn [pred]. rewrite sum1_0. ring.
  - destruct E as [E|[C _]]; [left; exact E|right; exact C].
Qed.
Theorem C35_gentile : forall opct lambda_, 0 <= opct <= 1 -> 0 < lambda_ -> exists n, (n <= 99)%nat /\
  (forall x eped eped_sigma spe spe_sigma, sipm_gentile_spe x eped eped_sigma spe spe_sigma opct lambda_ =
     exp (- lambda_) * normal_pdf x eped eped_sigma +
     rsum (map (fun k => gentile_probability opct lambda_ k * normal_pdf x (eped + INR k * spe) (sqrt (INR k * spe_sigma ^ 2 + eped_sigma ^ 2))) (seq 1 n))) /\
  (forall k, (1 <= k <= n)%nat -> 0 <= gentile_probability opct lambda_ k) /\
  exp (- lambda_) + rsum (map (gentile_probability opct lambda_) (seq 1 n)) <= 1 /\
  ((n < 99)%nat -> gentile_probability opct lambda_ (S n) < 1 / 10000).
Proof.
  intros q l Q L. unfold sipm_gentile_spe. destruct (gentile_loop_peaks 99 q l) as (n & B & EQ & END). exists n. split; [exact B|]. split; [|split; [|split]].
  - intros x e es sp ss. rewrite EQ. f_equal. apply sum1_ext. intros k K. now rewrite gentile_probability_pk by lia.
  - intros k K. rewrite <- gentile_probability_pk by lia. apply gentile_nonneg; [exact Q|lia].
  - fold (sum1 (gentile_probability q l) n). rewrite (sum1_ext _ (fun k => gentile_pk k 1 k q l 0)) by (intros; rewrite gentile_probability_pk by lia; reflexivity). now apply gentile_total.
  - intros N. destruct END as [E|C]; [lia|]. rewrite <- gentile_probability_pk by lia. exact C.
Qed.
Print Assumptions C35_gentile.
Theorem C35_positive : forall x eped eped_sigma spe spe_sigma opct lambda_, 0 < eped_sigma -> 0 <= opct <= 1 -> 0 < lambda_ -> 0 < sipm_gentile_spe x eped eped_sigma spe spe_sigma opct lambda_.
Proof.
  intros x e es sp ss q l ES Q L. destruct (C35_gentile q l Q L) as (n & _ & -> & W & _). apply Rplus_lt_le_0_compat.
  - apply Rmult_lt_0_compat; [apply exp_pos|now apply normal_pos].
  - fold (sum1 (fun k => gentile_probability q l k * normal_pdf x (e + INR k * sp) (sqrt (INR k * ss ^ 2 + es ^ 2))) n). rewrite <- (sum1_zero n). apply sum1_le. intros k K. apply Rmult_le_pos; [now apply W|left; now apply normal_pos, sigma_pos].
Qed.
Print Assumptions C35_positive.

(** Without crosstalk, within the fit limits of lambda_: every peak with Poisson weight of at least 1e-4 is there with that weight. *)
Lemma no_crosstalk_weight : forall l k, (1 <= k)%nat -> gentile_pk k 1 k 0 l 0 = kept l k.
Proof.
  intros l k K. rewrite gentile_pk_sum by lia. cbn [pred]. rewrite sum1_0. cbn [Nat.add]. rewrite Rplus_0_l, Rminus_0_r. destruct k as [|k]; [lia|]. rewrite sum1_S.
  rewrite (sum1_ext _ (fun _ => 0)). 2:{ intros j J. replace (S k - j)%nat with (S (k - j))%nat by lia. cbn [pow]. ring. }
  rewrite sum1_zero, Nat.sub_diag. rewrite binom_n_n, Rminus_0_r, pow1. cbn [pow]. ring.
Qed.
Lemma exp6 : exp 6 < 1000.
Proof.
  replace 6 with (INR 6 * 1) by (cbn; ring). rewrite exp_mul. apply Rle_lt_trans with (3 ^ 6); [|cbn; lra]. apply pow_incr. split; [left; apply exp_pos|apply exp_le_3].
Qed.
Lemma first_weight : forall l, 1 < l <= 6 -> cut <= poisson 1 l.
Proof.
  intros l [A B]. rewrite poisson_eq by lra. cbn [pow fact Nat.mul Nat.add INR]. unfold cut.
  assert (exp (Ropp 6) <= exp (- l)) by (destruct B as [B| ->]; [left; apply exp_increasing; lra|lra]).
  assert (1 / 1000 < exp (Ropp 6)). { rewrite exp_Ropp. unfold Rdiv. rewrite Rmult_1_l. apply Rinv_lt_contravar; [|exact exp6]. apply Rmult_lt_0_compat; [apply exp_pos|lra]. }
  assert (exp (- l) * 1 <= exp (- l) * l) by (apply Rmult_le_compat_l; [left; apply exp_pos|lra]). lra.
Qed.
(** Poisson weights at least 1e-4 at 1..99 are an initial segment of 1..99. *)
Lemma kept_segment : forall l k, 0 < l <= 6 -> (1 <= k)%nat -> poisson k l < cut -> forall m, (k <= m)%nat -> poisson m l < cut.
Proof.
  intros l k [P B] K C m M. destruct (Rle_lt_dec l (INR (S k))) as [D|U].
  - eapply Rle_lt_trans; [apply (poisson_downs k); [exact P|lia|exact D]|exact C].
  - exfalso. assert (G : INR k < l) by (rewrite S_INR in U; lra). destruct (Nat.eq_dec k 1) as [->|NE].
    + assert (cut <= poisson 1 l) by (apply first_weight; cbn [INR] in G; lra). lra.
    + assert (INR 1 < l) by (eapply Rlt_trans; [apply lt_INR|exact G]; lia). assert (cut <= poisson 1 l) by (apply first_weight; cbn [INR] in H; lra). pose proof (poisson_ups 1 k l P ltac:(lia) G). lra.
Qed.
Lemma sum1_tail : forall f n m, (n <= m)%nat -> (forall k, (n < k <= m)%nat -> f k = 0) -> sum1 f m = sum1 f n.
Proof. intros f n m L H. induction L as [|m L IH]; [reflexivity|]. rewrite sum1_S, IH, H by (lia || (intros; apply H; lia)). ring. Qed.
Theorem C35_no_crosstalk : forall lambda_, 0 < lambda_ <= 6 -> forall x eped eped_sigma spe spe_sigma,
  sipm_gentile_spe x eped eped_sigma spe spe_sigma 0 lambda_ =
  exp (- lambda_) * normal_pdf x eped eped_sigma +
  rsum (map (fun k => (if Rlt_dec (poisson k lambda_) (1 / 10000) then 0 else poisson k lambda_) * normal_pdf x (eped + INR k * spe) (sqrt (INR k * spe_sigma ^ 2 + eped_sigma ^ 2))) (seq 1 99)).
Proof.
  intros l L x e es sp ss. unfold sipm_gentile_spe. destruct (gentile_loop_peaks 99 0 l) as (n & B & -> & E). f_equal.
  set (g := fun k => normal_pdf x (e + INR k * sp) (sqrt (INR k * ss ^ 2 + es ^ 2))). change (rsum (map (fun k => (if Rlt_dec (poisson k l) (1 / 10000) then 0 else poisson k l) * g k) (seq 1 99))) with (sum1 (fun k => kept l k * g k) 99).
  rewrite (sum1_ext _ (fun k => kept l k * g k)) by (intros; rewrite no_crosstalk_weight by lia; reflexivity).
  symmetry. apply sum1_tail; [lia|]. intros k K. destruct E as [E|C]; [lia|].
  rewrite no_crosstalk_weight in C by lia. assert (PC : poisson (S n) l < cut). { unfold kept in C. destruct (Rlt_dec (poisson (S n) l) cut); lra. }
  assert (PK : poisson k l < cut) by (apply (kept_segment l (S n)); [exact L|lia|exact PC|lia]). unfold kept. destruct (Rlt_dec (poisson k l) cut); [ring|lra].
Qed.
Print Assumptions C35_no_crosstalk.
(** Outside the fit limits the truncation is harmful: once the single photoelectron probability is below 1e-4, every
    peak is dropped, also the most probable ones. *)
Lemma gentile_loop_step : forall N k m x e es sp ss q l s, gentile_loop (S N) k m x e es sp ss q l s =
  if Rlt_dec m (gentile_pk k 1 k q l 0) then gentile_loop N (S k) (gentile_pk k 1 k q l 0) x e es sp ss q l (s + gentile_pk k 1 k q l 0 * normal_pdf x (e + INR k * sp) (sqrt (INR k * ss ^ 2 + es ^ 2)))
  else if Rlt_dec (gentile_pk k 1 k q l 0) cut then s else gentile_loop N (S k) m x e es sp ss q l (s + gentile_pk k 1 k q l 0 * normal_pdf x (e + INR k * sp) (sqrt (INR k * ss ^ 2 + es ^ 2))).
Proof. reflexivity. Qed.
Theorem C35_dropped : forall opct lambda_, poisson 1 lambda_ < 1 / 10000 -> forall x eped eped_sigma spe spe_sigma,
  sipm_gentile_spe x eped eped_sigma spe spe_sigma opct lambda_ = exp (- lambda_) * normal_pdf x eped eped_sigma.
Proof.
  intros q l C x e es sp ss. unfold sipm_gentile_spe. rewrite gentile_loop_step.
  assert (Z : gentile_pk 1 1 1 q l 0 = 0) by (cbn [gentile_pk]; destruct (Rlt_dec (poisson 1 l) cut) as [|N]; [reflexivity|exfalso; apply N; exact C]). rewrite Z.
  destruct (Rlt_dec 0 0); [lra|]. destruct (Rlt_dec 0 cut) as [|N]; [reflexivity|]. exfalso. apply N. unfold cut. lra.
Qed.
Print Assumptions C35_dropped.
Example C35_dropped_20 : forall opct x eped eped_sigma spe spe_sigma, sipm_gentile_spe x eped eped_sigma spe spe_sigma opct 20 = exp (Ropp 20) * normal_pdf x eped eped_sigma.
Proof.
  intros. apply C35_dropped. rewrite poisson_eq by lra. cbn [pow fact Nat.mul Nat.add INR]. rewrite exp_Ropp. replace 20 with (INR 20 * 1) at 2 by (cbn; ring). rewrite exp_mul.
  assert (2 <= exp 1) by (pose proof (exp_ineq1 1 ltac:(lra)); lra). assert (2 ^ 20 <= exp 1 ^ 20) by (apply pow_incr; lra).
  assert (1000000 < exp 1 ^ 20) by (cbn [pow] in H0; lra). assert (/ exp 1 ^ 20 < / 1000000) by (apply Rinv_lt_contravar; [|assumption]; apply Rmult_lt_0_compat; lra). lra.
Qed.
(** Two cells from one or two photoelectrons. *)
Example C35_example : forall q l, poisson 1 l >= 1 / 10000 -> poisson 2 l >= 1 / 10000 -> gentile_probability q l 2 = poisson 1 l * (1 - q) * q + poisson 2 l * (1 - q) ^ 2.
Proof.
  intros q l A B. unfold gentile_probability. cbn [seq map rsum fold_right]. destruct (Rlt_dec (poisson 1 l) (1 / 10000)); [lra|]. destruct (Rlt_dec (poisson 2 l) (1 / 10000)); [lra|]. cbn. ring.
Qed.

(** * C74: the likelihood of a spectrum *)
Lemma trapz_scale : forall c x y, trapz x (map (fun s => s * c) y) = trapz x y * c.
Proof.
  intros c. induction x as [|x0 x IH]; intros y; [cbn; ring|]. destruct x as [|x1 x]; [destruct y; cbn; ring|]. destruct y as [|y0 [|y1 y]]; try (cbn; ring).
  specialize (IH (y1 :: y)). cbn [trapz map] in *. rewrite IH. field.
Qed.
(** The scaled spectrum has the integral of the histogram. *)
Theorem C74_integral : forall data_x data_y spectrum, trapz data_x spectrum <> 0 -> trapz data_x (normalised data_x data_y spectrum) = trapz data_x (map INR data_y).
Proof. intros x y s N. unfold normalised. rewrite trapz_scale. field. exact N. Qed.
Print Assumptions C74_integral.
(** Only the shape of the spectrum matters. *)
Theorem C74_scale : forall c data_x data_y spectrum, c <> 0 -> trapz data_x spectrum <> 0 -> likelihood1 data_x data_y (map (fun s => s * c) spectrum) = likelihood1 data_x data_y spectrum.
Proof.
  intros c x y s C N. unfold likelihood1. f_equal. unfold normalised. rewrite map_map, trapz_scale. apply map_ext. intros a. field. split; assumption.
Qed.
Print Assumptions C74_scale.
Lemma ln_le_pred : forall t, 0 < t -> ln t <= t - 1 /\ (ln t = t - 1 -> t = 1).
Proof.
  intros t P. destruct (Req_dec (ln t) 0) as [E|E].
  - assert (t = 1) by (rewrite <- (exp_ln t P), E; apply exp_0). subst. split; [lra|auto].
  - pose proof (exp_ineq1 (ln t) E) as H. rewrite (exp_ln t P) in H. split; lra.
Qed.
(** One bin: no expectation is more likely than the content itself. *)
Lemma logpmf_best : forall k mu, 0 < mu -> poisson_logpmf k mu <= poisson_logpmf k (INR k) /\ (poisson_logpmf k mu = poisson_logpmf k (INR k) -> mu = INR k).
Proof.
  intros k mu P. unfold poisson_logpmf, xlogy. destruct (Req_EM_T (INR k) 0) as [->|N]; [split; lra|].
  assert (K : 0 < INR k) by (pose proof (pos_INR k); lra). destruct (ln_le_pred (mu / INR k)) as [L1 L2]; [now apply Rdiv_lt_0_compat|].
  assert (E : ln (mu / INR k) = ln mu - ln (INR k)) by (unfold Rdiv; rewrite ln_mult, ln_Rinv by (try apply Rinv_0_lt_compat; assumption); ring). rewrite E in *.
  assert (L3 : INR k * (ln mu - ln (INR k)) <= INR k * (mu / INR k - 1)) by (apply Rmult_le_compat_l; lra).
  replace (INR k * (mu / INR k - 1)) with (mu - INR k) in L3 by (field; lra). split; [lra|]. intros EQ.
  assert (Q : ln mu - ln (INR k) = mu / INR k - 1). { apply Rmult_eq_reg_l with (INR k); [|lra]. replace (INR k * (mu / INR k - 1)) with (mu - INR k) by (field; lra). lra. }
  apply L2 in Q. replace mu with (mu / INR k * INR k) by (field; lra). rewrite Q. ring.
Qed.
(** The smallest value any spectrum can reach. *)
Definition best (data_y : list nat) : R := rsum (map (fun k => -2 * poisson_logpmf k (INR k)) data_y).
Lemma likelihood_best : forall y mu, length y = length mu -> (forall m, In m mu -> 0 < m) -> best y <= likelihood_of y mu /\ (likelihood_of y mu = best y -> mu = map INR y).
Proof.
  unfold best, likelihood_of, rsum. induction y as [|k y IH]; intros [|m mu] LEN P; try discriminate; [cbn; split; [lra|auto]|].
  cbn [combine map fold_right fst snd]. destruct (IH mu) as [I1 I2]; [now injection LEN|intros; apply P; now right|]. destruct (logpmf_best k m (P m (or_introl eq_refl))) as [B1 B2]. split; [lra|]. intros E. rewrite B2 by lra. f_equal. apply I2. lra.
Qed.
Lemma normalised_pos : forall x y s, (forall v, In v s -> 0 < v) -> 0 < trapz x s -> 0 < trapz x (map INR y) -> forall m, In m (normalised x y s) -> 0 < m.
Proof. intros x y s P T U m I. unfold normalised in I. apply in_map_iff in I as (v & <- & I). apply Rmult_lt_0_compat; [now apply P|]. now apply Rdiv_lt_0_compat. Qed.
(** No positive spectrum has a smaller value than the histogram itself, and only the shape of the histogram reaches it. *)
Theorem C74_minimum : forall data_x data_y spectrum, length data_y = length spectrum -> (forall v, In v spectrum -> 0 < v) -> 0 < trapz data_x spectrum -> 0 < trapz data_x (map INR data_y) ->
  best data_y <= likelihood1 data_x data_y spectrum /\
  (likelihood1 data_x data_y spectrum = best data_y -> exists c, map INR data_y = map (fun s => s * c) spectrum).
Proof.
  intros x y s LEN P T U. unfold likelihood1. destruct (likelihood_best y (normalised x y s)) as [B1 B2]; [unfold normalised; now rewrite map_length|now apply normalised_pos|]. split; [exact B1|].
  intros E. apply B2 in E. exists (trapz x (map INR y) / trapz x s). symmetry. exact E.
Qed.
Print Assumptions C74_minimum.
Theorem C74_reached : forall c data_x data_y, c <> 0 -> trapz data_x (map INR data_y) <> 0 -> likelihood1 data_x data_y (map (fun k => INR k * c) data_y) = best data_y.
Proof.
  intros c x y C N. assert (E : map (fun k => INR k * c) y = map (fun s => s * c) (map INR y)) by now rewrite map_map. rewrite E, C74_scale by assumption.
  unfold likelihood1. assert (M : normalised x y (map INR y) = map INR y). { unfold normalised. transitivity (map (fun a : R => a) (map INR y)); [|apply map_id]. apply map_ext. intros a. field. exact N. }
  rewrite M. unfold likelihood_of, best. f_equal. clear. induction y as [|k y IH]; [reflexivity|]. cbn [map combine fst snd]. now rewrite IH.
Qed.
Print Assumptions C74_reached.
(** Several illuminations: the total cannot be smaller than that of the histograms themselves. *)
Theorem C74_illuminations : forall data_x data_y spectra, length data_y = length spectra ->
  (forall y s, In (y, s) (combine data_y spectra) -> length y = length s /\ (forall v, In v s -> 0 < v) /\ 0 < trapz data_x s /\ 0 < trapz data_x (map INR y)) ->
  rsum (map best data_y) <= get_likelihood data_x data_y spectra.
Proof.
  intros x ys ss. revert ss. unfold get_likelihood, rsum. induction ys as [|y ys IH]; intros [|s ss] LEN H; try discriminate; [cbn; lra|]. cbn [combine map fold_right fst snd].
  apply Rplus_le_compat.
  - destruct (H y s (or_introl eq_refl)) as (A & B & C & D). now apply C74_minimum.
  - apply IH; [now injection LEN|]. intros y' s' I. apply H. now right.
Qed.
Print Assumptions C74_illuminations.
Lemma cons_eq : forall (a b : R) l m, a = b -> l = m -> a :: l = b :: m. Proof. intros; now subst. Qed.
Example C74_example : normalised [0; 1; 2] [2; 4; 2]%nat [1; 3; 1] = [3/2; 9/2; 3/2] /\ likelihood1 [0; 1; 2] [0; 4; 0]%nat [0; 3; 0] = best [0; 4; 0]%nat.
Proof.
  split.
  - unfold normalised. cbn [map trapz INR]. repeat (apply cons_eq; [field|]). reflexivity.
  - replace [0; 3; 0] with (map (fun k => INR k * (3/4)) [0; 4; 0]%nat) by (cbn [map INR]; repeat (apply cons_eq; [field|]); reflexivity). apply C74_reached; [lra|]. cbn. lra.
Qed.
