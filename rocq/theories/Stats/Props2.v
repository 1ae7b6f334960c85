(** Properties C33, C34, C35, C74, continued: integrals. *)
From Coq Require Import Reals List Lra Lia Psatz.
From Coquelicot Require Import Coquelicot.
From Verif.Stats Require Import Model Proofs Proofs2 Props.
Import ListNotations.
Local Open Scope R_scope.

(** * C33 *)
(** The area below normal_pdf is one. *)
Theorem C33_normal_integral : forall mean s, 0 < s -> is_RInt_gen (fun x => normal_pdf x mean s) (Rbar_locally m_infty) (Rbar_locally p_infty) 1.
Proof. exact normal_integral. Qed.
Print Assumptions C33_normal_integral.
(** Its logarithmic slope at x is minus the distance from the mean over the variance; with the area this says which function it is. *)
Theorem C33_normal_slope : forall mean s x, 0 < s -> is_derive (fun x => normal_pdf x mean s) x (- ((x - mean) / s ^ 2) * normal_pdf x mean s).
Proof.
  intros m s x P. pose proof PI_RGT_0. assert (0 < SQRT2PI) by (apply sqrt_lt_R0; lra). unfold normal_pdf. auto_derive; [auto|].
  replace (- (1 / 2) * ((x + - m) * / s * ((x + - m) * / s * 1))) with (- (1 / 2) * ((x - m) / s) ^ 2) by (field; lra).
  generalize (exp (- (1 / 2) * ((x - m) / s) ^ 2)). intros e. field. lra.
Qed.
Print Assumptions C33_normal_slope.
(** One standard deviation from the mean. *)
Example C33_normal_example : forall mean s, 0 < s -> normal_pdf (mean + s) mean s = exp (- (1 / 2)) * normal_pdf mean mean s /\ normal_pdf 3 3 (/ sqrt (2 * PI)) = 1.
Proof.
  intros m s P. pose proof PI_RGT_0. assert (0 < sqrt (2 * PI)) by (apply sqrt_lt_R0; lra). unfold normal_pdf, SQRT2PI. split.
  - replace ((m + s - m) / s) with 1 by (field; lra). replace (m - m) with 0 by ring. replace (- (1 / 2) * 1 ^ 2) with (- (1 / 2)) by ring. replace (- (1 / 2) * (0 / s) ^ 2) with 0 by (field; lra). rewrite exp_0. field. lra.
  - replace ((3 - 3) / / sqrt (2 * PI)) with 0 by (field; lra). replace (- (1 / 2) * 0 ^ 2) with 0 by ring. rewrite exp_0. field. lra.
Qed.

(** * C34, C35: the area below a spectrum is the total weight of its peaks. *)
Lemma first_and_rest : forall (w0 : R) (w m s : nat -> R) n, (forall k, 0 < s k) ->
  is_RInt_gen (fun x => w0 * normal_pdf x (m 0%nat) (s 0%nat) + rsum (map (fun k => w k * normal_pdf x (m k) (s k)) (seq 1 n))) (Rbar_locally m_infty) (Rbar_locally p_infty) (w0 + rsum (map w (seq 1 n))).
Proof.
  intros w0 w m s n P. pose proof (peaks_integral (fun k => match k with O => w0 | S _ => w k end) m s (seq 0 (S n)) (fun k _ => P k)) as H. cbn [seq map] in H.
  assert (E : map (fun k => match k with O => w0 | S _ => w k end) (seq 1 n) = map w (seq 1 n)) by (apply map_ext_in; intros [|k] I; [apply in_seq in I; lia|reflexivity]).
  rewrite E in H. assert (F : forall x, map (fun k => match k with O => w0 | S _ => w k end * normal_pdf x (m k) (s k)) (seq 1 n) = map (fun k => w k * normal_pdf x (m k) (s k)) (seq 1 n)) by (intros x; apply map_ext_in; intros [|k] I; [apply in_seq in I; lia|reflexivity]).
  eapply is_RInt_gen_ext; [|exact H]. apply filter_forall. intros ab x _. cbn beta. change (rsum (?a :: ?l)) with (a + rsum l). now rewrite F.
Qed.
Lemma sqrt_es : forall ss es, 0 < es -> sqrt (INR 0 * ss ^ 2 + es ^ 2) = es.
Proof. intros ss es P. replace (INR 0 * ss ^ 2 + es ^ 2) with (es ^ 2) by (cbn [INR]; ring). apply sqrt_pow2. lra. Qed.
Theorem C34_integral : forall lambda_, 0 < lambda_ -> exists n, (n <= 99)%nat /\
  (forall eped eped_sigma spe spe_sigma, 0 < eped_sigma ->
     is_RInt_gen (fun x => mapm_spe x eped eped_sigma spe spe_sigma lambda_) (Rbar_locally m_infty) (Rbar_locally p_infty) (exp (- lambda_) + rsum (map (fun k => poisson k lambda_) (seq 1 n)))) /\
  (forall k, (n < k < 100)%nat -> poisson k lambda_ < 1 / 10000).
Proof.
  intros l L. destruct (C34_mapm l L) as (n & B & E & _ & T & _). exists n. split; [exact B|]. split; [|exact T]. intros e es sp ss P.
  pose proof (first_and_rest (exp (- l)) (fun k => poisson k l) (fun k => e + INR k * sp) (fun k => sqrt (INR k * ss ^ 2 + es ^ 2)) n (fun k => sigma_pos k ss es P)) as H.
  eapply is_RInt_gen_ext; [|exact H]. apply filter_forall. intros ab x _. cbn beta. rewrite E. rewrite sqrt_es by exact P. do 3 f_equal. cbn [INR]. ring.
Qed.
Print Assumptions C34_integral.
Theorem C35_integral : forall opct lambda_, 0 <= opct <= 1 -> 0 < lambda_ -> exists W, 0 < W <= 1 /\
  forall eped eped_sigma spe spe_sigma, 0 < eped_sigma ->
     is_RInt_gen (fun x => sipm_gentile_spe x eped eped_sigma spe spe_sigma opct lambda_) (Rbar_locally m_infty) (Rbar_locally p_infty) W.
Proof.
  intros q l Q L. destruct (C35_gentile q l Q L) as (n & B & E & N & T & _). exists (exp (- l) + rsum (map (gentile_probability q l) (seq 1 n))). split.
  - split; [|exact T]. apply Rplus_lt_le_0_compat; [apply exp_pos|]. fold (sum1 (gentile_probability q l) n). rewrite <- (sum1_zero n). apply sum1_le. exact N.
  - intros e es sp ss P.
    pose proof (first_and_rest (exp (- l)) (gentile_probability q l) (fun k => e + INR k * sp) (fun k => sqrt (INR k * ss ^ 2 + es ^ 2)) n (fun k => sigma_pos k ss es P)) as H.
    eapply is_RInt_gen_ext; [|exact H]. apply filter_forall. intros ab x _. cbn beta. rewrite E. rewrite sqrt_es by exact P. do 3 f_equal. cbn [INR]. ring.
Qed.
Print Assumptions C35_integral.

(** * C74: the integral used for the scaling *)
(** It is exact where the points lie on a line, and adds up over adjacent ranges; so it is the area below the polygon through the points. *)
Lemma trapz_cons : forall x0 x1 x y0 y1 y, trapz (x0 :: x1 :: x) (y0 :: y1 :: y) = (x1 - x0) * (y0 + y1) / 2 + trapz (x1 :: x) (y1 :: y).
Proof. reflexivity. Qed.
Theorem C74_trapz_line : forall a b x0 x, trapz (x0 :: x) (map (fun t => a * t + b) (x0 :: x)) = RInt (fun t => a * t + b) x0 (last (x0 :: x) x0).
Proof.
  intros a b x0 x. assert (E : forall u v, RInt (fun t => a * t + b) u v = a * (v ^ 2 - u ^ 2) / 2 + b * (v - u)).
  { intros u v. apply is_RInt_unique. replace (a * (v ^ 2 - u ^ 2) / 2 + b * (v - u)) with (minus (a * v ^ 2 / 2 + b * v) (a * u ^ 2 / 2 + b * u)) by (unfold minus, plus, opp; simpl; field).
    apply (is_RInt_derive (V:=R_CompleteNormedModule) (fun t => a * t ^ 2 / 2 + b * t)).
    - intros t _. auto_derive; [auto|]. field.
    - intros t _. apply (ex_derive_continuous (V:=R_NormedModule)). auto_derive. auto. }
  rewrite E. revert x0. induction x as [|x1 x IH]; intros x0; [cbn; field|]. cbn [map] in *. rewrite trapz_cons, IH. replace (last (x0 :: x1 :: x) x0) with (last (x1 :: x) x1); [field|].
  cbn [last]. destruct x as [|x2 x]; [reflexivity|]. generalize x2 x0 x1. clear. induction x as [|x3 x IH]; intros; [reflexivity|]. apply IH.
Qed.
Print Assumptions C74_trapz_line.
Theorem C74_trapz_split : forall x1 y1 x y x2 y2, length x1 = length y1 -> trapz (x1 ++ x :: x2) (y1 ++ y :: y2) = trapz (x1 ++ [x]) (y1 ++ [y]) + trapz (x :: x2) (y :: y2).
Proof.
  induction x1 as [|u x1 IH]; intros [|v y1] x y x2 y2 L; try discriminate; cbn [app]; [cbn [trapz]; ring|].
  injection L as L. specialize (IH y1 x y x2 y2 L). destruct x1 as [|u1 x1], y1 as [|v1 y1]; try discriminate; cbn [app] in *.
  - rewrite !trapz_cons. cbn [trapz]. ring.
  - rewrite !trapz_cons, IH. ring.
Qed.
Print Assumptions C74_trapz_split.
Example C74_trapz_example : trapz [0; 1; 3] [2; 4; 0] = 7.
Proof. cbn [trapz]. field. Qed.
