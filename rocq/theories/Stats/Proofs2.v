(** The Gaussian integral, and the integrals of the normal density and of weighted sums of it. *)
From Coq Require Import Reals Lra Psatz List.
From Coquelicot Require Import Coquelicot.
From Verif.Stats Require Import Model Proofs.
Local Open Scope R_scope.

Ltac eqR := match goal with |- @eq _ ?a ?b => change (@eq R a b) end.
Definition bell (t : R) : R := exp (- t ^ 2).
Lemma bell_cont : forall t, continuous bell t.
Proof. intros t. apply (ex_derive_continuous (V:=R_NormedModule)). unfold bell. auto_derive. auto. Qed.
Lemma bell_int : forall a b, ex_RInt bell a b.
Proof. intros a b. apply (ex_RInt_continuous (V:=R_CompleteNormedModule)). intros; apply bell_cont. Qed.
Definition tri (x t : R) : R := exp (- (x ^ 2 * (1 + t ^ 2))) / (1 + t ^ 2).
Lemma one_sq : forall t, 0 < 1 + t ^ 2.
Proof. intros t. nra. Qed.
Lemma tri_derive : forall x t, is_derive (fun u => tri u t) x (- (2 * x) * exp (- (x ^ 2 * (1 + t ^ 2)))).
Proof. intros x t. unfold tri. pose proof (one_sq t). auto_derive; [auto|]. simpl in *. field. lra. Qed.
Lemma tri_int : forall x a b, ex_RInt (tri x) a b.
Proof. intros x a b. apply (ex_RInt_continuous (V:=R_CompleteNormedModule)). intros t _. apply (ex_derive_continuous (V:=R_NormedModule)). unfold tri. pose proof (one_sq t). auto_derive. simpl in *. lra. Qed.
Lemma area_derive : forall x, is_derive (fun x => RInt bell 0 x) x (bell x).
Proof.
  intros x. apply (is_derive_RInt (V:=R_NormedModule) bell (fun x => RInt bell 0 x) 0); [|apply bell_cont]. apply filter_forall. intros y. apply (RInt_correct (V:=R_CompleteNormedModule)). apply bell_int.
Qed.
Lemma tri_area_derive : forall x, is_derive (fun x => RInt (tri x) 0 1) x (RInt (fun t => Derive (fun u => tri u t) x) 0 1).
Proof.
  intros x. apply is_derive_RInt_param.
  - apply filter_forall. intros y t _. eexists. apply tri_derive.
  - intros t _. apply (continuity_2d_pt_ext (fun u v => - (2 * u) * exp (- (u * u * (1 + v * v))))).
    + intros u v. symmetry. erewrite is_derive_unique by apply tri_derive. simpl. f_equal. f_equal. ring.
    + apply continuity_2d_pt_mult.
      * apply continuity_2d_pt_opp. apply continuity_2d_pt_mult; [apply continuity_2d_pt_const|apply continuity_2d_pt_id1].
      * apply (continuity_1d_2d_pt_comp exp); [apply derivable_continuous_pt, derivable_pt_exp|].
        apply continuity_2d_pt_opp. apply continuity_2d_pt_mult; [apply continuity_2d_pt_mult; apply continuity_2d_pt_id1|].
        apply continuity_2d_pt_plus; [apply continuity_2d_pt_const|]. apply continuity_2d_pt_mult; apply continuity_2d_pt_id2.
  - apply filter_forall. intros y. apply tri_int.
Qed.
Lemma tri_area_value : forall x, RInt (fun t => Derive (fun u => tri u t) x) 0 1 = - (2 * exp (- x ^ 2) * RInt bell 0 x).
Proof.
  intros x. transitivity (RInt (fun t => - (2 * exp (- x ^ 2)) * (x * bell (x * t + 0))) 0 1).
  - apply RInt_ext. intros t _. erewrite is_derive_unique by apply tri_derive. unfold bell. simpl.
    replace (- (x * (x * 1) * (1 + t * (t * 1)))) with (- (x * (x * 1)) + - ((x * t + 0) * ((x * t + 0) * 1))) by ring. rewrite exp_plus. ring.
  - transitivity (- (2 * exp (- x ^ 2)) * RInt (fun t => x * bell (x * t + 0)) 0 1).
    + apply (RInt_scal (V:=R_CompleteNormedModule)). apply (ex_RInt_continuous (V:=R_CompleteNormedModule)). intros t _. apply (ex_derive_continuous (V:=R_NormedModule)). unfold bell. auto_derive. auto.
    + assert (E : RInt (fun t => x * bell (x * t + 0)) 0 1 = RInt bell (x * 0 + 0) (x * 1 + 0)) by (apply (RInt_comp_lin (V:=R_CompleteNormedModule)); apply bell_int).
      rewrite E. replace (x * 0 + 0) with 0 by ring. replace (x * 1 + 0) with x by ring. eqR. ring.
Qed.
Lemma sum_const : forall x, RInt bell 0 x * RInt bell 0 x + RInt (tri x) 0 1 = PI / 4.
Proof.
  assert (D : forall x, is_derive (fun x => RInt bell 0 x * RInt bell 0 x + RInt (tri x) 0 1) x 0).
  { intros x. evar_last.
    - apply (is_derive_plus (K:=R_AbsRing) (V:=R_NormedModule)); [|apply tri_area_derive]. apply (is_derive_mult (fun x => RInt bell 0 x) (fun x => RInt bell 0 x)); [apply area_derive|apply area_derive|]. intros; apply Rmult_comm.
    - rewrite tri_area_value. unfold plus, mult. simpl. unfold mult. simpl. unfold bell. simpl. ring. }
  assert (Z : RInt bell 0 0 * RInt bell 0 0 + RInt (tri 0) 0 1 = PI / 4).
  { rewrite RInt_point. unfold zero. simpl. rewrite Rmult_0_l, Rplus_0_l.
    assert (I : is_RInt (V:=R_NormedModule) (fun t => / (1 + t ^ 2)) 0 1 (minus (atan 1) (atan 0))).
    { apply (is_RInt_derive (V:=R_CompleteNormedModule) atan).
      + intros t _. auto_derive; [auto|]. pose proof (one_sq t). simpl in *. field. lra.
      + intros t _. apply (ex_derive_continuous (V:=R_NormedModule)). pose proof (one_sq t). auto_derive. simpl in *. lra. }
    rewrite atan_0, atan_1 in I. replace (minus (PI / 4) 0) with (PI / 4) in I by (unfold minus, plus, opp; simpl; ring).
    apply is_RInt_unique. eapply is_RInt_ext; [|exact I].
    intros t _. unfold tri. simpl. rewrite !Rmult_0_l, Ropp_0, exp_0. eqR. field. pose proof (one_sq t). simpl in H. lra. }
  intros x. destruct (Rtotal_order x 0) as [L|[->|L]]; [|exact Z|]; rewrite <- Z.
  - apply (eq_is_derive (V:=R_NormedModule) (fun x => RInt bell 0 x * RInt bell 0 x + RInt (tri x) 0 1)); [intros t _; apply D|exact L].
  - symmetry. apply (eq_is_derive (V:=R_NormedModule) (fun x => RInt bell 0 x * RInt bell 0 x + RInt (tri x) 0 1)); [intros t _; apply D|exact L].
Qed.
Lemma tri_bounds : forall x, 0 <= RInt (tri x) 0 1 <= exp (- x ^ 2).
Proof.
  intros x. split.
  - apply RInt_ge_0; [lra|apply tri_int|]. intros t _. unfold tri. apply Rlt_le, Rdiv_lt_0_compat; [apply exp_pos|apply one_sq].
  - apply Rle_trans with (RInt (fun _ => exp (- x ^ 2)) 0 1).
    + apply RInt_le; [lra|apply tri_int|apply ex_RInt_const|]. intros t _. unfold tri. apply Rle_trans with (exp (- (x ^ 2 * (1 + t ^ 2))) / 1).
      * unfold Rdiv. apply Rmult_le_compat_l; [apply Rlt_le, exp_pos|]. apply Rinv_le_contravar; [lra|]. nra.
      * unfold Rdiv. rewrite Rinv_1, Rmult_1_r. destruct (Req_dec (x ^ 2 * t ^ 2) 0) as [E|N].
        -- right. f_equal. nra.
        -- left. apply exp_increasing. assert (0 <= x ^ 2 * t ^ 2) by nra. nra.
    + rewrite RInt_const. unfold scal. simpl. unfold mult. simpl. lra.
Qed.
(** Half the Gaussian integral. *)
Lemma area_bound : forall x, 0 < x -> Rabs (RInt bell 0 x - sqrt PI / 2) <= 2 / x ^ 2.
Proof.
  intros x P. pose proof (sum_const x) as S. destruct (tri_bounds x) as [T0 T1]. set (F := RInt bell 0 x) in *. set (K := RInt (tri x) 0 1) in *.
  assert (F0 : 0 <= F) by (apply RInt_ge_0; [lra|apply bell_int|intros; apply Rlt_le, exp_pos]).
  pose proof PI_RGT_0 as PP. pose proof (sqrt_lt_R0 PI PP) as SP. pose proof (sqrt_sqrt PI (Rlt_le _ _ PP)) as SS. set (q := sqrt PI) in *.
  assert (P1 : 1 < PI) by (pose proof PI_4; pose proof PI2_1; lra). assert (Q1 : 1 < q) by nra.
  assert (E : exp (- x ^ 2) <= 1 / x ^ 2).
  { rewrite exp_Ropp. unfold Rdiv. rewrite Rmult_1_l. apply Rinv_le_contravar; [nra|]. pose proof (exp_ineq1_le (x ^ 2)). lra. }
  assert (X : (q / 2 - F) * (q / 2 + F) = K) by nra. assert (D0 : 0 <= q / 2 - F) by nra. rewrite <- Rabs_Ropp, Rabs_pos_eq by lra.
  assert ((q / 2 - F) * (1 / 2) <= K) by nra. lra.
Qed.
Lemma bell_even : forall x, RInt bell 0 (- x) = - RInt bell 0 x.
Proof.
  intros x. assert (E : RInt (fun t => -1 * bell (-1 * t + 0)) 0 x = RInt bell (-1 * 0 + 0) (-1 * x + 0)) by (apply (RInt_comp_lin (V:=R_CompleteNormedModule)); apply bell_int).
  replace (-1 * 0 + 0) with 0 in E by ring. replace (-1 * x + 0) with (- x) in E by ring. rewrite <- E.
  transitivity (RInt (fun t => scal (-1) (bell t)) 0 x).
  - apply RInt_ext. intros t _. unfold scal. simpl. unfold mult. simpl. unfold bell. eqR. f_equal. f_equal. simpl. ring.
  - rewrite (RInt_scal (V:=R_CompleteNormedModule)) by apply bell_int. unfold scal. simpl. unfold mult. simpl. eqR. ring.
Qed.
Lemma bell_tails : forall a b, a < 0 -> 0 < b -> Rabs (RInt bell a b - sqrt PI) <= 2 / a ^ 2 + 2 / b ^ 2.
Proof.
  intros a b A B. assert (E : RInt bell a b = RInt bell 0 b - RInt bell 0 a).
  { rewrite <- (RInt_Chasles bell a 0 b) by apply bell_int. rewrite <- (opp_RInt_swap bell 0 a) by apply bell_int. unfold plus, opp. simpl. eqR. ring. }
  pose proof (area_bound b B) as P1. pose proof (area_bound (- a) ltac:(lra)) as P2. rewrite bell_even in P2. replace ((- a) ^ 2) with (a ^ 2) in P2 by ring.
  rewrite E. revert P1 P2. generalize (RInt bell 0 b) (RInt bell 0 a). unfold R_CompleteNormedModule. simpl. intros u v P1 P2. replace (u - v - sqrt PI) with ((u - sqrt PI / 2) + (- v - sqrt PI / 2)) by field.
  eapply Rle_trans; [apply Rabs_triang|]. lra.
Qed.
Lemma normal_bell : forall m s x, 0 < s -> normal_pdf x m s = / sqrt PI * (/ (s * sqrt 2) * bell (/ (s * sqrt 2) * x + - (m / (s * sqrt 2)))).
Proof.
  intros m s x P. pose proof PI_RGT_0. assert (S2 : 0 < sqrt 2) by (apply sqrt_lt_R0; lra). assert (SP : 0 < sqrt PI) by (apply sqrt_lt_R0; lra).
  unfold normal_pdf, SQRT2PI, bell. rewrite sqrt_mult by lra.
  replace (- (1 / 2) * ((x - m) / s) ^ 2) with (- (/ (s * sqrt 2) * x + - (m / (s * sqrt 2))) ^ 2); [field; lra|].
  replace (/ (s * sqrt 2) * x + - (m / (s * sqrt 2))) with ((x - m) / s * / sqrt 2) by (field; lra). rewrite Rpow_mult_distr. replace ((/ sqrt 2) ^ 2) with (1 / 2); [ring|].
  simpl. rewrite Rmult_1_r, <- Rinv_mult. rewrite sqrt_sqrt by lra. lra.
Qed.
Lemma normal_ex : forall m s a b, 0 < s -> ex_RInt (fun x => normal_pdf x m s) a b.
Proof.
  intros m s a b P. apply (ex_RInt_continuous (V:=R_CompleteNormedModule)). intros t _. apply (ex_derive_continuous (V:=R_NormedModule)). unfold normal_pdf. auto_derive. auto.
Qed.
Lemma normal_int : forall m s a b, 0 < s -> RInt (fun x => normal_pdf x m s) a b = / sqrt PI * RInt bell ((a - m) / (s * sqrt 2)) ((b - m) / (s * sqrt 2)).
Proof.
  intros m s a b P. pose proof PI_RGT_0. assert (S2 : 0 < sqrt 2) by (apply sqrt_lt_R0; lra).
  rewrite (RInt_ext _ (fun x => scal (/ sqrt PI) (/ (s * sqrt 2) * bell (/ (s * sqrt 2) * x + - (m / (s * sqrt 2)))))).
  2:{ intros x _. unfold scal. simpl. unfold mult. simpl. now apply normal_bell. }
  rewrite (RInt_scal (V:=R_CompleteNormedModule)).
  - unfold scal. simpl. unfold mult. simpl. eqR. f_equal. rewrite (RInt_comp_lin (V:=R_CompleteNormedModule) bell) by apply bell_int. f_equal; field; lra.
  - apply (ex_RInt_continuous (V:=R_CompleteNormedModule)). intros t _. apply (ex_derive_continuous (V:=R_NormedModule)). unfold bell. auto_derive. auto.
Qed.
Lemma normal_tails : forall m s a b, 0 < s -> a < m -> m < b -> Rabs (RInt (fun x => normal_pdf x m s) a b - 1) <= 4 * s ^ 2 / (a - m) ^ 2 + 4 * s ^ 2 / (b - m) ^ 2.
Proof.
  intros m s a b P A B. rewrite normal_int by exact P. pose proof PI_RGT_0 as PP. assert (S2 : 0 < sqrt 2) by (apply sqrt_lt_R0; lra). pose proof (sqrt_sqrt 2 ltac:(lra)) as SS.
  assert (SP : 1 <= sqrt PI). { rewrite <- sqrt_1. apply sqrt_le_1; [lra|lra|]. pose proof PI2_1. lra. }
  assert (W : 0 < / (s * sqrt 2)) by (apply Rinv_0_lt_compat; nra).
  assert (E : forall c, c <> 0 -> 2 / (c / (s * sqrt 2)) ^ 2 = 4 * s ^ 2 / c ^ 2).
  { intros c C. replace (2 / (c / (s * sqrt 2)) ^ 2) with (2 * (s ^ 2 * (sqrt 2 * sqrt 2)) / c ^ 2) by (field; lra). rewrite SS. field. exact C. }
  pose proof (bell_tails ((a - m) / (s * sqrt 2)) ((b - m) / (s * sqrt 2))) as T. rewrite !E in T by lra.
  assert (T' := T ltac:(unfold Rdiv; nra) ltac:(unfold Rdiv; nra)). clear T. revert T'. generalize (RInt bell ((a - m) / (s * sqrt 2)) ((b - m) / (s * sqrt 2))). simpl. intros r T.
  replace (/ sqrt PI * r - 1) with (/ sqrt PI * (r - sqrt PI)) by (field; lra). rewrite Rabs_mult, (Rabs_pos_eq (/ sqrt PI)) by (apply Rlt_le, Rinv_0_lt_compat; lra).
  assert (I : / sqrt PI <= 1) by (rewrite <- Rinv_1; apply Rinv_le_contravar; lra). pose proof (Rabs_pos (r - sqrt PI)). nra.
Qed.
Lemma normal_integral : forall m s, 0 < s -> is_RInt_gen (fun x => normal_pdf x m s) (Rbar_locally m_infty) (Rbar_locally p_infty) 1.
Proof.
  intros m s P. intros Q [eps HQ]. simpl in HQ. pose proof (cond_pos eps) as EP.
  set (T := 1 + 16 * s ^ 2 / eps). assert (T1 : 1 < T) by (unfold T; assert (0 < 16 * s ^ 2 / eps) by (apply Rdiv_lt_0_compat; [nra|exact EP]); lra).
  exists (fun a => a < m - T) (fun b => m + T < b).
  - exists (m - T). auto.
  - exists (m + T). auto.
  - intros a b A B. simpl. exists (RInt (fun x => normal_pdf x m s) a b). split; [apply (RInt_correct (V:=R_CompleteNormedModule)); now apply normal_ex|].
    apply HQ. unfold ball. simpl. unfold AbsRing_ball. unfold abs, minus, plus, opp. simpl.
    eapply Rle_lt_trans; [apply normal_tails; [exact P|lra|lra]|].
    assert (K : forall c, T < c -> 4 * s ^ 2 / c ^ 2 < eps / 4).
    { intros c C. apply Rlt_le_trans with (4 * s ^ 2 / (16 * s ^ 2 / eps)).
      - unfold Rdiv. apply Rmult_lt_compat_l; [nra|]. apply Rinv_lt_contravar.
        + apply Rmult_lt_0_compat; [apply Rmult_lt_0_compat; [nra|now apply Rinv_0_lt_compat]|nra].
        + unfold T in C. unfold Rdiv in C. nra.
      - right. field. split; lra. }
    pose proof (K (b - m) ltac:(lra)). pose proof (K (m - a) ltac:(lra)) as K2. replace ((m - a) ^ 2) with ((a - m) ^ 2) in K2 by ring. lra.
Qed.
Lemma peaks_integral : forall (w m s : nat -> R) l, (forall k, In k l -> 0 < s k) ->
  is_RInt_gen (fun x => rsum (map (fun k => w k * normal_pdf x (m k) (s k)) l)) (Rbar_locally m_infty) (Rbar_locally p_infty) (rsum (map w l)).
Proof.
  intros w m s l. induction l as [|k l IH]; intros P.
  - cbn [map rsum fold_right]. intros Q HQ. exists (fun _ => True) (fun _ => True); [exists 0; auto|exists 0; auto|]. intros a b _ _. exists 0. split; [|now apply locally_singleton].
    simpl. evar_last; [apply (is_RInt_const (V:=R_NormedModule))|]. unfold scal. simpl. unfold mult. simpl. eqR. ring.
  - cbn [map]. change (rsum (?a :: ?l)) with (a + rsum l). 
    apply (is_RInt_gen_plus (V:=R_NormedModule) (Fa:=Rbar_locally m_infty) (Fb:=Rbar_locally p_infty) (fun x => w k * normal_pdf x (m k) (s k)) (fun x => rsum (map (fun k => w k * normal_pdf x (m k) (s k)) l)) (w k) (rsum (map w l))).
    + pose proof (is_RInt_gen_scal (V:=R_NormedModule) (Fa:=Rbar_locally m_infty) (Fb:=Rbar_locally p_infty) (fun x => normal_pdf x (m k) (s k)) (w k) 1 (normal_integral _ _ (P k (or_introl eq_refl)))) as H.
      assert (H' : is_RInt_gen (V:=R_NormedModule) (fun x => w k * normal_pdf x (m k) (s k)) (Rbar_locally m_infty) (Rbar_locally p_infty) (w k * 1)) by exact H.
      rewrite Rmult_1_r in H'. exact H'.
    + apply IH. intros; apply P; now right.
Qed.
