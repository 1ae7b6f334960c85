(** Facts about the probability functions. *)
From Coq Require Import Reals List Lia Lra Rsigma.
From Verif.Stats Require Import Model.
Import ListNotations.
Local Open Scope R_scope.

Lemma fact_pos : forall n, 0 < INR (fact n).
Proof. intros. apply lt_0_INR. apply lt_O_fact. Qed.
Lemma exp_lgamma : forall n, exp (lgamma (n + 1)) = INR (fact n).
Proof. intros n. unfold lgamma. rewrite Nat.add_1_r. cbn [pred]. apply exp_ln, fact_pos. Qed.
Lemma binom_C : forall n k, binom n k = INR (fact n) / (INR (fact k) * INR (fact (n - k))).
Proof.
  intros n k. unfold binom. unfold Rminus. rewrite !exp_plus, !exp_Ropp, !exp_lgamma. field. split; apply INR_fact_neq_0.
Qed.
Lemma exp_mul : forall k x, exp (INR k * x) = exp x ^ k.
Proof.
  induction k as [|k IH]; intros x; [cbn [INR pow]; rewrite Rmult_0_l; apply exp_0|]. rewrite S_INR, Rmult_plus_distr_r, exp_plus, IH, Rmult_1_l. cbn [pow]. ring.
Qed.
Lemma poisson_eq : forall k mu, 0 < mu -> poisson k mu = mu ^ k * exp (- mu) / INR (fact k).
Proof.
  intros k mu P. unfold poisson, Rminus. rewrite !exp_plus, exp_mul, exp_ln by exact P. rewrite (exp_Ropp (lgamma _)), exp_lgamma. reflexivity.
Qed.
Lemma poisson_pos : forall k mu, 0 < poisson k mu.
Proof. intros. apply exp_pos. Qed.
Lemma poisson_S : forall k mu, 0 < mu -> poisson (S k) mu = poisson k mu * (mu / INR (S k)).
Proof.
  intros k mu P. rewrite !poisson_eq by exact P. cbn [pow]. rewrite fact_simpl, mult_INR. field. split; [apply not_0_INR; lia|apply INR_fact_neq_0].
Qed.
Lemma poisson_sum : forall mu, 0 < mu -> infinite_sum (fun k => poisson k mu) 1.
Proof.
  intros mu P. assert (E : infinite_sum (fun k => / INR (fact k) * mu ^ k) (exp mu)) by (unfold exp; destruct (exist_exp mu) as [y H]; exact H).
  intros eps He. destruct (E (eps * exp mu)) as [N HN]; [apply Rmult_gt_0_compat; [exact He|apply exp_pos]|]. exists N. intros n Hn. specialize (HN n Hn).
  assert (EQ : sum_f_R0 (fun k => poisson k mu) n = exp (- mu) * sum_f_R0 (fun k => / INR (fact k) * mu ^ k) n).
  { rewrite scal_sum. apply sum_eq. intros i _. rewrite poisson_eq by exact P. unfold Rdiv. ring. }
  rewrite EQ. unfold R_dist in *. replace 1 with (exp (- mu) * exp mu) by (rewrite <- exp_plus, Rplus_opp_l; apply exp_0).
  rewrite <- Rmult_minus_distr_l, Rabs_mult, (Rabs_pos_eq (exp (- mu))) by (left; apply exp_pos).
  apply Rmult_lt_reg_l with (exp mu); [apply exp_pos|]. rewrite <- Rmult_assoc, <- exp_plus, Rplus_opp_r, exp_0, Rmult_1_l. lra.
Qed.
Lemma poisson_sum_le : forall n mu, 0 < mu -> sum_f_R0 (fun k => poisson k mu) n <= 1.
Proof. intros n mu P. apply (sum_incr (fun k => poisson k mu)); [exact (poisson_sum mu P)|]. intros. left. apply poisson_pos. Qed.
(** Unimodality. *)
Lemma poisson_up : forall k mu, 0 < mu -> INR (S k) < mu -> poisson k mu < poisson (S k) mu.
Proof.
  intros k mu P L. rewrite poisson_S by exact P. rewrite <- (Rmult_1_r (poisson k mu)) at 1. apply Rmult_lt_compat_l; [apply poisson_pos|].
  assert (0 < INR (S k)) by (apply lt_0_INR; lia). apply Rmult_lt_reg_r with (INR (S k)); [assumption|]. unfold Rdiv. rewrite Rmult_assoc, Rinv_l by lra. lra.
Qed.
Lemma poisson_down : forall k mu, 0 < mu -> mu <= INR (S k) -> poisson (S k) mu <= poisson k mu.
Proof.
  intros k mu P L. rewrite poisson_S by exact P. rewrite <- (Rmult_1_r (poisson k mu)) at 2. apply Rmult_le_compat_l; [left; apply poisson_pos|].
  assert (0 < INR (S k)) by (apply lt_0_INR; lia). apply Rmult_le_reg_r with (INR (S k)); [assumption|]. unfold Rdiv. rewrite Rmult_assoc, Rinv_l by lra. lra.
Qed.
Lemma poisson_ups : forall i k mu, 0 < mu -> (i < k)%nat -> INR k < mu -> poisson i mu < poisson k mu.
Proof.
  intros i k mu P. induction k as [|k IH]; intros L M; [lia|]. assert (H : poisson k mu < poisson (S k) mu) by now apply poisson_up.
  destruct (Nat.eq_dec i k) as [->|]; [exact H|]. eapply Rlt_trans; [apply IH; [lia|]|exact H]. rewrite S_INR in M. lra.
Qed.
Lemma poisson_downs : forall i k mu, 0 < mu -> (i <= k)%nat -> mu <= INR (S i) -> poisson k mu <= poisson i mu.
Proof.
  intros i k mu P L M. induction L as [|k L IH]; [lra|]. eapply Rle_trans; [apply poisson_down; [exact P|]|exact IH]. eapply Rle_trans; [exact M|]. apply le_INR. lia.
Qed.
Lemma normal_pos : forall x m s, 0 < s -> 0 < normal_pdf x m s.
Proof.
  intros x m s P. unfold normal_pdf. apply Rdiv_lt_0_compat; [apply exp_pos|]. apply Rmult_lt_0_compat; [|exact P]. apply sqrt_lt_R0. pose proof PI_RGT_0. lra.
Qed.
Lemma normal_nonneg_sigma : forall x m s, 0 < s -> 0 <= normal_pdf x m s.
Proof. intros. left. now apply normal_pos. Qed.
Lemma sigma_pos : forall k ss es, 0 < es -> 0 < sqrt (INR k * ss ^ 2 + es ^ 2).
Proof.
  intros k ss es P. apply sqrt_lt_R0. pose proof (pos_INR k). pose proof (pow2_ge_0 ss). assert (0 < es ^ 2) by (apply pow_lt; exact P). pose proof (Rmult_le_pos _ _ H H0). lra.
Qed.
(** Finite sums from 1. *)
Definition sum1 (f : nat -> R) (n : nat) : R := rsum (map f (seq 1 n)).
Lemma sum1_0 : forall f, sum1 f 0 = 0. Proof. reflexivity. Qed.
Lemma rsum_app : forall a b, rsum (a ++ b) = rsum a + rsum b.
Proof. unfold rsum. induction a as [|x a IH]; intros b; cbn [app fold_right]; [ring|]. rewrite IH. ring. Qed.
Lemma sum1_S : forall f n, sum1 f (S n) = sum1 f n + f (S n).
Proof. intros f n. unfold sum1. rewrite seq_S, map_app, rsum_app. cbn. ring. Qed.
Lemma sum1_f : forall f n, f O + sum1 f n = sum_f_R0 f n.
Proof. intros f n. induction n as [|n IH]; [rewrite sum1_0; cbn; ring|]. rewrite sum1_S. cbn [sum_f_R0]. rewrite <- IH. ring. Qed.
Lemma sum1_ext : forall f g n, (forall k, (1 <= k <= n)%nat -> f k = g k) -> sum1 f n = sum1 g n.
Proof. intros f g n H. unfold sum1. f_equal. apply map_ext_in. intros k I. apply in_seq in I. apply H. lia. Qed.
Lemma sum1_le : forall f g n, (forall k, (1 <= k <= n)%nat -> f k <= g k) -> sum1 f n <= sum1 g n.
Proof. intros f g n. induction n as [|n IH]; intros H; [rewrite !sum1_0; lra|]. rewrite !sum1_S. apply Rplus_le_compat; [apply IH; intros; apply H; lia|apply H; lia]. Qed.
Lemma sum1_plus : forall f g n, sum1 (fun k => f k + g k) n = sum1 f n + sum1 g n.
Proof. intros f g n. induction n as [|n IH]; [rewrite !sum1_0; ring|]. rewrite !sum1_S, IH. ring. Qed.
Lemma sum1_scal : forall c f n, sum1 (fun k => c * f k) n = c * sum1 f n.
Proof. intros c f n. induction n as [|n IH]; [rewrite !sum1_0; ring|]. rewrite !sum1_S, IH. ring. Qed.
Lemma sum1_zero : forall n, sum1 (fun _ => 0) n = 0.
Proof. induction n as [|n IH]; [reflexivity|]. rewrite sum1_S, IH. ring. Qed.
Lemma sum1_swap : forall (f : nat -> nat -> R) n m, sum1 (fun k => sum1 (fun j => f k j) m) n = sum1 (fun j => sum1 (fun k => f k j) n) m.
Proof.
  intros f n m. induction n as [|n IH]; [rewrite sum1_0; symmetry; rewrite (sum1_ext _ (fun _ => 0)) by (intros; apply sum1_0); apply sum1_zero|].
  rewrite sum1_S, IH, <- sum1_plus. apply sum1_ext. intros. now rewrite sum1_S.
Qed.

(** The loops with the weights as a function: where they stop. *)
Section Loop.
  Variable w : nat -> R.
  Variable shape : nat -> R.
  Fixpoint loop (fuel k : nat) (pk_max spectrum : R) : R :=
    match fuel with
    | O => spectrum
    | S fuel =>
      if Rlt_dec pk_max (w k) then loop fuel (S k) (w k) (spectrum + w k * shape k)
      else if Rlt_dec (w k) cut then spectrum else loop fuel (S k) pk_max (spectrum + w k * shape k)
    end.
  (** The number of the last peak that is added. *)
  Fixpoint stop (fuel k : nat) (pk_max : R) : nat :=
    match fuel with
    | O => pred k
    | S fuel => if Rlt_dec pk_max (w k) then stop fuel (S k) (w k) else if Rlt_dec (w k) cut then pred k else stop fuel (S k) pk_max
    end.
  Lemma loop_sum : forall fuel k m s, (1 <= k)%nat -> s + (sum1 (fun i => w i * shape i) (stop fuel k m) - sum1 (fun i => w i * shape i) (pred k)) = loop fuel k m s.
  Proof.
    induction fuel as [|fuel IH]; intros k m s K; cbn [stop loop]; [ring|].
    assert (E : sum1 (fun i => w i * shape i) k = sum1 (fun i => w i * shape i) (pred k) + w k * shape k) by (destruct k; [lia|]; cbn [pred]; apply sum1_S).
    destruct (Rlt_dec m (w k)).
    - rewrite <- (IH (S k)) by lia. cbn [pred]. rewrite E. ring.
    - destruct (Rlt_dec (w k) cut); [ring|]. rewrite <- (IH (S k)) by lia. cbn [pred]. rewrite E. ring.
  Qed.
  (** The loop stops after the last k, or just before a weight below the cut that does not exceed an earlier weight. *)
  Lemma stop_spec : forall fuel k m, (1 <= k)%nat -> (m = 0 \/ exists i, (1 <= i < k)%nat /\ m = w i) -> (forall i, (1 <= i < k)%nat -> w i <= m) -> 0 <= m ->
    let n := stop fuel k m in
    (pred k <= n < k + fuel)%nat /\ (n = pred (k + fuel) \/ (w (S n) < cut /\ (w (S n) <= 0 \/ exists i, (1 <= i <= n)%nat /\ w (S n) <= w i))).
  Proof.
    induction fuel as [|fuel IH]; intros k m K M MX M0; cbn [stop]; cbv zeta; [split; [lia|left; now rewrite Nat.add_0_r]|].
    destruct (Rlt_dec m (w k)) as [L|L].
    - destruct (IH (S k) (w k)) as [H1 H2]; [lia|right; exists k; split; [lia|reflexivity]| |lra|].
      + intros i I. destruct (Nat.eq_dec i k) as [->|]; [lra|]. left. eapply Rle_lt_trans; [apply MX; lia|exact L].
      + cbn [pred] in H1. split; [lia|]. rewrite <- Nat.add_succ_comm. exact H2.
    - destruct (Rlt_dec (w k) cut) as [C|C].
      + split; [lia|]. right. replace (S (pred k)) with k by lia. split; [exact C|]. destruct M as [->|(i & I & ->)]; [left; lra|]. right. exists i. split; [lia|lra].
      + destruct (IH (S k) m) as [H1 H2]; [lia| | |exact M0|].
        * destruct M as [M|(i & I & E)]; [now left|]. right. exists i. split; [lia|exact E].
        * intros i I. destruct (Nat.eq_dec i k) as [->|]; [lra|]. apply MX. lia.
        * cbn [pred] in H1. split; [lia|]. rewrite <- Nat.add_succ_comm. exact H2.
  Qed.
End Loop.
Lemma mapm_is_loop : forall fuel k m x e es sp ss l s, mapm_loop fuel k m x e es sp ss l s = loop (fun k => poisson k l) (fun k => normal_pdf x (e + INR k * sp) (sqrt (INR k * ss ^ 2 + es ^ 2))) fuel k m s.
Proof. induction fuel as [|fuel IH]; intros; cbn [mapm_loop loop]; [reflexivity|]. destruct (Rlt_dec _ _); [apply IH|]. destruct (Rlt_dec _ _); [reflexivity|apply IH]. Qed.
Lemma gentile_is_loop : forall fuel k m x e es sp ss q l s, gentile_loop fuel k m x e es sp ss q l s = loop (fun k => gentile_pk k 1 k q l 0) (fun k => normal_pdf x (e + INR k * sp) (sqrt (INR k * ss ^ 2 + es ^ 2))) fuel k m s.
Proof. induction fuel as [|fuel IH]; intros; cbn [gentile_loop loop]; [reflexivity|]. destruct (Rlt_dec _ _); [apply IH|]. destruct (Rlt_dec _ _); [reflexivity|apply IH]. Qed.

(** The weight of k cells from j initial ones; sums over k are at most 1. *)
Definition cross (q : R) (j k : nat) : R := match j, k with O, O => 1 | O, S _ => 0 | S _, O => 0 | S j', S k' => if le_dec j' k' then (1 - q) ^ j * q ^ (k - j) * binom (k - 1) (j - 1) else 0 end.
Lemma binom_n_0 : forall n, binom n 0 = 1.
Proof. intros. rewrite binom_C, Nat.sub_0_r. cbn [fact INR]. field. apply INR_fact_neq_0. Qed.
Lemma binom_n_n : forall n, binom n n = 1.
Proof. intros. rewrite binom_C, Nat.sub_diag. cbn [fact INR]. field. apply INR_fact_neq_0. Qed.
Lemma binom_pascal : forall n k, (k < n)%nat -> binom (S n) (S k) = binom n k + binom n (S k).
Proof. intros n k L. rewrite !binom_C. symmetry. exact (pascal n k L). Qed.
Lemma binom_pos : forall n k, 0 < binom n k. Proof. intros. apply exp_pos. Qed.
Lemma cross_S : forall q j k, cross q (S j) (S k) = (1 - q) * cross q j k + q * cross q (S j) k.
Proof.
  intros q j k. destruct j as [|j], k as [|k]; cbn [cross].
  - cbn [le_dec]. destruct (le_dec 0 0); [|lia]. cbn [Nat.sub pow]. rewrite binom_n_0. ring.
  - destruct (le_dec 0 (S k)); [|lia]. destruct (le_dec 0 k); [|lia]. cbn [Nat.sub pow]. rewrite !Nat.sub_0_r, !binom_n_0. cbn [pow]. ring.
  - destruct (le_dec (S j) 0); [lia|]. ring.
  - destruct (le_dec (S j) (S k)) as [A|A], (le_dec j k) as [B|B], (le_dec (S j) k) as [D|D]; try lia.
    + cbn [Nat.sub]. rewrite !Nat.sub_0_r. rewrite binom_pascal by lia. replace (k - j)%nat with (S (k - S j))%nat by lia. cbn [pow]. ring.
    + replace k with j by lia. cbn [Nat.sub]. rewrite !Nat.sub_0_r, !Nat.sub_diag, !binom_n_n. cbn [pow]. ring.
    + ring.
Qed.
Lemma cross_nonneg : forall q j k, 0 <= q <= 1 -> 0 <= cross q j k.
Proof.
  intros q j k [Q1 Q2]. destruct j as [|j], k as [|k]; cbn [cross]; try lra. destruct (le_dec j k); [|lra]. repeat apply Rmult_le_pos; try (apply pow_le); try lra. left. apply binom_pos.
Qed.
Lemma cross_sum : forall q n j, 0 <= q <= 1 -> cross q j 0 + sum1 (cross q j) n <= 1.
Proof.
  intros q n. induction n as [|n IH]; intros j Q.
  - rewrite sum1_0. destruct j; cbn [cross]; lra.
  - destruct j as [|j].
    + rewrite (sum1_ext _ (fun _ => 0)) by (intros [|k] K; [lia|reflexivity]). rewrite sum1_zero. cbn [cross]. lra.
    + assert (E : sum1 (cross q (S j)) (S n) = (1 - q) * (cross q j 0 + sum1 (cross q j) n) + q * (cross q (S j) 0 + sum1 (cross q (S j)) n)).
      { clear IH. induction n as [|n IHn]; [rewrite sum1_S, !sum1_0, cross_S; ring|]. rewrite sum1_S. rewrite IHn at 1. rewrite cross_S, (sum1_S (cross q j)), (sum1_S (cross q (S j)) n). ring. }
      rewrite E. change (cross q (S j) 0) with 0 at 1. pose proof (IH j Q). pose proof (IH (S j) Q).
      assert ((1 - q) * (cross q j 0 + sum1 (cross q j) n) <= (1 - q) * 1) by (apply Rmult_le_compat_l; lra).
      assert (q * (cross q (S j) 0 + sum1 (cross q (S j)) n) <= q * 1) by (apply Rmult_le_compat_l; lra). lra.
Qed.
(** The weight of a peak as a sum over the number of initial cells. *)
Definition kept (l : R) (j : nat) : R := if Rlt_dec (poisson j l) cut then 0 else poisson j l.
Lemma gentile_pk_sum : forall fuel j k q l acc, (1 <= j)%nat -> gentile_pk fuel j k q l acc = acc + (sum1 (fun j => kept l j * ((1 - q) ^ j * q ^ (k - j) * binom (k - 1) (j - 1))) (pred j + fuel) - sum1 (fun j => kept l j * ((1 - q) ^ j * q ^ (k - j) * binom (k - 1) (j - 1))) (pred j)).
Proof.
  induction fuel as [|fuel IH]; intros j k q l acc J; cbn [gentile_pk]; [rewrite Nat.add_0_r; ring|]. destruct j as [|j]; [lia|]. cbn [pred].
  replace (j + S fuel)%nat with (pred (S (S j)) + fuel)%nat by (cbn [pred]; lia). assert (KE : kept l (S j) = if Rlt_dec (poisson (S j) l) cut then 0 else poisson (S j) l) by reflexivity.
  destruct (Rlt_dec (poisson (S j) l) cut) as [L|L]; rewrite IH by lia; cbn [pred]; rewrite (sum1_S _ j), KE; ring.
Qed.
Lemma gentile_weight : forall k q l, (1 <= k)%nat -> gentile_pk k 1 k q l 0 = sum1 (fun j => kept l j * cross q j k) k.
Proof.
  intros k q l K. rewrite gentile_pk_sum by lia. cbn [pred]. rewrite sum1_0. cbn [Nat.add]. rewrite Rplus_0_l, Rminus_0_r. apply sum1_ext. intros j J. f_equal.
  destruct j as [|j]; [lia|]. destruct k as [|k]; [lia|]. cbn [cross]. destruct (le_dec j k); [reflexivity|lia].
Qed.
Lemma kept_range : forall l j, 0 <= kept l j <= poisson j l.
Proof. intros l j. unfold kept. pose proof (poisson_pos j l). destruct (Rlt_dec _ _); lra. Qed.
Lemma sum1_more : forall f n m, (n <= m)%nat -> (forall k, 0 <= f k) -> sum1 f n <= sum1 f m.
Proof. intros f n m L F. induction L as [|m L IH]; [lra|]. rewrite sum1_S. specialize (F (S m)). lra. Qed.
Lemma gentile_nonneg : forall k q l, 0 <= q <= 1 -> (1 <= k)%nat -> 0 <= gentile_pk k 1 k q l 0.
Proof.
  intros k q l Q K. rewrite gentile_weight by exact K. rewrite <- (sum1_zero k). apply sum1_le. intros j _. apply Rmult_le_pos; [apply kept_range|now apply cross_nonneg].
Qed.
Lemma gentile_total : forall n q l, 0 < l -> 0 <= q <= 1 -> exp (- l) + sum1 (fun k => gentile_pk k 1 k q l 0) n <= 1.
Proof.
  intros n q l L Q. assert (P0 : poisson 0 l = exp (- l)) by (rewrite poisson_eq by exact L; cbn [pow fact INR]; field).
  apply Rle_trans with (poisson 0 l + sum1 (fun j => poisson j l) n); [|rewrite (sum1_f (fun j => poisson j l)); now apply poisson_sum_le].
  rewrite P0. apply Rplus_le_compat_l.
  apply Rle_trans with (sum1 (fun k => sum1 (fun j => kept l j * cross q j k) n) n).
  { apply sum1_le. intros k K. rewrite gentile_weight by lia. apply sum1_more; [lia|]. intros j. apply Rmult_le_pos; [apply kept_range|now apply cross_nonneg]. }
  rewrite sum1_swap. apply sum1_le. intros j J. rewrite sum1_scal. pose proof (cross_sum q n j Q) as CS. destruct j as [|j]; [lia|]. cbn [cross] in CS. rewrite Rplus_0_l in CS.
  apply Rle_trans with (kept l (S j) * 1); [apply Rmult_le_compat_l; [apply kept_range|exact CS]|]. rewrite Rmult_1_r. apply kept_range.
Qed.
