(** Property C68: charge resolution limit curves. *)
From Coq Require Import Reals Lra Psatz.
From Verif.Resol Require Import ModelCurves.
Local Open Scope R_scope.

Lemma div_lt : forall a b c, 0 < c -> a < b -> a / c < b / c.
Proof. intros a b c C L. unfold Rdiv. apply Rmult_lt_compat_r; [now apply Rinv_0_lt_compat|exact L]. Qed.
Lemma sqrt7 : 2 < sqrt (4 + 3).
Proof. rewrite <- (sqrt_Rsqr 2) by lra. apply sqrt_lt_1; unfold Rsqr; lra. Qed.

(** For every positive charge the curves are ordered Poisson limit < goal < requirement wherever they are defined. *)
Theorem C68_order : forall npe, 0 < npe ->
  (forall g, goal npe = Some g -> poisson_limit npe < g) /\
  (forall g r, goal npe = Some g -> requirement npe = Some r -> g < r) /\
  (forall r, requirement npe = Some r -> poisson_limit npe < r).
Proof.
  intros x X. pose proof sqrt7 as S7.
  assert (G1 : sqrt x / x < limit_curves x 2 0 (11152 / 10000) (5 / 100)) by (unfold limit_curves; apply div_lt; [exact X|]; apply sqrt_lt_1; nra).
  assert (G2 : limit_curves x 2 0 (11152 / 10000) (5 / 100) < limit_curves x (sqrt (4 + 3)) 0 (12 / 10) (1 / 10)) by (unfold limit_curves; apply div_lt; [exact X|]; apply sqrt_lt_1; nra).
  unfold goal, requirement, defined, poisson_limit. split; [|split].
  - intros g. destruct (Rlt_dec 2000 x); [discriminate|]. intros E. injection E as <-. exact G1.
  - intros g r. destruct (Rlt_dec 2000 x); [discriminate|]. destruct (Rlt_dec 1000 x); [discriminate|]. intros E1 E2. injection E1 as <-. injection E2 as <-. exact G2.
  - intros r. destruct (Rlt_dec 1000 x); [discriminate|]. intros E. injection E as <-. eapply Rlt_trans; eauto.
Qed.
Print Assumptions C68_order.
(** Each curve is undefined exactly above its range; both ranges are closed, and the requirement's lies in the goal's. *)
Theorem C68_range : forall npe, (requirement npe = None <-> 1000 < npe) /\ (goal npe = None <-> 2000 < npe) /\ (requirement npe <> None -> goal npe <> None).
Proof.
  intros x. unfold requirement, goal, defined. destruct (Rlt_dec 1000 x), (Rlt_dec 2000 x); repeat split; intros; try easy; try lra.
Qed.
Print Assumptions C68_range.
(** All curves fall strictly with the charge. *)
Theorem C68_decreasing : forall a b n_nsb n_add enf sigma2, 0 < a < b -> 0 < n_nsb + n_add -> limit_curves b n_nsb n_add enf sigma2 < limit_curves a n_nsb n_add enf sigma2.
Proof.
  intros a b n m e s AB N. unfold limit_curves.
  assert (F : forall x, 0 < x -> sqrt (n + m + e ^ 2 * x + (s * x) ^ 2) / x = sqrt ((n + m) * (/ x * / x) + e ^ 2 * / x + s ^ 2)).
  { intros x X. assert (0 <= n + m + e ^ 2 * x + (s * x) ^ 2) as P by (assert (0 <= e ^ 2) by nra; assert (0 <= (s * x) ^ 2) by nra; nra).
    rewrite <- (sqrt_Rsqr x) at 3 by lra. rewrite <- sqrt_div; [|exact P|unfold Rsqr; nra]. f_equal. unfold Rsqr. field. lra. }
  rewrite !F by lra. assert (/ b < / a) as I by (apply Rinv_lt_contravar; nra). assert (0 < / b) as B by (apply Rinv_0_lt_compat; lra). assert (0 <= e ^ 2) as E by nra. assert (0 <= s ^ 2) as S by nra.
  set (u := / b) in *. set (v := / a) in *. clearbody u v.
  assert (0 < (n + m) * (v * v - u * u)) as Q by (apply Rmult_lt_0_compat; nra). assert (0 <= e ^ 2 * (v - u)) as W by (apply Rmult_le_pos; lra).
  assert (0 <= (n + m) * (u * u)) by (apply Rmult_le_pos; nra). assert (0 <= e ^ 2 * u) by (apply Rmult_le_pos; lra).
  apply sqrt_lt_1; lra.
Qed.
Print Assumptions C68_decreasing.
Example C68_ex : poisson_limit 4 = 1 / 2 /\ goal 3000 = None.
Proof.
  unfold poisson_limit. replace 4 with (Rsqr 2) at 1 by (unfold Rsqr; lra). rewrite sqrt_Rsqr by lra. split; [lra|]. unfold goal, defined. destruct (Rlt_dec 2000 3000); [reflexivity|lra].
Qed.
