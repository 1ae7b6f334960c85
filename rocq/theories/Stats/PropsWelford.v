(** Property C32: running mean and sum of squared deviations. *)
From Coq Require Import QArith Qcanon List Lia.
From Verif.Base Require Import Num.
From Verif.Stats Require Import ModelWelford.
Import ListNotations.
Local Open Scope Qc_scope.

(** Textbook mean and sum of squared deviations from it. *)
Definition mean_of (l : list Qc) : Qc := qsum l / qn (List.length l).
Definition squares_of (l : list Qc) : Qc := qsum (map (fun x => (x - mean_of l) * (x - mean_of l)) l).

Lemma qn_S_neq : forall n, qn (S n) <> 0.
Proof. intros n E. pose proof (qn_pos (S n) (Nat.lt_0_succ n)) as P. rewrite E in P. now apply Qclt_not_eq in P. Qed.
Lemma squares_expand : forall c l, qsum (map (fun x => (x - c) * (x - c)) l) = qsum (map (fun x => x * x) l) - (1 + 1) * c * qsum l + qn (List.length l) * c * c.
Proof.
  intros c l. induction l as [|a l IH]; cbn [map List.length]; [cbn [qsum fold_right]; rewrite qn_0; ring|]. rewrite !qsum_cons, IH, qn_S. ring.
Qed.
(** The state after the samples of [l], from a first mean that does not matter. *)
Lemma welford_state : forall l m0, l <> [] -> exists m m2, welford_all l (m0, O, 0) = (m, List.length l, m2) /\ m * qn (List.length l) = qsum l /\ m2 = qsum (map (fun x => x * x) l) - qn (List.length l) * m * m.
Proof.
  intros l m0. induction l as [|x l IH] using rev_ind; intros NE; [easy|]. unfold welford_all. rewrite fold_left_app. cbn [fold_left].
  rewrite app_length, map_app, !qsum_app. cbn [List.length map qsum fold_right]. rewrite Nat.add_1_r.
  destruct l as [|y l'].
  - cbn [fold_left welford List.length map qsum fold_right]. exists x, 0. assert (E : m0 + (x - m0) / qn 1 = x) by (change (qn 1) with 1; field; discriminate). rewrite E. split; [f_equal; ring|]. change (qn 1) with 1. split; ring.
  - destruct IH as (m & m2 & E & M & V); [discriminate|]. unfold welford_all in E. rewrite E. cbn [welford].
    remember (List.length (y :: l')) as n eqn:En. pose proof (qn_S_neq n) as NZ. rewrite qn_S in NZ.
    eexists. eexists. split; [reflexivity|]. rewrite qn_S. split.
    + rewrite <- M. field. exact NZ.
    + rewrite V. replace (qsum (y :: l')) with (m * qn n). field. exact NZ.
Qed.

(** From the empty state the result is the mean, the number of samples and the sum of squared deviations. *)
Theorem C32_welford : forall samples, samples <> [] -> welford_all samples (0, O, 0) = (mean_of samples, List.length samples, squares_of samples).
Proof.
  intros l NE. destruct (welford_state l 0 NE) as (m & m2 & -> & M & V).
  assert (NZ : qn (List.length l) <> 0) by (destruct l; [easy|apply qn_S_neq]).
  assert (EM : m = mean_of l) by (unfold mean_of; rewrite <- M; field; exact NZ).
  rewrite <- EM. f_equal. unfold squares_of. rewrite <- EM, squares_expand, <- M, V. ring.
Qed.
Print Assumptions C32_welford.
(** The first mean passed in does not matter while the count is 0. *)
Theorem C32_start : forall samples m0, samples <> [] -> welford_all samples (m0, O, 0) = welford_all samples (0, O, 0).
Proof.
  intros [|x l] m0 NE; [easy|]. unfold welford_all. cbn [fold_left]. f_equal. unfold welford. change (qn 1) with 1.
  assert (E : forall m, m + (x - m) / 1 = x) by (intros; field; discriminate). rewrite !E. f_equal. ring.
Qed.
Print Assumptions C32_start.
(** Samples added to a state give the result of all the samples; in particular blocks can be added one after the other. *)
Theorem C32_continue : forall first second, first ++ second <> [] -> welford_all second (welford_all first (0, O, 0)) = (mean_of (first ++ second), List.length (first ++ second), squares_of (first ++ second)).
Proof. intros a b NE. rewrite <- C32_welford by exact NE. unfold welford_all. now rewrite fold_left_app. Qed.
Print Assumptions C32_continue.

Definition show (s : Qc * nat * Qc) : Q * nat * Q := let '(m, n, v) := s in (this m, n, this v).
Example C32_example : show (welford_all [qz 2; qz 4; qz 9] (0, O, 0)) = (5#1, 3%nat, 26#1)%Q.
Proof. reflexivity. Qed.
