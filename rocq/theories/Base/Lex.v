(** Lexicographic comparison of lists, as Python compares strings and lists. *)
From Coq Require Import List.
Import ListNotations.

Section Lex.
Variables (A : Type) (cmp : A -> A -> comparison).
Fixpoint lexc (a b : list A) : comparison :=
  match a, b with
  | [], [] => Eq
  | [], _ :: _ => Lt
  | _ :: _, [] => Gt
  | x :: a', y :: b' => match cmp x y with Eq => lexc a' b' | c => c end
  end.
End Lex.
Arguments lexc {A}.

Record total_cmp {A} (cmp : A -> A -> comparison) : Prop := {
  tc_eq : forall a b, cmp a b = Eq <-> a = b;
  tc_anti : forall a b, cmp b a = CompOpp (cmp a b);
  tc_trans : forall a b c, cmp a b = Lt -> cmp b c = Lt -> cmp a c = Lt }.

Lemma tc_refl : forall A cmp, @total_cmp A cmp -> forall a, cmp a a = Eq.
Proof. intros A cmp H a. now apply (tc_eq _ H). Qed.

Lemma lexc_total : forall A cmp, @total_cmp A cmp -> total_cmp (lexc cmp).
Proof.
  intros A cmp H. split.
  - induction a as [|x a IH]; intros [|y b]; cbn; try (split; [discriminate|discriminate]); [tauto|].
    destruct (cmp x y) eqn:E.
    + apply (tc_eq _ H) in E. subst. rewrite IH. split; congruence.
    + split; [discriminate|]. intros X. injection X as -> ->. rewrite tc_refl in E by auto. discriminate.
    + split; [discriminate|]. intros X. injection X as -> ->. rewrite tc_refl in E by auto. discriminate.
  - induction a as [|x a IH]; intros [|y b]; cbn; auto. rewrite (tc_anti _ H x y). destruct (cmp x y) eqn:E; cbn; auto.
  - induction a as [|x a IH]; intros [|y b] [|z c]; cbn; try discriminate; auto.
    destruct (cmp x y) eqn:E1; destruct (cmp y z) eqn:E2; try discriminate; intros H1 H2.
    + apply (tc_eq _ H) in E1. apply (tc_eq _ H) in E2. subst. rewrite tc_refl by auto. eauto.
    + apply (tc_eq _ H) in E1. subst. now rewrite E2.
    + apply (tc_eq _ H) in E2. subst. now rewrite E1.
    + now rewrite (tc_trans _ H _ _ _ E1 E2).
Qed.

Lemma lexc_app : forall A cmp, @total_cmp A cmp -> forall p a b, lexc cmp (p ++ a) (p ++ b) = lexc cmp a b.
Proof. induction p as [|x p IH]; intros; cbn; auto. rewrite tc_refl by auto. apply IH. Qed.
