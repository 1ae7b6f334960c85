(** List facts missing from the 8.16 standard library. *)
From Coq Require Import List Arith Lia.
Import ListNotations.

Lemma nth_error_skipn : forall A n (l : list A) j, nth_error (skipn n l) j = nth_error l (n + j).
Proof. induction n as [|n IH]; intros [|x l] j; cbn; auto. now destruct j. Qed.
Lemma nth_error_firstn : forall A n (l : list A) j, nth_error (firstn n l) j = if j <? n then nth_error l j else None.
Proof.
  induction n as [|n IH]; intros [|x l] [|j]; auto.
  - cbn [firstn nth_error]. now destruct (S j <? S n).
  - cbn [firstn nth_error]. rewrite IH. reflexivity.
Qed.
Lemma skipn_skipn : forall A n m (l : list A), skipn n (skipn m l) = skipn (m + n) l.
Proof. induction m as [|m IH]; intros [|x l]; cbn; auto. now rewrite !skipn_nil. Qed.
Lemma list_ext : forall A (l l' : list A), (forall i, nth_error l i = nth_error l' i) -> l = l'.
Proof.
  induction l as [|x l IH]; intros [|y l'] H; auto.
  - specialize (H 0). discriminate.
  - specialize (H 0). discriminate.
  - pose proof (H 0) as H0. cbn in H0. injection H0 as ->. f_equal. apply IH. intro i. exact (H (S i)).
Qed.
Lemma nth_error_repeat : forall A (x : A) n i, nth_error (repeat x n) i = if i <? n then Some x else None.
Proof. induction n as [|n IH]; intros [|i]; cbn; auto. rewrite IH. reflexivity. Qed.
Lemma nth_error_combine : forall A B (l : list A) (m : list B) i,
  nth_error (combine l m) i = match nth_error l i, nth_error m i with Some a, Some b => Some (a, b) | _, _ => None end.
Proof.
  induction l as [|x l IH]; intros [|y m] [|i]; cbn; auto. now destruct (nth_error l i).
Qed.
Lemma nth_error_seq : forall n s i, nth_error (seq s n) i = if i <? n then Some (s + i) else None.
Proof.
  induction n as [|n IH]; intros s [|i]; auto.
  - cbn. now rewrite Nat.add_0_r.
  - cbn [seq nth_error]. rewrite IH. change (S i <? S n) with (i <? n).
    destruct (i <? n); auto. f_equal. lia.
Qed.
Lemma nth_error_map_seq : forall A (f : nat -> A) n i, nth_error (map f (seq 0 n)) i = if i <? n then Some (f i) else None.
Proof.
  intros. rewrite nth_error_map, nth_error_seq. now destruct (i <? n).
Qed.
Lemma nth_error_nth_default : forall A (l : list A) i d x, nth_error l i = Some x -> nth i l d = x.
Proof. intros. now apply nth_error_nth. Qed.
Lemma nth_of_error : forall A (l : list A) i d, nth i l d = match nth_error l i with Some x => x | None => d end.
Proof. induction l as [|x l IH]; intros [|i] d; cbn; auto. Qed.
Lemma nth_map_seq : forall A (f : nat -> A) n i d, i < n -> nth i (map f (seq 0 n)) d = f i.
Proof. intros. rewrite nth_of_error, nth_error_map_seq. now replace (i <? n) with true by (symmetry; now apply Nat.ltb_lt). Qed.
Lemma map_seq_nth : forall A (l : list A) d, map (fun i => nth i l d) (seq 0 (length l)) = l.
Proof.
  intros. apply list_ext. intro i. rewrite nth_error_map_seq. destruct (Nat.ltb_spec i (length l)) as [H|H].
  - symmetry. now apply nth_error_nth'.
  - symmetry. now apply nth_error_None.
Qed.
