(** Python string primitives: [str.replace], [in], [f"{n:02}"]. *)
From Coq Require Import List ZArith String Ascii Bool Lia DecimalString Decimal DecimalFacts DecimalN.
Import ListNotations.
Local Open Scope string_scope.

(** [p in s] *)
Definition occurs (p s : string) : Prop := exists a b, s = a ++ p ++ b.

(** [s.replace(p, r)] for non-empty [p]: leftmost, non-overlapping. [skip] characters of the
    current match are still to be dropped. *)
Fixpoint repl (p r s : string) (skip : nat) : string :=
  match s with
  | EmptyString => EmptyString
  | String c s' =>
      match skip with
      | S k => repl p r s' k
      | O => if prefix p s then r ++ repl p r s' (String.length p - 1)
             else String c (repl p r s' 0)
      end
  end.

Definition py_replace (p r s : string) : string := repl p r s 0.

(** [p in s], decided. *)
Fixpoint containsb (p s : string) : bool :=
  prefix p s || match s with EmptyString => false | String _ s' => containsb p s' end.

(** [str(n)] for a natural number. *)
Definition dec (n : N) : string := NilEmpty.string_of_uint (N.to_uint n).

(** [f"{z:02}"] *)
Definition pad02 (z : Z) : string :=
  let s := if (z <? 0)%Z then "-" ++ dec (Z.to_N (- z)) else dec (Z.to_N z) in
  if (String.length s <? 2)%nat then "0" ++ s else s.

(** Facts *)
Lemma append_nil_r : forall s, s ++ "" = s.
Proof. induction s; simpl; congruence. Qed.

Lemma append_assoc : forall a b c : string, (a ++ b) ++ c = a ++ b ++ c.
Proof. induction a; simpl; intros; congruence. Qed.

Lemma append_length : forall a b, String.length (a ++ b) = (String.length a + String.length b)%nat.
Proof. induction a; simpl; intros; auto. Qed.

Lemma prefix_spec : forall p s, prefix p s = true <-> exists b, s = p ++ b.
Proof.
  induction p as [|c p IH]; intros s.
  - split; [|intros _; destruct s; reflexivity]. exists s. reflexivity.
  - destruct s as [|d s]; simpl.
    + split; [discriminate|]. intros [b H]. discriminate.
    + destruct (ascii_dec c d).
      * subst. rewrite IH. split; intros [b H]; exists b; congruence.
      * split; [discriminate|]. intros [b H]. congruence.
Qed.

Lemma containsb_spec : forall p s, containsb p s = true <-> occurs p s.
Proof.
  intros p. induction s as [|c s IH].
  - cbn [containsb]. rewrite orb_false_r, prefix_spec. split.
    + intros [b H]. exists "", b. exact H.
    + intros (a & b & H). destruct a; [|discriminate]. exists b. exact H.
  - cbn [containsb]. rewrite orb_true_iff, prefix_spec, IH. split.
    + intros [[b H]|(a & b & H)].
      * exists "", b. exact H.
      * exists (String c a), b. simpl. congruence.
    + intros (a & b & H). destruct a as [|c' a].
      * left. exists b. exact H.
      * right. exists a, b. simpl in H. congruence.
Qed.

Lemma occurs_dec : forall p s, {occurs p s} + {~ occurs p s}.
Proof.
  intros. destruct (containsb p s) eqn:E; [left|right].
  - now apply containsb_spec.
  - intros H. apply containsb_spec in H. congruence.
Qed.

Lemma occurs_nil : forall p, p <> "" -> ~ occurs p "".
Proof. intros [|c p] H (a & b & E); [now apply H|]. destruct a; discriminate. Qed.

Lemma repl_skip : forall p r a b, repl p r (a ++ b) (String.length a) = repl p r b 0.
Proof. induction a; simpl; auto. Qed.

(** One replacement step, and no occurrence in front. *)
Lemma repl_here : forall p r b, p <> "" -> repl p r (p ++ b) 0 = r ++ repl p r b 0.
Proof.
  intros [|c p] r b H; [now contradiction H|].
  change (String c p ++ b) with (String c (p ++ b)).
  cbn [repl]. assert (prefix (String c p) (String c (p ++ b)) = true) as ->.
  { apply prefix_spec. exists b. reflexivity. }
  f_equal. cbn [String.length]. rewrite Nat.sub_succ, Nat.sub_0_r. apply repl_skip.
Qed.

Lemma repl_none : forall p r s, ~ occurs p s -> repl p r s 0 = s.
Proof.
  induction s as [|c s IH]; intros H; auto. cbn [repl].
  destruct (prefix p (String c s)) eqn:E.
  - exfalso. apply H. apply prefix_spec in E. destruct E as [b E]. exists "", b. exact E.
  - f_equal. apply IH. intros (a & b & X). apply H. exists (String c a), b. simpl. congruence.
Qed.

Lemma in_string_app : forall c a b, (exists x y, a ++ b = x ++ String c y) <->
  (exists x y, a = x ++ String c y) \/ (exists x y, b = x ++ String c y).
Proof.
  intros c. induction a as [|d a IH]; intros b.
  - split; auto. intros [(x & y & H)|H]; auto. destruct x; discriminate.
  - split.
    + intros (x & y & H). destruct x as [|d' x]; simpl in H; inversion H; subst.
      * left. exists "", a. reflexivity.
      * assert (exists x y, a ++ b = x ++ String c y) as Y by eauto.
        apply IH in Y. destruct Y as [(x1 & y1 & ->)|Y]; auto. left. exists (String d' x1), y1. reflexivity.
    + intros [(x & y & H)|(x & y & H)].
      * exists x, (y ++ b). rewrite H. rewrite append_assoc. reflexivity.
      * exists (String d a ++ x), y. rewrite H. now rewrite append_assoc.
Qed.

(** Decimal printing. *)
Lemma dec_inj : forall m n, dec m = dec n -> m = n.
Proof.
  intros m n H. unfold dec in H.
  assert (Some (N.to_uint m) = Some (N.to_uint n)) as E.
  { rewrite <- !NilEmpty.usu. now rewrite H. }
  injection E as E. rewrite <- (DecimalN.Unsigned.of_to m), <- (DecimalN.Unsigned.of_to n). congruence.
Qed.

Definition undec (s : string) : option N :=
  match NilEmpty.uint_of_string s with Some u => Some (N.of_uint u) | None => None end.

Lemma undec_dec : forall n, undec (dec n) = Some n.
Proof. intros. unfold undec, dec. rewrite NilEmpty.usu. f_equal. apply DecimalN.Unsigned.of_to. Qed.

Lemma undec_zero : forall s, undec ("0" ++ s) = undec s.
Proof.
  intros. unfold undec. simpl. destruct (NilEmpty.uint_of_string s); reflexivity.
Qed.

Lemma undec_pad02 : forall z, (0 <= z)%Z -> undec (pad02 z) = Some (Z.to_N z).
Proof.
  intros z H. unfold pad02. replace (z <? 0)%Z with false by (symmetry; apply Z.ltb_ge; lia).
  cbv zeta. destruct (String.length (dec (Z.to_N z)) <? 2)%nat.
  - rewrite undec_zero. apply undec_dec.
  - apply undec_dec.
Qed.

Lemma pad02_inj : forall x y, (0 <= x)%Z -> (0 <= y)%Z -> pad02 x = pad02 y -> x = y.
Proof.
  intros x y Hx Hy E. pose proof (undec_pad02 x Hx) as U1. rewrite E in U1.
  rewrite (undec_pad02 y Hy) in U1. injection U1 as U1. lia.
Qed.

(** Only digits. *)
Fixpoint all_digits (s : string) : Prop :=
  match s with
  | EmptyString => True
  | String c s' => In c (list_ascii_of_string "0123456789") /\ all_digits s'
  end.

Lemma string_of_uint_digits : forall u, all_digits (NilEmpty.string_of_uint u).
Proof. induction u; simpl; intuition. Qed.

Lemma dec_digits : forall n, all_digits (dec n).
Proof. intros. apply string_of_uint_digits. Qed.

Lemma pad02_digits : forall z, (0 <= z)%Z -> all_digits (pad02 z).
Proof.
  intros z H. unfold pad02. replace (z <? 0)%Z with false by (symmetry; apply Z.ltb_ge; lia).
  cbv zeta. destruct (String.length (dec (Z.to_N z)) <? 2)%nat; [|apply dec_digits].
  simpl. split; [auto 20|apply dec_digits].
Qed.

(** A digit string followed by a non-digit is determined. *)
Lemma digits_split : forall c a1 a2 b1 b2,
  ~ In c (list_ascii_of_string "0123456789") -> all_digits a1 -> all_digits a2 ->
  a1 ++ String c b1 = a2 ++ String c b2 -> a1 = a2 /\ b1 = b2.
Proof.
  intros c a1. induction a1 as [|d a1 IH]; intros a2 b1 b2 Hc H1 H2 E.
  - destruct a2 as [|d a2]; simpl in E; inversion E; subst; auto.
    exfalso. apply Hc. apply H2.
  - destruct a2 as [|d2 a2]; simpl in E; inversion E; subst.
    + exfalso. apply Hc. apply H1.
    + destruct (IH a2 b1 b2 Hc (proj2 H1) (proj2 H2) H3). subst. auto.
Qed.
