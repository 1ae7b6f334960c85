(** Exact rational numbers: a decision tactic and the list functions of numpy that are used. *)
From Coq Require Import List ZArith QArith Qcanon Bool Arith Lia Lqa.
Import ListNotations.
Local Open Scope list_scope.
Local Open Scope Qc_scope.

(** ** Linear (and simple nonlinear) arithmetic on [Qc] *)
Lemma this_plus : forall a b : Qc, (this (a + b) == this a + this b)%Q.
Proof. intros. apply Qred_correct. Qed.
Lemma this_mult : forall a b : Qc, (this (a * b) == this a * this b)%Q.
Proof. intros. apply Qred_correct. Qed.
Lemma this_opp : forall a : Qc, (this (- a) == - this a)%Q.
Proof. intros. apply Qred_correct. Qed.
Lemma this_minus : forall a b : Qc, (this (a - b) == this a - this b)%Q.
Proof. intros. unfold Qcminus. rewrite this_plus, this_opp. reflexivity. Qed.
Lemma this_Q2Qc : forall q, (this (Q2Qc q) == q)%Q.
Proof. intros. apply Qred_correct. Qed.
Lemma this_eq : forall a b : Qc, a = b -> (this a == this b)%Q.
Proof. intros a b ->. reflexivity. Qed.
Lemma this_neq : forall a b : Qc, (~ this a == this b)%Q -> a <> b.
Proof. intros a b H E. apply H. now apply this_eq. Qed.
Lemma this_lt : forall a b : Qc, a < b -> (this a < this b)%Q.
Proof. auto. Qed.
Lemma this_le : forall a b : Qc, a <= b -> (this a <= this b)%Q.
Proof. auto. Qed.
Lemma this_nlt : forall a b : Qc, ~ a < b -> (this b <= this a)%Q.
Proof. intros. now apply Qcnot_lt_le. Qed.
Lemma this_nle : forall a b : Qc, ~ a <= b -> (this b < this a)%Q.
Proof. intros. now apply Qcnot_le_lt. Qed.

Ltac qc_fact a P :=
  lazymatch goal with
  | _ : P |- _ => fail
  | _ => assert P by (apply a)
  end.
Ltac qc_sat :=
  repeat match goal with
  | |- context [Qcplus ?a ?b] => qc_fact this_plus (this (a + b) == this a + this b)%Q
  | |- context [Qcmult ?a ?b] => qc_fact this_mult (this (a * b) == this a * this b)%Q
  | |- context [Qcminus ?a ?b] => qc_fact this_minus (this (a - b) == this a - this b)%Q
  | |- context [Qcopp ?a] => qc_fact this_opp (this (- a) == - this a)%Q
  | |- context [Q2Qc ?q] => qc_fact this_Q2Qc (this (Q2Qc q) == q)%Q
  | _ : context [Qcplus ?a ?b] |- _ => qc_fact this_plus (this (a + b) == this a + this b)%Q
  | _ : context [Qcmult ?a ?b] |- _ => qc_fact this_mult (this (a * b) == this a * this b)%Q
  | _ : context [Qcminus ?a ?b] |- _ => qc_fact this_minus (this (a - b) == this a - this b)%Q
  | _ : context [Qcopp ?a] |- _ => qc_fact this_opp (this (- a) == - this a)%Q
  | _ : context [Q2Qc ?q] |- _ => qc_fact this_Q2Qc (this (Q2Qc q) == q)%Q
  end.
Ltac qc_hyps :=
  repeat match goal with
  | H : Qclt _ _ |- _ => apply this_lt in H
  | H : Qcle _ _ |- _ => apply this_le in H
  | H : ~ Qclt _ _ |- _ => apply this_nlt in H
  | H : ~ Qcle _ _ |- _ => apply this_nle in H
  | H : @eq Qc _ _ |- _ => apply this_eq in H
  end.
Ltac qc_goal :=
  match goal with
  | |- @eq Qc _ _ => apply Qc_is_canon
  | |- Qclt _ _ => unfold Qclt
  | |- Qcle _ _ => unfold Qcle
  | |- ~ Qclt _ _ => let H := fresh in intros H; apply this_lt in H
  | |- ~ Qcle _ _ => let H := fresh in intros H; apply this_le in H
  | |- ~ @eq Qc _ _ => let H := fresh in intros H; apply this_eq in H
  | |- False => idtac
  | _ => exfalso
  end.
Ltac qcprep := intros; qc_goal; qc_hyps; qc_sat.
Ltac qlra := qcprep; lra.
Ltac qnra := qcprep; nra.

(** Decidable comparison as booleans. *)
Definition qltb (a b : Qc) : bool := match Qclt_le_dec a b with left _ => true | right _ => false end.
Definition qleb (a b : Qc) : bool := negb (qltb b a).
Definition qeqb (a b : Qc) : bool := if Qc_eq_dec a b then true else false.

Lemma qltb_spec : forall a b, reflect (a < b) (qltb a b).
Proof. intros. unfold qltb. destruct (Qclt_le_dec a b); constructor; auto. qlra. Qed.
Lemma qleb_spec : forall a b, reflect (a <= b) (qleb a b).
Proof. intros. unfold qleb. destruct (qltb_spec b a); constructor; qlra. Qed.
Lemma qeqb_spec : forall a b, reflect (a = b) (qeqb a b).
Proof. intros. unfold qeqb. destruct (Qc_eq_dec a b); constructor; auto. Qed.

(** Integers and naturals as numbers. *)
Definition qz (z : Z) : Qc := Q2Qc (inject_Z z).
Definition qn (n : nat) : Qc := qz (Z.of_nat n).

Lemma this_qz : forall z, (this (qz z) == inject_Z z)%Q.
Proof. intros. apply this_Q2Qc. Qed.
Lemma qz_plus : forall a b, qz (a + b) = qz a + qz b.
Proof. intros. apply Qc_is_canon. rewrite this_plus, !this_qz. now rewrite inject_Z_plus. Qed.
Lemma qz_mult : forall a b, qz (a * b) = qz a * qz b.
Proof. intros. apply Qc_is_canon. rewrite this_mult, !this_qz. now rewrite inject_Z_mult. Qed.
Lemma qz_opp : forall a, qz (- a) = - qz a.
Proof. intros. apply Qc_is_canon. rewrite this_opp, !this_qz. now rewrite inject_Z_opp. Qed.
Lemma qz_minus : forall a b, qz (a - b) = qz a - qz b.
Proof. intros. unfold Z.sub. rewrite qz_plus, qz_opp. reflexivity. Qed.
Lemma qz_lt : forall a b, (a < b)%Z <-> qz a < qz b.
Proof. intros. unfold Qclt. rewrite !this_qz. rewrite <- Zlt_Qlt. reflexivity. Qed.
Lemma qz_le : forall a b, (a <= b)%Z <-> qz a <= qz b.
Proof. intros. unfold Qcle. rewrite !this_qz. rewrite <- Zle_Qle. reflexivity. Qed.
Lemma qz_inj : forall a b, qz a = qz b -> a = b.
Proof. intros a b H. apply this_eq in H. rewrite !this_qz in H. now apply inject_Z_injective. Qed.
Lemma qn_S : forall n, qn (S n) = qn n + 1.
Proof. intros. unfold qn. rewrite Nat2Z.inj_succ. unfold Z.succ. rewrite qz_plus. reflexivity. Qed.
Lemma qn_0 : qn 0 = 0. Proof. reflexivity. Qed.
Lemma qn_lt : forall a b, (a < b)%nat <-> qn a < qn b.
Proof. intros. unfold qn. rewrite <- qz_lt. lia. Qed.
Lemma qn_le : forall a b, (a <= b)%nat <-> qn a <= qn b.
Proof. intros. unfold qn. rewrite <- qz_le. lia. Qed.
Lemma qn_pos : forall n, (0 < n)%nat -> 0 < qn n.
Proof. intros. rewrite <- qn_0. now apply qn_lt. Qed.
Lemma qn_nonneg : forall n, 0 <= qn n.
Proof. intros. rewrite <- qn_0. apply qn_le. lia. Qed.
Lemma qn_plus : forall a b, qn (a + b) = qn a + qn b.
Proof. intros. unfold qn. rewrite Nat2Z.inj_add. apply qz_plus. Qed.
Lemma qn_mult : forall a b, qn (a * b) = qn a * qn b.
Proof. intros. unfold qn. rewrite Nat2Z.inj_mul. apply qz_mult. Qed.
Lemma qn_inj : forall a b, qn a = qn b -> a = b.
Proof. intros. apply qz_inj in H. lia. Qed.

(** Division: defining equation. *)
Lemma qdiv_mul : forall a b, b <> 0 -> a / b * b = a.
Proof. intros. field. auto. Qed.
Lemma qdiv_le : forall a b c, 0 < c -> (a <= b <-> a / c <= b / c).
Proof.
  intros a b c H. assert (c <> 0) as N by qlra.
  pose proof (qdiv_mul a c N). pose proof (qdiv_mul b c N).
  set (x := a / c) in *. set (y := b / c) in *. clearbody x y. split; intros; qnra.
Qed.
Lemma qdiv_lt : forall a b c, 0 < c -> (a < b <-> a / c < b / c).
Proof.
  intros a b c H. assert (c <> 0) as N by qlra.
  pose proof (qdiv_mul a c N). pose proof (qdiv_mul b c N).
  set (x := a / c) in *. set (y := b / c) in *. clearbody x y. split; intros; qnra.
Qed.
Lemma qdiv_nonneg : forall a c, 0 < c -> 0 <= a -> 0 <= a / c.
Proof.
  intros a c H H1. assert (c <> 0) as N by qlra. pose proof (qdiv_mul a c N).
  set (x := a / c) in *. clearbody x. qnra.
Qed.
Lemma qdiv_pos : forall a c, 0 < c -> 0 < a -> 0 < a / c.
Proof.
  intros a c H H1. assert (c <> 0) as N by qlra. pose proof (qdiv_mul a c N).
  set (x := a / c) in *. clearbody x. qnra.
Qed.

(** ** Sums *)
Definition qsum (l : list Qc) : Qc := fold_right Qcplus 0 l.

Lemma qsum_app : forall a b, qsum (a ++ b) = qsum a + qsum b.
Proof. unfold qsum. induction a; intros; cbn [app fold_right]; [ring|rewrite IHa; ring]. Qed.
Lemma qsum_map_plus : forall A (f g : A -> Qc) l, qsum (map (fun x => f x + g x) l) = qsum (map f l) + qsum (map g l).
Proof. unfold qsum. induction l; cbn [map fold_right]; [ring|rewrite IHl; ring]. Qed.
Lemma qsum_map_scale : forall A (f : A -> Qc) c l, qsum (map (fun x => c * f x) l) = c * qsum (map f l).
Proof. unfold qsum. induction l; cbn [map fold_right]; [ring|rewrite IHl; ring]. Qed.
Lemma qsum_const : forall A (c : Qc) (l : list A), qsum (map (fun _ => c) l) = qn (List.length l) * c.
Proof.
  unfold qsum. induction l; cbn [map fold_right List.length]; [rewrite qn_0; ring|rewrite IHl, qn_S; ring].
Qed.
Lemma qsum_le : forall A (f g : A -> Qc) l, (forall x, In x l -> f x <= g x) -> qsum (map f l) <= qsum (map g l).
Proof.
  unfold qsum. induction l; intros H; cbn [map fold_right]; [apply Qcle_refl|].
  assert (f a <= g a) by (apply H; now left).
  assert (fold_right Qcplus 0 (map f l) <= fold_right Qcplus 0 (map g l)) by (apply IHl; intros; apply H; now right).
  apply Qcplus_le_compat; auto.
Qed.
Lemma qsum_nonneg : forall l, (forall x, In x l -> 0 <= x) -> 0 <= qsum l.
Proof.
  unfold qsum. induction l; intros H; cbn [fold_right]; [apply Qcle_refl|].
  assert (0 <= a) by (apply H; now left).
  assert (0 <= fold_right Qcplus 0 l) by (apply IHl; intros; apply H; now right). qlra.
Qed.
Lemma qsum_cons : forall a l, qsum (a :: l) = a + qsum l.
Proof. reflexivity. Qed.

(** [np.mean]; 0/0 is not used: callers have non-empty arrays. *)
Definition qmean (l : list Qc) : Qc := qsum l / qn (List.length l).

(** ** [np.argmax]: position of the first maximum *)
Fixpoint argmax_from (l : list Qc) (i best : nat) (bv : Qc) : nat :=
  match l with
  | [] => best
  | x :: t => if qltb bv x then argmax_from t (S i) i x else argmax_from t (S i) best bv
  end.
Definition argmax (l : list Qc) : nat :=
  match l with [] => 0%nat | x :: t => argmax_from t 1 0 x end.

Lemma argmax_from_spec : forall l i best bv,
  let r := argmax_from l i best bv in
  (r = best /\ (forall k, (k < List.length l)%nat -> nth k l 0 <= bv)) \/
  ((i <= r)%nat /\ (r < i + List.length l)%nat /\ bv < nth (r - i) l 0 /\
   (forall k, (k < List.length l)%nat -> nth k l 0 <= nth (r - i) l 0) /\
   (forall k, (k < r - i)%nat -> nth k l 0 < nth (r - i) l 0)).
Proof.
  induction l as [|x t IH]; intros i best bv r; subst r; cbn [argmax_from].
  - left. split; auto. intros k H. cbn in H. lia.
  - destruct (qltb_spec bv x) as [L|L].
    + right. destruct (IH (S i) i x) as [[E H]|(H1 & H2 & H3 & H4 & H5)].
      * rewrite E. rewrite Nat.sub_diag. cbn [nth List.length]. repeat split; auto; try lia.
        intros [|k] Hk; [apply Qcle_refl|]. apply H. cbn in Hk. lia.
      * set (r := argmax_from t (S i) i x) in *. cbn [List.length].
        assert (r - i = S (r - S i))%nat as -> by lia. cbn [nth]. repeat split; try lia.
        -- qlra.
        -- intros [|k] Hk; [qlra|]. apply H4. cbn in Hk. lia.
        -- intros [|k] Hk; [qlra|]. apply H5. lia.
    + destruct (IH (S i) best bv) as [[E H]|(H1 & H2 & H3 & H4 & H5)].
      * left. split; auto. intros [|k] Hk; [cbn; qlra|]. apply H. cbn in Hk. lia.
      * right. set (r := argmax_from t (S i) best bv) in *. cbn [List.length].
        assert (r - i = S (r - S i))%nat as -> by lia. cbn [nth]. repeat split; try lia; auto.
        -- intros [|k] Hk; [qlra|]. apply H4. cbn in Hk. lia.
        -- intros [|k] Hk; [qlra|]. apply H5. lia.
Qed.

(** [argmax l] is the first index with the greatest value. *)
Lemma argmax_spec : forall l, l <> [] ->
  (argmax l < List.length l)%nat /\
  (forall k, (k < List.length l)%nat -> nth k l 0 <= nth (argmax l) l 0) /\
  (forall k, (k < argmax l)%nat -> nth k l 0 < nth (argmax l) l 0).
Proof.
  intros [|x t] NE; [congruence|]. cbn [argmax List.length].
  destruct (argmax_from_spec t 1 0 x) as [[E H]|(H1 & H2 & H3 & H4 & H5)].
  - rewrite E. cbn [nth]. repeat split; try lia.
    intros [|k] Hk; [apply Qcle_refl|]. apply H. lia.
  - set (r := argmax_from t 1 0 x) in *.
    destruct r as [|r]; [lia|]. rewrite Nat.sub_succ, Nat.sub_0_r in *. cbn [nth]. repeat split; try lia.
    + intros [|k] Hk; [qlra|]. apply H4. lia.
    + intros [|k] Hk; [qlra|]. apply H5. lia.
Qed.

(** ** Python slices with step 1 *)
(** CPython PySlice_AdjustIndices for step 1. *)
Definition slice_bound (n : nat) (dflt : nat) (i : option Z) : nat :=
  match i with
  | None => dflt
  | Some z =>
      if (z <? 0)%Z then Z.to_nat (Z.max 0 (z + Z.of_nat n))
      else Z.to_nat (Z.min z (Z.of_nat n))
  end.
Definition pyslice {A} (l : list A) (a b : option Z) : list A :=
  let n := List.length l in
  let s := slice_bound n 0 a in
  let e := slice_bound n n b in
  firstn (e - s) (skipn s l).

Lemma pyslice_from : forall A (l : list A) (s : nat), (s <= List.length l)%nat ->
  pyslice l (Some (Z.of_nat s)) None = skipn s l.
Proof.
  intros A l s H. unfold pyslice, slice_bound.
  destruct (Z.ltb_spec (Z.of_nat s) 0); [lia|].
  rewrite Z.min_l, Nat2Z.id by lia. apply firstn_all2. rewrite skipn_length. lia.
Qed.
Lemma pyslice_neg_from : forall A (l : list A) (s : nat), (0 < s <= List.length l)%nat ->
  pyslice l (Some (- Z.of_nat s)%Z) None = skipn (List.length l - s) l.
Proof.
  intros A l s H. unfold pyslice, slice_bound.
  destruct (Z.ltb_spec (- Z.of_nat s)%Z 0); [|lia].
  rewrite Z.max_r by lia. replace (Z.to_nat (- Z.of_nat s + Z.of_nat (List.length l))%Z) with (List.length l - s)%nat by lia.
  apply firstn_all2. rewrite skipn_length. lia.
Qed.
