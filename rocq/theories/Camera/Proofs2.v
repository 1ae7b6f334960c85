(** Lemmas about two-dimensional arrays. *)
From Coq Require Import List ZArith QArith Qcanon Bool Lia.
From Verif.Base Require Import Py PyFacts Num Lst.
From Verif.Camera Require Import Model.
Import ListNotations.
Local Open Scope list_scope.
Local Open Scope nat_scope.

Definition shape {A} (n m : nat) (g : grid A) : Prop := List.length g = n /\ forall r, In r g -> List.length r = m.

Lemma list_set_length : forall A i (a : A) l, List.length (list_set i a l) = List.length l.
Proof. intros A i a l. revert i. induction l as [|h t IH]; intros [|i]; cbn [list_set List.length]; auto. Qed.
Lemma list_set_nth : forall A i (a : A) l j, nth_error (list_set i a l) j = if (j =? i) && (j <? List.length l) then Some a else nth_error l j.
Proof.
  intros A i a l. revert i. induction l as [|h t IH]; intros i j.
  - destruct i, j; cbn; rewrite ?andb_false_r; reflexivity.
  - destruct i as [|i], j as [|j]; cbn [list_set nth_error List.length]; try reflexivity. now rewrite IH.
Qed.
Lemma list_set_in : forall A i (a : A) l x, In x (list_set i a l) -> x = a \/ In x l.
Proof. intros A i a l. revert i. induction l as [|h t IH]; intros [|i] x; cbn [list_set In]; intuition. destruct (IH i x H0); auto. Qed.
Lemma grid_set_shape : forall A n m i j (a : A) g, shape n m g -> shape n m (grid_set i j a g).
Proof.
  intros A n m i j a g [L R]. unfold grid_set. destruct (nth_error g i) as [r|] eqn:E; [|now split]. split; [now rewrite list_set_length|].
  intros x X. apply list_set_in in X as [->|X]; [|auto]. rewrite list_set_length. apply R. now apply nth_error_In in E.
Qed.
Lemma cell_set : forall A n m i j (a : A) g, shape n m g -> i < n -> j < m -> forall i' j', cell (grid_set i j a g) i' j' = if (i' =? i) && (j' =? j) then Some a else cell g i' j'.
Proof.
  intros A n m i j a g [L R] I J i' j'. unfold grid_set, cell. destruct (nth_error g i) as [r|] eqn:E; [|apply nth_error_None in E; lia].
  rewrite list_set_nth. destruct (Nat.eqb_spec i' i) as [->|]; cbn [andb]; [|reflexivity].
  destruct (Nat.ltb_spec i (List.length g)); [|lia]. rewrite E, list_set_nth. assert (List.length r = m) as M by (apply R; now apply nth_error_In in E). destruct (Nat.eqb_spec j' j) as [->|]; cbn [andb]; [|reflexivity].
  destruct (Nat.ltb_spec j (List.length r)); [auto|lia].
Qed.
Lemma cell_bound : forall A n m (g : grid A) i j a, shape n m g -> cell g i j = Some a -> i < n /\ j < m.
Proof.
  intros A n m g i j a [L R] C. unfold cell in C. destruct (nth_error g i) as [r|] eqn:E; [|discriminate]. split.
  - rewrite <- L. apply nth_error_Some. congruence.
  - rewrite <- (R r) by (now apply nth_error_In in E). apply nth_error_Some. congruence.
Qed.
Lemma full_shape : forall A n m (a : A), shape n m (full_grid n m a).
Proof. intros. split; [apply repeat_length|]. intros r R. apply repeat_spec in R as ->. apply repeat_length. Qed.
Lemma full_cell : forall A n m (a : A) i j, i < n -> j < m -> cell (full_grid n m a) i j = Some a.
Proof.
  intros A n m a i j I J. unfold cell, full_grid. rewrite nth_error_repeat. destruct (Nat.ltb_spec i n); [|lia]. rewrite nth_error_repeat. destruct (Nat.ltb_spec j m); [auto|lia].
Qed.

(** ** Assigning distinct in-range cells *)
Definition in_range (n m : nat) (c : Z * Z) : Prop := (0 <= fst c < Z.of_nat n)%Z /\ (0 <= snd c < Z.of_nat m)%Z.
Definition to_cell (c : Z * Z) : nat * nat := (Z.to_nat (fst c), Z.to_nat (snd c)).
Lemma axis_ok : forall n i, (0 <= i < Z.of_nat n)%Z -> axis_index n i = Ok (Z.to_nat i).
Proof. intros n i H. unfold axis_index. destruct (Z.leb_spec 0 i); [|lia]. destruct (Z.ltb_spec i (Z.of_nat n)); [|lia]. reflexivity. Qed.
Lemma axis_ok_inv : forall n i j, axis_index n i = Ok j -> j < n.
Proof.
  intros n i j. unfold axis_index. destruct (Z.leb_spec 0 i), (Z.ltb_spec i (Z.of_nat n)); cbn [andb]; intros E; try (injection E as <-; lia);
  destruct (Z.ltb_spec i 0), (Z.leb_spec (- Z.of_nat n) i); cbn [andb] in E; try discriminate; injection E as <-; lia.
Qed.
Lemma index_ok : forall n m cells, (forall c, In c cells -> in_range n m c) ->
  mapM (fun c => bind (axis_index n (fst c)) (fun i => bind (axis_index m (snd c)) (fun j => Ok (i, j)))) cells = Ok (map to_cell cells).
Proof.
  intros n m cells H. induction cells as [|c cells IH]; [reflexivity|]. cbn [mapM map]. destruct (H c (or_introl eq_refl)) as [R C]. rewrite (axis_ok _ _ R), (axis_ok _ _ C). cbn [bind]. rewrite IH by (intros; apply H; now right). reflexivity.
Qed.
Section Fold.
  Context {A : Type}.
  Variable n m : nat.
  Definition put (g : grid A) (p : nat * nat * A) : grid A := grid_set (fst (fst p)) (snd (fst p)) (snd p) g.
  Lemma fold_put_shape : forall l g, shape n m g -> shape n m (fold_left put l g).
  Proof. induction l as [|p l IH]; intros g S; [exact S|]. cbn [fold_left]. apply IH. now apply grid_set_shape. Qed.
  Lemma fold_put_other : forall l g i j, shape n m g -> (forall p, In p l -> fst (fst p) < n /\ snd (fst p) < m) -> ~ In (i, j) (map fst l) -> cell (fold_left put l g) i j = cell g i j.
  Proof.
    induction l as [|[[a b] v] l IH]; intros g i j S B N; [reflexivity|]. cbn [fold_left]. rewrite IH.
    - unfold put. cbn [fst snd]. destruct (B (a, b, v) (or_introl eq_refl)) as [BA BB]. rewrite (cell_set _ n m) by auto. destruct (Nat.eqb_spec i a) as [EI|]; cbn [andb]; [|reflexivity]. destruct (Nat.eqb_spec j b) as [EJ|]; [|reflexivity].
      exfalso. apply N. subst. now left.
    - now apply grid_set_shape.
    - intros p P. apply B. now right.
    - intro I. apply N. now right.
  Qed.
  Lemma fold_put_at : forall l g i j v, shape n m g -> (forall p, In p l -> fst (fst p) < n /\ snd (fst p) < m) -> NoDup (map fst l) -> In (i, j, v) l -> cell (fold_left put l g) i j = Some v.
  Proof.
    induction l as [|[[a b] w] l IH]; intros g i j v S B N I; [destruct I|]. cbn [map fst] in N. inversion N as [|? ? X N']; subst. cbn [fold_left]. destruct I as [I|I].
    - injection I as -> -> ->. rewrite fold_put_other; [| |intros p P; apply B; now right|exact X]; [|now apply grid_set_shape].
      unfold put. cbn [fst snd]. destruct (B (i, j, v) (or_introl eq_refl)) as [BA BB]. rewrite (cell_set _ n m) by auto. now rewrite !Nat.eqb_refl.
    - apply IH; auto; [now apply grid_set_shape|]. intros p P. apply B. now right.
  Qed.
End Fold.
Lemma map_fst_combine' : forall A B (l : list A) (v : list B), List.length l = List.length v -> map fst (combine l v) = l.
Proof. induction l as [|a l IH]; intros [|b v] L; try discriminate; [reflexivity|]. cbn [combine map fst]. f_equal. apply IH. now injection L. Qed.
Lemma nodup_to_cell : forall n m cells, (forall c, In c cells -> in_range n m c) -> NoDup cells -> NoDup (map to_cell cells).
Proof.
  intros n m cells H N. induction N as [|c l X N IH]; [constructor|]. cbn [map]. constructor; [|apply IH; intros; apply H; now right].
  intro I. apply in_map_iff in I as ([a b] & E & I). apply X. destruct (H (a, b) (or_intror I)) as [R C], (H c (or_introl eq_refl)) as [R' C']. destruct c as [a' b']. unfold to_cell in E. cbn [fst snd] in *. injection E as E1 E2.
  replace a' with a by lia. replace b' with b by lia. exact I.
Qed.
Lemma assign_ok : forall A n m (g : grid A) cells values, shape n m g -> (forall c, In c cells -> in_range n m c) -> List.length cells = List.length values -> NoDup cells ->
  exists g', assign n m g cells values = Ok g' /\ shape n m g' /\
  (forall k c v, nth_error cells k = Some c -> nth_error values k = Some v -> cell g' (Z.to_nat (fst c)) (Z.to_nat (snd c)) = Some v) /\
  (forall i j, ~ In (Z.of_nat i, Z.of_nat j) cells -> cell g' i j = cell g i j).
Proof.
  intros A n m g cells values S H L N. unfold assign. rewrite (index_ok n m cells H). eexists. split; [reflexivity|].
  assert (B : forall p, In p (combine (map to_cell cells) values) -> fst (fst p) < n /\ snd (fst p) < m).
  { intros [[i j] v] P. apply in_combine_l in P. apply in_map_iff in P as (c & E & I). destruct (H c I) as [R C]. injection E as <- <-. cbn [fst snd]. lia. }
  fold (@put A). split; [now apply fold_put_shape|]. split.
  - intros k c v K V. apply (fold_put_at n m); auto.
    + rewrite map_fst_combine' by (now rewrite map_length). eapply nodup_to_cell; eauto.
    + apply (nth_error_In _ k). rewrite nth_error_combine, nth_error_map, K, V. reflexivity.
  - intros i j X. apply (fold_put_other n m); auto. rewrite map_fst_combine' by (now rewrite map_length). intro I. apply in_map_iff in I as ([a b] & E & I). apply X. destruct (H _ I) as [R C]. unfold to_cell in E. cbn [fst snd] in *. injection E as <- <-. rewrite !Z2Nat.id by lia. exact I.
Qed.
Lemma assign_out : forall A n m (g : grid A) cells values c, In c cells -> (forall i, axis_index n (fst c) <> Ok i) \/ (forall j, axis_index m (snd c) <> Ok j) -> assign n m g cells values = Raise IndexError.
Proof.
  intros A n m g cells values c I O. unfold assign. assert (forall l, In c l -> mapM (fun c => bind (axis_index n (fst c)) (fun i => bind (axis_index m (snd c)) (fun j => Ok (i, j)))) l = Raise IndexError) as ->; [|reflexivity|exact I].
  clear I. assert (AX : forall n i e, axis_index n i = Raise e -> e = IndexError) by (intros n0 i e; unfold axis_index; destruct (_ && _); [discriminate|]; destruct (_ && _); congruence).
  induction l as [|d l IH]; intros I; [destruct I|]. cbn [mapM].
  destruct (axis_index n (fst d)) as [i|e] eqn:E1; cbn [bind]; [|f_equal; eauto]. destruct (axis_index m (snd d)) as [j|e] eqn:E2; cbn [bind]; [|f_equal; eauto].
  destruct I as [->|I]; [|now rewrite IH]. exfalso. destruct O as [O|O]; [now apply (O i)|now apply (O j)].
Qed.
Lemma take_ok : forall A n m (g : grid A) d cells, shape n m g -> (forall c, In c cells -> in_range n m c) ->
  take n m g d cells = Ok (map (fun c => match cell g (Z.to_nat (fst c)) (Z.to_nat (snd c)) with Some a => a | None => d end) cells).
Proof.
  intros A n m g d cells S H. unfold take. induction cells as [|c cells IH]; [reflexivity|]. cbn [mapM map]. destruct (H c (or_introl eq_refl)) as [R C]. rewrite (axis_ok _ _ R), (axis_ok _ _ C). cbn [bind]. rewrite IH by (intros; apply H; now right). reflexivity.
Qed.

(** ** Masking *)
Lemma mask_rect_shape : forall n m a b c d g, shape n m g -> shape n m (mask_rect a b c d g).
Proof.
  intros n m a b c d g [L R]. unfold mask_rect. split; [rewrite map_length, combine_length, seq_length; lia|]. intros r X. apply in_map_iff in X as ([i r'] & <- & X). apply in_combine_r in X. cbn [fst snd].
  destruct (_ && _); [|now apply R]. rewrite map_length, combine_length, seq_length, (R r' X). lia.
Qed.
Lemma mask_rect_cell : forall a b c d g i j, cell (mask_rect a b c d g) i j =
  match cell g i j with None => None | Some v => Some (if (a <=? i) && (i <? b) && ((c <=? j) && (j <? d)) then Masked else v) end.
Proof.
  intros a b c d g i j. unfold mask_rect, cell. rewrite nth_error_map, nth_error_combine, nth_error_seq. destruct (nth_error g i) as [r|] eqn:E.
  - assert (i < List.length g) as I by (apply nth_error_Some; congruence). destruct (Nat.ltb_spec i (List.length g)); [|lia]. cbn [option_map fst snd Nat.add].
    destruct ((a <=? i) && (i <? b)) eqn:B; cbn [andb].
    + rewrite nth_error_map, nth_error_combine, nth_error_seq. destruct (nth_error r j) as [v|] eqn:V; [|destruct (j <? List.length r); reflexivity].
      assert (j < List.length r) as J by (apply nth_error_Some; congruence). destruct (Nat.ltb_spec j (List.length r)); [|lia]. reflexivity.
    + now destruct (nth_error r j).
  - destruct (_ <? _); reflexivity.
Qed.
