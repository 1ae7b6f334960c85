(** Data sheet: the order of the rows does not matter. *)
From Coq Require Import List ZArith QArith Qcanon Bool Arith Lia String Permutation Sorted.
From Verif.Base Require Import Py PyFacts Num Lst.
From Verif.Calib Require Import Model Proofs Proofs2.
Import ListNotations.
Local Open Scope list_scope.
Local Open Scope Qc_scope.

Definition below (p q : Qc * Qc) : Prop := fst p < fst q.
Lemma insert_perm : forall p l, Permutation (sort_insert p l) (p :: l).
Proof. induction l as [|q l IH]; cbn; auto. destruct (qltb (fst p) (fst q)); auto. rewrite IH. apply perm_swap. Qed.
Lemma insert_sorted : forall p l, StronglySorted below l -> (forall q, In q l -> fst q <> fst p) -> StronglySorted below (sort_insert p l).
Proof.
  induction l as [|q l IH]; intros S N; cbn; [repeat constructor|]. inversion S as [|? ? S' F]; subst. destruct (qltb_spec (fst p) (fst q)) as [X|X].
  - constructor; auto. constructor; auto. apply Forall_impl with (2 := F). unfold below. intros r R. qlra.
  - constructor; [apply IH; auto; intros; apply N; now right|]. apply Forall_forall. intros r R. apply (Permutation_in r (insert_perm p l)) in R as [<-|R].
    + unfold below. assert (fst q <> fst p) by (apply N; now left). destruct (Qc_dec (fst q) (fst p)) as [[D|D]|D]; auto; contradiction.
    + now apply (proj1 (Forall_forall _ _) F).
Qed.
Lemma sort_points_perm : forall l, Permutation (sort_points l) l.
Proof.
  intros l. unfold sort_points. enough (forall acc, Permutation (fold_left (fun a p => sort_insert p a) l acc) (acc ++ l)) as G by now apply (G []).
  induction l as [|p l IH]; intros acc; cbn; [now rewrite app_nil_r|]. rewrite IH, insert_perm. cbn. apply Permutation_middle.
Qed.
Lemma sort_points_strong : forall l, NoDup (map fst l) -> StronglySorted below (sort_points l).
Proof.
  intros l N. unfold sort_points.
  enough (forall acc, NoDup (map fst (acc ++ l)) -> StronglySorted below acc -> StronglySorted below (fold_left (fun a p => sort_insert p a) l acc)) as G by (apply (G []); auto; constructor).
  clear N. induction l as [|p l IH]; intros acc N S; cbn; auto. apply IH.
  - eapply Permutation_NoDup; [|exact N]. apply Permutation_map. rewrite insert_perm. cbn. symmetry. apply Permutation_middle.
  - apply insert_sorted; auto. intros q Q E. rewrite map_app in N. cbn in N. apply NoDup_remove_2 in N. apply N. apply in_or_app. left. rewrite <- E. now apply in_map.
Qed.
Lemma sorted_unique : forall l l', StronglySorted below l -> StronglySorted below l' -> Permutation l l' -> l = l'.
Proof.
  induction l as [|p l IH]; intros l' S S' P; [now apply Permutation_nil in P|]. destruct l' as [|q l']; [now apply Permutation_sym, Permutation_nil in P|].
  inversion S as [|? ? T F]; inversion S' as [|? ? T' F']; subst. assert (p = q) as ->.
  { pose proof (Permutation_in p P (or_introl eq_refl)) as [->|A]; auto. pose proof (Permutation_in q (Permutation_sym P) (or_introl eq_refl)) as [->|B]; auto.
    apply (proj1 (Forall_forall _ _) F) in B. apply (proj1 (Forall_forall _ _) F') in A. unfold below in *. exfalso. qlra. }
  f_equal. apply IH; auto. now apply Permutation_cons_inv in P.
Qed.

(** The rows [perm] of a column. *)
Definition pick (perm : list nat) (col : list Qc) : list Qc := map (fun i => nth i col 0) perm.
Definition pick_rows (perm : list nat) (df : table) : table := map (fun c => (fst c, pick perm (snd c))) df.

Lemma pick_combine : forall perm xs ys, Permutation perm (seq 0 (List.length xs)) -> List.length ys = List.length xs ->
  Permutation (combine (pick perm xs) (pick perm ys)) (combine xs ys).
Proof.
  intros perm xs ys P L. assert (combine (pick perm xs) (pick perm ys) = map (fun i => (nth i xs 0, nth i ys 0)) perm) as ->.
  { unfold pick. clear P. induction perm; cbn; f_equal; auto. }
  rewrite P. replace (combine xs ys) with (map (fun i => (nth i xs 0, nth i ys 0)) (seq 0 (List.length xs))); auto. clear P.
  revert ys L. induction xs as [|x xs IH]; intros [|y ys] L; try discriminate; auto. cbn [List.length seq map combine nth]. f_equal.
  rewrite <- seq_shift, map_map. cbn [nth]. apply IH. now injection L.
Qed.
Lemma pick_length : forall perm (xs ys : list Qc), Permutation perm (seq 0 (List.length xs)) -> List.length (pick perm ys) = List.length xs.
Proof. intros perm xs ys P. unfold pick. rewrite map_length. apply Permutation_length in P. now rewrite seq_length in P. Qed.

Lemma interp_pick : forall perm xs ys v, NoDup xs -> List.length ys = List.length xs -> Permutation perm (seq 0 (List.length xs)) ->
  interp1d (pick perm xs) (pick perm ys) v = interp1d xs ys v.
Proof.
  intros perm xs ys v N L P. unfold interp1d. rewrite !(pick_length perm xs) by auto. rewrite L. rewrite Nat.eqb_refl. cbn [negb].
  assert (sort_points (combine (pick perm xs) (pick perm ys)) = sort_points (combine xs ys)) as ->; auto.
  pose proof (pick_combine perm xs ys P L) as C. assert (NoDup (map fst (combine xs ys))) as M by (rewrite combine_fst; auto).
  apply sorted_unique; try apply sort_points_strong; auto.
  - eapply Permutation_NoDup; [|exact M]. apply Permutation_map. now symmetry.
  - rewrite !sort_points_perm. exact C.
Qed.
Lemma lookup_pick : forall perm key df, dlookup key (pick_rows perm df) = rmap (pick perm) (dlookup key df).
Proof.
  intros perm key df. unfold dlookup. induction df as [|[k col] df IH]; [reflexivity|]. cbn. destruct (String.eqb key k) eqn:E; cbn; rewrite ?E; auto.
Qed.
Lemma mapM_ext_in : forall A B (f g : A -> res B) l, (forall x, In x l -> f x = g x) -> mapM f l = mapM g l.
Proof. induction l as [|x l IH]; intros H; auto. cbn. rewrite H by now left. rewrite IH; auto. intros; apply H; now right. Qed.
Lemma mapM_map : forall A B C (f : B -> res C) (g : A -> B) l, mapM f (map g l) = mapM (fun x => f (g x)) l.
Proof. induction l as [|x l IH]; auto. cbn. now rewrite IH. Qed.

Lemma convert_pick : forall perm n df vover opct pde gain, Permutation perm (seq 0 n) -> (forall col, In col df -> List.length (snd col) = n) ->
  (forall key xs, In key ["vover"; "opct"; "pde"; "gain"]%string -> dlookup key df = Ok xs -> NoDup xs) ->
  convert (pick_rows perm df) vover opct pde gain = convert df vover opct pde gain.
Proof.
  intros perm n df vover opct pde gain P L N. unfold convert. destruct (negb _); auto.
  destruct (filter is_set _) as [|[key [value|]] r] eqn:F; auto.
  assert (In key ["vover"; "opct"; "pde"; "gain"]%string) as K.
  { assert (In (key, Some value) (filter is_set [("vover", vover); ("opct", opct); ("pde", pde); ("gain", gain)]%string)) as I by (rewrite F; now left).
    apply filter_In in I as [[I|[I|[I|[I|[]]]]] _]; injection I as <- _; cbn; auto. }
  rewrite lookup_pick. destruct (dlookup key df) as [xs|] eqn:E; auto. cbn [rmap bind]. unfold pick_rows at 1. rewrite mapM_map.
  assert (List.length xs = n) as X.
  { revert E. unfold dlookup. destruct (dget key df) eqn:D; [|discriminate]. injection 1 as ->. apply dget_In in D. now apply (L (key, xs)). }
  apply mapM_ext_in. intros [k ys] I. cbn [fst snd]. f_equal. subst n. apply interp_pick; auto; [now apply (N key)|]. now apply (L (k, ys)).
Qed.
