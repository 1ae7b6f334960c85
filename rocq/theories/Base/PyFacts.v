(** Lemmas about the Python primitives. *)
From Coq Require Import List ZArith String Ascii Bool Lia Permutation.
From Verif.Base Require Import Py.
Import ListNotations.

Lemma eqb_refl : forall k, String.eqb k k = true.
Proof. intro; apply String.eqb_refl. Qed.

Lemma eqb_neq : forall k k', k <> k' -> String.eqb k k' = false.
Proof. intros; now apply String.eqb_neq. Qed.

Lemma eqb_spec : forall a b, reflect (a = b) (String.eqb a b).
Proof. exact String.eqb_spec. Qed.

Lemma dget_dset_eq : forall V k (v : V) d, dget k (dset k v d) = Some v.
Proof.
  induction d as [|[k' v'] d IH]; simpl.
  - now rewrite eqb_refl.
  - destruct (String.eqb_spec k k'); simpl.
    + subst; now rewrite eqb_refl.
    + rewrite (eqb_neq _ _ n); exact IH.
Qed.

Lemma dget_dset_neq : forall V k k' (v : V) d,
  k <> k' -> dget k (dset k' v d) = dget k d.
Proof.
  induction d as [|[k2 v2] d IH]; intros H; simpl.
  - now rewrite (eqb_neq _ _ H).
  - destruct (String.eqb_spec k' k2); simpl.
    + subst. now rewrite (eqb_neq _ _ H).
    + destruct (String.eqb_spec k k2); auto.
Qed.

Lemma dget_dset : forall V k k' (v : V) d,
  dget k (dset k' v d) = if String.eqb k k' then Some v else dget k d.
Proof.
  intros. destruct (String.eqb_spec k k').
  - subst; apply dget_dset_eq.
  - now apply dget_dset_neq.
Qed.

Lemma dget_In : forall V k (v : V) d, dget k d = Some v -> In (k, v) d.
Proof.
  induction d as [|[k' v'] d IH]; simpl; [discriminate|].
  destruct (String.eqb_spec k k').
  - intros H; inversion H; subst; auto.
  - auto.
Qed.

Lemma dget_None_iff : forall V k (d : dict V), dget k d = None <-> ~ In k (dkeys d).
Proof.
  induction d as [|[k' v'] d IH]; simpl.
  - tauto.
  - destruct (String.eqb_spec k k').
    + subst; split; [discriminate | intuition].
    + rewrite IH. intuition.
Qed.

Lemma dget_Some_key : forall V k (v : V) d, dget k d = Some v -> In k (dkeys d).
Proof. intros. apply dget_In in H. apply (in_map fst) in H. exact H. Qed.

Lemma In_dget_nodup : forall V k (v : V) d,
  NoDup (dkeys d) -> In (k, v) d -> dget k d = Some v.
Proof.
  induction d as [|[k' v'] d IH]; simpl; [tauto|].
  intros N [E|I].
  - inversion E; subst. now rewrite eqb_refl.
  - inversion N; subst. destruct (String.eqb_spec k k').
    + subst. exfalso. apply H1. apply (in_map fst) in I. exact I.
    + auto.
Qed.

Lemma dkeys_dset : forall V k (v : V) d,
  dkeys (dset k v d) = if dmem k d then dkeys d else dkeys d ++ [k].
Proof.
  unfold dmem. induction d as [|[k' v'] d IH]; simpl; [reflexivity|].
  destruct (String.eqb_spec k k'); simpl.
  - reflexivity.
  - rewrite IH. destruct (dget k d); reflexivity.
Qed.

Lemma NoDup_snoc : forall A (l : list A) x, NoDup l -> ~ In x l -> NoDup (l ++ [x]).
Proof.
  intros. rewrite <- (rev_involutive (l ++ [x])).
  apply NoDup_rev. rewrite rev_app_distr. simpl. constructor.
  - now rewrite <- in_rev.
  - now apply NoDup_rev.
Qed.

Lemma NoDup_dset : forall V k (v : V) d, NoDup (dkeys d) -> NoDup (dkeys (dset k v d)).
Proof.
  intros. rewrite dkeys_dset. unfold dmem. destruct (dget k d) eqn:E; auto.
  apply NoDup_snoc; auto. now apply dget_None_iff.
Qed.

Lemma NoDup_dupdate : forall V (d2 d1 : dict V), NoDup (dkeys d1) -> NoDup (dkeys (dupdate d1 d2)).
Proof.
  unfold dupdate. induction d2 as [|[k v] d2 IH]; simpl; auto.
  intros. apply IH. now apply NoDup_dset.
Qed.

Lemma dget_dupdate_notin : forall V k (d2 d1 : dict V),
  dget k d2 = None -> dget k (dupdate d1 d2) = dget k d1.
Proof.
  unfold dupdate. induction d2 as [|[k' v'] d2 IH]; simpl; auto.
  intros d1 H. destruct (String.eqb_spec k k'); [discriminate|].
  rewrite IH; auto. now apply dget_dset_neq.
Qed.

Lemma dget_dupdate : forall V k (d2 d1 : dict V), NoDup (dkeys d2) ->
  dget k (dupdate d1 d2) = match dget k d2 with Some v => Some v | None => dget k d1 end.
Proof.
  unfold dupdate. induction d2 as [|[k' v'] d2 IH]; simpl; auto.
  intros d1 H. inversion H; subst. rewrite IH by auto.
  destruct (String.eqb_spec k k').
  - subst. destruct (dget k' d2) eqn:E.
    + apply dget_Some_key in E. contradiction.
    + apply dget_dset_eq.
  - destruct (dget k d2); auto. now apply dget_dset_neq.
Qed.

Lemma dmem_dset : forall V k k' (v : V) d,
  dmem k (dset k' v d) = String.eqb k k' || dmem k d.
Proof. intros; unfold dmem. rewrite dget_dset. now destruct (String.eqb k k'). Qed.

Lemma smem_In : forall k l, smem k l = true <-> In k l.
Proof.
  unfold smem. intros. rewrite existsb_exists. split.
  - intros [x [I E]]. apply String.eqb_eq in E. now subst.
  - intros. exists k. split; auto. apply eqb_refl.
Qed.

Lemma smem_false : forall k l, smem k l = false <-> ~ In k l.
Proof.
  intros. rewrite <- smem_In. destruct (smem k l); split; intros; try discriminate; auto.
  exfalso; auto.
Qed.

Lemma dmem_In : forall V k (d : dict V), dmem k d = true <-> In k (dkeys d).
Proof.
  intros. unfold dmem. destruct (dget k d) eqn:E.
  - split; auto. intros _. eapply dget_Some_key; eauto.
  - apply dget_None_iff in E. split; [discriminate|contradiction].
Qed.

Lemma mapM_Ok_map : forall A B (f : A -> B) l, mapM (fun a => Ok (f a)) l = Ok (map f l).
Proof. induction l; simpl; auto. now rewrite IHl. Qed.

Lemma mapM_ext : forall A B (f g : A -> res B) l,
  (forall a, In a l -> f a = g a) -> mapM f l = mapM g l.
Proof.
  induction l; simpl; auto. intros H.
  rewrite (H a) by auto. destruct (g a); auto. rewrite IHl; auto.
Qed.

Lemma mapM_Ok_iff : forall A B (f : A -> res B) l r,
  mapM f l = Ok r <-> Forall2 (fun a b => f a = Ok b) l r.
Proof.
  induction l; simpl; intros.
  - split; intros H; inversion H; subst; constructor.
  - destruct (f a) eqn:E.
    + destruct (mapM f l) eqn:E2.
      * split; intros H.
        -- inversion H; subst. constructor; auto. now apply IHl.
        -- inversion H; subst. rewrite E in H2. inversion H2; subst.
           apply IHl in H4. inversion H4; subst. reflexivity.
      * split; intros H; [discriminate|]. inversion H; subst.
        apply IHl in H4. discriminate.
    + split; intros H; [discriminate|]. inversion H; subst. congruence.
Qed.

Lemma foldM_app : forall S A (f : S -> A -> res S) l1 l2 s,
  foldM f (l1 ++ l2) s = bind (foldM f l1 s) (foldM f l2).
Proof.
  induction l1; simpl; auto. intros. destruct (f s a); simpl; auto.
Qed.

(** Association lists with distinct keys and the same lookups are permutations. *)
Lemma dget_ext_perm : forall V (d1 d2 : dict V), NoDup (dkeys d1) -> NoDup (dkeys d2) ->
  (forall k, dget k d1 = dget k d2) -> Permutation d1 d2.
Proof.
  intros V d1 d2 N1 N2 H. apply NoDup_Permutation.
  - now apply NoDup_map_inv in N1.
  - now apply NoDup_map_inv in N2.
  - intros [k v]. split; intros I.
    + apply dget_In. rewrite <- H. now apply In_dget_nodup.
    + apply dget_In. rewrite H. now apply In_dget_nodup.
Qed.
