(** Lemmas for the HDF5 topic. *)
From Coq Require Import List ZArith String Bool Permutation Lia.
From Verif.Base Require Import Py PyFacts.
From Verif.Hdf5 Require Import Model Spec.
Import ListNotations.
Local Open Scope string_scope.
Local Open Scope list_scope.
Local Open Scope Z_scope.

Lemma set_add_In : forall k k' l, In k (set_add k' l) <-> k = k' \/ In k l.
Proof.
  intros. unfold set_add. destruct (smem k' l) eqn:E.
  - apply smem_In in E. intuition (subst; auto).
  - rewrite in_app_iff. simpl. intuition.
Qed.

Lemma set_add_NoDup : forall k l, NoDup l -> NoDup (set_add k l).
Proof.
  intros. unfold set_add. destruct (smem k l) eqn:E; auto.
  apply NoDup_snoc; auto. now apply smem_false.
Qed.

Lemma sum_app : forall l1 l2, sum (l1 ++ l2) = sum l1 + sum l2.
Proof. unfold sum. induction l1; simpl; intros; auto. rewrite IHl1. lia. Qed.

Lemma sum_perm : forall l1 l2, Permutation l1 l2 -> sum l1 = sum l2.
Proof. unfold sum. induction 1; simpl; lia. Qed.

Lemma fold_left_In_ext : forall A B (f g : A -> B -> A) l a,
  (forall a b, In b l -> f a b = g a b) -> fold_left f l a = fold_left g l a.
Proof. induction l; simpl; auto; intros. rewrite H by auto. apply IHl. auto. Qed.

(** ** History facts *)
Section Hist.
  Context {A : Type}.
  Implicit Types ops : list (op A).

  Lemma by_append_app : forall k o1 o2,
    by_append (A:=A) k (o1 ++ o2) <-> by_append k o1 \/ by_append k o2.
  Proof.
    unfold by_append. split.
    - intros [df H]. apply in_app_iff in H. destruct H; eauto.
    - intros [[df H]|[df H]]; exists df; apply in_app_iff; auto.
  Qed.

  Lemma by_write_app : forall k o1 o2,
    by_write (A:=A) k (o1 ++ o2) <-> by_write k o1 \/ by_write k o2.
  Proof.
    unfold by_write. split.
    - intros (kvs & df & H & I). apply in_app_iff in H. destruct H; [left|right]; eauto.
    - intros [(kvs & df & H & I)|(kvs & df & H & I)]; exists kvs, df; rewrite in_app_iff; auto.
  Qed.

  Lemma has_mapping_app : forall o1 o2,
    has_mapping (A:=A) (o1 ++ o2) <-> has_mapping o1 \/ has_mapping o2.
  Proof.
    unfold has_mapping. split.
    - intros (df & md & H). apply in_app_iff in H. destruct H; [left|right]; eauto.
    - intros [(df & md & H)|(df & md & H)]; exists df, md; rewrite in_app_iff; auto.
  Qed.

  Lemma meta_named_app : forall k n o1 o2,
    meta_named (A:=A) k n (o1 ++ o2) <-> meta_named k n o1 \/ meta_named k n o2.
  Proof.
    unfold meta_named. split.
    - intros (kw & H). apply in_app_iff in H. destruct H; [left|right]; eauto.
    - intros [(kw & H)|(kw & H)]; exists kw; rewrite in_app_iff; auto.
  Qed.

  Lemma by_append_dec : forall k ops, by_append k ops \/ ~ by_append k ops.
  Proof.
    induction ops as [|o ops IH].
    - right. intros [df H]. inversion H.
    - destruct IH as [H|H].
      + left. destruct H as [df H]. exists df. now right.
      + destruct o as [k' df| | |].
        * destruct (String.eqb_spec k k').
          -- left. exists df. subst. now left.
          -- right. intros [df' [E|I]]; [inversion E; congruence| apply H; eexists; eauto].
        * right. intros [df' [E|I]]; [discriminate| apply H; eexists; eauto].
        * right. intros [df' [E|I]]; [discriminate| apply H; eexists; eauto].
        * right. intros [df' [E|I]]; [discriminate| apply H; eexists; eauto].
  Qed.

  Lemma by_write_dec : forall k ops, by_write k ops \/ ~ by_write k ops.
  Proof.
    induction ops as [|o ops IH].
    - right. intros (kvs & df & [] & _).
    - destruct IH as [H|H].
      + left. destruct H as (kvs & df & I & J). exists kvs, df. split; auto. now right.
      + destruct o as [|kvs| |].
        * right. intros (kvs' & df' & [E|I] & J); [discriminate| apply H; do 2 eexists; eauto].
        * destruct (dget k kvs) as [df|] eqn:E.
          -- left. exists kvs, df. split; [now left|]. now apply dget_In.
          -- right. intros (kvs' & df' & [E'|I] & J); [|apply H; do 2 eexists; eauto].
             inversion E'; subst. apply dget_None_iff in E. apply E.
             apply (in_map fst) in J. exact J.
        * right. intros (kvs' & df' & [E|I] & J); [discriminate| apply H; do 2 eexists; eauto].
        * right. intros (kvs' & df' & [E|I] & J); [discriminate| apply H; do 2 eexists; eauto].
  Qed.

  Lemma has_mapping_dec : forall ops, has_mapping ops \/ ~ has_mapping ops.
  Proof.
    induction ops as [|o ops IH].
    - right. intros (df & md & []).
    - destruct IH as [H|H].
      + left. destruct H as (df & md & I). exists df, md. now right.
      + destruct o; [right|right|right|left; do 2 eexists; left; reflexivity];
          intros (df' & md' & [E|I]); try discriminate; apply H; do 2 eexists; eauto.
  Qed.

  Lemma meta_named_dec : forall k n ops, meta_named k n ops \/ ~ meta_named k n ops.
  Proof.
    induction ops as [|o ops IH].
    - right. intros (kw & []).
    - destruct IH as [H|H].
      + left. destruct H as (kw & I). exists kw. now right.
      + destruct o as [| |k' n' kw|];
          try (right; intros (kw' & [E|I]); try discriminate; apply H; eexists; eassumption).
        destruct (String.eqb_spec k k').
        * destruct (String.eqb_spec n n').
          -- left. exists kw. subst. now left.
          -- right. intros (kw' & [E|I]); [inversion E; congruence|apply H; eexists; eauto].
        * right. intros (kw' & [E|I]); [inversion E; congruence|apply H; eexists; eauto].
  Qed.

  Lemma appended_app : forall k o1 o2,
    appended (A:=A) k (o1 ++ o2) = appended k o1 ++ appended k o2.
  Proof.
    induction o1 as [|o o1 IH]; intros; simpl; auto.
    destruct o; auto. destruct (String.eqb k key); auto. now rewrite IH, app_assoc.
  Qed.

  Lemma appended_nil : forall k ops, ~ by_append k ops -> appended k ops = [].
  Proof.
    induction ops as [|o ops IH]; simpl; auto. intros H.
    assert (appended k ops = []) as E
      by (apply IH; intros [df I]; apply H; exists df; now right).
    destruct o; auto. destruct (String.eqb_spec k key); auto.
    exfalso. apply H. exists df. subst. now left.
  Qed.

  Lemma last_value_app : forall key name f o1 o2 acc,
    last_value (A:=A) key name f (o1 ++ o2) acc
    = last_value key name f o2 (last_value key name f o1 acc).
  Proof. induction o1 as [|o o1 IH]; intros; simpl; auto. destruct o; auto. Qed.

  Lemma last_written_app : forall k o1 o2 acc,
    last_written (A:=A) k (o1 ++ o2) acc = last_written k o2 (last_written k o1 acc).
  Proof. induction o1 as [|o o1 IH]; intros; simpl; auto. destruct o; auto. Qed.

  Lemma no_mix_app_l : forall o1 o2, no_mix (A:=A) (o1 ++ o2) -> no_mix o1.
  Proof.
    unfold no_mix. intros. destruct (H k) as [H1 H2].
    - apply by_append_app. auto.
    - split.
      + intros W. apply H1. apply by_write_app. auto.
      + intros [E M]. apply H2. split; auto. apply has_mapping_app. auto.
  Qed.

  Lemma names_ok_app_l : forall o1 o2, names_ok (A:=A) (o1 ++ o2) -> names_ok o1.
  Proof. unfold names_ok. intros. eapply H. apply in_app_iff. left; eauto. Qed.

  Lemma kwargs_ok_app_l : forall o1 o2, kwargs_ok (A:=A) (o1 ++ o2) -> kwargs_ok o1.
  Proof.
    unfold kwargs_ok. intros o1 o2 [H1 H2]. split; intros.
    - eapply H1. apply in_app_iff. left; eauto.
    - eapply H2. apply in_app_iff. left; eauto.
  Qed.
End Hist.

(** ** Metadata dict-of-dicts *)
Definition mview (k n : string) (m : dict (dict (dict val))) : option (dict val) :=
  match dget k m with Some sub => dget n sub | None => None end.

Definition meta_wf (m : dict (dict (dict val))) : Prop :=
  NoDup (dkeys m) /\ (forall k sub, dget k m = Some sub -> NoDup (dkeys sub)).

Lemma mview_update : forall k n k' n' kw m,
  mview k n (meta_update k' n' kw m) =
  if String.eqb k k' && String.eqb n n'
  then Some (dupdate (match mview k n m with Some d => d | None => [] end) kw)
  else mview k n m.
Proof.
  intros. unfold mview, meta_update. rewrite dget_dset.
  destruct (String.eqb_spec k k'); simpl; auto. subst.
  rewrite dget_dset. destruct (String.eqb_spec n n'); subst.
  - unfold dgetd. destruct (dget k' m); auto.
  - unfold dgetd. destruct (dget k' m); auto.
Qed.

Lemma dget_meta_update : forall k k' n' kw m,
  dget k (meta_update k' n' kw m) =
  if String.eqb k k'
  then Some (dset n' (dupdate (@dgetd (dict val) [] n' (@dgetd (dict (dict val)) [] k' m)) kw)
               (@dgetd (dict (dict val)) [] k' m))
  else dget k m.
Proof. intros. unfold meta_update. apply dget_dset. Qed.

Lemma meta_wf_update : forall k n kw m, meta_wf m -> meta_wf (meta_update k n kw m).
Proof.
  intros k n kw m [H1 H2]. split.
  - unfold meta_update. now apply NoDup_dset.
  - intros k0 sub. rewrite dget_meta_update. destruct (String.eqb_spec k0 k).
    + intros E; inversion E; subst. apply NoDup_dset.
      unfold dgetd. destruct (dget k m) eqn:E2; [eauto|constructor].
    + apply H2.
Qed.

(** ** Stores *)
Section St.
  Context {A : Type}.
  Implicit Types s : store A.

  Lemma NoDup_setattr : forall k n d s, NoDup (dkeys s) -> NoDup (dkeys (st_setattr k n d s)).
  Proof.
    intros. unfold st_setattr. destruct (dget k s); auto. now apply NoDup_dset.
  Qed.

  Lemma dget_setattr : forall k0 k n d s,
    dget k0 (st_setattr k n d s) =
    if String.eqb k0 k then
      match dget k s with
      | None => None
      | Some nd => Some (Node (n_fmt nd) (n_rows nd) (dset n d (n_attrs nd)))
      end
    else dget k0 s.
  Proof.
    intros. unfold st_setattr. destruct (dget k s) eqn:E.
    - rewrite dget_dset. destruct (String.eqb_spec k0 k); auto.
    - destruct (String.eqb_spec k0 k); subst; auto.
  Qed.

  Definition upd_attrs (a : dict (dict val)) (sub : dict (dict val)) : dict (dict val) :=
    fold_left (fun a nd => dset (fst nd) (snd nd) a) sub a.

  Lemma upd_attrs_dupdate : forall sub a, upd_attrs a sub = dupdate a sub.
  Proof. reflexivity. Qed.

  Lemma dget_fold_setattr : forall k sub s k0,
    dget k0 (fold_left (fun s' nd => st_setattr k (fst nd) (snd nd) s') sub s) =
    if String.eqb k0 k then
      match dget k s with
      | None => None
      | Some nd => Some (Node (n_fmt nd) (n_rows nd) (dupdate (n_attrs nd) sub))
      end
    else dget k0 s.
  Proof.
    induction sub as [|[n d] sub IH]; intros; simpl.
    - destruct (String.eqb_spec k0 k); subst; auto. destruct (dget k s) as [[]|]; auto.
    - rewrite IH. rewrite !dget_setattr. rewrite eqb_refl.
      destruct (String.eqb_spec k0 k); auto.
      destruct (dget k s); auto.
  Qed.

  Lemma NoDup_fold_setattr : forall k sub s, NoDup (dkeys s) ->
    NoDup (dkeys (fold_left (fun s' nd => st_setattr k (fst nd) (snd nd) s') sub s)).
  Proof. induction sub; simpl; auto. intros. apply IHsub. now apply NoDup_setattr. Qed.

  Definition base_node (o : option (node A)) : node A :=
    match o with Some n => n | None => Node Fixed [] [] end.

  Lemma dget_save_key : forall k sub s k0,
    dget k0 (save_key s (k, sub)) =
    if String.eqb k0 k then
      let nd := base_node (dget k s) in
      Some (Node (n_fmt nd) (n_rows nd) (dupdate (n_attrs nd) sub))
    else dget k0 s.
  Proof.
    intros. unfold save_key. simpl. rewrite dget_fold_setattr.
    unfold dmem. destruct (String.eqb_spec k0 k).
    - destruct (dget k s) eqn:E; simpl.
      + now rewrite E.
      + unfold st_put. rewrite dget_dset_eq. reflexivity.
    - destruct (dget k s) eqn:E; auto. unfold st_put. now apply dget_dset_neq.
  Qed.

  Lemma NoDup_save_key : forall s ks, NoDup (dkeys s) -> NoDup (dkeys (save_key s ks)).
  Proof.
    intros. unfold save_key. apply NoDup_fold_setattr.
    destruct (dmem (fst ks) s); auto. now apply NoDup_dset.
  Qed.

  Lemma NoDup_save : forall m s, NoDup (dkeys s) -> NoDup (dkeys (save_metadata m s)).
  Proof.
    unfold save_metadata. induction m; simpl; auto. intros. apply IHm. now apply NoDup_save_key.
  Qed.

  Lemma dget_save : forall m s k, NoDup (dkeys m) ->
    dget k (save_metadata m s) =
    match dget k m with
    | None => dget k s
    | Some sub =>
        let nd := base_node (dget k s) in
        Some (Node (n_fmt nd) (n_rows nd) (dupdate (n_attrs nd) sub))
    end.
  Proof.
    unfold save_metadata. induction m as [|[k' sub'] m IH]; intros s k N; simpl; auto.
    inversion N; subst. rewrite IH by auto. rewrite !dget_save_key.
    destruct (String.eqb_spec k k').
    - subst. replace (dget k' m) with (@None (dict (dict val))); auto.
      symmetry. now apply dget_None_iff.
    - destruct (dget k m); auto.
  Qed.

  (** ** Reader contents *)
  Lemma contents_store : forall l r r', foldM contents_key l r = Ok r' -> r_store r' = r_store (A:=A) r.
  Proof.
    induction l as [|[k n] l IH]; simpl; intros r r' H.
    - inversion H; auto.
    - destruct (dget "metadata" (n_attrs n)) eqn:E; [|discriminate].
      destruct (String.eqb_spec k "mapping").
      + simpl in H. eapply IH; eauto.
      + simpl in H. apply IH in H. exact H.
  Qed.

  Local Arguments visible_names {A} n : simpl never.

  Lemma contents_spec_gen : forall (l : list (string * node A)) (r r' : reader A),
    NoDup (map fst l) -> (forall k, In k (map fst l) -> ~ In k (r_dfkeys r) /\ dget k (r_mdkeys r) = None) ->
    foldM contents_key l r = Ok r' ->
    (forall k, In k (r_dfkeys r') <->
       In k (r_dfkeys r) \/
       exists n d, In (k, n) l /\ dget "metadata" (n_attrs n) = Some d /\ k <> "mapping" /\
                   is_zero (dgetd (VInt 0) "n_bytes" d) = false) /\
    (forall k, dget k (r_mdkeys r') =
       match dget k (r_mdkeys r) with
       | Some x => Some x
       | None =>
         if String.eqb k "mapping" then None else
         match dget k l with
         | None => None
         | Some n => match visible_names n with [] => None | x => Some x end
         end
       end).
  Proof.
    induction l as [|[k n] l IH]; simpl; intros r r' N D H.
    - inversion H; subst. split.
      + intros; split; auto. intros [|(n & d & [] & _)]; auto.
      + intros. destruct (dget k (r_mdkeys r')); auto. destruct (String.eqb k "mapping"); auto.
    - destruct (dget "metadata" (n_attrs n)) as [d|] eqn:E; [|discriminate].
      inversion N as [|? ? N1 N2]; subst.
      simpl in H.
      destruct (String.eqb_spec k "mapping").
      + simpl in H. apply IH in H; auto.
        * destruct H as [H1 H2]. split.
          -- intros k0. rewrite H1. split; intros [J|J]; auto.
             ++ destruct J as (n0 & d0 & I & J). right. exists n0, d0. auto.
             ++ destruct J as (n0 & d0 & [I|I] & J).
                ** inversion I; subst. destruct J as (_ & J & _). congruence.
                ** right. exists n0, d0. auto.
          -- intros k0. rewrite H2. destruct (dget k0 (r_mdkeys r)); auto.
             destruct (String.eqb_spec k0 "mapping"); auto.
             destruct (String.eqb_spec k0 k); auto. subst. congruence.
      + simpl in H. apply IH in H; auto.
        * destruct H as [H1 H2]. split.
          -- intros k0. rewrite H1. simpl. split.
             ++ intros [J|J].
                ** destruct (is_zero (dgetd (VInt 0) "n_bytes" d)) eqn:Z0; auto.
                   apply in_app_iff in J. destruct J as [J|[J|[]]]; auto. subst.
                   right. exists n, d. auto.
                ** destruct J as (n0' & d0 & I & J). right. exists n0', d0. auto.
             ++ intros [J|J].
                ** left. destruct (is_zero (dgetd (VInt 0) "n_bytes" d)); auto.
                   apply in_app_iff. auto.
                ** destruct J as (n0' & d0 & [I|I] & J).
                   --- inversion I; subst. destruct J as (J1 & J2 & J3).
                       rewrite E in J1. inversion J1; subst. left. rewrite J3.
                       apply in_app_iff. right. now left.
                   --- right. exists n0', d0. auto.
          -- intros k0. rewrite H2. simpl.
             destruct (D k) as [D1 D2]; [now left|].
             destruct (String.eqb_spec k0 k).
             ++ subst. rewrite D2. rewrite (eqb_neq _ _ n0).
                destruct (visible_names n) eqn:V.
                ** rewrite D2. rewrite (proj2 (dget_None_iff _ k l)); auto.
                ** rewrite dget_dset_eq. reflexivity.
             ++ destruct (visible_names n) eqn:V; auto.
                rewrite dget_dset_neq by auto. auto.
        * simpl. intros k0 I. assert (k0 <> k) by (intros ->; contradiction).
          destruct (D k0) as [D1 D2]; [now right|]. split.
          -- destruct (is_zero (dgetd (VInt 0) "n_bytes" d)); auto.
             rewrite in_app_iff. simpl. intuition.
          -- destruct (visible_names n) eqn:V; auto. rewrite dget_dset_neq; auto.
  Qed.

  Lemma contents_spec : forall s r, NoDup (dkeys s) -> contents s = Ok r ->
    r_store r = s /\
    (forall k, In k (r_dfkeys r) <->
       exists n d, dget k s = Some n /\ dget "metadata" (n_attrs n) = Some d /\ k <> "mapping" /\
                   is_zero (dgetd (VInt 0) "n_bytes" d) = false) /\
    (forall k, dget k (r_mdkeys r) =
       if String.eqb k "mapping" then None else
       match dget k s with
       | None => None
       | Some n => match visible_names n with [] => None | x => Some x end
       end).
  Proof.
    unfold contents. intros s r N H. split; [|split].
    - apply contents_store in H. exact H.
    - intros k. apply contents_spec_gen in H; auto. 
      + destruct H as [H _]. rewrite H. simpl. split.
        * intros [[]|(n & d & I & J)]. exists n, d. split; auto. now apply In_dget_nodup.
        * intros (n & d & I & J). right. exists n, d. split; auto. now apply dget_In.
    - intros k. apply contents_spec_gen in H; auto. destruct H as [_ H]. apply H.
  Qed.

  Lemma contents_gen_ok : forall l r,
    (forall k n, In (k, n) l -> exists d, dget "metadata" (n_attrs n) = Some d) ->
    exists r', foldM (A:=string * node A) contents_key l r = Ok r'.
  Proof.
    induction l as [|[k n] l IH]; intros r H; simpl; eauto.
    destruct (H k n) as [d E]; [now left|]. rewrite E.
    destruct (String.eqb k "mapping" || false); apply IH; intros; eapply H; right; eauto.
  Qed.

  Lemma contents_ok : forall s,
    (forall k n, dget k s = Some n -> exists d, dget "metadata" (n_attrs n) = Some d) ->
    NoDup (dkeys s) -> exists r, contents s = Ok r.
  Proof.
    intros. apply contents_gen_ok. intros. eapply H. apply In_dget_nodup; eauto.
  Qed.

  Lemma get_metadata_spec : forall s r k nm n, NoDup (dkeys s) -> contents s = Ok r ->
    k <> "mapping" -> dget k s = Some n -> starts_underscore nm = false -> nm <> "info" ->
    get_metadata r k nm =
    match dget nm (n_attrs n) with Some d => Ok d | None => Raise KeyError end.
  Proof.
    intros s r k nm n N H M E U I. destruct (contents_spec s r N H) as (S1 & S2 & S3).
    unfold get_metadata. rewrite S3, S1, (eqb_neq _ _ M), E.
    destruct (dget nm (n_attrs n)) as [d|] eqn:D.
    - assert (In nm (visible_names n)) as V.
      { unfold visible_names. apply filter_In. split.
        - eapply dget_Some_key; eauto.
        - rewrite U. simpl. rewrite (eqb_neq _ _ I). reflexivity. }
      destruct (visible_names n) eqn:V2; [inversion V|].
      rewrite <- V2 in V |- *.
      rewrite (proj2 (smem_In nm (visible_names n)) V). reflexivity.
    - destruct (visible_names n) eqn:V2; auto. rewrite <- V2.
      rewrite (proj2 (smem_false nm (visible_names n))); auto.
      intros V. unfold visible_names in V. apply filter_In in V. destruct V as [V _].
      apply dget_None_iff in D. contradiction.
  Qed.

  Lemma get_metadata_hidden : forall s r k nm, NoDup (dkeys s) -> contents s = Ok r ->
    starts_underscore nm = true -> get_metadata r k nm = Raise KeyError.
  Proof.
    intros s r k nm N H U. destruct (contents_spec s r N H) as (S1 & S2 & S3).
    unfold get_metadata. rewrite S3. destruct (String.eqb k "mapping"); auto.
    destruct (dget k s) as [n|]; auto.
    destruct (visible_names n) as [|x l] eqn:V; auto. rewrite <- V.
    rewrite (proj2 (smem_false nm (visible_names n))); auto.
    intros I. unfold visible_names in I. apply filter_In in I. rewrite U in I. now destruct I.
  Qed.

  Lemma get_metadata_absent : forall s r k nm, NoDup (dkeys s) -> contents s = Ok r ->
    dget k s = None -> get_metadata r k nm = Raise KeyError.
  Proof.
    intros s r k nm N H E. destruct (contents_spec s r N H) as (S1 & S2 & S3).
    unfold get_metadata. rewrite S3, E. destruct (String.eqb k "mapping"); auto.
  Qed.
End St.

(** ** Writer *)
Section Wr.
  Context {A : Type}.
  Variable mem : list A -> Z.
  Variable prep : list A -> list A.
  (** content of the store when writing starts: empty for HDF5Writer, the old file for
      HDF5Appender *)
  Variable s0 : store A.
  Hypothesis s0_nodup : NoDup (dkeys s0).

  Definition w_from : writer A := W [] [] [] [] [] s0.

  (** pandas allows appending to [k]. *)
  Definition appendable (k : string) : Prop :=
    forall n, dget k s0 = Some n -> n_fmt n = Table.

  Notation step := (w_step mem prep).
  Notation run := (w_run mem prep).
  Notation flush := (w_flush mem prep).

  Definition buf (k : string) (w : writer A) := dgetd [] k (w_buf w).
  Definition bufb (k : string) (w : writer A) := dgetd 0 k (w_bufb w).
  Definition nb (k : string) (w : writer A) := dgetd 0 k (w_nb w).
  Definition nd (k : string) (w : writer A) := dget k (w_store w).

  (** node of a key that is only appended to *)
  Definition tbl (k : string) (rows : list A) : option (node A) :=
    match rows with
    | [] => dget k s0
    | _ => match dget k s0 with
           | None => Some (Node Table rows [("info", [])])
           | Some n => Some (Node Table (n_rows n ++ rows) (n_attrs n))
           end
    end.

  Definition stored (chunks : list (list A)) : list A := List.concat (map prep chunks).
  Definition bytes (chunks : list (list A)) : Z := sum (map (fun c => mem (prep c)) chunks).

  Lemma dgetd_dset : forall V (x : V) k k' v d,
    dgetd x k (dset k' v d) = if String.eqb k k' then v else dgetd x k d.
  Proof. intros. unfold dgetd. rewrite dget_dset. now destruct (String.eqb k k'). Qed.

  (** State of one appended-only key: chunks on disk [c]. *)
  Definition akey (k : string) (w : writer A) (c : list (list A)) : Prop :=
    nd k w = tbl k (stored c) /\ nb k w = bytes c.

  Lemma flush_spec : forall k w c, appendable k -> akey k w c ->
    exists w', flush k w = Ok w' /\
      buf k w' = [] /\
      akey k w' (match buf k w with [] => c | _ => c ++ [List.concat (buf k w)] end) /\
      bufb k w' = (match buf k w with [] => bufb k w | _ => 0 end) /\
      (forall k', k' <> k -> buf k' w' = buf k' w /\ bufb k' w' = bufb k' w /\
                             nb k' w' = nb k' w /\ nd k' w' = nd k' w) /\
      w_keys w' = w_keys w /\ w_meta w' = w_meta w /\
      (NoDup (dkeys (w_store w)) -> NoDup (dkeys (w_store w'))).
  Proof.
    intros k w c HP [HN HB]. unfold w_flush.
    fold (buf k w). destruct (buf k w) as [|d0 ds] eqn:EB.
    - exists w. split; [reflexivity|]. repeat split; auto.
    - set (df := prep (List.concat (d0 :: ds))).
      assert (exists s, st_append k df (w_store w) = Ok s /\
               dget k s = tbl k (stored c ++ df) /\
               (forall k', k' <> k -> dget k' s = dget k' (w_store w)) /\
               (NoDup (dkeys (w_store w)) -> NoDup (dkeys s))) as (s & S1 & S2 & S3 & S4).
      { unfold st_append. unfold nd in HN. destruct df as [|x df'] eqn:ED.
        - exists (w_store w). rewrite app_nil_r. repeat split; auto.
        - rewrite HN. unfold tbl.
          destruct (stored c) as [|y l] eqn:ES; destruct (dget k s0) as [n|] eqn:E0; simpl;
            try rewrite (HP n E0);
            (eexists; split; [reflexivity|]; split; [|split];
             [ rewrite dget_dset_eq; rewrite <- ?app_assoc; reflexivity
             | intros; now apply dget_dset_neq
             | intros; now apply NoDup_dset]). }
      rewrite S1. eexists; split; [reflexivity|].
      unfold akey, buf, bufb, nb, nd in *. simpl.
      rewrite !dgetd_dset, !eqb_refl.
      split; [auto|]. split; [split|].
      + rewrite S2. unfold stored. rewrite map_app, concat_app. simpl. now rewrite app_nil_r.
      + unfold bytes. rewrite map_app, sum_app. rewrite HB. unfold bytes. simpl. subst df. simpl. lia.
      + split; [auto|]. split; [|auto].
        intros k' Hk. rewrite !dgetd_dset. rewrite !(eqb_neq _ _ Hk). auto.
  Qed.

  (** The run invariant. *)
  Record Inv (done : list (op A)) (w : writer A) : Prop := MkInv {
    i_keys : forall k, In k (w_keys w) <-> by_append k done \/ by_write k done;
    i_keysnd : NoDup (w_keys w);
    i_app : forall k, ~ by_write k done -> ~ (k = "mapping" /\ has_mapping done) ->
      exists c, List.concat c ++ List.concat (buf k w) = appended k done /\ akey k w c;
    i_nobuf : forall k, ~ by_append k done -> buf k w = [];
    i_wr : forall k, by_write k done -> ~ by_append k done ->
      exists df, last_written k done None = Some df /\ nb k w = mem df /\
        ((k <> "mapping" \/ ~ has_mapping done) -> nd k w = Some (Node Fixed df []));
    i_map : has_mapping done -> ~ by_append "mapping" done ->
      exists n, nd "mapping" w = Some n /\ n_fmt n = Fixed /\
        (dget "metadata" (n_attrs n) <> None \/ by_write "mapping" done);
    i_bufb : forall k, bufb k w = sum (map mem (buf k w)) /\ bufb k w < flush_limit;
    i_meta : forall k n, meta_named k n done ->
      exists d, mview k n (w_meta w) = Some d /\
                forall f, dget f d = last_value k n f done None;
    i_metan : forall k n, ~ meta_named k n done -> mview k n (w_meta w) = None;
    i_metak : forall k, dget k (w_meta w) <> None -> exists n, meta_named k n done;
    i_wf : meta_wf (w_meta w);
    i_stnd : NoDup (dkeys (w_store w)) }.

  Lemma Inv_init : Inv [] w_from.
  Proof.
    constructor; simpl.
    - intros; split; [tauto|]. intros [[df []]|(? & ? & [] & _)].
    - constructor.
    - intros. exists []. split; auto. split; reflexivity.
    - reflexivity.
    - intros k (? & ? & [] & _).
    - intros (? & ? & []).
    - intros. unfold bufb, buf, flush_limit, dgetd. simpl. lia.
    - intros k n (kw & []).
    - intros. reflexivity.
    - intros k H. now contradiction H.
    - split; [constructor|]. intros ? ? H; discriminate.
    - exact s0_nodup.
  Qed.

  Lemma last_value_none : forall k n f ops acc, ~ meta_named k n ops ->
    last_value (A:=A) k n f ops acc = acc.
  Proof.
    induction ops as [|o ops IH]; simpl; auto. intros acc H.
    assert (~ meta_named k n ops) as H' by (intros [kw I]; apply H; exists kw; now right).
    destruct o; auto. rewrite IH by auto.
    destruct (String.eqb_spec key k); destruct (String.eqb_spec name n); simpl; auto.
    exfalso. apply H. exists kw. subst. now left.
  Qed.

  Lemma last_value_single : forall k n f (o : op A) acc,
    (forall kw, o <> AddMeta k n kw) -> last_value k n f [o] acc = acc.
  Proof.
    intros. apply last_value_none. intros [kw [I|[]]]. apply (H kw). auto.
  Qed.

  (** *** Append *)
  Lemma step_append : forall done w k df,
    appendable k ->
    Inv done w -> no_mix (done ++ [Append k df]) ->
    exists w', step w (Append k df) = (w', None) /\ Inv (done ++ [Append k df]) w'.
  Proof.
    intros done w k df HP HI HM.
    assert (by_append k (done ++ [Append k df])) as HBA.
    { apply by_append_app. right. exists df. now left. }
    destruct (HM k HBA) as [HnW HnM].
    assert (forall k', by_write k' (done ++ [Append k df]) <-> by_write k' done) as EW.
    { intros. rewrite by_write_app. split; auto. intros [|(? & ? & [E|[]] & _)]; auto. discriminate. }
    assert (has_mapping (done ++ [Append k df]) <-> has_mapping done) as EM.
    { rewrite has_mapping_app. split; auto. intros [|(? & ? & [E|[]])]; auto. discriminate. }
    rewrite EW in HnW. rewrite EM in HnM.
    destruct (i_app _ _ HI k HnW HnM) as (c & HC & HA).
    set (w1 := W (set_add k (w_keys w)) (w_meta w)
                (dset k (dgetd [] k (w_buf w) ++ [df]) (w_buf w))
                (dset k (dgetd 0 k (w_bufb w) + mem df) (w_bufb w))
                (w_nb w) (w_store w)).
    assert (forall k', by_append k' (done ++ [Append k df]) <-> by_append k' done \/ k' = k) as EA.
    { intros. rewrite by_append_app. split; intros [J|J]; auto.
      - destruct J as [df' [E|[]]]. inversion E; auto.
      - subst. right. exists df. now left. }
    assert (forall k', buf k' w1 = if String.eqb k' k then buf k w ++ [df] else buf k' w) as B1.
    { intros. unfold buf, w1. simpl. apply dgetd_dset. }
    assert (forall k', bufb k' w1 = if String.eqb k' k then bufb k w + mem df else bufb k' w) as B2.
    { intros. unfold bufb, w1. simpl. apply dgetd_dset. }
    assert (forall k' n, meta_named k' n (done ++ [Append k df]) <-> meta_named k' n done) as EN.
    { intros. rewrite meta_named_app. split; auto. intros [|(? & [E|[]])]; auto. discriminate. }
    assert (forall w', 
       w_keys w' = w_keys w1 -> w_meta w' = w_meta w1 ->
       NoDup (dkeys (w_store w')) ->
       (forall k', k' <> k -> buf k' w' = buf k' w1 /\ bufb k' w' = bufb k' w1 /\
                             nb k' w' = nb k' w1 /\ nd k' w' = nd k' w1) ->
       (exists c', List.concat c' ++ List.concat (buf k w') = appended k done ++ df /\ akey k w' c') ->
       bufb k w' = sum (map mem (buf k w')) /\ bufb k w' < flush_limit ->
       Inv (done ++ [Append k df]) w') as Build.
    { intros w' K1 K2 K3 K4 K5 K6. constructor.
      - intros k'. rewrite K1. unfold w1; simpl. rewrite set_add_In, EA, EW.
        rewrite (i_keys _ _ HI k'). tauto.
      - rewrite K1. apply set_add_NoDup. apply (i_keysnd _ _ HI).
      - intros k' HW' HM'. rewrite EW in HW'. rewrite EM in HM'.
        destruct (String.eqb_spec k' k).
        + subst. rewrite appended_app. simpl. rewrite eqb_refl, app_nil_r. exact K5.
        + destruct (K4 k' n) as (Q1 & Q2 & Q3 & Q4).
          destruct (i_app _ _ HI k' HW' HM') as (c' & C1 & C2 & C3).
          exists c'. rewrite Q1, B1, (eqb_neq _ _ n), appended_app. simpl.
          rewrite (eqb_neq _ _ n), app_nil_r. split; auto. split.
          * rewrite Q4. exact C2.
          * rewrite Q3. exact C3.
      - intros k' HnA. rewrite EA in HnA.
        assert (k' <> k) as Hne by tauto.
        destruct (K4 k' Hne) as (Q1 & Q2 & Q3 & Q4).
        rewrite Q1, B1, (eqb_neq _ _ Hne). apply (i_nobuf _ _ HI). tauto.
      - intros k' HW' HnA. rewrite EW in HW'. rewrite EA in HnA.
        assert (k' <> k) as Hne by tauto.
        destruct (K4 k' Hne) as (Q1 & Q2 & Q3 & Q4).
        destruct (i_wr _ _ HI k' HW') as (df' & C2 & C3 & C4); [tauto|].
        exists df'. rewrite last_written_app. simpl. split; auto. split.
        + rewrite Q3. exact C3.
        + rewrite EM, Q4. exact C4.
      - rewrite EM, EA. intros HM' HnA.
        destruct (i_map _ _ HI HM') as (n & C2 & C3 & C4); [tauto|].
        assert ("mapping" <> k) as Hne by (intros E; apply HnA; auto).
        destruct (K4 _ Hne) as (Q1 & Q2 & Q3 & Q4).
        exists n. rewrite Q4. rewrite EW. auto.
      - intros k'. destruct (String.eqb_spec k' k); [subst; auto|].
        destruct (K4 k' n) as (Q1 & Q2 & Q3 & Q4).
        rewrite Q1, Q2, B1, B2, (eqb_neq _ _ n). apply (i_bufb _ _ HI).
      - intros k' n HN. rewrite EN in HN. rewrite K2. unfold w1. simpl.
        destruct (i_meta _ _ HI k' n HN) as (d & D1 & D2). exists d. split; auto.
        intros. rewrite last_value_app. simpl. apply D2.
      - intros k' n HN. rewrite EN in HN. rewrite K2. unfold w1. simpl.
        apply (i_metan _ _ HI). auto.
      - intros k' HN. rewrite K2 in HN. unfold w1 in HN. simpl in HN.
        destruct (i_metak _ _ HI k' HN) as [n J]. exists n. apply EN. auto.
      - rewrite K2. apply (i_wf _ _ HI).
      - exact K3. }
    assert (akey k w1 c) as HA1 by exact HA.
    simpl. unfold w_append. fold w1. fold (bufb k w1).
    destruct (flush_limit <=? bufb k w1) eqn:EL.
    - destruct (flush_spec k w1 c HP HA1) as (w2 & F1 & F2 & F3 & F4 & F5 & F6 & F7 & F8).
      rewrite F1. exists w2. split; [reflexivity|].
      assert (buf k w1 = buf k w ++ [df]) as EB by (rewrite B1, eqb_refl; auto).
      apply Build; auto.
      + apply F8. apply (i_stnd _ _ HI).
      + exists (c ++ [List.concat (buf k w1)]). split.
        * rewrite F2. simpl. rewrite app_nil_r, EB, !concat_app. simpl. rewrite !app_nil_r.
          rewrite <- HC. now rewrite app_assoc.
        * destruct (buf k w1) eqn:EB2; auto. exfalso. symmetry in EB.
          apply app_eq_nil in EB. destruct EB; discriminate.
      + rewrite F2. rewrite F4. simpl.
        destruct (buf k w1) eqn:EB2.
        * exfalso. symmetry in EB. apply app_eq_nil in EB. destruct EB; discriminate.
        * unfold flush_limit. lia.
    - exists w1. split; [reflexivity|]. apply Build; auto.
      + apply (i_stnd _ _ HI).
      + exists c. split; auto.
        rewrite B1, eqb_refl, concat_app. simpl. rewrite app_nil_r, app_assoc, HC. auto.
      + rewrite B1, B2, eqb_refl, map_app, sum_app. simpl.
        rewrite B2, eqb_refl in EL.
        destruct (i_bufb _ _ HI k) as [I1 I2]. rewrite <- I1. lia.
  Qed.

  (** *** Write *)
  Lemma write_fold : forall kvs w, NoDup (map fst kvs) ->
    let w' := w_write mem kvs w in
    (forall k, In k (w_keys w') <-> In k (w_keys w) \/ In k (map fst kvs)) /\
    (NoDup (w_keys w) -> NoDup (w_keys w')) /\
    w_meta w' = w_meta w /\ w_buf w' = w_buf w /\ w_bufb w' = w_bufb w /\
    (forall k, nb k w' = match dget k kvs with Some df => mem df | None => nb k w end) /\
    (forall k, nd k w' = match dget k kvs with
                         | Some df => Some (Node Fixed df [])
                         | None => nd k w end) /\
    (NoDup (dkeys (w_store w)) -> NoDup (dkeys (w_store w'))).
  Proof.
    unfold w_write. induction kvs as [|[k v] kvs IH]; intros w N; cbn [fold_left map fst].
    - repeat split; auto; try tauto. simpl. tauto.
    - inversion N; subst. specialize (IH (w_write1 mem w (k, v)) H2). simpl in IH.
      destruct IH as (I1 & I2 & I3 & I4 & I5 & I6 & I7 & I8).
      repeat split.
      + rewrite I1, set_add_In. simpl. intuition.
      + rewrite I1, set_add_In. simpl. intuition.
      + intros. apply I2. now apply set_add_NoDup.
      + exact I3.
      + exact I4.
      + exact I5.
      + intros k'. rewrite I6. simpl. destruct (String.eqb_spec k' k).
        * subst. destruct (dget k kvs) eqn:E.
          -- apply dget_Some_key in E. contradiction.
          -- unfold nb. simpl. rewrite dgetd_dset, eqb_refl. auto.
        * destruct (dget k' kvs); auto. unfold nb. simpl. rewrite dgetd_dset, (eqb_neq _ _ n). auto.
      + intros k'. rewrite I7. simpl. destruct (String.eqb_spec k' k).
        * subst. destruct (dget k kvs) eqn:E.
          -- apply dget_Some_key in E. contradiction.
          -- unfold nd. simpl. unfold st_put. rewrite dget_dset_eq. auto.
        * destruct (dget k' kvs); auto. unfold nd. simpl. unfold st_put.
          now apply dget_dset_neq.
      + intros. apply I8. simpl. now apply NoDup_dset.
  Qed.

  Lemma step_write : forall done w kvs,
    Inv done w -> no_mix (done ++ [Write kvs]) -> NoDup (map fst kvs) ->
    exists w', step w (Write kvs) = (w', None) /\ Inv (done ++ [Write kvs]) w'.
  Proof.
    intros done w kvs HI HM HN. simpl. eexists. split; [reflexivity|].
    destruct (write_fold kvs w HN) as (I1 & I2 & I3 & I4 & I5 & I6 & I7 & I8).
    set (w' := w_write mem kvs w) in *.
    assert (forall k', by_append k' (done ++ [Write kvs]) <-> by_append k' done) as EA.
    { intros. rewrite by_append_app. split; auto. intros [|(? & [E|[]])]; auto. discriminate. }
    assert (has_mapping (done ++ [Write kvs]) <-> has_mapping done) as EM.
    { rewrite has_mapping_app. split; auto. intros [|(? & ? & [E|[]])]; auto. discriminate. }
    assert (forall k', by_write k' (done ++ [Write kvs]) <-> by_write k' done \/ In k' (map fst kvs)) as EW.
    { intros. rewrite by_write_app. split; intros [J|J]; auto.
      - destruct J as (? & ? & [E|[]] & J). inversion E; subst. right.
        apply (in_map fst) in J. exact J.
      - right. apply in_map_iff in J. destruct J as ([a b] & E & J). simpl in E. subst.
        exists kvs, b. split; auto. now left. }
    assert (forall k' n, meta_named k' n (done ++ [Write kvs]) <-> meta_named k' n done) as EN.
    { intros. rewrite meta_named_app. split; auto. intros [|(? & [E|[]])]; auto. discriminate. }
    assert (forall k, buf k w' = buf k w) as B1 by (intros; unfold buf; now rewrite I4).
    assert (forall k, bufb k w' = bufb k w) as B2 by (intros; unfold bufb; now rewrite I5).
    constructor.
    - intros k. rewrite I1, EA, EW. rewrite (i_keys _ _ HI). tauto.
    - apply I2. apply (i_keysnd _ _ HI).
    - intros k HW' HM'. rewrite EW in HW'. rewrite EM in HM'.
      destruct (i_app _ _ HI k) as (c & C1 & C2 & C3); [tauto|auto|].
      assert (dget k kvs = None) as D by (apply dget_None_iff; unfold dkeys; tauto).
      exists c. rewrite B1, appended_app. simpl. rewrite app_nil_r. split; auto.
      split; [rewrite I7|rewrite I6]; rewrite D; auto.
    - intros k HnA. rewrite EA in HnA. rewrite B1. now apply (i_nobuf _ _ HI).
    - intros k HW' HnA. rewrite EA in HnA. setoid_rewrite EM. rewrite last_written_app. simpl.
      rewrite I6, I7.
      destruct (dget k kvs) as [df|] eqn:D.
      + exists df. auto.
      + assert (~ In k (map fst kvs)) as ND by (apply dget_None_iff in D; exact D).
        rewrite EW in HW'. destruct HW' as [HW'|]; [|contradiction].
        apply (i_wr _ _ HI k HW' HnA).
    - rewrite EM, EA. intros M HnA. rewrite I7.
      destruct (dget "mapping" kvs) as [df|] eqn:D.
      + eexists. split; [reflexivity|]. split; auto. right. rewrite EW. right.
        apply dget_Some_key in D. exact D.
      + destruct (i_map _ _ HI M HnA) as (n & C1 & C2 & C3).
        exists n. split; auto. split; auto. destruct C3; auto. right. apply EW. auto.
    - intros k. rewrite B1, B2. apply (i_bufb _ _ HI).
    - intros k n HN'. rewrite EN in HN'. rewrite I3.
      destruct (i_meta _ _ HI k n HN') as (d & D1 & D2). exists d. split; auto.
      intros. rewrite last_value_app. simpl. auto.
    - intros k n HN'. rewrite EN in HN'. rewrite I3. apply (i_metan _ _ HI); auto.
    - intros k HN'. rewrite I3 in HN'. destruct (i_metak _ _ HI k HN') as [n J].
      exists n. apply EN; auto.
    - rewrite I3. apply (i_wf _ _ HI).
    - apply I8. apply (i_stnd _ _ HI).
  Qed.

  (** *** AddMap *)
  Lemma step_addmap : forall done w df md,
    Inv done w -> no_mix (done ++ [AddMap df md]) ->
    exists w', step w (AddMap df md) = (w', None) /\ Inv (done ++ [AddMap df md]) w'.
  Proof.
    intros done w df md HI HM. simpl. eexists. split; [reflexivity|].
    set (w' := w_add_mapping df md w).
    assert (forall k', by_append k' (done ++ [AddMap df md]) <-> by_append k' done) as EA.
    { intros. rewrite by_append_app. split; auto. intros [|(? & [E|[]])]; auto. discriminate. }
    assert (forall k', by_write k' (done ++ [AddMap df md]) <-> by_write k' done) as EW.
    { intros. rewrite by_write_app. split; auto. intros [|(? & ? & [E|[]] & _)]; auto. discriminate. }
    assert (has_mapping (done ++ [AddMap df md])) as EM.
    { exists df, md. apply in_app_iff. right. now left. }
    assert (forall k' n, meta_named k' n (done ++ [AddMap df md]) <-> meta_named k' n done) as EN.
    { intros. rewrite meta_named_app. split; auto. intros [|(? & [E|[]])]; auto. discriminate. }
    assert (nd "mapping" w' = Some (Node Fixed df [("metadata", md)])) as N1.
    { unfold nd, w', w_add_mapping. cbn [w_store]. rewrite dget_setattr, eqb_refl.
      unfold st_put. rewrite dget_dset_eq. reflexivity. }
    assert (forall k, k <> "mapping" -> nd k w' = nd k w) as N2.
    { intros. unfold nd, w', w_add_mapping. cbn [w_store]. rewrite dget_setattr.
      rewrite (eqb_neq _ _ H). unfold st_put. now apply dget_dset_neq. }
    constructor; try (intros; rewrite ?EN, ?EA, ?EW in *).
    - apply (i_keys _ _ HI).
    - apply (i_keysnd _ _ HI).
    - assert (k <> "mapping") as Hk by (intros ->; tauto).
      destruct (i_app _ _ HI k) as (c & C1 & C2 & C3); [tauto|tauto|].
      exists c. rewrite appended_app. simpl. rewrite app_nil_r. split; auto.
      split; auto. rewrite N2; auto.
    - apply (i_nobuf _ _ HI). auto.
    - destruct (i_wr _ _ HI k H H0) as (df' & C1 & C2 & C3).
      exists df'. rewrite last_written_app. simpl. split; auto. split; auto.
      intros [K|K]; [|contradiction]. rewrite N2; auto.
    - eexists. split; [exact N1|]. split; auto. left. simpl. discriminate.
    - apply (i_bufb _ _ HI).
    - destruct (i_meta _ _ HI k n H) as (d & D1 & D2). exists d. split; auto.
      intros. rewrite last_value_app. simpl. auto.
    - apply (i_metan _ _ HI); auto.
    - destruct (i_metak _ _ HI k H) as [n J]. exists n. apply EN; auto.
    - apply (i_wf _ _ HI).
    - unfold w', w_add_mapping. cbn [w_store]. apply NoDup_setattr.
      unfold st_put. apply NoDup_dset. apply (i_stnd _ _ HI).
  Qed.

  (** *** AddMeta *)
  Lemma step_addmeta : forall done w key name kw,
    Inv done w -> name <> "info" -> name <> "mapping" -> NoDup (dkeys kw) ->
    exists w', step w (AddMeta key name kw) = (w', None) /\ Inv (done ++ [AddMeta key name kw]) w'.
  Proof.
    intros done w key name kw HI Hi Hm Hkw. simpl. unfold w_add_metadata.
    simpl. rewrite (eqb_neq _ _ Hi), (eqb_neq _ _ Hm). simpl.
    eexists. split; [reflexivity|].
    set (o := AddMeta key name kw).
    assert (forall k', by_append k' (done ++ [o]) <-> by_append k' done) as EA.
    { intros. rewrite by_append_app. split; auto. intros [|(? & [E|[]])]; auto. discriminate. }
    assert (forall k', by_write k' (done ++ [o]) <-> by_write k' done) as EW.
    { intros. rewrite by_write_app. split; auto. intros [|(? & ? & [E|[]] & _)]; auto. discriminate. }
    assert (has_mapping (done ++ [o]) <-> has_mapping done) as EM.
    { rewrite has_mapping_app. split; auto. intros [|(? & ? & [E|[]])]; auto. discriminate. }
    assert (forall k' n, meta_named k' n (done ++ [o]) <-> meta_named k' n done \/ (k' = key /\ n = name)) as EN.
    { intros. rewrite meta_named_app. split; intros [J|J]; auto.
      - destruct J as (? & [E|[]]). inversion E; auto.
      - destruct J; subst. right. exists kw. now left. }
    constructor; try (intros; rewrite ?EM, ?EA, ?EW in *); cbn [w_keys w_meta w_buf w_bufb w_nb w_store].
    - apply (i_keys _ _ HI).
    - apply (i_keysnd _ _ HI).
    - destruct (i_app _ _ HI k) as (c & C1 & C2); [tauto|tauto|].
      exists c. rewrite appended_app. simpl. rewrite app_nil_r. split; auto.
    - apply (i_nobuf _ _ HI). auto.
    - destruct (i_wr _ _ HI k H H0) as (df' & C1 & C2 & C3).
      exists df'. rewrite last_written_app. cbn [last_written]. split; auto. split; auto.
      rewrite EM. exact C3.
    - destruct (i_map _ _ HI H) as (n & N1 & N2 & N3); auto. exists n. split; [exact N1|].
      split; auto. rewrite EW. exact N3.
    - apply (i_bufb _ _ HI).
    - rewrite EN in H. rewrite mview_update.
      destruct (String.eqb_spec k key); destruct (String.eqb_spec n name); simpl;
        try (destruct H as [H|[]]; [|congruence];
             destruct (i_meta _ _ HI k n H) as (d & D1 & D2); exists d; split; auto;
             intros; rewrite last_value_app; rewrite last_value_single; auto;
             intros kw' E; inversion E; congruence).
      subst. eexists. split; [reflexivity|]. intros f.
      rewrite last_value_app. simpl. rewrite !eqb_refl. simpl.
      rewrite dget_dupdate by auto.
      destruct (dget f kw) eqn:E; auto.
      destruct (meta_named_dec key name done) as [J|J].
      + destruct (i_meta _ _ HI key name J) as (d & D1 & D2). rewrite D1. auto.
      + rewrite (i_metan _ _ HI key name J). simpl. now rewrite last_value_none.
    - rewrite EN in H. rewrite mview_update.
      destruct (String.eqb_spec k key); destruct (String.eqb_spec n name); simpl;
        try (apply (i_metan _ _ HI); tauto). tauto.
    - cbn [w_meta] in H. rewrite dget_meta_update in H. destruct (String.eqb_spec k key).
      + exists name. apply EN. auto.
      + destruct (i_metak _ _ HI k H) as [n' J]. exists n'. apply EN. auto.
    - apply meta_wf_update. apply (i_wf _ _ HI).
    - apply (i_stnd _ _ HI).
  Qed.

  (** *** Runs *)
  Lemma run_Inv : forall ops done w,
    (forall k, by_append k (done ++ ops) -> appendable k) ->
    Inv done w -> no_mix (done ++ ops) -> names_ok (done ++ ops) -> kwargs_ok (done ++ ops) ->
    exists w', run ops w = (w', None) /\ Inv (done ++ ops) w'.
  Proof.
    induction ops as [|o ops IH]; intros done w HP HI H1 H2 H3.
    - exists w. rewrite app_nil_r. auto.
    - replace (done ++ o :: ops) with ((done ++ [o]) ++ ops) in * by (now rewrite <- app_assoc).
      assert (exists w', step w o = (w', None) /\ Inv (done ++ [o]) w') as (w' & S1 & S2).
      { destruct o.
        - apply step_append; auto.
          + apply HP. apply by_append_app. left. apply by_append_app. right. exists df. now left.
          + eapply no_mix_app_l; eauto.
        - apply step_write; auto.
          + eapply no_mix_app_l; eauto.
          + destruct H3 as [_ H3]. apply H3. apply in_app_iff. left. apply in_app_iff. right. now left.
        - destruct (H2 key name kw) as [N1 N2].
          { apply in_app_iff. left. apply in_app_iff. right. now left. }
          apply step_addmeta; auto.
          destruct H3 as [H3 _]. eapply H3. apply in_app_iff. left. apply in_app_iff. right. left. reflexivity.
        - apply step_addmap; auto. eapply no_mix_app_l; eauto. }
      cbn [w_run]. rewrite S1. apply IH; auto.
  Qed.

  Lemma run_app : forall o1 o2 w w1, run o1 w = (w1, None) -> run (o1 ++ o2) w = run o2 w1.
  Proof.
    induction o1 as [|o o1 IH]; simpl; intros o2 w w1 H.
    - inversion H; auto.
    - destruct (step w o) as [w' [e|]]; [discriminate|]. auto.
  Qed.

  (** *** finish *)
  (** Key-wise state during finish: [k] holds chunks [c k]. *)
  Definition fin_ready (w : writer A) (k : string) : Prop :=
    buf k w = [] \/ (appendable k /\ exists c, akey k w c).

  Definition fchunks (w : writer A) (k : string) (c : list (list A)) : list (list A) :=
    match buf k w with [] => c | _ => c ++ [List.concat (buf k w)] end.

  (** Effect of flushing key [k]. *)
  Lemma flush_any : forall k w, fin_ready w k ->
    exists w', flush k w = Ok w' /\
      buf k w' = [] /\
      (buf k w = [] -> w' = w) /\
      (forall c, akey k w c -> akey k w' (fchunks w k c)) /\
      (forall k', k' <> k -> buf k' w' = buf k' w /\ nb k' w' = nb k' w /\ nd k' w' = nd k' w) /\
      w_keys w' = w_keys w /\ w_meta w' = w_meta w /\
      (NoDup (dkeys (w_store w)) -> NoDup (dkeys (w_store w'))).
  Proof.
    intros k w [H|[HP [c H]]].
    - exists w. unfold w_flush. fold (buf k w). rewrite H. split; auto. split; auto.
      split; auto. split; [|repeat split; auto].
      intros c Hc. unfold fchunks. now rewrite H.
    - destruct (flush_spec k w c HP H) as (w' & F1 & F2 & F3 & F4 & F5 & F6 & F7 & F8).
      exists w'. split; auto. split; auto. split.
      { intros E. unfold w_flush in F1. fold (buf k w) in F1. rewrite E in F1. inversion F1; auto. }
      split.
      { intros c' Hc'. destruct (flush_spec k w c' HP Hc') as (w2 & G1 & _ & G3 & _).
        rewrite G1 in F1. inversion F1; subst. exact G3. }
      split; auto.
      intros k' Hk. destruct (F5 k' Hk) as (Q1 & Q2 & Q3 & Q4). auto.
  Qed.

  Lemma finish_fold : forall order w t, NoDup order -> (forall k, In k order -> fin_ready w k) ->
    NoDup (dkeys (w_store w)) -> meta_wf (w_meta w) ->
    exists w', foldM (finish_key mem prep) order (w, t) = Ok (w', t + sum (map (fun k => nb k w') order)) /\
      (forall k, In k order -> buf k w' = [] /\ (buf k w = [] -> nd k w' = nd k w /\ nb k w' = nb k w) /\
                 (forall c, akey k w c -> akey k w' (fchunks w k c))) /\
      (forall k, ~ In k order -> buf k w' = buf k w /\ nb k w' = nb k w /\ nd k w' = nd k w) /\
      w_keys w' = w_keys w /\ NoDup (dkeys (w_store w')) /\ meta_wf (w_meta w') /\
      (forall k n, mview k n (w_meta w') =
         if smem k order && String.eqb n "metadata"
         then Some (dupdate (match mview k n (w_meta w) with Some d => d | None => [] end)
                            [("n_bytes", VInt (nb k w'))])
         else mview k n (w_meta w)) /\
      (forall k, dget k (w_meta w') <> None -> In k order \/ dget k (w_meta w) <> None).
  Proof.
    induction order as [|k0 order IH]; intros w t N R S M.
    - exists w. simpl. rewrite Z.add_0_r. split; auto. split; [tauto|]. split; auto.
      repeat (split; auto).
    - inversion N; subst. destruct (flush_any k0 w) as (w1 & F1 & F2 & F3 & F4 & F5 & F6 & F7 & F8);
        [apply R; now left|].
      set (w2 := fst (w_add_metadata k0 "metadata" [("n_bytes", VInt (dgetd 0 k0 (w_nb w1)))] w1)).
      assert (w2 = W (w_keys w1) (meta_update k0 "metadata" [("n_bytes", VInt (nb k0 w1))] (w_meta w1))
                 (w_buf w1) (w_bufb w1) (w_nb w1) (w_store w1)) as E2 by reflexivity.
      assert (forall k, fin_ready w k -> k <> k0 -> fin_ready w2 k) as R2.
      { intros k Rk Hne. destruct (F5 k Hne) as (Q1 & Q2 & Q3).
        unfold fin_ready, akey, buf, nd, nb in *. rewrite E2. simpl. rewrite Q1, Q2, Q3. exact Rk. }
      destruct (IH w2 (t + nb k0 w1)) as (w' & G1 & G2 & G3 & G4 & G5 & G6 & G7 & G8); auto.
      { intros k I. apply R2; [apply R; now right|]. intros ->. contradiction. }
      { rewrite E2. simpl. apply meta_wf_update. now rewrite F7. }
      destruct (G3 k0 H1) as (U1 & U2 & U3).
      assert (forall k, buf k w2 = buf k w1) as V1 by (intros; rewrite E2; reflexivity).
      assert (forall k, nb k w2 = nb k w1) as V2 by (intros; rewrite E2; reflexivity).
      assert (forall k, nd k w2 = nd k w1) as V3 by (intros; rewrite E2; reflexivity).
      exists w'. split; [|split; [|split; [|split; [|split; [|split; [|split]]]]]].
      + cbn [foldM]. unfold finish_key at 1. rewrite F1. cbn [bind].
        fold w2. fold (nb k0 w1). rewrite G1. f_equal. f_equal.
        cbn [map]. change (sum (nb k0 w' :: map (fun k => nb k w') order))
          with (nb k0 w' + sum (map (fun k => nb k w') order)).
        rewrite U2, V2. lia.
      + intros k [E|I].
        * subst k. rewrite U1, V1. split; auto. split.
          -- intros E. apply F3 in E. subst w1. rewrite U3, V3, U2, V2. auto.
          -- intros c Hc. apply F4 in Hc. destruct Hc as [Hc1 Hc2]. split.
             ++ rewrite U3, V3. auto.
             ++ rewrite U2, V2. auto.
        * assert (k <> k0) as Hne by (intros ->; contradiction).
          destruct (F5 k Hne) as (Q1 & Q2 & Q3).
          destruct (G2 k I) as (W1 & W2 & W3). split; auto. split.
          -- intros E. rewrite V1, Q1 in W2. destruct (W2 E) as [X1 X2].
             rewrite X1, X2, V3, V2, Q3, Q2. auto.
          -- intros c Hc. unfold fchunks in *. rewrite V1, Q1 in W3. apply W3.
             destruct Hc as [Hc1 Hc2]. split; [rewrite V3, Q3|rewrite V2, Q2]; auto.
      + intros k I. destruct (G3 k) as (X1 & X2 & X3); [intros J; apply I; now right|].
        assert (k <> k0) as Hne by (intros ->; apply I; now left).
        destruct (F5 k Hne) as (Q1 & Q2 & Q3).
        rewrite X1, X2, X3, V1, V2, V3. auto.
      + rewrite G4. rewrite E2. simpl. auto.
      + auto.
      + auto.
      + intros k n. rewrite G7. rewrite E2. cbn [w_meta]. rewrite mview_update. rewrite F7.
        cbn [smem existsb].
        change (existsb (String.eqb k) order) with (smem k order).
        destruct (String.eqb_spec k k0).
        * subst k. assert (smem k0 order = false) as -> by now apply smem_false.
          simpl. destruct (String.eqb_spec n "metadata"); auto. now rewrite U2, V2.
        * simpl. auto.
      + intros k Hk. destruct (G8 k Hk) as [J|J]; [left; now right|].
        rewrite E2 in J. cbn [w_meta] in J. rewrite dget_meta_update in J.
        destruct (String.eqb_spec k k0); [left; now left|]. rewrite F7 in J. auto.
  Qed.

  (** *** The finished file *)
  Definition data_md (w : writer A) (total : Z) :=
    meta_update "data" "metadata"
      [("total_bytes", VInt total); ("version", VStr lib_version)] (w_meta w).

  Lemma finish_fold_t : forall order w t t' w' x,
    foldM (finish_key mem prep) order (w, t) = Ok (w', t + x) ->
    foldM (finish_key mem prep) order (w, t') = Ok (w', t' + x).
  Proof.
    induction order as [|k order IH]; intros w t t' w' x H; cbn [foldM] in *.
    - inversion H; subst. f_equal. f_equal. lia.
    - unfold finish_key at 1 in H. unfold finish_key at 1.
      destruct (w_flush mem prep k w) as [w1|e]; cbn [bind] in *; [|discriminate].
      set (y := dgetd 0 k (w_nb w1)) in *.
      replace (t + x) with (t + y + (x - y)) in H by lia.
      replace (t' + x) with (t' + y + (x - y)) by lia.
      eapply IH. exact H.
  Qed.

  Lemma finish_file : forall done order w,
    (forall k, by_append k done -> appendable k) ->
    Inv done w -> no_mix done -> Permutation order (w_keys w) ->
    exists w', (forall t, foldM (finish_key mem prep) order (w, t)
                     = Ok (w', t + sum (map (fun k => nb k w') (w_keys w)))) /\
      NoDup (dkeys (w_store w')) /\
      meta_wf (w_meta w') /\
      (forall k n, mview k n (w_meta w') =
         if smem k (w_keys w) && String.eqb n "metadata"
         then Some (dupdate (match mview k n (w_meta w) with Some d => d | None => [] end)
                            [("n_bytes", VInt (nb k w'))])
         else mview k n (w_meta w)) /\
      (forall k, dget k (w_meta w') <> None -> In k (w_keys w) \/ dget k (w_meta w) <> None) /\
      (forall k, by_append k done -> exists c, List.concat c = appended k done /\ akey k w' c) /\
      (forall k, ~ by_append k done -> nb k w' = nb k w /\ nd k w' = nd k w).
  Proof.
    intros done order w HP HI HM P.
    assert (NoDup order) as N by (eapply Permutation_NoDup; [symmetry; eauto|apply (i_keysnd _ _ HI)]).
    assert (forall k, by_append k done -> exists c,
              List.concat c ++ List.concat (buf k w) = appended k done /\ akey k w c) as HA.
    { intros k B. destruct (HM k B). apply (i_app _ _ HI); auto. }
    destruct (finish_fold order w 0) as (w' & G1 & G2 & G3 & G4 & G5 & G6 & G7 & G8); auto.
    { intros k I. destruct (by_append_dec k done) as [B|B].
      - right. split; auto. destruct (HA k B) as (c & _ & Hc). eauto.
      - left. apply (i_nobuf _ _ HI k B). }
    { apply (i_stnd _ _ HI). }
    { apply (i_wf _ _ HI). }
    assert (sum (map (fun k => nb k w') order) = sum (map (fun k => nb k w') (w_keys w))) as ES
      by (apply sum_perm, Permutation_map, P).
    exists w'.
    split. { intros t. rewrite <- ES. now apply finish_fold_t with (t := 0). }
    split. { exact G5. }
    split; auto. split; [|split; [|split]].
    - intros k n. rewrite G7.
      assert (smem k order = smem k (w_keys w)) as ->; auto.
      destruct (smem k (w_keys w)) eqn:E.
      + apply smem_In in E. apply smem_In. eapply Permutation_in; [symmetry; eauto|auto].
      + apply smem_false in E. apply smem_false. intros I. apply E. eapply Permutation_in; eauto.
    - intros k Hk. destruct (G8 k Hk); auto. left. eapply Permutation_in; eauto.
    - intros k B. destruct (HA k B) as (c & C1 & C2).
      assert (In k order) as I.
      { eapply Permutation_in; [symmetry; eauto|]. apply (i_keys _ _ HI). auto. }
      destruct (G2 k I) as (X1 & X2 & X3). exists (fchunks w k c). split; auto.
      unfold fchunks. destruct (buf k w) eqn:E.
      + simpl in C1. now rewrite app_nil_r in C1.
      + rewrite concat_app. simpl. now rewrite app_nil_r.
    - intros k B. assert (buf k w = []) as E by apply (i_nobuf _ _ HI k B).
      destruct (smem k order) eqn:I.
      + apply smem_In in I. destruct (G2 k I) as (X1 & X2 & X3). destruct (X2 E); auto.
      + apply smem_false in I. destruct (G3 k I) as (X1 & X2 & X3). auto.
  Qed.
End Wr.
