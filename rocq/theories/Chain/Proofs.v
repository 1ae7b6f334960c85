(** Lemmas: classes, factory, registry, chain construction. *)
From Coq Require Import List ZArith String Ascii Bool Arith Lia.
From Verif.Base Require Import Py PyFacts Str.
From Verif.Chain Require Import Model Spec.
Import ListNotations.
Local Open Scope string_scope.
Local Open Scope list_scope.

(** ** child_subclasses *)
Lemma In_subclasses : forall w b d, In d (subclasses w b) <-> derives w b d.
Proof.
  intros. unfold subclasses, derives. rewrite filter_In, in_seq, existsb_exists. split.
  - intros [H1 (x & H2 & H3)]. apply Nat.eqb_eq in H3. subst. split; auto. lia.
  - intros [H1 H2]. split; [lia|]. exists b. split; auto. apply Nat.eqb_refl.
Qed.

Section U.
  Variable w : list class.
  Notation nm := (fun c => c_name (cls_at w c)).

  Lemma unique_incl : forall l names c, In c (unique_by_name w l names) ->
    In c l /\ ~ In (nm c) names.
  Proof.
    induction l as [|x l IH]; intros names c H; [destruct H|]. cbn [unique_by_name] in H.
    destruct (smem (nm x) names) eqn:E.
    - destruct (IH _ _ H). split; auto. now right.
    - destruct H as [<-|H].
      + split; [now left|]. now apply smem_false.
      + destruct (IH _ _ H) as [H1 H2]. split; [now right|]. intros X. apply H2. apply in_or_app. now left.
  Qed.

  Lemma unique_nodup : forall l names, NoDup (map nm (unique_by_name w l names)).
  Proof.
    induction l as [|x l IH]; intros names; [constructor|]. cbn [unique_by_name].
    destruct (smem (nm x) names); auto. cbn [map]. constructor; auto.
    intros I. apply in_map_iff in I. destruct I as (y & E & I). apply unique_incl in I.
    destruct I as [_ I]. apply I. apply in_or_app. right. left. congruence.
  Qed.

  Lemma unique_complete : forall l names c, In c l -> ~ In (nm c) names ->
    exists d, In d (unique_by_name w l names) /\ nm d = nm c.
  Proof.
    induction l as [|x l IH]; intros names c H N; [destruct H|]. cbn [unique_by_name].
    destruct (smem (nm x) names) eqn:E.
    - destruct H as [<-|H]; [|auto]. apply smem_In in E. contradiction.
    - destruct (string_dec (nm c) (nm x)) as [Q|Q].
      + exists x. split; [now left|auto].
      + destruct H as [<-|H]; [congruence|]. destruct (IH (names ++ [nm x]) c H) as (d & D1 & D2).
        { rewrite in_app_iff. simpl. intuition congruence. }
        exists d. split; auto. now right.
  Qed.

  (** The first class of a name is taken. *)
  Lemma unique_first : forall a b names c, In c a -> ~ In (nm c) names ->
    forall d, In d (unique_by_name w (a ++ b) names) -> nm d = nm c -> In d a.
  Proof.
    induction a as [|x a IH]; intros b names c H N d I E; [destruct H|]. cbn [app unique_by_name] in I.
    destruct (smem (nm x) names) eqn:S.
    - destruct H as [<-|H]; [apply smem_In in S; contradiction|]. right. eapply IH; eauto.
    - destruct I as [<-|I]; [now left|]. destruct H as [<-|H].
      + apply unique_incl in I. destruct I as [_ I]. exfalso. apply I. apply in_or_app. right. left. auto.
      + right. apply (IH b (names ++ [nm x]) c H); auto.
        apply unique_incl in I. destruct I as [_ I]. rewrite <- E. exact I.
  Qed.
End U.

Lemma children_sound : forall f w b c, In c (child_subclasses_n f w b) ->
  descendant w b c /\ c_abs (cls_at w c) = false.
Proof.
  induction f as [|f IH]; intros w b c H; [destruct H|]. cbn [child_subclasses_n] in H.
  apply unique_incl in H. destruct H as [H _]. apply filter_In in H. destruct H as [H A].
  apply negb_true_iff in A. split; auto. apply in_app_or in H. destruct H as [H|H].
  - apply desc_direct. now apply In_subclasses.
  - apply in_flat_map in H. destruct H as (s & H1 & H2). apply IH in H2.
    apply In_subclasses in H1. eapply desc_step; [exact H1|apply H2].
Qed.

Lemma children_complete : forall f w b c, hierarchy w -> (List.length w <= b + f)%nat ->
  descendant w b c -> c_abs (cls_at w c) = false ->
  exists d, In d (child_subclasses_n f w b) /\ c_name (cls_at w d) = c_name (cls_at w c).
Proof.
  induction f as [|f IH]; intros w b c HW L D A.
  - exfalso. destruct D as [d [D1 D2]|s d [D1 D2] _]; specialize (HW _ _ D1 D2); lia.
  - cbn [child_subclasses_n]. destruct D as [d D|s d D D'].
    + apply unique_complete with (c := d); [|auto]. apply filter_In. split; [|now rewrite A].
      apply in_or_app. left. now apply In_subclasses.
    + destruct (IH w s d HW) as (e & E1 & E2); auto.
      { destruct D as [D1 D2]. specialize (HW _ _ D1 D2). lia. }
      destruct (unique_complete w (filter (fun g => negb (c_abs (cls_at w g)))
          (subclasses w b ++ flat_map (child_subclasses_n f w) (subclasses w b))) [] e) as (x & X1 & X2); auto.
      { apply filter_In. split.
        - apply in_or_app. right. apply in_flat_map. exists s. split; auto. now apply In_subclasses.
        - apply children_sound in E1. destruct E1 as [_ ->]. reflexivity. }
      exists x. split; auto. congruence.
Qed.

Lemma children_direct : forall f w b c d, derives w b c -> c_abs (cls_at w c) = false ->
  In d (child_subclasses_n (S f) w b) -> c_name (cls_at w d) = c_name (cls_at w c) -> derives w b d.
Proof.
  intros f w b c d D A I E. cbn [child_subclasses_n] in I. rewrite filter_app in I.
  eapply unique_first with (c := c) in I; auto.
  - apply filter_In in I. destruct I as [I _]. now apply In_subclasses.
  - apply filter_In. split; [now apply In_subclasses|now rewrite A].
Qed.

Lemma children_nodup : forall f w b, NoDup (map (fun c => c_name (cls_at w c)) (child_subclasses_n f w b)).
Proof. intros [|f] w b; [constructor|]. cbn [child_subclasses_n]. apply unique_nodup. Qed.

Lemma c16 : forall w b, hierarchy w ->
  (forall c, In c (child_subclasses w b) -> descendant w b c /\ c_abs (cls_at w c) = false) /\
  NoDup (map (fun c => c_name (cls_at w c)) (child_subclasses w b)) /\
  (forall c, descendant w b c -> c_abs (cls_at w c) = false ->
     exists d, In d (child_subclasses w b) /\ c_name (cls_at w d) = c_name (cls_at w c)) /\
  (forall c d, derives w b c -> c_abs (cls_at w c) = false ->
     In d (child_subclasses w b) -> c_name (cls_at w d) = c_name (cls_at w c) -> derives w b d).
Proof.
  intros w b HW. unfold child_subclasses. split; [|split; [|split]].
  - intros c. apply children_sound.
  - apply children_nodup.
  - intros c D A. apply children_complete; auto. lia.
  - intros c d D A I E. destruct (List.length w) eqn:L.
    + destruct I.
    + eapply children_direct; eauto.
Qed.

Lemma NoDup_map_inv' : forall A B (f : A -> B) l x y, NoDup (map f l) -> In x l -> In y l -> f x = f y -> x = y.
Proof.
  induction l as [|a l IH]; intros x y N I J E; [destruct I|]. inversion N; subst.
  destruct I as [<-|I], J as [<-|J]; auto.
  - exfalso. apply H1. rewrite E. now apply in_map.
  - exfalso. apply H1. rewrite <- E. now apply in_map.
Qed.

(** With distinct names, every non-abstract descendant is returned. *)
Lemma children_all : forall w b, hierarchy w ->
  (forall c d, descendant w b c -> descendant w b d -> c_abs (cls_at w c) = false -> c_abs (cls_at w d) = false ->
     c_name (cls_at w c) = c_name (cls_at w d) -> c = d) ->
  forall c, In c (child_subclasses w b) <-> descendant w b c /\ c_abs (cls_at w c) = false.
Proof.
  intros w b HW HU c. destruct (c16 w b HW) as (S & _ & C & _). split; auto.
  intros [D A]. destruct (C c D A) as (d & I & E). destruct (S d I) as [D' A'].
  rewrite (HU c d); auto.
Qed.

(** ** Factory *)
Lemma dget_combine : forall (names : list string) (l : list nat), NoDup names -> List.length names = List.length l ->
  forall n c, dget n (combine names l) = Some c <-> In (n, c) (combine names l).
Proof.
  intros names l N L n c. split; [apply dget_In|].
  intros I. apply In_dget_nodup; auto.
  assert (dkeys (combine names l) = names) as ->; auto.
  clear -L. revert l L. induction names; intros [|y l] L; try discriminate; auto.
  cbn. f_equal. apply IHnames. cbn in L. lia.
Qed.

Lemma combine_map_In : forall A (f : A -> string) l n c, In (n, c) (combine (map f l) l) <-> In c l /\ n = f c.
Proof.
  induction l; cbn; [tauto|]. intros. rewrite IHl. split.
  - intros [H|[H1 H2]]; [inversion H; subst; auto|auto].
  - intros [[->|H] ->]; auto.
Qed.

Lemma produce_get : forall w b n,
  dget n (dupdate [] (combine (map (fun c => c_name (cls_at w c)) (child_subclasses w b)) (child_subclasses w b))) =
  dget n (combine (map (fun c => c_name (cls_at w c)) (child_subclasses w b)) (child_subclasses w b)).
Proof.
  intros. rewrite dget_dupdate.
  - destruct (dget n (combine _ _)); auto.
  - assert (forall A (names : list string) (l : list A), List.length names = List.length l ->
      dkeys (combine names l) = names) as K.
    { induction names; intros [|y l] L; try discriminate; auto. cbn. f_equal. apply IHnames. cbn in L. lia. }
    rewrite K by apply map_length. apply children_nodup.
Qed.

Lemma c17 : forall w b n, hierarchy w ->
  (forall c, produce w b n = Ok c ->
     descendant w b c /\ c_abs (cls_at w c) = false /\ c_name (cls_at w c) = n) /\
  (forall c, descendant w b c -> c_abs (cls_at w c) = false -> c_name (cls_at w c) = n ->
     (forall d, descendant w b d -> c_abs (cls_at w d) = false -> c_name (cls_at w d) = n -> d = c) ->
     produce w b n = Ok c) /\
  (produce w b n = Raise KeyError <->
     ~ exists c, descendant w b c /\ c_abs (cls_at w c) = false /\ c_name (cls_at w c) = n) /\
  (forall e, produce w b n = Raise e -> e = KeyError).
Proof.
  intros w b n HW. destruct (c16 w b HW) as (S & N & C & _).
  unfold produce. rewrite produce_get.
  assert (forall c, dget n (combine (map (fun c => c_name (cls_at w c)) (child_subclasses w b)) (child_subclasses w b)) = Some c
     <-> In c (child_subclasses w b) /\ n = c_name (cls_at w c)) as G.
  { intros c. rewrite dget_combine; auto; [|apply map_length].
    apply (combine_map_In nat (fun c => c_name (cls_at w c))). }
  destruct (dget n _) as [c0|] eqn:E.
  - destruct (proj1 (G c0) eq_refl) as [I ->]. split; [|split; [|split]].
    + intros c H. inversion H; subst. destruct (S c I). auto.
    + intros c D A NM U. f_equal. destruct (S c0 I). apply U; auto.
    + split; [discriminate|]. intros H. exfalso. apply H. destruct (S c0 I). eauto.
    + discriminate.
  - assert (forall c, ~ (descendant w b c /\ c_abs (cls_at w c) = false /\ c_name (cls_at w c) = n)) as NX.
    { intros c (D & A & NM). destruct (C c D A) as (d & I & Q).
      assert (@None nat = Some d) as X by (apply G; split; congruence). discriminate. }
    split; [|split; [|split]].
    + discriminate.
    + intros c D A NM _. exfalso. eapply NX; eauto.
    + split; auto. intros _ (c & H). eapply NX; eauto.
    + intros e H. now inversion H.
Qed.

(** ** Registry *)
Definition reg_ok (x : world) : Prop :=
  let '(reg, w) := x in
  (forall i p, (i < List.length w)%nat -> In p (c_body (cls_at w i)) ->
     dget p reg = Some (c_qual (cls_at w i) ++ "." ++ p)%string) /\
  (forall i p, (i < List.length w)%nat -> In p (c_cols (cls_at w i)) -> In p (c_body (cls_at w i))) /\
  (forall i, (i < List.length w)%nat -> NoDup (c_cols (cls_at w i))) /\
  hierarchy w.

Lemma append_inj_r : forall a b p : string, (a ++ p)%string = (b ++ p)%string -> a = b.
Proof.
  induction a as [|c a IH]; intros b p H.
  - destruct b as [|d b]; auto. exfalso. apply (f_equal String.length) in H. simpl in H.
    rewrite append_length in H. lia.
  - destruct b as [|d b].
    + exfalso. apply (f_equal String.length) in H. simpl in H. rewrite append_length in H. lia.
    + simpl in H. injection H as -> H. f_equal. eapply IH; eauto.
Qed.

Lemma exec_body_keeps : forall cols reg qual reg' e, exec_body reg qual cols = (reg', e) ->
  (forall p v, dget p reg = Some v -> dget p reg' = Some v) /\
  (e = None -> forall p, In p cols -> dget p reg' = Some (qual ++ "." ++ p)%string) /\
  (forall x, e = Some x -> x = AttributeError) /\
  (e = None -> forall p, In p cols -> forall old, dget p reg = Some old -> old = (qual ++ "." ++ p)%string).
Proof.
  induction cols as [|c cols IH]; intros reg qual reg' e H; cbn [exec_body] in H.
  - inversion H; subst. repeat split; auto; try discriminate; intros; contradiction.
  - unfold register in H. destruct (dget c reg) as [old|] eqn:E.
    + destruct (eqb_spec old (qual ++ "." ++ c)%string) as [Q|Q].
      * destruct (IH _ _ _ _ H) as (I1 & I2 & I3 & I4). split; [|split; [|split]].
        -- intros p v G. apply I1. rewrite dget_dset. destruct (eqb_spec p c); auto. subst. congruence.
        -- intros -> p [<-|I]; auto. apply I1. apply dget_dset_eq.
        -- auto.
        -- intros -> p [<-|I] o G; [congruence|]. apply (I4 eq_refl p I).
           rewrite dget_dset. destruct (eqb_spec p c); auto. subst. congruence.
      * inversion H; subst. split; auto. split; [discriminate|]. split; [|discriminate]. intros x X. now inversion X.
    + destruct (IH _ _ _ _ H) as (I1 & I2 & I3 & I4). split; [|split; [|split]].
      * intros p v G. apply I1. rewrite dget_dset. destruct (eqb_spec p c); auto. subst. congruence.
      * intros -> p [<-|I]; auto. apply I1. apply dget_dset_eq.
      * auto.
      * intros -> p [<-|I] o G; [congruence|]. 
        destruct (string_dec p c) as [->|Q]; [congruence|].
        apply (I4 eq_refl p I). now rewrite dget_dset_neq.
Qed.

Lemma nodup_names_spec : forall l seen, NoDup (nodup_names l seen) /\
  (forall p, In p (nodup_names l seen) <-> In p l /\ ~ In p seen).
Proof.
  induction l as [|c l IH]; intros seen; cbn [nodup_names].
  - split; [constructor|]. intros p. simpl. tauto.
  - destruct (smem c seen) eqn:E.
    + destruct (IH seen) as [I1 I2]. split; auto. intros p. rewrite I2. simpl. apply smem_In in E.
      intuition (subst; contradiction).
    + destruct (IH (seen ++ [c])) as [I1 I2]. apply smem_false in E. split.
      * constructor; auto. rewrite I2. rewrite in_app_iff. simpl. tauto.
      * intros p. cbn [In]. rewrite I2, in_app_iff. simpl.
        destruct (string_dec c p); [subst; tauto|]. tauto.
Qed.

Lemma cls_at_app : forall w x i, (i < List.length w)%nat -> cls_at (w ++ [x]) i = cls_at w i.
Proof. intros. unfold cls_at. now rewrite app_nth1. Qed.
Lemma cls_at_last : forall w x, cls_at (w ++ [x]) (List.length w) = x.
Proof. intros. unfold cls_at. rewrite app_nth2, Nat.sub_diag; auto. Qed.

Lemma NoDup_filter' : forall A (f : A -> bool) l, NoDup l -> NoDup (filter f l).
Proof.
  induction 1; cbn; [constructor|]. destruct (f x); auto. constructor; auto.
  intros I. apply filter_In in I. tauto.
Qed.

Lemma exec_class_ok : forall x s, reg_ok x -> reg_ok (fst (exec_class x s)).
Proof.
  intros [reg w] s (R1 & R2 & R3 & R4). unfold exec_class.
  destruct (forallb _ (s_bases s)) eqn:B; [|exact (conj R1 (conj R2 (conj R3 R4)))].
  destruct (exec_body reg (s_qual s) (s_cols s)) as [reg' [e|]] eqn:X;
    destruct (exec_body_keeps _ _ _ _ _ X) as (K1 & K2 & K3 & K4); cbn [fst].
  - split; [|auto]. intros i p L I. apply K1. auto.
  - unfold reg_ok. split; [|split; [|split]].
    + intros i p L I. rewrite app_length in L. cbn in L.
      destruct (Nat.eq_dec i (List.length w)) as [->|NE].
      * rewrite cls_at_last in *. cbn in I |- *. apply nodup_names_spec in I. apply K2; auto. tauto.
      * rewrite cls_at_app in * by lia. apply K1. apply R1; auto. lia.
    + intros i p L I. rewrite app_length in L. cbn in L.
      destruct (Nat.eq_dec i (List.length w)) as [->|NE].
      * rewrite cls_at_last in *. cbn in I |- *. apply filter_In in I. tauto.
      * rewrite cls_at_app in * by lia. apply R2; auto. lia.
    + intros i L. rewrite app_length in L. cbn in L.
      destruct (Nat.eq_dec i (List.length w)) as [->|NE].
      * rewrite cls_at_last. cbn. apply NoDup_filter'. apply nodup_names_spec.
      * rewrite cls_at_app by lia. apply R3. lia.
    + intros j b L I. rewrite app_length in L. cbn in L.
      destruct (Nat.eq_dec j (List.length w)) as [->|NE].
      * rewrite cls_at_last in I. cbn in I. rewrite forallb_forall in B. apply B in I. now apply Nat.ltb_lt.
      * rewrite cls_at_app in I by lia. apply R4; auto. lia.
Qed.

Lemma reg_ok0 : forall q a, reg_ok (world0 q a).
Proof.
  intros. unfold world0, reg_ok. cbn [List.length].
  assert (forall i, (i < 1)%nat -> i = 0%nat) as Z by (intros; lia).
  split; [|split; [|split]].
  - intros i p L I. apply Z in L. subst. destruct I.
  - intros i p L I. apply Z in L. subst. destruct I.
  - intros i L. apply Z in L. subst. constructor.
  - intros i p L I. cbn in L. apply Z in L. subst. destruct I.
Qed.

Lemma exec_classes_ok : forall l x, reg_ok x -> reg_ok (exec_classes x l).
Proof. induction l; intros; auto. cbn [exec_classes]. apply IHl. now apply exec_class_ok. Qed.

Lemma reachable_hierarchy : forall q a l, hierarchy (snd (exec_classes (world0 q a) l)).
Proof.
  intros. pose proof (exec_classes_ok l _ (reg_ok0 q a)) as H.
  destruct (exec_classes (world0 q a) l). apply H.
Qed.

(** A second class using the column name is refused. *)
Lemma column_refused : forall x s i p, reg_ok x ->
  (i < List.length (snd x))%nat -> In p (c_body (cls_at (snd x) i)) ->
  (forall b, In b (s_bases s) -> (b < List.length (snd x))%nat) ->
  In p (s_cols s) -> s_qual s <> c_qual (cls_at (snd x) i) ->
  snd (exec_class x s) = Some AttributeError /\ snd (fst (exec_class x s)) = snd x.
Proof.
  intros [reg w] s i p (R1 & _) L I B J NE. cbn [snd] in *. unfold exec_class.
  assert (forallb (fun b => (b <? List.length w)%nat) (s_bases s) = true) as ->.
  { apply forallb_forall. intros b Ib. apply Nat.ltb_lt. auto. }
  destruct (exec_body reg (s_qual s) (s_cols s)) as [reg' [e|]] eqn:X;
    destruct (exec_body_keeps _ _ _ _ _ X) as (K1 & K2 & K3 & K4).
  - cbn. rewrite (K3 e eq_refl). auto.
  - exfalso. specialize (K4 eq_refl p J _ (R1 i p L I)). apply NE. symmetry. eapply append_inj_r; eauto.
Qed.

Lemma desc_bound : forall w b c, descendant w b c -> (c < List.length w)%nat.
Proof. induction 1; auto. apply H. Qed.

(** Columns of different classes found by child_subclasses are different. *)
Lemma columns_disjoint : forall x b i j p, reg_ok x ->
  In i (child_subclasses (snd x) b) -> In j (child_subclasses (snd x) b) ->
  In p (c_cols (cls_at (snd x) i)) -> In p (c_cols (cls_at (snd x) j)) -> i = j.
Proof.
  intros [reg w] b i j p (R1 & R2 & _ & R4) I J P Q. cbn [snd] in *.
  destruct (c16 w b R4) as (S & N & _).
  assert ((i < List.length w)%nat) as Li by (eapply desc_bound; apply S; exact I).
  assert ((j < List.length w)%nat) as Lj by (eapply desc_bound; apply S; exact J).
  pose proof (R1 i p Li (R2 i p Li P)) as E1. pose proof (R1 j p Lj (R2 j p Lj Q)) as E2.
  rewrite E1 in E2. injection E2 as E2. apply append_inj_r in E2.
  eapply (NoDup_map_inv' _ _ _ _ i j N I J). unfold c_name. now rewrite E2.
Qed.

(** ** Configuration *)
Lemma default_columns_nodup : NoDup (dkeys default_columns).
Proof. repeat constructor; simpl; intuition discriminate. Qed.

Definition dict_ok (d : dict val) : Prop := NoDup (dkeys d).

Lemma chain_config_get : forall load path kwargs c, dict_ok kwargs ->
  (forall d, file_of load path = Some d -> dict_ok d) ->
  dget c (chain_config load path kwargs) =
  match dget c kwargs with
  | Some v => Some v
  | None => dget c (match file_of load path with Some d => d | None => default_columns end)
  end.
Proof.
  intros load path kwargs c HK HF. unfold chain_config, file_of in *.
  change (dupdate [] default_config) with (@nil (string * val)).
  destruct path as [p|].
  - destruct (String.eqb p "").
    + rewrite !dget_dupdate; auto using default_columns_nodup. destruct (dget c kwargs); auto.
      destruct (dget c default_columns); auto.
    + specialize (HF _ eq_refl). rewrite !dget_dupdate; auto. destruct (dget c kwargs); auto.
      destruct (load p) as [d|]; auto. destruct (dget c d); auto.
  - rewrite !dget_dupdate; auto using default_columns_nodup. destruct (dget c kwargs); auto.
    destruct (dget c default_columns); auto.
Qed.

Lemma default_on : forall c,
  match dget c default_columns with Some v => truthy v | None => false end =
  if in_dec string_dec c on_by_default then true else false.
Proof.
  intros c. unfold default_columns. cbn [dget].
  repeat match goal with
  | |- context [String.eqb ?a ?b] => destruct (String.eqb_spec a b); [subst; vm_compute; reflexivity|]
  end.
  destruct (in_dec string_dec c on_by_default) as [I|]; [|reflexivity]. simpl in I. exfalso. intuition congruence.
Qed.

Lemma active_switched : forall load path kwargs cols, dict_ok kwargs ->
  (forall d, file_of load path = Some d -> dict_ok d) ->
  get_active_columns cols true (chain_config load path kwargs) =
  filter (switched_on (file_of load path) kwargs) cols.
Proof.
  intros. unfold get_active_columns. apply filter_ext. intros c.
  rewrite chain_config_get by auto. unfold switched_on. destruct (dget c kwargs); auto.
  destruct (file_of load path); auto using default_on.
Qed.

Lemma build_loop_ok : forall w rs cfg chain, build_loop w rs cfg = Ok chain ->
  chain = map (fun r => Red r (get_active_columns (c_cols (cls_at w r)) true cfg) cfg)
    (filter (fun r => (0 <? List.length (get_active_columns (c_cols (cls_at w r)) true cfg))%nat) rs).
Proof.
  induction rs as [|r rs IH]; intros cfg chain H; cbn [build_loop] in H.
  - now inversion H.
  - destruct (dmem "cls" cfg); [discriminate|]. cbn [filter].
    destruct (0 <? _)%nat; [|auto].
    destruct (dmem "self" cfg); [discriminate|].
    destruct (build_loop w rs cfg) as [rest|] eqn:E; [|discriminate]. cbn [bind] in H. inversion H; subst.
    cbn [map]. now rewrite (IH cfg rest E).
Qed.

Lemma build_loop_succeeds : forall w rs cfg, dmem "cls" cfg = false -> dmem "self" cfg = false ->
  exists chain, build_loop w rs cfg = Ok chain.
Proof.
  induction rs as [|r rs IH]; intros cfg H1 H2; cbn [build_loop]; eauto.
  rewrite H1, H2. destruct (0 <? _)%nat; auto. destruct (IH cfg H1 H2) as [c ->]. cbn. eauto.
Qed.

Lemma existsb_len : forall A (f : A -> bool) l, (0 <? List.length (filter f l))%nat = existsb f l.
Proof. induction l; cbn; auto. destruct (f a); auto. Qed.

Lemma c19 : forall w load path kwargs, dict_ok kwargs ->
  (forall d, file_of load path = Some d -> dict_ok d) ->
  (forall chain, chain_init w load path kwargs = Ok chain ->
     map (fun r => (r_cls r, r_active r)) chain =
     map (fun r => (r, filter (switched_on (file_of load path) kwargs) (c_cols (cls_at w r))))
         (filter (fun r => existsb (switched_on (file_of load path) kwargs) (c_cols (cls_at w r)))
                 (child_subclasses w 0))) /\
  ((forall k, In k ["n_pixels"; "n_samples"; "cls"; "self"] ->
      dget k kwargs = None /\ forall d, file_of load path = Some d -> dget k d = None) ->
   exists chain, chain_init w load path kwargs = Ok chain).
Proof.
  intros w load path kwargs HK HF. split.
  - intros chain H. unfold chain_init, build_chain in H.
    destruct (dmem "n_pixels" _ || dmem "n_samples" _); [discriminate|].
    apply build_loop_ok in H. subst. rewrite map_map. cbn [r_cls r_active].
    erewrite filter_ext.
    2:{ intros r. rewrite active_switched by auto. apply existsb_len. }
    apply map_ext. intros r. now rewrite active_switched by auto.
  - intros H. unfold chain_init, build_chain.
    assert (forall k, In k ["n_pixels"; "n_samples"; "cls"; "self"] ->
       dmem k (chain_config load path kwargs) = false) as M.
    { intros k I. unfold dmem. rewrite chain_config_get by auto. destruct (H k I) as [-> X].
      destruct (file_of load path) as [d|].
      - now rewrite (X d eq_refl).
      - simpl in I. intuition (subst; reflexivity). }
    rewrite !M by (simpl; auto). cbn [orb]. apply build_loop_succeeds; apply M; simpl; auto.
Qed.
