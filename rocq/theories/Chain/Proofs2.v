(** Lemmas: processing with a heap, generated configuration text. *)
From Coq Require Import List ZArith String Ascii Bool Arith Lia.
From Verif.Base Require Import Py PyFacts Str.
From Verif.Chain Require Import Model Spec Proofs.
Import ListNotations.
Local Open Scope string_scope.
Local Open Scope list_scope.

Section P.
  Context {W V St : Type}.
  Variable w0 : W.
  Variable prepf : reducer -> St -> W -> St * W.
  Variable colf : reducer -> string -> St -> W -> St * W * V.
  Variable postf : reducer -> St -> W -> St * W.
  Notation hget := (h_get w0).

  Lemma h_set_length : forall (h : list W) l x, List.length (h_set h l x) = List.length h.
  Proof. induction h; intros [|l] x; cbn; auto. Qed.
  Lemma h_get_set_eq : forall (h : list W) l x, (l < List.length h)%nat -> hget (h_set h l x) l = x.
  Proof. unfold h_get. induction h; intros [|l] x H; cbn in *; try lia; auto. apply IHh. lia. Qed.
  Lemma h_get_set_neq : forall (h : list W) l l' x, l' <> l -> hget (h_set h l x) l' = hget h l'.
  Proof. unfold h_get. induction h; intros [|l] [|l'] x H; cbn in *; try lia; auto. Qed.

  (** All locations below [n] are the same in both heaps. *)
  Definition same_below (n : nat) (h h' : list W) : Prop := forall l, (l < n)%nat -> hget h' l = hget h l.

  Lemma get_dict_spec : forall cols h o l h' o' d, o_loc o = Some l -> (l < List.length h)%nat ->
    get_dict w0 colf h o cols = (h', o', d) ->
    exists s2 x2, alone_cols colf (o_red o) cols (o_st o) (hget h l) = (s2, x2, d) /\
      o' = Obj (o_red o) s2 (Some l) /\ hget h' l = x2 /\ List.length h' = List.length h /\
      (forall k, k <> l -> hget h' k = hget h k).
  Proof.
    induction cols as [|c cols IH]; intros h o l h' o' d HL LT H; cbn [get_dict] in H.
    - inversion H; subst. exists (o_st o'), (hget h' l). cbn. repeat split; auto. destruct o'; cbn in *; now subst.
    - rewrite HL in H. cbn [alone_cols].
      destruct (colf (o_red o) c (o_st o) (hget h l)) as [[s x] v] eqn:C.
      destruct (get_dict w0 colf (h_set h l x) (Obj (o_red o) s (Some l)) cols) as [[h1 o1] d1] eqn:E.
      inversion H; subst; clear H.
      apply (IH _ _ l) in E; [|reflexivity|now rewrite h_set_length].
      cbn [o_red o_st] in E. rewrite h_get_set_eq in E by auto.
      destruct E as (s2 & x2 & E1 & E2 & E3 & E4 & E5).
      exists s2, x2. rewrite E1. repeat split; auto.
      + now rewrite E4, h_set_length.
      + intros k N. rewrite E5 by auto. now apply h_get_set_neq.
  Qed.

  Lemma process_spec : forall h o wf h' o' d, (wf < List.length h)%nat ->
    process w0 prepf colf postf h o wf = (h', o', d) ->
    same_below (List.length h) h h' /\ (List.length h <= List.length h')%nat /\
    o_red o' = o_red o /\
    alone_event prepf colf postf (o_red o) (o_st o) (hget h wf) = (o_st o', d).
  Proof.
    intros h o wf h' o' d LT H. unfold process, prepare in H.
    assert (hget (h ++ [hget h wf]) (List.length h) = hget h wf) as HN.
    { unfold h_get. rewrite app_nth2, Nat.sub_diag; auto. }
    rewrite HN in H.
    unfold alone_event. destruct (prepf (o_red o) (o_st o) (hget h wf)) as [s1 x1] eqn:P.
    cbn [o_red o_st] in H.
    destruct (get_dict w0 colf (h_set (h ++ [hget h wf]) (List.length h) x1)
        (Obj (o_red o) s1 (Some (List.length h))) (r_active (o_red o))) as [[h2 o2] d2] eqn:G.
    assert (List.length (h_set (h ++ [hget h wf]) (List.length h) x1) = S (List.length h)) as LN.
    { rewrite h_set_length, app_length. cbn. lia. }
    apply (get_dict_spec _ _ _ (List.length h)) in G; [|reflexivity|lia].
    cbn [o_red o_st] in G. rewrite h_get_set_eq in G by (rewrite app_length; cbn; lia).
    destruct G as (s2 & x2 & G1 & G2 & G3 & G4 & G5). rewrite G1. subst o2. cbn [o_loc o_red o_st] in H.
    rewrite G3 in H. destruct (postf (o_red o) s2 x2) as [s3 x3] eqn:Q. inversion H; subst; clear H.
    cbn [o_red o_st fst]. split; [|split; [|split]]; auto.
    - intros l L. rewrite h_get_set_neq by lia. rewrite G5 by lia. rewrite h_get_set_neq by lia.
      unfold h_get. now rewrite app_nth1.
    - rewrite h_set_length. lia.
  Qed.

  Lemma chain_process_spec : forall os h wf acc h' os' d, (wf < List.length h)%nat ->
    chain_process w0 prepf colf postf h os wf acc = (h', os', d) ->
    same_below (List.length h) h h' /\ (List.length h <= List.length h')%nat /\
    map o_red os' = map o_red os /\
    map o_st os' = map (fun o => fst (alone_event prepf colf postf (o_red o) (o_st o) (hget h wf))) os /\
    d = fold_left dupdate (map (fun o => snd (alone_event prepf colf postf (o_red o) (o_st o) (hget h wf))) os) acc.
  Proof.
    induction os as [|o os IH]; intros h wf acc h' os' d LT H; cbn [chain_process] in H.
    - inversion H; subst. repeat split; auto.
    - destruct (process w0 prepf colf postf h o wf) as [[h1 o1] d1] eqn:P.
      destruct (chain_process w0 prepf colf postf h1 os wf (dupdate acc d1)) as [[h2 os2] d2] eqn:C.
      inversion H; subst; clear H.
      destruct (process_spec _ _ _ _ _ _ LT P) as (P1 & P2 & P3 & P4).
      assert (wf < List.length h1)%nat as LT1 by lia.
      destruct (IH _ _ _ _ _ _ LT1 C) as (C1 & C2 & C3 & C4 & C5).
      rewrite (P1 wf LT) in C4, C5. cbn [map fold_left]. rewrite P4. cbn [fst snd].
      repeat split; try congruence.
      + intros l L. rewrite C1 by lia. apply P1; auto.
      + lia.
  Qed.

  Lemma alone_history_length : forall r ws s,
    List.length (alone_history prepf colf postf r s ws) = List.length ws.
  Proof. induction ws; cbn; intros; auto. Qed.

  Lemma chain_events_spec : forall evs h os h' ds, (forall e, In e evs -> (e < List.length h)%nat) ->
    chain_events w0 prepf colf postf h os evs = (h', ds) ->
    same_below (List.length h) h h' /\ List.length ds = List.length evs /\
    forall i, (i < List.length evs)%nat ->
      nth i ds [] = fold_left dupdate
        (map (fun o => nth i (alone_history prepf colf postf (o_red o) (o_st o) (map (hget h) evs)) []) os) [].
  Proof.
    induction evs as [|e evs IH]; intros h os h' ds L H; cbn [chain_events] in H.
    - inversion H; subst. split; [|split]; auto; [intros l X; auto|]. intros i X. cbn in X. lia.
    - destruct (chain_process w0 prepf colf postf h os e []) as [[h1 os1] d] eqn:C.
      destruct (chain_events w0 prepf colf postf h1 os1 evs) as [h2 ds2] eqn:E.
      inversion H; subst; clear H.
      assert (e < List.length h)%nat as Le by (apply L; now left).
      destruct (chain_process_spec _ _ _ _ _ _ _ Le C) as (C1 & C2 & C3 & C4 & C5).
      destruct (IH h1 os1 h' ds2) as (E1 & E2 & E3); auto.
      { intros x I. specialize (L x (or_intror I)). lia. }
      split; [|split].
      + intros l X. rewrite E1 by lia. apply C1; auto.
      + cbn. lia.
      + intros [|i] X.
        * cbn [nth]. rewrite C5. cbn [map alone_history nth]. reflexivity.
        * cbn [nth]. rewrite E3 by (cbn in X; lia).
          assert (map (hget h1) evs = map (hget h) evs) as ->.
          { apply map_ext_in. intros x I. apply C1. apply L. now right. }
          f_equal. cbn [map alone_history nth].
          clear -C3 C4. revert os C3 C4. induction os1 as [|o1 os1 IHo]; intros [|o os] C3 C4; try discriminate; auto.
          cbn [map] in *. injection C3 as R1 C3. injection C4 as S1 C4. rewrite R1, S1. f_equal. now apply IHo.
  Qed.

  (** Columns of one reducer. *)
  Lemma alone_cols_keys : forall r cols s x, dkeys (snd (alone_cols colf r cols s x)) = cols.
  Proof.
    induction cols as [|c cols IH]; intros s x; auto. cbn [alone_cols].
    destruct (colf r c s x) as [[s1 x1] v]. specialize (IH s1 x1).
    destruct (alone_cols colf r cols s1 x1) as [[s2 x2] d]. cbn in *. congruence.
  Qed.

  Lemma alone_event_keys : forall r s x, dkeys (snd (alone_event prepf colf postf r s x)) = r_active r.
  Proof.
    intros. unfold alone_event. destruct (prepf r s x) as [s1 x1].
    pose proof (alone_cols_keys r (r_active r) s1 x1) as K.
    destruct (alone_cols colf r (r_active r) s1 x1) as [[s2 x2] d]. exact K.
  Qed.

  Lemma alone_history_keys : forall r ws s i, (i < List.length ws)%nat ->
    dkeys (nth i (alone_history prepf colf postf r s ws) []) = r_active r.
  Proof.
    induction ws as [|x ws IH]; intros s i L; [cbn in L; lia|].
    destruct i; cbn [alone_history nth]; [apply alone_event_keys|apply IH; cbn in L; lia].
  Qed.

  (** Merging dicts with disjoint keys. *)
  Lemma merge_get : forall (l : list (dict V)) acc c v,
    (forall d, In d l -> NoDup (dkeys d)) ->
    (forall i j d e, nth_error l i = Some d -> nth_error l j = Some e -> In c (dkeys d) -> In c (dkeys e) -> i = j) ->
    ~ In c (dkeys acc) ->
    (dget c (fold_left dupdate l acc) = Some v <-> exists d, In d l /\ dget c d = Some v).
  Proof.
    assert (forall (l : list (dict V)) acc c, (forall d, In d l -> ~ In c (dkeys d)) ->
       dget c (fold_left dupdate l acc) = dget c acc) as OTHER.
    { induction l as [|d l IH]; intros acc c H; auto. cbn [fold_left].
      rewrite IH by (intros; apply H; now right). apply dget_dupdate_notin.
      apply dget_None_iff. apply H. now left. }
    induction l as [|d l IH]; intros acc c v ND DJ NA; cbn [fold_left].
    - split.
      + intros H. exfalso. apply NA. eapply dget_Some_key; eauto.
      + intros (d & [] & _).
    - destruct (in_dec string_dec c (dkeys d)) as [I|I].
      + rewrite OTHER.
        2:{ intros e Ie J. apply In_nth_error in Ie. destruct Ie as [j Ej].
            specialize (DJ 0%nat (S j) d e eq_refl Ej I J). lia. }
        rewrite dget_dupdate by (apply ND; now left).
        destruct (dget c d) as [u|] eqn:E; [|apply dget_None_iff in E; contradiction].
        split.
        * intros H. inversion H; subst. exists d. split; auto. now left.
        * intros (e & [<-|Ie] & G); [congruence|]. exfalso.
          apply dget_Some_key in G. apply In_nth_error in Ie. destruct Ie as [j Ej].
          specialize (DJ 0%nat (S j) d e eq_refl Ej I G). lia.
      + rewrite IH.
        * split.
          -- intros (e & Ie & G). exists e. split; auto. now right.
          -- intros (e & [<-|Ie] & G); [|eauto]. apply dget_Some_key in G. contradiction.
        * intros e Ie. apply ND. now right.
        * intros i j e1 e2 H1 H2 J1 J2. specialize (DJ (S i) (S j) e1 e2 H1 H2 J1 J2). lia.
        * intros J. apply dget_None_iff in I. apply NA.
          destruct (dget c (dupdate acc d)) as [u|] eqn:E; [|apply dget_None_iff in E; contradiction].
          rewrite dget_dupdate_notin in E by auto. eapply dget_Some_key; eauto.
  Qed.
End P.

(** A chain that was built from class statements. *)
Section Built.
  Context {W V St : Type}.
  Variable w0 : W.
  Variable prepf : reducer -> St -> W -> St * W.
  Variable colf : reducer -> string -> St -> W -> St * W * V.
  Variable postf : reducer -> St -> W -> St * W.

  Lemma active_incl : forall cols dis kw p, In p (get_active_columns cols dis kw) -> In p cols.
  Proof. unfold get_active_columns. intros. apply filter_In in H. tauto. Qed.

  Lemma children_nodup_ids : forall f w b, NoDup (child_subclasses_n f w b).
  Proof. intros. eapply NoDup_map_inv. apply children_nodup. Qed.

  Lemma chain_output : forall x load path kwargs chain (os : list (obj (St := St))) h evs h' ds, reg_ok x ->
    chain_init (snd x) load path kwargs = Ok chain -> map o_red os = chain ->
    (forall e, In e evs -> (e < List.length h)%nat) ->
    chain_events w0 prepf colf postf h os evs = (h', ds) ->
    forall i c, (i < List.length evs)%nat ->
      (forall v, dget c (nth i ds []) = Some v <->
         exists o, In o os /\ In c (r_active (o_red o)) /\
           dget c (nth i (alone_history prepf colf postf (o_red o) (o_st o) (map (h_get w0 h) evs)) []) = Some v) /\
      (In c (dkeys (nth i ds [])) <-> exists r, In r chain /\ In c (r_active r)).
  Proof.
    intros x load path kwargs chain os h evs h' ds RO HC HM HL HE i c Hi.
    destruct (chain_events_spec w0 prepf colf postf _ _ _ _ _ HL HE) as (_ & _ & HD).
    unfold chain_init, build_chain in HC.
    destruct (dmem "n_pixels" _ || dmem "n_samples" _); [discriminate|].
    apply build_loop_ok in HC.
    set (rs := filter _ _) in HC.
    assert (forall a o, nth_error os a = Some o -> exists r, nth_error rs a = Some r /\
        o_red o = Red r (get_active_columns (c_cols (cls_at (snd x) r)) true (chain_config load path kwargs))
                      (chain_config load path kwargs)) as OR.
    { intros a o E. assert (nth_error (map o_red os) a = Some (o_red o)) as E2 by (rewrite nth_error_map, E; auto).
      rewrite HM, HC, nth_error_map in E2. destruct (nth_error rs a) as [r|]; [|discriminate].
      exists r. split; auto. cbn in E2. congruence. }
    assert (NoDup rs) as NR.
    { unfold rs. apply NoDup_filter'. apply children_nodup_ids. }
    assert (forall a b o1 o2, nth_error os a = Some o1 -> nth_error os b = Some o2 ->
       In c (r_active (o_red o1)) -> In c (r_active (o_red o2)) -> a = b) as DJ.
    { intros a b o1 o2 E1 E2 I1 I2. destruct (OR _ _ E1) as (r1 & N1 & Q1). destruct (OR _ _ E2) as (r2 & N2 & Q2).
      rewrite Q1 in I1. rewrite Q2 in I2. cbn in I1, I2. apply active_incl in I1, I2.
      assert (r1 = r2).
      { apply nth_error_In in N1 as M1. apply nth_error_In in N2 as M2. unfold rs in M1, M2.
        apply filter_In in M1, M2. apply (columns_disjoint x 0 r1 r2 c RO); tauto. }
      subst r2. eapply NoDup_nth_error; [exact NR| |congruence]. apply nth_error_Some. congruence. }
    assert (forall v, dget c (nth i ds []) = Some v <->
         exists o, In o os /\ In c (r_active (o_red o)) /\
           dget c (nth i (alone_history prepf colf postf (o_red o) (o_st o) (map (h_get w0 h) evs)) []) = Some v) as MAIN.
    { intros v. rewrite (HD i Hi). rewrite merge_get.
      - split.
        + intros (d & I & G). apply in_map_iff in I. destruct I as (o & <- & I). exists o. split; auto. split; auto.
          apply dget_Some_key in G. rewrite alone_history_keys in G by (rewrite map_length; auto). exact G.
        + intros (o & I & _ & G). eexists. split; [|exact G].
          apply (in_map (fun o => nth i (alone_history prepf colf postf (o_red o) (o_st o) (map (h_get w0 h) evs)) [])).
          exact I.
      - intros d I. apply in_map_iff in I. destruct I as (o & <- & I).
        rewrite alone_history_keys by (rewrite map_length; auto).
        apply In_nth_error in I. destruct I as [a E]. destruct (OR a o E) as (r & Nr & ->). cbn.
        unfold get_active_columns. apply NoDup_filter'. destruct x as [reg w]. cbn [snd] in *.
        destruct RO as (_ & _ & R3 & R4). apply R3. apply nth_error_In in Nr. unfold rs in Nr. apply filter_In in Nr.
        destruct Nr as [Nr _]. apply children_sound in Nr. eapply desc_bound. apply Nr.
      - intros a b d1 d2 E1 E2 I1 I2. rewrite nth_error_map in E1, E2.
        destruct (nth_error os a) as [o1|] eqn:O1; [|discriminate].
        destruct (nth_error os b) as [o2|] eqn:O2; [|discriminate].
        cbn in E1, E2. inversion E1; inversion E2; subst; clear E1 E2.
        rewrite alone_history_keys in I1, I2 by (rewrite map_length; auto).
        eapply DJ; eauto.
      - intros []. }
    split; auto. split.
    - intros I. destruct (dget c (nth i ds [])) as [v|] eqn:G; [|apply dget_None_iff in G; contradiction].
      destruct (proj1 (MAIN v) eq_refl) as (o & Io & Ic & _). exists (o_red o). split; auto.
      rewrite <- HM. now apply in_map.
    - intros (r & Ir & Ic). rewrite <- HM in Ir. apply in_map_iff in Ir. destruct Ir as (o & <- & Io).
      set (dd := nth i (alone_history prepf colf postf (o_red o) (o_st o) (map (h_get w0 h) evs)) []).
      assert (In c (dkeys dd)) as K.
      { unfold dd. rewrite alone_history_keys by (rewrite map_length; auto). exact Ic. }
      destruct (dget c dd) as [v|] eqn:G; [|apply dget_None_iff in G; contradiction].
      eapply dget_Some_key. apply MAIN. exists o. split; auto. split; eauto.
  Qed.
End Built.

(** ** Text of the generated configuration *)
Lemma lines_acc_app : forall l s acc, one_line l ->
  lines_acc (l ++ String newline s)%string acc = (acc ++ l)%string :: lines_acc s "".
Proof.
  induction l as [|c l IH]; intros s acc H.
  - cbn [append lines_acc]. rewrite Ascii.eqb_refl. now rewrite append_nil_r.
  - cbn [append lines_acc]. destruct (Ascii.eqb_spec c newline) as [->|N].
    + exfalso. apply H. exists "", l. reflexivity.
    + rewrite IH.
      * rewrite append_assoc. reflexivity.
      * intros (a & b & E). apply H. exists (String c a), b. cbn. congruence.
Qed.

Definition block (ls : list string) : string := concat_str (map (fun l => l ++ nl)%string ls).

Lemma concat_str_app : forall a b, concat_str (a ++ b) = (concat_str a ++ concat_str b)%string.
Proof. induction a; intros; cbn [app concat_str fold_right append]; auto. unfold concat_str in *. now rewrite IHa, append_assoc. Qed.

Lemma block_app : forall a b, block (a ++ b) = (block a ++ block b)%string.
Proof. intros. unfold block. now rewrite map_app, concat_str_app. Qed.

Lemma block1 : forall l, block [l] = (l ++ nl)%string.
Proof. intros. unfold block. cbn [map concat_str fold_right]. apply append_nil_r. Qed.

Lemma lines_block : forall ls, (forall l, In l ls -> one_line l) -> lines (block ls) = ls ++ [""].
Proof.
  unfold lines, block. induction ls as [|l ls IH]; intros H; auto.
  cbn [map concat_str fold_right]. rewrite append_assoc. unfold nl at 1. cbn [append].
  rewrite lines_acc_app by (apply H; now left). cbn [append app]. f_equal. apply IH. intros. apply H. now right.
Qed.

(** Segments between the matches of the regular expression. *)
Fixpoint segs (s : string) (sk : bool) : string * list string :=
  match s with
  | EmptyString => ("", [])
  | String c t =>
      if sk && is_space c then segs t true
      else if Ascii.eqb c newline then let '(t0, ts) := segs t true in ("", t0 :: ts)
      else let '(t0, ts) := segs t false in (String c t0, ts)
  end.

Lemma re_sub_segs : forall rep s sk,
  re_sub rep s sk = (fst (segs s sk) ++ concat_str (map (append rep) (snd (segs s sk))))%string.
Proof.
  induction s as [|c s IH]; intros sk; auto. cbn [re_sub segs].
  destruct (sk && is_space c); auto.
  destruct (Ascii.eqb c newline).
  - rewrite (IH true). destruct (segs s true) as [t0 ts]. cbn [fst snd map concat_str fold_right append].
    now rewrite append_assoc.
  - rewrite (IH false). destruct (segs s false) as [t0 ts]. reflexivity.
Qed.

Lemma one_line_cons : forall c s, c <> newline -> one_line s -> one_line (String c s).
Proof.
  intros c s N H (a & b & E). destruct a as [|d a]; cbn in E; inversion E; subst; [congruence|].
  apply H. eauto.
Qed.
Lemma one_line_nil : one_line "".
Proof. intros (a & b & E). destruct a; discriminate. Qed.
Lemma one_line_app : forall a b, one_line a -> one_line b -> one_line (a ++ b)%string.
Proof.
  intros a b Ha Hb H. apply in_string_app in H. destruct H; contradiction.
Qed.

Lemma segs_one_line : forall s sk, one_line (fst (segs s sk)) /\ (forall t, In t (snd (segs s sk)) -> one_line t).
Proof.
  induction s as [|c s IH]; intros sk; cbn [segs].
  - split; [apply one_line_nil|intros t []].
  - destruct (sk && is_space c); auto.
    destruct (Ascii.eqb_spec c newline) as [E|N].
    + destruct (IH true) as [H1 H2]. destruct (segs s true) as [t0 ts]. cbn [fst snd] in *.
      split; [apply one_line_nil|]. intros t [<-|I]; auto.
    + destruct (IH false) as [H1 H2]. destruct (segs s false) as [t0 ts]. cbn [fst snd] in *. split; auto.
      now apply one_line_cons.
Qed.

Lemma segs_space : forall ws, all_space ws -> segs ws true = ("", []).
Proof. induction ws as [|c ws IH]; intros H; auto. destruct H as [H1 H2]. cbn [segs]. rewrite H1. cbn. auto. Qed.

Lemma segs_end : forall a ws sk, all_space ws ->
  last (fst (segs (a ++ nl ++ ws) sk) :: snd (segs (a ++ nl ++ ws) sk)) "" = "" /\
  (sk = false -> snd (segs (a ++ nl ++ ws) sk) <> []).
Proof.
  induction a as [|c a IH]; intros ws sk H.
  - cbn [append nl segs]. change (is_space newline) with true. rewrite andb_true_r.
    rewrite Ascii.eqb_refl, (segs_space ws H).
    destruct sk; cbn; split; auto; discriminate.
  - cbn [append segs]. destruct (sk && is_space c) eqn:SK.
    + destruct sk; [|discriminate]. exact (IH ws true H).
    + destruct (Ascii.eqb c newline).
      * destruct (IH ws true H) as [I1 I2]. destruct (segs (a ++ nl ++ ws) true) as [t0 ts]. cbn [fst snd] in *.
        split; [|discriminate]. exact I1.
      * destruct (IH ws false H) as [I1 I2]. destruct (segs (a ++ nl ++ ws) false) as [t0 ts]. cbn [fst snd] in *.
        specialize (I2 eq_refl). split; auto. destruct ts as [|t ts]; [congruence|]. exact I1.
Qed.

Lemma rstrip_end : forall a sp, all_space sp -> rstrip (a ++ "#" ++ sp) = (a ++ "#")%string.
Proof.
  induction a as [|c a IH]; intros sp H.
  - cbn [append rstrip]. change (is_space "#") with false. cbn [andb].
    assert (rstrip sp = "") as ->; auto.
    induction sp as [|c sp IHsp]; auto. destruct H as [H1 H2]. cbn [rstrip].
    rewrite (IHsp H2), H1. reflexivity.
  - cbn [append rstrip]. specialize (IH sp H). cbn [append] in IH. rewrite IH.
    destruct (is_space c); auto. cbn [andb].
    destruct (eqb_spec (a ++ "#") "") as [E|_]; auto. destruct a; discriminate.
Qed.

Lemma drop_last_end : forall a c, drop_last (a ++ String c "")%string = a.
Proof.
  induction a as [|d a IH]; intros c; auto. cbn [append drop_last].
  destruct (a ++ String c "")%string eqn:E; [destruct a; discriminate|]. rewrite <- E. now rewrite IH.
Qed.

Lemma concat_rep : forall tag ts t,
  concat_str (map (append (nl ++ tag)) (ts ++ [t])) =
  (nl ++ block (map (append tag) ts) ++ tag ++ t)%string.
Proof.
  intros tag. induction ts as [|x ts IH]; intros t.
  - cbn [app map concat_str fold_right block append]. rewrite append_nil_r. reflexivity.
  - cbn [app map]. unfold concat_str at 1. cbn [fold_right]. fold (concat_str (map (append (nl ++ tag)) (ts ++ [t]))).
    rewrite IH. unfold block. cbn [map concat_str fold_right]. rewrite !append_assoc. reflexivity.
Qed.

Lemma comment_doc_block : forall sp doc, all_space sp -> one_line sp -> good_doc doc ->
  exists ls, comment_doc (nl ++ "#" ++ sp) doc = block ls /\
    (forall l, In l ls -> one_line l /\ significant l = false).
Proof.
  intros sp doc HS HO ((b & ED) & (a & ws & EE & HW)).
  unfold comment_doc. rewrite re_sub_segs.
  destruct (segs_end a ws false HW) as [L1 L2]. rewrite <- EE in L1, L2. specialize (L2 eq_refl).
  destruct (segs_one_line doc false) as [O1 O2].
  assert (fst (segs doc false) = "") as F0.
  { rewrite ED. cbn [append nl segs]. rewrite andb_false_l, Ascii.eqb_refl. destruct (segs b true); reflexivity. }
  rewrite F0 in *. destruct (segs doc false) as [t0 ts0]. cbn [fst snd] in *.
  destruct (exists_last L2) as (ts & t & ->).
  assert (t = "") as ->.
  { rewrite <- (last_last ts t "") . rewrite <- L1 at 2. destruct ts; reflexivity. }
  cbn [append]. rewrite concat_rep. rewrite append_nil_r.
  exists (map (append ("#" ++ sp)) ts). split.
  - transitivity (drop_last (rstrip (lstrip (block (map (append ("#" ++ sp)) ts) ++ "#" ++ sp)))); [reflexivity|].
    assert (lstrip (block (map (append ("#" ++ sp)) ts) ++ "#" ++ sp) =
            (block (map (append ("#" ++ sp)) ts) ++ "#" ++ sp)%string) as X.
    { destruct ts as [|x ts]; reflexivity. }
    rewrite X. rewrite rstrip_end by auto. apply drop_last_end.
  - intros l I. apply in_map_iff in I. destruct I as (x & <- & I). split; [|reflexivity].
    apply one_line_app; [|apply O2; apply in_or_app; now left].
    apply one_line_cons; [discriminate|auto].
Qed.

Lemma opt_doc_block : forall sp doc bare, all_space sp -> one_line sp -> good_opt_doc doc ->
  exists ls, opt_doc (nl ++ "#" ++ sp) doc bare = block ls /\
    (forall l, In l ls -> one_line l /\ significant l = false).
Proof.
  intros sp [d|] bare HS HO HG; cbn [opt_doc].
  - destruct (String.eqb d "" || bare); [exists []; split; auto; intros l []|].
    apply comment_doc_block; auto.
  - exists []. split; auto. intros l [].
Qed.

Definition col_line (default : dict val) (c : string) : string :=
  (c ++ ": " ++ str_val (dgetd (VBool true) c default))%string.

Lemma filter_insig : forall ls, (forall l, In l ls -> one_line l /\ significant l = false) ->
  filter significant ls = [].
Proof.
  induction ls as [|l ls IH]; intros H; auto. cbn [filter].
  destruct (H l (or_introl eq_refl)) as [_ ->]. apply IH. intros. apply H. now right.
Qed.

Lemma str_val_line : forall v, one_line (str_val v).
Proof.
  destruct v; try apply one_line_nil. destruct b; cbn;
  repeat (apply one_line_cons; [discriminate|]); apply one_line_nil.
Qed.

Lemma config_text_block : forall default bare rs,
  (forall r, In r rs -> one_line (rd_name r) /\ good_opt_doc (rd_doc r) /\
     forall c, In c (rd_cols r) -> col_name_ok (fst c) /\ good_opt_doc (snd c)) ->
  exists ls, config_text default bare rs = block ls /\ (forall l, In l ls -> one_line l) /\
    filter significant ls = map (col_line default) (flat_map (fun r => map fst (rd_cols r)) rs).
Proof.
  intros default bare. induction rs as [|r rs IH]; intros H.
  - exists []. split; auto. split; auto. intros l [].
  - destruct IH as (ls & E1 & E2 & E3); [intros; apply H; now right|].
    destruct (H r (or_introl eq_refl)) as (H1 & H2 & H3).
    destruct (opt_doc_block "  " (rd_doc r) bare ltac:(cbn; auto)
               ltac:(repeat (apply one_line_cons; [discriminate|]); apply one_line_nil) H2) as (dl & D1 & D2).
    assert (exists cl, concat_str (map (col_text default bare) (rd_cols r)) = block cl /\
      (forall l, In l cl -> one_line l) /\
      filter significant cl = map (col_line default) (map fst (rd_cols r))) as (cl & C1 & C2 & C3).
    { clear -H3. induction (rd_cols r) as [|c cs IHc].
      - exists []. split; auto. split; auto. intros l [].
      - destruct IHc as (cl & C1 & C2 & C3); [intros; apply H3; now right|].
        destruct (H3 c (or_introl eq_refl)) as ((N1 & N2) & G).
        destruct (opt_doc_block "    " (snd c) bare ltac:(cbn; auto)
               ltac:(repeat (apply one_line_cons; [discriminate|]); apply one_line_nil) G) as (dl & D1 & D2).
        exists (col_line default (fst c) :: dl ++ cl). split; [|split].
        + cbn [map]. unfold concat_str. cbn [fold_right]. fold (concat_str (map (col_text default bare) cs)).
          rewrite C1. unfold col_text. change (nl ++ "#    ")%string with (nl ++ "#" ++ "    ")%string. rewrite D1.
          change (col_line default (fst c) :: dl ++ cl) with ([col_line default (fst c)] ++ dl ++ cl).
          rewrite !block_app. unfold block at 3. cbn [map concat_str fold_right]. unfold col_line.
          rewrite append_nil_r, !append_assoc. reflexivity.
        + intros l [<-|I].
          * unfold col_line. apply one_line_app; auto. apply one_line_cons; [discriminate|].
            apply one_line_cons; [discriminate|]. apply str_val_line.
          * apply in_app_or in I. destruct I as [I|I]; auto. now apply D2.
        + cbn [filter]. assert (significant (col_line default (fst c)) = true) as ->.
          { unfold col_line. destruct (fst c) as [|ch s]; [discriminate|]. exact N2. }
          cbn [map]. rewrite filter_app, C3, (filter_insig dl D2). reflexivity. }
    exists (("# " ++ rd_name r)%string :: dl ++ cl ++ [""] ++ ls). split; [|split].
    + unfold config_text. cbn [map]. unfold concat_str. cbn [fold_right].
      fold (concat_str (map (reducer_text default bare) rs)). fold (config_text default bare rs). rewrite E1.
      unfold reducer_text. change (nl ++ "#  ")%string with (nl ++ "#" ++ "  ")%string. rewrite D1, C1.
      change (("# " ++ rd_name r)%string :: dl ++ cl ++ [""] ++ ls) with ([("# " ++ rd_name r)%string] ++ dl ++ cl ++ [""] ++ ls).
      rewrite !block_app, !block1, !append_assoc. reflexivity.
    + intros l [<-|I].
      * repeat (apply one_line_cons; [discriminate|]). auto.
      * apply in_app_or in I. destruct I as [I|I]; [now apply D2|].
        apply in_app_or in I. destruct I as [I|I]; auto.
        apply in_app_or in I. destruct I as [[<-|[]]|I]; auto. apply one_line_nil.
    + cbn [filter]. change (significant ("# " ++ rd_name r)) with false. cbn iota.
      rewrite !filter_app, C3, (filter_insig dl D2), E3. cbn [filter significant app flat_map].
      now rewrite map_app.
Qed.

Lemma c22_lines : forall default bare rs,
  (forall r, In r rs -> one_line (rd_name r) /\ good_opt_doc (rd_doc r) /\
     forall c, In c (rd_cols r) -> col_name_ok (fst c) /\ good_opt_doc (snd c)) ->
  filter significant (lines (config_text default bare rs)) =
  map (fun c => c ++ ": " ++ str_val (dgetd (VBool true) c default))%string (flat_map (fun r => map fst (rd_cols r)) rs).
Proof.
  intros default bare rs H. destruct (config_text_block default bare rs H) as (ls & E1 & E2 & E3).
  rewrite E1, lines_block by auto. rewrite filter_app, E3. cbn [filter significant]. apply app_nil_r.
Qed.

(** ** Equivalence with the defaults *)
Lemma generated_get : forall default cols c,
  dget c (generated_config default cols) = if in_dec string_dec c cols then Some (dgetd (VBool true) c default) else None.
Proof.
  intros default cols c. unfold generated_config. induction cols as [|x cols IH]; auto.
  cbn [map dget]. destruct (eqb_spec c x) as [->|N].
  - destruct (in_dec string_dec x (x :: cols)); auto. exfalso. apply n. now left.
  - rewrite IH. destruct (in_dec string_dec c cols), (in_dec string_dec c (x :: cols)); auto.
    + exfalso. apply n. now right.
    + destruct i; [congruence|contradiction].
Qed.

Lemma filter_eq_iff : forall A (f g : A -> bool) l,
  filter f l = filter g l <-> forall x, In x l -> f x = g x.
Proof.
  intros A f g l. split.
  - intros E x I. assert (In x (filter f l) <-> In x (filter g l)) as H by now rewrite E.
    rewrite !filter_In in H. destruct (f x), (g x); intuition.
  - intros H. now apply filter_ext_in.
Qed.

Lemma c22_equiv : forall load path cols, path <> ""%string ->
  NoDup cols -> load path = Some (generated_config default_columns cols) ->
  (get_active_columns cols true (chain_config load (Some path) []) =
   get_active_columns cols true (chain_config load None []) <->
   forall c, In c cols -> In c (dkeys default_columns)).
Proof.
  intros load path cols NP ND HL.
  assert (file_of load (Some path) = Some (generated_config default_columns cols)) as HF.
  { unfold file_of. rewrite eqb_neq by auto. now rewrite HL. }
  rewrite !active_switched.
  - rewrite HF. cbn [file_of]. rewrite filter_eq_iff. unfold switched_on. cbn [dget]. split.
    + intros H c I. specialize (H c I). rewrite <- default_on, generated_get in H.
      destruct (in_dec string_dec c cols); [|contradiction]. unfold dgetd in H.
      destruct (dget c default_columns) as [v|] eqn:E; [eapply dget_Some_key; eauto|discriminate].
    + intros H c I. rewrite <- default_on, generated_get. destruct (in_dec string_dec c cols); [|contradiction]. unfold dgetd.
      destruct (dget c default_columns) as [v|] eqn:E; auto. apply dget_None_iff in E. exfalso. apply E. auto.
  - constructor.
  - intros d E. discriminate.
  - constructor.
  - intros d E. rewrite HF in E. inversion E; subst. unfold dict_ok, generated_config, dkeys. rewrite map_map.
    cbn [fst]. now rewrite map_id.
Qed.
