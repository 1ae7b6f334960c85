(** Lemmas about crashes, reserved names, HDF5Appender and chunked reading. *)
From Coq Require Import List ZArith String Bool Permutation Lia.
From Verif.Base Require Import Py PyFacts.
From Verif.Hdf5 Require Import Model Spec Proofs Proofs2.
Import ListNotations.
Local Open Scope string_scope.
Local Open Scope list_scope.
Local Open Scope Z_scope.

(** ** Stopping early *)
Section Crash.
  Context {A : Type}.
  Variable mem : list A -> Z.
  Variable prep : list A -> list A.

  Lemma reserved_spec : forall name, smem name ["info"; "mapping"] = true <-> name = "info" \/ name = "mapping".
  Proof.
    intros. rewrite smem_In. simpl. intuition.
  Qed.

  Lemma run_names_ok : forall (ops : list (op A)) w w',
    w_run mem prep ops w = (w', None) -> names_ok ops.
  Proof.
    induction ops as [|o ops IH]; intros w w' H; cbn [w_run] in H.
    - intros k n kw [].
    - destruct (w_step mem prep w o) as [w1 [e|]] eqn:E; [discriminate|].
      intros k n kw [->|I].
      + simpl in E. unfold w_add_metadata in E.
        destruct (smem n ["info"; "mapping"]) eqn:R; [discriminate|].
        split; intros ->; discriminate.
      + eapply IH; eauto.
  Qed.

  (** A run that raises: the failing call and the state before it. *)
  Lemma run_raises : forall (ops done : list (op A)) w w' e,
    Inv mem prep [] done w -> no_mix (done ++ ops) -> kwargs_ok (done ++ ops) ->
    w_run mem prep ops w = (w', Some e) ->
    exists pre key name kw post, ops = pre ++ AddMeta key name kw :: post /\
      (name = "info" \/ name = "mapping") /\ e = ValueError /\
      w_run mem prep pre w = (w', None).
  Proof.
    induction ops as [|o ops IH]; intros done w w' e HI HM HK H; [discriminate|].
    assert (no_mix (done ++ [o])) as HM1.
    { apply no_mix_app_l with (o2 := ops). now rewrite <- app_assoc. }
    assert (kwargs_ok (done ++ [o])) as HK1.
    { apply kwargs_ok_app_l with (o2 := ops). now rewrite <- app_assoc. }
    assert ((exists key name kw, o = AddMeta key name kw /\ (name = "info" \/ name = "mapping")) \/
            names_ok [o]) as [(key & name & kw & -> & R)|N].
    { destruct o as [k df|kvs|k n kw|df md]; try (right; intros a b c [X|[]]; discriminate).
      destruct (smem n ["info"; "mapping"]) eqn:R.
      - left. apply reserved_spec in R. eauto 6.
      - right. intros a b c [X|[]]. inversion X; subst. split; intros ->; discriminate. }
    - exists [], key, name, kw, ops. cbn [w_run w_step] in H. unfold w_add_metadata in H.
      apply reserved_spec in R as R2. rewrite R2 in H. inversion H; subst. auto.
    - assert (exists w1, w_step mem prep w o = (w1, None) /\ Inv mem prep [] (done ++ [o]) w1) as (w1 & S1 & S2).
      { destruct o as [k df|kvs|k n kw|df md].
        - apply step_append; auto. intros n E; discriminate.
        - apply step_write; auto. destruct HK1 as [_ HK1]. apply HK1. apply in_app_iff. right. now left.
        - destruct (N k n kw); [now left|]. apply step_addmeta; auto.
          destruct HK1 as [HK1 _]. eapply HK1. apply in_app_iff. right. left. reflexivity.
        - apply step_addmap; auto. }
      cbn [w_run] in H. rewrite S1 in H.
      destruct (IH (done ++ [o]) w1 w' e) as (pre & key & name & kw & post & -> & R & -> & P); auto.
      { now rewrite <- app_assoc. }
      { now rewrite <- app_assoc. }
      exists (o :: pre), key, name, kw, post. repeat split; auto.
      cbn [w_run]. now rewrite S1.
  Qed.

  (** Where a with-body stopped: everything before that point was executed. *)
  Lemma run_stops : forall (ops : list (op A)) w e,
    no_mix ops -> kwargs_ok ops ->
    w_run mem prep ops w_init = (w, e) ->
    exists pre post, ops = pre ++ post /\ w_run mem prep pre w_init = (w, None) /\
      match e with
      | None => post = []
      | Some x => x = ValueError /\ exists key name kw post', post = AddMeta key name kw :: post' /\
                    (name = "info" \/ name = "mapping")
      end.
  Proof.
    intros ops w [e|] HM HK H.
    - destruct (run_raises ops [] w_init w e) as (pre & key & name & kw & post & -> & R & -> & P); auto.
      { apply Inv_init. constructor. }
      exists pre, (AddMeta key name kw :: post). repeat split; auto.
      exists key, name, kw, post. auto.
    - exists ops, []. rewrite app_nil_r. auto.
  Qed.

  (** Disk and buffer at any moment. *)
  Lemma run_state : forall (ops : list (op A)) w,
    no_mix ops -> kwargs_ok ops -> prep [] = [] ->
    w_run mem prep ops w_init = (w, None) ->
    forall k, by_append k ops ->
      exists chunks,
        List.concat chunks ++ List.concat (dgetd [] k (w_buf w)) = appended k ops /\
        (match dget k (w_store w) with Some n => n_rows n | None => [] end) = List.concat (map prep chunks) /\
        dgetd 0 k (w_nb w) = sum (map (fun c => mem (prep c)) chunks) /\
        sum (map mem (dgetd [] k (w_buf w))) < flush_limit.
  Proof.
    intros ops w HM HK HP HR k B.
    pose proof (run_names_ok _ _ _ HR) as HN.
    pose proof (the_inv mem prep ops w HM HN HK HR) as HI.
    destruct (HM k B) as [B1 B2].
    destruct (i_app _ _ _ _ _ HI k B1 B2) as (c & C1 & C2 & C3).
    exists c. split; [exact C1|]. split; [|split].
    - unfold nd in C2. rewrite C2. unfold tbl, stored. simpl. destruct (List.concat (map prep c)); auto.
    - exact C3.
    - destruct (i_bufb _ _ _ _ _ HI k) as [E L]. unfold buf in E. rewrite <- E. exact L.
  Qed.

  (** finish() of any reachable writer succeeds and keeps all rows appended so far. *)
  Lemma finish_rows : forall (ops : list (op A)) w order,
    no_mix ops -> kwargs_ok ops -> prep [] = [] ->
    w_run mem prep ops w_init = (w, None) -> Permutation order (w_keys w) ->
    exists f, w_finish mem prep order w = Ok f /\
      forall k, by_append k ops -> exists chunks,
        List.concat chunks = appended k ops /\ st_get k f = Ok (List.concat (map prep chunks)).
  Proof.
    intros ops w order HM HK HP HR P.
    pose proof (run_names_ok _ _ _ HR) as HN.
    pose proof (the_inv mem prep ops w HM HN HK HR) as HI.
    destruct (finish_file mem prep [] ops order w) as (w' & F1 & _); auto.
    { intros k _ n E. discriminate. }
    assert (exists f, w_finish mem prep order w = Ok f) as [f HF].
    { unfold w_finish. rewrite F1. cbn [bind]. eauto. }
    exists f. split; auto. intros k B.
    destruct (file_node mem prep ops w order f HP HM HN HK HR P HF) as (w2 & t & _ & _ & FA & _).
    destruct (FA k B) as (c & C1 & _ & n & C2 & C3 & _).
    exists c. split; auto. unfold st_get. rewrite C2. f_equal. exact C3.
  Qed.

  (** ** Reserved names *)
  Lemma catch_filter : forall (ops : list (op A)) w,
    w_run_catch mem prep ops w =
    w_run_catch mem prep (filter (fun o => negb (reserved_call o)) ops) w.
  Proof.
    unfold w_run_catch. induction ops as [|o ops IH]; intros w; auto.
    cbn [filter fold_left]. destruct (reserved_call o) eqn:R; cbn [negb fold_left].
    - rewrite <- IH. f_equal. destruct o; try discriminate. cbn [reserved_call] in R.
      cbn [w_step]. unfold w_add_metadata. now rewrite R.
    - apply IH.
  Qed.
End Crash.

(** ** HDF5Appender *)
Definition deep_wf (m : dict (dict (dict val))) : Prop :=
  forall k n d, mview k n m = Some d -> NoDup (dkeys d).

Lemma deep_wf_update : forall k n kw m, deep_wf m -> deep_wf (meta_update k n kw m).
Proof.
  intros k n kw m H k1 n1 d. rewrite mview_update.
  destruct (String.eqb k1 k && String.eqb n1 n).
  - intros X; inversion X; subst. apply NoDup_dupdate.
    destruct (mview k1 n1 m) eqn:E; [eapply H; eauto|constructor].
  - apply H.
Qed.

Section AppSt.
  Context {A : Type}.

  Definition amerge (a sub : dict (dict val)) : dict (dict val) :=
    fold_left (fun a nd => dset (fst nd)
                 (match dget (fst nd) a with Some old => dupdate old (snd nd) | None => snd nd end) a) sub a.

  Lemma dget_amerge : forall sub a nm, NoDup (dkeys sub) ->
    dget nm (amerge a sub) =
    match dget nm sub with
    | None => dget nm a
    | Some d => Some (match dget nm a with Some old => dupdate old d | None => d end)
    end.
  Proof.
    unfold amerge. induction sub as [|[n d] sub IH]; intros a nm N; auto.
    cbn [dkeys map fst] in N. inversion N as [|x l N1 N2]; subst.
    cbn [fold_left fst snd]. rewrite IH by auto. cbn [dget].
    rewrite dget_dset. destruct (String.eqb_spec nm n); auto. subst.
    replace (dget n sub) with (@None (dict val)); auto.
    symmetry. now apply dget_None_iff.
  Qed.

  Lemma dget_a_setattr : forall k nd (s : store A) k0,
    dget k0 (a_setattr k s nd) =
    if String.eqb k0 k then
      match dget k s with
      | None => None
      | Some n => Some (Node (n_fmt n) (n_rows n) (amerge (n_attrs n) [nd]))
      end
    else dget k0 s.
  Proof.
    intros. unfold a_setattr. destruct (dget k s) as [n|] eqn:E.
    - rewrite dget_setattr. rewrite E. destruct (String.eqb k0 k); auto.
    - destruct (String.eqb_spec k0 k); subst; auto.
  Qed.

  Lemma dget_fold_a_setattr : forall sub k (s : store A) k0,
    dget k0 (fold_left (a_setattr k) sub s) =
    if String.eqb k0 k then
      match dget k s with
      | None => None
      | Some n => Some (Node (n_fmt n) (n_rows n) (amerge (n_attrs n) sub))
      end
    else dget k0 s.
  Proof.
    induction sub as [|nd sub IH]; intros; cbn [fold_left].
    - destruct (String.eqb_spec k0 k); subst; auto. destruct (dget k s) as [[]|]; auto.
    - rewrite IH. rewrite !dget_a_setattr. rewrite eqb_refl.
      destruct (String.eqb_spec k0 k); auto. destruct (dget k s); auto.
  Qed.

  Lemma dget_a_save_key : forall k sub (s : store A) k0,
    dget k0 (a_save_key s (k, sub)) =
    if String.eqb k0 k then
      let nd := base_node (dget k s) in
      Some (Node (n_fmt nd) (n_rows nd) (amerge (n_attrs nd) sub))
    else dget k0 s.
  Proof.
    intros. unfold a_save_key. cbn [fst snd]. rewrite dget_fold_a_setattr.
    unfold dmem. destruct (String.eqb_spec k0 k).
    - destruct (dget k s) eqn:E; cbn [base_node].
      + now rewrite E.
      + unfold st_put. rewrite dget_dset_eq. reflexivity.
    - destruct (dget k s) eqn:E; auto. unfold st_put. now apply dget_dset_neq.
  Qed.

  Lemma NoDup_a_setattr : forall k (s : store A) nd, NoDup (dkeys s) -> NoDup (dkeys (a_setattr k s nd)).
  Proof.
    intros. unfold a_setattr. destruct (dget k s); auto. now apply NoDup_setattr.
  Qed.

  Lemma NoDup_a_save : forall m (s : store A), NoDup (dkeys s) -> NoDup (dkeys (a_save_metadata m s)).
  Proof.
    unfold a_save_metadata. induction m as [|[k sub] m IH]; cbn [fold_left]; auto. intros s H. apply IH.
    unfold a_save_key. cbn [fst snd].
    assert (forall sub (s1 : store A), NoDup (dkeys s1) -> NoDup (dkeys (fold_left (a_setattr k) sub s1))) as X.
    { induction sub0; cbn [fold_left]; auto. intros. apply IHsub0. now apply NoDup_a_setattr. }
    apply X. destruct (dmem k s); auto. now apply NoDup_dset.
  Qed.

  Lemma dget_a_save : forall m (s : store A) k, NoDup (dkeys m) ->
    dget k (a_save_metadata m s) =
    match dget k m with
    | None => dget k s
    | Some sub =>
        let nd := base_node (dget k s) in
        Some (Node (n_fmt nd) (n_rows nd) (amerge (n_attrs nd) sub))
    end.
  Proof.
    unfold a_save_metadata. induction m as [|[k' sub'] m IH]; intros s k N; auto.
    cbn [dkeys map fst] in N. inversion N; subst. cbn [fold_left]. rewrite IH by auto.
    rewrite !dget_a_save_key. cbn [dget].
    destruct (String.eqb_spec k k').
    - subst. replace (dget k' m) with (@None (dict (dict val))); auto.
      symmetry. now apply dget_None_iff.
    - destruct (dget k m); auto.
  Qed.

End AppSt.

Section App.
  Context {A : Type}.
  Variable mem : list A -> Z.
  Variable prep : list A -> list A.
  Hypothesis prep_nil : prep [] = [].

  Lemma step_deep : forall w o, deep_wf (w_meta (A:=A) w) -> deep_wf (w_meta (fst (w_step mem prep w o))).
  Proof.
    intros w [k df|kvs|k n kw|df md] H; simpl; auto.
    - unfold w_append.
      destruct (flush_limit <=? _); [|exact H].
      unfold w_flush. cbn [w_buf w_meta w_store w_keys w_nb].
      match goal with |- context[match ?x with [] => _ | _ => _ end] => destruct x eqn:E end; [exact H|].
      match goal with |- context[st_append ?a ?b ?c] => destruct (st_append a b c) end; exact H.
    - unfold w_write. revert w H. induction kvs as [|kv kvs IH]; intros w H; cbn [fold_left]; auto.
    - unfold w_add_metadata. destruct (smem n ["info"; "mapping"]); simpl; auto. now apply deep_wf_update.
  Qed.

  Lemma run_deep : forall ops w w' e, deep_wf (w_meta (A:=A) w) ->
    w_run mem prep ops w = (w', e) -> deep_wf (w_meta w').
  Proof.
    induction ops as [|o ops IH]; intros w w' e H R; cbn [w_run] in R.
    - inversion R; subst; auto.
    - pose proof (step_deep w o H) as X. destruct (w_step mem prep w o) as [w1 [x|]]; simpl in X.
      + inversion R; subst; auto.
      + eapply IH; eauto.
  Qed.

  Lemma finish_deep : forall order w t w' t', deep_wf (w_meta (A:=A) w) ->
    foldM (finish_key mem prep) order (w, t) = Ok (w', t') -> deep_wf (w_meta w').
  Proof.
    induction order as [|k order IH]; intros w t w' t' H R; cbn [foldM] in R.
    - inversion R; subst; auto.
    - unfold finish_key at 1 in R. destruct (w_flush mem prep k w) as [w1|e] eqn:E; [|discriminate].
      cbn [bind] in R. apply IH in R; auto.
      unfold w_add_metadata. simpl. apply deep_wf_update.
      unfold w_flush in E. destruct (dgetd [] k (w_buf w)).
      + inversion E; subst; auto.
      + match type of E with context[st_append ?a ?b ?c] => destruct (st_append a b c) end;
          inversion E; subst; auto.
  Qed.

  Variable s0 : store A.
  Variable r0 : reader A.
  Variable cmp : comparison.
  Variable ops : list (op A).
  Variable t0 : Z.
  Hypothesis s0_nodup : NoDup (dkeys s0).
  Hypothesis HO : r_open s0 = Ok (r0, cmp).
  Hypothesis HT : mfield s0 "data" "metadata" "total_bytes" = Some (VInt t0).
  Hypothesis HA : forall k, by_append k ops -> appendable s0 k.
  Hypothesis HM : no_mix ops.
  Hypothesis HD : ~ by_write "data" ops.
  Hypothesis HN : names_ok ops.
  Hypothesis HK : kwargs_ok ops.

  Lemma appender_spec : exists w,
    w_run mem prep ops (W [] [] [] [] [] s0) = (w, None) /\
    (forall k, In k (w_keys w) <-> by_append k ops \/ by_write k ops) /\
    forall order, Permutation order (w_keys w) ->
    exists f nbs, a_finish mem prep order r0 w = Ok f /\
      NoDup (dkeys f) /\
      (* appended tables *)
      (forall k, by_append k ops -> exists c, List.concat c = appended k ops /\
         rows_of f k = rows_of s0 k ++ stored prep c /\ nbs k = bytes mem prep c) /\
      (* replaced tables *)
      (forall k, by_write k ops -> (k = "mapping" -> ~ has_mapping ops) -> exists df,
         last_written k ops None = Some df /\ rows_of f k = df /\ nbs k = mem df) /\
      (* other tables *)
      (forall k, ~ touched k ops -> rows_of f k = rows_of s0 k) /\
      (forall k n, ~ touched k ops -> dget k s0 = Some n -> exists n', dget k f = Some n' /\ n_fmt n' = n_fmt n) /\
      (* recorded sizes *)
      (forall k, In k (w_keys w) -> mfield f k "metadata" "n_bytes" = Some (VInt (nbs k))) /\
      mfield f "data" "metadata" "total_bytes" = Some (VInt (t0 + sum (map nbs (w_keys w)))) /\
      mfield f "data" "metadata" "version" = Some (VStr lib_version) /\
      (* metadata *)
      (forall k nm fld, ~ by_write k ops -> (k = "mapping" -> ~ has_mapping ops) ->
         ~ (nm = "metadata" /\ fld = "n_bytes" /\ In k (w_keys w)) ->
         ~ (k = "data" /\ nm = "metadata" /\ In fld ["total_bytes"; "version"]) ->
         mfield f k nm fld =
           match last_value k nm fld ops None with
           | Some v => Some v
           | None => mfield s0 k nm fld
           end) /\
      (* every node still has its 'metadata' dict *)
      (meta_complete_on (fun k => dget k s0 <> None) ops ->
       forall k n, dget k f = Some n -> exists d, dget "metadata" (n_attrs n) = Some d).
  Proof.
    destruct (run_Inv mem prep s0 ops [] (w_from s0)) as (w & R1 & HI); auto.
    { now apply Inv_init. }
    simpl in HI. exists w. split; [exact R1|]. split; [apply (i_keys _ _ _ _ _ HI)|].
    intros order P.
    destruct (finish_file mem prep s0 ops order w) as (w' & F1 & F2 & F3 & F4 & F5 & F6 & F7); auto.
    set (nbs := fun k => nb k w').
    set (total := t0 + sum (map nbs (w_keys w))).
    set (md := data_md w' total).
    set (f := a_save_metadata md (w_store w')).
    assert (deep_wf (w_meta w)) as DW.
    { eapply run_deep; [|exact R1]. intros a b c X. discriminate. }
    assert (deep_wf md) as DM.
    { unfold md, data_md. apply deep_wf_update. eapply finish_deep; [exact DW|apply (F1 0)]. }
    assert (meta_wf md) as WF by (unfold md, data_md; now apply meta_wf_update).
    (* the node of 'data' keeps its attributes *)
    assert (~ by_write "data" ops) as BD by exact HD.
    destruct (i_app _ _ _ _ _ HI "data" BD) as (cd & _ & CD & _).
    { intros [X _]. discriminate. }
    assert (forall k, ~ by_write k ops -> (k = "mapping" -> ~ has_mapping ops) ->
            exists c, nd k w' = tbl s0 k (stored prep c) /\ (by_append k ops -> List.concat c = appended k ops /\
              nb k w' = bytes mem prep c) /\ (~ by_append k ops -> stored prep c = [])) as ND.
    { intros k B1 B2. destruct (by_append_dec k ops) as [B|B].
      - destruct (F6 k B) as (c & C1 & C2 & C3). exists c. split; auto. split; auto. tauto.
      - destruct (F7 k B) as [G1 G2]. destruct (i_app _ _ _ _ _ HI k B1) as (c & C1 & C2 & C3).
        { intros [X Y]. now apply (B2 X). }
        exists c. rewrite G2. split; auto. split; [tauto|]. intros _.
        rewrite (appended_nil _ _ B) in C1. apply app_eq_nil in C1. destruct C1.
        now apply stored_nil. }
    assert (forall k rows, n_attrs (base_node (tbl s0 k rows)) =
              match dget k s0 with Some n => n_attrs n
              | None => match rows with [] => [] | _ => [("info", [])] end end) as TA.
    { intros k rows. unfold tbl. destruct rows; destruct (dget k s0); reflexivity. }
    assert (forall k rows, n_rows (base_node (tbl s0 k rows)) = rows_of s0 k ++ rows) as TR.
    { intros k rows. unfold tbl, rows_of. destruct rows; destruct (dget k s0); simpl; rewrite ?app_nil_r; reflexivity. }
    assert (get_metadata (R (w_store w) (r_dfkeys r0) (r_mdkeys r0)) "data" "metadata" =
            get_metadata r0 "data" "metadata") as GM.
    { pose proof (r_open_contents _ _ _ _ HO) as HC.
      unfold get_metadata. cbn [r_mdkeys r_store].
      destruct (contents_spec s0 r0 s0_nodup HC) as (S1 & _ & _). rewrite S1.
      destruct (dget "data" (r_mdkeys r0)); auto. destruct (smem "metadata" l); auto.
      unfold nd in CD. rewrite CD. unfold tbl. destruct (stored prep cd); auto.
      unfold mfield in HT. destruct (dget "data" s0); [reflexivity|discriminate]. }
    assert (exists dmeta, get_metadata r0 "data" "metadata" = Ok dmeta /\
              dget "total_bytes" dmeta = Some (VInt t0)) as (dmeta & DM1 & DM2).
    { pose proof (r_open_contents _ _ _ _ HO) as HC. unfold mfield in HT.
      destruct (dget "data" s0) as [n|] eqn:E; [|discriminate].
      rewrite (get_metadata_spec s0 r0 "data" "metadata" n) by (auto; discriminate).
      destruct (dget "metadata" (n_attrs n)) as [d|]; [|discriminate]. eauto. }
    assert (a_finish mem prep order r0 w = Ok f) as AF.
    { unfold a_finish. rewrite GM, DM1. cbn [bind]. unfold dlookup. rewrite DM2. cbn [bind].
      rewrite F1. cbn [bind]. reflexivity. }
    assert (forall k, dget k f = match dget k md with
              | None => dget k (w_store w')
              | Some sub => let nd := base_node (dget k (w_store w')) in
                  Some (Node (n_fmt nd) (n_rows nd) (amerge (n_attrs nd) sub)) end) as DF.
    { intros. apply dget_a_save. apply WF. }
    assert (forall k, rows_of f k = n_rows (base_node (nd k w'))) as RF.
    { intros. unfold rows_of. rewrite DF. unfold nd. destruct (dget k md); auto.
      destruct (dget k (w_store w')); auto. }
    assert (forall k nm, match dget k f with Some n => dget nm (n_attrs n) | None => None end =
              match mview k nm md with
              | None => dget nm (n_attrs (base_node (nd k w')))
              | Some d => Some (match dget nm (n_attrs (base_node (nd k w'))) with
                                | Some old => dupdate old d | None => d end)
              end) as AT.
    { intros k nm. rewrite DF. unfold mview, nd. destruct (dget k md) as [sub|] eqn:E.
      - cbn [n_attrs]. rewrite dget_amerge by (eapply WF; eauto). reflexivity.
      - destruct (dget k (w_store w')); reflexivity. }
    assert (forall k nm fld, mfield f k nm fld =
              match mview k nm md with
              | None => match dget nm (n_attrs (base_node (nd k w'))) with Some d => dget fld d | None => None end
              | Some d => match dget fld d with Some v => Some v | None =>
                    match dget nm (n_attrs (base_node (nd k w'))) with Some d => dget fld d | None => None end end
              end) as MF.
    { intros k nm fld. unfold mfield. specialize (AT k nm). destruct (dget k f) as [n|].
      - rewrite AT. destruct (mview k nm md) as [d|] eqn:E; auto.
        destruct (dget nm (n_attrs (base_node (nd k w')))) as [old|].
        + rewrite dget_dupdate by (eapply DM; eauto). reflexivity.
        + destruct (dget fld d); auto.
      - destruct (mview k nm md); [discriminate|]. rewrite <- AT. reflexivity. }
    assert (forall k n, mview k n md =
      let a := mview k n (w_meta w) in
      let b := if smem k (w_keys w) && String.eqb n "metadata"
               then Some (dupdate (match a with Some d => d | None => [] end)
                            [("n_bytes", VInt (nb k w'))])
               else a in
      if String.eqb k "data" && String.eqb n "metadata"
      then Some (dupdate (match b with Some d => d | None => [] end)
              [("total_bytes", VInt total); ("version", VStr lib_version)])
      else b) as MV.
    { intros. apply mview_final. auto. }
    exists f, nbs. split; [exact AF|]. split.
    { apply NoDup_a_save. exact F2. }
    split; [|split; [|split; [|split; [|split; [|split; [|split; [|split]]]]]]].
    - intros k B. destruct (HM k B) as [B1 B2].
      destruct (ND k B1) as (c & C1 & C2 & _); [intros -> X; apply B2; auto|].
      destruct (C2 B) as [C3 C4]. exists c. split; auto. split; auto.
      rewrite RF, C1. apply TR.
    - intros k B B2. assert (~ by_append k ops) as BA by (intros X; destruct (HM k X); contradiction).
      destruct (i_wr _ _ _ _ _ HI k B BA) as (df & D1 & D2 & D3).
      destruct (F7 k BA) as [G1 G2].
      exists df. split; auto. split; [|unfold nbs; congruence].
      rewrite RF, G2, D3; auto. destruct (String.eqb_spec k "mapping"); auto.
    - intros k T. unfold touched in T. destruct (ND k) as (c & C1 & C2 & C3); [tauto|tauto|].
      rewrite RF, C1, TR, C3 by tauto. now rewrite app_nil_r.
    - intros k n T E. unfold touched in T. destruct (ND k) as (c & C1 & C2 & C3); [tauto|tauto|].
      rewrite C3 in C1 by tauto. unfold nd, tbl in C1. rewrite DF, C1, E.
      destruct (dget k md); eexists; (split; [reflexivity|]); reflexivity.
    - intros k I. rewrite MF, MV. cbv zeta. rewrite (proj2 (smem_In _ _) I). cbn [andb].
      rewrite eqb_refl. destruct (String.eqb k "data"); cbn [andb];
        unfold dupdate; cbn [fold_left fst snd]; rewrite !dget_dset; reflexivity.
    - rewrite MF, MV. cbv zeta. rewrite !eqb_refl. cbn [andb].
      unfold dupdate at 1; cbn [fold_left fst snd]; rewrite !dget_dset; reflexivity.
    - rewrite MF, MV. cbv zeta. rewrite !eqb_refl. cbn [andb].
      unfold dupdate at 1; cbn [fold_left fst snd]; rewrite !dget_dset; reflexivity.
    - intros k nm fld B1 B2 B3 B4. rewrite MF.
      destruct (ND k B1 B2) as (c & C1 & _).
      assert (match dget nm (n_attrs (base_node (nd k w'))) with Some d => dget fld d | None => None end
              = mfield s0 k nm fld) as EB.
      { rewrite C1, TA. unfold mfield. destruct (dget k s0); auto. destruct (stored prep c); auto.
        cbn [dget]. destruct (String.eqb nm "info"); reflexivity. }
      assert (mview k nm md = mview k nm (w_meta w) /\ (mview k nm (w_meta w) = None -> last_value k nm fld ops None = None) /\
               (forall d, mview k nm (w_meta w) = Some d -> dget fld d = last_value k nm fld ops None) \/
              (exists d, mview k nm md = Some d /\ dget fld d = last_value k nm fld ops None)) as X.
      { assert ((mview k nm (w_meta w) = None -> last_value k nm fld ops None = None)) as L1.
        { intros X. destruct (meta_named_dec k nm ops) as [Y|Y].
          - destruct (i_meta _ _ _ _ _ HI k nm Y) as (d & Y1 & _). congruence.
          - now rewrite last_value_none. }
        assert (forall d, mview k nm (w_meta w) = Some d -> dget fld d = last_value k nm fld ops None) as L2.
        { intros d X. destruct (meta_named_dec k nm ops) as [Y|Y].
          - destruct (i_meta _ _ _ _ _ HI k nm Y) as (d' & Y1 & Y2). assert (d = d') by congruence. subst. auto.
          - rewrite (i_metan _ _ _ _ _ HI k nm Y) in X. discriminate. }
        assert (dget fld (match mview k nm (w_meta w) with Some d => d | None => [] end) =
                last_value k nm fld ops None) as L3.
        { destruct (mview k nm (w_meta w)) as [d|] eqn:E; [apply L2; auto|]. rewrite L1; auto. }
        rewrite MV. cbv zeta.
        destruct (String.eqb_spec nm "metadata"); [|rewrite !andb_false_r; auto].
        rewrite !andb_true_r.
        destruct (smem k (w_keys w)) eqn:S; destruct (String.eqb_spec k "data"); auto; right;
          (eexists; split; [reflexivity|]);
          unfold dupdate; cbn [fold_left fst snd]; rewrite ?dget_dset;
          try (rewrite (eqb_neq fld "version") by (intros ->; apply B4; simpl; auto));
          try (rewrite (eqb_neq fld "total_bytes") by (intros ->; apply B4; simpl; auto));
          try (rewrite (eqb_neq fld "n_bytes") by (intros ->; apply B3; split; auto; split; auto; now apply smem_In));
          auto. }
      destruct X as [(X1 & X2 & X3)|(d & X1 & X2)].
      + rewrite X1. destruct (mview k nm (w_meta w)) as [d|] eqn:E.
        * rewrite (X3 d eq_refl). destruct (last_value k nm fld ops None); auto.
        * rewrite X2 by auto. exact EB.
      + rewrite X1, X2. destruct (last_value k nm fld ops None); auto.
    - intros MC k n E. specialize (AT k "metadata"). rewrite E in AT.
      assert (dget "metadata" (n_attrs n) <> None) as X; [|destruct (dget "metadata" (n_attrs n)); eauto; contradiction].
      rewrite AT. destruct (mview k "metadata" md) as [d|] eqn:EV; [discriminate|].
      (* not in keys, not data, not named *)
      rewrite MV in EV. cbv zeta in EV.
      assert (~ In k (w_keys w)) as NI.
      { intros I. apply smem_In in I. rewrite I in EV. cbn [andb] in EV. rewrite eqb_refl in EV.
        destruct (String.eqb k "data"); discriminate. }
      assert (smem k (w_keys w) = false) as SF by now apply smem_false.
      rewrite SF in EV. cbn [andb] in EV. rewrite eqb_refl, andb_true_r in EV.
      destruct (String.eqb_spec k "data"); [discriminate|].
      assert (~ meta_named k "metadata" ops) as NM.
      { intros X. destruct (i_meta _ _ _ _ _ HI k _ X) as (d & Y & _). congruence. }
      rewrite (i_keys _ _ _ _ _ HI) in NI.
      destruct (has_mapping_dec ops) as [M|M]; [destruct (String.eqb_spec k "mapping") as [K|K]|].
      + subst k. destruct (F7 "mapping") as [_ G]; [tauto|]. rewrite G.
        destruct (i_map _ _ _ _ _ HI M) as (n1 & N1 & N2 & [N3|N3]); [tauto| |tauto].
        rewrite N1. exact N3.
      + destruct (ND k) as (c & C1 & _ & C3); [tauto|tauto|]. rewrite C3 in C1 by tauto.
        rewrite C1. rewrite TA.
        destruct (dget k s0) as [n1|] eqn:E0.
        * pose proof (r_open_contents _ _ _ _ HO) as HC.
          destruct (contents_meta _ s0 r0 HC k n1 E0) as [d D]. rewrite D. discriminate.
        * exfalso. rewrite DF in E. unfold nd in C1. rewrite C1 in E. unfold tbl in E. rewrite E0 in E.
          destruct (dget k md) as [sub|] eqn:Esub; [|discriminate].
          assert (dget k (w_meta w') <> None) as W'.
          { unfold md, data_md in Esub. rewrite dget_meta_update in Esub. rewrite (eqb_neq _ _ n0) in Esub. congruence. }
          apply F5 in W'. destruct W' as [W'|W']; [apply (i_keys _ _ _ _ _ HI) in W'; tauto|].
          apply (i_metak _ _ _ _ _ HI) in W'. destruct W' as [nm W'].
          destruct (MC k nm W') as [Y|[Y|[Y|[Y|[Y|Y]]]]]; try tauto.
      + destruct (ND k) as (c & C1 & _ & C3); [tauto|tauto|]. rewrite C3 in C1 by tauto.
        rewrite C1. rewrite TA.
        destruct (dget k s0) as [n1|] eqn:E0.
        * pose proof (r_open_contents _ _ _ _ HO) as HC.
          destruct (contents_meta _ s0 r0 HC k n1 E0) as [d D]. rewrite D. discriminate.
        * exfalso. rewrite DF in E. unfold nd in C1. rewrite C1 in E. unfold tbl in E. rewrite E0 in E.
          destruct (dget k md) as [sub|] eqn:Esub; [|discriminate].
          assert (dget k (w_meta w') <> None) as W'.
          { unfold md, data_md in Esub. rewrite dget_meta_update in Esub. rewrite (eqb_neq _ _ n0) in Esub. congruence. }
          apply F5 in W'. destruct W' as [W'|W']; [apply (i_keys _ _ _ _ _ HI) in W'; tauto|].
          apply (i_metak _ _ _ _ _ HI) in W'. destruct W' as [nm W'].
          destruct (MC k nm W') as [Y|[Y|[Y|[Y|[Y|Y]]]]]; try tauto.
  Qed.
End App.
