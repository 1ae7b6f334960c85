(** End to end lemmas of the DL1 topic. *)
From Coq Require Import List ZArith String Ascii Bool Sorted Permutation Lia.
From Verif.Base Require Import Py PyFacts Str.
From Verif.Hdf5 Require Import Model Spec Proofs Proofs2 Proofs3 Proofs4 Proofs5.
From Verif.Dl1 Require Import Model Spec Proofs.
Import ListNotations.
Local Open Scope string_scope.
Local Open Scope list_scope.
Local Open Scope Z_scope.

Section E2E.
  Context {V B St : Type}.
  Variable mem : list (row V) -> Z.
  Variable down : V -> V.
  Variable ext : St -> wf B -> St * list (Z * V).
  Variable src : source (V:=V) (B:=B).
  Variable ms : modules.
  Variable np : nat.
  Variable s0 : St.
  Variable wfs : list (wf B).
  Hypothesis G : good_run ext src np wfs.

  Notation ops := (dl1_ops ext src ms (Z.of_nat np) s0 wfs).
  Notation evs := (extracted ext s0 (kept wfs)).

  Lemma last_value_appends : forall k n fld (l : list (op (row V))), Forall is_append l ->
    forall t acc, last_value k n fld (l ++ t) acc = last_value k n fld t acc.
  Proof.
    induction 1 as [|o l (a & b & -> & _)]; intros; auto. cbn [app last_value]. auto.
  Qed.

  Lemma last_value_last : forall (l : list (wf B)) acc,
    last_time l acc = match hd_error (rev l) with Some w => Some (wf_tcpu w) | None => acc end.
  Proof.
    induction l as [|w l IH]; intros acc; auto. cbn [last_time rev]. rewrite IH.
    destruct (rev l); reflexivity.
  Qed.

  Lemma ops_shape : exists calls c, 
    dl1_loop ext src wfs s0 (Cnt 0 0 None None) = (calls, c) /\
    ops = calls ++
    [AddMap (s_mapping src) (s_mapping_md src);
     AddMeta "data" "metadata" (dupdate (dupdate (s_base src)
                  [("n_modules", VInt (m_n ms)); ("n_pixels", VInt (Z.of_nat np));
                   ("n_superpixels_per_module", VInt (m_nsp ms))])
                  [("n_events", VInt (c_proc c)); ("n_skipped", VInt (c_skip c));
                   ("start_time", opt_val (c_start c)); ("end_time", opt_val (c_end c))]);
     AddMeta "data" "config" (s_config src);
     AddMeta "data" "sn" (tm_dict (m_n ms) (m_sn ms));
     AddMeta "data" "sipm_temp" (tm_dict (m_n ms) (m_sipm ms));
     AddMeta "data" "primary_temp" (tm_dict (m_n ms) (m_prim ms));
     AddMeta "data" "dac" (sp_dict (m_n ms) (m_nsp ms) (m_dac ms));
     AddMeta "data" "hvon" (sp_dict (m_n ms) (m_nsp ms) (m_hvon ms))] ++
    (if s_is_mc src then [AddMeta "mc" "mcheader" (s_mcheader src)] else []).
  Proof.
    unfold dl1_ops. destruct (dl1_loop ext src wfs s0 (Cnt 0 0 None None)) as [calls c].
    exists calls, c. auto.
  Qed.

  Lemma tail_cases : forall (o : op (row V)) md,
    In o ([AddMap (s_mapping src) (s_mapping_md src);
     AddMeta "data" "metadata" md;
     AddMeta "data" "config" (s_config src);
     AddMeta "data" "sn" (tm_dict (m_n ms) (m_sn ms));
     AddMeta "data" "sipm_temp" (tm_dict (m_n ms) (m_sipm ms));
     AddMeta "data" "primary_temp" (tm_dict (m_n ms) (m_prim ms));
     AddMeta "data" "dac" (sp_dict (m_n ms) (m_nsp ms) (m_dac ms));
     AddMeta "data" "hvon" (sp_dict (m_n ms) (m_nsp ms) (m_hvon ms))] ++
    (if s_is_mc src then [AddMeta "mc" "mcheader" (s_mcheader src)] else [])) ->
    o = AddMap (s_mapping src) (s_mapping_md src) \/
    exists k n kw, o = AddMeta k n kw /\ 
      ((k = "data" /\ In n ["metadata"; "config"; "sn"; "sipm_temp"; "primary_temp"; "dac"; "hvon"]) \/
       (k = "mc" /\ n = "mcheader" /\ s_is_mc src = true)) /\
      (NoDup (dkeys md) -> NoDup (dkeys kw)).
  Proof.
    intros o md H.
    apply in_app_or in H. destruct H as [H|H].
    - destruct H as [<-|H]; [now left|]. right.
      repeat (destruct H as [<-|H]; [eexists; eexists; eexists; split; [reflexivity|split; [left; simpl; tauto|
         try (intros; auto; apply G || apply tm_dict_nodup || apply sp_dict_nodup)]]|]).
      destruct H.
    - destruct (s_is_mc src); [|destruct H]. destruct H as [<-|[]]. right.
      eexists; eexists; eexists; split; [reflexivity|]. split; [right; auto|]. intros; apply G.
  Qed.

  Lemma append_only : forall calls (o : op (row V)), Forall is_append calls -> In o calls ->
    exists k df, o = Append k df /\ In k ["data"; "mc"; "pointing"].
  Proof. intros calls o F I. rewrite Forall_forall in F. exact (F o I). Qed.

  Lemma ops_valid : no_mix ops /\ kwargs_ok ops /\ names_ok ops /\ meta_complete ops.
  Proof.
    destruct ops_shape as (calls & c & L & E).
    destruct (loop_spec ext src wfs s0 _ calls c L) as (_ & FA & _ & _ & _ & _ & _ & _ & MC).
    rewrite E.
    assert (forall o, In o (dl1_ops ext src ms (Z.of_nat np) s0 wfs) ->
       (exists k df, o = Append k df /\ In k ["data"; "mc"; "pointing"]) \/
       (o = AddMap (s_mapping src) (s_mapping_md src) \/
        exists k n kw, o = AddMeta k n kw /\ 
        ((k = "data" /\ In n ["metadata"; "config"; "sn"; "sipm_temp"; "primary_temp"; "dac"; "hvon"]) \/
         (k = "mc" /\ n = "mcheader" /\ s_is_mc src = true)) /\ NoDup (dkeys kw))) as C.
    { intros o H. rewrite E in H. apply in_app_or in H. destruct H as [H|H].
      - left. eapply append_only; eauto.
      - right. apply tail_cases in H. destruct H as [H|(k & n & kw & H1 & H2 & H3)]; [now left|].
        right. exists k, n, kw. split; auto. split; auto. apply H3. apply NoDup_dupdate, NoDup_dupdate, G. }
    rewrite <- E.
    split; [|split; [|split]].
    - intros k (df & H). destruct (C _ H) as [(k' & df' & H1 & H2)|[H1|(? & ? & ? & H1 & _)]]; try discriminate.
      inversion H1; subst. split.
      + intros (kvs & d & I & _). destruct (C _ I) as [(? & ? & X & _)|[X|(? & ? & ? & X & _)]]; discriminate.
      + intros [-> _]. simpl in H2. intuition discriminate.
    - split.
      + intros k n kw I. destruct (C _ I) as [(? & ? & X & _)|[X|(? & ? & ? & X & _ & N)]]; try discriminate.
        inversion X; subst. auto.
      + intros kvs I. destruct (C _ I) as [(? & ? & X & _)|[X|(? & ? & ? & X & _)]]; discriminate.
    - intros k n kw I. destruct (C _ I) as [(? & ? & X & _)|[X|(? & ? & ? & X & H & N)]]; try discriminate.
      inversion X; subst. destruct H as [[_ H]|(_ & -> & _)].
      + simpl in H. repeat (destruct H as [<-|H]; [split; discriminate|]). destruct H.
      + split; discriminate.
    - intros k n (kw & I). destruct (C _ I) as [(? & ? & X & _)|[X|(? & ? & ? & X & H & N)]]; try discriminate.
      inversion X; subst. destruct H as [[-> _]|(-> & _ & M)]; [now left|].
      right. left. destruct (MC (g_some _ _ _ _ G) M) as (df & J). exists df. rewrite E. apply in_or_app. now left.
  Qed.

  Lemma evs_ok : Forall (ev_ok np) evs /\
    StronglySorted Z.lt (map (fun e => wf_iev (fst e)) evs) /\
    map (fun e => wf_iev (fst e)) evs = map wf_iev (kept wfs).
  Proof.
    assert (map (fun e => wf_iev (fst e)) evs = map wf_iev (kept wfs)) as E.
    { rewrite <- (map_map fst wf_iev). now rewrite extracted_fst. }
    rewrite E. split; [|split; [apply G|auto]].
    assert (forall l s, (forall w, In w l -> 0 <= wf_iev w < 2 ^ 32) -> Forall (ev_ok np) (extracted ext s l)) as X.
    { induction l as [|w l IH]; intros s H; constructor.
      - split; cbn [fst snd]; [apply H; now left|apply G].
      - apply IH. intros. apply H. now right. }
    apply X. apply G.
  Qed.

  (** What the reader sees. *)
  Lemma reader_view : forall r, dl1_round_trip mem down ext src ms np s0 wfs r ->
    holds r np (map (stored_event down) evs) (map wf_iev (kept wfs)) /\
    (forall nm fld, In nm ["metadata"; "config"; "sn"; "sipm_temp"; "primary_temp"; "dac"; "hvon"] ->
       exists d, get_metadata r "data" nm = Ok d /\
         (~ (nm = "metadata" /\ In fld ["n_bytes"; "total_bytes"; "version"]) ->
         dget fld d = last_value "data" nm fld ops None)).
  Proof.
    intros r (w & order & f & c & R & P & F & O).
    destruct ops_valid as (HM & HK & HN & MC).
    assert (dl1_prep down [] = []) as PN by reflexivity.
    assert (completed mem (dl1_prep down) ops f) as CP by (exists w, order; auto).
    destruct ops_shape as (calls & cn & L & E).
    destruct (loop_spec ext src wfs s0 _ calls cn L) as (AP & FA & CPR & CS & CST & CE & _ & BD & _).
    cbn [c_proc c_skip c_start c_end] in *.
    assert (forall nm fld, In nm ["metadata"; "config"; "sn"; "sipm_temp"; "primary_temp"; "dac"; "hvon"] ->
       exists d, get_metadata r "data" nm = Ok d /\
         (~ (nm = "metadata" /\ In fld ["n_bytes"; "total_bytes"; "version"]) ->
         dget fld d = last_value "data" nm fld ops None)) as MD.
    { intros nm fld I.
      assert (meta_named "data" nm ops) as NM.
      { rewrite E. simpl in I.
        repeat (destruct I as [<-|I]; [eexists; apply in_or_app; right; apply in_or_app; left; simpl; eauto 12|]).
        destruct I. }
      destruct (meta_reads mem (dl1_prep down) ops f r c PN HM HK CP O "data" nm ltac:(discriminate)) as (M1 & M2 & _).
      assert (starts_underscore nm = false) as U.
      { simpl in I. repeat (destruct I as [<-|I]; [reflexivity|]). destruct I. }
      destruct (M2 NM U) as [d HD]. exists d. split; auto. }
    split; auto.
    assert (by_append "data" ops) as BA.
    { destruct (BD (g_some _ _ _ _ G)) as [df I]. exists df. rewrite E. apply in_or_app. now left. }
    destruct evs_ok as (EO & ES & EI).
    destruct (all_rows_props down np evs (proj2 (g_pix _ _ _ _ G)) EO ES) as (A1 & A2 & A3).
    destruct (file_node mem (dl1_prep down) ops w order f PN HM HN HK R P F)
      as (w' & total & _ & ND & FN & _).
    destruct (FN "data" BA) as (ch & C1 & _ & n & N1 & N2 & N3).
    assert (appended "data" ops = appended "data" calls) as AE.
    { rewrite E, appended_app. cbn [appended app]. destruct (s_is_mc src); cbn [appended app]; now rewrite app_nil_r. }
    rewrite AE, AP in C1.
    assert (stored (dl1_prep down) ch = List.concat (map (stored_event down) evs)) as SE.
    { unfold stored. rewrite prep_chunks by (rewrite C1; auto). now rewrite C1, A3. }
    assert (List.concat (map (stored_event down) evs) <> []) as NE.
    { assert (evs <> []) as Y.
      { intro X. apply (g_some _ _ _ _ G). rewrite <- (extracted_fst ext (kept wfs) s0), X. reflexivity. }
      destruct evs as [|e es] eqn:Ev; [congruence|]. cbn [map List.concat]. intros X.
      apply app_eq_nil in X. destruct X as [X _]. apply (f_equal (@List.length _)) in X.
      rewrite stored_event_length in X. inversion EO as [|? ? [_ X'] _]; subst. cbn in X.
      pose proof (proj1 (g_pix _ _ _ _ G)). lia. }
    assert (r_store r = f) as RS.
    { destruct (contents_spec f r ND (r_open_contents _ _ _ _ O)) as (X & _). exact X. }
    assert (forall fld, ~ In fld ["n_bytes"; "total_bytes"; "version"] ->
       exists d, get_metadata r "data" "metadata" = Ok d /\ dget fld d = last_value "data" "metadata" fld ops None) as MM.
    { intros fld NI. destruct (MD "metadata" fld ltac:(simpl; auto)) as (d & D1 & D2). exists d. split; auto.
      apply D2. tauto. }
    assert (forall fld v, ~ In fld ["n_bytes"; "total_bytes"; "version"] ->
      last_value "data" "metadata" fld ops None = Some (VInt v) -> md_int r fld = Ok v) as MI.
    { intros fld v NI HV. destruct (MM fld NI) as (d & D1 & D2). unfold md_int, dlookup. rewrite D1. cbn [bind].
      rewrite D2, HV. reflexivity. }
    assert (List.length evs = List.length (kept wfs)) as EL.
    { now rewrite <- (extracted_fst ext (kept wfs) s0) at 2; rewrite map_length. }
    repeat split.
    - apply G.
    - unfold data_table. rewrite RS, N1, N3 by (rewrite SE; auto). now rewrite N2, SE.
    - rewrite map_length. apply MI; [simpl; intuition discriminate|].
      rewrite E, last_value_appends by auto. 
      destruct (s_is_mc src); cbn [app last_value String.eqb Ascii.eqb Bool.eqb andb];
      rewrite dget_dupdate by (repeat constructor; simpl; intuition discriminate);
      cbn [dget String.eqb Ascii.eqb Bool.eqb]; rewrite CPR, EL; reflexivity.
    - apply MI; [simpl; intuition discriminate|].
      rewrite E, last_value_appends by auto. 
      destruct (s_is_mc src); cbn [app last_value String.eqb Ascii.eqb Bool.eqb andb];
      rewrite !dget_dupdate by (repeat constructor; simpl; intuition discriminate);
      cbn [dget String.eqb Ascii.eqb Bool.eqb]; reflexivity.
    - apply Forall_forall. intros b I. apply in_map_iff in I. destruct I as (e & <- & I).
      rewrite stored_event_length. rewrite Forall_forall in EO. apply EO in I. apply I.
    - rewrite <- EI. clear. induction evs as [|e l IH]; constructor; auto.
      intros x I. now apply stored_event_iev in I.
  Qed.

  (** The run and every finish succeed, and the file opens. *)
  Lemma dl1_completes : exists w,
    w_run mem (dl1_prep down) ops w_init = (w, None) /\
    forall order, Permutation order (w_keys w) -> exists f r,
      w_finish mem (dl1_prep down) order w = Ok f /\ r_open f = Ok (r, Eq).
  Proof.
    destruct ops_valid as (HM & HK & HN & MC).
    destruct (completes mem (dl1_prep down) ops eq_refl HM HK HN) as (w & R & C).
    exists w. split; auto. intros order P. destruct (C order P) as [f F].
    destruct (opens_iff mem (dl1_prep down) ops f eq_refl HM HK) as [_ X].
    { exists w, order. auto. }
    destruct (X MC) as [r O]. eauto.
  Qed.

  Lemma sorted_nodup : forall l, StronglySorted Z.lt l -> NoDup l.
  Proof.
    induction 1; constructor; auto. intros I. rewrite Forall_forall in H0. apply H0 in I. lia.
  Qed.

  Lemma c12 : forall r, dl1_round_trip mem down ext src ms np s0 wfs r ->
    (forall e, In e evs -> dl1_getitem r (wf_iev (fst e)) = Ok (stored_event down e)) /\
    (forall iev, ~ In iev (map wf_iev (kept wfs)) -> dl1_getitem r iev = Raise IndexError) /\
    (exists md, get_metadata r "data" "metadata" = Ok md /\
      dget "n_events" md = Some (VInt (Z.of_nat (List.length (kept wfs)))) /\
      dget "n_skipped" md = Some (VInt (Z.of_nat (List.length wfs) - Z.of_nat (List.length (kept wfs)))) /\
      dget "start_time" md = Some (opt_val (option_map wf_tcpu (hd_error (kept wfs)))) /\
      dget "end_time" md = Some (opt_val (option_map wf_tcpu (last_kept wfs)))).
  Proof.
    intros r RT. destruct (reader_view r RT) as (H & MD).
    destruct (getitem_holds r _ _ _ H (sorted_nodup _ (g_sorted _ _ _ _ G))) as (G1 & G2).
    split; [|split; auto].
    - intros e I. apply In_nth_error in I. destruct I as [i E].
      apply (G1 i).
      + rewrite nth_error_map, E. reflexivity.
      + destruct evs_ok as (_ & _ & <-). rewrite nth_error_map, E. reflexivity.
    - destruct (MD "metadata" "n_events" ltac:(simpl; auto)) as (md & D1 & _).
      exists md. split; auto.
      assert (forall fld, ~ In fld ["n_bytes"; "total_bytes"; "version"] ->
         dget fld md = last_value "data" "metadata" fld ops None) as MM.
      { intros fld NI. destruct (MD "metadata" fld ltac:(simpl; auto)) as (d & D2 & D3).
        rewrite D2 in D1. inversion D1; subst. apply D3. tauto. }
      destruct ops_shape as (calls & cn & L & E).
      destruct (loop_spec ext src wfs s0 _ calls cn L) as (_ & FA & CPR & CS & CST & CE & LL & BD & _).
      cbn [c_proc c_skip c_start c_end] in *.
      assert (forall fld, In fld ["n_events"; "n_skipped"; "start_time"; "end_time"] ->
         dget fld md = dget fld [("n_events", VInt (c_proc cn)); ("n_skipped", VInt (c_skip cn));
                   ("start_time", opt_val (c_start cn)); ("end_time", opt_val (c_end cn))]) as MV.
      { intros fld I. rewrite MM.
        2:{ intros J. simpl in I, J. intuition (subst; discriminate). }
        rewrite E, last_value_appends by auto.
        destruct (s_is_mc src); cbn [app last_value String.eqb Ascii.eqb Bool.eqb andb];
        rewrite dget_dupdate by (repeat constructor; simpl; intuition discriminate);
        simpl in I; (repeat destruct I as [<-|I]; [reflexivity..|destruct I]). }
      rewrite !MV by (simpl; tauto). cbn [dget String.eqb Ascii.eqb Bool.eqb].
      rewrite CPR, CS, CST, CE, last_value_last. unfold last_kept.
      repeat split.
      + do 2 f_equal. lia.
  Qed.

  Lemma c13 : forall r, dl1_round_trip mem down ext src ms np s0 wfs r ->
    iterate_over_events r = Ok (map (stored_event down) evs) /\
    data_table r = Ok (List.concat (map (stored_event down) evs)) /\
    forall sel, iterate_over_selected r sel =
      Ok (map (stored_event down) (filter (fun e => existsb (Z.eqb (wf_iev (fst e))) sel) evs)).
  Proof.
    intros r RT. destruct (reader_view r RT) as (H & MD).
    split; [eapply iterate_holds; eauto|]. split; [apply H|].
    intros sel. rewrite (selected_holds r _ _ _ sel H). f_equal.
    destruct evs_ok as (_ & _ & <-). clear. induction evs as [|e l IH]; auto.
    cbn [map combine filter snd]. destruct (existsb (Z.eqb (wf_iev (fst e))) sel); cbn [map fst]; congruence.
  Qed.

  Lemma md_base : forall r, dl1_round_trip mem down ext src ms np s0 wfs r ->
    md_int r "n_modules" = Ok (m_n ms) /\ md_int r "n_superpixels_per_module" = Ok (m_nsp ms) /\
    (forall nm, In nm ["sn"; "sipm_temp"; "primary_temp"; "dac"; "hvon"] -> 
      exists d, get_metadata r "data" nm = Ok d /\
        forall fld, dget fld d = dget fld (if String.eqb nm "sn" then tm_dict (m_n ms) (m_sn ms) else
                   if String.eqb nm "sipm_temp" then tm_dict (m_n ms) (m_sipm ms) else
                   if String.eqb nm "primary_temp" then tm_dict (m_n ms) (m_prim ms) else
                   if String.eqb nm "dac" then sp_dict (m_n ms) (m_nsp ms) (m_dac ms) else
                   sp_dict (m_n ms) (m_nsp ms) (m_hvon ms))).
  Proof.
    intros r RT. destruct (reader_view r RT) as (_ & MD).
    destruct ops_shape as (calls & cn & L & E).
    destruct (loop_spec ext src wfs s0 _ calls cn L) as (_ & FA & _).
    assert (forall fld v, ~ In fld ["n_bytes"; "total_bytes"; "version"] ->
      last_value "data" "metadata" fld ops None = Some (VInt v) -> md_int r fld = Ok v) as MI.
    { intros fld v NI HV. destruct (MD "metadata" fld ltac:(simpl; auto)) as (d & D1 & D2).
      unfold md_int, dlookup. rewrite D1. cbn [bind].
      rewrite D2, HV; [reflexivity|tauto]. }
    split; [|split].
    1,2: apply MI; [simpl; intuition discriminate|];
      rewrite E, last_value_appends by auto;
      destruct (s_is_mc src); cbn [app last_value String.eqb Ascii.eqb Bool.eqb andb];
      rewrite !dget_dupdate by (repeat constructor; simpl; intuition discriminate);
      cbn [dget String.eqb Ascii.eqb Bool.eqb]; reflexivity.
    intros nm I.
    assert (In nm ["metadata"; "config"; "sn"; "sipm_temp"; "primary_temp"; "dac"; "hvon"]) as I' by (right; right; exact I).
    destruct (MD nm "" I') as (d & D1 & _). exists d. split; auto.
    intros fld. destruct (MD nm fld I') as (d' & D1' & D2).
    assert (d' = d) by congruence. subst d'. rewrite D2.
    2:{ intros [-> _]. simpl in I. intuition discriminate. }
    rewrite E, last_value_appends by auto.
    simpl in I. repeat (destruct I as [<-|I]; [
      destruct (s_is_mc src); cbn [app last_value String.eqb Ascii.eqb Bool.eqb andb];
      match goal with |- match ?x with _ => _ end = ?y => destruct x; reflexivity end|]).
    destruct I.
  Qed.

  Lemma c14 : forall r, dl1_round_trip mem down ext src ms np s0 wfs r ->
    (forall tm, 0 <= tm < m_n ms ->
       get_tm "sn" r tm = Ok (m_sn ms tm) /\ get_tm "sipm_temp" r tm = Ok (m_sipm ms tm) /\
       get_tm "primary_temp" r tm = Ok (m_prim ms tm) /\
       forall sp, 0 <= sp < m_nsp ms ->
         get_sp "dac" r tm sp = Ok (m_dac ms tm sp) /\ get_sp "hvon" r tm sp = Ok (m_hvon ms tm sp)) /\
    (forall nm tm, m_n ms <= tm -> get_tm nm r tm = Raise IndexError /\
       forall sp, get_sp nm r tm sp = Raise IndexError) /\
    (forall nm tm sp, tm < m_n ms -> m_nsp ms <= sp -> get_sp nm r tm sp = Raise IndexError) /\
    (forall nm tm, In nm ["sn"; "sipm_temp"; "primary_temp"] -> tm < m_n ms -> tm < 0 ->
       get_tm nm r tm = Raise KeyError).
  Proof.
    intros r RT. destruct (md_base r RT) as (N1 & N2 & ND).
    assert (forall a b, a < b -> b <=? a = false) as LB by (intros; apply Z.leb_gt; lia).
    assert (forall a b, b <= a -> b <=? a = true) as LT by (intros; apply Z.leb_le; lia).
    split; [|split; [|split]].
    - intros tm H. unfold get_tm, get_sp. rewrite N1. cbn [bind]. rewrite LB by lia.
      split; [|split; [|split]].
      + destruct (ND "sn" ltac:(simpl; auto)) as (d & -> & D). cbn [bind]. unfold dlookup. rewrite D.
        cbn [String.eqb Ascii.eqb Bool.eqb]. now rewrite tm_dict_get.
      + destruct (ND "sipm_temp" ltac:(simpl; auto)) as (d & -> & D). cbn [bind]. unfold dlookup. rewrite D.
        cbn [String.eqb Ascii.eqb Bool.eqb]. now rewrite tm_dict_get.
      + destruct (ND "primary_temp" ltac:(simpl; auto)) as (d & -> & D). cbn [bind]. unfold dlookup. rewrite D.
        cbn [String.eqb Ascii.eqb Bool.eqb]. now rewrite tm_dict_get.
      + intros sp Hs. rewrite N2. cbn [bind]. rewrite LB by lia. split.
        * destruct (ND "dac" ltac:(simpl; auto)) as (d & -> & D). cbn [bind]. unfold dlookup. rewrite D.
          cbn [String.eqb Ascii.eqb Bool.eqb]. now rewrite sp_dict_get.
        * destruct (ND "hvon" ltac:(simpl; auto 6)) as (d & -> & D). cbn [bind]. unfold dlookup. rewrite D.
          cbn [String.eqb Ascii.eqb Bool.eqb]. now rewrite sp_dict_get.
    - intros nm tm H. unfold get_tm, get_sp. rewrite N1. cbn [bind]. rewrite LT by lia. auto.
    - intros nm tm sp H1 H2. unfold get_sp. rewrite N1. cbn [bind]. rewrite LB by lia. rewrite N2. cbn [bind].
      now rewrite LT by lia.
    - intros nm tm I H1 H2. unfold get_tm. rewrite N1. cbn [bind]. rewrite LB by lia.
      simpl in I. destruct I as [<-|[<-|[<-|[]]]].
      + destruct (ND "sn" ltac:(simpl; auto)) as (d & -> & D). cbn [bind]. unfold dlookup. rewrite D.
        cbn [String.eqb Ascii.eqb Bool.eqb]. now rewrite tm_dict_neg.
      + destruct (ND "sipm_temp" ltac:(simpl; auto)) as (d & -> & D). cbn [bind]. unfold dlookup. rewrite D.
        cbn [String.eqb Ascii.eqb Bool.eqb]. now rewrite tm_dict_neg.
      + destruct (ND "primary_temp" ltac:(simpl; auto)) as (d & -> & D). cbn [bind]. unfold dlookup. rewrite D.
        cbn [String.eqb Ascii.eqb Bool.eqb]. now rewrite tm_dict_neg.
  Qed.
End E2E.

(** ** Output path *)
Fixpoint count (c : ascii) (s : string) : nat :=
  match s with
  | EmptyString => 0
  | String d t => (if Ascii.eqb c d then 1 else 0) + count c t
  end.

Lemma count_app : forall c a b, count c (a ++ b)%string = (count c a + count c b)%nat.
Proof. induction a; intros; cbn [append count]; auto. rewrite IHa. lia. Qed.

Lemma repl_count : forall c p r, p <> ""%string -> (count c r <= count c p)%nat ->
  forall n s, (String.length s <= n)%nat ->
    (count c (repl p r s 0) <= count c s)%nat /\
    ((count c r < count c p)%nat -> occurs p s -> (count c (repl p r s 0) < count c s)%nat).
Proof.
  intros c p r Hp Hc. induction n as [|n IH]; intros s Hs.
  - destruct s; [|cbn in Hs; lia]. cbn. split; auto. intros _ O. exfalso. eapply occurs_nil; eauto.
  - destruct (prefix p s) eqn:E.
    + apply prefix_spec in E. destruct E as [b ->]. rewrite repl_here by auto. rewrite !count_app.
      rewrite append_length in Hs. destruct p as [|c0 p]; [now contradiction Hp|]. cbn [String.length] in Hs.
      destruct (IH b ltac:(lia)) as [I1 _]. split; [lia|]. intros. lia.
    + destruct s as [|d s]; [split; cbn; auto; intros _ O; exfalso; eapply occurs_nil; eauto|].
      cbn [repl]. rewrite E. cbn [count]. cbn [String.length] in Hs. destruct (IH s ltac:(lia)) as [I1 I2].
      split; [lia|]. intros LT (a & b & O). destruct a as [|a0 a].
      * exfalso. assert (prefix p (String d s) = true) by (apply prefix_spec; exists b; exact O). congruence.
      * cbn [append] in O. inversion O; subst.
        pose proof (I2 LT (ex_intro _ a (ex_intro _ b eq_refl))). lia.
Qed.

Lemma out_path_same : forall is_mc path,
  out_path is_mc path = path <->
  (if is_mc then ~ occurs ".simtel.gz" path else ~ occurs "_r1" path /\ ~ occurs ".tio" path).
Proof.
  intros is_mc path. unfold out_path, py_replace. destruct is_mc.
  - split.
    + intros E O.
      destruct (repl_count "s" ".simtel.gz" "_dl1.h5" ltac:(discriminate) ltac:(cbn; lia) _ path (le_n _)) as [_ X].
      specialize (X ltac:(cbn; lia) O). rewrite E in X. lia.
    + intros N. now apply repl_none.
  - split.
    + intros E.
      assert (~ occurs "_r1" path) as N1.
      { intros O.
        destruct (repl_count "r" "_r1" "_dl1" ltac:(discriminate) ltac:(cbn; lia) _ path (le_n _)) as [_ X].
        specialize (X ltac:(cbn; lia) O).
        destruct (repl_count "r" ".tio" ".h5" ltac:(discriminate) ltac:(cbn; lia) _ (repl "_r1" "_dl1" path 0) (le_n _)) as [Y _].
        rewrite E in Y. lia. }
      split; auto. rewrite (repl_none _ _ _ N1) in E. intros O.
      destruct (repl_count "t" ".tio" ".h5" ltac:(discriminate) ltac:(cbn; lia) _ path (le_n _)) as [_ X].
      specialize (X ltac:(cbn; lia) O). rewrite E in X. lia.
    + intros [N1 N2]. rewrite (repl_none _ _ _ N1). now apply repl_none.
Qed.
