(** The tables and metadata of a DL1 file beside the 'data' table. *)
From Coq Require Import List ZArith String Ascii Bool Sorted Permutation Lia.
From Verif.Base Require Import Py PyFacts Str.
From Verif.Hdf5 Require Import Model Spec Proofs Proofs2 Proofs3 Proofs4 Proofs5.
From Verif.Dl1 Require Import Model Spec Proofs Proofs2.
Import ListNotations.
Local Open Scope string_scope.
Local Open Scope list_scope.
Local Open Scope Z_scope.

Section E2E.
  Context {V B St : Type}.
  Variable mem : list (row V) -> Z.
  Hypothesis mem_pos : forall l, l <> [] -> 0 < mem l.
  Hypothesis mem_nonneg : forall l, 0 <= mem l.
  Variable down : V -> V.
  Variable ext : St -> wf B -> St * list (Z * V).
  Variable src : source (V:=V) (B:=B).
  Variable ms : modules.
  Variable np : nat.
  Variable s0 : St.
  Variable wfs : list (wf B).
  Hypothesis G : good_run ext src np wfs.

  Notation ops := (dl1_ops ext src ms (Z.of_nat np) s0 wfs).

  Lemma loop_aux : forall l s c calls c', dl1_loop ext src l s c = (calls, c') ->
    (s_is_mc src = true ->
      appended "mc" calls = map (fun w => RAux (wf_iev w) (s_mc src w)) (kept l) /\
      appended "pointing" calls = map (fun w => RAux (wf_iev w) (s_pointing src w)) (kept l)) /\
    (s_is_mc src = false -> forall o, In o calls -> exists df, o = Append "data" df).
  Proof.
    induction l as [|w l IH]; intros s c calls c' H; cbn [dl1_loop] in H.
    - inversion H; subst. split; [auto|]. intros _ o [].
    - unfold skip_event in H. cbn [kept filter].
      destruct (wf_stale w || wf_missing w) eqn:SK.
      + assert (negb (wf_stale w) && negb (wf_missing w) = false) as ->.
        { rewrite <- negb_orb, SK. reflexivity. }
        apply IH in H. exact H.
      + assert (negb (wf_stale w) && negb (wf_missing w) = true) as ->.
        { rewrite <- negb_orb, SK. reflexivity. }
        destruct (ext s w) as [s' vals] eqn:E.
        destruct (dl1_loop ext src l s' _) as [rest c2] eqn:L. inversion H; subst; clear H.
        apply IH in L. destruct L as (L1 & L2). fold (kept l). split.
        * intros M. rewrite M. destruct (L1 M) as [A1 A2].
          cbn [app appended String.eqb Ascii.eqb Bool.eqb map]. rewrite A1, A2. auto.
        * intros M o I. rewrite M in I. cbn [app] in I. destruct I as [<-|I]; [eauto|]. apply (L2 M); auto.
  Qed.

  Lemma prep_aux : forall (ch : list (list (row V))),
    (forall x, In x (List.concat ch) -> exists i p, x = RAux i p) ->
    stored (dl1_prep down) ch = map (cast_row down) (List.concat ch).
  Proof.
    unfold stored. induction ch as [|x ch IH]; intros H; auto. cbn [map List.concat].
    rewrite map_app, <- IH by (intros y I; apply H; cbn; apply in_or_app; auto).
    f_equal. unfold dl1_prep. destruct x as [|[d|i p] x]; auto.
    destruct (H (RData d)) as (i & p & X); [now left|]. discriminate.
  Qed.

  Lemma last_mapping_appends : forall (l : list (op (row V))), Forall is_append l ->
    forall t acc, last_mapping (l ++ t) acc = last_mapping t acc.
  Proof.
    induction 1 as [|o l (a & b & -> & _)]; intros; auto. cbn [app last_mapping]. auto.
  Qed.

  Lemma dget_nil_match : forall fld (d : dict val),
    match dget fld d with Some v => Some v | None => None end = dget fld d.
  Proof. intros. destruct (dget fld d); reflexivity. Qed.

  Lemma c76 : forall r, dl1_round_trip mem down ext src ms np s0 wfs r ->
    get_mapping r = Ok (s_mapping src, s_mapping_md src) /\
    (exists d, get_metadata r "data" "config" = Ok d /\ forall fld, dget fld d = dget fld (s_config src)) /\
    (exists md, get_metadata r "data" "metadata" = Ok md /\
       dget "n_modules" md = Some (VInt (m_n ms)) /\ dget "n_pixels" md = Some (VInt (Z.of_nat np)) /\
       dget "n_superpixels_per_module" md = Some (VInt (m_nsp ms)) /\
       forall fld, ~ In fld ["n_modules"; "n_pixels"; "n_superpixels_per_module"; "n_events"; "n_skipped";
                             "start_time"; "end_time"; "n_bytes"; "total_bytes"; "version"] ->
         dget fld md = dget fld (s_base src)) /\
    (s_is_mc src = true ->
       r_read r "mc" true = Ok (map (fun w => RAux (wf_iev w) (down (s_mc src w))) (kept wfs)) /\
       r_read r "pointing" true = Ok (map (fun w => RAux (wf_iev w) (down (s_pointing src w))) (kept wfs)) /\
       exists d, get_metadata r "mc" "mcheader" = Ok d /\
         forall fld, dget fld d = dget fld (s_mcheader src)) /\
    (s_is_mc src = false -> forall fc,
       r_read r "mc" fc = Raise KeyError /\ r_read r "pointing" fc = Raise KeyError).
  Proof.
    intros r RT. destruct (reader_view mem down ext src ms np s0 wfs G r RT) as (_ & MD).
    destruct RT as (w & order & f & c & R & P & F & O).
    destruct (ops_valid mem ext src ms np s0 wfs G) as (HM & HK & HN & MC).
    assert (dl1_prep down [] = []) as PN by reflexivity.
    assert (completed mem (dl1_prep down) ops f) as CP by (exists w, order; auto).
    destruct (ops_shape ext src ms np s0 wfs) as (calls & cn & L & E).
    destruct (loop_spec ext src wfs s0 _ calls cn L) as (_ & FA & _ & _ & _ & _ & _ & _ & BM).
    destruct (loop_aux _ _ _ _ _ L) as (LM & LN).
    assert (forall k, ~ In k ["data"; "mc"; "pointing"] -> ~ by_append k ops) as NA.
    { intros k NI (df & I). rewrite E in I. apply in_app_or in I. destruct I as [I|I].
      - destruct (append_only calls _ FA I) as (k' & df' & X & I'). inversion X; subst. auto.
      - apply (tail_cases ext src ms np wfs G) in I. destruct I as [I|(k' & n & kw & X & _)]; discriminate. }
    assert (forall k, ~ by_write k ops) as NW.
    { intros k (kvs & df & I & _). rewrite E in I. apply in_app_or in I. destruct I as [I|I].
      - destruct (append_only calls _ FA I) as (k' & df' & X & _). discriminate.
      - apply (tail_cases ext src ms np wfs G) in I. destruct I as [I|(k' & n & kw & X & _)]; discriminate. }
    assert (forall k n, meta_named k n ops -> k = "data" \/ (k = "mc" /\ s_is_mc src = true)) as NM.
    { intros k n (kw & I). rewrite E in I. apply in_app_or in I. destruct I as [I|I].
      - destruct (append_only calls _ FA I) as (k' & df' & X & _). discriminate.
      - apply (tail_cases ext src ms np wfs G) in I. destruct I as [I|(k' & n' & kw' & X & D & _)]; [discriminate|].
        inversion X; subst. destruct D as [[-> _]|(-> & _ & M)]; auto. }
    split; [|split; [|split; [|split]]].
    - destruct (mapping_reads mem (dl1_prep down) ops f r c PN HM HK CP O) as (M1 & _).
      + apply NA. simpl. intuition discriminate.
      + apply NW.
      + apply M1.
        * rewrite E, last_mapping_appends by auto. destruct (s_is_mc src); reflexivity.
        * intros X. apply NM in X. destruct X as [X|[X _]]; discriminate.
    - destruct (MD "config" "" ltac:(simpl; auto)) as (d & D1 & _). exists d. split; auto.
      intros fld. destruct (MD "config" fld ltac:(simpl; auto)) as (d' & D1' & D2).
      assert (d' = d) by congruence. subst d'. rewrite D2 by (intros [X _]; discriminate).
      rewrite E, last_value_appends by auto.
      destruct (s_is_mc src); cbn [app last_value String.eqb Ascii.eqb Bool.eqb andb]; apply dget_nil_match.
    - destruct (MD "metadata" "n_events" ltac:(simpl; auto)) as (md & D1 & _).
      exists md. split; auto.
      assert (forall fld, ~ In fld ["n_bytes"; "total_bytes"; "version"] ->
         dget fld md = last_value "data" "metadata" fld ops None) as MM.
      { intros fld NI. destruct (MD "metadata" fld ltac:(simpl; auto)) as (d & D2 & D3).
        rewrite D2 in D1. inversion D1; subst. apply D3. tauto. }
      assert (forall fld, ~ In fld ["n_bytes"; "total_bytes"; "version"] -> 
         dget fld md = dget fld (dupdate (dupdate (s_base src)
                  [("n_modules", VInt (m_n ms)); ("n_pixels", VInt (Z.of_nat np));
                   ("n_superpixels_per_module", VInt (m_nsp ms))])
                  [("n_events", VInt (c_proc cn)); ("n_skipped", VInt (c_skip cn));
                   ("start_time", opt_val (c_start cn)); ("end_time", opt_val (c_end cn))])) as MV.
      { intros fld NI. rewrite MM by auto. rewrite E, last_value_appends by auto.
        destruct (s_is_mc src); cbn [app last_value String.eqb Ascii.eqb Bool.eqb andb]; apply dget_nil_match. }
      split; [|split; [|split]].
      1,2,3: rewrite MV by (simpl; intuition discriminate);
        rewrite !dget_dupdate by (repeat constructor; simpl; intuition discriminate); reflexivity.
      intros fld NI. rewrite MV by (simpl in *; tauto).
      rewrite !dget_dupdate by (repeat constructor; simpl; intuition discriminate).
      assert (forall k, In k ["n_modules"; "n_pixels"; "n_superpixels_per_module"; "n_events"; "n_skipped";
                             "start_time"; "end_time"; "n_bytes"; "total_bytes"; "version"] -> 
              String.eqb k fld = false /\ String.eqb fld k = false) as NE.
      { intros k I. split; apply String.eqb_neq; intros ->; auto. }
      cbn [dget].
      repeat match goal with |- context [String.eqb ?a ?b] =>
        first [rewrite (proj1 (NE a ltac:(simpl; tauto))) | rewrite (proj2 (NE b ltac:(simpl; tauto)))] end.
      reflexivity.
    - intros M. destruct (LM M) as [A1 A2].
      assert (forall k, In k ["mc"; "pointing"] -> appended k ops = appended k calls) as AE.
      { intros k I. rewrite E, appended_app. cbn [appended app]. 
        destruct (s_is_mc src); cbn [appended app]; now rewrite app_nil_r. }
      assert (forall k g, In k ["mc"; "pointing"] ->
         appended k calls = map (fun w => RAux (wf_iev w) (g w)) (kept wfs) ->
         r_read r k true = Ok (map (fun w => RAux (wf_iev w) (down (g w))) (kept wfs))) as RD.
      { intros k g I AP.
        assert (appended k ops = map (fun w => RAux (wf_iev w) (g w)) (kept wfs)) as AO by (rewrite AE; auto).
        assert (by_append k ops) as BA.
        { destruct (by_append_dec k ops) as [|X]; auto. exfalso. apply appended_nil in X. rewrite X in AO.
          pose proof (g_some _ _ _ _ G) as N. destruct (kept wfs); [now apply N|discriminate]. }
        assert (k <> "mapping") as KM by (simpl in I; intuition (subst; discriminate)).
        destruct (read_appended mem mem_pos mem_nonneg (dl1_prep down) ops w order f PN HM HN HK R P F k r c O BA KM)
          as (ch & C1 & _ & C3 & _).
        assert (stored (dl1_prep down) ch = map (fun w => RAux (wf_iev w) (down (g w))) (kept wfs)) as SE.
        { rewrite prep_aux, C1, AO.
          - rewrite map_map. apply map_ext_in. intros x Ix. cbn [cast_row].
            rewrite u32_id by (apply (g_ids _ _ _ _ G); auto). reflexivity.
          - rewrite C1, AO. intros x Ix. apply in_map_iff in Ix. destruct Ix as (y & <- & _). eauto. }
        rewrite SE in C3. apply C3.
        pose proof (g_some _ _ _ _ G) as N. destruct (kept wfs); [now contradiction N|discriminate]. }
      split; [apply RD; simpl; auto|]. split; [apply RD; simpl; auto|].
      assert (meta_named "mc" "mcheader" ops) as MN.
      { exists (s_mcheader src). rewrite E, M. apply in_or_app. right. apply in_or_app. right. now left. }
      destruct (meta_reads mem (dl1_prep down) ops f r c PN HM HK CP O "mc" "mcheader" ltac:(discriminate)) as (M1 & M2 & _).
      destruct (M2 MN eq_refl) as (d & D). exists d. split; auto.
      intros fld. rewrite (M1 d fld D) by (intros [X _]; discriminate).
      rewrite E, last_value_appends, M by auto.
      cbn [app last_value String.eqb Ascii.eqb Bool.eqb andb]. apply dget_nil_match.
    - intros M fc.
      destruct (file_node mem (dl1_prep down) ops w order f PN HM HN HK R P F)
        as (w' & total & _ & ND & _ & _ & FK & _).
      assert (forall k, k <> "data" -> k <> "mapping" -> r_read r k fc = Raise KeyError) as KE; [|split; apply KE; discriminate].
      intros k K1 K2. unfold r_read. rewrite (dfkeys_spec f r c k ND O). rewrite (eqb_neq _ _ K2).
      unfold mfield. destruct (dget k f) as [n|] eqn:DK; [|reflexivity]. exfalso.
      destruct (FK _ _ DK) as [X|[X|[X|[X|X]]]]; auto.
      + destruct X as (df & I). rewrite E in I. apply in_app_or in I. destruct I as [I|I].
        * destruct (LN M _ I) as (df' & X). inversion X; subst. auto.
        * apply (tail_cases ext src ms np wfs G) in I. destruct I as [I|(k' & n' & kw & X & _)]; discriminate.
      + eapply NW; eauto.
      + destruct X as (n' & X). apply NM in X. destruct X as [X|[_ X]]; congruence.
      + destruct X. auto.
  Qed.
End E2E.
