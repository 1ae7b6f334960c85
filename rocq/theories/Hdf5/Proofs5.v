(** The HDF5 properties in the vocabulary of Spec.v. *)
From Coq Require Import List ZArith String Bool Permutation Lia.
From Verif.Base Require Import Py PyFacts.
From Verif.Hdf5 Require Import Model Spec Proofs Proofs2 Proofs3 Proofs4.
Import ListNotations.
Local Open Scope string_scope.
Local Open Scope list_scope.
Local Open Scope Z_scope.

Definition idf {A} (l : list A) : list A := l.

Lemma map_idf : forall A (c : list (list A)), map idf c = c.
Proof. induction c; simpl; auto. now rewrite IHc. Qed.

Section E.
  Context {A : Type}.
  Variable mem : list A -> Z.
  Hypothesis mem_pos : forall l, l <> [] -> 0 < mem l.
  Hypothesis mem_nonneg : forall l, 0 <= mem l.

  (** finish() never fails on a history without mixing. *)
  Lemma completes : forall prep ops, prep [] = [] -> no_mix ops -> kwargs_ok ops -> names_ok ops ->
    exists w, w_run mem prep ops w_init = (w, None) /\
      forall order, Permutation order (w_keys w) -> exists f, w_finish mem prep order w = Ok f.
  Proof.
    intros prep ops HP HM HK HN.
    destruct (run_Inv mem prep [] ops [] w_init) as (w & R1 & _); auto.
    { intros k _ n E. discriminate. }
    { apply Inv_init. constructor. }
    exists w. split; auto. intros order P.
    destruct (finish_rows mem prep ops w order) as (f & F & _); eauto.
  Qed.

  Lemma reads_appended : forall ops f r c,
    no_mix ops -> kwargs_ok ops -> completed mem idf ops f -> r_open f = Ok (r, c) ->
    forall k, k <> "mapping" -> appended k ops <> [] -> r_read r k true = Ok (appended k ops).
  Proof.
    intros ops f r c HM HK (w & order & R & P & F) HO k Hk NE.
    pose proof (run_names_ok _ _ _ _ _ R) as HN.
    assert (by_append k ops) as B.
    { destruct (by_append_dec k ops); auto. now rewrite appended_nil in NE. }
    destruct (read_appended mem mem_pos mem_nonneg idf ops w order f eq_refl HM HN HK R P F k r c HO B Hk)
      as (ch & C1 & C2 & C3 & _).
    unfold stored in C3. rewrite map_idf, C1 in C3. auto.
  Qed.

  Lemma reads_written : forall ops f r c,
    no_mix ops -> kwargs_ok ops -> completed mem idf ops f -> r_open f = Ok (r, c) ->
    forall k df, k <> "mapping" -> last_written k ops None = Some df -> 0 < mem df ->
      r_read r k true = Ok df.
  Proof.
    intros ops f r c HM HK (w & order & R & P & F) HO k df Hk L NE.
    pose proof (run_names_ok _ _ _ _ _ R) as HN.
    assert (by_write k ops) as B.
    { destruct (by_write_dec k ops) as [|X]; auto. exfalso.
      assert (forall acc, last_written k ops acc = acc) as Y; [|rewrite Y in L; discriminate].
      clear -X. induction ops as [|o ops IH]; intros acc; cbn [last_written]; auto.
      assert (~ by_write k ops) as X2.
      { intros (a & b & I1 & I2). apply X. exists a, b. split; auto. now right. }
      destruct o; auto. destruct (dget k kvs) eqn:E; auto. exfalso. apply X.
      exists kvs, l. split; [now left|]. now apply dget_In. }
    destruct (read_written mem idf ops w order f eq_refl HM HN HK R P F k r c HO B Hk)
      as (df' & C1 & C2 & C3).
    assert (df = df') by congruence. subst. auto.
  Qed.

  Lemma meta_reads : forall prep ops f r c, prep [] = [] ->
    no_mix ops -> kwargs_ok ops -> completed mem prep ops f -> r_open f = Ok (r, c) ->
    forall k nm, k <> "mapping" ->
      (forall d fld, get_metadata r k nm = Ok d -> 
         ~ (nm = "metadata" /\ In fld ["n_bytes"; "total_bytes"; "version"]) ->
         dget fld d = last_value k nm fld ops None) /\
      (meta_named k nm ops -> starts_underscore nm = false -> exists d, get_metadata r k nm = Ok d) /\
      (~ meta_named k nm ops -> nm <> "metadata" -> get_metadata r k nm = Raise KeyError) /\
      (starts_underscore nm = true -> get_metadata r k nm = Raise KeyError) /\
      (~ touched k ops -> (forall n, ~ meta_named k n ops) -> k <> "data" ->
         get_metadata r k nm = Raise KeyError).
  Proof.
    intros prep ops f r c HP HM HK (w & order & R & P & F) HO k nm Hk.
    pose proof (run_names_ok _ _ _ _ _ R) as HN. 
    split; [|split; [|split; [|split]]].
    - intros d fld G NR.
      pose proof (the_inv mem prep ops w HM HN HK R) as HI.
      destruct (file_node mem prep ops w order f HP HM HN HK R P F)
        as (w' & total & ET & N & FA & FW & FK & FX & FM & FD & MV).
      apply r_open_contents in HO.
      destruct (dget k f) as [n|] eqn:E.
      2:{ rewrite (get_metadata_absent f r k) in G by auto. discriminate. }
      assert (starts_underscore nm = false /\ nm <> "info") as [U I].
      { destruct (contents_spec f r N HO) as (S1 & S2 & S3).
        unfold get_metadata in G. rewrite S3 in G. rewrite (eqb_neq _ _ Hk), E in G.
        destruct (visible_names n) eqn:V; [discriminate|]. rewrite <- V in G.
        destruct (smem nm (visible_names n)) eqn:S; [|discriminate].
        apply smem_In in S. unfold visible_names in S. apply filter_In in S.
        destruct S as [_ S]. apply andb_true_iff in S. destruct S as [S4 S5].
        split; [now apply negb_true_iff|]. intros ->. discriminate. }
      rewrite (get_metadata_spec f r k nm n N HO Hk E U I) in G.
      rewrite (FM k n nm (or_introl Hk) I E), MV in G. cbv zeta in G.
      assert (dget fld (match mview k nm (w_meta w) with Some d => d | None => [] end) =
              last_value k nm fld ops None) as L.
      { destruct (meta_named_dec k nm ops) as [B|B].
        - destruct (i_meta _ _ _ _ _ HI k nm B) as (d' & D1 & D2). now rewrite D1.
        - rewrite (i_metan _ _ _ _ _ HI k nm B), last_value_none; auto. }
      destruct (String.eqb_spec nm "metadata").
      + rewrite !andb_true_r in G.
        assert (fld <> "n_bytes" /\ fld <> "total_bytes" /\ fld <> "version") as (H1 & H2 & H3)
            by (repeat split; intros ->; apply NR; simpl; auto).
        destruct (smem k (w_keys w)); destruct (String.eqb k "data");
          [| | |destruct (mview k nm (w_meta w)); [injection G as <-; exact L|discriminate]];
          injection G as <-; unfold dupdate; cbn [fold_left fst snd];
          rewrite ?dget_dset; rewrite ?(eqb_neq _ _ H1), ?(eqb_neq _ _ H2), ?(eqb_neq _ _ H3); auto.
      + rewrite !andb_false_r in G. destruct (mview k nm (w_meta w)); inversion G; subst; auto.
    - intros B U.
      destruct (read_metadata mem prep ops w order f HP HM HN HK R P F k nm r c HO B Hk U) as (d & D & _).
      eauto.
    - intros B Hm.
      apply (read_metadata_absent mem prep ops w order f HP HM HN HK R P F k nm r c HO B Hm).
    - intros U.
      destruct (file_node mem prep ops w order f HP HM HN HK R P F) as (w' & total & _ & N & _).
      apply r_open_contents in HO. apply (get_metadata_hidden f r k nm N HO U).
    - intros B1 B2 B3. apply (read_metadata_nokey mem prep ops w order f HP HM HN HK R P F k nm r c HO).
      unfold known. unfold touched in B1. intros [X|[X|[X|[[n X]|X]]]]; try tauto. now apply (B2 n).
  Qed.

  (** The mapping of a completed file. *)
  Lemma run_mapping : forall prep ops w w', ~ by_append "mapping" ops -> ~ by_write "mapping" ops ->
    w_run mem prep ops w = (w', None) ->
    dget "mapping" (w_store w') =
    match last_mapping ops None with
    | Some (df, md) => Some (Node Fixed df [("metadata", md)])
    | None => dget "mapping" (w_store w)
    end.
  Proof.
    intros prep.
    assert (forall ops acc, last_mapping ops acc =
              match last_mapping (A:=A) ops None with Some x => Some x | None => acc end) as LM.
    { induction ops as [|o ops IH]; intros acc; cbn [last_mapping]; auto.
      destruct o; auto. rewrite IH. destruct (last_mapping ops None); auto. }
    induction ops as [|o ops IH]; intros w w' HA HW R; cbn [w_run last_mapping] in *.
    - now inversion R.
    - assert (~ by_append "mapping" ops) as HA2 by (intros [df I]; apply HA; exists df; now right).
      assert (~ by_write "mapping" ops) as HW2
        by (intros (a & b & I & J); apply HW; exists a, b; split; auto; now right).
      destruct (w_step mem prep w o) as [w1 [e|]] eqn:S; [discriminate|].
      rewrite (IH w1 w' HA2 HW2 R). clear IH R.
      destruct o as [k df|kvs|k nm kw|df md]; cbn [w_step last_mapping] in *.
      + destruct (last_mapping ops None) as [[? ?]|]; auto.
        assert (k <> "mapping") as Hk by (intros ->; apply HA; exists df; now left).
        unfold w_append in S.
        match type of S with (if ?c then _ else _) = _ => destruct c end;
          [|now inversion S].
        unfold w_flush in S. cbn [w_buf w_store] in S.
        destruct (dgetd [] k _) as [|x l] in S; [now inversion S|].
        destruct (st_append k _ _) as [s|e] eqn:A1 in S; [|discriminate].
        inversion S; subst; clear S. cbn [w_store].
        unfold st_append in A1. destruct (prep (List.concat (x :: l))); [now inversion A1|].
        destruct (dget k (w_store w)) as [n|] in A1; [destruct (n_fmt n) in A1|];
          inversion A1; apply dget_dset_neq; auto.
      + destruct (last_mapping ops None) as [[? ?]|]; auto.
        inversion S; subst; clear S.
        assert (forall df, ~ In ("mapping", df) kvs) as HK
          by (intros df I; apply HW; exists kvs, df; split; auto; now left).
        clear - HK. unfold w_write. revert w. induction kvs as [|[k v] kvs IH]; intros w; cbn [fold_left]; auto.
        rewrite IH by (intros df I; apply (HK df); now right).
        cbn [w_write1 w_store fst snd]. unfold st_put. apply dget_dset_neq.
        intros E. apply (HK v). left. now rewrite E.
      + destruct (last_mapping ops None) as [[? ?]|]; auto.
        unfold w_add_metadata in S. destruct (smem nm _); inversion S; auto.
      + rewrite (LM ops (Some (df, md))). destruct (last_mapping ops None) as [[? ?]|]; auto.
        injection S as <-. unfold w_add_mapping. cbn [w_store].
        rewrite dget_setattr, eqb_refl. unfold st_put. rewrite dget_dset_eq. reflexivity.
  Qed.

  Lemma mapping_reads : forall prep ops f r c, prep [] = [] ->
    no_mix ops -> kwargs_ok ops -> completed mem prep ops f -> r_open f = Ok (r, c) ->
    ~ by_append "mapping" ops -> ~ by_write "mapping" ops ->
    (forall df md, last_mapping ops None = Some (df, md) -> ~ meta_named "mapping" "metadata" ops ->
       get_mapping r = Ok (df, md)) /\
    (forall df md, last_mapping ops None = Some (df, md) -> meta_named "mapping" "metadata" ops ->
       exists d, get_mapping r = Ok (df, d) /\
         forall fld, dget fld d = last_value "mapping" "metadata" fld ops None) /\
    (~ has_mapping ops -> (forall nm, ~ meta_named "mapping" nm ops) -> get_mapping r = Raise KeyError).
  Proof.
    intros prep ops f r c HP HM HK (w & order & R & P & F) HO HA HW.
    pose proof (run_names_ok _ _ _ _ _ R) as HN.
    pose proof (the_inv mem prep ops w HM HN HK R) as HI.
    pose proof (run_mapping prep ops _ _ HA HW R) as RM. cbn [w_init w_store dget] in RM.
    destruct (file_node mem prep ops w order f HP HM HN HK R P F)
      as (w2 & total2 & _ & _ & _ & _ & FK & _).
    destruct (the_file mem prep ops w order f HM HN HK R P F)
      as (w' & total & E & ET & N & WF & MV & MK & FA & FN).
    destruct (FN "mapping" HA) as [_ ND]. unfold nd in ND. rewrite RM in ND.
    apply r_open_contents in HO. destruct (contents_spec f r N HO) as (S1 & _ & _).
    assert (forall n, mview "mapping" n (data_md w' total) = mview "mapping" n (w_meta w)) as MM.
    { intros n. unfold data_md. rewrite mview_update. rewrite MV.
      assert (smem "mapping" (w_keys w) = false) as ->.
      { apply smem_false. rewrite (i_keys _ _ _ _ _ HI). tauto. }
      reflexivity. }
    assert (forall df md, last_mapping ops None = Some (df, md) ->
      exists n, dget "mapping" f = Some n /\ n_rows n = df /\
        dget "metadata" (n_attrs n) =
        match mview "mapping" "metadata" (w_meta w) with Some d => Some d | None => Some md end) as X.
    { intros df md L. rewrite L in ND. rewrite E, dget_save by apply WF. rewrite ND.
      rewrite <- MM. unfold mview.
      destruct (dget "mapping" (data_md w' total)) as [sub|] eqn:D.
      - eexists. split; [reflexivity|]. cbn [base_node n_rows n_attrs]. split; auto.
        rewrite dget_dupdate by (eapply WF; eauto). cbn [dget String.eqb].
        reflexivity.
      - eexists. split; [reflexivity|]. split; reflexivity. }
    unfold get_mapping. rewrite S1.
    split; [|split].
    - intros df md L NM. destruct (X df md L) as (n & -> & <- & ->).
      rewrite (i_metan _ _ _ _ _ HI _ _ NM). reflexivity.
    - intros df md L NM. destruct (X df md L) as (n & -> & <- & ->).
      destruct (i_meta _ _ _ _ _ HI _ _ NM) as (d & -> & D). eauto.
    - intros M NM. destruct (dget "mapping" f) as [n|] eqn:D; auto. exfalso.
      pose proof (FK _ _ D) as Y. unfold known in Y. assert ("mapping" <> "data") by discriminate.
      assert (~ exists nm, meta_named "mapping" nm ops) by (intros [nm Z]; now apply (NM nm)). tauto.
  Qed.

  Lemma totals : forall prep ops f r c, prep [] = [] ->
    no_mix ops -> kwargs_ok ops -> completed mem prep ops f -> r_open f = Ok (r, c) ->
      exists ks size md, NoDup ks /\
        (forall k, In k ks <-> by_append k ops \/ by_write k ops) /\
        (forall k, In k ks -> k <> "mapping" -> get_n_bytes r k = Ok (VInt (size k))) /\
        (forall k, by_append k ops -> exists chunks, List.concat chunks = appended k ops /\
            size k = sum (map (fun x => mem (prep x)) chunks) /\ rows_of f k = List.concat (map prep chunks)) /\
        (forall k df, by_write k ops -> last_written k ops None = Some df -> size k = mem df) /\
        get_metadata r "data" "metadata" = Ok md /\
        dget "total_bytes" md = Some (VInt (sum (map size ks))) /\
        dget "version" md = Some (VStr lib_version).
  Proof.
    intros prep ops f r c HP HM HK (w & order & R & P & F) HO.
    pose proof (run_names_ok _ _ _ _ _ R) as HN. 
    apply r_open_contents in HO as HC.
    pose proof (the_inv mem prep ops w HM HN HK R) as HI.
    destruct (file_node mem prep ops w order f HP HM HN HK R P F)
        as (w' & total & ET & N & FA & FW & FK & FX & FM & FD & MV).
    assert (forall k n, In k (w_keys w) -> k <> "mapping" -> dget k f = Some n ->
        get_n_bytes r k = Ok (VInt (nb k w'))) as NB.
    { intros k n I Hk E.
      unfold get_n_bytes. rewrite (get_metadata_spec f r k "metadata" n); auto; try discriminate.
      rewrite (FM k n "metadata" (or_introl Hk)) by (auto; discriminate). rewrite MV. cbv zeta.
      rewrite (proj2 (smem_In k (w_keys w))) by auto. simpl.
      destruct (String.eqb k "data"); simpl; unfold dlookup, dupdate; cbn [fold_left fst snd];
        rewrite !dget_dset; reflexivity. }
    destruct (dget "data" f) as [n|] eqn:E; [|exfalso; apply (FX "data"); auto].
    assert (exists md, dget "metadata" (n_attrs n) = Some md /\
               dget "total_bytes" md = Some (VInt total) /\
               dget "version" md = Some (VStr lib_version)) as (md & M1 & M2 & M3).
    { rewrite (FM "data" n "metadata") by (auto; (discriminate || (left; discriminate))).
      rewrite MV. cbv zeta. simpl.
      eexists. split; [reflexivity|]. unfold dupdate. cbn [fold_left fst snd].
      rewrite !dget_dset. auto. }
    exists (w_keys w), (fun k => nb k w'), md.
    split; [apply (i_keysnd _ _ _ _ _ HI)|]. split; [apply (i_keys _ _ _ _ _ HI)|].
    split; [|split; [|split; [|split; [|split]]]].
    - intros k I Hk. assert (exists n1, dget k f = Some n1) as [n1 E1].
      { apply (i_keys _ _ _ _ _ HI) in I. destruct (by_append_dec k ops) as [B|B].
        - destruct (FA k B) as (ch & _ & _ & n1 & X & _). eauto.
        - destruct I as [I|I]; [contradiction|].
          destruct (FW k I B) as (ch & _ & _ & n1 & X & _). eauto. }
      eauto.
    - intros k B. destruct (FA k B) as (ch & C1 & C2 & n1 & C3 & C4 & _). exists ch.
      split; auto. split; auto. unfold rows_of. rewrite C3. exact C4.
    - intros k df B L. assert (~ by_append k ops) as BnA.
      { intros X. destruct (HM k X) as [Y _]. contradiction. }
      destruct (FW k B BnA) as (df' & C1 & C2 & _). congruence.
    - rewrite (get_metadata_spec f r "data" "metadata" n); auto; try discriminate. now rewrite M1.
    - rewrite M2, ET. reflexivity.
    - exact M3.
  Qed.

  Lemma opens_iff : forall prep ops f, prep [] = [] ->
    no_mix ops -> kwargs_ok ops -> completed mem prep ops f ->
    ((exists r c, r_open f = Ok (r, c)) <-> meta_complete ops) /\
    (meta_complete ops -> exists r, r_open f = Ok (r, Eq)).
  Proof.
    intros prep ops f HP HM HK (w & order & R & P & F).
    pose proof (run_names_ok _ _ _ _ _ R) as HN.
    assert (meta_complete ops -> exists r, r_open f = Ok (r, Eq)) as X.
    { intros MC. apply (open_ok mem prep ops w order f HP HM HN HK R P F MC). }
    split; auto. split.
    - intros (r & c & HO). apply (open_complete mem prep ops w order f HP HM HN HK R P F r c HO).
    - intros MC. destruct (X MC) as [r HO]. eauto.
  Qed.

  (** Stopping at any point. *)
  Lemma crash : forall ops w e order, no_mix ops -> kwargs_ok ops ->
    w_run mem idf ops w_init = (w, e) -> Permutation order (w_keys w) ->
    exists pre post f, ops = pre ++ post /\ w_finish mem idf order w = Ok f /\
      (forall k, appended k pre <> [] -> st_get k f = Ok (appended k pre)) /\
      (forall k, by_append k pre ->
         rows_of (w_store w) k ++ List.concat (dgetd [] k (w_buf w)) = appended k pre /\
         sum (map mem (dgetd [] k (w_buf w))) < 500000000) /\
      match e with
      | None => post = []
      | Some x => x = ValueError /\ exists key name kw post', post = AddMeta key name kw :: post' /\
                    (name = "info" \/ name = "mapping")
      end.
  Proof.
    intros ops w e order HM HK HR P.
    destruct (run_stops mem idf ops w e HM HK HR) as (pre & post & -> & R & HE).
    apply no_mix_app_l in HM. apply kwargs_ok_app_l in HK.
    destruct (finish_rows mem idf pre w order HM HK eq_refl R P) as (f & F & FR).
    exists pre, post, f. split; auto. split; auto. split; [|split; auto].
    - intros k NE. assert (by_append k pre) as B.
      { destruct (by_append_dec k pre); auto. now rewrite appended_nil in NE. }
      destruct (FR k B) as (ch & C1 & C2). rewrite map_idf, C1 in C2. exact C2.
    - intros k B. destruct (run_state mem idf pre w HM HK eq_refl R k B) as (ch & C1 & C2 & _ & C4).
      rewrite map_idf in C2. split; [|exact C4]. unfold rows_of. rewrite C2. exact C1.
  Qed.

  (** A call with a reserved name. *)
  Lemma reserved_refused : forall prep key name kw (w : writer A),
    ((name = "info" \/ name = "mapping") -> w_step mem prep w (AddMeta key name kw) = (w, Some ValueError)) /\
    (name <> "info" -> name <> "mapping" ->
       exists w', w_step mem prep w (AddMeta key name kw) = (w', None)).
  Proof.
    intros. split.
    - intros [-> | ->]; reflexivity.
    - intros H1 H2. cbn [w_step]. unfold w_add_metadata.
      destruct (smem name ["info"; "mapping"]) eqn:E; eauto.
      apply reserved_spec in E. tauto.
  Qed.
End E.
