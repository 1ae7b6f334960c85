(** End results for the HDF5 topic. *)
From Coq Require Import List ZArith String Bool Permutation Lia.
From Verif.Base Require Import Py PyFacts.
From Verif.Hdf5 Require Import Model Spec Proofs.
Import ListNotations.
Local Open Scope string_scope.
Local Open Scope list_scope.
Local Open Scope Z_scope.

Lemma r_open_contents : forall A (s : store A) r c, r_open s = Ok (r, c) -> contents s = Ok r.
Proof.
  unfold r_open. intros A s r c H. destruct (contents s) as [r0|]; [|discriminate].
  cbn [bind] in H. destruct (r_version r0) as [v|]; [|discriminate]. cbn [bind] in H.
  destruct (major v); [|discriminate]. cbn [bind] in H.
  destruct (major (VStr lib_version)); [|discriminate]. cbn [bind] in H.
  inversion H; subst. reflexivity.
Qed.

Lemma contents_meta_gen : forall A (l : list (string * node A)) r r', foldM contents_key l r = Ok r' ->
  forall k n, dget k l = Some n -> exists d, dget "metadata" (n_attrs n) = Some d.
Proof.
  induction l as [|[k0 n0] l IH]; intros r r' H k n E; [discriminate|].
  cbn [foldM] in H. destruct (contents_key r (k0, n0)) as [r1|] eqn:C; [|discriminate].
  cbn [bind] in H. cbn [dget] in E. destruct (String.eqb k k0).
  - inversion E; subst. unfold contents_key in C.
    destruct (dget "metadata" (n_attrs n)); [eauto|discriminate].
  - eapply IH; eauto.
Qed.

Lemma contents_meta : forall A (s : store A) r, contents s = Ok r ->
  forall k n, dget k s = Some n -> exists d, dget "metadata" (n_attrs n) = Some d.
Proof. intros A s r H. unfold contents in H. eapply contents_meta_gen; eauto. Qed.

Section Fin.
  Context {A : Type}.
  Variable mem : list A -> Z.
  Hypothesis mem_pos : forall l, l <> [] -> 0 < mem l.
  Hypothesis mem_nonneg : forall l, 0 <= mem l.

  Lemma bytes_pos : forall prep c, stored (A:=A) prep c <> [] -> 0 < bytes mem prep c.
  Proof.
    unfold stored, bytes. induction c as [|x c IH]; cbn [map List.concat]; intros H.
    - now contradiction H.
    - change (0 < mem (prep x) + sum (map (fun y => mem (prep y)) c)).
      destruct (prep x) as [|y l] eqn:E.
      + apply IH in H. pose proof (mem_nonneg []). lia.
      + pose proof (mem_pos (y :: l)).
        assert (0 <= sum (map (fun y0 => mem (prep y0)) c)).
        { clear -mem_nonneg. induction c; cbn [map]; [cbn; lia|].
          change (0 <= mem (prep a) + sum (map (fun y0 => mem (prep y0)) c)).
          pose proof (mem_nonneg (prep a)). lia. }
        assert (y :: l <> []) by discriminate. specialize (H0 H2). lia.
  Qed.

  (** Everything one needs to know about a file completed by HDF5Writer. *)
  Section File.
    Variable prep : list A -> list A.
    Variable ops : list (op A).
    Variable w : writer A.
    Variable order : list string.
    Variable f : store A.
    Hypothesis prep_nil : prep [] = [].
    Hypothesis HM : no_mix ops.
    Hypothesis HN : names_ok ops.
    Hypothesis HK : kwargs_ok ops.
    Hypothesis HR : w_run mem prep ops w_init = (w, None).
    Hypothesis HP : Permutation order (w_keys w).
    Hypothesis HF : w_finish mem prep order w = Ok f.

    Lemma the_inv : Inv mem prep [] ops w.
    Proof.
      destruct (run_Inv mem prep [] ops [] w_init) as (w' & R1 & R2); auto.
      - intros k _ n E. discriminate.
      - apply Inv_init. constructor.
      - rewrite R1 in HR. inversion HR; subst. exact R2.
    Qed.

    Lemma the_file : exists w' total,
      f = save_metadata (data_md w' total) (w_store w') /\
      total = sum (map (fun k => nb k w') (w_keys w)) /\
      NoDup (dkeys f) /\ meta_wf (data_md w' total) /\
      (forall k n, mview k n (w_meta w') =
         if smem k (w_keys w) && String.eqb n "metadata"
         then Some (dupdate (match mview k n (w_meta w) with Some d => d | None => [] end)
                            [("n_bytes", VInt (nb k w'))])
         else mview k n (w_meta w)) /\
      (forall k, dget k (w_meta w') <> None -> In k (w_keys w) \/ dget k (w_meta w) <> None) /\
      (forall k, by_append k ops -> exists c, List.concat c = appended k ops /\ akey mem prep [] k w' c) /\
      (forall k, ~ by_append k ops -> nb k w' = nb k w /\ nd k w' = nd k w).
    Proof.
      destruct (finish_file mem prep [] ops order w) as (w' & F1 & F2 & F3 & F4 & F5 & F6 & F7); auto.
      - intros k _ n E. discriminate.
      - apply the_inv.
      - exists w', (sum (map (fun k => nb k w') (w_keys w))).
        assert (f = save_metadata (data_md w' (sum (map (fun k => nb k w') (w_keys w)))) (w_store w')) as E.
        { unfold w_finish in HF. rewrite F1 in HF. cbn [bind] in HF. rewrite Z.add_0_l in HF.
          inversion HF. reflexivity. }
        split; auto. split; auto. split.
        { rewrite E. now apply NoDup_save. }
        split; auto. unfold data_md. now apply meta_wf_update.
    Qed.

    (** Does the file have a node for this key? *)
    Definition known (k : string) : Prop :=
      k = "data" \/ by_append k ops \/ by_write k ops \/ (exists n, meta_named k n ops) \/
      (k = "mapping" /\ has_mapping ops).

    Definition rsv (n fld : string) : Prop :=
      n = "metadata" /\ In fld ["n_bytes"; "total_bytes"; "version"].

    Lemma mview_final : forall (w' : writer A) total k n,
      (forall k n, mview k n (w_meta w') =
         if smem k (w_keys w) && String.eqb n "metadata"
         then Some (dupdate (match mview k n (w_meta w) with Some d => d | None => [] end)
                            [("n_bytes", VInt (nb k w'))])
         else mview k n (w_meta w)) ->
      mview k n (data_md w' total) =
      let a := mview k n (w_meta w) in
      let b := if smem k (w_keys w) && String.eqb n "metadata"
               then Some (dupdate (match a with Some d => d | None => [] end)
                            [("n_bytes", VInt (nb k w'))])
               else a in
      if String.eqb k "data" && String.eqb n "metadata"
      then Some (dupdate (match b with Some d => d | None => [] end)
              [("total_bytes", VInt total); ("version", VStr lib_version)])
      else b.
    Proof.
      intros w' total k n H. unfold data_md. rewrite mview_update, !H. reflexivity.
    Qed.

    Lemma stored_nil : forall c, List.concat c = [] -> stored prep c = [].
    Proof.
      unfold stored. induction c as [|x c IH]; simpl; auto. intros H.
      apply app_eq_nil in H. destruct H as [-> H]. rewrite prep_nil. simpl. auto.
    Qed.

    (** Nodes of the file. *)
    Lemma file_node : exists (w' : writer A) total,
      total = sum (map (fun k => nb k w') (w_keys w)) /\
      NoDup (dkeys f) /\
      (forall k, by_append k ops -> exists c, List.concat c = appended k ops /\
           nb k w' = bytes mem prep c /\
           exists n, dget k f = Some n /\ n_rows n = stored prep c /\
                     (stored prep c <> [] -> n_fmt n = Table)) /\
      (forall k, by_write k ops -> ~ by_append k ops -> exists df,
           last_written k ops None = Some df /\ nb k w' = mem df /\
           exists n, dget k f = Some n /\ n_fmt n = Fixed /\
             ((k <> "mapping" \/ ~ has_mapping ops) -> n_rows n = df)) /\
      (forall k n, dget k f = Some n -> known k) /\
      (forall k, k = "data" \/ (exists n, meta_named k n ops) -> dget k f <> None) /\
      (forall k n nm, (k <> "mapping" \/ ~ has_mapping ops) -> nm <> "info" -> dget k f = Some n ->
           dget nm (n_attrs n) = mview k nm (data_md w' total)) /\
      (forall k n, dget k f = Some n ->
          mview k "metadata" (data_md w' total) <> None \/
          (k = "mapping" /\ has_mapping ops) ->
          dget "metadata" (n_attrs n) <> None) /\
      (forall k n, mview k n (data_md w' total) =
         let a := mview k n (w_meta w) in
         let b := if smem k (w_keys w) && String.eqb n "metadata"
               then Some (dupdate (match a with Some d => d | None => [] end)
                            [("n_bytes", VInt (nb k w'))])
               else a in
         if String.eqb k "data" && String.eqb n "metadata"
         then Some (dupdate (match b with Some d => d | None => [] end)
              [("total_bytes", VInt total); ("version", VStr lib_version)])
         else b).
    Proof.
      pose proof the_inv as HI.
      destruct the_file as (w' & total & E & ET & N & WF & MV & MK & FA & FN).
      exists w', total. split; auto. split; auto.
      assert (forall k n, In k (w_keys w) -> n = "metadata" ->
              mview k n (data_md w' total) <> None) as MIN.
      { intros k n I ->. rewrite mview_final by auto.
        apply smem_In in I. rewrite I. simpl. destruct (String.eqb k "data"); simpl; discriminate. }
      assert (forall k, dget k f = match dget k (data_md w' total) with
                | None => dget k (w_store w')
                | Some sub => let nd := base_node (dget k (w_store w')) in
                    Some (Node (n_fmt nd) (n_rows nd) (dupdate (n_attrs nd) sub)) end) as DF.
      { intros. rewrite E. apply dget_save. apply WF. }
      assert (forall k, nd k w' = None \/ exists n, nd k w' = Some n) as Hnd.
      { intros. destruct (nd k w'); eauto. }
      assert (forall k n, dget k f = Some n -> dget k (data_md w' total) <> None \/ nd k w' <> None) as DF2.
      { intros k n. rewrite DF. unfold nd. destruct (dget k (data_md w' total)); [left; discriminate|].
        intros ->. right. discriminate. }
      assert (forall k, In k (w_keys w) -> dget k (data_md w' total) <> None) as KIN.
      { intros k I H. apply (MIN k "metadata" I eq_refl). unfold mview. now rewrite H. }
      (* base attributes *)
      assert (forall k, (k <> "mapping" \/ ~ has_mapping ops) -> forall nm, nm <> "info" ->
              dget nm (n_attrs (base_node (nd k w'))) = None) as BA.
      { intros k Hk nm Hnm. destruct (by_append_dec k ops) as [B|B].
        - destruct (FA k B) as (c & _ & C & _). rewrite C. unfold tbl. cbn [dget].
          destruct (stored prep c); cbn [base_node n_attrs dget]; auto. now rewrite (eqb_neq _ _ Hnm).
        - destruct (FN k B) as [_ C]. rewrite C.
          destruct (by_write_dec k ops) as [B2|B2].
          + destruct (i_wr _ _ _ _ _ HI k B2 B) as (df & _ & _ & D). rewrite D by auto. reflexivity.
          + destruct (i_app _ _ _ _ _ HI k B2) as (c & C1 & C2 & _); [tauto|].
            rewrite C2. unfold tbl. cbn [dget].
            destruct (stored prep c); cbn [base_node n_attrs dget]; auto. now rewrite (eqb_neq _ _ Hnm). }
      assert (forall k sub, dget k (data_md w' total) = Some sub -> NoDup (dkeys sub)) as SND.
      { intros. eapply WF; eauto. }
      split; [|split; [|split; [|split; [|split; [|split]]]]].
      - intros k B. destruct (FA k B) as (c & C1 & C2 & C3).
        exists c. split; auto. split; auto.
        assert (In k (w_keys w)) as I by (apply (i_keys _ _ _ _ _ HI); auto).
        apply KIN in I. rewrite DF. destruct (dget k (data_md w' total)) eqn:D; [|contradiction].
        eexists; split; [reflexivity|]. cbn [n_rows n_fmt].
        unfold nd in C2. rewrite C2. unfold tbl. cbn [dget]. destruct (stored prep c); simpl; auto.
        split; auto. intros H; now contradiction H.
      - intros k B BnA. destruct (i_wr _ _ _ _ _ HI k B BnA) as (df & D1 & D2 & D3).
        exists df. split; auto. destruct (FN k BnA) as [FN1 FN2]. split; [congruence|].
        assert (In k (w_keys w)) as I by (apply (i_keys _ _ _ _ _ HI); auto).
        apply KIN in I. rewrite DF. destruct (dget k (data_md w' total)) eqn:D; [|contradiction].
        eexists; split; [reflexivity|]. cbn [n_rows n_fmt]. unfold nd in FN2. rewrite FN2.
        split.
        + destruct (String.eqb_spec k "mapping").
          * destruct (has_mapping_dec ops) as [M|M].
            -- subst. destruct (i_map _ _ _ _ _ HI M BnA) as (n & N1 & N2 & _).
               unfold nd in N1. rewrite N1. exact N2.
            -- unfold nd in D3. rewrite D3 by auto. reflexivity.
          * unfold nd in D3. rewrite D3 by auto. reflexivity.
        + intros C. unfold nd in D3. rewrite D3 by auto. reflexivity.
      - intros k n H. apply DF2 in H. unfold known. destruct H as [H|H].
        + unfold data_md in H. rewrite dget_meta_update in H.
          destruct (String.eqb_spec k "data"); [auto|].
          destruct (MK k H) as [J|J].
          * apply (i_keys _ _ _ _ _ HI) in J. tauto.
          * apply (i_metak _ _ _ _ _ HI) in J. auto.
        + destruct (by_append_dec k ops) as [B|B]; auto.
          destruct (by_write_dec k ops) as [B2|B2]; auto.
          destruct (FN k B) as [_ C]. rewrite C in H.
          assert (k = "mapping" /\ has_mapping ops \/ ~ (k = "mapping" /\ has_mapping ops)) as [M|M].
          { destruct (has_mapping_dec ops); destruct (String.eqb_spec k "mapping"); tauto. }
          { auto 6. }
          destruct (i_app _ _ _ _ _ HI k B2 M) as (c & C1 & C2 & _).
          rewrite (appended_nil k ops B) in C1. apply app_eq_nil in C1. destruct C1 as [C1 _].
          exfalso. apply H. rewrite C2. rewrite stored_nil by auto. reflexivity.
      - intros k H. rewrite DF. 
        assert (dget k (data_md w' total) <> None) as H2.
        { unfold data_md. rewrite dget_meta_update. destruct (String.eqb_spec k "data"); [discriminate|].
          destruct H as [H|[n1 H]]; [contradiction|].
          destruct (i_meta _ _ _ _ _ HI k n1 H) as (d & D & _).
          specialize (MV k n1). intros X. unfold mview in MV at 1. rewrite X in MV.
          destruct (smem k (w_keys w) && (n1 =? "metadata")%string); [discriminate|].
          rewrite D in MV. discriminate. }
        destruct (dget k (data_md w' total)); [discriminate|contradiction].
      - intros k n nm Hk Hnm. rewrite DF. unfold mview.
        pose proof (BA k Hk nm Hnm) as B. unfold nd in B.
        destruct (dget k (data_md w' total)) as [sub|] eqn:D.
        + intros X; inversion X; subst. cbn [n_attrs]. rewrite dget_dupdate by eauto.
          rewrite B. destruct (dget nm sub); auto.
        + intros X. rewrite X in B. exact B.
      - intros k n. rewrite DF.
        destruct (dget k (data_md w' total)) as [sub|] eqn:D.
        + intros X; inversion X; subst; clear X. cbn [n_attrs]. rewrite dget_dupdate by eauto.
          intros [J|[-> J]].
          * unfold mview in J. rewrite D in J. destruct (dget "metadata" sub); [discriminate|contradiction].
          * destruct (dget "metadata" sub) eqn:D2; [discriminate|].
            destruct (by_append_dec "mapping" ops) as [B|B].
            { destruct (HM _ B) as [_ X]. exfalso. apply X. auto. }
            destruct (i_map _ _ _ _ _ HI J B) as (n0 & N1 & N2 & [N3|N3]).
            -- destruct (FN _ B) as [_ C]. unfold nd in C, N1. rewrite C, N1. exact N3.
            -- exfalso. apply (MIN "mapping" "metadata"); auto.
               ++ apply (i_keys _ _ _ _ _ HI). auto.
               ++ unfold mview. now rewrite D.
        + intros X [J|[-> J]].
          * unfold mview in J. rewrite D in J. contradiction.
          * destruct (by_append_dec "mapping" ops) as [B|B].
            { destruct (HM _ B) as [_ Y]. exfalso. apply Y. auto. }
            destruct (i_map _ _ _ _ _ HI J B) as (n0 & N1 & N2 & [N3|N3]).
            -- destruct (FN _ B) as [_ C]. unfold nd in C, N1. congruence.
            -- exfalso. apply (KIN "mapping"); auto. apply (i_keys _ _ _ _ _ HI). auto.
      - intros. apply mview_final. auto.
    Qed.

    (** Rows and size of an appended table (C01, C03). *)
    Lemma read_appended : forall k r cmp,
      r_open f = Ok (r, cmp) -> by_append k ops -> k <> "mapping" ->
      exists c, List.concat c = appended k ops /\
        get_n_bytes r k = Ok (VInt (bytes mem prep c)) /\
        (stored prep c <> [] -> r_read r k true = Ok (stored prep c)) /\
        (stored prep c <> [] -> bytes mem prep c <= 8000000000 ->
           r_read r k false = Ok (stored prep c)) /\
        st_get k (r_store r) = Ok (stored prep c).
    Proof.
      intros k r cmp HO B Hk. apply r_open_contents in HO.
      destruct file_node as (w' & total & ET & N & FA & FW & FK & FX & FM & FD & MV).
      destruct (FA k B) as (c & C1 & C2 & n & C3 & C4 & C5).
      exists c. split; auto.
      assert (In k (w_keys w)) as I by (apply (i_keys _ _ _ _ _ the_inv); auto).
      assert (exists d, dget "metadata" (n_attrs n) = Some d /\
              dget "n_bytes" d = Some (VInt (bytes mem prep c))) as (d & D1 & D2).
      { rewrite (FM k n "metadata" (or_introl Hk)) by (auto; discriminate). rewrite MV. cbv zeta.
        apply smem_In in I. rewrite I. simpl. rewrite C2.
        destruct (String.eqb k "data"); simpl; eexists; (split; [reflexivity|]).
        - unfold dupdate. cbn [fold_left fst snd]. rewrite !dget_dset. reflexivity.
        - unfold dupdate. cbn [fold_left fst snd]. rewrite !dget_dset. reflexivity. }
      assert (get_n_bytes r k = Ok (VInt (bytes mem prep c))) as GN.
      { unfold get_n_bytes. rewrite (get_metadata_spec f r k "metadata" n); auto; try discriminate.
        rewrite D1. cbn [bind]. unfold dlookup. now rewrite D2. }
      destruct (contents_spec f r N HO) as (S1 & S2 & S3).
      assert (st_get k (r_store r) = Ok (stored prep c)) as SG.
      { unfold st_get. rewrite S1, C3, C4. reflexivity. }
      assert (stored prep c <> [] -> In k (r_dfkeys r)) as ID.
      { intros NE. apply S2. exists n, d. repeat split; auto.
        unfold dgetd. rewrite D2. cbn [is_zero].
        apply bytes_pos in NE. apply Z.eqb_neq. lia. }
      split; auto. split; [|split]; auto.
      - intros NE. unfold r_read. rewrite (proj2 (smem_In k _) (ID NE)). cbn [negb].
        rewrite GN. cbn [bind over_8GB negb]. rewrite andb_false_r. exact SG.
      - intros NE LE. unfold r_read. rewrite (proj2 (smem_In k _) (ID NE)). cbn [negb].
        rewrite GN. cbn [bind over_8GB].
        replace (8000000000 <? bytes mem prep c) with false by (symmetry; apply Z.ltb_ge; lia).
        exact SG.
    Qed.

    (** Written tables (C09). *)
    Lemma read_written : forall k r cmp,
      r_open f = Ok (r, cmp) -> by_write k ops -> k <> "mapping" ->
      exists df, last_written k ops None = Some df /\
        get_n_bytes r k = Ok (VInt (mem df)) /\
        (0 < mem df -> r_read r k true = Ok df).
    Proof.
      intros k r cmp HO B Hk. apply r_open_contents in HO.
      assert (~ by_append k ops) as BnA.
      { intros X. destruct (HM k X) as [Y _]. contradiction. }
      destruct file_node as (w' & total & ET & N & FA & FW & FK & FX & FM & FD & MV).
      destruct (FW k B BnA) as (df & C1 & C2 & n & C3 & C4 & C5).
      exists df. split; auto.
      assert (In k (w_keys w)) as I by (apply (i_keys _ _ _ _ _ the_inv); auto).
      assert (exists d, dget "metadata" (n_attrs n) = Some d /\
              dget "n_bytes" d = Some (VInt (mem df))) as (d & D1 & D2).
      { rewrite (FM k n "metadata" (or_introl Hk)) by (auto; discriminate). rewrite MV. cbv zeta.
        apply smem_In in I. rewrite I. simpl. rewrite C2.
        destruct (String.eqb k "data"); simpl; eexists; (split; [reflexivity|]).
        - unfold dupdate. cbn [fold_left fst snd]. rewrite !dget_dset. reflexivity.
        - unfold dupdate. cbn [fold_left fst snd]. rewrite !dget_dset. reflexivity. }
      assert (get_n_bytes r k = Ok (VInt (mem df))) as GN.
      { unfold get_n_bytes. rewrite (get_metadata_spec f r k "metadata" n); auto; try discriminate.
        rewrite D1. cbn [bind]. unfold dlookup. now rewrite D2. }
      destruct (contents_spec f r N HO) as (S1 & S2 & S3).
      split; auto. intros NE. unfold r_read.
      assert (In k (r_dfkeys r)) as ID.
      { apply S2. exists n, d. repeat split; auto.
        unfold dgetd. rewrite D2. cbn [is_zero]. apply Z.eqb_neq. lia. }
      rewrite (proj2 (smem_In k _) ID). cbn [negb].
      rewrite GN. cbn [bind over_8GB negb]. rewrite andb_false_r.
      unfold st_get. rewrite S1, C3. f_equal. apply C5. auto.
    Qed.

    (** Metadata (C02). *)
    Lemma read_metadata : forall k nm r cmp,
      r_open f = Ok (r, cmp) -> meta_named k nm ops -> k <> "mapping" ->
      starts_underscore nm = false ->
      exists d, get_metadata r k nm = Ok d /\
        forall fld, ~ (nm = "metadata" /\ In fld ["n_bytes"; "total_bytes"; "version"]) ->
          dget fld d = last_value k nm fld ops None.
    Proof.
      intros k nm r cmp HO B Hk Hu. apply r_open_contents in HO.
      destruct file_node as (w' & total & ET & N & FA & FW & FK & FX & FM & FD & MV).
      assert (nm <> "info") as Hi by (destruct B as [kw B]; apply HN in B; tauto).
      destruct (dget k f) as [n|] eqn:E; [|exfalso; apply (FX k); eauto].
      rewrite (get_metadata_spec f r k nm n N HO Hk E Hu Hi).
      rewrite (FM k n nm (or_introl Hk) Hi E), MV. cbv zeta.
      destruct (i_meta _ _ _ _ _ the_inv k nm B) as (d & D1 & D2). rewrite D1.
      destruct (String.eqb_spec nm "metadata").
      - rewrite !andb_true_r.
        destruct (smem k (w_keys w)); destruct (String.eqb k "data"); eexists; (split; [reflexivity|]);
          intros fld Hf;
          assert (fld <> "n_bytes" /\ fld <> "total_bytes" /\ fld <> "version") as (H1 & H2 & H3)
            by (repeat split; intros ->; apply Hf; simpl; auto);
          unfold dupdate; cbn [fold_left fst snd];
          rewrite ?dget_dset; rewrite ?(eqb_neq _ _ H1), ?(eqb_neq _ _ H2), ?(eqb_neq _ _ H3); auto.
      - rewrite !andb_false_r. exists d. split; auto.
    Qed.

    Lemma read_metadata_absent : forall k nm r cmp,
      r_open f = Ok (r, cmp) -> ~ meta_named k nm ops -> nm <> "metadata" ->
      get_metadata r k nm = Raise KeyError.
    Proof.
      intros k nm r cmp HO B Hm. apply r_open_contents in HO.
      destruct file_node as (w' & total & ET & N & FA & FW & FK & FX & FM & FD & MV).
      destruct (contents_spec f r N HO) as (S1 & S2 & S3).
      unfold get_metadata. rewrite S3.
      destruct (String.eqb_spec k "mapping"); auto.
      destruct (dget k f) as [n1|] eqn:E; auto.
      destruct (visible_names n1) eqn:V; auto. rewrite <- V.
      rewrite (proj2 (smem_false nm (visible_names n1))); auto.
      intros X. unfold visible_names in X. apply filter_In in X. destruct X as [X1 X2].
      apply andb_true_iff in X2. destruct X2 as [_ X2].
      assert (nm <> "info") as Hi by (intros ->; discriminate).
      assert (dget nm (n_attrs n1) = None) as Z0; [|apply dget_None_iff in Z0; contradiction].
      rewrite (FM k n1 nm (or_introl n) Hi E), MV. cbv zeta. rewrite (eqb_neq _ _ Hm), !andb_false_r.
      apply (i_metan _ _ _ _ _ the_inv). auto.
    Qed.

    Lemma read_metadata_nokey : forall k nm r cmp,
      r_open f = Ok (r, cmp) -> ~ known k -> get_metadata r k nm = Raise KeyError.
    Proof.
      intros k nm r cmp HO B. apply r_open_contents in HO.
      destruct file_node as (w' & total & ET & N & FA & FW & FK & FX & FM & FD & MV).
      apply (get_metadata_absent f); auto. destruct (dget k f) eqn:E; auto.
      exfalso. apply B. eapply FK; eauto.
    Qed.

    (** Byte totals and version (C03). *)
    Lemma read_totals : forall r cmp,
      r_open f = Ok (r, cmp) ->
      exists ks nbs md, NoDup ks /\
        (forall k, In k ks <-> by_append k ops \/ by_write k ops) /\
        (forall k, In k ks -> k <> "mapping" -> get_n_bytes r k = Ok (VInt (nbs k))) /\
        (forall k, by_append k ops -> exists c, List.concat c = appended k ops /\ nbs k = bytes mem prep c) /\
        (forall k df, by_write k ops -> last_written k ops None = Some df -> nbs k = mem df) /\
        get_metadata r "data" "metadata" = Ok md /\
        dget "total_bytes" md = Some (VInt (sum (map nbs ks))) /\
        dget "version" md = Some (VStr lib_version).
    Proof.
      intros r cmp HO0. pose proof (r_open_contents _ _ _ _ HO0) as HO.
      destruct file_node as (w' & total & ET & N & FA & FW & FK & FX & FM & FD & MV).
      exists (w_keys w), (fun k => nb k w').
      destruct (dget "data" f) as [n|] eqn:E; [|exfalso; apply (FX "data"); auto].
      assert (exists md, dget "metadata" (n_attrs n) = Some md /\
               dget "total_bytes" md = Some (VInt total) /\
               dget "version" md = Some (VStr lib_version)) as (md & M1 & M2 & M3).
      { rewrite (FM "data" n "metadata") by (auto; (discriminate || (left; discriminate))). rewrite MV. cbv zeta. simpl.
        eexists. split; [reflexivity|]. unfold dupdate. cbn [fold_left fst snd].
        rewrite !dget_dset. auto. }
      exists md. split; [apply (i_keysnd _ _ _ _ _ the_inv)|].
      split; [apply (i_keys _ _ _ _ _ the_inv)|]. split; [|split; [|split; [|split; [|split]]]].
      - intros k I Hk. apply (i_keys _ _ _ _ _ the_inv) in I.
        destruct (by_append_dec k ops) as [B|B].
        + destruct (FA k B) as (c & C1 & C2 & n1 & C3 & C4 & C5).
          unfold get_n_bytes. rewrite (get_metadata_spec f r k "metadata" n1); auto; try discriminate.
          rewrite (FM k n1 "metadata" (or_introl Hk)) by (auto; discriminate). rewrite MV. cbv zeta.
          rewrite (proj2 (smem_In k (w_keys w))) by (apply (i_keys _ _ _ _ _ the_inv); auto). simpl.
          destruct (String.eqb k "data"); simpl; unfold dlookup, dupdate; cbn [fold_left fst snd];
            rewrite !dget_dset; reflexivity.
        + destruct I as [I|I]; [contradiction|].
          destruct (FW k I B) as (df & C1 & C2 & n1 & C3 & C4 & C5).
          unfold get_n_bytes. rewrite (get_metadata_spec f r k "metadata" n1); auto; try discriminate.
          rewrite (FM k n1 "metadata" (or_introl Hk)) by (auto; discriminate). rewrite MV. cbv zeta.
          rewrite (proj2 (smem_In k (w_keys w))) by (apply (i_keys _ _ _ _ _ the_inv); auto). simpl.
          destruct (String.eqb k "data"); simpl; unfold dlookup, dupdate; cbn [fold_left fst snd];
            rewrite !dget_dset; reflexivity.
      - intros k B. destruct (FA k B) as (c & C1 & C2 & _). eauto.
      - intros k df B L. assert (~ by_append k ops) as BnA.
        { intros X. destruct (HM k X) as [Y _]. contradiction. }
        destruct (FW k B BnA) as (df' & C1 & C2 & _). congruence.
      - rewrite (get_metadata_spec f r "data" "metadata" n); auto; try discriminate. now rewrite M1.
      - rewrite M2, ET. reflexivity.
      - exact M3.
    Qed.

    (** Opening (C06). *)
    Lemma open_ok : meta_complete ops -> exists r, r_open f = Ok (r, Eq).
    Proof.
      intros MC.
      destruct file_node as (w' & total & ET & N & FA & FW & FK & FX & FM & FD & MV).
      destruct (contents_ok f) as [r HC]; auto.
      { intros k n E. 
        assert (dget "metadata" (n_attrs n) <> None) as X.
        { apply (FD k n E).
          assert (k = "data" \/ by_append k ops \/ by_write k ops \/
                  (k = "mapping" /\ has_mapping ops) \/ meta_named k "metadata" ops) as H.
          { destruct (FK k n E) as [H|[H|[H|[[nm H]|H]]]]; auto 6. eapply MC; eauto. }
          destruct H as [H|[H|[H|[H|H]]]]; auto; left; rewrite MV; cbv zeta.
          - subst. simpl. discriminate.
          - rewrite (proj2 (smem_In k (w_keys w))) by (apply (i_keys _ _ _ _ _ the_inv); auto). simpl.
            destruct (String.eqb k "data"); discriminate.
          - rewrite (proj2 (smem_In k (w_keys w))) by (apply (i_keys _ _ _ _ _ the_inv); auto). simpl.
            destruct (String.eqb k "data"); discriminate.
          - destruct (i_meta _ _ _ _ _ the_inv k "metadata" H) as (d & D & _). rewrite D.
            simpl. destruct (String.eqb k "data"); destruct (smem k (w_keys w)); discriminate. }
        destruct (dget "metadata" (n_attrs n)); eauto. contradiction. }
      exists r. unfold r_open. rewrite HC. cbn [bind].
      destruct (dget "data" f) as [n|] eqn:E; [|exfalso; apply (FX "data"); auto].
      assert (r_version r = Ok (VStr lib_version)) as RV.
      { unfold r_version. rewrite (get_metadata_spec f r "data" "metadata" n); auto; try discriminate.
        rewrite (FM "data" n "metadata") by (auto; (discriminate || (left; discriminate))). rewrite MV. cbv zeta. simpl.
        unfold dupdate. cbn [fold_left fst snd]. rewrite !dget_dset. reflexivity. }
      rewrite RV. reflexivity.
    Qed.

    Lemma open_complete : forall r c, r_open f = Ok (r, c) -> meta_complete ops.
    Proof.
      intros r c HO k nm HB.
      destruct file_node as (w' & total & ET & N & FA & FW & FK & FX & FM & FD & MV).
      destruct (by_append_dec k ops) as [B1|B1]; auto.
      destruct (by_write_dec k ops) as [B2|B2]; auto.
      destruct (meta_named_dec k "metadata" ops) as [B3|B3]; auto 6.
      destruct (String.eqb_spec k "data") as [B4|B4]; auto.
      assert (k = "mapping" /\ has_mapping ops \/ (k <> "mapping" \/ ~ has_mapping ops)) as [B5|B5].
      { destruct (has_mapping_dec ops); destruct (String.eqb_spec k "mapping"); tauto. }
      { auto 6. }
      exfalso. destruct (dget k f) as [n|] eqn:E; [|apply (FX k); eauto].
      pose proof (FM k n "metadata" B5 ltac:(discriminate) E) as X.
      rewrite MV in X. cbv zeta in X. rewrite (eqb_neq _ _ B4) in X. cbn [andb] in X.
      assert (smem k (w_keys w) = false) as S.
      { apply smem_false. intros I. apply (i_keys _ _ _ _ _ the_inv) in I. tauto. }
      rewrite S in X. cbn [andb] in X. rewrite (i_metan _ _ _ _ _ the_inv k "metadata" B3) in X.
      apply r_open_contents in HO. destruct (contents_meta _ f r HO k n E) as [d D]. congruence.
    Qed.
  End File.
End Fin.
