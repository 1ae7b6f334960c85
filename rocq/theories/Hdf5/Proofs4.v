(** Reader side lemmas. *)
From Coq Require Import List ZArith String Bool Permutation Lia.
From Verif.Base Require Import Py PyFacts.
From Verif.Hdf5 Require Import Model Spec Proofs Proofs2 Proofs3.
Import ListNotations.
Local Open Scope string_scope.
Local Open Scope list_scope.
Local Open Scope Z_scope.

Section Rd.
  Context {A : Type}.
  Implicit Types s : store A.

  Lemma open_from_meta : forall s, NoDup (dkeys s) ->
    (forall k n, dget k s = Some n -> exists d, dget "metadata" (n_attrs n) = Some d) ->
    mfield s "data" "metadata" "version" = Some (VStr lib_version) ->
    exists r, r_open s = Ok (r, Eq).
  Proof.
    intros s N H V. destruct (contents_ok s) as [r HC]; auto.
    exists r. unfold r_open. rewrite HC. cbn [bind].
    assert (r_version r = Ok (VStr lib_version)) as RV.
    { unfold r_version. unfold mfield in V. destruct (dget "data" s) as [n|] eqn:E; [|discriminate].
      rewrite (get_metadata_spec s r "data" "metadata" n) by (auto; discriminate).
      destruct (dget "metadata" (n_attrs n)); [|discriminate]. now rewrite V. }
    rewrite RV. reflexivity.
  Qed.

  Lemma n_bytes_spec : forall s r c k, NoDup (dkeys s) -> r_open s = Ok (r, c) -> k <> "mapping" ->
    get_n_bytes r k = match mfield s k "metadata" "n_bytes" with Some v => Ok v | None => Raise KeyError end.
  Proof.
    intros s r c k N HO Hk. apply r_open_contents in HO as HC.
    unfold get_n_bytes, mfield. destruct (dget k s) as [n|] eqn:E.
    - rewrite (get_metadata_spec s r k "metadata" n) by (auto; discriminate).
      destruct (contents_meta _ s r HC k n E) as [d D]. rewrite D. cbn [bind]. unfold dlookup.
      destruct (dget "n_bytes" d); auto.
    - rewrite (get_metadata_absent s r k) by auto. reflexivity.
  Qed.

  Lemma n_bytes_mapping : forall s r c, NoDup (dkeys s) -> r_open s = Ok (r, c) ->
    get_n_bytes r "mapping" = Raise KeyError.
  Proof.
    intros s r c N HO. apply r_open_contents in HO as HC.
    destruct (contents_spec s r N HC) as (_ & _ & S3).
    unfold get_n_bytes, get_metadata. rewrite S3. reflexivity.
  Qed.

  Lemma dfkeys_spec : forall s r c k, NoDup (dkeys s) -> r_open s = Ok (r, c) ->
    smem k (r_dfkeys r) =
    negb (String.eqb k "mapping") &&
    match mfield s k "metadata" "n_bytes" with Some v => negb (is_zero v) | None => false end.
  Proof.
    intros s r c k N HO. apply r_open_contents in HO as HC.
    destruct (contents_spec s r N HC) as (S1 & S2 & S3).
    destruct (smem k (r_dfkeys r)) eqn:E.
    - apply smem_In in E. apply S2 in E. destruct E as (n & d & E2 & E3 & E1 & E4).
      unfold mfield. rewrite E2, E3. rewrite (eqb_neq _ _ E1). cbn [negb andb].
      unfold dgetd in E4. destruct (dget "n_bytes" d); [now rewrite E4|]. discriminate.
    - symmetry. apply not_true_iff_false. intros X. apply andb_true_iff in X. destruct X as [X1 X2].
      apply smem_false in E. apply E. apply S2. unfold mfield in X2.
      destruct (dget k s) as [n|] eqn:E0; [|discriminate].
      destruct (dget "metadata" (n_attrs n)) as [d|] eqn:E1; [|discriminate].
      exists n, d. repeat split; auto.
      + intros ->. rewrite eqb_refl in X1. discriminate.
      + unfold dgetd. destruct (dget "n_bytes" d); [|discriminate]. now apply negb_true_iff.
  Qed.

  Lemma read_spec : forall s r c k force, NoDup (dkeys s) -> r_open s = Ok (r, c) ->
    (forall v, mfield s k "metadata" "n_bytes" = Some v -> exists b, v = VInt b) ->
    r_read r k force =
    match (if String.eqb k "mapping" then None else mfield s k "metadata" "n_bytes") with
    | Some (VInt b) => if b =? 0 then Raise KeyError
                       else if (8000000000 <? b) && negb force then Raise MemoryError
                       else Ok (rows_of s k)
    | _ => Raise KeyError
    end.
  Proof.
    intros s r c k force N HO HV. unfold r_read. rewrite (dfkeys_spec s r c k N HO).
    destruct (String.eqb_spec k "mapping"); [reflexivity|]. cbn [negb andb].
    rewrite (n_bytes_spec s r c k N HO n).
    destruct (mfield s k "metadata" "n_bytes") as [v|] eqn:E; [|reflexivity].
    destruct (HV v eq_refl) as [b ->]. cbn [is_zero]. destruct (b =? 0); [reflexivity|]. cbn [negb bind over_8GB].
    destruct ((8000000000 <? b) && negb force); auto.
    apply r_open_contents in HO. destruct (contents_spec s r N HO) as (S1 & _ & _).
    unfold st_get, rows_of. rewrite S1. unfold mfield in E. destruct (dget k s); [reflexivity|discriminate].
  Qed.

  (** ** Chunks *)
  Lemma chunk_loop_spec : forall cs, 0 < cs -> forall fuel (rows : list A),
    (List.length rows <= fuel)%nat ->
    exists cks, chunk_loop fuel cs rows = Some cks /\ pieces cs rows cks.
  Proof.
    intros cs Hc. induction fuel as [|fuel IH]; intros rows HL.
    - destruct rows; [|simpl in HL; lia]. exists []. split; auto.
      split; [reflexivity|]. split; [intros i Hi; simpl in Hi; lia|intros c []].
    - destruct rows as [|a rows]; [exists []; split; auto; split; [reflexivity|];
        split; [intros i Hi; simpl in Hi; lia|intros c []]|].
      set (l := a :: rows) in *.
      assert (0 < Z.to_nat cs)%nat as Hn by lia.
      destruct (IH (skipn (Z.to_nat cs) l)) as (cks & E & P1 & P2 & P3).
      { rewrite skipn_length. unfold l in *. cbn [List.length] in *. lia. }
      assert (chunk_loop (S fuel) cs l = Some (firstn (Z.to_nat cs) l :: cks)) as EQ.
      { unfold l at 1. cbn [chunk_loop]. fold l. rewrite E.
        destruct (firstn (Z.to_nat cs) l) eqn:F; auto.
        exfalso. unfold l in F. destruct (Z.to_nat cs); [lia|discriminate]. }
      exists (firstn (Z.to_nat cs) l :: cks). split; auto.
      assert (firstn (Z.to_nat cs) l <> []) as NE.
      { unfold l. destruct (Z.to_nat cs); [lia|discriminate]. }
      split; [|split].
      + cbn [List.concat]. rewrite P1. apply firstn_skipn.
      + intros [|i] Hi; cbn [nth].
        * cbn [List.length] in Hi. rewrite firstn_length.
          destruct cks as [|c0 cks]; [simpl in Hi; lia|].
          assert (skipn (Z.to_nat cs) l <> []) as NS.
          { rewrite <- P1. specialize (P3 c0 (or_introl eq_refl)). cbn [List.concat].
            destruct c0; [simpl in P3; lia|discriminate]. }
          assert (Z.to_nat cs < List.length l)%nat.
          { destruct (Nat.lt_ge_cases (Z.to_nat cs) (List.length l)) as [L|L]; auto.
            apply skipn_all2 in L. contradiction. }
          lia.
        * apply P2. cbn [List.length] in Hi. lia.
      + intros c [<-|I]; auto. split.
        * destruct (firstn (Z.to_nat cs) l); [contradiction|]. cbn [List.length]. lia.
        * rewrite firstn_length. lia.
  Qed.

  Lemma iterate_spec : forall s r c k n cs, NoDup (dkeys s) -> r_open s = Ok (r, c) ->
    dget k s = Some n -> n_fmt n = Table -> 0 < cs ->
    exists cks, iterate_over_chunks r k (Some cs) = Ok (Some cks) /\ pieces cs (n_rows n) cks.
  Proof.
    intros s r c k n cs N HO E HF Hc. apply r_open_contents in HO.
    destruct (contents_spec s r N HO) as (S1 & _ & _).
    unfold iterate_over_chunks. rewrite S1, E, HF.
    replace (cs =? 0) with false by (symmetry; apply Z.eqb_neq; lia). cbn [bind].
    destruct (chunk_loop_spec cs Hc (List.length (n_rows n)) (n_rows n) (le_n _)) as (cks & C1 & C2).
    exists cks. now rewrite C1.
  Qed.

  Lemma iterate_default : forall s r c k n b cs, NoDup (dkeys s) -> r_open s = Ok (r, c) ->
    dget k s = Some n -> n_fmt n = Table -> k <> "mapping" ->
    mfield s k "metadata" "n_bytes" = Some (VInt b) -> 0 < b ->
    (cs = None \/ cs = Some 0) ->
    let size := Z.of_nat (List.length (n_rows n)) * 2000000000 / b in
    (0 < size -> exists cks, iterate_over_chunks r k cs = Ok (Some cks) /\ pieces size (n_rows n) cks) /\
    (size = 0 -> n_rows n <> [] -> forall fuel, chunk_loop fuel size (n_rows n) = None).
  Proof.
    intros s r c k n b cs N HO E HF Hk HB Hb Hcs. pose proof (n_bytes_spec s r c k N HO Hk) as NB.
    apply r_open_contents in HO.
    destruct (contents_spec s r N HO) as (S1 & _ & _). intros size. split.
    - intros Hs. unfold iterate_over_chunks. rewrite S1, E, HF, NB, HB.
      destruct (chunk_loop_spec size Hs (List.length (n_rows n)) (n_rows n) (le_n _)) as (cks & C1 & C2).
      assert ((b =? 0) = false) as B0 by (apply Z.eqb_neq; lia).
      exists cks. destruct Hcs as [->| ->]; cbn [bind Z.eqb]; rewrite B0; cbn [bind]; fold size;
        rewrite C1; auto.
    - intros -> NE. clear -NE. induction fuel as [|fuel IH]; destruct (n_rows n) as [|a l];
        try contradiction; auto. cbn [chunk_loop Z.to_nat firstn skipn]. rewrite IH. reflexivity.
  Qed.
End Rd.

(** ** Reading a file changed by HDF5Appender *)
Section AppRd.
  Context {A : Type}.
  Variable mem : list A -> Z.
  Variable prep : list A -> list A.
  Hypothesis prep_nil : prep [] = [].
  Hypothesis mem_pos : forall l, l <> [] -> 0 < mem l.
  Hypothesis mem_nonneg : forall l, 0 <= mem l.

  Lemma appender_read : forall s0 r0 cmp ops t0,
    NoDup (dkeys s0) -> r_open s0 = Ok (r0, cmp) ->
    mfield s0 "data" "metadata" "total_bytes" = Some (VInt t0) ->
    (forall k, by_append k ops -> is_table s0 k) ->
    no_mix ops -> ~ by_write "data" ops -> names_ok ops -> kwargs_ok ops ->
    meta_complete_on (fun k => dget k s0 <> None) ops ->
    exists w, w_run mem prep ops (W [] [] [] [] [] s0) = (w, None) /\
    forall order, Permutation order (w_keys w) ->
    exists f r nbs, a_finish mem prep order r0 w = Ok f /\ NoDup (dkeys f) /\ r_open f = Ok (r, Eq) /\
      (forall k, by_append k ops -> k <> "mapping" -> exists c,
          List.concat c = appended k ops /\ nbs k = sum (map (fun x => mem (prep x)) c) /\
          get_n_bytes r k = Ok (VInt (nbs k)) /\
          rows_of f k = rows_of s0 k ++ List.concat (map prep c) /\
          (List.concat (map prep c) <> [] -> 
           r_read r k true = Ok (rows_of s0 k ++ List.concat (map prep c)))) /\
      (forall k, ~ touched k ops -> rows_of f k = rows_of s0 k) /\
      (forall k fc, ~ touched k ops -> ~ meta_named k "metadata" ops -> k <> "data" ->
          (forall v, mfield s0 k "metadata" "n_bytes" = Some v -> exists b, v = VInt b) ->
          r_read r k fc = r_read r0 k fc) /\
      (forall k df, by_write k ops -> last_written k ops None = Some df ->
          (k = "mapping" -> ~ has_mapping ops) -> nbs k = mem df /\ rows_of f k = df) /\
      (forall k nm fld, ~ by_write k ops -> (k = "mapping" -> ~ has_mapping ops) ->
         ~ (nm = "metadata" /\ In fld ["n_bytes"; "total_bytes"; "version"]) ->
         mfield f k nm fld =
           match last_value k nm fld ops None with Some v => Some v | None => mfield s0 k nm fld end) /\
      (forall k, In k (w_keys w) <-> by_append k ops \/ by_write k ops) /\ NoDup (w_keys w) /\
      mfield f "data" "metadata" "total_bytes" = Some (VInt (t0 + sum (map nbs (w_keys w)))).
  Proof.
    intros s0 r0 cmp ops t0 N HO HT HA HM HD HN HK MC.
    destruct (appender_spec mem prep prep_nil s0 r0 cmp ops t0) as (w & R1 & R2 & H); auto.
    exists w. split; auto. intros order P.
    destruct (H order P) as (f & nbs & F0 & F1 & F2 & F3 & F4 & F5 & F6 & F7 & F8 & F9 & F10).
    destruct (open_from_meta f F1 (F10 MC) F8) as [r OR].
    exists f, r, nbs. split; auto. split; auto. split; auto.
    assert (forall k, In k (w_keys w) -> k <> "mapping" -> get_n_bytes r k = Ok (VInt (nbs k))) as NB.
    { intros k I Hk. rewrite (n_bytes_spec f r Eq k) by auto. now rewrite F6. }
    split; [|split; [|split; [|split; [|split; [|split; [|split]]]]]]; auto.
    - intros k B Hk. destruct (F2 k B) as (c & C1 & C2 & C3). exists c.
      assert (In k (w_keys w)) as I by (apply R2; auto).
      split; auto. split; auto. split; auto. split; auto. intros NE.
      rewrite (read_spec f r Eq k true) by (auto; rewrite F6 by auto; intros v X; inversion X; eauto).
      rewrite (eqb_neq _ _ Hk), F6 by auto.
      assert (0 < bytes mem prep c) by (now apply bytes_pos).
      replace (nbs k =? 0) with false by (symmetry; apply Z.eqb_neq; lia).
      rewrite andb_false_r. f_equal. exact C2.
    - intros k fc T NM Hd HV.
      assert (mfield f k "metadata" "n_bytes" = mfield s0 k "metadata" "n_bytes") as EM.
      { unfold touched in T. rewrite F9; try tauto.
        - rewrite last_value_none; auto.
        - intros (_ & _ & I). apply R2 in I. tauto. }
      rewrite (read_spec f r Eq k fc) by (auto; rewrite EM; auto).
      rewrite (read_spec s0 r0 cmp k fc) by auto. rewrite EM, F4 by auto. reflexivity.
    - intros k df B L B2. destruct (F3 k B B2) as (df' & D1 & D2 & D3).
      rewrite L in D1. inversion D1; subst. auto.
    - intros k nm fld B1 B2 B3. apply F9; auto; intros X; apply B3; simpl.
      + destruct X as (X1 & X2 & _). auto.
      + destruct X as (_ & X1 & X2). simpl in X2. split; [auto|tauto].
    - eapply Permutation_NoDup; [exact P|]. 
      pose proof (run_Inv mem prep s0 ops [] (w_from s0)) as X.
      destruct X as (w1 & X1 & X2); auto. { now apply Inv_init. }
      unfold w_from in X1. rewrite R1 in X1. inversion X1; subst.
      eapply Permutation_NoDup; [symmetry; exact P|]. apply (i_keysnd _ _ _ _ _ X2).
  Qed.
End AppRd.
