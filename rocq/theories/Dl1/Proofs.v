(** Lemmas for the DL1 topic. *)
From Coq Require Import List ZArith String Ascii Bool Sorted Permutation Lia.
From Verif.Base Require Import Py PyFacts Str.
From Verif.Hdf5 Require Import Model Spec Proofs Proofs2 Proofs3 Proofs4 Proofs5.
From Verif.Dl1 Require Import Model Spec.
Import ListNotations.
Local Open Scope string_scope.
Local Open Scope list_scope.
Local Open Scope Z_scope.

(** ** Sorting *)
Section Sort.
  Context {V : Type}.
  Variable down : V -> V.

  Definition row_lt (a b : row V) : Prop :=
    row_iev a < row_iev b \/ (row_iev a = row_iev b /\ row_pixel a < row_pixel b).

  Definition in32 (r : row V) : Prop :=
    (exists d, r = RData d) /\ 0 <= row_iev r < 2 ^ 32 /\ 0 <= row_pixel r < 2 ^ 32.

  Lemma row_lt_le : forall a b, row_lt a b -> row_le a b = true.
  Proof. unfold row_lt, row_le. intros a b H. destruct H as [H|[H1 H2]].
    - apply orb_true_iff. left. now apply Z.ltb_lt.
    - apply orb_true_iff. right. apply andb_true_iff. split; [now apply Z.eqb_eq|apply Z.leb_le; lia].
  Qed.

  Lemma sort_sorted : forall l : list (row V), StronglySorted row_lt l -> sort_rows l = l.
  Proof.
    induction l as [|x l IH]; intros H; auto. inversion H; subst. cbn [sort_rows]. rewrite IH by auto.
    destruct l as [|y l]; auto. cbn [insert]. rewrite row_lt_le; auto.
    inversion H3; auto.
  Qed.

  Lemma u32_id : forall z, 0 <= z < 2 ^ 32 -> u32 z = z.
  Proof. intros. unfold u32. now apply Z.mod_small. Qed.

  Lemma cast_iev : forall r, in32 r -> row_iev (cast_row down r) = row_iev r.
  Proof. intros r ([d ->] & H & _). simpl in *. now apply u32_id. Qed.
  Lemma cast_pixel : forall r, in32 r -> row_pixel (cast_row down r) = row_pixel r.
  Proof. intros r ([d ->] & _ & H). simpl in *. now apply u32_id. Qed.

  Lemma cast_sorted : forall l, Forall in32 l -> StronglySorted row_lt l ->
    StronglySorted row_lt (map (cast_row down) l).
  Proof.
    induction l as [|x l IH]; intros F S; cbn [map]; constructor.
    - inversion F; inversion S; subst. auto.
    - inversion F; inversion S; subst. apply Forall_forall. intros y I. apply in_map_iff in I.
      destruct I as (z & <- & I). rewrite Forall_forall in H2, H6. specialize (H6 z I). specialize (H2 z I).
      unfold row_lt in *. rewrite !cast_iev, !cast_pixel by auto. exact H6.
  Qed.

  Lemma prep_sorted : forall l, Forall in32 l -> StronglySorted row_lt l ->
    dl1_prep down l = map (cast_row down) l.
  Proof.
    intros l F S. unfold dl1_prep. destruct l as [|r l]; auto.
    destruct r; auto. apply sort_sorted. now apply cast_sorted.
  Qed.

  Lemma StronglySorted_app : forall (a b : list (row V)), StronglySorted row_lt (a ++ b) ->
    StronglySorted row_lt a /\ StronglySorted row_lt b.
  Proof.
    induction a as [|x a IH]; intros b H; cbn [app] in H.
    - split; [constructor|auto].
    - inversion H; subst. destruct (IH b H2). split; auto. constructor; auto.
      apply Forall_app in H3. tauto.
  Qed.

  Lemma prep_chunks : forall c : list (list (row V)),
    Forall in32 (List.concat c) -> StronglySorted row_lt (List.concat c) ->
    List.concat (map (dl1_prep down) c) = map (cast_row down) (List.concat c).
  Proof.
    induction c as [|x c IH]; intros F S; auto. cbn [List.concat map] in *.
    apply Forall_app in F. destruct F. apply StronglySorted_app in S. destruct S.
    rewrite IH by auto. rewrite prep_sorted by auto. now rewrite map_app.
  Qed.
End Sort.

(** ** Event rows *)
Section Ev.
  Context {V B St : Type}.
  Variable down : V -> V.

  Lemma event_rows_from_spec : forall (w : wf B) (vals : list (Z * V)) i,
    0 <= wf_iev w < 2 ^ 32 -> Z.of_nat (i + List.length vals) < 2 ^ 32 ->
    map (cast_row down) (event_rows_from w i vals) =
    map (fun p : nat * (Z * V) =>
           let '(i, (fci, v)) := p in
           RData (D (wf_iev w) (Z.of_nat i) (fci mod 2 ^ 16) (wf_tack w mod 2 ^ 64)
                    (match wf_mctrue w with
                     | Some l => option_map (fun x => x mod 2 ^ 32) (nth_error l i)
                     | None => None end)
                    (down v)))
        (combine (seq i (List.length vals)) vals).
  Proof.
    induction vals as [|[fci v] vals IH]; intros i H1 H2; auto.
    cbn [event_rows_from map List.length seq combine]. rewrite IH; auto.
    2:{ cbn [List.length] in H2. lia. }
    f_equal. unfold cast_row. cbn [d_iev d_pixel d_fci d_tack d_mctrue d_pay].
    rewrite !u32_id by (cbn [List.length] in H2; lia). unfold mc_at. 
    destruct (wf_mctrue w); reflexivity.
  Qed.

  Lemma event_rows_props : forall (w : wf B) (vals : list (Z * V)) i,
    0 <= wf_iev w < 2 ^ 32 -> Z.of_nat (i + List.length vals) < 2 ^ 32 ->
    Forall in32 (event_rows_from w i vals) /\
    StronglySorted row_lt (event_rows_from w i vals) /\
    Forall (fun r => row_iev r = wf_iev w /\ Z.of_nat i <= row_pixel r) (event_rows_from w i vals) /\
    List.length (event_rows_from w i vals) = List.length vals.
  Proof.
    induction vals as [|[fci v] vals IH]; intros i H1 H2.
    - repeat split; constructor.
    - cbn [event_rows_from]. destruct (IH (S i)) as (F1 & F2 & F3 & F4); auto.
      { cbn [List.length] in H2. lia. }
      repeat split.
      + constructor; auto. split; [eauto|]. cbn. cbn [List.length] in H2. lia.
      + constructor; auto. eapply Forall_impl; [|exact F3]. intros r [A1 A2]. right. cbn. lia.
      + constructor; [cbn; lia|]. eapply Forall_impl; [|exact F3]. intros r [A1 A2]. lia.
      + cbn [List.length]. now rewrite F4.
  Qed.

  Definition ev_ok (np : nat) (e : wf B * list (Z * V)) : Prop :=
    0 <= wf_iev (fst e) < 2 ^ 32 /\ List.length (snd e) = np.

  Lemma all_rows_props : forall np (es : list (wf B * list (Z * V))),
    Z.of_nat np < 2 ^ 32 -> Forall (ev_ok np) es ->
    StronglySorted Z.lt (map (fun e => wf_iev (fst e)) es) ->
    let R := List.concat (map (fun e => event_rows (fst e) (snd e)) es) in
    Forall in32 R /\ StronglySorted row_lt R /\
    map (cast_row down) R = List.concat (map (stored_event down) es).
  Proof.
    intros np es Hnp. induction es as [|e es IH]; intros F S; cbn [map List.concat] in *.
    - repeat split; constructor.
    - inversion F as [|? ? [E1 E2] F']; subst. inversion S as [|? ? S1 S2]; subst.
      destruct (IH F' S1) as (I1 & I2 & I3).
      destruct (event_rows_props (fst e) (snd e) 0) as (P1 & P2 & P3 & P4); auto.
      repeat split.
      + apply Forall_app. split; auto.
      + assert (forall a b : list (row V), StronglySorted row_lt a -> StronglySorted row_lt b ->
                (forall x y, In x a -> In y b -> row_lt x y) -> StronglySorted row_lt (a ++ b)) as APP.
        { induction a as [|x a IHa]; intros b Sa Sb H; auto. inversion Sa; subst. cbn [app]. constructor.
          - apply IHa; auto. intros. apply H; auto. now right.
          - apply Forall_app. split; auto. apply Forall_forall. intros. apply H; auto. now left. }
        apply APP; auto. intros x y Ix Iy. left.
        rewrite Forall_forall in P3. destruct (P3 x Ix) as [-> _].
        apply in_concat in Iy. destruct Iy as (l & Il & Iy). apply in_map_iff in Il.
        destruct Il as (e2 & <- & Ie). 
        rewrite Forall_forall in F'. destruct (F' e2 Ie) as [G1 G2].
        destruct (event_rows_props (fst e2) (snd e2) 0) as (_ & _ & Q3 & _); auto.
        { rewrite Nat.add_0_l, G2. exact Hnp. }
        rewrite Forall_forall in Q3. destruct (Q3 y Iy) as [-> _].
        rewrite Forall_forall in S2. apply S2. apply in_map_iff. exists e2. auto.
      + rewrite map_app, I3. f_equal. unfold event_rows, stored_event. apply event_rows_from_spec; auto.
  Qed.

  Lemma stored_event_length : forall e, List.length (stored_event (B:=B) down e) = List.length (snd e).
  Proof. intros. unfold stored_event. rewrite map_length, combine_length, seq_length. lia. Qed.

  Lemma stored_event_iev : forall e r, In r (stored_event (B:=B) down e) -> row_iev r = wf_iev (fst e).
  Proof.
    intros e r H. unfold stored_event in H. apply in_map_iff in H. destruct H as ([i [a b]] & <- & _). reflexivity.
  Qed.

  (** ** The loop *)
  Variable ext : St -> wf B -> St * list (Z * V).

  Definition is_append (o : op (row V)) : Prop := exists k df, o = Append k df /\ In k ["data"; "mc"; "pointing"].

  Fixpoint last_time (ws : list (wf B)) (acc : option Z) : option Z :=
    match ws with [] => acc | w :: t => last_time t (Some (wf_tcpu w)) end.

  Lemma loop_spec : forall src wfs s c ops c',
    dl1_loop ext src wfs s c = (ops, c') ->
    appended "data" ops = List.concat (map (fun e => event_rows (fst e) (snd e)) (extracted ext s (kept wfs))) /\
    Forall is_append ops /\
    c_proc c' = c_proc c + Z.of_nat (List.length (kept wfs)) /\
    c_skip c' = c_skip c + Z.of_nat (List.length wfs - List.length (kept wfs)) /\
    c_start c' = match c_start c with Some x => Some x | None => option_map wf_tcpu (hd_error (kept wfs)) end /\
    c_end c' = last_time (kept wfs) (c_end c) /\
    (List.length (kept wfs) <= List.length wfs)%nat /\
    (kept wfs <> [] -> by_append "data" ops) /\
    (kept wfs <> [] -> s_is_mc src = true -> by_append "mc" ops).
  Proof.
    induction wfs as [|w wfs IH]; intros s c ops c' H; cbn [dl1_loop] in H.
    - inversion H; subst. cbn. repeat split; try constructor; try lia; try tauto.
      destruct (c_start c'); auto.
    - unfold skip_event in H. cbn [kept filter].
      destruct (wf_stale w || wf_missing w) eqn:SK.
      + apply IH in H. destruct H as (H1 & H2 & H3 & H4 & H5 & H6 & H7 & H8 & H9).
        assert (negb (wf_stale w) && negb (wf_missing w) = false) as ->.
        { rewrite <- negb_orb, SK. reflexivity. }
        fold (kept wfs). cbn [c_proc c_skip c_start c_end List.length] in *.
        repeat split; auto; lia.
      + assert (negb (wf_stale w) && negb (wf_missing w) = true) as ->.
        { rewrite <- negb_orb, SK. reflexivity. }
        fold (kept wfs). cbn [extracted map List.concat List.length fst snd].
        destruct (ext s w) as [s' vals] eqn:E. cbn [fst snd].
        destruct (dl1_loop ext src wfs s' _) as [rest c2] eqn:L. inversion H; subst; clear H.
        apply IH in L. destruct L as (H1 & H2 & H3 & H4 & H5 & H6 & H7 & H8 & H9).
        cbn [c_proc c_skip c_start c_end] in *.
        assert (appended "data" (if s_is_mc src
             then [Append "mc" [RAux (wf_iev w) (s_mc src w)];
                   Append "pointing" [RAux (wf_iev w) (s_pointing src w)]] else []) = []) as A0.
        { destruct (s_is_mc src); reflexivity. }
        repeat split.
        * cbn [app appended String.eqb Ascii.eqb Bool.eqb]. rewrite appended_app, A0, H1. reflexivity.
        * cbn [app]. constructor; [eexists; eexists; split; [reflexivity|simpl; auto]|].
          apply Forall_app. split; auto. destruct (s_is_mc src); repeat constructor;
            eexists; eexists; (split; [reflexivity|simpl; auto]).
        * lia.
        * lia.
        * rewrite H5. destruct (c_start c); reflexivity.
        * rewrite H6. reflexivity.
        * lia.
        * intros _. eexists. cbn [app]. left. reflexivity.
        * intros _ M. rewrite M. eexists. cbn [app]. right. left. reflexivity.
  Qed.

  Lemma extracted_fst : forall ws s, map fst (extracted ext s ws) = ws.
  Proof. induction ws; simpl; intros; congruence. Qed.
End Ev.

(** ** Per-module dicts *)
Section Mods.
  Lemma NoDup_fold_dset : forall T (key : T -> string) (get : T -> val) l d,
    NoDup (dkeys d) -> NoDup (dkeys (fold_left (fun d x => dset (key x) (get x) d) l d)).
  Proof. induction l; cbn [fold_left]; auto. intros. apply IHl. now apply NoDup_dset. Qed.

  Lemma fold_dset_other : forall T (key : T -> string) (get : T -> val) l d k,
    (forall x, In x l -> key x <> k) ->
    dget k (fold_left (fun d x => dset (key x) (get x) d) l d) = dget k d.
  Proof.
    induction l as [|x l IH]; cbn [fold_left]; auto. intros d k H.
    rewrite IH by (intros; apply H; now right). apply dget_dset_neq. intros ->. apply (H x); auto. now left.
  Qed.

  Lemma fold_dset_get : forall T (key : T -> string) (get : T -> val) l d x,
    (forall y, In y l -> key y = key x -> y = x) -> In x l ->
    dget (key x) (fold_left (fun d x => dset (key x) (get x) d) l d) = Some (get x).
  Proof.
    induction l as [|y l IH]; intros d x HI I; [destruct I|]. cbn [fold_left].
    destruct (in_dec String.string_dec (key x) (map key l)) as [J|J].
    - apply in_map_iff in J. destruct J as (z & E & J).
      assert (z = x) by (apply HI; auto; now right). subst. apply IH; auto. intros. apply HI; auto. now right.
    - rewrite fold_dset_other.
      + destruct I as [->|I]; [apply dget_dset_eq|]. exfalso. apply J. now apply in_map.
      + intros z Iz E. apply J. rewrite <- E. now apply in_map.
  Qed.

  Lemma In_zrange : forall n x, In x (zrange n) <-> 0 <= x < n.
  Proof.
    intros. unfold zrange. rewrite in_map_iff. split.
    - intros (i & <- & I). apply in_seq in I. lia.
    - intros H. exists (Z.to_nat x). split; [lia|]. apply in_seq. lia.
  Qed.

  Lemma tm_key_inj : forall x y, 0 <= x -> 0 <= y -> tm_key x = tm_key y -> x = y.
  Proof. intros x y Hx Hy E. unfold tm_key in E. simpl in E. injection E as E. now apply pad02_inj. Qed.

  Lemma sp_key_inj : forall a b c d, 0 <= a -> 0 <= b -> 0 <= c -> 0 <= d ->
    sp_key a b = sp_key c d -> a = c /\ b = d.
  Proof.
    intros a b c d Ha Hb Hc Hd E. unfold sp_key in E. simpl in E. injection E as E.
    apply digits_split in E; try (now apply pad02_digits).
    - destruct E as [E1 E2]. injection E2 as E2. split; now apply pad02_inj.
    - simpl. intuition discriminate.
  Qed.

  Lemma tm_dict_get : forall n get tm, 0 <= tm < n -> dget (tm_key tm) (tm_dict n get) = Some (get tm).
  Proof.
    intros. unfold tm_dict. apply fold_dset_get.
    - intros y I E. apply In_zrange in I. apply tm_key_inj; auto; lia.
    - now apply In_zrange.
  Qed.

  Lemma tm_dict_neg : forall n get tm, tm < 0 -> dget (tm_key tm) (tm_dict n get) = None.
  Proof.
    intros n get tm H. unfold tm_dict. rewrite fold_dset_other; auto.
    intros x I E. apply In_zrange in I. unfold tm_key in E. simpl in E. injection E as E.
    pose proof (pad02_digits x ltac:(lia)) as D. rewrite E in D. unfold pad02 in D.
    replace (tm <? 0) with true in D by (symmetry; apply Z.ltb_lt; lia).
    simpl in D. destruct (String.length (dec (Z.to_N (- tm)))) eqn:L; simpl in D; intuition discriminate.
  Qed.

  (** sp_dict as a single fold over pairs *)
  Definition pairs (n m : Z) : list (Z * Z) :=
    List.concat (map (fun a => map (fun b => (a, b)) (zrange m)) (zrange n)).

  Lemma sp_dict_pairs : forall n m get,
    sp_dict n m get = fold_left (fun d x => dset (sp_key (fst x) (snd x)) (get (fst x) (snd x)) d) (pairs n m) [].
  Proof.
    intros. unfold sp_dict, pairs. generalize (@nil (string * val)).
    induction (zrange n) as [|a l IH]; intros d; cbn [fold_left map List.concat]; auto.
    rewrite IH, fold_left_app. f_equal. clear. revert d.
    induction (zrange m) as [|b l IH]; intros d; cbn [fold_left map]; auto.
  Qed.

  Lemma In_pairs : forall n m a b, In (a, b) (pairs n m) <-> 0 <= a < n /\ 0 <= b < m.
  Proof.
    intros. unfold pairs. rewrite in_concat. split.
    - intros (l & I & J). apply in_map_iff in I. destruct I as (x & <- & I).
      apply in_map_iff in J. destruct J as (y & E & J). inversion E; subst.
      apply In_zrange in I. apply In_zrange in J. auto.
    - intros [H1 H2]. exists (map (fun b => (a, b)) (zrange m)). split.
      + apply in_map_iff. exists a. split; auto. now apply In_zrange.
      + apply in_map_iff. exists b. split; auto. now apply In_zrange.
  Qed.

  Lemma sp_dict_get : forall n m get tm sp, 0 <= tm < n -> 0 <= sp < m ->
    dget (sp_key tm sp) (sp_dict n m get) = Some (get tm sp).
  Proof.
    intros. rewrite sp_dict_pairs.
    apply (fold_dset_get (Z * Z) (fun x => sp_key (fst x) (snd x)) (fun x => get (fst x) (snd x)) _ _ (tm, sp)).
    - intros [a b] I E. apply In_pairs in I. cbn [fst snd] in E. apply sp_key_inj in E; try lia.
      destruct E; subst; auto.
    - now apply In_pairs.
  Qed.

  Lemma tm_dict_nodup : forall n get, NoDup (dkeys (tm_dict n get)).
  Proof. intros. apply NoDup_fold_dset. constructor. Qed.
  Lemma sp_dict_nodup : forall n m get, NoDup (dkeys (sp_dict n m get)).
  Proof. intros. rewrite sp_dict_pairs.
    apply (NoDup_fold_dset (Z * Z) (fun x => sp_key (fst x) (snd x)) (fun x => get (fst x) (snd x))). constructor. Qed.
End Mods.

(** ** Blocks of equal length *)
Section Blocks.
  Context {T : Type}.

  Lemma concat_len : forall np (bs : list (list T)), Forall (fun b => List.length b = np) bs ->
    List.length (List.concat bs) = (List.length bs * np)%nat.
  Proof.
    induction 1; cbn [List.concat List.length]; auto. rewrite app_length, IHForall, H. lia.
  Qed.

  Lemma skipn_concat : forall np (bs : list (list T)) i, Forall (fun b => List.length b = np) bs ->
    skipn (i * np) (List.concat bs) = List.concat (skipn i bs).
  Proof.
    induction bs as [|b bs IH]; intros i F.
    - cbn. now rewrite !skipn_nil.
    - inversion F as [|? ? E F']; subst. destruct i as [|i]; [reflexivity|].
      cbn [List.concat skipn]. rewrite <- IH by auto.
      replace (S i * List.length b)%nat with (List.length b + i * List.length b)%nat by lia.
      rewrite skipn_app. rewrite skipn_all2 by lia. cbn [app]. f_equal. lia.
  Qed.

  Lemma block_at : forall np (bs : list (list T)) i b, Forall (fun b => List.length b = np) bs ->
    nth_error bs i = Some b -> firstn np (skipn (i * np) (List.concat bs)) = b.
  Proof.
    intros np bs i b F E. rewrite skipn_concat by auto.
    assert (skipn i bs = b :: skipn (S i) bs) as ->.
    { clear F. revert bs E. induction i as [|i IH]; intros [|x bs] E; try discriminate.
      - inversion E. reflexivity.
      - cbn [nth_error] in E. apply IH in E. cbn [skipn]. rewrite E. reflexivity. }
    cbn [List.concat]. rewrite Forall_forall in F. apply nth_error_In in E. apply F in E.
    rewrite <- E. rewrite firstn_app, Nat.sub_diag, firstn_all. cbn. now rewrite app_nil_r.
  Qed.
End Blocks.

Lemma F2len : forall S T (R : S -> T -> Prop) a b, Forall2 R a b -> List.length a = List.length b.
Proof. induction 1; cbn; auto. Qed.

Lemma where_eq_spec : forall iev l i j,
  In j (where_eq iev i l) <-> exists k, j = (i + k)%nat /\ nth_error l k = Some iev.
Proof.
  induction l as [|x l IH]; intros i j; cbn [where_eq].
  - split; [intros []|]. intros (k & _ & H). destruct k; discriminate.
  - assert ((exists k, j = (i + k)%nat /\ nth_error (x :: l) k = Some iev) <->
            (j = i /\ x = iev) \/ (exists k, j = (S i + k)%nat /\ nth_error l k = Some iev)) as X.
    { split.
      - intros ([|k] & -> & H); cbn in H.
        + left. inversion H. lia.
        + right. exists k. split; auto. lia.
      - intros [[-> ->]|(k & -> & H)]; [exists 0%nat; cbn; auto; split; auto; lia|exists (S k); cbn; split; auto; lia]. }
    rewrite X, <- IH. destruct (Z.eqb_spec x iev); cbn; intuition.
Qed.

Lemma where_in_spec : forall evs l i,
  where_in evs i l = map (fun p => (i + fst p)%nat)
    (filter (fun p => existsb (Z.eqb (snd p)) evs) (combine (seq 0 (List.length l)) l)).
Proof.
  induction l as [|x l IH]; intros i; auto.
  cbn [where_in List.length seq combine filter snd]. rewrite IH.
  assert (forall (g : nat * Z -> bool) (h : Z -> bool), (forall p, g p = h (snd p)) -> forall n l a,
      map (fun p : nat * Z => (S n + fst p)%nat) (filter g (combine (seq a (List.length l)) l)) =
      map (fun p : nat * Z => (n + fst p)%nat) (filter g (combine (seq (S a) (List.length l)) l))) as SH.
  { clear. intros g h G n. induction l as [|y l IH]; intros a; auto.
    cbn [List.length seq combine filter]. rewrite !G. cbn [snd]. destruct (h y); cbn [map fst]; rewrite IH; f_equal.
    lia. }
  destruct (existsb (Z.eqb x) evs); cbn [map fst]; rewrite (SH _ (fun z => existsb (Z.eqb z) evs)) by auto; auto.
  f_equal. lia.
Qed.

(** ** A reader of a file of complete events *)
Section Rd.
  Context {V : Type}.

  (** The file holds the blocks [bs], one per event, each of [np] rows with one event number. *)
  Definition holds (r : reader (row V)) (np : nat) (bs : list (list (row V))) (ievs : list Z) : Prop :=
    (0 < np)%nat /\
    data_table r = Ok (List.concat bs) /\
    md_int r "n_events" = Ok (Z.of_nat (List.length bs)) /\
    md_int r "n_pixels" = Ok (Z.of_nat np) /\
    Forall (fun b => List.length b = np) bs /\
    Forall2 (fun b i => forall x, In x b -> row_iev x = i) bs ievs.

  Lemma lookup_holds : forall r np bs ievs, holds r np bs ievs -> event_lookup r = Ok ievs.
  Proof.
    intros r np bs ievs (Hn & HT & HE & HP & HL & HI). unfold event_lookup.
    rewrite HT, HE, HP. cbn [bind]. rewrite (concat_len np) by auto.
    replace (Z.of_nat (List.length bs * np) =? Z.of_nat (List.length bs) * Z.of_nat np) with true
      by (symmetry; apply Z.eqb_eq; lia).
    replace (Z.of_nat (List.length bs) <? 0) with false by (symmetry; apply Z.ltb_ge; lia).
    replace (Z.of_nat np <? 0) with false by (symmetry; apply Z.ltb_ge; lia).
    replace (Z.of_nat np =? 0) with false by (symmetry; apply Z.eqb_neq; lia).
    cbn [negb orb]. f_equal. rewrite !Nat2Z.id.
    apply nth_ext with (d := 0) (d' := 0).
    { rewrite map_length, seq_length. clear -HI. induction HI; cbn; auto. }
    intros i Hi. rewrite map_length, seq_length in Hi.
    rewrite (nth_indep _ 0 ((fun i => nth (i * np) (map row_iev (List.concat bs)) 0) 0%nat))
      by (rewrite map_length, seq_length; auto).
    rewrite (map_nth (fun i => nth (i * np) (map row_iev (List.concat bs)) 0)), seq_nth by auto. cbn [Nat.add].
    assert (exists b, nth_error bs i = Some b) as [b Eb].
    { destruct (nth_error bs i) eqn:E; eauto. apply nth_error_None in E. lia. }
    assert (nth_error ievs i = Some (nth i ievs 0)) as EI.
    { apply nth_error_nth'. pose proof (F2len _ _ _ _ _ HI). lia. }
    pose proof (block_at np bs i b HL Eb) as BA.
    assert (List.length b = np) as Lb by (rewrite Forall_forall in HL; apply HL; eapply nth_error_In; eauto).
    destruct b as [|x b]; [cbn in Lb; lia|].
    assert (row_iev x = nth i ievs 0) as <-.
    { clear -HI Eb EI. revert EI. generalize (nth i ievs 0) as v. intros v EI. revert i v Eb EI.
      induction HI; intros [|i] v Eb EI; try discriminate.
      - cbn in *. inversion Eb; inversion EI; subst. apply H. now left.
      - cbn in *. eapply IHHI; eauto. }
    destruct (skipn (i * np) (List.concat bs)) as [|y l] eqn:Es.
    { rewrite firstn_nil in BA. discriminate. }
    assert (y = x).
    { destruct np; [lia|]. cbn in BA. now inversion BA. }
    subst y.
    replace (map row_iev (List.concat bs)) with
      (map row_iev (firstn (i * np) (List.concat bs)) ++ map row_iev (skipn (i * np) (List.concat bs)))
      by (rewrite <- map_app, firstn_skipn; auto).
    rewrite app_nth2; rewrite map_length, firstn_length.
    - rewrite Es. rewrite Nat.min_l.
      + rewrite Nat.sub_diag. reflexivity.
      + assert (List.length (skipn (i * np) (List.concat bs)) <> 0)%nat as X by (rewrite Es; cbn; lia).
        rewrite skipn_length in X. lia.
    - lia.
  Qed.

  Lemma select_holds : forall r np bs ievs i b, holds r np bs ievs -> nth_error bs i = Some b ->
    select_event_index r i = Ok b.
  Proof.
    intros r np bs ievs i b (Hn & HT & HE & HP & HL & HI) E. unfold select_event_index.
    rewrite HT, HP. cbn [bind]. rewrite Nat2Z.id. f_equal. now apply block_at.
  Qed.

  Lemma getitem_holds : forall r np bs ievs, holds r np bs ievs -> NoDup ievs ->
    (forall i b iev, nth_error bs i = Some b -> nth_error ievs i = Some iev -> dl1_getitem r iev = Ok b) /\
    (forall iev, ~ In iev ievs -> dl1_getitem r iev = Raise IndexError).
  Proof.
    intros r np bs ievs H N. unfold dl1_getitem. rewrite (lookup_holds r np bs ievs H). cbn [bind]. split.
    - intros i b iev Eb Ei.
      destruct (where_eq iev 0 ievs) as [|j l] eqn:W.
      + exfalso. assert (In i (where_eq iev 0 ievs)) as X by (apply where_eq_spec; exists i; auto).
        rewrite W in X. destruct X.
      + assert (In j (where_eq iev 0 ievs)) as X by (rewrite W; now left).
        apply where_eq_spec in X. destruct X as (k & -> & X). cbn [Nat.add].
        assert (k = i).
        { eapply NoDup_nth_error; eauto.
          - apply nth_error_Some. congruence.
          - congruence. }
        subst. eapply select_holds; eauto.
    - intros iev NI. destruct (where_eq iev 0 ievs) as [|j l] eqn:W; auto.
      exfalso. assert (In j (where_eq iev 0 ievs)) as X by (rewrite W; now left).
      apply where_eq_spec in X. destruct X as (k & -> & X). apply NI. eapply nth_error_In; eauto.
  Qed.

  Lemma mapM_select : forall r np bs ievs is, holds r np bs ievs ->
    (forall i, In i is -> (i < List.length bs)%nat) ->
    mapM (select_event_index r) is = Ok (map (fun i => nth i bs []) is).
  Proof.
    intros r np bs ievs is H. induction is as [|i is IH]; intros L; auto.
    cbn [mapM map]. assert (nth_error bs i = Some (nth i bs [])) as E.
    { apply nth_error_nth'. apply L. now left. }
    rewrite (select_holds r np bs ievs i _ H E). cbn [bind]. rewrite IH by (intros; apply L; now right).
    reflexivity.
  Qed.

  Lemma iterate_holds : forall r np bs ievs, holds r np bs ievs ->
    iterate_over_events r = Ok bs.
  Proof.
    intros r np bs ievs H. pose proof H as (Hn & HT & HE & HP & HL & HI).
    unfold iterate_over_events. rewrite HE. cbn [bind]. rewrite Nat2Z.id.
    rewrite (mapM_select r np bs ievs _ H).
    - f_equal. clear. induction bs as [|b bs IH]; auto.
      cbn [List.length seq map nth]. f_equal. rewrite <- seq_shift, map_map. exact IH.
    - intros i I. apply in_seq in I. lia.
  Qed.

  Lemma selected_holds : forall r np bs ievs evs, holds r np bs ievs ->
    iterate_over_selected r evs =
    Ok (map fst (filter (fun p : list (row V) * Z => existsb (Z.eqb (snd p)) evs) (combine bs ievs))).
  Proof.
    intros r np bs ievs evs H. pose proof H as (Hn & HT & HE & HP & HL & HI).
    unfold iterate_over_selected. rewrite (lookup_holds r np bs ievs H). cbn [bind].
    assert (List.length bs = List.length ievs) as LE by (clear -HI; induction HI; cbn; auto).
    rewrite (mapM_select r np bs ievs _ H).
    - f_equal. rewrite where_in_spec, map_map. cbn [Nat.add].
      assert (forall pre, map (fun x : nat * Z => nth (fst x) (pre ++ bs) [])
                 (filter (fun p => existsb (Z.eqb (snd p)) evs) (combine (seq (List.length pre) (List.length ievs)) ievs)) =
              map fst (filter (fun p : list (row V) * Z => existsb (Z.eqb (snd p)) evs) (combine bs ievs))) as X;
        [|apply (X [])].
      clear -LE. revert ievs LE. induction bs as [|b bs IH]; intros [|e ievs] LE pre; try discriminate; auto.
      cbn [List.length seq combine filter snd]. cbn [List.length] in LE.
      replace (S (List.length pre)) with (List.length (pre ++ [b])) by (rewrite app_length; cbn; lia).
      specialize (IH ievs ltac:(lia) (pre ++ [b])). rewrite <- app_assoc in IH. cbn [app] in IH.
      destruct (existsb (Z.eqb e) evs); cbn [map fst]; rewrite IH; auto.
      f_equal. rewrite app_nth2, Nat.sub_diag by lia. reflexivity.
    - intros i I. rewrite where_in_spec in I. apply in_map_iff in I.
      destruct I as ([j v] & <- & I). apply filter_In in I. destruct I as [I _].
      apply in_combine_l in I. apply in_seq in I. cbn. lia.
  Qed.
End Rd.
