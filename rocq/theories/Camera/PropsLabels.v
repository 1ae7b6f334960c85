(** C99: what the annotations of a camera image show. *)
From Coq Require Import List ZArith QArith Qcanon Qround Bool String Lia Permutation.
From Verif.Base Require Import Py PyFacts Num Lst Str.
From Verif.Camera Require Import Model Proofs Proofs2 Proofs3 ModelLabels SpecLabels ProofsLabels ProofsLabels2.
Import ListNotations.
Local Open Scope list_scope.

(** The labels are exactly those of the modules that reach the upper (lower) edge in some column; each is centred on its
    module, hangs above (below) all of it, and appears once. *)
Theorem C99_edge_labels : forall k v, exists out d, annotate_tm_edge_label k true (Some v) = Ok (out, []) /\
  (k = Metres -> d = (v_size v * Q2Qc (7 # 10))%Qc) /\ (forall n, k = Cells -> v_rows v = Some n -> d = (qz n / qz 48 + Q2Qc (4 # 10))%Qc) /\
  (forall x y s va, In (Text x y s va) out <-> exists up t m, on_edge up (spots v) t /\ va = (if up then Bottom else Top) /\ s = ("TM" ++ pad02 t)%string /\
     x = qmean (map (at_x k) (filter (fun p => (s_slot p =? t)%Z) (spots v))) /\ extreme up (spots v) t (at_y k) m /\ y = (if up then m + d else m - d)%Qc) /\
  (forall a, In a out -> exists x y s va, a = Text x y s va) /\
  ((forall p, In p (spots v) -> (0 <= s_slot p)%Z) -> NoDup (map caption out)).
Proof.
  intros k v. eexists _, (offset k v). split; [reflexivity|]. split; [intros ->; reflexivity|]. split; [intros n -> E; unfold offset; now rewrite E|]. split; [|split].
  - intros x y s va. rewrite in_app_iff, !in_map_iff. split.
    + intros [(t & E & I)|(t & E & I)].
      * apply tm_top_in in I. injection E as <- <- <- <-. exists true, t, (highest (y_of k) (of_slot t (spots v))). repeat split; auto; apply (highest_is _ _ _ (on_edge_some _ _ _ I)).
      * apply tm_bottom_in in I. injection E as <- <- <- <-. exists false, t, (lowest (y_of k) (of_slot t (spots v))). repeat split; auto; apply (lowest_is _ _ _ (on_edge_some _ _ _ I)).
    + intros (up & t & m & E & -> & -> & -> & X & ->). destruct up; [left|right]; exists t.
      * rewrite tm_top_in. split; [|exact E]. unfold top_label. fold (of_slot t (spots v)). now rewrite (extreme_unique _ _ _ _ _ _ X (highest_is _ _ (y_of k) (on_edge_some _ _ _ E))).
      * rewrite tm_bottom_in. split; [|exact E]. unfold bottom_label. fold (of_slot t (spots v)). now rewrite (extreme_unique _ _ _ _ _ _ X (lowest_is _ _ (y_of k) (on_edge_some _ _ _ E))).
  - intros a I. apply in_app_or in I as [I|I]; apply in_map_iff in I as (t & <- & _); repeat eexists.
  - intros P. rewrite map_app, !map_map. apply nodup_app.
    + apply nodup_map_inj; [apply sorted_nodup, keys_sorted|]. intros a b A B E. apply tm_top_in, on_edge_some in A as (pa & Ia & <-). apply tm_top_in, on_edge_some in B as (pb & Ib & <-). injection E as E. now apply pad02_inj; auto.
    + apply nodup_map_inj; [apply sorted_nodup, keys_sorted|]. intros a b A B E. apply tm_bottom_in, on_edge_some in A as (pa & Ia & <-). apply tm_bottom_in, on_edge_some in B as (pb & Ib & <-). injection E as E. now apply pad02_inj; auto.
    + intros c C D. apply in_map_iff in C as (a & <- & _). apply in_map_iff in D as (b & E & _). discriminate.
Qed.
Print Assumptions C99_edge_labels.

(** A label lies beyond every pixel of at least one column of its module, so it can be read beside the camera. *)
Theorem C99_beyond : forall k v out, annotate_tm_edge_label k true (Some v) = Ok (out, []) ->
  match k with
  | Metres => (0 < v_size v)%Qc /\ (forall p q, In p (spots v) -> In q (spots v) -> s_col p = s_col q -> (s_row p <= s_row q)%Z -> (s_y p <= s_y q)%Qc)
  | Cells => exists n, v_rows v = Some n /\ (0 <= n)%Z
  end ->
  forall x y s va, In (Text x y s va) out -> exists p, In p (spots v) /\ s = ("TM" ++ pad02 (s_slot p))%string /\
    forall q, In q (spots v) -> s_col q = s_col p -> match va with Bottom => (at_y k q < y)%Qc | _ => (y < at_y k q)%Qc end.
Proof.
  intros k v out E H x y s va I. destruct (C99_edge_labels k v) as (out' & d & E' & D1 & D2 & L & _). rewrite E in E'. injection E' as <-.
  apply L in I. destruct I as (up & t & m & (p & Lp & Tp) & Va & Sx & _ & (_ & X) & Y). subst t s va y. exists p. split; [eapply leads_in; exact Lp|]. split; [reflexivity|].
  intros q Q C. pose proof (leads_all up _ p q Lp Q C) as A. pose proof (X p (leads_in _ _ _ Lp) eq_refl) as B. clear L E X.
  assert (0 < d)%Qc as D. { destruct k; [rewrite D1 by reflexivity; destruct H as [H _]; pose proof (Qcmult_lt_compat_r 0 (v_size v) (Q2Qc (7 # 10)) eq_refl H) as M; rewrite Qcmult_0_l in M; exact M|]. destruct H as (n & H1 & H2). rewrite (D2 n eq_refl H1). apply (proj1 (qz_le 0 n)) in H2. change (qz 0) with 0%Qc in H2. pose proof (qdiv_nonneg (qz n) (qz 48) eq_refl H2) as M. assert (0 < Q2Qc (4 # 10))%Qc as M4 by reflexivity. set (a := (qz n / qz 48)%Qc) in *. set (b := Q2Qc (4 # 10)) in *. clearbody a b. qlra. }
  assert (if up then (at_y k q <= at_y k p)%Qc else (at_y k p <= at_y k q)%Qc) as F.
  { destruct k; cbn [at_y].
    - destruct H as [_ H]. pose proof (leads_in _ _ _ Lp). destruct up; apply H; auto.
    - destruct up; cbn [at_most] in A; apply (proj1 (qz_le _ _)); exact A. }
  destruct up; qlra.
Qed.
Print Assumptions C99_beyond.

(** The same modules are labelled on images of pixels, superpixels and modules; in metres also at the same place across. *)
Theorem C99_levels : forall k l nr nc sz mk, blocks 8 slot l -> blocks 2 superpixel l -> one_per_cell (map pixel_spot l) ->
  exists a b c, annotate_tm_edge_label k true (Some (pixel_view l nr nc sz mk)) = Ok (a, []) /\ annotate_tm_edge_label k true (Some (sp_view l sz mk)) = Ok (b, []) /\
    annotate_tm_edge_label k true (Some (tm_view l sz mk)) = Ok (c, []) /\ map caption a = map caption b /\ map caption a = map caption c /\
    (k = Metres -> map across a = map across c).
Proof.
  intros k l nr nc sz mk B8 B2 O. eexists _, _, _. split; [reflexivity|]. split; [reflexivity|]. split; [reflexivity|]. cbn [pixel_view sp_view tm_view spots].
  destruct (levels_lists _ _ (fun up t => sp_edge l up t B2 O)) as [<- <-]. destruct (levels_lists _ _ (fun up t => tm_edge l up t B8 O)) as [<- <-].
  rewrite !map_app, !map_map. split; [reflexivity|]. split; [reflexivity|]. intros ->. f_equal; apply map_ext_in; intros t I; unfold top_label, bottom_label, across; cbn [spots]; f_equal; symmetry; apply tm_x_same.
  - apply tm_top_in, on_edge_some in I as (p & I & <-). apply in_map_iff in I as (q & <- & I). now exists q.
  - apply tm_bottom_in, on_edge_some in I as (p & I & <-). apply in_map_iff in I as (q & <- & I). now exists q.
Qed.
Print Assumptions C99_levels.

(** Without a mapping nothing is drawn, and the user is told. *)
Theorem C99_no_mapping : forall k ix, let said := Ok ([], ["Cannot annotate, no mapping attached to class"%string]) in
  annotate_tm_edge_label k ix None = said /\ annotate_on_telescope_up k None = said /\ annotate_led_flasher None = said.
Proof. repeat split. Qed.
Print Assumptions C99_no_mapping.

(** Finding: with pandas 1.0 or later no module can be labelled. *)
Theorem C99_pandas_refuted : forall k v, annotate_tm_edge_label k false (Some v) = Raise AttributeError.
Proof. reflexivity. Qed.
Print Assumptions C99_pandas_refuted.

(** The arrow goes from the lower to the upper mark, with its caption at the start; in metres it is the same whichever
    level of the mapping is shown. *)
Theorem C99_arrow : forall k v, exists x y dx dy, annotate_on_telescope_up k (Some v) = Ok ([Arrow x y dx dy; Text x y "ON-Telescope UP" Bottom], []) /\
  match k with
  | Metres => x = up_x_l (v_marks v) /\ y = up_y_l (v_marks v) /\ (x + dx = up_x_u (v_marks v))%Qc /\ (y + dy = up_y_u (v_marks v))%Qc
  | Cells => x = up_col_l (v_marks v) /\ y = up_row_l (v_marks v) /\ (x + dx = up_col_u (v_marks v))%Qc /\ (y + dy = up_row_u (v_marks v))%Qc
  end.
Proof. intros k v. repeat eexists. destruct k; cbn [up_from up_to fst snd]; repeat split; ring. Qed.
Print Assumptions C99_arrow.

(** Finding: in rows and columns it is not.  The marks keep counting pixels, so on an image of modules an arrow that starts
    at or beyond column 6 of pixels of a camera six modules wide lies outside; in general if it starts at or beyond as many
    columns of pixels as there are columns of modules. *)
Theorem C99_arrow_refuted : forall l sz mk, l <> [] -> (forall q, In q l -> (qz (col q / 8 + 1) <= up_col_l mk)%Qc) ->
  exists x y dx dy rest nc, annotate_on_telescope_up Cells (Some (tm_view l sz mk)) = Ok (Arrow x y dx dy :: rest, []) /\ v_cols (tm_view l sz mk) = Some nc /\ (qz nc <= x)%Qc.
Proof.
  intros l sz mk NE H. cbn [annotate_on_telescope_up tm_view v_marks v_cols up_from up_to fst snd].
  set (df := agg slot tm_agg l). destruct (zmax_some (map tm_col df)) as (m & E & J & M).
  { intros E. apply map_eq_nil in E. revert E. apply (agg_nonempty slot tm_agg tm (fun _ _ _ => eq_refl)). exact NE. }
  rewrite E. cbn [succ_opt]. repeat eexists. apply in_map_iff in J as (r & <- & R). destruct (agg_in slot tm_agg tm (fun _ _ _ => eq_refl) l r R) as (a & g & E1 & E2).
  destruct (members_head _ _ _ _ _ _ E1) as [Ia _]. rewrite E2. cbn [tm_agg tm_col]. now apply H.
Qed.
Print Assumptions C99_arrow_refuted.

(** The LED flashers are drawn at four points, mirror images of each other, numbered from the corner of the mark. *)
Theorem C99_flashers : forall v, exists out a b, annotate_led_flasher (Some v) = Ok (out, []) /\ a = up_x_l (v_marks v) /\ b = (up_y_l (v_marks v) + qz 2 * v_size v)%Qc /\
  dots out = [(a, b); (- a, b); (a, - b); (- a, - b)]%Qc /\ (forall x y, In (x, y) (dots out) -> In ((- x)%Qc, y) (dots out) /\ In (x, (- y)%Qc) (dots out)) /\
  (forall x y, In (x, y) (dots out) -> exists s, In (Text x y s Centre) out) /\ In (Text a b "0" Centre) out /\ (NoDup (dots out) <-> a <> 0%Qc /\ b <> 0%Qc).
Proof.
  intros v. eexists _, _, _. split; [reflexivity|]. split; [reflexivity|]. split; [reflexivity|]. cbn [flat_map app dots fst snd].
  change (qz 1) with 1%Qc. change (qz (-1)) with (- (1))%Qc. set (a := up_x_l (v_marks v)). set (b := (up_y_l (v_marks v) + qz 2 * v_size v)%Qc).
  replace (a * 1)%Qc with a by ring. replace (b * 1)%Qc with b by ring. replace (a * - (1))%Qc with (- a)%Qc by ring. replace (b * - (1))%Qc with (- b)%Qc by ring.
  split; [reflexivity|]. split; [|split; [|split]].
  - intros x y I. cbn [In] in *. destruct I as [E|[E|[E|[E|[]]]]]; injection E as <- <-; rewrite ?Qcopp_involutive; auto 10.
  - intros x y I. cbn [In] in *. destruct I as [E|[E|[E|[E|[]]]]]; injection E as <- <-; eexists; eauto 12.
  - right. now left.
  - split.
    + intros N. inversion N as [|? ? N1 _]; subst. split; intros Z; apply N1; rewrite Z; [left|right; left]; f_equal; rewrite <- ?Z; qlra.
    + intros [A B]. assert (forall q : Qc, q <> 0%Qc -> q <> (- q)%Qc) as F by (intros q Q E; apply Q; qlra).
      pose proof (F a A) as FA. pose proof (F b B) as FB. clearbody a b. repeat (apply NoDup_cons; [cbn [In]; intuition congruence|]). apply NoDup_nil.
Qed.
Print Assumptions C99_flashers.

(** Finding: their distance from the mark grows with the level shown, so no flasher is at the same place on images of pixels,
    superpixels and modules. *)
Theorem C99_flashers_refuted : forall l nr nc sz mk, (0 < sz)%Qc -> (0 <= up_y_l mk)%Qc ->
  exists a b c, annotate_led_flasher (Some (pixel_view l nr nc sz mk)) = Ok (a, []) /\ annotate_led_flasher (Some (sp_view l sz mk)) = Ok (b, []) /\
    annotate_led_flasher (Some (tm_view l sz mk)) = Ok (c, []) /\
    forall x y, (In (x, y) (dots a) -> ~ In (x, y) (dots b)) /\ (In (x, y) (dots b) -> ~ In (x, y) (dots c)) /\ (In (x, y) (dots a) -> ~ In (x, y) (dots c)).
Proof.
  intros l nr nc sz mk P Y. destruct (C99_flashers (pixel_view l nr nc sz mk)) as (a & a1 & a2 & E & _ & A2 & D & _).
  destruct (C99_flashers (sp_view l sz mk)) as (b & b1 & b2 & E' & _ & B2 & D' & _). destruct (C99_flashers (tm_view l sz mk)) as (c & c1 & c2 & E'' & _ & C2 & D'' & _).
  exists a, b, c. split; [exact E|]. split; [exact E'|]. split; [exact E''|]. rewrite D, D', D''. clear D D' D'' E E' E''.
  cbn [pixel_view sp_view tm_view v_marks v_size] in A2, B2, C2. set (m := up_y_l mk) in *. clearbody m. assert (qz 2 = 1 + 1)%Qc as Q2 by (apply Qc_is_canon; reflexivity).
  assert (qz 8 = (1 + 1) * ((1 + 1) * (1 + 1)))%Qc as Q8 by (apply Qc_is_canon; reflexivity). rewrite Q8 in C2. rewrite Q2 in A2, B2, C2.
  assert (a2 = m + (sz + sz))%Qc as A3 by (rewrite A2; ring). assert (b2 = m + (sz + sz + (sz + sz)))%Qc as B3 by (rewrite B2; ring).
  assert (c2 = m + (sz + sz + (sz + sz) + (sz + sz + (sz + sz)) + (sz + sz + (sz + sz) + (sz + sz + (sz + sz)))))%Qc as C3 by (rewrite C2; ring).
  assert (0 < a2)%Qc as H by (rewrite A3; clear - P Y; qlra). assert (a2 < b2)%Qc as H0 by (rewrite A3, B3; clear - P Y; qlra). assert (b2 < c2)%Qc as H1 by (rewrite B3, C3; clear - P Y; qlra). clear A2 B2 C2 A3 B3 C3 Q2 Q8.
  intros x y. repeat split; intros I J; cbn [In] in I, J; destruct I as [I|[I|[I|[I|[]]]]]; apply (f_equal snd) in I; cbn [snd] in I; destruct J as [J|[J|[J|[J|[]]]]]; apply (f_equal snd) in J; cbn [snd] in J; rewrite <- I in J; clear - H H0 H1 J; qlra.
Qed.
Print Assumptions C99_flashers_refuted.

(** Values in an array: every pixel carries its own value, at its own place; other sizes are refused. *)
Theorem C99_values : forall V (ps : list (Qc * Qc)) (l : list V),
  (List.length l = List.length ps -> exists out, add_pixel_text ps (Arr l) = Ok out /\ List.length out = List.length ps /\
     forall i p a, nth_error ps i = Some p -> nth_error l i = Some a -> nth_error out i = Some (p, [a])) /\
  (List.length l <> List.length ps -> add_pixel_text ps (Arr l) = Raise AssertionError).
Proof.
  intros V ps l. split.
  - intros E. rewrite (texts_ok V ps (Arr l) (fun i => match nth_error l i with Some a => [a] | None => [] end)); [|exact E|].
    + eexists. split; [reflexivity|]. split; [now rewrite map_length, seq_length|]. intros i p a P A. rewrite nth_error_map. assert (i < List.length ps)%nat as L by (apply nth_error_Some; now rewrite P).
      rewrite (nth_error_nth' _ 0%nat) by (now rewrite seq_length). rewrite seq_nth by exact L. cbn [option_map plus]. rewrite A. now rewrite (nth_error_nth _ _ _ P).
    + intros i I. cbn [v_at]. destruct (nth_error l i) eqn:F; [reflexivity|]. apply nth_error_None in F. lia.
  - intros N. unfold add_pixel_text. cbn [v_size_]. now destruct (Nat.eqb_spec (List.length l) (List.length ps)).
Qed.
Print Assumptions C99_values.

(** Values in a Series are found by label: complete labels give every pixel the value labelled with its number, a missing
    one stops the call. *)
Theorem C99_series : forall V (ps : list (Qc * Qc)) (l : list (Z * V)), List.length l = List.length ps -> NoDup (map fst l) ->
  ((forall i, (i < List.length ps)%nat -> In (Z.of_nat i) (map fst l)) -> exists out, add_pixel_text ps (Ser l) = Ok out /\ List.length out = List.length ps /\
     forall i p a, nth_error ps i = Some p -> In (Z.of_nat i, a) l -> nth_error out i = Some (p, [a])) /\
  (forall i, (i < List.length ps)%nat -> ~ In (Z.of_nat i) (map fst l) -> add_pixel_text ps (Ser l) = Raise KeyError).
Proof.
  intros V ps l E N. assert (forall i a, In (Z.of_nat i, a) l -> v_at (Ser l) i = Ok [a]) as At.
  { intros i a I. cbn [v_at]. rewrite (filter_one _ fst l (Z.of_nat i, a) N I : filter (fun b => (fst b =? Z.of_nat i)%Z) l = _). reflexivity. }
  split.
  - intros H. rewrite (texts_ok V ps (Ser l) (fun i => match v_at (Ser l) i with Ok a => a | Raise _ => [] end)); [|exact E|].
    + eexists. split; [reflexivity|]. split; [now rewrite map_length, seq_length|]. intros i p a P A. rewrite nth_error_map. assert (i < List.length ps)%nat as L by (apply nth_error_Some; now rewrite P).
      rewrite (nth_error_nth' _ 0%nat) by (now rewrite seq_length). rewrite seq_nth by exact L. cbn [option_map plus]. rewrite (At i a A). now rewrite (nth_error_nth _ _ _ P).
    + intros i I. apply H in I. apply in_map_iff in I as ((z & a) & Z & I). cbn [fst] in Z. subst z. now rewrite (At i a I).
  - intros i I H. unfold add_pixel_text. cbn [v_size_]. rewrite E, Nat.eqb_refl. assert (In i (seq 0 (List.length ps))) as J by (apply in_seq; lia).
    assert (v_at (Ser l) i = Raise KeyError) as Fi. { cbn [v_at]. destruct (filter (fun e => (fst e =? Z.of_nat i)%Z) l) as [|e es] eqn:F; [reflexivity|]. exfalso. apply H.
      assert (In e (filter (fun e => (fst e =? Z.of_nat i)%Z) l)) as X by (rewrite F; now left). apply filter_In in X as [X X2]. apply Z.eqb_eq in X2. rewrite <- X2. now apply in_map. }
    assert (forall j, In j (seq 0 (List.length ps)) -> (exists x, bind (v_at (Ser l) j) (add_text_to_pixel ps (Z.of_nat j)) = Ok x) \/ bind (v_at (Ser l) j) (add_text_to_pixel ps (Z.of_nat j)) = Raise KeyError) as G.
    { intros j Jn. apply in_seq in Jn. destruct (v_at (Ser l) j) eqn:F; cbn [bind].
      - left. unfold add_text_to_pixel. rewrite axis_ok by lia. cbn [bind]. rewrite Nat2Z.id, (nth_error_nth' ps (0%Qc, 0%Qc)) by lia. eexists. reflexivity.
      - right. cbn [v_at] in F. destruct (filter (fun e => (fst e =? Z.of_nat j)%Z) l); [now injection F as <-|discriminate]. }
    revert J G. generalize (seq 0 (List.length ps)). induction l0 as [|j js IH]; intros J G; [destruct J|]. cbn [mapM].
    destruct (G j (or_introl eq_refl)) as [(x & X)|X]; rewrite X; cbn [bind]; [|reflexivity]. destruct J as [->|J]; [rewrite Fi in X; discriminate|]. rewrite IH; [reflexivity|exact J|intros; apply G; now right].
Qed.
Print Assumptions C99_series.

(** Finding: the image itself takes the values of a Series by position, so a pixel whose position carries another label
    shows the colour of one value and the number of another. *)
Theorem C99_series_refuted : forall V (ps : list (Qc * Qc)) (l : list (Z * V)) i z a, List.length l = List.length ps -> NoDup (map fst l) -> NoDup (map snd l) ->
  (forall j, (j < List.length ps)%nat -> In (Z.of_nat j) (map fst l)) -> nth_error l i = Some (z, a) -> z <> Z.of_nat i ->
  exists out p b, add_pixel_text ps (Ser l) = Ok out /\ nth_error out i = Some (p, [b]) /\ nth_error (shown (Ser l)) i = Some a /\ a <> b.
Proof.
  intros V ps l i z a E N1 N2 H A Z. destruct (C99_series V ps l E N1) as [C _]. destruct (C H) as (out & O & L & P). assert (i < List.length ps)%nat as I by (rewrite <- E; apply nth_error_Some; now rewrite A).
  pose proof (H i I) as J. apply in_map_iff in J as ((z' & b) & Zb & J). cbn [fst] in Zb. subst z'. destruct (nth_error ps i) as [p|] eqn:Pi; [|apply nth_error_None in Pi; lia].
  exists out, p, b. split; [exact O|]. split; [now apply P|]. split; [cbn [shown]; rewrite nth_error_map, A; reflexivity|]. intros ->. apply Z.
  apply In_nth_error in J as (j & J). assert (i = j) as <-; [|congruence]. apply (NoDup_nth_error (map snd l)); [exact N2|rewrite map_length; apply nth_error_Some; now rewrite A|]. rewrite !nth_error_map, A, J. reflexivity.
Qed.
Print Assumptions C99_series_refuted.

(** One value on one pixel: negative numbers count from the last pixel, others outside the camera are refused. *)
Theorem C99_one_pixel : forall V (ps : list (Qc * Qc)) (z : Z) (v : list V),
  (forall i p, nth_error ps i = Some p -> z = Z.of_nat i \/ (z = Z.of_nat i - Z.of_nat (List.length ps))%Z -> add_text_to_pixel ps z v = Ok (p, v)) /\
  (~ (- Z.of_nat (List.length ps) <= z < Z.of_nat (List.length ps))%Z -> add_text_to_pixel ps z v = Raise IndexError).
Proof.
  intros V ps z v. split.
  - intros i p P H. assert (i < List.length ps)%nat as L by (apply nth_error_Some; now rewrite P). destruct (axis_picks (List.length ps) z) as (j & E & Lj & Hj); [lia|].
    unfold add_text_to_pixel. rewrite E. cbn [bind]. assert (j = i) as -> by lia. now rewrite P.
  - intros H. unfold add_text_to_pixel. rewrite (axis_refuses _ _ H). reflexivity.
Qed.
Print Assumptions C99_one_pixel.

(** Highlighting on an image of floats: exactly the pixels picked by the list or mask are outlined, with the width asked for. *)
Theorem C99_highlight : forall n ix lw, fits n ix -> exists w, highlight_pixels n (Some Float) ix lw = Ok w /\ List.length w = n /\
  (forall j, picks n ix j -> nth_error w j = Some lw) /\ (forall j, (j < n)%nat -> ~ picks n ix j -> nth_error w j = Some 0%Qc).
Proof. intros n ix lw F. exact (highlight_widths n Float ix lw F). Qed.
Print Assumptions C99_highlight.

(** A mask and a list, in any order and with repetitions, that pick the same pixels outline the same. *)
Theorem C99_highlight_same : forall n d ix ix' lw, fits n ix -> fits n ix' -> (forall j, picks n ix j <-> picks n ix' j) -> highlight_pixels n (Some d) ix lw = highlight_pixels n (Some d) ix' lw.
Proof.
  intros n d ix ix' lw F F' H. destruct (highlight_widths n d ix lw F) as (w & -> & L & A & B). destruct (highlight_widths n d ix' lw F') as (w' & -> & L' & A' & B'). f_equal.
  apply nth_error_ext_. intros j. destruct (Nat.lt_ge_cases j n) as [J|J]; [|rewrite (proj2 (nth_error_None w j)), (proj2 (nth_error_None w' j)) by lia; reflexivity].
  destruct (selected_picks n ix F) as (js & _ & P). destruct (in_dec Nat.eq_dec j js) as [I|I].
  - apply P in I. rewrite A by exact I. rewrite A' by now apply H. reflexivity.
  - assert (~ picks n ix j) as N by (now rewrite <- P). rewrite B by assumption. rewrite B'; [reflexivity|exact J|now rewrite <- H].
Qed.
Print Assumptions C99_highlight_same.

(** Pixels outside the camera, masks of another length and images not yet set are refused. *)
Theorem C99_highlight_refused : forall n im ix lw, im = None \/ ~ fits n ix -> highlight_pixels n im ix lw = Raise IndexError.
Proof. intros n [d|] ix lw H; [|reflexivity]. destruct H as [H|H]; [discriminate|]. unfold highlight_pixels. now rewrite (selected_refuses n ix H). Qed.
Print Assumptions C99_highlight_refused.

(** Finding: on an image of integers a width below one (the default is one half) outlines nothing; on a boolean image
    every width other than 0 becomes one. *)
Theorem C99_highlight_refuted : forall n ix lw, fits n ix -> (0 < lw)%Qc ->
  ((lw < 1)%Qc -> exists w, highlight_pixels n (Some Int) ix lw = Ok w /\ forall x, In x w -> x = 0%Qc) /\
  (exists w, highlight_pixels n (Some Bool_) ix lw = Ok w /\ forall j, picks n ix j -> nth_error w j = Some 1%Qc).
Proof.
  intros n ix lw F P. split.
  - intros L. destruct (highlight_widths n Int ix lw F) as (w & E & Lw & A & B). exists w. split; [exact E|]. assert (cast Int lw = 0%Qc) as C.
    { unfold cast. destruct (qltb_spec lw 0%Qc) as [X|_]; [qlra|]. replace (Qfloor (this lw)) with 0%Z; [reflexivity|]. symmetry. apply (qfloor_is lw 0); [change (qz 0) with 0%Qc; qlra|change (qz (0 + 1)) with 1%Qc; exact L]. }
    intros x X. apply In_nth_error in X as (j & J). assert (j < n)%nat as Ln by (rewrite <- Lw; apply nth_error_Some; now rewrite J). destruct (selected_picks n ix F) as (js & _ & Pj). destruct (in_dec Nat.eq_dec j js) as [I|I].
    + apply Pj in I. rewrite (A j I), C in J. congruence.
    + rewrite B in J; [congruence|exact Ln|now rewrite <- Pj].
  - destruct (highlight_widths n Bool_ ix lw F) as (w & E & Lw & A & B). exists w. split; [exact E|]. intros j J. rewrite (A j J). cbn [cast]. destruct (qeqb_spec lw 0%Qc) as [X|_]; [qlra|reflexivity].
Qed.
Print Assumptions C99_highlight_refuted.

(** Four modules of two pixels, two by two.  Last: the first column of pixels of module 0 has nothing above it, so its label
    appears above although module 2 covers its second column. *)
Definition ex_pixel (t r c : Z) : pixel := {| superpixel := (100 * (r / 2) + c / 2)%Z; slot := t; asic := 0; row := r; col := c; xpix := qz c; ypix := qz r |}.
Definition ex_marks : marks := {| up_x_l := qz 3; up_x_u := qz 3; up_y_l := qz 5; up_y_u := qz 9; up_col_l := qz 40; up_col_u := qz 40; up_row_l := qz 2; up_row_u := qz 6 |}.
Definition ex_camera : list pixel := [ex_pixel 0 0 0; ex_pixel 0 0 1; ex_pixel 1 0 8; ex_pixel 1 0 9; ex_pixel 2 8 0; ex_pixel 2 8 1; ex_pixel 11 8 8; ex_pixel 11 8 9].
Definition words (o : outcome) : list (option (string * align)) := match o with Ok (l, _) => map caption l | Raise _ => [] end.
Example C99_ex : words (annotate_tm_edge_label Metres true (Some (pixel_view ex_camera 16 16 1%Qc ex_marks))) =
  [Some ("TM02", Bottom); Some ("TM11", Bottom); Some ("TM00", Top); Some ("TM01", Top)]%string /\
  words (annotate_tm_edge_label Cells true (Some (tm_view ex_camera 1%Qc ex_marks))) = [Some ("TM02", Bottom); Some ("TM11", Bottom); Some ("TM00", Top); Some ("TM01", Top)]%string /\
  words (annotate_tm_edge_label Metres true (Some (pixel_view [ex_pixel 0 0 0; ex_pixel 0 0 1; ex_pixel 2 8 1] 16 16 1%Qc ex_marks))) =
  [Some ("TM00", Bottom); Some ("TM02", Bottom); Some ("TM00", Top)]%string.
Proof. repeat split; vm_compute; reflexivity. Qed.
Example C99_levels_ex : blocks 8 slot ex_camera /\ blocks 2 superpixel ex_camera /\ one_per_cell (map pixel_spot ex_camera).
Proof.
  split; [|split].
  - split; [|split].
    + intros p q P Q. cbn [In ex_camera] in P, Q. repeat destruct P as [<-|P]; try destruct P; repeat destruct Q as [<-|Q]; try destruct Q; cbn; split; intuition discriminate.
    + auto.
    + intros p q P Q E. exists (ex_pixel (slot p) (row p) (col q)). cbn [In ex_camera] in P, Q. repeat destruct P as [<-|P]; try destruct P; repeat destruct Q as [<-|Q]; try destruct Q; try discriminate E; (split; [cbn; auto 12|split; reflexivity]).
  - split; [|split].
    + intros p q P Q. cbn [In ex_camera] in P, Q. repeat destruct P as [<-|P]; try destruct P; repeat destruct Q as [<-|Q]; try destruct Q; cbn; split; intuition discriminate.
    + intros p q P Q. cbn [In ex_camera] in P, Q. repeat destruct P as [<-|P]; try destruct P; repeat destruct Q as [<-|Q]; try destruct Q; cbn; intuition discriminate.
    + intros p q P Q E. exists (ex_pixel (slot p) (row p) (col q)). cbn [In ex_camera] in P, Q. repeat destruct P as [<-|P]; try destruct P; repeat destruct Q as [<-|Q]; try destruct Q; try discriminate E; (split; [cbn; auto 12|split; reflexivity]).
  - unfold one_per_cell. cbn. repeat (apply NoDup_cons; [cbn [In]; intuition discriminate|]). apply NoDup_nil.
Qed.
(** The arrow of that camera starts at column 40 of an image with two columns. *)
Example C99_arrow_ex : exists rest, annotate_on_telescope_up Cells (Some (tm_view ex_camera 1%Qc ex_marks)) = Ok (Arrow (qz 40) (qz 2) 0%Qc (qz 6 - qz 2)%Qc :: rest, []) /\ v_cols (tm_view ex_camera 1%Qc ex_marks) = Some 2%Z.
Proof. eexists. split; [|vm_compute; reflexivity]. cbn [annotate_on_telescope_up tm_view v_marks ex_marks up_from up_to fst snd up_col_l up_col_u up_row_l up_row_u]. replace (qz 40 - qz 40)%Qc with 0%Qc by ring. reflexivity. Qed.
(** A Series sorted by value: pixel 0 shows the colour of 5 and the number 7. *)
Example C99_series_ex : add_pixel_text [(qz 0, qz 0); (qz 1, qz 0)] (Ser [(1, 5); (0, 7)]%Z) = Ok [((qz 0, qz 0), [7]); ((qz 1, qz 0), [5])]%Z /\ shown (Ser [(1, 5); (0, 7)]%Z) = [5; 7]%Z.
Proof. split; reflexivity. Qed.
Example C99_highlight_ex : highlight_pixels 4 (Some Float) (Ints [-1; 1; 1]%Z) (Q2Qc (1 # 2)) = Ok [0; Q2Qc (1 # 2); 0; Q2Qc (1 # 2)]%Qc /\
  highlight_pixels 4 (Some Float) (Mask [false; true; false; true]) (Q2Qc (1 # 2)) = Ok [0; Q2Qc (1 # 2); 0; Q2Qc (1 # 2)]%Qc /\
  highlight_pixels 4 (Some Int) (Ints [-1; 1]%Z) (Q2Qc (1 # 2)) = Ok [0; 0; 0; 0]%Qc /\ highlight_pixels 4 (Some Float) (Ints [4]%Z) (Q2Qc (1 # 2)) = Raise IndexError.
Proof. repeat split; vm_compute; reflexivity. Qed.
