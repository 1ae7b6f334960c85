(** Properties C64, C65, C66: mappings, simtel pixel order and camera images. *)
From Coq Require Import List ZArith QArith Qcanon Bool Lia Sorted Permutation.
From Verif.Base Require Import Py PyFacts Num Lst.
From Verif.Camera Require Import Model Proofs Proofs2.
Import ListNotations.
Local Open Scope list_scope.
Ltac vmr := repeat match goal with |- _ /\ _ => split; [vm_compute; reflexivity|] end; vm_compute; reflexivity.

(** C64. The pixels of a superpixel, in the order of the mapping. *)
Definition of_superpixel (k : Z) (l : list pixel) : list pixel := filter (fun p => (superpixel p =? k)%Z) l.
Definition of_slot (k : Z) (l : list pixel) : list pixel := filter (fun p => (slot p =? k)%Z) l.

(** Every mapping: one row per superpixel in increasing order, position the mean over its pixels, slot, asic and
    block row and column of its first pixel; new metadata with covering n_rows and n_columns and doubled size; every
    dictionary that existed before, in particular the metadata of the pixel mapping, is unchanged. *)
Theorem C64_superpixels : forall h mapping d, nth_error h (meta mapping) = Some d ->
  exists h' df d', get_superpixel_mapping h mapping = Some (h', df) /\
  StronglySorted (fun a b => sp a < sp b)%Z (rows df) /\
  (forall p, In p (rows mapping) -> exists r, In r (rows df) /\ sp r = superpixel p) /\
  (forall r, In r (rows df) -> exists p ps, of_superpixel (sp r) (rows mapping) = p :: ps /\
     sp_slot r = slot p /\ sp_asic r = asic p /\ sp_row_ r = (row p / 2)%Z /\ sp_col r = (col p / 2)%Z /\
     sp_x r = qmean (map xpix (p :: ps)) /\ sp_y r = qmean (map ypix (p :: ps))) /\
  nth_error h' (meta df) = Some d' /\ size d' = (qz 2 * size d)%Qc /\ other d' = other d /\
  covers (n_rows d') (map sp_row_ (rows df)) /\ covers (n_columns d') (map sp_col (rows df)) /\
  meta df <> meta mapping /\ (forall i e, nth_error h i = Some e -> nth_error h' i = Some e).
Proof.
  intros h mp d E. unfold get_superpixel_mapping. set (df := agg superpixel sp_agg (rows mp)).
  destruct (new_metadata_some h (meta mp) d (map sp_row_ df) (map sp_col df) 2 E) as (h' & d' & -> & G & SZ & O & NR & NC & K).
  assert (OF : forall k a g, sp (sp_agg k a g) = k) by reflexivity.
  exists h', {| rows := df; meta := List.length h |}, d'. split; [reflexivity|]. cbn [rows meta]. split; [apply (agg_sorted superpixel sp_agg sp OF)|].
  split; [intros p P; apply (agg_has superpixel sp_agg sp OF _ _ P)|]. split.
  - intros r R. destruct (agg_in superpixel sp_agg sp OF _ _ R) as (p & ps & M & Q). exists p, ps. split; [exact M|]. rewrite Q. repeat split.
  - split; [exact G|]. split; [rewrite SZ; ring|]. split; [exact O|]. rewrite NR, NC. split; [apply succ_zmax|]. split; [apply succ_zmax|].
    assert (meta mp < List.length h)%nat as B by (apply nth_error_Some; congruence). split; [lia|].
    intros i e I. rewrite K; [exact I|]. apply nth_error_Some. congruence.
Qed.
Print Assumptions C64_superpixels.
Theorem C64_modules : forall h mapping d, nth_error h (meta mapping) = Some d ->
  exists h' df d', get_tm_mapping h mapping = Some (h', df) /\
  StronglySorted (fun a b => tm a < tm b)%Z (rows df) /\
  (forall p, In p (rows mapping) -> exists r, In r (rows df) /\ tm r = slot p) /\
  (forall r, In r (rows df) -> exists p ps, of_slot (tm r) (rows mapping) = p :: ps /\
     tm_row_ r = (row p / 8)%Z /\ tm_col r = (col p / 8)%Z /\ tm_x r = qmean (map xpix (p :: ps)) /\ tm_y r = qmean (map ypix (p :: ps))) /\
  nth_error h' (meta df) = Some d' /\ size d' = (qz 8 * size d)%Qc /\ other d' = other d /\
  covers (n_rows d') (map tm_row_ (rows df)) /\ covers (n_columns d') (map tm_col (rows df)) /\
  meta df <> meta mapping /\ (forall i e, nth_error h i = Some e -> nth_error h' i = Some e).
Proof.
  intros h mp d E. unfold get_tm_mapping. set (df := agg slot tm_agg (rows mp)).
  destruct (new_metadata_some h (meta mp) d (map tm_row_ df) (map tm_col df) 8 E) as (h' & d' & -> & G & SZ & O & NR & NC & K).
  assert (OF : forall k a g, tm (tm_agg k a g) = k) by reflexivity.
  exists h', {| rows := df; meta := List.length h |}, d'. split; [reflexivity|]. cbn [rows meta]. split; [apply (agg_sorted slot tm_agg tm OF)|].
  split; [intros p P; apply (agg_has slot tm_agg tm OF _ _ P)|]. split.
  - intros r R. destruct (agg_in slot tm_agg tm OF _ _ R) as (p & ps & M & Q). exists p, ps. split; [exact M|]. rewrite Q. repeat split.
  - split; [exact G|]. split; [rewrite SZ; ring|]. split; [exact O|]. rewrite NR, NC. split; [apply succ_zmax|]. split; [apply succ_zmax|].
    assert (meta mp < List.length h)%nat as B by (apply nth_error_Some; congruence). split; [lia|].
    intros i e I. rewrite K; [exact I|]. apply nth_error_Some. congruence.
Qed.
Print Assumptions C64_modules.

(** On a mapping made of aligned b x b blocks, each block in a cell of its own. *)
Definition aligned (b : Z) (block : pixel -> Z) (l : list pixel) : Prop :=
  forall p q, In p l -> In q l -> (block p = block q <-> (row p / b = row q / b /\ col p / b = col q / b)%Z).
Theorem C64_cells : forall h mapping h' df, get_superpixel_mapping h mapping = Some (h', df) -> aligned 2 superpixel (rows mapping) ->
  (forall r r', In r (rows df) -> In r' (rows df) -> sp_row_ r = sp_row_ r' -> sp_col r = sp_col r' -> r = r') /\
  (forall p, In p (rows mapping) -> exists r, In r (rows df) /\ sp r = superpixel p /\ sp_row_ r = (row p / 2)%Z /\ sp_col r = (col p / 2)%Z).
Proof.
  intros h mp h' df E A. unfold get_superpixel_mapping in E. destruct (new_metadata _ _ _ _ _) as [h''|]; [|discriminate]. injection E as <- <-. cbn [rows].
  assert (OF : forall k a g, sp (sp_agg k a g) = k) by reflexivity. split.
  - intros r r' R R' ER EC. apply (agg_inj superpixel sp_agg sp OF (rows mp)); auto.
    destruct (agg_in superpixel sp_agg sp OF _ _ R) as (p & ps & M & Q), (agg_in superpixel sp_agg sp OF _ _ R') as (p' & ps' & M' & Q'). rewrite Q, Q' in ER, EC. cbn in ER, EC.
    assert (In p (rows mp) /\ superpixel p = sp r) as [I K] by (apply (members_in superpixel); rewrite M; now left). assert (In p' (rows mp) /\ superpixel p' = sp r') as [I' K'] by (apply (members_in superpixel); rewrite M'; now left).
    rewrite <- K, <- K'. apply A; auto.
  - intros p P. destruct (agg_has superpixel sp_agg sp OF _ _ P) as (r & R & K). exists r. split; [exact R|]. split; [exact K|].
    destruct (agg_in superpixel sp_agg sp OF _ _ R) as (q & qs & M & Q). rewrite Q. cbn. assert (In q (rows mp) /\ superpixel q = sp r) as [I K'] by (apply (members_in superpixel); rewrite M; now left).
    destruct (A q p I P) as [A1 _]. apply A1. congruence.
Qed.
Print Assumptions C64_cells.
Theorem C64_module_cells : forall h mapping h' df, get_tm_mapping h mapping = Some (h', df) -> aligned 8 slot (rows mapping) ->
  (forall r r', In r (rows df) -> In r' (rows df) -> tm_row_ r = tm_row_ r' -> tm_col r = tm_col r' -> r = r') /\
  (forall p, In p (rows mapping) -> exists r, In r (rows df) /\ tm r = slot p /\ tm_row_ r = (row p / 8)%Z /\ tm_col r = (col p / 8)%Z).
Proof.
  intros h mp h' df E A. unfold get_tm_mapping in E. destruct (new_metadata _ _ _ _ _) as [h''|]; [|discriminate]. injection E as <- <-. cbn [rows].
  assert (OF : forall k a g, tm (tm_agg k a g) = k) by reflexivity. split.
  - intros r r' R R' ER EC. apply (agg_inj slot tm_agg tm OF (rows mp)); auto.
    destruct (agg_in slot tm_agg tm OF _ _ R) as (p & ps & M & Q), (agg_in slot tm_agg tm OF _ _ R') as (p' & ps' & M' & Q'). rewrite Q, Q' in ER, EC. cbn in ER, EC.
    assert (In p (rows mp) /\ slot p = tm r) as [I K] by (apply (members_in slot); rewrite M; now left). assert (In p' (rows mp) /\ slot p' = tm r') as [I' K'] by (apply (members_in slot); rewrite M'; now left).
    rewrite <- K, <- K'. apply A; auto.
  - intros p P. destruct (agg_has slot tm_agg tm OF _ _ P) as (r & R & K). exists r. split; [exact R|]. split; [exact K|].
    destruct (agg_in slot tm_agg tm OF _ _ R) as (q & qs & M & Q). rewrite Q. cbn. assert (In q (rows mp) /\ slot q = tm r) as [I K'] by (apply (members_in slot); rewrite M; now left).
    destruct (A q p I P) as [A1 _]. apply A1. congruence.
Qed.
Print Assumptions C64_module_cells.

Definition px (s sl r c x y : Z) : pixel := {| superpixel := s; slot := sl; asic := s; row := r; col := c; xpix := qz x; ypix := qz y |}.
Definition ex_pixels : frame pixel :=
  {| rows := [px 1 0 0 2 20 0; px 0 0 0 0 0 0; px 0 0 1 0 0 10; px 0 0 0 1 10 0; px 0 0 1 1 10 10; px 1 0 1 3 30 10]; meta := 0 |}.
Definition ex_heap : heap := [{| n_rows := Some 2%Z; n_columns := Some 4%Z; size := qz 10; other := [] |}].
Example C64_ex : match get_superpixel_mapping ex_heap ex_pixels with
  | Some (h, df) => Some (map (fun r => (sp r, sp_row_ r, sp_col r, this (sp_x r), this (sp_y r))) (rows df), meta df, map (fun d => (n_rows d, n_columns d, this (size d))) h)
  | None => None end =
  Some ([(0%Z, 0%Z, 0%Z, 5, 5); (1%Z, 0%Z, 1%Z, 25, 5)]%Q, 1%nat, [(Some 2%Z, Some 4%Z, 10%Q); (Some 1%Z, Some 2%Z, 20%Q)]).
Proof. vm_compute. reflexivity. Qed.

(** C65. Both geometries occupy the same cells, one pixel per cell. *)
Theorem C65_order : forall nr nc geometry mapping,
  (forall c, In c geometry -> in_range nr nc c) -> NoDup geometry -> Permutation geometry mapping ->
  exists order, pixel_order nr nc geometry mapping = Ok order /\ Permutation order (seq 0 (List.length geometry)) /\
  (forall p c, nth_error mapping p = Some c -> exists s, nth_error order p = Some s /\ nth_error geometry s = Some c) /\
  forall A (samples : list A), List.length samples = List.length geometry ->
    exists out, build_samples samples order = Ok out /\ List.length out = List.length mapping /\
    forall p s c, nth_error mapping p = Some c -> nth_error geometry s = Some c -> nth_error out p = nth_error samples s.
Proof.
  intros nr nc geo mp H N P. unfold pixel_order.
  destruct (assign_ok _ nr nc (full_grid nr nc 0%nat) geo (seq 0 (List.length geo)) (full_shape _ _ _ _) H (eq_sym (seq_length _ _)) N) as (g & -> & SH & AT & _).
  rewrite (take_ok _ nr nc g 0%nat mp SH) by (intros c C; apply H; eapply Permutation_in; [apply Permutation_sym; exact P|exact C]).
  set (order := map _ mp). exists order. split; [reflexivity|].
  assert (LK : forall p c, nth_error mp p = Some c -> exists s, nth_error order p = Some s /\ nth_error geo s = Some c).
  { intros p c C. assert (In c geo) as I by (eapply Permutation_in; [apply Permutation_sym; exact P|apply (nth_error_In _ _ C)]). apply In_nth_error in I as (s & S). exists s. split; [|exact S].
    unfold order. rewrite nth_error_map, C. cbn [option_map]. rewrite (AT s c s S); [reflexivity|]. rewrite nth_error_seq. assert (s < List.length geo)%nat as B by (apply nth_error_Some; congruence). destruct (Nat.ltb_spec s (List.length geo)); [reflexivity|lia]. }
  assert (LEN : List.length order = List.length geo) by (unfold order; rewrite map_length; symmetry; now apply Permutation_length).
  assert (PERM : Permutation order (seq 0 (List.length geo))).
  { apply NoDup_Permutation_bis; [|rewrite seq_length; lia|].
    - apply NoDup_nth_error. intros i j I E. assert (NM : NoDup mp) by (eapply Permutation_NoDup; eauto). assert (LM : List.length mp = List.length geo) by (symmetry; now apply Permutation_length).
      destruct (nth_error mp i) as [c|] eqn:C; [|apply nth_error_None in C; lia]. destruct (LK i c C) as (s & S1 & S2). rewrite S1 in E. symmetry in E.
      assert (j < List.length mp)%nat as J by (rewrite LM, <- LEN; apply nth_error_Some; congruence). destruct (nth_error mp j) as [c'|] eqn:C'; [|apply nth_error_None in C'; lia]. destruct (LK j c' C') as (s' & S1' & S2').
      assert (s' = s) by congruence. subst s'. assert (c' = c) by congruence. subst c'. apply (proj1 (NoDup_nth_error mp) NM); [lia|congruence].
    - intros s S. apply In_nth_error in S as (p & S). destruct (nth_error mp p) as [c|] eqn:C.
      + destruct (LK p c C) as (s' & S1 & S2). assert (s' = s) by congruence. subst s'. apply in_seq. assert (s < List.length geo)%nat by (apply nth_error_Some; congruence). lia.
      + exfalso. apply nth_error_None in C. assert (p < List.length order)%nat by (apply nth_error_Some; congruence). unfold order in H0. rewrite map_length in H0. lia. }
  split; [exact PERM|]. split; [exact LK|].
  intros A samples L. unfold build_samples.
  assert (M : forall l, (forall s, In s l -> (s < List.length samples)%nat) -> exists out, mapM (fun i => match nth_error samples i with Some a => Ok a | None => Raise IndexError end) l = Ok out /\ List.length out = List.length l /\
            forall p s, nth_error l p = Some s -> nth_error out p = nth_error samples s).
  { induction l as [|s l IH]; intros B; [exists []; repeat split; intros [|p] s E; discriminate|]. destruct IH as (out & E & LO & O); [intros; apply B; now right|]. cbn [mapM].
    destruct (nth_error samples s) as [a|] eqn:SA; [|exfalso; apply nth_error_None in SA; specialize (B s (or_introl eq_refl)); lia]. rewrite E. exists (a :: out). split; [reflexivity|]. split; [cbn [List.length]; lia|].
    intros [|p] s' E'; cbn [nth_error] in *; [congruence|now apply O]. }
  destruct (M order) as (out & E & LO & O).
  { intros s S. rewrite L. eapply Permutation_in in S; [|exact PERM]. apply in_seq in S. lia. }
  exists out. split; [exact E|]. split; [unfold order in LO; now rewrite map_length in LO|].
  intros p s c C S. destruct (LK p c C) as (s' & S1 & S2). rewrite (O p s' S1). f_equal.
  apply (proj1 (NoDup_nth_error geo) N); [apply nth_error_Some; congruence|congruence].
Qed.
Print Assumptions C65_order.
Example C65_ex : pixel_order 2 3 [(1, 2); (0, 0); (1, 0); (0, 1)]%Z [(0, 0); (0, 1); (1, 0); (1, 2)]%Z = Ok [1; 3; 2; 0]%nat.
Proof. vm_compute. reflexivity. Qed.

(** C66. *)
(** The four corners left empty by the three known camera granularities. *)
Definition corner (nr nc : nat) (i j : nat) : bool :=
  existsb (fun ns => (nr =? fst ns)%nat && (nc =? fst ns)%nat && (((i <? snd ns) || (fst ns - snd ns <=? i)) && ((j <? snd ns) || (fst ns - snd ns <=? j)))%nat%bool) [(48, 8); (24, 4); (6, 1)]%nat.
Lemma mask_cell : forall nr nc i j, (i < nr)%nat -> (j < nc)%nat ->
  cell (mask nr nc (full_grid nr nc (Val 0%Qc))) i j = Some (if corner nr nc i j then Masked else Val 0%Qc).
Proof.
  intros nr nc i j I J. unfold mask, corner. cbn [existsb fst snd].
  destruct (Nat.eqb_spec nr 48), (Nat.eqb_spec nc 48), (Nat.eqb_spec nr 24), (Nat.eqb_spec nc 24), (Nat.eqb_spec nr 6), (Nat.eqb_spec nc 6); try lia; cbn [andb orb];
  rewrite ?mask_rect_cell, full_cell by lia; try reflexivity; f_equal; change (48 - 8)%nat with 40%nat; change (24 - 4)%nat with 20%nat; change (6 - 1)%nat with 5%nat;
  repeat match goal with |- context [(?a <=? ?b)%nat] => destruct (Nat.leb_spec a b) | |- context [(?a <? ?b)%nat] => destruct (Nat.ltb_spec a b) end; cbn [andb orb]; try lia; reflexivity.
Qed.
(** One pixel per cell: the pixel's value is shown in its own cell, and every other cell is empty, masked exactly in
    the corners; in particular no pixel value is hidden, even one placed in a corner. *)
Theorem C66_image : forall nr nc pixels values,
  (forall c, In c pixels -> in_range nr nc c) -> NoDup pixels -> List.length values = List.length pixels ->
  exists g, set_image nr nc pixels values = Ok g /\
  (forall p r c v, nth_error pixels p = Some (Z.of_nat r, Z.of_nat c) -> nth_error values p = Some v -> cell g r c = Some (Val v)) /\
  (forall r c, (r < nr)%nat -> (c < nc)%nat -> ~ In (Z.of_nat r, Z.of_nat c) pixels -> cell g r c = Some (if corner nr nc r c then Masked else Val 0%Qc)) /\
  (forall r c v, cell g r c = Some v -> (r < nr)%nat /\ (c < nc)%nat).
Proof.
  intros nr nc pixels values H N L. unfold set_image. rewrite L, Nat.eqb_refl. cbn [negb].
  assert (SH : shape nr nc (mask nr nc (full_grid nr nc (Val 0%Qc)))).
  { unfold mask. repeat match goal with |- context [if ?b then _ else _] => destruct b end; repeat apply mask_rect_shape; apply full_shape. }
  destruct (assign_ok _ nr nc _ pixels (map Val values) SH H) as (g & -> & S & AT & OTHER); [now rewrite map_length|exact N|].
  exists g. split; [reflexivity|]. split; [|split].
  - intros p r c v P V. specialize (AT p _ (Val v) P). cbn [fst snd] in AT. rewrite !Nat2Z.id in AT. apply AT. rewrite nth_error_map, V. reflexivity.
  - intros r c R C X. rewrite OTHER by exact X. now apply mask_cell.
  - intros r c v V. eapply cell_bound; eauto.
Qed.
Print Assumptions C66_image.
(** A wrong number of values, or a pixel outside the camera, raises. *)
Theorem C66_wrong_size : forall nr nc pixels values, List.length values <> List.length pixels -> set_image nr nc pixels values = Raise AssertionError.
Proof. intros nr nc pixels values L. unfold set_image. destruct (Nat.eqb_spec (List.length values) (List.length pixels)); [easy|reflexivity]. Qed.
Print Assumptions C66_wrong_size.
Theorem C66_outside : forall nr nc pixels values r c, List.length values = List.length pixels -> In (r, c) pixels -> (Z.of_nat nr <= r \/ Z.of_nat nc <= c)%Z -> set_image nr nc pixels values = Raise IndexError.
Proof.
  intros nr nc pixels values r c L I O. unfold set_image. rewrite L, Nat.eqb_refl. cbn [negb]. apply (assign_out _ _ _ _ _ _ _ I). cbn [fst snd].
  assert (X : forall n z, (Z.of_nat n <= z)%Z -> forall i, axis_index n z <> Ok i).
  { intros n z B i. unfold axis_index. destruct (Z.ltb_spec z (Z.of_nat n)); [lia|]. rewrite andb_false_r. destruct (Z.ltb_spec z 0); [lia|]. discriminate. }
  destruct O as [O|O]; [left|right]; now apply X.
Qed.
Print Assumptions C66_outside.
Example C66_ex : match set_image 6 6 [(0, 1); (5, 5)]%Z [qz 3; qz 7] with
  | Ok g => map (fun ij => match cell g (fst ij) (snd ij) with Some Masked => None | Some (Val v) => Some (this v) | None => Some (-1)%Q end) [(0, 0); (0, 1); (5, 5); (5, 0); (2, 2)]%nat
  | Raise _ => [] end = [None; Some 3%Q; Some 7%Q; None; Some 0%Q].
Proof. vm_compute. reflexivity. Qed.
