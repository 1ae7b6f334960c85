(** Lemmas about the annotations of camera images: levels of mappings, values on pixels, highlighted pixels. *)
From Coq Require Import List ZArith QArith Qcanon Qround Bool String Lia Sorted.
From Verif.Base Require Import Py PyFacts Num Lst Str.
From Verif.Camera Require Import Model Proofs Proofs2 Proofs3 ModelLabels SpecLabels ProofsLabels.
Import ListNotations.
Local Open Scope list_scope.

Lemma nodup_map_inj : forall (A B : Type) (f : A -> B) l, NoDup l -> (forall a b, In a l -> In b l -> f a = f b -> a = b) -> NoDup (map f l).
Proof.
  intros A B f l N. induction N as [|a l N1 N IH]; intros H; cbn [map]; constructor.
  - intros I. apply in_map_iff in I as (b & E & I). apply H in E; [subst; auto|now right|now left].
  - apply IH. intros x y X Y. apply H; now right.
Qed.
Lemma nodup_of_map : forall (A B : Type) (f : A -> B) l, NoDup (map f l) -> NoDup l.
Proof. intros A B f l. induction l as [|a l IH]; intros N; [constructor|]. cbn [map] in N. inversion N; subst. constructor; [|auto]. intros I. now apply (in_map f) in I. Qed.
Lemma nodup_app : forall (A : Type) (l m : list A), NoDup l -> NoDup m -> (forall x, In x l -> In x m -> False) -> NoDup (l ++ m).
Proof. intros A l m N M H. induction N as [|a l N1 N IH]; [exact M|]. cbn [app]. constructor; [|apply IH; intros; eapply H; [right; eassumption|assumption]]. rewrite in_app_iff. intros [I|I]; [auto|apply (H a); [now left|exact I]]. Qed.
Lemma nth_error_ext_ : forall (A : Type) (l m : list A), (forall j, nth_error l j = nth_error m j) -> l = m.
Proof. intros A l. induction l as [|a l IH]; intros [|b m] H; [reflexivity|specialize (H 0%nat); discriminate|specialize (H 0%nat); discriminate|]. f_equal; [specialize (H 0%nat); cbn in H; congruence|]. apply IH. intros j. apply (H (S j)). Qed.
Lemma members_head : forall (A : Type) (key : A -> Z) k l a g, members key k l = a :: g -> In a l /\ key a = k.
Proof. intros A key k l a g E. apply (members_in key). rewrite E. now left. Qed.

Section Blocks.
  Variables (B : Type) (k : Z) (key : pixel -> Z) (f : Z -> pixel -> list pixel -> B) (out : B -> Z) (sp : B -> spot).
  Hypothesis K : (0 < k)%Z.
  Hypothesis out_f : forall t a g, out (f t a g) = t.
  Hypothesis row_f : forall t a g, s_row (sp (f t a g)) = (row a / k)%Z.
  Hypothesis col_f : forall t a g, s_col (sp (f t a g)) = (col a / k)%Z.
  Variable l : list pixel.
  Hypothesis slot_f : forall t a g, In a l -> key a = t -> s_slot (sp (f t a g)) = slot a.
  Hypothesis BL : blocks k key l.
  Hypothesis OL : one_per_cell (map pixel_spot l).
  Lemma coarse_in : forall q, In q (map sp (agg key f l)) -> exists r a, In r (agg key f l) /\ q = sp r /\ In a l /\ key a = out r /\ s_slot q = slot a /\ s_row q = (row a / k)%Z /\ s_col q = (col a / k)%Z.
  Proof.
    intros q Q. apply in_map_iff in Q as (r & <- & R). destruct (agg_in key f out out_f l r R) as (a & g & E & E2). destruct (members_head _ _ _ _ _ _ E) as [I Ka].
    exists r, a. split; [exact R|]. split; [reflexivity|]. split; [exact I|]. split; [exact Ka|]. rewrite E2, row_f, col_f, slot_f; auto.
  Qed.
  Lemma coarse_has : forall p, In p l -> exists q, In q (map sp (agg key f l)) /\ s_slot q = slot p /\ s_row q = (row p / k)%Z /\ s_col q = (col p / k)%Z.
  Proof.
    intros p I. destruct (agg_has key f out out_f l p I) as (r & R & O). exists (sp r). split; [now apply in_map|].
    destruct (agg_in key f out out_f l r R) as (a & g & E & E2). destruct (members_head _ _ _ _ _ _ E) as [Ia Ka]. rewrite E2, row_f, col_f, slot_f; auto.
    destruct BL as (B1 & B2 & _). rewrite O in Ka. destruct (proj1 (B1 a p Ia I) Ka) as [-> ->]. rewrite (B2 a p Ia I Ka). auto.
  Qed.
  Lemma coarse_cells : one_per_cell (map sp (agg key f l)).
  Proof.
    unfold one_per_cell. rewrite map_map. apply nodup_map_inj.
    - apply (nodup_of_map _ _ out). rewrite (agg_keys key f out out_f). apply sorted_nodup, keys_sorted.
    - intros r r' R R' E. apply (agg_inj key f out out_f l r r' R R').
      destruct (agg_in key f out out_f l r R) as (a & g & E1 & E2). destruct (members_head _ _ _ _ _ _ E1) as [Ia Ka].
      destruct (agg_in key f out out_f l r' R') as (a' & g' & E1' & E2'). destruct (members_head _ _ _ _ _ _ E1') as [Ia' Ka'].
      rewrite E2, E2', !row_f, !col_f in E. injection E as ER EC. destruct BL as (B1 & _). rewrite <- Ka, <- Ka'. now apply B1.
  Qed.
  Lemma blocks_edge : forall up t, on_edge up (map pixel_spot l) t <-> on_edge up (map sp (agg key f l)) t.
  Proof.
    destruct BL as (B1 & B2 & B3). apply (levels_edge k); auto using coarse_cells.
    - intros p P. apply in_map_iff in P as (a & <- & I). destruct (coarse_has a I) as (q & Q). now exists q.
    - intros q Q. destruct (coarse_in q Q) as (r & a & R & _ & I & _ & S1 & R1 & C1). exists (pixel_spot a). split; [now apply in_map|]. cbn [pixel_spot s_slot s_row s_col]. auto.
    - intros q p Q P C. apply in_map_iff in P as (b & <- & Ib). destruct (coarse_in q Q) as (r & a & R & _ & I & _ & S1 & R1 & C1). cbn [pixel_spot s_col] in C |- *.
      destruct (B3 a b I Ib) as (c & Ic & Kc & Cc); [congruence|]. exists (pixel_spot c). split; [now apply in_map|]. cbn [pixel_spot s_slot s_row s_col].
      rewrite S1, R1. split; [now apply B2|]. split; [|exact Cc]. now apply B1.
    - intros p q P Q R C. apply in_map_iff in P as (a & <- & Ia). apply in_map_iff in Q as (b & <- & Ib). cbn [pixel_spot s_slot s_row s_col] in *. apply B2; auto. now apply B1.
  Qed.
End Blocks.

Lemma tm_edge : forall l up t, blocks 8 slot l -> one_per_cell (map pixel_spot l) -> on_edge up (map pixel_spot l) t <-> on_edge up (map tm_spot (agg slot tm_agg l)) t.
Proof. intros l up t B O. apply (blocks_edge _ 8 slot tm_agg tm tm_spot); auto; try reflexivity; lia. Qed.
Lemma sp_edge : forall l up t, blocks 2 superpixel l -> one_per_cell (map pixel_spot l) -> on_edge up (map pixel_spot l) t <-> on_edge up (map sp_spot (agg superpixel sp_agg l)) t.
Proof. intros l up t B O. apply (blocks_edge _ 2 superpixel sp_agg sp sp_spot); auto; try reflexivity; lia. Qed.

(** The spot of a module in the mapping of modules. *)
Lemma filter_slot_map : forall t l, of_slot t (map pixel_spot l) = map pixel_spot (members slot t l).
Proof. intros t l. unfold of_slot, members. induction l as [|a l IH]; [reflexivity|]. cbn [map filter pixel_spot s_slot]. destruct (slot a =? t)%Z; cbn [map]; now rewrite IH. Qed.
Lemma filter_one : forall (A : Type) (key : A -> Z) l a, NoDup (map key l) -> In a l -> filter (fun b => (key b =? key a)%Z) l = [a].
Proof.
  intros A key l a. induction l as [|x l IH]; intros N I; [destruct I|]. cbn [map] in N. inversion N as [|? ? N1 N2]; subst. cbn [filter]. destruct I as [->|I].
  - rewrite Z.eqb_refl. f_equal. destruct (filter (fun b => (key b =? key a)%Z) l) as [|y g] eqn:E; [reflexivity|]. exfalso. apply N1.
    assert (In y (filter (fun b => (key b =? key a)%Z) l)) as Y by (rewrite E; now left). apply filter_In in Y as [Y Y2]. apply Z.eqb_eq in Y2. rewrite <- Y2. now apply in_map.
  - destruct (Z.eqb_spec (key x) (key a)) as [E|_]; [|now apply IH]. exfalso. apply N1. rewrite E. now apply in_map.
Qed.
Lemma filter_map_comm : forall (A B : Type) (f : A -> B) p l, filter p (map f l) = map f (filter (fun a => p (f a)) l).
Proof. intros A B f p l. induction l as [|a l IH]; [reflexivity|]. cbn [map filter]. destruct (p (f a)); cbn [map]; now rewrite IH. Qed.
Lemma qmean_one : forall q, qmean [q] = q.
Proof. intros q. unfold qmean. cbn [List.length]. rewrite qn_S, qn_0, qsum_cons. change (qsum []) with 0%Qc. field. discriminate. Qed.
Lemma tm_x_same : forall l t, (exists p, In p l /\ slot p = t) -> qmean (map s_x (of_slot t (map tm_spot (agg slot tm_agg l)))) = qmean (map s_x (of_slot t (map pixel_spot l))).
Proof.
  intros l t (p & I & <-). destruct (agg_has slot tm_agg tm (fun _ _ _ => eq_refl) l p I) as (r & R & O). rewrite <- O.
  assert (of_slot (tm r) (map tm_spot (agg slot tm_agg l)) = [tm_spot r]) as ->.
  { unfold of_slot. rewrite filter_map_comm. change (fun a => (s_slot (tm_spot a) =? tm r)%Z) with (fun a => (tm a =? tm r)%Z). rewrite (filter_one _ tm _ r); [reflexivity| |exact R].
    rewrite (agg_keys slot tm_agg tm (fun _ _ _ => eq_refl)). apply sorted_nodup, keys_sorted. }
  cbn [map]. rewrite qmean_one. destruct (agg_in slot tm_agg tm (fun _ _ _ => eq_refl) l r R) as (a & g & E & E2).
  rewrite filter_slot_map, map_map, E. change (s_x (tm_spot r)) with (tm_x r). rewrite E2. reflexivity.
Qed.

(** Highlighted pixels. *)
Lemma set_all : forall (c : Qc) js w, let w' := fold_left (fun w j => list_set j c w) js w in
  List.length w' = List.length w /\ (forall j, In j js -> (j < List.length w)%nat -> nth_error w' j = Some c) /\ (forall j, ~ In j js -> nth_error w' j = nth_error w j).
Proof.
  intros c js. induction js as [|i js IH]; intros w; cbn [fold_left]; [repeat split; intros ? []|]. cbv zeta in IH. destruct (IH (list_set i c w)) as (L & A & B). rewrite list_set_length in L, A.
  cbv zeta. split; [exact L|]. split.
  - intros j J H. destruct (in_dec Nat.eq_dec j js) as [Jn|Jn]; [now apply A|]. rewrite B by exact Jn. destruct J as [->|J]; [|now exfalso]. rewrite list_set_nth, Nat.eqb_refl.
    now replace (j <? List.length w)%nat with true by (symmetry; now apply Nat.ltb_lt).
  - intros j J. rewrite B by (intros Q; apply J; now right). rewrite list_set_nth. destruct (Nat.eqb_spec j i) as [->|]; [exfalso; apply J; now left|reflexivity].
Qed.
Lemma axis_picks : forall n i, (- Z.of_nat n <= i < Z.of_nat n)%Z -> exists j, axis_index n i = Ok j /\ (j < n)%nat /\ (i = Z.of_nat j \/ i = Z.of_nat j - Z.of_nat n)%Z.
Proof.
  intros n i H. unfold axis_index. destruct (Z.leb_spec 0 i).
  - replace (i <? Z.of_nat n)%Z with true by (symmetry; apply Z.ltb_lt; lia). cbn [andb]. exists (Z.to_nat i). split; [reflexivity|lia].
  - cbn [andb]. replace (i <? 0)%Z with true by (symmetry; apply Z.ltb_lt; lia). replace (- Z.of_nat n <=? i)%Z with true by (symmetry; apply Z.leb_le; lia). cbn [andb]. eexists. split; [reflexivity|lia].
Qed.
Lemma axis_refuses : forall n i, ~ (- Z.of_nat n <= i < Z.of_nat n)%Z -> axis_index n i = Raise IndexError.
Proof.
  intros n i H. unfold axis_index. destruct (Z.leb_spec 0 i); destruct (Z.ltb_spec i (Z.of_nat n)); cbn [andb]; try lia;
    destruct (Z.ltb_spec i 0); cbn [andb]; try lia; try reflexivity. destruct (Z.leb_spec (- Z.of_nat n) i); [lia|reflexivity].
Qed.
Lemma mapM_axis : forall n l, (forall i, In i l -> (- Z.of_nat n <= i < Z.of_nat n)%Z) -> exists js, mapM (axis_index n) l = Ok js /\
  forall j, In j js <-> exists i, In i l /\ (j < n)%nat /\ (i = Z.of_nat j \/ i = Z.of_nat j - Z.of_nat n)%Z.
Proof.
  intros n l. induction l as [|i l IH]; intros H.
  - exists []. split; [reflexivity|]. intros j. split; [intros []|intros (i & [] & _)].
  - destruct (axis_picks n i (H i (or_introl eq_refl))) as (j0 & E0 & L0 & P0). destruct IH as (js & E & P); [intros; apply H; now right|].
    exists (j0 :: js). cbn [mapM]. rewrite E0. cbn [bind]. rewrite E. split; [reflexivity|]. intros j. cbn [In]. rewrite P. split.
    + intros [<-|(i' & I & R)]; [exists i; auto|exists i'; auto].
    + intros (i' & [<-|I] & L & R); [left; lia|right; exists i'; auto].
Qed.
Lemma mask_picks : forall n (l : list bool), List.length l = n -> forall j, In j (map fst (filter snd (combine (seq 0 n) l))) <-> nth_error l j = Some true.
Proof.
  intros n l <-. enough (forall s j, In j (map fst (filter snd (combine (seq s (List.length l)) l))) <-> (s <= j)%nat /\ nth_error l (j - s) = Some true) as H.
  { intros j. rewrite H, Nat.sub_0_r. intuition lia. }
  induction l as [|b l IH]; intros s j; cbn [List.length seq combine filter map].
  - split; [intros []|]. intros [_ E]. destruct (j - s)%nat; discriminate.
  - assert (In j (map fst (filter snd (combine (seq (S s) (List.length l)) l))) <-> (s < j)%nat /\ nth_error (b :: l) (j - s) = Some true) as R.
    { rewrite IH. destruct (Nat.lt_ge_cases s j) as [L|L]; [|split; intros []; lia]. replace (j - s)%nat with (S (j - S s)) by lia. cbn [nth_error]. intuition lia. }
    destruct b; cbn [snd map fst In].
    + rewrite R. split; [intros [<-|[L E]]; [rewrite Nat.sub_diag; auto|split; [lia|exact E]]|]. intros [L E]. destruct (Nat.eq_dec s j); [now left|right; split; [lia|exact E]].
    + rewrite R. split; [intros [L E]; split; [lia|exact E]|]. intros [L E]. split; [|exact E]. destruct (Nat.eq_dec s j) as [->|]; [rewrite Nat.sub_diag in E; discriminate|lia].
Qed.
Lemma selected_picks : forall n ix, fits n ix -> exists js, selected n ix = Ok js /\ (forall j, In j js <-> picks n ix j).
Proof.
  intros n [l|l] F; cbn [fits selected picks] in *.
  - exact (mapM_axis n l F).
  - rewrite F, Nat.eqb_refl. eexists. split; [reflexivity|]. exact (mask_picks n l F).
Qed.
Lemma selected_refuses : forall n ix, ~ fits n ix -> selected n ix = Raise IndexError.
Proof.
  intros n [l|l] F; cbn [fits selected] in *.
  - induction l as [|i l IH]; [exfalso; apply F; intros ? []|]. cbn [mapM]. destruct (Z_le_dec (- Z.of_nat n) i) as [A|A]; [destruct (Z_lt_dec i (Z.of_nat n)) as [B|B]|].
    + destruct (axis_picks n i (conj A B)) as (j & -> & _). cbn [bind]. rewrite IH; [reflexivity|]. intros H. apply F. intros x [<-|X]; auto.
    + rewrite axis_refuses by lia. reflexivity.
    + rewrite axis_refuses by lia. reflexivity.
  - destruct (Nat.eqb_spec (List.length l) n); [now exfalso|reflexivity].
Qed.
Lemma picks_lt : forall n ix j, fits n ix -> picks n ix j -> (j < n)%nat.
Proof. intros n [l|l] j F P; cbn [fits picks] in *; [destruct P as (i & _ & L & _); exact L|]. rewrite <- F. apply nth_error_Some. now rewrite P. Qed.
Lemma nth_repeat : forall (A : Type) (a : A) n j, (j < n)%nat -> nth_error (repeat a n) j = Some a.
Proof. intros A a n. induction n as [|n IH]; intros j H; [lia|]. destruct j; [reflexivity|]. cbn. apply IH. lia. Qed.
Lemma highlight_widths : forall n d ix lw, fits n ix -> exists w, highlight_pixels n (Some d) ix lw = Ok w /\ List.length w = n /\
  (forall j, picks n ix j -> nth_error w j = Some (cast d lw)) /\ (forall j, (j < n)%nat -> ~ picks n ix j -> nth_error w j = Some 0%Qc).
Proof.
  intros n d ix lw F. unfold highlight_pixels. destruct (selected_picks n ix F) as (js & -> & P). cbn [bind]. eexists. split; [reflexivity|].
  destruct (set_all (cast d lw) js (repeat 0%Qc n)) as (L & A & B). rewrite repeat_length in L, A. split; [exact L|]. split.
  - intros j J. apply A; [now apply P|]. now apply (picks_lt n ix).
  - intros j J N. rewrite B; [now apply nth_repeat|]. intros I. apply N. now apply P.
Qed.

(** Values on pixels. *)
Lemma texts_ok : forall V (ps : list (Qc * Qc)) (v : values V) (g : nat -> list V), v_size_ v = List.length ps -> (forall i, (i < List.length ps)%nat -> v_at v i = Ok (g i)) ->
  add_pixel_text ps v = Ok (map (fun i => (nth i ps (0%Qc, 0%Qc), g i)) (seq 0 (List.length ps))).
Proof.
  intros V ps v g E H. unfold add_pixel_text. rewrite E, Nat.eqb_refl. apply mapM_map. intros i I. apply in_seq in I. rewrite H by lia. cbn [bind]. unfold add_text_to_pixel.
  rewrite axis_ok by lia. cbn [bind]. rewrite Nat2Z.id. now rewrite (nth_error_nth' ps (0%Qc, 0%Qc)) by lia.
Qed.
