(** Lemmas about indexing, slicing, file detection and time stamps. *)
From Coq Require Import List ZArith String Bool Arith Lia Sorted Reals.
From Flocq Require Import Core BinarySingleNaN.
From Verif.Base Require Import Py PyFacts.
From Verif.Reader Require Import Model.
Import ListNotations.
Local Open Scope list_scope.
Local Open Scope Z_scope.

(** 0 .. n-1 *)
Definition upto (n : Z) : list Z := map Z.of_nat (seq 0 (Z.to_nat n)).

Lemma upto_In : forall n x, In x (upto n) <-> 0 <= x < n.
Proof.
  intros n x. unfold upto. rewrite in_map_iff. split.
  - intros (k & <- & I). apply in_seq in I. lia.
  - intros H. exists (Z.to_nat x). split; [lia|]. apply in_seq. lia.
Qed.

(** ** Sorted lists *)
Lemma sorted_unique : forall (R : Z -> Z -> Prop), (forall x, ~ R x x) -> (forall x y, R x y -> R y x -> False) ->
  forall l1 l2, StronglySorted R l1 -> StronglySorted R l2 -> (forall x, In x l1 <-> In x l2) -> l1 = l2.
Proof.
  intros R IR AS. induction l1 as [|a l1 IH]; intros l2 S1 S2 H.
  - destruct l2 as [|b l2]; auto. exfalso. apply (H b). now left.
  - destruct l2 as [|b l2]; [exfalso; apply (H a); now left|].
    apply StronglySorted_inv in S1. destruct S1 as [S1 F1]. apply StronglySorted_inv in S2. destruct S2 as [S2 F2].
    rewrite Forall_forall in F1, F2.
    assert (a = b) as ->.
    { destruct (proj1 (H a) (or_introl eq_refl)) as [E|I]; auto.
      destruct (proj2 (H b) (or_introl eq_refl)) as [E|J]; auto.
      exfalso. eapply AS; [apply F1; exact J|apply F2; exact I]. }
    f_equal. apply IH; auto. intros x. split; intros I.
    + destruct (proj1 (H x) (or_intror I)) as [->|]; auto. exfalso. eapply IR. apply F1. exact I.
    + destruct (proj2 (H x) (or_intror I)) as [->|]; auto. exfalso. eapply IR. apply F2. exact I.
Qed.

Lemma sorted_map_seq : forall (R : Z -> Z -> Prop) (f : nat -> Z) n a,
  (forall i j, (i < j)%nat -> R (f i) (f j)) -> StronglySorted R (map f (seq a n)).
Proof.
  intros R f. induction n; intros a H; cbn [seq map]; constructor; auto.
  apply Forall_forall. intros x I. apply in_map_iff in I. destruct I as (j & <- & I). apply in_seq in I. apply H. lia.
Qed.

Lemma sorted_filter : forall (R : Z -> Z -> Prop) p l, StronglySorted R l -> StronglySorted R (filter p l).
Proof.
  induction l as [|a l IH]; intros S; cbn [filter]; auto.
  apply StronglySorted_inv in S. destruct S as [S F]. destruct (p a); auto. constructor; auto.
  apply Forall_forall. intros x I. apply filter_In in I. rewrite Forall_forall in F. apply F. apply I.
Qed.

Lemma sorted_snoc : forall (R : Z -> Z -> Prop) l x, StronglySorted R l -> (forall y, In y l -> R y x) ->
  StronglySorted R (l ++ [x]).
Proof.
  induction l as [|a l IH]; intros x S H; cbn [app].
  - repeat constructor.
  - apply StronglySorted_inv in S. destruct S as [S F]. constructor.
    + apply IH; auto. intros. apply H. now right.
    + apply Forall_app. split; auto. constructor; auto. apply H. now left.
Qed.

Lemma sorted_rev : forall l, StronglySorted Z.lt l -> StronglySorted Z.gt (rev l).
Proof.
  induction l as [|a l IH]; intros S; cbn [rev]; [constructor|].
  apply StronglySorted_inv in S. destruct S as [S F]. apply sorted_snoc; auto.
  intros y I. apply in_rev in I. rewrite Forall_forall in F. specialize (F y I). lia.
Qed.

Lemma upto_sorted : forall n, StronglySorted Z.lt (upto n).
Proof. intros. unfold upto. apply sorted_map_seq. intros. lia. Qed.

(** ** Ranges *)
Lemma py_range_up : forall a b c x, 0 < c ->
  (In x (py_range a b c) <-> a <= x < b /\ (x - a) mod c = 0).
Proof.
  intros a b c x Hc. unfold py_range, range_len. destruct (Z.ltb_spec 0 c); [|lia].
  rewrite in_map_iff. destruct (Z.ltb_spec a b).
  - split.
    + intros (k & <- & I). apply in_seq in I. destruct I as [_ I].
      assert (0 <= (b - a - 1) / c) by (apply Z.div_pos; lia).
      assert (Z.of_nat k <= (b - a - 1) / c) by lia.
      assert (Z.of_nat k * c <= b - a - 1).
      { transitivity ((b - a - 1) / c * c); [nia|]. rewrite Z.mul_comm. apply Z.mul_div_le. lia. }
      split; [nia|]. replace (a + Z.of_nat k * c - a) with (Z.of_nat k * c) by lia. apply Z.mod_mul. lia.
    + intros [B M]. exists (Z.to_nat ((x - a) / c)).
      assert (0 <= (x - a) / c) by (apply Z.div_pos; lia).
      pose proof (Z.div_mod (x - a) c). split; [rewrite Z2Nat.id by lia; nia|].
      apply in_seq. assert ((x - a) / c <= (b - a - 1) / c) by (apply Z.div_le_mono; lia).
      assert (0 <= (b - a - 1) / c) by (apply Z.div_pos; lia). lia.
  - split.
    + intros (k & _ & []).
    + lia.
Qed.

Lemma py_range_down : forall a b c x, c < 0 ->
  (In x (py_range a b c) <-> b < x <= a /\ (a - x) mod (- c) = 0).
Proof.
  intros a b c x Hc.
  assert (In x (py_range a b c) <-> In (- x) (py_range (- a) (- b) (- c))) as ->.
  { unfold py_range, range_len. destruct (Z.ltb_spec 0 c); [lia|]. destruct (Z.ltb_spec 0 (- c)); [|lia].
    replace (- a <? - b) with (b <? a) by (destruct (Z.ltb_spec b a), (Z.ltb_spec (- a) (- b)); lia).
    replace (- b - - a - 1) with (a - b - 1) by lia.
    rewrite !in_map_iff. split; intros (k & E & I); exists k; split; auto; lia. }
  rewrite py_range_up by lia. replace (- x - - a) with (a - x) by lia. intuition lia.
Qed.

Lemma py_range_sorted_up : forall a b c, 0 < c -> StronglySorted Z.lt (py_range a b c).
Proof. intros. apply sorted_map_seq. intros. nia. Qed.
Lemma py_range_sorted_down : forall a b c, c < 0 -> StronglySorted Z.gt (py_range a b c).
Proof. intros. apply sorted_map_seq. intros. nia. Qed.

Lemma py_range_01 : forall n, py_range 0 n 1 = upto n.
Proof.
  intros. apply (sorted_unique Z.lt); try (intros; lia).
  - apply py_range_sorted_up. lia.
  - apply upto_sorted.
  - intros x. rewrite py_range_up, upto_In by lia. rewrite Z.mod_1_r. intuition lia.
Qed.

(** ** Slicing a list, as documented in the Python library reference (sequence types, notes 3-5):
    negative bounds count from the end; the first index is brought into range; for a positive step the
    items before the end bound, for a negative one the items after it, every step-th from the first
    index on. *)
Definition from_end (n z : Z) : Z := if z <? 0 then z + n else z.

Definition slice_positions (n : Z) (a b c : option Z) : list Z :=
  let step := match c with Some z => z | None => 1 end in
  if 0 <? step then
    let first := Z.max 0 (match a with Some z => from_end n z | None => 0 end) in
    filter (fun i => (first <=? i) && ((i - first) mod step =? 0) &&
                     match b with Some z => i <? from_end n z | None => true end) (upto n)
  else
    let first := Z.min (n - 1) (match a with Some z => from_end n z | None => n - 1 end) in
    filter (fun i => (i <=? first) && ((first - i) mod (- step) =? 0) &&
                     match b with Some z => from_end n z <? i | None => true end) (rev (upto n)).

Definition list_slice {A} (d : A) (l : list A) (a b c : option Z) : list A :=
  map (fun i => nth (Z.to_nat i) l d) (slice_positions (Z.of_nat (List.length l)) a b c).

Lemma slice_range : forall n a b c start stop step, 0 <= n -> slice_indices a b c n = Ok (start, stop, step) ->
  py_range start stop step = slice_positions n a b c.
Proof.
  intros n a b c start stop step Hn H. unfold slice_indices in H. unfold slice_positions.
  set (st := match c with Some z => z | None => 1 end) in *.
  destruct (Z.eqb_spec st 0); [discriminate|]. inversion H; subst step; clear H.
  destruct (Z.ltb_spec 0 st) as [P|P].
  - destruct (Z.ltb_spec st 0) in *; [lia|].
    apply (sorted_unique Z.lt); try (intros; lia).
    + apply py_range_sorted_up. lia.
    + apply sorted_filter. apply upto_sorted.
    + intros x. rewrite py_range_up by lia. rewrite filter_In, upto_In, !andb_true_iff, Z.leb_le, Z.eqb_eq.
      set (first := Z.max 0 _).
      assert (match b with Some z => x <? from_end n z | None => true end = true <->
              match b with Some z => x < from_end n z | None => True end) as ->.
      { destruct b; [apply Z.ltb_lt|tauto]. }
      subst start stop.
      match goal with |- ?s <= _ < _ /\ _ <-> _ => set (s0 := s) end.
      assert ((first <= n /\ s0 = first) \/ (n < first /\ s0 = n)) as HF.
      { subst s0 first. unfold from_end. destruct a as [z|]; [destruct (Z.ltb_spec z 0)|]; lia. }
      assert (0 <= first) by (subst first; lia).
      unfold from_end. clearbody s0 first.
      destruct HF as [[HF ->]|[HF ->]]; (destruct b as [z|]; [destruct (Z.ltb_spec z 0)|]); intuition lia.
  - destruct (Z.ltb_spec st 0) in *; [|lia].
    apply (sorted_unique Z.gt); try (intros; lia).
    + apply py_range_sorted_down. lia.
    + apply sorted_filter. apply sorted_rev. apply upto_sorted.
    + intros x. rewrite py_range_down by lia. rewrite filter_In, <- in_rev, upto_In, !andb_true_iff, Z.leb_le, Z.eqb_eq.
      set (first := Z.min (n - 1) _).
      assert (match b with Some z => from_end n z <? x | None => true end = true <->
              match b with Some z => from_end n z < x | None => True end) as ->.
      { destruct b; [apply Z.ltb_lt|tauto]. }
      subst start stop.
      match goal with |- _ < _ <= ?s /\ _ <-> _ => set (s0 := s) end.
      assert ((-1 <= first /\ s0 = first) \/ (first < -1 /\ s0 = -1)) as HF.
      { subst s0 first. unfold from_end. destruct a as [z|]; [destruct (Z.ltb_spec z 0)|]; lia. }
      assert (first <= n - 1) by (subst first; lia).
      unfold from_end. clearbody s0 first.
      destruct HF as [[HF ->]|[HF ->]]; (destruct b as [z|]; [destruct (Z.ltb_spec z 0)|]); intuition lia.
Qed.

Lemma slice_positions_bound : forall n a b c x, In x (slice_positions n a b c) -> 0 <= x < n.
Proof.
  intros n a b c x. unfold slice_positions. destruct (0 <? _); rewrite filter_In; [|rewrite <- in_rev];
    rewrite upto_In; tauto.
Qed.

(** ** Indexing *)
Section R.
  Context {E : Type}.
  Variable ev : Z -> E.
  Variable n : Z.
  Hypothesis Hn : 0 <= n.

  Lemma len_ok : len n = Ok n.
  Proof. unfold len. destruct (Z.ltb_spec n 0); [lia|auto]. Qed.

  Lemma get_int_spec : forall i, get_int ev n i =
    if (0 <=? i) && (i <? n) then Ok (ev i)
    else if (- n <=? i) && (i <? 0) then Ok (ev (n + i)) else Raise IndexError.
  Proof.
    intros i. unfold get_int. rewrite len_ok. cbn [bind].
    destruct (Z.ltb_spec i 0).
    - destruct (Z.leb_spec 0 i); [lia|]. cbn [andb].
      destruct (Z.ltb_spec (i + n) 0), (Z.leb_spec (- n) i); try lia; cbn [andb]; auto.
      destruct (Z.leb_spec n (i + n)); [lia|]. now rewrite Z.add_comm.
    - destruct (Z.ltb_spec i 0); [lia|]. destruct (Z.leb_spec 0 i); [|lia]. cbn [andb].
      rewrite andb_false_r. destruct (Z.ltb_spec i n), (Z.leb_spec n i); try lia; auto.
  Qed.

  Lemma iterate_spec : iterate ev n = map ev (upto n).
  Proof. unfold iterate. now rewrite py_range_01. Qed.

  Lemma getitem_list : forall l, getitem ev n (IList l) = bind (mapM (getitem ev n) l) (fun x => Ok (Events x)).
  Proof.
    intros l. cbn [getitem]. f_equal. induction l as [|i l IH]; auto. cbn [mapM]. rewrite <- IH.
    destruct (getitem ev n i); auto.
  Qed.

  Lemma slice_ok : forall a b c, match c with Some z => z <> 0 | None => True end ->
    getitem ev n (ISlice a b c) = Ok (Events (map Event (map ev (slice_positions n a b c)))).
  Proof.
    intros a b c Hc. cbn [getitem]. destruct (Z.ltb_spec n 0); [lia|].
    destruct (slice_indices a b c n) as [[[start stop] step]|e] eqn:S.
    - cbn [bind]. rewrite (slice_range n a b c start stop step Hn S).
      rewrite (mapM_ext _ _ _ (fun i => Ok (Event (ev i)))).
      + rewrite mapM_Ok_map. cbn [bind]. now rewrite map_map.
      + intros i I. apply slice_positions_bound in I. rewrite get_int_spec.
        destruct (Z.leb_spec 0 i), (Z.ltb_spec i n); try lia. reflexivity.
    - exfalso. unfold slice_indices in S. destruct (Z.eqb_spec (match c with Some z => z | None => 1 end) 0); [|discriminate].
      destruct c; [contradiction|discriminate].
  Qed.

  Lemma slice_list : forall d a b c, 
    map ev (slice_positions n a b c) = list_slice d (iterate ev n) a b c.
  Proof.
    intros d a b c. unfold list_slice. rewrite iterate_spec.
    assert (Z.of_nat (List.length (map ev (upto n))) = n) as L.
    { unfold upto. rewrite !map_length, seq_length. lia. }
    rewrite L. apply map_ext_in. intros i I. apply slice_positions_bound in I.
    unfold upto. rewrite map_map.
    rewrite nth_indep with (d' := ev (Z.of_nat 0)) by (rewrite map_length, seq_length; lia).
    rewrite (map_nth (fun k => ev (Z.of_nat k)) (seq 0 (Z.to_nat n)) 0%nat), seq_nth by lia.
    f_equal. lia.
  Qed.

  Lemma c24 : forall d a b c, match c with Some z => z <> 0 | None => True end ->
    getitem ev n (ISlice a b c) = Ok (Events (map Event (list_slice d (iterate ev n) a b c))).
  Proof. intros. rewrite slice_ok by auto. now rewrite (slice_list d). Qed.

  Lemma c24_zero : forall a b, getitem ev n (ISlice a b (Some 0)) = Raise ValueError.
  Proof. intros. cbn [getitem]. destruct (Z.ltb_spec n 0); [lia|]. reflexivity. Qed.

  Lemma list_index : forall l,
    ((forall i, In i l -> - n <= i < n) ->
      getitem ev n (IList (map IInt l)) =
      Ok (Events (map (fun i => Event (ev (if i <? 0 then n + i else i))) l))) /\
    ((exists i, In i l /\ ~ - n <= i < n) -> getitem ev n (IList (map IInt l)) = Raise IndexError).
  Proof.
    intros l. rewrite getitem_list. split.
    - intros H. induction l as [|i l IH]; auto. cbn [map mapM].
      assert (getitem ev n (IInt i) = Ok (Event (ev (if i <? 0 then n + i else i)))) as ->.
      { cbn [getitem]. rewrite get_int_spec. specialize (H i (or_introl eq_refl)).
        destruct (Z.leb_spec 0 i), (Z.ltb_spec i 0), (Z.ltb_spec i n), (Z.leb_spec (- n) i); try lia; reflexivity. }
      specialize (IH (fun j J => H j (or_intror J))).
      destruct (mapM (getitem ev n) (map IInt l)); cbn [bind] in *; congruence.
    - intros (i & I & O). induction l as [|j l IH]; [destruct I|]. cbn [map mapM].
      destruct I as [->|I].
      + assert (getitem ev n (IInt i) = Raise IndexError) as ->; auto.
        cbn [getitem]. rewrite get_int_spec.
        destruct (Z.leb_spec 0 i), (Z.ltb_spec i 0), (Z.ltb_spec i n), (Z.leb_spec (- n) i); try lia; reflexivity.
      + specialize (IH I). cbn [getitem]. rewrite get_int_spec.
        destruct (mapM (getitem ev n) (map IInt l)); cbn [bind] in *; [discriminate|]. inversion IH; subst.
        destruct ((0 <=? j) && (j <? n)); auto. destruct ((- n <=? j) && (j <? 0)); auto.
  Qed.
End R.

(** ** max_events *)
Lemma c26 : forall nf (m : option Z), 0 <= nf -> 
  tio_n_events nf m = match m with
                      | None => nf
                      | Some m => if m =? 0 then nf else Z.min m nf
                      end.
Proof.
  intros nf [m|] H; auto. unfold tio_n_events. destruct (Z.eqb_spec m 0); cbn [negb andb]; auto.
  destruct (Z.ltb_spec m nf); lia.
Qed.

Lemma c26_events : forall E (ev : Z -> E) nf m, 0 <= nf -> 1 <= m ->
  iterate ev (tio_n_events nf (Some m)) = firstn (Z.to_nat m) (iterate ev nf).
Proof.
  intros E ev nf m H1 H2. rewrite c26 by auto. destruct (Z.eqb_spec m 0); [lia|].
  rewrite !iterate_spec. rewrite firstn_map. f_equal. unfold upto. rewrite firstn_map. f_equal.
  rewrite Z2Nat.inj_min. generalize (Z.to_nat m) (Z.to_nat nf). intros a b.
  destruct (Nat.le_ge_cases a b).
  - rewrite Nat.min_l by auto. replace b with (a + (b - a))%nat by lia. rewrite seq_app.
    rewrite firstn_app, seq_length, Nat.sub_diag. cbn [firstn]. rewrite app_nil_r.
    symmetry. apply firstn_all2. now rewrite seq_length.
  - rewrite Nat.min_r by auto. symmetry. apply firstn_all2. now rewrite seq_length.
Qed.

(** ** File detection *)
Definition simtel_marker (m : list byte) : Prop := m = [212; 31; 138; 55] \/ m = [55; 138; 31; 212].

Definition is_byte (b : byte) : Prop := 0 <= b < 256.

Lemma unpack_marker : forall le m, Forall is_byte m -> List.length m = 4%nat ->
  exists i, unpack_I le m = Ok i /\ ((i =? 3558836791) || (i =? 931798996) = true <-> simtel_marker m).
Proof.
  intros le m HB HL. destruct m as [|b0 [|b1 [|b2 [|b3 [|]]]]]; try discriminate.
  inversion HB as [|? ? B0 HB1]; subst. inversion HB1 as [|? ? B1 HB2]; subst. inversion HB2 as [|? ? B2 HB3]; subst.
  inversion HB3 as [|? ? B3 _]; subst. unfold is_byte in *. clear HB HB1 HB2 HB3.
  eexists. split; [reflexivity|]. rewrite orb_true_iff, !Z.eqb_eq. unfold simtel_marker.
  destruct le; split.
  - intros [E|E]; [right|left]; assert (b3 = 212 /\ b2 = 31 /\ b1 = 138 /\ b0 = 55 \/ b3 = 55 /\ b2 = 138 /\ b1 = 31 /\ b0 = 212) as X by lia;
      destruct X as [(-> & -> & -> & ->)|(-> & -> & -> & ->)]; auto; lia.
  - intros [E|E]; inversion E; subst; lia.
  - intros [E|E]; [left|right]; assert (b0 = 212 /\ b1 = 31 /\ b2 = 138 /\ b3 = 55 \/ b0 = 55 /\ b1 = 138 /\ b2 = 31 /\ b3 = 212) as X by lia;
      destruct X as [(-> & -> & -> & ->)|(-> & -> & -> & ->)]; auto; lia.
  - intros [E|E]; inversion E; subst; lia.
Qed.

(** The content after the optional decompression. *)
Definition plain (gunzip : list byte -> res (list byte)) (content : list byte) : res (list byte) :=
  match content with
  | 31 :: 139 :: _ => gunzip content
  | _ => Ok content
  end.

Lemma plain_cases : forall g b0 b1 t, plain g (b0 :: b1 :: t) =
  if (b0 =? 31) && (b1 =? 139) then g (b0 :: b1 :: t) else Ok (b0 :: b1 :: t).
Proof.
  intros. destruct (Z.eqb_spec b0 31) as [->|N0].
  - cbn [andb]. destruct (Z.eqb_spec b1 139) as [->|N1]; [reflexivity|].
    cbn [plain]. destruct b1 as [|p|p]; auto.
    do 9 (try (destruct p as [p|p|]; auto)); exfalso; apply N1; reflexivity.
  - cbn [andb plain]. destruct b0 as [|p|p]; auto.
    do 6 (try (destruct p as [p|p|]; auto)); exfalso; apply N0; reflexivity.
Qed.

Lemma marker_spec : forall g k content, (2 <= k)%nat -> (2 <= List.length content)%nat ->
  marker g k content = bind (plain g content) (fun c => Ok (firstn k c)).
Proof.
  intros g k content Hk H. destruct content as [|b0 [|b1 t]]; cbn in H; try lia.
  destruct k as [|[|k]]; try lia. unfold marker. rewrite plain_cases. cbn [firstn gzip_marked].
  destruct (b0 =? 31); cbn [andb bind]; auto. destruct (b1 =? 139); cbn [bind]; auto.
Qed.

Lemma firstn_bytes : forall k (l : list byte), Forall is_byte l -> Forall is_byte (firstn k l).
Proof.
  induction k; intros [|x l] H; cbn; auto. inversion H; subst. constructor; auto.
Qed.

(** Exact behaviour of SimtelReader.is_compatible. *)
Lemma simtel_spec : forall g le content c, (2 <= List.length content)%nat -> plain g content = Ok c -> Forall is_byte c ->
  ((4 <= List.length c)%nat -> exists b, simtel_compatible g le content = Ok b /\ (b = true <-> simtel_marker (firstn 4 c))) /\
  ((List.length c < 4)%nat -> simtel_compatible g le content = Raise StructError).
Proof.
  intros g le content c H HP HB. unfold simtel_compatible. rewrite marker_spec by (auto; lia). rewrite HP. cbn [bind].
  split; intros L.
  - destruct (unpack_marker le (firstn 4 c)) as (i & E & I).
    + now apply firstn_bytes.
    + rewrite firstn_length. lia.
    + rewrite E. cbn [bind]. eauto.
  - destruct c as [|b0 [|b1 [|b2 [|b3 t]]]]; cbn in L; try lia; reflexivity.
Qed.

(** Acceptance, whatever the length of the file: true exactly for the two markers. *)
Lemma simtel_accepts : forall g le content, (forall c, plain g content = Ok c -> Forall is_byte c) ->
  (simtel_compatible g le content = Ok true <->
   exists c, plain g content = Ok c /\ simtel_marker (firstn 4 c)).
Proof.
  intros g le content HB.
  assert ((List.length content < 2)%nat -> (simtel_compatible g le content = Ok true <-> exists c, plain g content = Ok c /\ simtel_marker (firstn 4 c))) as SHORT.
  { intros L. destruct content as [|b0 [|b1 t]]; cbn in L; try lia.
    - split; [discriminate|]. intros (c & E & M). inversion E; subst. destruct M; discriminate.
    - split.
      + unfold simtel_compatible, marker. cbn [firstn gzip_marked]. destruct (b0 =? 31); discriminate.
      + intros (c & E & M). assert (c = [b0]) as ->.
        { unfold plain in E. destruct b0 as [|p|p]; try congruence.
          do 6 (try (destruct p as [p|p|]; try congruence)). }
        destruct M; discriminate. }
  destruct (Nat.lt_ge_cases (List.length content) 2) as [L|L]; auto.
  destruct (plain g content) as [c|e] eqn:P.
  - destruct (simtel_spec g le content c L P (HB c eq_refl)) as [A B].
    destruct (Nat.lt_ge_cases (List.length c) 4) as [L4|L4].
    + rewrite (B L4). split; [discriminate|]. intros (c' & E & M). inversion E; subst.
      destruct c' as [|b0 [|b1 [|b2 [|b3 t]]]]; cbn in L4; try lia; destruct M; discriminate.
    + destruct (A L4) as (b & E & I). rewrite E. split.
      * intros X. inversion X; subst. exists c. split; auto. now apply I.
      * intros (c' & X & M). inversion X; subst. f_equal. now apply I.
  - unfold simtel_compatible. rewrite marker_spec by (auto; lia). rewrite P. cbn. split; [discriminate|].
    intros (c & E & _). discriminate.
Qed.

(** The answer does not depend on the byte order of the host. *)
Lemma simtel_endian : forall g content, (forall c, plain g content = Ok c -> Forall is_byte c) ->
  simtel_compatible g true content = simtel_compatible g false content.
Proof.
  intros g content HB. unfold simtel_compatible. destruct (Nat.lt_ge_cases (List.length content) 2) as [L|L].
  - destruct content as [|b0 [|b1 t]]; cbn in L; try lia; auto.
    unfold marker. cbn [firstn gzip_marked]. destruct (b0 =? 31); reflexivity.
  - rewrite marker_spec by (auto; lia). destruct (plain g content) as [c|e] eqn:P; auto. cbn [bind].
    destruct (Nat.lt_ge_cases (List.length c) 4) as [L4|L4].
    + destruct c as [|b0 [|b1 [|b2 [|b3 t]]]]; cbn in L4; try lia; reflexivity.
    + destruct (unpack_marker true (firstn 4 c)) as (i & E & I); [apply firstn_bytes; auto|rewrite firstn_length; lia|].
      destruct (unpack_marker false (firstn 4 c)) as (j & F & J); [apply firstn_bytes; auto|rewrite firstn_length; lia|].
      rewrite E, F. cbn [bind]. f_equal. rewrite <- J in I.
      destruct ((i =? 3558836791) || (i =? 931798996)), ((j =? 3558836791) || (j =? 931798996)); intuition.
Qed.

(** Substring of bytes. *)
Lemma bytes_in_spec : forall p l, bytes_in p l = true <-> exists a b, l = a ++ p ++ b.
Proof.
  assert (forall p l, starts_with p l = true <-> exists b, l = p ++ b) as SW.
  { induction p as [|x p IH]; intros l.
    - split; [intros _; exists l; reflexivity|intros _; destruct l; reflexivity].
    - destruct l as [|y l]; cbn [starts_with].
      + split; [discriminate|]. intros [b E]. discriminate.
      + rewrite andb_true_iff, Z.eqb_eq, IH. split.
        * intros [-> [b ->]]. exists b. reflexivity.
        * intros [b E]. inversion E; subst. eauto. }
  intros p. induction l as [|x l IH].
  - cbn [bytes_in]. rewrite orb_false_r, SW. split.
    + intros [b E]. exists [], b. exact E.
    + intros (a & b & E). destruct a; [exists b; exact E|discriminate].
  - cbn [bytes_in]. rewrite orb_true_iff, SW, IH. split.
    + intros [[b E]|(a & b & E)]; [exists [], b; exact E|]. exists (x :: a), b. cbn. now rewrite E.
    + intros (a & b & E). destruct a as [|y a]; [left; exists b; exact E|]. right. inversion E; subst. eauto.
Qed.

Lemma from_path_first : forall C F (comp : C -> F -> res bool) cs f,
  (forall c, from_path comp cs f = Ok (Some c) <->
     exists a b, cs = a ++ c :: b /\ (forall x, In x a -> comp x f = Ok false) /\ comp c f = Ok true) /\
  (from_path comp cs f = Ok None <-> forall x, In x cs -> comp x f = Ok false).
Proof.
  intros C F comp cs f. induction cs as [|x cs [IH1 IH2]].
  - split.
    + intros c. split; [discriminate|]. intros (a & b & E & _). destruct a; discriminate.
    + split; auto. intros _ x [].
  - cbn [from_path]. split.
    + intros c. destruct (comp x f) as [[|]|e] eqn:X; cbn [bind].
      * split.
        -- intros E. inversion E; subst. exists [], cs. split; auto. split; auto. intros y [].
        -- intros ([|y a] & b & E & H1 & H2); inversion E; subst; auto.
           specialize (H1 y (or_introl eq_refl)). congruence.
      * rewrite IH1. split.
        -- intros (a & b & -> & H1 & H2). exists (x :: a), b. split; auto. split; auto. intros y [<-|I]; auto.
        -- intros ([|y a] & b & E & H1 & H2); inversion E; subst; [congruence|]. exists a, b. split; auto.
           split; auto. intros z I. apply H1. now right.
      * split; [discriminate|]. intros ([|y a] & b & E & H1 & H2); inversion E; subst; [congruence|].
        specialize (H1 y (or_introl eq_refl)). congruence.
    + destruct (comp x f) as [[|]|e] eqn:X; cbn [bind].
      * split; [discriminate|]. intros H. specialize (H x (or_introl eq_refl)). congruence.
      * rewrite IH2. split.
        -- intros H y [<-|I]; auto.
        -- intros H y I. apply H. now right.
      * split; [discriminate|]. intros H. specialize (H x (or_introl eq_refl)). congruence.
Qed.

(** A file without FITS in its first kilobyte is refused by TIOReader. *)
Lemma tio_refuses : forall g fh content c, (2 <= List.length content)%nat -> plain g content = Ok c ->
  ~ (exists a b, firstn 1024 c = a ++ FITS ++ b) -> tio_compatible g fh content = Ok false.
Proof.
  intros g fh content c L P H. unfold tio_compatible. rewrite marker_spec by (auto; lia). rewrite P. cbn [bind].
  destruct (bytes_in FITS (firstn 1024 c)) eqn:B; auto. exfalso. apply H. now apply bytes_in_spec.
Qed.

Lemma tio_detects : forall g fh content c, (2 <= List.length content)%nat -> plain g content = Ok c ->
  (tio_compatible g fh content = Ok true <->
   (exists a b, firstn 1024 c = a ++ FITS ++ b) /\ fh content = Ok true) /\
  ((forall e, fh content = Raise e -> e = IOError \/ e = FileNotFoundError) ->
   exists b, tio_compatible g fh content = Ok b).
Proof.
  intros g fh content c L P. unfold tio_compatible. rewrite marker_spec by (auto; lia). rewrite P. cbn [bind].
  rewrite <- bytes_in_spec. destruct (bytes_in FITS (firstn 1024 c)); cbn [negb].
  - destruct (fh content) as [b|e].
    + split; [|eauto]. split; [intros E; inversion E; auto|]. intros [_ E]. inversion E. auto.
    + split.
      * split; [destruct e; discriminate|]. intros [_ E]. discriminate.
      * intros H. destruct (H e eq_refl) as [-> | ->]; eauto.
  - split; [|eauto]. split; [discriminate|]. intros [E _]. discriminate.
Qed.
