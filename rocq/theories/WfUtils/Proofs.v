(** Lemmas about the rolling baseline, shifting and averaging. *)
From Coq Require Import List ZArith QArith Qcanon Bool Arith Lia Permutation.
From Verif.Base Require Import Py Num Lst.
From Verif.WfUtils Require Import Model.
Import ListNotations.
Local Open Scope list_scope.

(** ** Ring buffer *)
Lemma set_entry_app : forall A (l1 : list A) y l2 x, set_entry (l1 ++ y :: l2) (List.length l1) x = l1 ++ x :: l2.
Proof. induction l1; intros; cbn; auto. now rewrite IHl1. Qed.
Lemma set_entry_length : forall A (l : list A) i x, List.length (set_entry l i x) = List.length l.
Proof. induction l; intros [|i] x; cbn; auto. Qed.

Lemma split_at : forall A (l : list A) i, (i < List.length l)%nat -> exists y, l = firstn i l ++ y :: skipn (S i) l.
Proof.
  intros A l i H. destruct (skipn i l) as [|y t] eqn:E.
  - apply (f_equal (@List.length A)) in E. rewrite skipn_length in E. cbn in E. lia.
  - exists y. rewrite <- (firstn_skipn i l) at 1. rewrite E. do 2 f_equal.
    replace (S i) with (i + 1)%nat by lia. rewrite <- skipn_skipn, E. reflexivity.
Qed.
Lemma set_entry_split : forall A (l : list A) i x, (i < List.length l)%nat -> set_entry l i x = firstn i l ++ x :: skipn (S i) l.
Proof.
  intros A l i x H. destruct (split_at A l i H) as [y E]. rewrite E at 1.
  pose proof (set_entry_app A (firstn i l) y (skipn (S i) l) x) as H1. now rewrite (firstn_length_le l (n := i)) in H1 by lia.
Qed.

(** The buffer, read from the oldest entry on. *)
Definition unroll {A} (n k : nat) (buf : list A) : list A := skipn (k mod n) buf ++ firstn (k mod n) buf.

Lemma unroll_step : forall A n k (buf : list A) x, (0 < n)%nat -> List.length buf = n ->
  unroll n (S k) (set_entry buf (k mod n) x) = tl (unroll n k buf) ++ [x].
Proof.
  intros A n k buf x Hn L. unfold unroll. set (e := (k mod n)%nat).
  assert (e < n)%nat as He by (apply Nat.mod_upper_bound; lia).
  rewrite set_entry_split by lia.
  destruct (split_at A buf e ltac:(lia)) as [y Ey].
  assert (skipn e buf = y :: skipn (S e) buf) as SK.
  { rewrite Ey at 1. rewrite skipn_app, skipn_all2 by (rewrite firstn_length; lia).
    rewrite firstn_length_le, Nat.sub_diag by lia. reflexivity. }
  rewrite SK. cbn [app tl].
  assert (List.length (firstn e buf) = e) as LE by (apply firstn_length_le; lia).
  destruct (Nat.eq_dec (S e) n) as [EN|NE].
  - assert (S k mod n = 0)%nat as ->.
    { rewrite <- Nat.add_1_r, Nat.add_mod by lia. fold e. destruct (Nat.eq_dec n 1) as [->|N1]; [apply Nat.mod_1_r|].
      rewrite (Nat.mod_small 1) by lia. replace (e + 1)%nat with n by lia. apply Nat.mod_same. lia. }
    rewrite skipn_all2 with (n := S e) by lia. cbn [skipn firstn app]. now rewrite app_nil_r.
  - assert (S k mod n = S e)%nat as ->.
    { rewrite <- Nat.add_1_r, Nat.add_mod by lia. fold e. rewrite (Nat.mod_small 1) by lia.
      rewrite Nat.add_1_r. apply Nat.mod_small. lia. }
    rewrite skipn_app, LE. rewrite skipn_all2 by lia. replace (S e - e)%nat with 1%nat by lia. cbn [skipn app].
    rewrite firstn_app, LE. rewrite firstn_all2 by lia. replace (S e - e)%nat with 1%nat by lia. cbn [firstn].
    now rewrite app_assoc.
Qed.

(** All calls of [subtract] on [evs], keeping the final state. *)
Definition after (b : subtractor) (evs : list event) : subtractor := fold_left update_baseline evs b.

Lemma after_fields : forall evs b, b_n (after b evs) = b_n b /\ b_samples (after b evs) = b_samples b /\ b_pixels (after b evs) = b_pixels b /\
  b_iev (after b evs) = (b_iev b + List.length evs)%nat /\ List.length (b_buf (after b evs)) = List.length (b_buf b).
Proof.
  induction evs as [|w evs IH]; intros b; cbn [after fold_left].
  - repeat split; auto; cbn; lia.
  - fold (after (update_baseline b w) evs). destruct (IH (update_baseline b w)) as (A & B & C & D & E). rewrite A, B, C, D, E.
    cbn. rewrite set_entry_length. repeat split; auto; lia.
Qed.

Lemma after_unroll : forall evs b, (0 < b_n b)%nat -> List.length (b_buf b) = b_n b ->
  unroll (b_n b) (b_iev b + List.length evs) (b_buf (after b evs)) =
  skipn (List.length evs) (unroll (b_n b) (b_iev b) (b_buf b) ++ map (head (b_samples b)) evs).
Proof.
  induction evs as [|w evs IH]; intros b Hn L; cbn [after fold_left map List.length].
  - rewrite Nat.add_0_r, app_nil_r. reflexivity.
  - fold (after (update_baseline b w) evs). specialize (IH (update_baseline b w)). cbn [update_baseline b_n b_iev b_samples b_buf] in IH.
    replace (b_iev b + S (List.length evs))%nat with (S (b_iev b) + List.length evs)%nat by lia.
    rewrite IH by (auto; now rewrite set_entry_length). rewrite unroll_step by auto.
    assert (List.length (unroll (b_n b) (b_iev b) (b_buf b)) = b_n b) as LU.
    { unfold unroll. rewrite app_length, skipn_length, firstn_length. lia. }
    destruct (unroll (b_n b) (b_iev b) (b_buf b)) as [|u us]; [cbn in LU; lia|]. cbn [tl app]. rewrite <- app_assoc. reflexivity.
Qed.

(** The initial buffer: the first events, then zeros. *)
Lemma fill_loop_spec : forall nb ns src iev pre post, List.length pre = iev -> (iev + List.length post)%nat = nb ->
  fill_loop nb ns src iev (pre ++ post) =
  pre ++ map (head ns) (firstn (List.length post) src) ++ skipn (List.length src) post.
Proof.
  intros nb ns. induction src as [|w src IH]; intros iev pre post HP HN; cbn [fill_loop].
  - rewrite firstn_nil. reflexivity.
  - destruct post as [|p post].
    + cbn in HN. replace (nb <=? iev)%nat with true by (symmetry; apply Nat.leb_le; lia). reflexivity.
    + cbn [List.length] in HN. replace (nb <=? iev)%nat with false by (symmetry; apply Nat.leb_gt; lia).
      rewrite <- HP at 2. rewrite set_entry_app.
      change (pre ++ head ns w :: post) with (pre ++ ([head ns w] ++ post)). rewrite app_assoc.
      rewrite IH; [|rewrite app_length; cbn; lia|lia]. rewrite <- app_assoc. reflexivity.
Qed.

Definition zero_event (n_pixels n_base_samples : nat) : event := repeat (repeat 0%Qc n_base_samples) n_pixels.
Definition initial_entries (n_pixels nb ns : nat) (src : list event) : list event :=
  map (head ns) (firstn nb src) ++ repeat (zero_event n_pixels ns) (nb - List.length src).

Lemma skipn_repeat : forall A (x : A) n k, skipn k (repeat x n) = repeat x (n - k).
Proof. induction n; intros [|k]; cbn; auto. Qed.
Lemma initial_buf : forall np src nb ns, b_buf (new_subtractor np src nb ns) = initial_entries np nb ns src.
Proof.
  intros np src nb ns. unfold new_subtractor. cbn [b_buf].
  pose proof (fill_loop_spec nb ns src 0 [] (repeat (zero_event np ns) nb) eq_refl) as H. cbn [app] in H.
  etransitivity; [apply H; rewrite repeat_length; lia|]. rewrite repeat_length, skipn_repeat. reflexivity.
Qed.
Lemma initial_length : forall np nb ns src, List.length (initial_entries np nb ns src) = nb.
Proof. intros. unfold initial_entries. rewrite app_length, map_length, firstn_length, repeat_length. lia. Qed.

Lemma qsum_perm : forall l l', Permutation l l' -> qsum l = qsum l'.
Proof. intros l l' P. induction P; rewrite ?qsum_cons; auto; [now rewrite IHP|ring|congruence]. Qed.

Lemma mean02_perm : forall nb ns buf buf' p, Permutation buf buf' -> mean02 nb ns buf p = mean02 nb ns buf' p.
Proof. intros. unfold mean02. rewrite (qsum_perm _ _ (Permutation_map _ H)). reflexivity. Qed.

Lemma unroll_perm : forall A n k (buf : list A), Permutation (unroll n k buf) buf.
Proof. intros. unfold unroll. rewrite Permutation_app_comm, firstn_skipn. reflexivity. Qed.

Lemma baseline_step : forall b w, b_baseline (update_baseline b w) =
  map (mean02 (b_n b) (b_samples b) (b_buf (update_baseline b w))) (seq 0 (b_pixels b)).
Proof. reflexivity. Qed.

(** Baseline after any history of at least one call. *)
Lemma c41 : forall np src nb ns evs p, (0 < nb)%nat -> (p < np)%nat -> evs <> [] ->
  let b := after (new_subtractor np src nb ns) evs in
  nth p (b_baseline b) 0%Qc =
  (qsum (map (fun e => qsum (nth p e [])) (skipn (List.length evs) (initial_entries np nb ns src ++ map (head ns) evs))) / qn (nb * ns))%Qc.
Proof.
  intros np src nb ns evs p Hn Hp NE b.
  set (b0 := new_subtractor np src nb ns) in *.
  assert (b_baseline b = map (mean02 nb ns (b_buf b)) (seq 0 np)) as BL.
  { unfold b, after. destruct (exists_last NE) as (evs' & w & ->). rewrite fold_left_app. cbn [fold_left].
    rewrite baseline_step. destruct (after_fields evs' b0) as (A & B & C & _). fold (after b0 evs'). rewrite A, B, C. reflexivity. }
  rewrite BL. rewrite nth_indep with (d' := mean02 nb ns (b_buf b) 0) by (rewrite map_length, seq_length; auto).
  rewrite map_nth, seq_nth by auto. cbn [Nat.add].
  assert (Permutation (b_buf b) (skipn (List.length evs) (initial_entries np nb ns src ++ map (head ns) evs))) as PM.
  { pose proof (after_unroll evs b0) as AU. cbn [b_n b_iev b_samples b0 new_subtractor] in AU.
    fold b0 in AU. rewrite <- (unroll_perm _ nb (List.length evs) (b_buf b)).
    unfold b. rewrite Nat.add_0_l in AU. rewrite AU.
    - unfold unroll. rewrite Nat.mod_0_l by lia. cbn [skipn firstn]. rewrite app_nil_r.
      unfold b0. rewrite initial_buf. reflexivity.
    - exact Hn.
    - unfold b0. rewrite initial_buf. apply initial_length. }
  rewrite (mean02_perm _ _ _ _ _ PM). reflexivity.
Qed.

(** ** Shifting *)
Lemma nth_error_set_slice : forall A (l vals : list A) a b j,
  let s := slice_bound (List.length l) 0 a in let e := slice_bound (List.length l) (List.length l) b in
  (s <= List.length l)%nat -> (e <= List.length l)%nat -> List.length vals = (e - s)%nat ->
  nth_error (set_slice l a b vals) j = if ((s <=? j) && (j <? e))%nat then nth_error vals (j - s) else nth_error l j.
Proof.
  intros A l vals a b j s e Hs He Lv. unfold set_slice. fold s e.
  assert (List.length (firstn s l) = s) as LF by (apply firstn_length_le; auto).
  destruct (Nat.leb_spec s j) as [J1|J1]; cbn [andb].
  - rewrite nth_error_app2 by lia. rewrite LF. destruct (Nat.ltb_spec j e) as [J2|J2].
    + rewrite nth_error_app1 by lia. reflexivity.
    + rewrite nth_error_app2 by lia. rewrite Lv.
      rewrite <- (firstn_skipn (Nat.max s e) l) at 2. rewrite nth_error_app2 by (rewrite firstn_length; lia).
      rewrite firstn_length_le by lia. f_equal. lia.
  - rewrite nth_error_app1 by lia. rewrite <- (firstn_skipn s l) at 2. now rewrite nth_error_app1 by lia.
Qed.
Lemma fill_is_set : forall A (l : list A) a b v, fill_slice l a b v =
  set_slice l a b (repeat v (slice_bound (List.length l) (List.length l) b - slice_bound (List.length l) 0 a)).
Proof. reflexivity. Qed.

Lemma slice_bound_le : forall n d z, (d <= n)%nat -> (slice_bound n d z <= n)%nat.
Proof. intros n d [z|] H; cbn; auto. destruct (Z.ltb_spec z 0); lia. Qed.
Lemma set_slice_length : forall A (l vals : list A) a b,
  List.length vals = (slice_bound (List.length l) (List.length l) b - slice_bound (List.length l) 0 a)%nat ->
  List.length (set_slice l a b vals) = List.length l.
Proof.
  intros A l vals a b H. unfold set_slice. rewrite !app_length, firstn_length, skipn_length, H.
  pose proof (slice_bound_le (List.length l) 0 a ltac:(lia)). pose proof (slice_bound_le (List.length l) (List.length l) b ltac:(lia)). lia.
Qed.
Lemma nth_error_pyslice : forall A (l : list A) a b j,
  let s := slice_bound (List.length l) 0 a in let e := slice_bound (List.length l) (List.length l) b in
  nth_error (pyslice l a b) j = if (j <? e - s)%nat then nth_error l (s + j) else None.
Proof. intros A l a b j s e. unfold pyslice. fold s e. now rewrite nth_error_firstn, nth_error_skipn. Qed.
Lemma pyslice_length : forall A (l : list A) a b,
  List.length (pyslice l a b) = (slice_bound (List.length l) (List.length l) b - slice_bound (List.length l) 0 a)%nat.
Proof.
  intros A l a b. unfold pyslice. rewrite firstn_length, skipn_length.
  pose proof (slice_bound_le (List.length l) (List.length l) b ltac:(lia)). lia.
Qed.

Definition shifted {A} (row : list A) (num : Z) (fill : A) (j : nat) : A :=
  let i := (Z.of_nat j - num)%Z in
  if ((0 <=? i) && (i <? Z.of_nat (List.length row)))%Z then nth (Z.to_nat i) row fill else fill.

Ltac cases_ltb :=
  repeat match goal with
  | |- context [Z.leb ?a ?b] => destruct (Z.leb_spec a b); try lia; cbn [andb]
  | |- context [Z.ltb ?a ?b] => destruct (Z.ltb_spec a b); try lia; cbn [andb]
  end;
  repeat match goal with
  | |- context [Nat.leb ?a ?b] => destruct (Nat.leb_spec a b); try lia; cbn [andb]
  | |- context [Nat.ltb ?a ?b] => destruct (Nat.ltb_spec a b); try lia; cbn [andb]
  end.
Lemma shift_row_spec : forall A (junk row : list A) num fill, List.length junk = List.length row ->
  shift_row junk row num fill = map (shifted row num fill) (seq 0 (List.length row)).
Proof.
  intros A junk row num fill L. apply list_ext. intro j. rewrite nth_error_map_seq.
  set (n := List.length row) in *. unfold shift_row, shifted. fold n.
  destruct (Z.ltb_spec 0 num) as [P|P]; [|destruct (Z.ltb_spec num 0) as [Q|Q]].
  - assert (List.length (fill_slice junk None (Some num) fill) = n) as LF.
    { rewrite fill_is_set, set_slice_length; auto. apply repeat_length. }
    rewrite nth_error_set_slice; rewrite ?LF; try apply slice_bound_le; try lia;
      [|rewrite pyslice_length; fold n; unfold slice_bound; cases_ltb].
    rewrite nth_error_pyslice. fold n. rewrite fill_is_set.
    rewrite nth_error_set_slice; rewrite ?L; try apply slice_bound_le; try lia; [|now rewrite repeat_length].
    rewrite nth_error_repeat. unfold slice_bound. cases_ltb; auto; try (apply nth_error_None; lia).
    all: rewrite nth_error_nth' with (d := fill) by (fold n; lia); do 2 f_equal; lia.
  - assert (List.length (fill_slice junk (Some num) None fill) = n) as LF.
    { rewrite fill_is_set, set_slice_length; auto. apply repeat_length. }
    rewrite nth_error_set_slice; rewrite ?LF; try apply slice_bound_le; try lia;
      [|rewrite pyslice_length; fold n; unfold slice_bound; cases_ltb].
    rewrite nth_error_pyslice. fold n. rewrite fill_is_set.
    rewrite nth_error_set_slice; rewrite ?L; try apply slice_bound_le; try lia; [|now rewrite repeat_length].
    rewrite nth_error_repeat. unfold slice_bound. cases_ltb; auto; try (apply nth_error_None; lia).
    all: rewrite nth_error_nth' with (d := fill) by (fold n; lia); do 2 f_equal; lia.
  - assert (num = 0)%Z as -> by lia.
    rewrite nth_error_set_slice; try apply slice_bound_le; try lia; [|rewrite pyslice_length; fold n; unfold slice_bound; lia].
    rewrite nth_error_pyslice. fold n. rewrite L. unfold slice_bound. cases_ltb; auto; try (apply nth_error_None; lia).
    all: rewrite nth_error_nth' with (d := fill) by (fold n; lia); do 2 f_equal; lia.
Qed.

Lemma shift_array_spec : forall A (junk arr : list (list A)) num fill n, List.length junk = List.length arr ->
  Forall (fun r => List.length r = n) junk -> Forall (fun r => List.length r = n) arr ->
  shift_array junk arr num fill = map (fun row => map (shifted row num fill) (seq 0 n)) arr.
Proof.
  intros A junk arr num fill n. unfold shift_array. revert junk. induction arr as [|r arr IH]; intros [|j junk] L FJ FA; try discriminate; auto.
  inversion FJ; inversion FA; subst. cbn. rewrite IH by (auto; cbn in L; lia). f_equal.
  rewrite shift_row_spec by congruence. congruence.
Qed.

(** ** shift_waveform *)
Definition rect (n_pixels n_samples : nat) (w : event) : Prop :=
  List.length w = n_pixels /\ Forall (fun r => List.length r = n_samples) w.

Lemma shifted_mean : forall w n num fill j, w <> [] -> Forall (fun r => List.length r = n) w -> (j < n)%nat ->
  nth j (mean0 (map (fun row => map (shifted row num fill) (seq 0 n)) w) n) 0%Qc =
  shifted (mean0 w n) num fill j.
Proof.
  intros w n num fill j NE FA J. unfold mean0 at 1. rewrite nth_map_seq by auto.
  rewrite map_map, map_length.
  assert (qn (List.length w) <> 0%Qc) as NZ.
  { intro E. destruct w; [congruence|]. pose proof (qn_pos (List.length (l :: w)) ltac:(cbn; lia)) as P. rewrite E in P. now apply Qclt_not_eq in P. }
  unfold shifted. assert (List.length (mean0 w n) = n) as -> by (unfold mean0; now rewrite map_length, seq_length).
  destruct ((0 <=? Z.of_nat j - num) && (Z.of_nat j - num <? Z.of_nat n))%Z eqn:E.
  - apply andb_true_iff in E as [E1 E2]. apply Z.leb_le in E1. apply Z.ltb_lt in E2.
    unfold mean0. rewrite nth_map_seq by lia. do 2 f_equal. apply map_ext_in. intros r R.
    rewrite Forall_forall in FA. specialize (FA r R). rewrite nth_map_seq by lia. rewrite FA.
    rewrite (proj2 (Z.leb_le _ _)) by lia. rewrite (proj2 (Z.ltb_lt _ _)) by lia. cbn.
    apply nth_indep. lia.
  - transitivity (qsum (map (fun _ => fill) w) / qn (List.length w))%Qc.
    + do 2 f_equal. apply map_ext_in. intros r R. rewrite nth_map_seq by lia.
      rewrite Forall_forall in FA. rewrite (FA r R), E. reflexivity.
    + rewrite qsum_const. field. exact NZ.
Qed.

Lemma argmax_unique : forall l t, (t < List.length l)%nat ->
  (forall k, (k < List.length l)%nat -> nth k l 0%Qc <= nth t l 0%Qc)%Qc -> (forall k, (k < t)%nat -> nth k l 0%Qc < nth t l 0%Qc)%Qc ->
  argmax l = t.
Proof.
  intros l t T A B. assert (l <> []) as NE by (intros ->; cbn in T; lia).
  destruct (argmax_spec l NE) as (A1 & A2 & A3).
  destruct (Nat.lt_trichotomy (argmax l) t) as [H|[H|H]]; auto.
  - specialize (B _ H). specialize (A2 _ T). exfalso. exact (Qclt_not_le _ _ B A2).
  - specialize (A3 _ H). specialize (A _ A1). exfalso. exact (Qclt_not_le _ _ A3 A).
Qed.

Lemma mean0_length : forall w n, List.length (mean0 w n) = n.
Proof. intros. unfold mean0. now rewrite map_length, seq_length. Qed.

Lemma shift_waveform_peak : forall junk w np n t fill, (0 < np)%nat -> rect np n w -> rect np n junk -> (0 <= t < Z.of_nat n)%Z ->
  (fill < nth (argmax (mean0 w n)) (mean0 w n) 0%Qc)%Qc ->
  let m' := mean0 (shift_waveform junk w n t fill) n in
  argmax m' = Z.to_nat t /\ nth (Z.to_nat t) m' 0%Qc = nth (argmax (mean0 w n)) (mean0 w n) 0%Qc.
Proof.
  intros junk w np n t fill Hp [LW FW] [LJ FJ] T F m'.
  assert (w <> []) as NE by (intros ->; cbn in LW; lia).
  set (m := mean0 w n) in *. set (a := argmax m) in *.
  assert (List.length m = n) as Lm by apply mean0_length.
  assert (m <> []) as NEm by (intros E; rewrite E in Lm; cbn in Lm; lia).
  destruct (argmax_spec m NEm) as (A1 & A2 & A3). fold a in A1, A2, A3.
  assert (forall j, (j < n)%nat -> nth j m' 0%Qc = shifted m (t - Z.of_nat a) fill j) as N.
  { intros j J. unfold m', shift_waveform. rewrite (shift_array_spec _ _ _ _ _ n) by (auto; congruence). apply shifted_mean; auto. }
  assert (nth (Z.to_nat t) m' 0%Qc = nth a m 0%Qc) as V.
  { rewrite N by lia. unfold shifted. rewrite (proj2 (Z.leb_le _ _)) by lia. rewrite (proj2 (Z.ltb_lt _ _)) by lia. cbn [andb].
    replace (Z.to_nat (Z.of_nat (Z.to_nat t) - (t - Z.of_nat a))) with a by lia. apply nth_indep. lia. }
  split; auto. apply argmax_unique.
  - unfold m'. rewrite mean0_length. lia.
  - intros k K. unfold m' in K. rewrite mean0_length in K. rewrite V, N by auto. unfold shifted.
    destruct (_ && _)%bool eqn:E; [|now apply Qclt_le_weak].
    apply andb_true_iff in E as [E1 E2]. apply Z.leb_le in E1. apply Z.ltb_lt in E2.
    rewrite nth_indep with (d' := 0%Qc) by lia. apply A2. lia.
  - intros k K. rewrite V, N by lia. unfold shifted.
    destruct (_ && _)%bool eqn:E; [|auto].
    apply andb_true_iff in E as [E1 E2]. apply Z.leb_le in E1. apply Z.ltb_lt in E2.
    rewrite nth_indep with (d' := 0%Qc) by lia. apply A3. lia.
Qed.

(** ** Baseline, in the two regimes *)
Definition pedsum (ns p : nat) (e : event) : Qc := qsum (firstn ns (nth p e [])).

Lemma head_sum : forall ns p e, qsum (nth p (head ns e) []) = pedsum ns p e.
Proof.
  intros ns p e. unfold head, pedsum. revert p. induction e as [|r e IH]; intros [|p]; cbn [map nth]; auto.
  - now rewrite firstn_nil.
  - now rewrite firstn_nil.
  - f_equal. apply list_ext. intro i. rewrite nth_error_pyslice, nth_error_firstn. unfold slice_bound.
    cases_ltb; auto.
    + symmetry. apply nth_error_None. lia.
  Qed.

Lemma qsum_zero_event : forall np ns p k, qsum (map (fun e => qsum (nth p e [])) (repeat (zero_event np ns) k)) = 0%Qc.
Proof.
  intros np ns p k. assert (qsum (nth p (zero_event np ns) []) = 0%Qc) as E.
  { unfold zero_event. rewrite nth_of_error, nth_error_repeat. destruct (p <? np)%nat; [|reflexivity].
    induction ns as [|m IH]; [reflexivity|]. cbn [repeat]. rewrite qsum_cons, IH. ring. }
  induction k as [|k IH]; [reflexivity|]. cbn [repeat map]. rewrite qsum_cons, IH, E. ring.
Qed.

Lemma c41_late : forall np src nb ns evs p, (0 < nb)%nat -> (p < np)%nat -> (nb <= List.length evs)%nat ->
  nth p (b_baseline (after (new_subtractor np src nb ns) evs)) 0%Qc =
  (qsum (map (pedsum ns p) (skipn (List.length evs - nb) evs)) / qn (nb * ns))%Qc.
Proof.
  intros np src nb ns evs p Hn Hp L. rewrite c41; auto; [|intros ->; cbn in L; lia].
  f_equal. rewrite skipn_app, skipn_all2 by (rewrite initial_length; auto). rewrite initial_length. cbn [app].
  rewrite skipn_map, map_map. f_equal. apply map_ext. intro. apply head_sum.
Qed.
Lemma c41_early : forall np src nb ns evs p, (0 < nb)%nat -> (p < np)%nat -> (0 < List.length evs <= nb)%nat ->
  nth p (b_baseline (after (new_subtractor np src nb ns) evs)) 0%Qc =
  ((qsum (map (pedsum ns p) (skipn (List.length evs) (firstn nb src))) + qsum (map (pedsum ns p) evs)) / qn (nb * ns))%Qc.
Proof.
  intros np src nb ns evs p Hn Hp L. rewrite c41; auto; [|intros ->; cbn in L; lia].
  f_equal. rewrite skipn_app, initial_length. replace (List.length evs - nb)%nat with 0%nat by lia. cbn [skipn].
  unfold initial_entries. rewrite skipn_app, !map_app, !qsum_app, skipn_repeat, qsum_zero_event, skipn_map, !map_map.
  rewrite (map_ext _ _ (head_sum ns p)), (map_ext _ _ (head_sum ns p)). ring.
Qed.
Lemma c41_same_source : forall np src nb ns k p, (0 < nb)%nat -> (p < np)%nat -> (0 < k <= nb)%nat -> (k <= List.length src)%nat ->
  nth p (b_baseline (after (new_subtractor np src nb ns) (firstn k src))) 0%Qc =
  (qsum (map (pedsum ns p) (firstn nb src)) / qn (nb * ns))%Qc.
Proof.
  intros np src nb ns k p Hn Hp L LK. rewrite c41_early; auto; [|rewrite firstn_length; lia].
  f_equal. rewrite firstn_length_le by auto. rewrite Qcplus_comm, <- qsum_app, <- map_app. do 2 f_equal.
  replace (firstn k src) with (firstn k (firstn nb src)) by (rewrite firstn_firstn; f_equal; lia). apply firstn_skipn.
Qed.

Lemma subtract_after : forall b evs w, fst (subtract (after b evs) w) = after b (evs ++ [w]).
Proof. intros. unfold after. rewrite fold_left_app. reflexivity. Qed.
Lemma baseline_length : forall b evs, List.length (b_baseline b) = b_pixels b -> List.length (b_baseline (after b evs)) = b_pixels b.
Proof.
  intros b evs H. destruct evs as [|w evs] using rev_ind; auto. unfold after. rewrite fold_left_app. cbn. rewrite map_length, seq_length.
  destruct (after_fields evs b) as (_ & _ & C & _). exact C.
Qed.
Lemma minus_baseline_nth : forall w bl np n p j, rect np n w -> List.length bl = np -> (p < np)%nat -> (j < n)%nat ->
  nth j (nth p (minus_baseline w bl) []) 0%Qc = (nth j (nth p w []) 0 - nth p bl 0)%Qc.
Proof.
  intros w bl np n p j [LW FW] LB P J. unfold minus_baseline.
  rewrite nth_of_error with (i := p), nth_error_map, nth_error_combine.
  rewrite nth_error_nth' with (d := []) by lia. rewrite nth_error_nth' with (d := 0%Qc) by lia. cbn [option_map fst snd].
  rewrite nth_of_error, nth_error_map.
  rewrite Forall_forall in FW. rewrite nth_error_nth' with (d := 0%Qc) by (rewrite (FW (nth p w [])); [lia|apply nth_In; lia]). reflexivity.
Qed.
Lemma minus_baseline_rect : forall w bl np n, rect np n w -> List.length bl = np -> rect np n (minus_baseline w bl).
Proof.
  intros w bl np n [LW FW] LB. unfold minus_baseline. split.
  - rewrite map_length, combine_length. lia.
  - rewrite Forall_map, Forall_forall. intros [r x] I. cbn. rewrite map_length. rewrite Forall_forall in FW. apply FW. exact (in_combine_l _ _ _ _ I).
Qed.

(** ** Averages *)
Section Avg.
Variables (np n : nat) (src : list event) (t : Z) (junk : nat -> event).
Hypotheses (Hsrc : Forall (rect np n) src) (Hjunk : forall i, rect np n (junk i)).
Let b0 := new_subtractor np src 50 16.

Definition spec_baseline (i p : nat) : Qc :=
  (qsum (map (pedsum 16 p) (if i <? 50 then firstn 50 src else firstn 50 (skipn (i - 49) src)))%nat / qn (50 * 16))%Qc.
Definition spec_bs (i p j : nat) : Qc := (nth j (nth p (nth i src []) []) 0 - spec_baseline i p)%Qc.
Definition spec_mean (i : nat) : list Qc := map (fun j => (qsum (map (fun p => spec_bs i p j) (seq 0 np)) / qn np)%Qc) (seq 0 n).
Definition spec_shifted (i p j : nat) : Qc :=
  let k := (Z.of_nat j - (t - Z.of_nat (argmax (spec_mean i))))%Z in
  if ((0 <=? k) && (k <? Z.of_nat n))%Z then spec_bs i p (Z.to_nat k) else 0%Qc.

Definition prepared (i : nat) : event :=
  shift_waveform (junk i) (snd (subtract (after b0 (firstn i src)) (nth i src []))) n t 0%Qc.

Lemma src_rect : forall i, (i < List.length src)%nat -> rect np n (nth i src []).
Proof. intros i H. rewrite Forall_forall in Hsrc. apply Hsrc, nth_In, H. Qed.
Lemma bl_length : forall evs, List.length (b_baseline (after b0 evs)) = np.
Proof. intros. apply (baseline_length b0). cbn. now rewrite map_length, seq_length. Qed.
Lemma firstn_S_nth : forall i, (i < List.length src)%nat -> firstn i src ++ [nth i src []] = firstn (S i) src.
Proof.
  intros i H. destruct (split_at _ src i H) as [y E]. rewrite E at 3. rewrite E at 2.
  rewrite app_nth2 by (rewrite firstn_length; lia). rewrite firstn_length_le, Nat.sub_diag by lia. cbn [nth].
  rewrite firstn_app, firstn_length_le by lia. rewrite (firstn_all2 (n := S i)) by (rewrite firstn_length; lia). replace (S i - i)%nat with 1%nat by lia. reflexivity.
Qed.
Lemma bs_event : forall i, (i < List.length src)%nat -> let w := snd (subtract (after b0 (firstn i src)) (nth i src [])) in
  rect np n w /\ forall p j, (p < np)%nat -> (j < n)%nat -> nth j (nth p w []) 0%Qc = spec_bs i p j.
Proof.
  intros i H w. unfold w, subtract. cbn [snd]. change (update_baseline (after b0 (firstn i src)) (nth i src [])) with (fst (subtract (after b0 (firstn i src)) (nth i src []))).
  rewrite subtract_after, firstn_S_nth by auto. split.
  - apply minus_baseline_rect; [now apply src_rect|apply bl_length].
  - intros p j P J. rewrite (minus_baseline_nth _ _ np n); auto using src_rect, bl_length. unfold spec_bs. f_equal. f_equal.
    unfold spec_baseline. destruct (Nat.ltb_spec i 50) as [I|I].
    + unfold b0. rewrite c41_same_source; auto; lia.
    + unfold b0. rewrite c41_late; auto; try lia; rewrite firstn_length; [|lia].
      do 3 f_equal. rewrite skipn_firstn_comm. replace (Nat.min (S i) (List.length src) - 50)%nat with (i - 49)%nat by lia. f_equal. lia.
Qed.

Lemma prepared_spec : forall i, (i < List.length src)%nat ->
  rect np n (prepared i) /\ forall p j, (p < np)%nat -> (j < n)%nat -> nth j (nth p (prepared i) []) 0%Qc = spec_shifted i p j.
Proof.
  intros i H. destruct (bs_event i H) as [R N]. unfold prepared. set (w := snd _) in *.
  assert (mean0 w n = spec_mean i) as M.
  { unfold mean0, spec_mean. apply map_ext_in. intros j J. apply in_seq in J. destruct R as [LW _]. rewrite LW. do 2 f_equal.
    rewrite <- (map_seq_nth _ w []) at 1. rewrite map_map, LW. apply map_ext_in. intros p P. apply in_seq in P. apply N; lia. }
  unfold shift_waveform. rewrite M. destruct R as [LW FW]. destruct (Hjunk i) as [LJ FJ].
  rewrite (shift_array_spec _ _ _ _ _ n) by (auto; congruence). split.
  - split; [now rewrite map_length|]. rewrite Forall_map. apply Forall_forall. intros. now rewrite map_length, seq_length.
  - intros p j P J. rewrite nth_of_error with (i := p), nth_error_map, nth_error_nth' with (d := []) by lia. cbn [option_map].
    rewrite nth_map_seq by auto. unfold shifted, spec_shifted. rewrite Forall_forall in FW.
    rewrite (FW (nth p w [])) by (apply nth_In; lia).
    destruct (_ && _)%bool eqn:E; auto. apply andb_true_iff in E as [E1 E2]. apply Z.leb_le in E1. apply Z.ltb_lt in E2. apply N; lia.
Qed.

Lemma average_loop_spec : forall evs pre acc, src = pre ++ evs ->
  average_loop junk n t evs (after b0 pre) acc (List.length pre) =
  (fold_left (fun a i => add_list a (mean0 (prepared i) n)) (seq (List.length pre) (List.length evs)) acc, List.length src).
Proof.
  induction evs as [|w evs IH]; intros pre acc E; cbn [average_loop].
  - cbn. now rewrite E, app_nil_r.
  - destruct (subtract (after b0 pre) w) as [b' ws] eqn:S. assert (b' = after b0 (pre ++ [w])) as -> by (rewrite <- subtract_after, S; reflexivity).
    specialize (IH (pre ++ [w])). rewrite app_length in IH. cbn [List.length] in IH. rewrite Nat.add_1_r in IH.
    rewrite IH by (rewrite <- app_assoc; exact E). cbn [List.length seq fold_left]. f_equal. f_equal. f_equal. f_equal.
    unfold prepared. rewrite E at 1 2. rewrite firstn_app, firstn_all, Nat.sub_diag, app_nil_r by lia.
    rewrite app_nth2, Nat.sub_diag by lia. cbn [nth]. rewrite S. reflexivity.
Qed.
Lemma pixel_loop_spec : forall evs pre acc, src = pre ++ evs ->
  pixel_loop junk n t evs (after b0 pre) acc (List.length pre) =
  (fold_left (fun a i => add_event a (prepared i)) (seq (List.length pre) (List.length evs)) acc, List.length src).
Proof.
  induction evs as [|w evs IH]; intros pre acc E; cbn [pixel_loop].
  - cbn. now rewrite E, app_nil_r.
  - destruct (subtract (after b0 pre) w) as [b' ws] eqn:S. assert (b' = after b0 (pre ++ [w])) as -> by (rewrite <- subtract_after, S; reflexivity).
    specialize (IH (pre ++ [w])). rewrite app_length in IH. cbn [List.length] in IH. rewrite Nat.add_1_r in IH.
    rewrite IH by (rewrite <- app_assoc; exact E). cbn [List.length seq fold_left]. f_equal. f_equal. f_equal.
    unfold prepared. rewrite E at 1 2. rewrite firstn_app, firstn_all, Nat.sub_diag, app_nil_r by lia.
    rewrite app_nth2, Nat.sub_diag by lia. cbn [nth]. rewrite S. reflexivity.
Qed.

Lemma add_list_nth : forall a b j, (j < List.length a)%nat -> (j < List.length b)%nat ->
  nth j (add_list a b) 0%Qc = (nth j a 0 + nth j b 0)%Qc.
Proof.
  intros a b j A B. unfold add_list. rewrite nth_of_error, nth_error_map, nth_error_combine.
  rewrite nth_error_nth' with (d := 0%Qc) by auto. rewrite nth_error_nth' with (d := 0%Qc) by auto. reflexivity.
Qed.
Lemma add_list_length : forall a b, List.length b = List.length a -> List.length (add_list a b) = List.length a.
Proof. intros. unfold add_list. rewrite map_length, combine_length. lia. Qed.

Lemma fold_add : forall (f : nat -> list Qc) is acc, List.length acc = n -> (forall i, In i is -> List.length (f i) = n) ->
  let r := fold_left (fun a i => add_list a (f i)) is acc in
  List.length r = n /\ forall j, (j < n)%nat -> nth j r 0%Qc = (nth j acc 0 + qsum (map (fun i => nth j (f i) 0) is))%Qc.
Proof.
  intros f. induction is as [|i is IH]; intros acc L H; cbn [fold_left map].
  - split; auto. intros. cbn. ring.
  - assert (List.length (f i) = n) as Li by (apply H; now left).
    destruct (IH (add_list acc (f i))) as [A B]; [rewrite add_list_length; congruence|intros k K; apply H; now right|].
    split; auto. intros j J. rewrite B by auto. rewrite add_list_nth by lia. rewrite qsum_cons. ring.
Qed.
Lemma fold_add_event : forall (f : nat -> event) is acc, rect np n acc -> (forall i, In i is -> rect np n (f i)) ->
  let r := fold_left (fun a i => add_event a (f i)) is acc in
  rect np n r /\ forall p j, (p < np)%nat -> (j < n)%nat ->
    nth j (nth p r []) 0%Qc = (nth j (nth p acc []) 0 + qsum (map (fun i => nth j (nth p (f i) []) 0) is))%Qc.
Proof.
  intros f. induction is as [|i is IH]; intros acc R H; cbn [fold_left map].
  - split; auto. intros. cbn. ring.
  - assert (rect np n (f i)) as [Li Fi] by (apply H; now left). destruct R as [La Fa].
    rewrite Forall_forall in Fi, Fa.
    assert (rect np n (add_event acc (f i))) as R'.
    { unfold add_event. split; [rewrite map_length, combine_length; lia|]. rewrite Forall_map, Forall_forall. intros [x y] I. cbn.
      pose proof (in_combine_l _ _ _ _ I) as I1. pose proof (in_combine_r _ _ _ _ I) as I2.
      rewrite map_length, combine_length, (Fi y), (Fa x) by auto. lia. }
    destruct (IH _ R') as [A B]; [intros k K; apply H; now right|].
    split; auto. intros p j P J. rewrite B by auto. unfold add_event.
    rewrite nth_of_error with (i := p) (l := map _ _), nth_error_map, nth_error_combine.
    rewrite nth_error_nth' with (d := []) by lia. rewrite nth_error_nth' with (d := []) by lia. cbn [option_map fst snd].
    rewrite add_list_nth; [|rewrite Fa; [lia|apply nth_In; lia]|rewrite Fi; [lia|apply nth_In; lia]]. rewrite qsum_cons. ring.
Qed.

Lemma c43_avg : forall j, (j < n)%nat -> nth j (get_average_wf junk np n src t) 0%Qc =
  (qsum (map (fun i => qsum (map (fun p => spec_shifted i p j) (seq 0 np)) / qn np) (seq 0 (List.length src))) / qn (List.length src))%Qc.
Proof.
  intros j J. unfold get_average_wf. pose proof (average_loop_spec src [] (repeat 0%Qc n) eq_refl) as E. cbn [List.length after fold_left] in E.
  unfold b0 in E. rewrite E. rewrite nth_of_error, nth_error_map.
  destruct (fold_add (fun i => mean0 (prepared i) n) (seq 0 (List.length src)) (repeat 0%Qc n)) as [L V].
  { apply repeat_length. } { intros. apply mean0_length. }
  rewrite nth_error_nth' with (d := 0%Qc) by lia. cbn [option_map]. f_equal. rewrite V by auto.
  rewrite nth_repeat. rewrite Qcplus_0_l. f_equal. apply map_ext_in. intros i I. apply in_seq in I.
  destruct (prepared_spec i ltac:(lia)) as [[LP FP] VP]. unfold mean0. rewrite nth_map_seq by auto. rewrite LP. do 2 f_equal.
  rewrite <- (map_seq_nth _ (prepared i) []) at 1. rewrite map_map, LP. apply map_ext_in. intros p P. apply in_seq in P. apply VP; lia.
Qed.
Lemma c43_pix : forall p j, (p < np)%nat -> (j < n)%nat -> nth j (nth p (get_average_wf_per_pixel junk np n src t) []) 0%Qc =
  (qsum (map (fun i => spec_shifted i p j) (seq 0 (List.length src))) / qn (List.length src))%Qc.
Proof.
  intros p j P J. unfold get_average_wf_per_pixel. pose proof (pixel_loop_spec src [] (repeat (repeat 0%Qc n) np) eq_refl) as E.
  cbn [List.length after fold_left] in E. unfold b0 in E. rewrite E.
  destruct (fold_add_event prepared (seq 0 (List.length src)) (repeat (repeat 0%Qc n) np)) as [[L F] V].
  { split; [apply repeat_length|]. apply Forall_forall. intros x X. apply repeat_spec in X. subst. apply repeat_length. }
  { intros i I. apply in_seq in I. apply prepared_spec. lia. }
  rewrite nth_of_error with (i := p), nth_error_map. rewrite nth_error_nth' with (d := []) by lia. cbn [option_map].
  rewrite nth_of_error, nth_error_map. rewrite Forall_forall in F.
  rewrite nth_error_nth' with (d := 0%Qc) by (rewrite F; [lia|apply nth_In; lia]). cbn [option_map]. f_equal. rewrite V by auto.
  rewrite (nth_indep _ [] (repeat 0%Qc n)) by (rewrite repeat_length; auto). rewrite !nth_repeat. rewrite Qcplus_0_l. f_equal. apply map_ext_in. intros i I. apply in_seq in I.
  apply prepared_spec; auto; lia.
Qed.

Lemma qsum_swap : forall A B (f : A -> B -> Qc) la lb,
  qsum (map (fun a => qsum (map (f a) lb)) la) = qsum (map (fun b => qsum (map (fun a => f a b) la)) lb).
Proof.
  intros A B f la lb. induction la as [|a la IH]; cbn [map].
  - induction lb as [|b lb IHb]; [reflexivity|]. cbn [map]. rewrite qsum_cons, <- IHb. cbn. ring.
  - rewrite qsum_cons, IH. clear IH. induction lb as [|b lb IHb]; [cbn; ring|]. cbn [map]. rewrite !qsum_cons, <- IHb. ring.
Qed.
Lemma qsum_div : forall A (f : A -> Qc) c l, qsum (map (fun x => f x / c)%Qc l) = (qsum (map f l) / c)%Qc.
Proof.
  intros. induction l as [|a l IH]; cbn [map]; [cbn; unfold Qcdiv; ring|]. rewrite !qsum_cons, IH. unfold Qcdiv. ring.
Qed.
Lemma c43_rel : forall j, (j < n)%nat -> nth j (get_average_wf junk np n src t) 0%Qc =
  (qsum (map (fun p => nth j (nth p (get_average_wf_per_pixel junk np n src t) []) 0) (seq 0 np)) / qn np)%Qc.
Proof.
  intros j J. rewrite c43_avg by auto. rewrite qsum_div, qsum_swap.
  rewrite (map_ext_in (fun p => nth j (nth p _ []) 0%Qc) (fun p => (qsum (map (fun i => spec_shifted i p j) (seq 0 (List.length src))) / qn (List.length src))%Qc))
    by (intros p P; apply in_seq in P; apply c43_pix; lia).
  rewrite qsum_div. unfold Qcdiv. ring.
Qed.
End Avg.
