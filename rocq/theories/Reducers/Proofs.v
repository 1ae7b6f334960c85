(** Extraction windows, pulse time, superpixels, flasher flag. *)
From Coq Require Import List ZArith QArith Qcanon Qround Bool Arith Lia.
From Verif.Base Require Import Py PyFacts Num Lst.
From Verif.WfUtils Require Import Model Proofs.
From Verif.Reducers Require Import Model.
Import ListNotations.
Local Open Scope list_scope.
Local Open Scope Qc_scope.

Lemma qmax_spec : forall l, l <> [] -> (exists k, (k < List.length l)%nat /\ qmax l = nth k l 0) /\ forall k, (k < List.length l)%nat -> nth k l 0 <= qmax l.
Proof. intros l N. destruct (argmax_spec l N) as (A & B & _). split; [exists (argmax l); auto|exact B]. Qed.
Lemma qmax_unique : forall l m, (exists k, (k < List.length l)%nat /\ m = nth k l 0) -> (forall k, (k < List.length l)%nat -> nth k l 0 <= m) -> qmax l = m.
Proof.
  intros l m (k & K & ->) H. assert (l <> []) as N by (destruct l; [cbn in K; lia|discriminate]). destruct (argmax_spec l N) as (A & B & _).
  apply Qcle_antisym; [now apply H|now apply B].
Qed.

Lemma event_time_range : forall w n, (20 <= n)%nat ->
  let t := event_time w n in let m := Z.of_nat (argmax (mean0 w n)) in
  (10 <= t <= Z.of_nat n - 10)%Z /\ t = Z.min (Z.of_nat n - 10) (Z.max 10 m).
Proof.
  intros w n L. unfold event_time. cbv zeta. set (m := Z.of_nat (argmax (mean0 w n))).
  destruct (Z.ltb_spec m 10); [lia|]. destruct (Z.ltb_spec (Z.of_nat n - 10) m); lia.
Qed.

(** The samples start .. start+size-1 of a row. *)
Definition window_sum (row : list Qc) (start size : nat) : Qc := qsum (map (fun k => nth (start + k) row 0) (seq 0 size)).
Lemma pyslice_window : forall row (start size : Z), (0 <= start)%Z -> (0 <= size)%Z -> (start + size <= Z.of_nat (List.length row))%Z ->
  pyslice row (Some start) (Some (start + size)%Z) = map (fun k => nth (Z.to_nat start + k) row 0) (seq 0 (Z.to_nat size)).
Proof.
  intros row start size A B C. apply list_ext. intro i. rewrite nth_error_map_seq. unfold pyslice, slice_bound.
  destruct (Z.ltb_spec start 0); [lia|]. destruct (Z.ltb_spec (start + size) 0); [lia|]. rewrite !Z.min_l by lia.
  rewrite nth_error_firstn, nth_error_skipn. replace (Z.to_nat (start + size) - Z.to_nat start)%nat with (Z.to_nat size) by lia.
  destruct (Nat.ltb_spec i (Z.to_nat size)); auto. apply nth_error_nth'. lia.
Qed.
Lemma pyslice_tail : forall row (start : Z), (0 <= start <= Z.of_nat (List.length row))%Z ->
  pyslice row (Some start) None = map (fun k => nth (Z.to_nat start + k) row 0) (seq 0 (List.length row - Z.to_nat start)).
Proof.
  intros row start A. rewrite <- (Z2Nat.id start) at 1 by lia. rewrite pyslice_from by lia. apply list_ext. intro i.
  rewrite nth_error_map_seq, nth_error_skipn. destruct (Nat.ltb_spec i (List.length row - Z.to_nat start)); [apply nth_error_nth'; lia|apply nth_error_None; lia].
Qed.

Lemma charge_window : forall t size shift w n, Forall (fun row => List.length row = n) w ->
  let start := (extraction_time t w n - shift)%Z in (0 <= start)%Z -> (0 <= size)%Z -> (start + size <= Z.of_nat n)%Z ->
  charge_averagewf t size shift w n = map (fun row => window_sum row (Z.to_nat start) (Z.to_nat size)) w.
Proof.
  intros t size shift w n F start A B C. unfold charge_averagewf. fold start. apply map_ext_in. intros row I. rewrite Forall_forall in F.
  unfold window_sum. now rewrite pyslice_window by (rewrite ?F; auto).
Qed.
Lemma saturation_window : forall t shift w n, Forall (fun row => List.length row = n) w ->
  let start := (extraction_time t w n - shift)%Z in (0 <= start <= Z.of_nat n)%Z ->
  saturation_sum t shift w n = map (fun row => window_sum row (Z.to_nat start) (n - Z.to_nat start)) w.
Proof.
  intros t shift w n F start A. unfold saturation_sum. fold start. apply map_ext_in. intros row I. rewrite Forall_forall in F.
  unfold window_sum. now rewrite pyslice_tail by (rewrite ?F; auto); rewrite ?F.
Qed.
(** A column switch read as a time: True is 1, False is 0. *)
Lemma saturation_switch : forall (b : bool) shift w n, Forall (fun row => List.length row = n) w -> (1 < shift)%Z -> (shift <= Z.of_nat n)%Z ->
  let k := Z.to_nat (shift - (if b then 1 else 0)) in
  saturation_sum (Some (if b then 1 else 0)%Z) shift w n = map (fun row => window_sum row (n - k) k) w.
Proof.
  intros b shift w n F A B k. unfold saturation_sum. cbn [extraction_time]. apply map_ext_in. intros row I. rewrite Forall_forall in F.
  assert (0 < k <= n)%nat as K by (subst k; destruct b; lia).
  replace ((if b then 1 else 0) - shift)%Z with (- Z.of_nat k)%Z by (subst k; destruct b; lia).
  rewrite pyslice_neg_from by (rewrite F; auto). unfold window_sum. f_equal. apply list_ext. intro i.
  rewrite nth_error_map_seq, nth_error_skipn, F by auto. destruct (Nat.ltb_spec i k); [apply nth_error_nth'; rewrite F; auto; lia|apply nth_error_None; rewrite F; auto; lia].
Qed.

(** ** pulse time *)
Lemma half2 : half + half = 1. Proof. apply Qc_is_canon. reflexivity. Qed.
Lemma q2_half : qz 2 * half = 1. Proof. apply Qc_is_canon. reflexivity. Qed.
Lemma half_pos : 0 < half. Proof. reflexivity. Qed.

Lemma pulse_time_range : forall w junk p, (0 <= p < Z.of_nat (List.length w))%Z ->
  0 <= extract_pulse_time w junk p /\ extract_pulse_time w junk p < qn (List.length w).
Proof.
  intros w junk p B. assert (0 <= qz p /\ qz p < qn (List.length w)) as D.
  { split; [apply (proj1 (qz_le 0 p)); lia|apply (proj1 (qz_lt _ _)); lia]. }
  unfold extract_pulse_time. destruct (read w junk (p - 1)); auto. destruct (read w junk p); auto. destruct (read w junk (p + 1)); auto.
  destruct (qeqb _ 0); auto. set (t := _ + qz p). destruct (qleb_spec 0 t) as [X|X]; auto. destruct (qltb_spec t (qn (List.length w))) as [Y|Y]; auto.
Qed.
Lemma read_in : forall w junk i, (0 <= i < Z.of_nat (List.length w))%Z -> read w junk i = Some (nth (Z.to_nat i) w 0).
Proof.
  intros w junk i B. unfold read. rewrite (proj2 (Z.ltb_ge i 0)) by lia. rewrite (proj2 (Z.leb_le 0 i)), (proj2 (Z.ltb_lt i _)) by lia. reflexivity.
Qed.

(** Local maximum: vertex within half a sample, above the sample. *)
Lemma vertex_bound : forall y0 y1 y2, y0 <= y1 -> y2 <= y1 -> y0 + y2 < qz 2 * y1 ->
  let t := half * (y0 - y2) / (y0 - qz 2 * y1 + y2) in - half <= t /\ t <= half /\ (y0 < y1 -> - half < t) /\ (y2 < y1 -> t < half) /\
  0 <= - ((y0 - y2) * t).
Proof.
  intros y0 y1 y2 A B C t. set (b := y0 - qz 2 * y1 + y2) in *. assert (b < 0) as N by (unfold b; qlra).
  assert (b <> 0) as N0 by (intro Z; rewrite Z in N; now apply Qclt_not_eq in N).
  assert (t * b = half * (y0 - y2)) as E by (unfold t; field; auto).
  pose proof half2 as H2. pose proof q2_half as H3. pose proof half_pos as HP.
  assert (b = (y0 - y1) + (y2 - y1)) as EB by (unfold b; replace (qz 2) with (1 + 1) by (apply Qc_is_canon; reflexivity); ring).
  assert (0 <= - ((y0 - y2) * t)) as POS.
  { assert ((y0 - y2) * t = half * ((y0 - y2) * (y0 - y2)) / b) as -> by (unfold t; field; auto).
    assert (0 <= half * ((y0 - y2) * (y0 - y2)) / - b) as Q.
    { apply qdiv_nonneg; [qlra|]. assert (0 <= (y0 - y2) * (y0 - y2)) by qnra. qnra. }
    replace (- (half * ((y0 - y2) * (y0 - y2)) / b)) with (half * ((y0 - y2) * (y0 - y2)) / - b); auto. field. split; auto. intro Z. apply N0. rewrite <- (Qcopp_involutive b), Z. reflexivity. }
  clearbody t b. repeat split; auto.
  - apply Qcnot_lt_le. intro X. assert ((t + half) * b = half * (y0 - y2) + half * b) as F by (rewrite <- E; ring). rewrite EB in F at 2.
    assert (half * (y0 - y2) + half * (y0 - y1 + (y2 - y1)) = y0 - y1) as G by (replace (half * (y0 - y2) + half * (y0 - y1 + (y2 - y1))) with ((half + half) * (y0 - y1)) by ring; rewrite H2; ring).
    assert (0 < (t + half) * b) by qnra. qlra.
  - apply Qcnot_lt_le. intro X. assert ((t - half) * b = half * (y0 - y2) - half * b) as F by (rewrite <- E; ring). rewrite EB in F at 2.
    assert (half * (y0 - y2) - half * (y0 - y1 + (y2 - y1)) = y1 - y2) as G by (replace (half * (y0 - y2) - half * (y0 - y1 + (y2 - y1))) with ((half + half) * (y1 - y2)) by ring; rewrite H2; ring).
    assert ((t - half) * b < 0) by qnra. qlra.
  - intro S. apply Qcnot_le_lt. intro X. assert ((t + half) * b = half * (y0 - y2) + half * b) as F by (rewrite <- E; ring). rewrite EB in F at 2.
    assert (half * (y0 - y2) + half * (y0 - y1 + (y2 - y1)) = y0 - y1) as G by (replace (half * (y0 - y2) + half * (y0 - y1 + (y2 - y1))) with ((half + half) * (y0 - y1)) by ring; rewrite H2; ring).
    assert (0 <= (t + half) * b) by qnra. qlra.
  - intro S. apply Qcnot_le_lt. intro X. assert ((t - half) * b = half * (y0 - y2) - half * b) as F by (rewrite <- E; ring). rewrite EB in F at 2.
    assert (half * (y0 - y2) - half * (y0 - y1 + (y2 - y1)) = y1 - y2) as G by (replace (half * (y0 - y2) - half * (y0 - y1 + (y2 - y1))) with ((half + half) * (y1 - y2)) by ring; rewrite H2; ring).
    assert ((t - half) * b <= 0) by qnra. qlra.
Qed.

(** A parabola through (p-1, y0), (p, y1), (p+1, y2) with its vertex at [t]. *)
Definition vertex (p y0 y1 y2 t : Qc) : Prop := exists u c, u <> 0 /\
  let q x := u * ((x - t) * (x - t)) + c in q (p - 1) = y0 /\ q p = y1 /\ q (p + 1) = y2.
Lemma vertex_formula : forall p y0 y1 y2, y0 - qz 2 * y1 + y2 <> 0 ->
  vertex p y0 y1 y2 (half * (y0 - y2) / (y0 - qz 2 * y1 + y2) + p).
Proof.
  intros p y0 y1 y2 N. set (b := y0 - qz 2 * y1 + y2) in *. set (t := half * (y0 - y2) / b).
  assert (y1 = half * (y0 + y2) - half * b) as E1.
  { unfold b. replace (half * (y0 + y2) - half * (y0 - qz 2 * y1 + y2)) with ((qz 2 * half) * y1) by ring. rewrite q2_half. ring. }
  exists (half * b), (y1 - half * b * (t * t)). split.
  - intro Z. apply N. replace b with ((qz 2 * half) * b) by (rewrite q2_half; ring). rewrite <- Qcmult_assoc, Z. ring.
  - assert (t * b = half * (y0 - y2)) as E by (unfold t; field; auto). cbv zeta.
    assert (forall d, half * b * ((p + d - (t + p)) * (p + d - (t + p))) = half * b * (d * d) - (qz 2 * half) * d * (t * b) + half * b * (t * t)) as X.
    { intro d. replace (qz 2) with (1 + 1) by (apply Qc_is_canon; reflexivity). ring. }
    replace (p - 1) with (p + - (1)) by ring. replace (half * b * ((p - (t + p)) * (p - (t + p)))) with (half * b * (t * t)) by ring.
    rewrite !X, E, q2_half. repeat split; [| |].
    + rewrite E1. replace (half * b * (- (1) * - (1)) - 1 * - (1) * (half * (y0 - y2)) + half * b * (t * t) + (half * (y0 + y2) - half * b - half * b * (t * t))) with ((half + half) * y0) by ring. rewrite half2. ring.
    + ring.
    + rewrite E1. replace (half * b * (1 * 1) - 1 * 1 * (half * (y0 - y2)) + half * b * (t * t) + (half * (y0 + y2) - half * b - half * b * (t * t))) with ((half + half) * y2) by ring. rewrite half2. ring.
Qed.

Lemma pulse_time_inside : forall w junk p, (1 <= p)%nat -> (S p < List.length w)%nat ->
  let y0 := nth (p - 1) w 0 in let y1 := nth p w 0 in let y2 := nth (p + 1) w 0 in
  let r := extract_pulse_time w junk (Z.of_nat p) in
  (y0 + y2 = qz 2 * y1 -> r = qn p) /\
  (y0 + y2 <> qz 2 * y1 -> exists t, vertex (qn p) y0 y1 y2 t /\ (0 <= t /\ t < qn (List.length w) -> r = t) /\ (~ (0 <= t /\ t < qn (List.length w)) -> r = qn p)) /\
  (y0 <= y1 -> y2 <= y1 -> y0 + y2 < qz 2 * y1 -> vertex (qn p) y0 y1 y2 r /\ qn p - half <= r <= qn p + half /\ (y0 < y1 -> y2 < y1 -> qn p - half < r /\ r < qn p + half)).
Proof.
  intros w junk p P L y0 y1 y2 r.
  assert (r = let b := y0 - qz 2 * y1 + y2 in if qeqb b 0 then qn p else let t := half * (y0 - y2) / b + qn p in
     if negb (qleb 0 t && qltb t (qn (List.length w))) then qn p else t) as R.
  { unfold r, extract_pulse_time. rewrite !read_in by lia. replace (Z.to_nat (Z.of_nat p - 1)) with (p - 1)%nat by lia.
    replace (Z.to_nat (Z.of_nat p + 1)) with (p + 1)%nat by lia. rewrite Nat2Z.id. reflexivity. }
  cbv zeta in R. split; [|split].
  - intro E. rewrite R. destruct (qeqb_spec (y0 - qz 2 * y1 + y2) 0) as [_|N]; auto. exfalso. apply N. rewrite <- E. ring.
  - intro N. assert (y0 - qz 2 * y1 + y2 <> 0) as N'. { intro Z. apply N. replace (y0 + y2) with ((y0 - qz 2 * y1 + y2) + qz 2 * y1) by ring. rewrite Z. ring. }
    exists (half * (y0 - y2) / (y0 - qz 2 * y1 + y2) + qn p). split; [now apply vertex_formula|].
    destruct (qeqb_spec (y0 - qz 2 * y1 + y2) 0) as [|_]; [contradiction|]. set (t := _ + qn p) in *.
    destruct (qleb_spec 0 t), (qltb_spec t (qn (List.length w))); cbn [andb negb] in R; split; intros; auto; tauto.
  - intros A B C. assert (y0 - qz 2 * y1 + y2 <> 0) as N'. { intro Z. assert (y0 + y2 = qz 2 * y1) by (replace (y0 + y2) with ((y0 - qz 2 * y1 + y2) + qz 2 * y1) by ring; rewrite Z; ring). qlra. }
    destruct (vertex_bound y0 y1 y2 A B C) as (V1 & V2 & V3 & V4 & _). cbv zeta in *.
    pose proof (vertex_formula (qn p) y0 y1 y2 N') as V. set (t := half * (y0 - y2) / (y0 - qz 2 * y1 + y2)) in *.
    assert (r = t + qn p) as ->.
    { rewrite R. destruct (qeqb_spec (y0 - qz 2 * y1 + y2) 0) as [|_]; [contradiction|].
      assert (1 <= qn p) by (apply (proj1 (qz_le 1 _)); lia). assert (qn p + 1 < qn (List.length w)) by (rewrite <- qn_S; apply (proj1 (qz_lt _ _)); lia).
      pose proof half2. destruct (qleb_spec 0 (t + qn p)) as [X|X]; [|exfalso; apply X; qlra]. destruct (qltb_spec (t + qn p) (qn (List.length w))) as [Y|Y]; [|exfalso; apply Y; qlra]. reflexivity. }
    repeat split; auto; try qlra; intros; [assert (- half < t) by auto|assert (t < half) by auto]; qlra.
Qed.

(** ** superpixels *)
Lemma sp_wf_length : forall np n w, List.length (sp_wf np n w) = (np / 4)%nat.
Proof. intros. unfold sp_wf. now rewrite map_length, seq_length. Qed.
Lemma nth_flat_repeat : forall A B (f : A -> B) l p d e, (p < 4 * List.length l)%nat -> nth p (flat_map (fun x => repeat (f x) 4) l) d = f (nth (p / 4) l e).
Proof.
  induction l as [|x l IH]; intros p d e L; cbn [List.length] in L; [lia|]. cbn [flat_map]. destruct (Nat.lt_ge_cases p 4) as [P|P].
  - rewrite app_nth1 by (rewrite repeat_length; lia). rewrite Nat.div_small by lia. cbn [nth]. apply repeat_spec with (n := 4%nat). apply nth_In. now rewrite repeat_length.
  - rewrite app_nth2 by (rewrite repeat_length; lia). rewrite repeat_length. rewrite (IH (p - 4)%nat d e) by lia.
    replace (p / 4)%nat with (S ((p - 4) / 4))%nat; auto. replace p with (1 * 4 + (p - 4))%nat at 2 by lia. rewrite Nat.div_add_l by lia. reflexivity.
Qed.
Lemma flat_repeat_length : forall A B (f : A -> B) l, List.length (flat_map (fun x => repeat (f x) 4) l) = (4 * List.length l)%nat.
Proof. induction l as [|x l IH]; auto. cbn [flat_map]. rewrite app_length, repeat_length, IH. cbn [List.length]. lia. Qed.
Definition sp_sum (w : event) (sp j : nat) : Qc :=
  nth j (nth (4 * sp) w []) 0 + nth j (nth (4 * sp + 1) w []) 0 + nth j (nth (4 * sp + 2) w []) 0 + nth j (nth (4 * sp + 3) w []) 0.
Lemma superpixel_spec : forall k n w, (0 < n)%nat ->
  List.length (sp_max (4 * k) n w) = (4 * k)%nat /\ List.length (sp_argmax (4 * k) n w) = (4 * k)%nat /\
  forall p, (p < 4 * k)%nat -> let m := nth p (sp_max (4 * k) n w) 0 in let a := nth p (sp_argmax (4 * k) n w) 0%nat in
    (a < n)%nat /\ m = sp_sum w (p / 4) a /\ (forall j, (j < n)%nat -> sp_sum w (p / 4) j <= m) /\ (forall j, (j < a)%nat -> sp_sum w (p / 4) j < m).
Proof.
  intros k n w N. assert (List.length (sp_wf (4 * k) n w) = k) as L by (rewrite sp_wf_length, Nat.mul_comm; now apply Nat.div_mul).
  unfold sp_max, sp_argmax. rewrite !flat_repeat_length, L. do 2 (split; [reflexivity|]). intros p P.
  rewrite (nth_flat_repeat _ _ qmax _ _ _ []) by (rewrite L; auto). rewrite (nth_flat_repeat _ _ argmax _ _ _ []) by (rewrite L; auto).
  assert (p / 4 < k)%nat as PK by (apply Nat.div_lt_upper_bound; lia).
  unfold qmax. set (row := nth (p / 4) (sp_wf (4 * k) n w) []).
  assert (List.length row = n /\ forall j, (j < n)%nat -> nth j row 0 = sp_sum w (p / 4) j) as [LR R].
  { unfold row, sp_wf. replace (4 * k / 4)%nat with k by (rewrite Nat.mul_comm, Nat.div_mul; auto). rewrite nth_map_seq by auto. split; [now rewrite map_length, seq_length|].
    intros j J. rewrite nth_map_seq by auto. unfold sp_sum. cbn [seq map qsum fold_right]. rewrite !Nat.add_0_r. ring. }
  destruct (argmax_spec row) as (A & B & C). { intro E. rewrite E in LR. cbn in LR. lia. }
  rewrite LR in *. repeat split; auto.
  - intros j J. rewrite <- R by auto. now apply B.
  - intros j J. rewrite <- R by lia. now apply C.
Qed.

(** ** flasher flag *)
Definition module_pixels (w : event) (tm : nat) : list (list Qc) := firstn 64 (skipn (64 * tm) w).
Definition module_average (w : event) (tm : nat) : Qc := qmean (map qmax (module_pixels w tm)).
Lemma unit_entry : forall w tm, (64 * tm < List.length w)%nat ->
  average (pyslice (map qmax w) (Some (64 * Z.of_nat tm)%Z) (Some (64 * (Z.of_nat tm + 1))%Z)) = Some (module_average w tm).
Proof.
  intros w tm L. assert (pyslice (map qmax w) (Some (64 * Z.of_nat tm)%Z) (Some (64 * (Z.of_nat tm + 1))%Z) = map qmax (module_pixels w tm)) as ->.
  { unfold module_pixels, pyslice, slice_bound. destruct (Z.ltb_spec (64 * Z.of_nat tm) 0); [lia|]. destruct (Z.ltb_spec (64 * (Z.of_nat tm + 1)) 0); [lia|].
    rewrite map_length. rewrite skipn_map, firstn_map. f_equal. rewrite (Z.min_l (64 * Z.of_nat tm)) by lia. replace (Z.to_nat (64 * Z.of_nat tm)) with (64 * tm)%nat by lia.
    destruct (Z.le_gt_cases (64 * (Z.of_nat tm + 1)) (Z.of_nat (List.length w))).
    - rewrite Z.min_l by lia. f_equal. lia.
    - rewrite Z.min_r by lia. rewrite !firstn_all2; auto; rewrite skipn_length; lia. }
  unfold average, module_average. destruct (map qmax (module_pixels w tm)) eqn:E; auto. exfalso. apply (f_equal (@List.length _)) in E. rewrite map_length in E.
  unfold module_pixels in E. rewrite firstn_length, skipn_length in E. cbn [List.length] in E. lia.
Qed.
Lemma unit_entry_none : forall w tm, (List.length w <= 64 * tm)%nat ->
  average (pyslice (map qmax w) (Some (64 * Z.of_nat tm)%Z) (Some (64 * (Z.of_nat tm + 1))%Z)) = None.
Proof.
  intros w tm L. unfold pyslice, slice_bound. destruct (Z.ltb_spec (64 * Z.of_nat tm) 0); [lia|]. rewrite map_length, Z.min_r by lia. rewrite Nat2Z.id.
  rewrite skipn_all2 by (rewrite map_length; lia). now rewrite firstn_nil.
Qed.
Definition flasher_modules : list nat := [5; 23; 8; 26]%nat.
Lemma flasher_full : forall w, (64 * 26 < List.length w)%nat ->
  let u := flasher_unit w in let avg i := module_average w (nth i flasher_modules 0%nat) in
  (u = (-1)%Z <-> exists i, (i < 4)%nat /\ avg i < qz 30) /\
  ((forall i, (i < 4)%nat -> qz 30 <= avg i) -> exists i, (i < 4)%nat /\ u = Z.of_nat i /\ (forall j, (j < 4)%nat -> avg j <= avg i) /\ (forall j, (j < i)%nat -> avg j < avg i)).
Proof.
  intros w L u avg.
  assert (unit_vect w = map Some (map avg (seq 0 4))) as E.
  { unfold unit_vect. cbn [map seq]. unfold avg, flasher_modules. cbn [nth].
    pose proof (unit_entry w 5) as E5. pose proof (unit_entry w 23) as E23. pose proof (unit_entry w 8) as E8. pose proof (unit_entry w 26) as E26.
    cbn [Z.of_nat Pos.of_succ_nat Pos.succ] in E5, E23, E8, E26. rewrite E5, E23, E8, E26 by lia. reflexivity. }
  unfold u, flasher_unit. rewrite E. cbv zeta.
  assert (existsb (fun o => match o with Some x => qltb x (qz 30) | None => false end) (map Some (map avg (seq 0 4))) = existsb (fun i => qltb (avg i) (qz 30)) (seq 0 4)) as -> by reflexivity.
  assert (argmax_nan (map Some (map avg (seq 0 4))) = argmax (map avg (seq 0 4))) as -> by reflexivity.
  destruct (existsb (fun i => qltb (avg i) (qz 30)) (seq 0 4)) eqn:X.
  - apply existsb_exists in X as (i & I & Q). apply in_seq in I. destruct (qltb_spec (avg i) (qz 30)) as [Q'|]; [|discriminate]. split.
    + split; auto. intros _. exists i. split; auto. lia.
    + intros H. exfalso. specialize (H i ltac:(lia)). qlra.
  - assert (forall i, (i < 4)%nat -> qz 30 <= avg i) as G.
    { intros i I. apply Qcnot_lt_le. intro Q. assert (existsb (fun i => qltb (avg i) (qz 30)) (seq 0 4) = true); [|congruence].
      apply existsb_exists. exists i. split; [apply in_seq; lia|]. destruct (qltb_spec (avg i) (qz 30)); auto. }
    split.
    + split; [intro Q; lia|]. intros (i & I & Q). specialize (G i I). exfalso. qlra.
    + intros _. destruct (argmax_spec (map avg (seq 0 4))) as (A & B & C); [discriminate|]. rewrite map_length, seq_length in *.
      exists (argmax (map avg (seq 0 4))). split; auto. split; auto. split.
      * intros j J. specialize (B j J). rewrite !nth_map_seq in B by auto. exact B.
      * intros j J. specialize (C j J). rewrite !nth_map_seq in C by lia. exact C.
Qed.
Lemma flasher_small : forall w, (List.length w <= 64 * 5)%nat -> flasher_unit w = 0%Z.
Proof.
  intros w L. unfold flasher_unit, unit_vect. cbn [map].
  pose proof (unit_entry_none w 5) as E5. pose proof (unit_entry_none w 23) as E23. pose proof (unit_entry_none w 8) as E8. pose proof (unit_entry_none w 26) as E26.
  cbn [Z.of_nat Pos.of_succ_nat Pos.succ] in E5, E23, E8, E26. rewrite E5, E23, E8, E26 by lia. reflexivity.
Qed.
