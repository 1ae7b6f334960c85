(** Property C107: charges found with the neighbours of a pixel. *)
From Coq Require Import List ZArith QArith Qcanon Qround Bool Arith Lia.
From Verif.Base Require Import Py PyFacts Num Lst.
From Verif.WfUtils Require Import Model Proofs.
From Verif.Reducers Require Import Model Proofs Proofs2 Proofs3 Props ModelNeighbour.
Import ListNotations.
Local Open Scope list_scope.
Local Open Scope Qc_scope.

Definition chosen (w : event) (ns : list nat) : event := map (fun k => nth k w []) ns.
Lemma average_chosen : forall rows ns n, ns <> [] -> neighbour_average rows ns n = map Some (mean0 (chosen rows ns) n).
Proof.
  intros rows ns n N. unfold neighbour_average, mean0, chosen. rewrite map_map. apply map_ext. intros j. rewrite map_map, map_length.
  unfold average, qmean. destruct ns as [|k ns]; [contradiction|]. cbn [map]. cbn [List.length]. now rewrite map_length.
Qed.
Lemma average_none : forall rows n, neighbour_average rows [] n = repeat None n.
Proof. intros. unfold neighbour_average. cbn [map average]. generalize 0%nat. induction n as [|n IH]; intros a; [reflexivity|]. cbn [seq map repeat]. now rewrite IH. Qed.
Lemma argmax_nan_some : forall l, argmax_nan (map Some l) = argmax l.
Proof.
  intros l. unfold argmax_nan. destruct (find _ _) as [i|] eqn:E.
  - apply find_some in E as [I E]. apply in_seq in I. rewrite map_length in I. rewrite (nth_indep _ None (Some 0)) in E by (rewrite map_length; lia). rewrite map_nth in E. discriminate.
  - now rewrite map_map, map_id.
Qed.
Lemma argmax_nan_none : forall n, argmax_nan (repeat None n) = 0%nat.
Proof. intros [|n]; reflexivity. Qed.
Lemma cc_chosen : forall y w ns, chosen (cc y w) ns = cc y (chosen w ns).
Proof.
  intros. unfold chosen, cc. rewrite map_map. apply map_ext. intros k. rewrite <- (map_nth (fun row => correlate1d row _ _)). reflexivity.
Qed.
Lemma cc_index : forall y w ns n, cc_index_nn y w ns n = match ns with [] => 0%nat | _ => cc_peak y (chosen w ns) n end.
Proof.
  intros. unfold cc_index_nn. destruct ns as [|k ns]; [rewrite average_none; apply argmax_nan_none|]. rewrite average_chosen by discriminate. now rewrite argmax_nan_some, cc_chosen.
Qed.
Lemma sliding_index : forall s w ns n, sliding_index_nn s w ns n = match ns with [] => 0%nat | _ => sliding_peak s (chosen w ns) n end.
Proof.
  intros. unfold sliding_index_nn. destruct ns as [|k ns].
  - rewrite average_none. unfold window_sums_nan. destruct n as [|n]; [reflexivity|]. cbn [repeat forallb andb map]. reflexivity.
  - rewrite average_chosen by discriminate. unfold window_sums_nan. replace (forallb _ _) with true.
    + now rewrite argmax_nan_some, map_map, map_id.
    + symmetry. apply forallb_forall. intros o O. apply in_map_iff in O as (x & <- & _). reflexivity.
Qed.
Lemma sum_from_window : forall row k s, sum_from row k s = window_sum row k s.
Proof.
  intros row k s. unfold sum_from, window_sum. revert row. induction k as [|k IH]; intros row.
  - cbn [skipn plus]. revert row. induction s as [|s IHs]; intros row; [reflexivity|]. destruct row as [|x row].
    + cbn [firstn]. symmetry. apply qsum_zero. intros [|a] _; reflexivity.
    + cbn [firstn seq map]. rewrite <- seq_shift, map_map. cbn [nth]. change (qsum (x :: firstn s row)) with (x + qsum (firstn s row)). rewrite IHs. reflexivity.
  - destruct row as [|x row].
    + cbn [skipn]. rewrite firstn_nil. symmetry. apply qsum_zero. intros a _; reflexivity.
    + cbn [skipn]. rewrite IH. reflexivity.
Qed.

(** ** The position is the first maximum of the mean over the neighbours; without neighbours it is the first sample. *)
Theorem C107_position : forall y w ns n, (0 < n)%nat -> let k := cc_index_nn y w ns n in let sum j := qsum (map (fun i => nth j (nth i (cc y w) []) 0) ns) in
  (k < n)%nat /\ (forall j, (j < n)%nat -> sum j <= sum k) /\ (forall j, (j < k)%nat -> ns <> [] -> sum j < sum k) /\ (ns = [] -> k = 0%nat).
Proof.
  intros y w ns n N k sum. unfold k. rewrite cc_index. destruct ns as [|i ns]; [repeat split; auto; [intros; apply Qcle_refl|intros j J; lia]|]. set (l := i :: ns) in *. unfold cc_peak. rewrite <- cc_chosen.
  set (m := mean0 (chosen (cc y w) l) n). assert (List.length m = n) as L by apply mean0_length. assert (m <> []) as NE by (intro Z; rewrite Z in L; cbn in L; lia).
  assert (0 < qn (List.length l)) as QP by (apply qn_pos; cbn; lia).
  assert (forall j, (j < n)%nat -> nth j m 0 = sum j / qn (List.length l)) as E.
  { intros j J. unfold m, mean0. rewrite nth_map_seq by auto. unfold chosen. rewrite map_map, map_length. reflexivity. }
  destruct (argmax_spec m NE) as (A & B & C). rewrite L in *.
  assert (forall a b, a / qn (List.length l) <= b / qn (List.length l) -> a <= b) as DL. { intros a b H. apply Qcnot_lt_le. intro X. apply Qcle_not_lt in H. apply H. now apply qdiv_lt. }
  assert (forall a b, a / qn (List.length l) < b / qn (List.length l) -> a < b) as DS. { intros a b H. apply Qcnot_le_lt. intro X. apply Qclt_not_le in H. apply H. now apply qdiv_le. }
  repeat split; auto.
  - intros j J. apply DL. rewrite <- !E by auto. now apply B.
  - intros j J _. apply DS. rewrite <- !E by lia. now apply C.
  - discriminate.
Qed.
Print Assumptions C107_position.

(** ** The pixel's own waveform has no influence on its position: the charge is linear in it, so noise does not bias it. *)
Definition with_row (w : event) (i : nat) (row : list Qc) : event := set_entry w i row.
Lemma set_entry_other : forall A (l : list A) i x j, j <> i -> nth_error (set_entry l i x) j = nth_error l j.
Proof. induction l as [|a l IH]; intros [|i] x [|j] H; cbn; auto; try lia. Qed.
Lemma set_entry_same : forall A (l : list A) i x, (i < List.length l)%nat -> nth_error (set_entry l i x) i = Some x.
Proof. induction l as [|a l IH]; intros [|i] x H; cbn in *; try lia; auto. apply IH. lia. Qed.
Lemma chosen_other : forall w i row ns, ~ In i ns -> chosen (with_row w i row) ns = chosen w ns.
Proof. intros w i row ns H. unfold chosen, with_row. apply map_ext_in. intros k K. rewrite !(nth_of_error _ _ _ []). rewrite set_entry_other; [reflexivity|]. intros ->. contradiction. Qed.
Theorem C107_own_waveform : forall y s w i row ns n, ~ In i ns ->
  cc_index_nn y (with_row w i row) ns n = cc_index_nn y w ns n /\ sliding_index_nn s (with_row w i row) ns n = sliding_index_nn s w ns n.
Proof. intros. rewrite !cc_index, !sliding_index, chosen_other by auto. auto. Qed.
Print Assumptions C107_own_waveform.
Lemma charge_at : forall y nbrs w n i row ns, nth_error w i = Some row -> nth_error nbrs i = Some ns ->
  nth_error (charge_cc_nn y nbrs w n) i = Some (nth (cc_index_nn y w ns n) (correlate1d row (fst (normalise_pulse y)) (cc_origin (fst (normalise_pulse y)))) 0).
Proof.
  intros y nbrs w n i row ns R N. unfold charge_cc_nn. rewrite nth_error_map. rewrite nth_error_combine, N. unfold cc. rewrite nth_error_map, R. reflexivity.
Qed.
Lemma sliding_at : forall s nbrs w n i row ns, nth_error w i = Some row -> nth_error nbrs i = Some ns ->
  nth_error (charge_sliding_nn s nbrs w n) i = Some (window_sum row (sliding_index_nn s w ns n) s).
Proof. intros s nbrs w n i row ns R N. unfold charge_sliding_nn. rewrite nth_error_map, nth_error_combine, R, N. cbn [option_map fst snd]. now rewrite sum_from_window. Qed.
Lemma lincomb_nth : forall a b w v k, List.length w = List.length v -> nth k (lincomb a b w v) 0 = a * nth k w 0 + b * nth k v 0.
Proof.
  intros a b w v k L. unfold lincomb. replace 0 with (a * fst (0, 0) + b * snd (0, 0)) at 1 by (cbn [fst snd]; ring). rewrite (map_nth (fun xy => a * fst xy + b * snd xy)). rewrite combine_nth by auto. reflexivity.
Qed.
Theorem C107_linear : forall y s nbrs w n i ns u v a b, (i < List.length w)%nat -> nth_error nbrs i = Some ns -> ~ In i ns -> List.length u = List.length v ->
  (exists cu cv, nth_error (charge_cc_nn y nbrs (with_row w i u) n) i = Some cu /\ nth_error (charge_cc_nn y nbrs (with_row w i v) n) i = Some cv /\
     nth_error (charge_cc_nn y nbrs (with_row w i (lincomb a b u v)) n) i = Some (a * cu + b * cv)) /\
  (exists cu cv, nth_error (charge_sliding_nn s nbrs (with_row w i u) n) i = Some cu /\ nth_error (charge_sliding_nn s nbrs (with_row w i v) n) i = Some cv /\
     nth_error (charge_sliding_nn s nbrs (with_row w i (lincomb a b u v)) n) i = Some (a * cu + b * cv)).
Proof.
  intros y s nbrs w n i ns u v a b I NB NI L. split.
  - do 2 eexists. split; [apply charge_at with (row := u) (ns := ns); auto; now apply set_entry_same|]. split; [apply charge_at with (row := v) (ns := ns); auto; now apply set_entry_same|].
    rewrite (charge_at y nbrs _ n i (lincomb a b u v) ns) by (auto; now apply set_entry_same).
    destruct (C107_own_waveform y s w i u ns n NI) as [-> _]. destruct (C107_own_waveform y s w i v ns n NI) as [-> _]. destruct (C107_own_waveform y s w i (lincomb a b u v) ns n NI) as [-> _].
    rewrite correlate1d_linear by auto. rewrite lincomb_nth by (now rewrite !correlate1d_length). reflexivity.
  - do 2 eexists. split; [apply sliding_at with (row := u) (ns := ns); auto; now apply set_entry_same|]. split; [apply sliding_at with (row := v) (ns := ns); auto; now apply set_entry_same|].
    rewrite (sliding_at s nbrs _ n i (lincomb a b u v) ns) by (auto; now apply set_entry_same).
    destruct (C107_own_waveform y s w i u ns n NI) as [_ ->]. destruct (C107_own_waveform y s w i v ns n NI) as [_ ->]. destruct (C107_own_waveform y s w i (lincomb a b u v) ns n NI) as [_ ->].
    f_equal. unfold window_sum. rewrite <- !qsum_map_scale, <- qsum_map_plus. apply qsum_map_ext. intros k _. now apply lincomb_nth.
Qed.
Print Assumptions C107_linear.

(** ** It never exceeds the charge found at the pixel's own maximum. *)
Theorem C107_below_local : forall y s nbrs w n i row ns, nth_error w i = Some row -> List.length row = n -> (0 < n)%nat -> nth_error nbrs i = Some ns ->
  (exists c m, nth_error (charge_cc_nn y nbrs w n) i = Some c /\ nth_error (charge_cc_local y w) i = Some m /\ c <= m) /\
  (exists c m, nth_error (charge_sliding_nn s nbrs w n) i = Some c /\ nth_error (charge_sliding_local s w) i = Some m /\ c <= m) /\
  (exists c m, nth_error (charge_sliding s w n) i = Some c /\ nth_error (charge_sliding_local s w) i = Some m /\ c <= m).
Proof.
  intros y s nbrs w n i row ns R L N NB. assert (row <> []) as NE by (intro Z; rewrite Z in L; cbn in L; lia). repeat split.
  - set (c := correlate1d row (fst (normalise_pulse y)) (cc_origin (fst (normalise_pulse y)))). assert (List.length c = n) as LC by (unfold c; now rewrite correlate1d_length).
    exists (nth (cc_index_nn y w ns n) c 0), (nth (argmax c) c 0). split; [now apply charge_at|]. split; [unfold charge_cc_local, cc; now rewrite !nth_error_map, R|].
    destruct (argmax_spec c) as (_ & A & _); [intro Z; rewrite Z in LC; cbn in LC; lia|]. apply A. rewrite LC. now destruct (C107_position y w ns n N) as (K & _).
  - exists (window_sum row (sliding_index_nn s w ns n) s), (qmax (window_sums s row)). split; [now apply sliding_at|]. split; [unfold charge_sliding_local; now rewrite nth_error_map, R|].
    destruct (sliding_spec s row NE) as (_ & _ & A & _). apply A. rewrite L, sliding_index. destruct ns as [|k ns]; [exact N|]. now destruct (C56_common s (chosen w (k :: ns)) n N) as (K & _).
  - exists (window_sum row (sliding_peak s w n) s), (qmax (window_sums s row)). split; [unfold charge_sliding; rewrite nth_error_map, R; cbn [option_map]; now rewrite sum_from_window|]. split; [unfold charge_sliding_local; now rewrite nth_error_map, R|].
    destruct (sliding_spec s row NE) as (_ & _ & A & _). apply A. rewrite L. now destruct (C56_common s w n N) as (K & _).
Qed.
Print Assumptions C107_below_local.

(** ** A pulse that arrives in the pixel and its neighbours at the same time is measured exactly, whatever its charge in the pixel (also none). *)
Theorem C107_pulse : forall y nbrs w n t i ns row A amps, 0 < trapz y -> (argmax y <= t)%nat -> (t + List.length y <= n + argmax y)%nat ->
  nth_error w i = Some row -> nth_error nbrs i = Some ns -> placed (snd (normalise_pulse y)) (argmax y) A t n row ->
  List.length amps = List.length ns -> (forall j k B, nth_error ns j = Some k -> nth_error amps j = Some B -> 0 <= B /\ placed (snd (normalise_pulse y)) (argmax y) B t n (nth k w [])) -> 0 < qsum amps ->
  nth_error (charge_cc_nn y nbrs w n) i = Some A.
Proof.
  intros y nbrs w n t i ns row A amps T P1 P2 R NB PL LA H SP. rewrite (charge_at y nbrs w n i row ns) by auto. f_equal. rewrite cc_index.
  assert (exists j B, nth_error amps j = Some B /\ B <> 0) as (j & B & HB & B0).
  { clear - SP. induction amps as [|B amps IH]; [cbn in SP; now apply Qclt_not_eq in SP|]. destruct (Qc_eq_dec B 0) as [->|N]; [|now exists 0%nat, B].
    destruct IH as (j & B' & X & Y); [rewrite qsum_cons in SP; qlra|]. now exists (S j), B'. }
  assert (exists k, nth_error ns j = Some k) as (k & HK). { destruct (nth_error ns j) as [k|] eqn:E; [now exists k|]. apply nth_error_None in E. assert (nth_error amps j <> None) as X by congruence. apply nth_error_Some in X. lia. }
  destruct (H j k B HK HB) as [_ PB]. destruct ns as [|k0 ns0]; [destruct j; discriminate|]. set (l := k0 :: ns0) in *.
  assert (0 < n)%nat as N0 by (destruct (cc_row_bound y 0 t n (map (fun x => 0 * x) row) T P1 P2) as (_ & X & _); [apply Qcle_refl|destruct PL as [PL1 PL2]; split; [now rewrite map_length|intros m M; rewrite nth_map0 by ring; ring]|lia]).
  set (p := cc_peak y (chosen w l) n).
  assert (p < n)%nat as PN. { unfold p, cc_peak. assert (mean0 (cc y (chosen w l)) n <> []) as MN by (intro Z; apply (f_equal (@List.length _)) in Z; rewrite mean0_length in Z; cbn in Z; lia). destruct (argmax_spec _ MN) as (X & _). now rewrite mean0_length in X. }
  assert (charge_cc y (chosen w l) n = amps) as CC.
  { apply (C55_camera y (chosen w l) n t amps T P1 P2); [unfold chosen; now rewrite map_length| |exact SP]. intros j' B' row' HB' HR'. unfold chosen in HR'. rewrite nth_error_map in HR'. destruct (nth_error l j') as [k'|] eqn:E; [|discriminate]. injection HR' as <-. now apply (H j' k' B'). }
  assert (nth p (correlate1d (nth k w []) (fst (normalise_pulse y)) (cc_origin (fst (normalise_pulse y)))) 0 = B) as EB.
  { assert (nth_error (charge_cc y (chosen w l) n) j = Some B) as X by now rewrite CC. unfold charge_cc in X. rewrite nth_error_map in X. unfold cc at 1 in X. rewrite nth_error_map in X. unfold chosen at 2 in X. rewrite nth_error_map, HK in X. cbn [option_map] in X. now injection X. }
  pose proof (cc_row_ratio y A B t n row (nth k w []) T P1 P2 PL PB p PN) as Q. cbv zeta in Q. rewrite EB in Q.
  revert Q. generalize (nth p (correlate1d row (fst (normalise_pulse y)) (cc_origin (fst (normalise_pulse y)))) 0). intros x Q.
  assert (B * (x - A) = 0) as Z by (replace (B * (x - A)) with (B * x - A * B) by ring; rewrite Q; ring). apply Qcmult_integral in Z as [Z|Z]; [contradiction|]. replace x with (x - A + A) by ring. rewrite Z. ring.
Qed.
Print Assumptions C107_pulse.

(** ** With dark neighbours (all zero) the position is the first sample, wherever the pulse of the pixel is. *)
Theorem C107_dark_refuted : forall y s w ns n, (forall k, In k ns -> nth k w [] = repeat 0 n) -> cc_index_nn y w ns n = 0%nat /\ sliding_index_nn s w ns n = 0%nat.
Proof.
  intros y s w ns n H. rewrite cc_index, sliding_index.
  assert (forall a b i, get0 (repeat 0 a) i * b = 0) as G. { intros a b i. unfold get0. destruct (_ && _)%bool; [rewrite nth_repeat|]; ring. } destruct ns as [|k ns]; [auto|]. set (l := k :: ns) in *.
  assert (forall m v, (forall j, nth j m v = v) -> argmax m = 0%nat) as Z.
  { intros m v V. destruct m as [|x m]; [reflexivity|]. destruct (argmax_spec (x :: m)) as (A & _ & C); [discriminate|]. destruct (argmax (x :: m)) as [|q]; [reflexivity|]. exfalso. specialize (C 0%nat ltac:(lia)).
    pose proof (V 0%nat) as V0. pose proof (V (S q)) as V1. cbn [nth] in V0. subst v. rewrite (nth_indep _ 0 x A) in C. rewrite V1 in C. cbn [nth] in C. now apply Qclt_not_eq in C. }
  assert (mean0 (chosen w l) n = repeat 0 n) as E.
  { apply list_ext. intros j. unfold mean0. rewrite nth_error_map. rewrite nth_error_repeat, nth_error_seq. destruct (Nat.ltb_spec j n) as [J|J].
    - cbn [option_map plus]. f_equal. rewrite qsum_zero; [unfold Qcdiv; ring|]. intros r R. unfold chosen in R. apply in_map_iff in R as (q & <- & Q). rewrite H by auto. apply nth_repeat.
    - reflexivity. }
  split.
  - unfold cc_peak. apply (Z _ 0). intros j. destruct (le_lt_dec n j) as [J|J]; [apply nth_overflow; rewrite mean0_length; lia|]. unfold mean0. rewrite nth_map_seq by auto. rewrite qsum_zero; [unfold Qcdiv; ring|].
    intros r R. unfold cc in R. apply in_map_iff in R as (r0 & <- & R0). unfold chosen in R0. apply in_map_iff in R0 as (q & <- & Q). rewrite H by auto.
    rewrite correlate1d_nth by (now rewrite repeat_length). apply qsum_zero. intros q' _. rewrite Qcmult_comm. apply G.
  - unfold sliding_peak. rewrite E. apply (Z _ 0). intros j. destruct (le_lt_dec n j) as [J|J]; [apply nth_overflow; rewrite window_sums_length, repeat_length; lia|]. rewrite window_sums_nth by (now rewrite repeat_length). unfold window_sum. apply qsum_zero. intros q _. apply nth_repeat.
Qed.
Print Assumptions C107_dark_refuted.

(** ** The position with sliding windows, a common positive gain, and the times. *)
Theorem C107_sliding_position : forall s w ns n, (0 < n)%nat -> (forall i, In i ns -> List.length (nth i w []) = n) ->
  let k := sliding_index_nn s w ns n in let sum j := qsum (map (fun i => window_sum (nth i w []) j s) ns) in
  (k < n)%nat /\ (forall j, (j < n)%nat -> sum j <= sum k) /\ (forall j, (j < k)%nat -> ns <> [] -> sum j < sum k) /\ (ns = [] -> k = 0%nat).
Proof.
  intros s w ns n N LR k sum. unfold k. rewrite sliding_index. destruct ns as [|i ns]; [repeat split; auto; [intros; apply Qcle_refl|intros j J; lia]|]. set (l := i :: ns) in *.
  destruct (C56_common s (chosen w l) n N) as (A & B & C). set (p := sliding_peak s (chosen w l) n) in *.
  assert (0 < qn (List.length l)) as QP by (apply qn_pos; cbn; lia).
  assert (forall m, nth m (mean0 (chosen w l) n) 0 = qsum (map (fun i => nth m (nth i w []) 0) l) / qn (List.length l)) as E1.
  { intros m. destruct (le_lt_dec n m) as [M|M].
    - rewrite nth_overflow by (rewrite mean0_length; lia). rewrite qsum_zero; [unfold Qcdiv; ring|]. intros i' I'. apply nth_overflow. rewrite LR by auto. lia.
    - unfold mean0. rewrite nth_map_seq by auto. unfold chosen. rewrite map_map, map_length. reflexivity. }
  assert (forall j, window_sum (mean0 (chosen w l) n) j s = sum j / qn (List.length l)) as E.
  { intros j. unfold window_sum at 1, sum, window_sum. rewrite (qsum_swap _ _ (fun i q => nth (j + q) (nth i w []) 0)). unfold Qcdiv. rewrite Qcmult_comm, <- qsum_map_scale. apply qsum_map_ext. intros q _. rewrite E1. unfold Qcdiv. ring. }
  assert (forall a b, a / qn (List.length l) <= b / qn (List.length l) -> a <= b) as DL. { intros a b H. apply Qcnot_lt_le. intro X. apply Qcle_not_lt in H. apply H. now apply qdiv_lt. }
  assert (forall a b, a / qn (List.length l) < b / qn (List.length l) -> a < b) as DS. { intros a b H. apply Qcnot_le_lt. intro X. apply Qclt_not_le in H. apply H. now apply qdiv_le. }
  repeat split; auto.
  - intros j J. apply DL. rewrite <- !E. now apply B.
  - intros j J _. apply DS. rewrite <- !E. now apply C.
  - discriminate.
Qed.
Print Assumptions C107_sliding_position.
Theorem C107_times : forall y junk nbrs w n i row ns, nth_error w i = Some row -> List.length row = n -> (0 < n)%nat -> nth_error nbrs i = Some ns ->
  exists t, nth_error (t_cc_nn y junk nbrs w n) i = Some t /\ 0 <= t /\ t < qn n.
Proof.
  intros y junk nbrs w n i row ns R L N NB. set (c := correlate1d row (fst (normalise_pulse y)) (cc_origin (fst (normalise_pulse y)))). assert (List.length c = n) as LC by (unfold c; now rewrite correlate1d_length).
  exists (extract_pulse_time c junk (Z.of_nat (cc_index_nn y w ns n))). split.
  - unfold t_cc_nn. rewrite nth_error_map, nth_error_combine, NB. unfold cc. rewrite nth_error_map, R. reflexivity.
  - replace (qn n) with (qn (List.length c)) by (now rewrite LC). apply pulse_time_range. rewrite LC. destruct (C107_position y w ns n N) as (K & _). lia.
Qed.
Print Assumptions C107_times.
Lemma chosen_scale : forall c w ns, chosen (map (map (fun v => c * v)) w) ns = map (map (fun v => c * v)) (chosen w ns).
Proof. intros. unfold chosen. rewrite map_map. apply map_ext. intros k. change [] with (map (fun v : Qc => c * v) []) at 1. apply map_nth. Qed.
Lemma correlate1d_gain : forall c row weights o, correlate1d (map (fun v => c * v) row) weights o = map (fun v => c * v) (correlate1d row weights o).
Proof.
  intros. assert (forall l, map (fun v => c * v) l = lincomb c 0 l l) as G. { induction l as [|x l IH]; [reflexivity|]. unfold lincomb in *. cbn [map combine fst snd]. rewrite IH. f_equal. ring. }
  rewrite !G. now apply correlate1d_linear.
Qed.
Lemma mean0_gain : forall c w n, mean0 (map (map (fun v => c * v)) w) n = map (fun v => c * v) (mean0 w n).
Proof.
  intros. unfold mean0. rewrite map_map. apply map_ext. intros j. rewrite map_map, map_length. unfold Qcdiv. rewrite Qcmult_assoc. f_equal. rewrite <- qsum_map_scale. apply qsum_map_ext. intros r _. now rewrite nth_map0 by ring.
Qed.
Lemma window_sums_gain : forall s c row, window_sums s (map (fun v => c * v) row) = map (fun v => c * v) (window_sums s row).
Proof. intros. apply correlate1d_gain. Qed.
Lemma cc_gain : forall y c w, cc y (map (map (fun v => c * v)) w) = map (map (fun v => c * v)) (cc y w).
Proof. intros. unfold cc. rewrite !map_map. apply map_ext. intros r. apply correlate1d_gain. Qed.
Lemma combine_gain : forall A B C (f : A -> B) (l : list A) (m : list C), combine (map f l) m = map (fun p => (f (fst p), snd p)) (combine l m).
Proof. induction l as [|a l IH]; intros [|x m]; cbn; auto. now rewrite IH. Qed.
Theorem C107_gain : forall y s c nbrs w n, 0 < c -> let scaled := map (map (fun v => c * v)) w in
  charge_cc_nn y nbrs scaled n = map (fun v => c * v) (charge_cc_nn y nbrs w n) /\ charge_sliding_nn s nbrs scaled n = map (fun v => c * v) (charge_sliding_nn s nbrs w n).
Proof.
  intros y s c nbrs w n P scaled. unfold scaled. split.
  - unfold charge_cc_nn. rewrite cc_gain, combine_gain, !map_map. apply map_ext. intros [row ns]. cbn [fst snd]. rewrite nth_map0 by ring. f_equal. f_equal. rewrite !cc_index. destruct ns as [|k ns]; [reflexivity|].
    unfold cc_peak. now rewrite chosen_scale, cc_gain, mean0_gain, argmax_scale.
  - unfold charge_sliding_nn. rewrite combine_gain, !map_map. apply map_ext. intros [row ns]. cbn [fst snd]. rewrite !sum_from_window, !sliding_index.
    replace (match ns with [] => 0%nat | _ :: _ => sliding_peak s (chosen (map (map (fun v => c * v)) w) ns) n end) with (match ns with [] => 0%nat | _ :: _ => sliding_peak s (chosen w ns) n end).
    + unfold window_sum. rewrite <- qsum_map_scale. apply qsum_map_ext. intros q _. now rewrite nth_map0 by ring.
    + destruct ns as [|k ns]; [reflexivity|]. unfold sliding_peak. now rewrite chosen_scale, mean0_gain, window_sums_gain, argmax_scale.
Qed.
Print Assumptions C107_gain.

(** ** Five samples, three pixels: pixel 0 has neighbours 1 and 2, which see the pulse at sample 2, so it is measured exactly, or as zero;
       with dark neighbours a pulse of 5 is measured as 0. *)
Definition nn_pulse : list Qc := [0; qz 1; 0].
Definition nn_row (a : Z) : list Qc := [0; 0; qz a; 0; 0].
Example C107_ex : charge_cc_nn nn_pulse [[1%nat; 2%nat]; [0%nat]; [0%nat]] [nn_row 5; nn_row 1; nn_row 2] 5 = [qz 5; qz 1; qz 2] /\
  charge_cc_nn nn_pulse [[1%nat; 2%nat]; [0%nat]; [0%nat]] [nn_row 0; nn_row 1; nn_row 2] 5 = [0; 0; 0] /\
  charge_cc_nn nn_pulse [[1%nat; 2%nat]; [0%nat]; [0%nat]] [nn_row 5; nn_row 0; nn_row 0] 5 = [0; 0; 0] /\
  charge_sliding_nn 2 [[1%nat; 2%nat]; [0%nat]; []] [nn_row 5; nn_row 1; nn_row 2] 5 = [qz 5; qz 1; 0].
Proof. repeat split; vm_compute; repeat f_equal; apply Qc_is_canon; reflexivity. Qed.
