(** Properties C53-C59, C70, C71: waveform reducers. *)
From Coq Require Import List ZArith QArith Qcanon Qround Bool Arith Lia.
From Verif.Base Require Import Py PyFacts Num Lst.
From Verif.WfUtils Require Import Model Proofs.
From Verif.Reducers Require Import Model Proofs Proofs2 Proofs3.
Import ListNotations.
Local Open Scope list_scope.
Local Open Scope Qc_scope.

Ltac vmr := repeat match goal with |- _ /\ _ => split; [vm_compute; reflexivity|] end; vm_compute; reflexivity.

(** ** C53: [window_sum row s k] is the sum of the [k] samples from [s] on. *)
Theorem C53_default : forall size shift w n, (20 <= n)%nat -> Forall (fun row => List.length row = n) w -> (0 <= size)%Z -> (shift <= 10)%Z -> (size - shift <= 10)%Z ->
  let t := extraction_time None w n in
  (10 <= t <= Z.of_nat n - 10)%Z /\ t = Z.min (Z.of_nat n - 10) (Z.max 10 (Z.of_nat (argmax (mean0 w n)))) /\
  (0 <= t - shift)%Z /\ (t - shift + size <= Z.of_nat n)%Z /\
  charge_averagewf None size shift w n = map (fun row => window_sum row (Z.to_nat (t - shift)) (Z.to_nat size)) w.
Proof.
  intros size shift w n L F S H1 H2 t. destruct (event_time_range w n L) as [R E]. change (event_time w n) with t in R, E.
  repeat split; try lia; auto. apply charge_window; auto; change (extraction_time None w n) with t; lia.
Qed.
Print Assumptions C53_default.
Theorem C53_explicit : forall t size shift w n, Forall (fun row => List.length row = n) w -> (0 <= size)%Z -> (0 <= t - shift)%Z -> (t - shift + size <= Z.of_nat n)%Z ->
  extraction_time (Some t) w n = t /\
  charge_averagewf (Some t) size shift w n = map (fun row => window_sum row (Z.to_nat (t - shift)) (Z.to_nat size)) w.
Proof. intros t size shift w n F S A B. split; auto. now apply (charge_window (Some t)). Qed.
Print Assumptions C53_explicit.
Definition ramp (n : nat) (a b : Z) : list Qc := map (fun j => qz (a + b * Z.of_nat j)) (seq 0 n).
Example C53_ex : extraction_time None [ramp 24 0 1; ramp 24 5 2] 24 = 14%Z /\ map this (charge_averagewf None 6 3 [ramp 24 0 1; ramp 24 5 2] 24) = [81 # 1; 192 # 1]%Q.
Proof. split; vm_compute; reflexivity. Qed.

(** ** C54: [junk] is whatever the read past the end yields; [vertex p y0 y1 y2 t] says that [t] is the vertex of the
    parabola through (p-1, y0), (p, y1), (p+1, y2). *)
Theorem C54_range : forall w junk p, (0 <= p < Z.of_nat (List.length w))%Z ->
  0 <= extract_pulse_time w junk p /\ extract_pulse_time w junk p < qn (List.length w).
Proof. exact pulse_time_range. Qed.
Print Assumptions C54_range.
Theorem C54_vertex : forall w junk p, (1 <= p)%nat -> (S p < List.length w)%nat ->
  let y0 := nth (p - 1) w 0 in let y1 := nth p w 0 in let y2 := nth (p + 1) w 0 in
  let r := extract_pulse_time w junk (Z.of_nat p) in
  (y0 + y2 = qz 2 * y1 -> r = qn p) /\
  (y0 + y2 <> qz 2 * y1 -> exists t, vertex (qn p) y0 y1 y2 t /\ (0 <= t /\ t < qn (List.length w) -> r = t) /\ (~ (0 <= t /\ t < qn (List.length w)) -> r = qn p)) /\
  (y0 <= y1 -> y2 <= y1 -> y0 + y2 < qz 2 * y1 -> vertex (qn p) y0 y1 y2 r /\ qn p - half <= r <= qn p + half /\ (y0 < y1 -> y2 < y1 -> qn p - half < r /\ r < qn p + half)).
Proof. exact pulse_time_inside. Qed.
Print Assumptions C54_vertex.
Example C54_ex : this (extract_pulse_time (map qz [0; 1; 5; 3; 0]%Z) None 2) = (13 # 6)%Q /\ this (extract_pulse_time (map qz [0; 1; 5; 3; 7]%Z) None 4) = (4 # 1)%Q /\
  this (extract_pulse_time (map qz [9; 1; 5; 3; 7]%Z) None 0) = (0 # 1)%Q.
Proof. vmr. Qed.

(** ** C55: [placed y1pe p A t n row] says that [row] has [n] samples and is [A] times the pulse [y1pe] shifted so that its
    sample [p] is at [t]. *)
Theorem C55_local : forall y (w : event) n, 0 < trapz y -> 
  forall i A t row, nth_error w i = Some row -> 0 < A -> (argmax y <= t)%nat -> (t + List.length y <= n + argmax y)%nat -> placed (snd (normalise_pulse y)) (argmax y) A t n row ->
  nth_error (charge_cc_local y w) i = Some A /\
  (exists k c, nth_error (cc_peak_local y w) i = Some k /\ nth_error (cc y w) i = Some c /\ (k < n)%nat /\ nth k c 0 = A /\ nth t c 0 = A) /\
  nth_error (height_cc_local y w) i = Some (A * qmax (snd (normalise_pulse y))).
Proof.
  intros y w n T i A t row R PA P1 P2 PL. destruct (cc_row_bound y A t n row T P1 P2) as (L & TN & E & B); auto. { now apply Qclt_le_weak. }
  set (c := correlate1d row (fst (normalise_pulse y)) (cc_origin (fst (normalise_pulse y)))) in *.
  assert (nth_error (cc y w) i = Some c) as C by (unfold cc; rewrite nth_error_map, R; reflexivity).
  assert (c <> []) as N by (intro Z; rewrite Z in L; cbn in L; lia). destruct (argmax_spec c N) as (M1 & M2 & _). rewrite L in *.
  assert (nth (argmax c) c 0 = A) as M. { apply Qcle_antisym; [now apply B|]. rewrite <- E. now apply M2. }
  repeat split.
  - unfold charge_cc_local. rewrite nth_error_map, C. cbn [option_map]. now rewrite M.
  - exists (argmax c), c. repeat split; auto. unfold cc_peak_local. now rewrite nth_error_map, C.
  - unfold height_cc_local, charge_cc_local. rewrite nth_error_map, nth_error_map, C. cbn [option_map]. now rewrite M.
Qed.
Print Assumptions C55_local.
(** CrossCorrelation (one time for the camera): every pixel sees the pulse at the same time, with its own amplitude >= 0, not all 0. *)
Theorem C55_camera : forall y (w : event) n t amps, 0 < trapz y -> (argmax y <= t)%nat -> (t + List.length y <= n + argmax y)%nat ->
  List.length amps = List.length w -> (forall i A row, nth_error amps i = Some A -> nth_error w i = Some row -> 0 <= A /\ placed (snd (normalise_pulse y)) (argmax y) A t n row) ->
  0 < qsum amps -> charge_cc y w n = amps.
Proof.
  intros y w n t amps T P1 P2 L H S. set (ref := fst (normalise_pulse y)).
  pose proof (trapz_pos_nonempty y T) as NE. destruct (argmax_spec y NE) as (AL & _). assert (t < n)%nat as TN by lia.
  (* the common shape: the correlation of a pulse of amplitude 1 *)
  set (g := fun k => qsum (map (fun j => nth j y 0 * get0 y (Z.of_nat j + (Z.of_nat k - Z.of_nat t))) (seq 0 (List.length y))) / energy y).
  pose proof (energy_pos y T) as EP. assert (energy y <> 0) as E0 by (intro Z; rewrite Z in EP; now apply Qclt_not_eq in EP).
  assert (forall i A row k, nth_error amps i = Some A -> nth_error w i = Some row -> (k < n)%nat -> nth k (correlate1d row ref (cc_origin ref)) 0 = A * g k) as G.
  { intros i A row k HA HR K. destruct (H i A row HA HR) as [_ PL]. now apply (cc_row y A t n row k). }
  assert (g t = 1) as GT by (unfold g; rewrite Z.sub_diag, autocorrelation0; field; auto).
  assert (forall k, g k <= 1) as GB. { intro k. unfold g. replace 1 with (energy y / energy y) by (field; auto). apply qdiv_le; auto. apply autocorrelation. }
  assert (forall k, (k < n)%nat -> nth k (mean0 (cc y w) n) 0 = qsum amps * g k / qn (List.length w)) as M.
  { intros k K. unfold mean0. rewrite nth_map_seq by auto. unfold cc. fold ref. rewrite map_length, map_map. f_equal.
    rewrite (Qcmult_comm (qsum amps)). rewrite <- (map_id amps) at 1. rewrite <- qsum_map_scale. f_equal. apply list_ext. intro i. rewrite !nth_error_map.
    destruct (nth_error w i) as [row|] eqn:R.
    - destruct (nth_error amps i) as [A|] eqn:HA; [|apply nth_error_None in HA; assert (nth_error w i <> None) as X by congruence; apply nth_error_Some in X; lia].
      cbn [option_map]. f_equal. rewrite (G i A row k) by auto. ring.
    - apply nth_error_None in R. rewrite (proj2 (nth_error_None amps i)) by lia. reflexivity. }
  assert (0 < qn (List.length w)) as NP. { apply qn_pos. destruct w; [destruct amps; [|discriminate]; cbn in S; now apply Qclt_not_eq in S|cbn; lia]. }
  assert (qn (List.length w) <> 0) as NP0 by (intro Z; rewrite Z in NP; now apply Qclt_not_eq in NP).
  assert ((cc_peak y w n < n)%nat /\ g (cc_peak y w n) = 1) as [PK PG].
  { unfold cc_peak. assert (mean0 (cc y w) n <> []) as MN by (intro Z; apply (f_equal (@List.length _)) in Z; rewrite mean0_length in Z; cbn in Z; lia).
    destruct (argmax_spec _ MN) as (A & B & _). rewrite mean0_length in *. split; auto. specialize (B t TN). rewrite !M in B by auto. rewrite GT in B.
    apply Qcle_antisym; [apply GB|]. apply Qcnot_lt_le. intro X.
    assert (qsum amps * g (argmax (mean0 (cc y w) n)) / qn (List.length w) < qsum amps * 1 / qn (List.length w)); [|qlra].
    apply qdiv_lt; auto. revert X S. generalize (g (argmax (mean0 (cc y w) n))) (qsum amps). intros. qnra. }
  unfold charge_cc. apply list_ext. intro i. rewrite nth_error_map. unfold cc at 1. fold ref. rewrite nth_error_map.
  destruct (nth_error w i) as [row|] eqn:R.
  - destruct (nth_error amps i) as [A|] eqn:HA; [|apply nth_error_None in HA; assert (nth_error w i <> None) as X by congruence; apply nth_error_Some in X; lia].
    cbn [option_map]. f_equal. rewrite (G i A row) by auto. rewrite PG. ring.
  - apply nth_error_None in R. rewrite (proj2 (nth_error_None amps i)) by lia. reflexivity.
Qed.
Print Assumptions C55_camera.
Theorem C55_linear : forall a b w v weights o, List.length w = List.length v ->
  correlate1d (lincomb a b w v) weights o = lincomb a b (correlate1d w weights o) (correlate1d v weights o).
Proof. exact correlate1d_linear. Qed.
Print Assumptions C55_linear.
Definition pulse0 : list Qc := map qz [0; 2; 5; 3; -1; 0]%Z.
Definition event0 : event := [map (fun v => qz 7 * v) ([0; 0] ++ snd (normalise_pulse pulse0) ++ [0; 0; 0])].
Example C55_ex : this (trapz pulse0) = (9 # 1)%Q /\ map this (charge_cc_local pulse0 event0) = [7 # 1]%Q /\ cc_peak_local pulse0 event0 = [4%nat] /\
  map this (height_cc_local pulse0 event0) = [35 # 9]%Q.
Proof. vmr. Qed.
Example C55_ex_hyp : placed (snd (normalise_pulse pulse0)) (argmax pulse0) (qz 7) 4 11 (nth 0 event0 []).
Proof. split; [reflexivity|]. intros k K. do 11 (destruct k as [|k]; [apply Qc_is_canon; vm_compute; reflexivity|]). lia. Qed.

(** ** C56 *)
Theorem C56_local : forall size (w : event) i row, nth_error w i = Some row -> row <> [] ->
  exists c k, nth_error (charge_sliding_local size w) i = Some c /\ nth_error (sliding_peak_local size w) i = Some k /\
  (k < List.length row)%nat /\ c = window_sum row k size /\ (forall j, (j < List.length row)%nat -> window_sum row j size <= c) /\ (forall j, (j < k)%nat -> window_sum row j size < c).
Proof.
  intros size w i row R N. exists (qmax (window_sums size row)), (argmax (window_sums size row)). unfold charge_sliding_local, sliding_peak_local. rewrite !nth_error_map, R.
  do 2 (split; [reflexivity|]). now apply sliding_spec.
Qed.
Print Assumptions C56_local.
Theorem C56_common : forall size (w : event) n, (0 < n)%nat ->
  let k := sliding_peak size w n in let avg := mean0 w n in
  (k < n)%nat /\ (forall j, (j < n)%nat -> window_sum avg j size <= window_sum avg k size) /\ (forall j, (j < k)%nat -> window_sum avg j size < window_sum avg k size).
Proof.
  intros size w n N k avg. assert (List.length avg = n) as L by apply mean0_length. assert (avg <> []) as NE by (intro Z; rewrite Z in L; cbn in L; lia).
  destruct (sliding_spec size avg NE) as (A & B & C & D). rewrite L in *. unfold k, sliding_peak. fold avg. rewrite B in C, D. auto.
Qed.
Print Assumptions C56_common.
Example C56_ex : map this (charge_sliding_local 3 [map qz [1; 2; 9; 0; 3; 1]%Z; map qz [0; 0; 0; -5; 4; 6]%Z]) = [12 # 1; 10 # 1]%Q /\
  sliding_peak_local 3 [map qz [1; 2; 9; 0; 3; 1]%Z; map qz [0; 0; 0; -5; 4; 6]%Z] = [0; 4]%nat.
Proof. split; vm_compute; reflexivity. Qed.

(** ** C57 *)
Theorem C57_superpixels : forall k n w, (0 < n)%nat ->
  List.length (sp_max (4 * k) n w) = (4 * k)%nat /\ List.length (sp_argmax (4 * k) n w) = (4 * k)%nat /\
  forall p, (p < 4 * k)%nat -> let m := nth p (sp_max (4 * k) n w) 0 in let a := nth p (sp_argmax (4 * k) n w) 0%nat in
    (a < n)%nat /\ m = sp_sum w (p / 4) a /\ (forall j, (j < n)%nat -> sp_sum w (p / 4) j <= m) /\ (forall j, (j < a)%nat -> sp_sum w (p / 4) j < m).
Proof. exact superpixel_spec. Qed.
Print Assumptions C57_superpixels.
Definition sp_event : event := map (map qz) [[1; 2; 3]; [0; 9; 0]; [1; 1; 1]; [0; 0; 4]; [5; 0; 0]; [0; 0; 0]; [0; 0; 5]; [0; 0; 0]]%Z.
Example C57_ex : sp_argmax 8 3 sp_event = [1; 1; 1; 1; 0; 0; 0; 0]%nat /\ map this (sp_max 8 3 sp_event) = [12 # 1; 12 # 1; 12 # 1; 12 # 1; 5 # 1; 5 # 1; 5 # 1; 5 # 1]%Q.
Proof. split; vm_compute; reflexivity. Qed.

(** ** C58: holds for cameras that have all four modules; otherwise refuted. *)
Theorem C58_full_camera : forall w, (64 * 26 < List.length w)%nat ->
  let u := flasher_unit w in let avg i := module_average w (nth i flasher_modules 0%nat) in
  (u = (-1)%Z <-> exists i, (i < 4)%nat /\ avg i < qz 30) /\
  ((forall i, (i < 4)%nat -> qz 30 <= avg i) -> exists i, (i < 4)%nat /\ u = Z.of_nat i /\ (forall j, (j < 4)%nat -> avg j <= avg i) /\ (forall j, (j < i)%nat -> avg j < avg i)).
Proof. exact flasher_full. Qed.
Print Assumptions C58_full_camera.
(** A camera with fewer than six modules (for instance one) is always reported as flashed by unit 0. *)
Theorem C58_refuted : forall w, (List.length w <= 64 * 5)%nat -> flasher_unit w = 0%Z.
Proof. exact flasher_small. Qed.
Print Assumptions C58_refuted.
Definition flash (a b c d : Z) : event := map (fun p => [qz (match (p / 64)%nat with 5%nat => a | 23%nat => b | 8%nat => c | 26%nat => d | _ => 100%Z end)]) (seq 0 2048).
Example C58_ex : flasher_unit (flash 40 35 60 31) = 2%Z /\ flasher_unit (flash 40 29 60 31) = (-1)%Z /\ flasher_unit (repeat [qz 0] 64) = 0%Z.
Proof. vmr. Qed.

(** ** C59: one pixel; search window inside the readout. *)
Theorem C59_peak : forall junk w s e, (1 <= s)%Z -> (s < e)%Z -> (e < Z.of_nat (List.length w))%Z ->
  exists p, (Z.to_nat s <= p < Z.to_nat e)%nat /\ (forall j, (Z.to_nat s <= j < Z.to_nat e)%nat -> nth j w 0 <= nth p w 0) /\ (forall j, (Z.to_nat s <= j < p)%nat -> nth j w 0 < nth p w 0) /\
  let y0 := nth (p - 1) w 0 in let y1 := nth p w 0 in let y2 := nth (p + 1) w 0 in
  (y0 < y1 -> y2 < y1 ->
   (forall r, pulse_timing junk w s e = Ok r -> vertex (qn p) y0 y1 y2 (p_t r) /\ qn p - half < p_t r /\ p_t r < qn p + half /\ y1 <= baseline w + p_h r) /\
   (let h := y1 - half * half * (y0 - y2) * (half * (y0 - y2) / (y0 - qz 2 * y1 + y2)) - baseline w in
    0 <= h -> baseline w + qz 9 / qz 10 * h < y1 -> exists r, pulse_timing junk w s e = Ok r)).
Proof.
  intros junk w s e A B C. destruct (pyslice_argmax w s e) as (NE & P & Q & R); try lia. cbv zeta in P, Q, R.
  exists (argmax (pyslice w (Some s) (Some e)) + Z.to_nat s)%nat. repeat split; auto; try tauto.
  all: rewrite pulse_timing_at in *; destruct (pyslice w (Some s) (Some e)) as [|x win] eqn:E; [congruence|].
  all: replace (Z.of_nat (argmax (x :: win)) + s)%Z with (Z.of_nat (argmax (x :: win) + Z.to_nat s)) in * by lia.
  all: destruct (timing_local_max junk w (argmax (x :: win) + Z.to_nat s)) as [T1 T2]; try lia; auto.
  all: try (destruct (T1 r) as (_ & _ & ? & _ & ? & ? & ?); auto).
Qed.
Print Assumptions C59_peak.
Theorem C59_fwhm : forall junk w s e r f, pulse_timing junk w s e = Ok r -> p_fwhm r = Some f -> 0 <= f.
Proof.
  intros junk w s e r f E F. rewrite pulse_timing_at in E. destruct (pyslice w (Some s) (Some e)); [discriminate|]. now apply (timing_fwhm _ _ _ _ _ E).
Qed.
Print Assumptions C59_fwhm.
Theorem C59_rise : forall junk w s e r v, pulse_timing junk w s e = Ok r -> p_rise r = Some v -> 0 <= p_h r ->
  baseline w + qz 9 / qz 10 * p_h r <= samples junk w (qround (p_t r)) -> 0 <= v.
Proof.
  intros junk w s e r v E F. rewrite pulse_timing_at in E. destruct (pyslice w (Some s) (Some e)); [discriminate|]. now apply (timing_rise _ _ _ _ _ E).
Qed.
Print Assumptions C59_rise.
Definition wf0 : list Qc := map qz [0; 0; 0; 0; 0; 0; 0; 0; 0; 0; 0; 2; 8; 16; 10; 4; 0; 0; 0; 0]%Z.
Definition show (r : res pulse) : option (Q * Q * option Q * option Q) :=
  match r with Ok r => Some (this (p_t r), this (p_h r), option_map this (p_fwhm r), option_map this (p_rise r)) | Raise _ => None end.
Example C59_ex : show (pulse_timing 0 wf0 9 17) = Some (183 # 14, 449 # 28, Some (149 # 64), Some (897 # 448))%Q.
Proof. vm_compute. reflexivity. Qed.
(** Without the last hypothesis of C59_rise the rise time can be negative. *)
Example C59_ex_negative : show (pulse_timing 0 (map qz [6; 2; 7; 4; 5; 3; 4; 3; 0; 6; 5; 6; 3; 4]%Z) 5 13) = Some (131 # 14, 137 # 56, Some (29 # 32), Some (-16481 # 2400))%Q.
Proof. vm_compute. reflexivity. Qed.
(** A waveform whose timing raises (losing the event). *)
Example C59_ex_raises : pulse_timing 0 (map qz [0; 8; 10; 0; 8; 4; 5; 0; 0; 0; 4; 8; 8; 0]%Z) 5 13 = Raise ZeroDivisionError.
Proof. vm_compute. reflexivity. Qed.

(** ** C70 *)
Theorem C70_default : forall shift w n, (20 <= n)%nat -> Forall (fun row => List.length row = n) w -> (0 <= shift <= 10)%Z ->
  let start := Z.to_nat (Z.min (Z.of_nat n - 10) (Z.max 10 (Z.of_nat (argmax (mean0 w n)))) - shift) in
  saturation_sum None shift w n = map (fun row => window_sum row start (n - start)) w.
Proof.
  intros shift w n L F S. cbv zeta. destruct (event_time_range w n L) as [R E]. cbv zeta in E. rewrite <- E.
  apply (saturation_window None); auto. cbn [extraction_time]. lia.
Qed.
Print Assumptions C70_default.
(** In the chain the reducer's arguments include the column switches, among them t_event, which is read as a time. *)
Theorem C70_chain_refuted : forall (t_event_switch : bool) w n, (4 <= n)%nat -> Forall (fun row => List.length row = n) w ->
  let k := if t_event_switch then 3%nat else 4%nat in
  saturation_sum (Some (if t_event_switch then 1 else 0)%Z) 4 w n = map (fun row => window_sum row (n - k) k) w.
Proof. intros b w n L F. cbv zeta. rewrite (saturation_switch b 4 w n F) by lia. now destruct b. Qed.
Print Assumptions C70_chain_refuted.
Example C70_ex : map this (saturation_sum None 4 [ramp 24 0 1] 24) = [231 # 1]%Q /\ map this (saturation_sum (Some 1%Z) 4 [ramp 24 0 1] 24) = [66 # 1]%Q.
Proof. split; vm_compute; reflexivity. Qed.

(** ** C71 *)
Theorem C71_shift : forall (row : list Qc) c, row <> [] -> let shifted := map (fun x => x + c) row in
  qmean shifted = qmean row + c /\ qvar shifted = qvar row /\ qmax shifted = qmax row + c.
Proof.
  intros row c N shifted. assert (qn (List.length row) <> 0) as N0.
  { intro Z. assert (0 < qn (List.length row)) as P by (apply qn_pos; destruct row; [congruence|cbn; lia]). rewrite Z in P. now apply Qclt_not_eq in P. }
  assert (qmean shifted = qmean row + c) as M.
  { unfold qmean, shifted. rewrite map_length. rewrite (qsum_map_plus _ (fun x => x) (fun _ => c)), map_id, qsum_const. field. auto. }
  split; auto. split.
  - unfold qvar. rewrite M. unfold shifted. rewrite map_map. f_equal. apply map_ext. intro x. ring.
  - apply qmax_unique.
    + destruct (qmax_spec row N) as [(k & K & ->) _]. exists k. unfold shifted. rewrite map_length. split; auto.
      rewrite (nth_of_error _ (map _ _) _ 0), nth_error_map, (nth_error_nth' row 0) by auto. reflexivity.
    + intros k K. unfold shifted in *. rewrite map_length in K. rewrite (nth_of_error _ (map _ _) _ 0), nth_error_map, (nth_error_nth' row 0) by auto. cbn [option_map].
      destruct (qmax_spec row N) as [_ H]. specialize (H k K). qlra.
Qed.
Print Assumptions C71_shift.
Theorem C71_bounds : forall row, row <> [] -> 0 <= qvar row /\ qmean row <= qmax row /\ (forall lo, (forall x, In x row -> lo <= x) -> lo <= qmean row).
Proof.
  intros row N. assert (0 < qn (List.length row)) as P by (apply qn_pos; destruct row; [congruence|cbn; lia]).
  assert (qn (List.length row) <> 0) as N0 by (intro Z; rewrite Z in P; now apply Qclt_not_eq in P).
  split; [|split].
  - unfold qvar, qmean at 1. rewrite map_length. apply qdiv_nonneg; auto. apply qsum_nonneg. intros x X. apply in_map_iff in X as (y & <- & _). qnra.
  - unfold qmean. assert (qsum (map (fun x => x) row) <= qsum (map (fun _ => qmax row) row)) as H.
    { apply qsum_le. intros x X. apply In_nth_error in X as [i I]. destruct (qmax_spec row N) as [_ H]. rewrite <- (nth_error_nth _ _ 0 I). apply H. apply nth_error_Some. congruence. }
    rewrite map_id, qsum_const in H. replace (qmax row) with (qn (List.length row) * qmax row / qn (List.length row)) by (field; auto). now apply qdiv_le.
  - intros lo H. unfold qmean. assert (qsum (map (fun _ => lo) row) <= qsum (map (fun x => x) row)) as H' by now apply qsum_le.
    rewrite map_id, qsum_const in H'. replace lo with (qn (List.length row) * lo / qn (List.length row)) by (field; auto). now apply qdiv_le.
Qed.
Print Assumptions C71_bounds.
(** The windows of the baseline columns: the first and the last 20 samples. *)
Theorem C71_windows : forall w n i row, (20 <= n)%nat -> nth_error w i = Some row -> List.length row = n ->
  let first20 := map (fun k => nth k row 0) (seq 0 20) in let last20 := map (fun k => nth (n - 20 + k) row 0) (seq 0 20) in
  nth_error (baseline_start_mean w) i = Some (qmean first20) /\ nth_error (baseline_start_var w) i = Some (qvar first20) /\
  nth_error (baseline_end_mean w) i = Some (qmean last20) /\ nth_error (baseline_end_var w) i = Some (qvar last20) /\
  nth_error (waveform_mean w) i = Some (qmean row) /\ nth_error (waveform_var w) i = Some (qvar row) /\ nth_error (waveform_max w) i = Some (qmax row).
Proof.
  intros w n i row L R LR first20 last20.
  assert (pyslice row (Some 0%Z) (Some 20%Z) = first20) as E1 by (change 20%Z with (0 + 20)%Z; rewrite pyslice_window by lia; reflexivity).
  assert (pyslice row (Some (-20)%Z) None = last20) as E2.
  { change (-20)%Z with (- Z.of_nat 20)%Z. rewrite pyslice_neg_from by lia. rewrite LR. apply list_ext. intro j. unfold last20. rewrite nth_error_map_seq, nth_error_skipn.
    destruct (Nat.ltb_spec j 20); [apply nth_error_nth'; lia|apply nth_error_None; lia]. }
  unfold baseline_start_mean, baseline_start_var, baseline_end_mean, baseline_end_var, waveform_mean, waveform_var, waveform_max.
  rewrite !nth_error_map, R. cbn [option_map]. rewrite E1, E2. tauto.
Qed.
Print Assumptions C71_windows.
Example C71_ex : map this (baseline_start_mean [ramp 30 0 1]) = [19 # 2]%Q /\ map this (baseline_end_mean [ramp 30 0 1]) = [39 # 2]%Q /\ map this (baseline_end_var [ramp 30 0 1]) = [133 # 4]%Q.
Proof. vmr. Qed.
