(** Properties C41-C43: rolling baseline, shifting, average waveforms.

    [after s evs] is the subtractor once [subtract] has been called on each event of [evs];
    [pedsum ns p e] is the sum of the first [ns] samples of pixel [p] in event [e];
    [rect np n w]: [w] has [np] rows of [n] samples. *)
From Coq Require Import List ZArith QArith Qcanon Bool Arith Lia.
From Verif.Base Require Import Py Num Lst.
From Verif.WfUtils Require Import Model Proofs.
Import ListNotations.
Local Open Scope list_scope.

(** ** C41 *)
(** After at least n_base calls: the last n_base waveforms. *)
Theorem C41_baseline_last_events : forall n_pixels source n_base n_base_samples evs p,
  (0 < n_base)%nat -> (p < n_pixels)%nat -> (n_base <= List.length evs)%nat ->
  nth p (b_baseline (after (new_subtractor n_pixels source n_base n_base_samples) evs)) 0%Qc =
  (qsum (map (pedsum n_base_samples p) (skipn (List.length evs - n_base) evs)) / qn (n_base * n_base_samples))%Qc.
Proof. exact c41_late. Qed.
Print Assumptions C41_baseline_last_events.

(** Before that: all waveforms so far, and those of the first n_base events of the source whose entry is not yet
    replaced; entries beyond a short source count as zero. *)
Theorem C41_baseline_first_events : forall n_pixels source n_base n_base_samples evs p,
  (0 < n_base)%nat -> (p < n_pixels)%nat -> (0 < List.length evs <= n_base)%nat ->
  nth p (b_baseline (after (new_subtractor n_pixels source n_base n_base_samples) evs)) 0%Qc =
  ((qsum (map (pedsum n_base_samples p) (skipn (List.length evs) (firstn n_base source))) +
    qsum (map (pedsum n_base_samples p) evs)) / qn (n_base * n_base_samples))%Qc.
Proof. exact c41_early. Qed.
Print Assumptions C41_baseline_first_events.

(** Iterating over the source itself, the first n_base baselines are all the mean of its first n_base events. *)
Theorem C41_baseline_same_source : forall n_pixels source n_base n_base_samples k p,
  (0 < n_base)%nat -> (p < n_pixels)%nat -> (0 < k <= n_base)%nat -> (k <= List.length source)%nat ->
  nth p (b_baseline (after (new_subtractor n_pixels source n_base n_base_samples) (firstn k source))) 0%Qc =
  (qsum (map (pedsum n_base_samples p) (firstn n_base source)) / qn (n_base * n_base_samples))%Qc.
Proof. exact c41_same_source. Qed.
Print Assumptions C41_baseline_same_source.

(** The value returned by the call on [w], after any earlier calls: the waveforms minus the baseline that includes [w]. *)
Theorem C41_subtract : forall n_pixels n_samples source n_base n_base_samples evs w p j,
  rect n_pixels n_samples w -> (p < n_pixels)%nat -> (j < n_samples)%nat ->
  let s := after (new_subtractor n_pixels source n_base n_base_samples) evs in
  let '(s', out) := subtract s w in
  s' = after (new_subtractor n_pixels source n_base n_base_samples) (evs ++ [w]) /\
  nth j (nth p out []) 0%Qc = (nth j (nth p w []) 0 - nth p (b_baseline s') 0)%Qc.
Proof.
  intros np n src nb ns evs w p j R P J s. destruct (subtract s w) as [s' out] eqn:E.
  assert (s' = after (new_subtractor np src nb ns) (evs ++ [w])) as ES by (rewrite <- subtract_after; fold s; now rewrite E).
  split; auto. assert (out = minus_baseline w (b_baseline (fst (subtract s w)))) as -> by (transitivity (snd (subtract s w)); [now rewrite E|reflexivity]).
  rewrite E. cbn [fst]. apply (minus_baseline_nth w _ np n); auto.
  rewrite ES. apply baseline_length. cbn. now rewrite map_length, seq_length.
Qed.
Print Assumptions C41_subtract.

Definition ev (a b : Z) : event := [[qz a; qz b; qz 9]].
(** n_base 2, 1 baseline sample: after 3 calls the baseline is (3 + 5)/2. *)
Example C41_ex : map this (b_baseline (after (new_subtractor 1 [ev 1 0; ev 3 0; ev 5 0] 2 1) [ev 1 0; ev 3 0; ev 5 0])) = [4 # 1]%Q.
Proof. vm_compute. reflexivity. Qed.
(** A source with one event and n_base 2: the missing entry counts as zero, (4 + 0)/2. *)
Example C41_ex_short : map this (b_baseline (after (new_subtractor 1 [ev 4 0] 2 1) [ev 4 0])) = [2 # 1]%Q.
Proof. vm_compute. reflexivity. Qed.

(** ** C42 *)
(** Whatever the uninitialised array held. *)
Theorem C42_shift_array : forall (A : Type) (junk arr : list (list A)) k fill n p j,
  List.length junk = List.length arr -> Forall (fun r => List.length r = n) junk -> Forall (fun r => List.length r = n) arr ->
  (p < List.length arr)%nat -> (j < n)%nat ->
  nth j (nth p (shift_array junk arr k fill) []) fill =
  if ((0 <=? Z.of_nat j - k) && (Z.of_nat j - k <? Z.of_nat n))%Z
  then nth (Z.to_nat (Z.of_nat j - k)) (nth p arr []) fill else fill.
Proof.
  intros A junk arr k fill n p j L FJ FA P J. rewrite (shift_array_spec _ _ _ _ _ n) by auto.
  rewrite nth_of_error with (i := p), nth_error_map, nth_error_nth' with (d := []) by auto. cbn [option_map].
  rewrite nth_map_seq by auto. unfold shifted. rewrite Forall_forall in FA. rewrite (FA (nth p arr [])) by (now apply nth_In). reflexivity.
Qed.
Print Assumptions C42_shift_array.

Theorem C42_shift_array_shape : forall (A : Type) (junk arr : list (list A)) k fill n,
  List.length junk = List.length arr -> Forall (fun r => List.length r = n) junk -> Forall (fun r => List.length r = n) arr ->
  List.length (shift_array junk arr k fill) = List.length arr /\
  Forall (fun r => List.length r = n) (shift_array junk arr k fill).
Proof.
  intros A junk arr k fill n L FJ FA. rewrite (shift_array_spec _ _ _ _ _ n) by auto. split; [now rewrite map_length|].
  rewrite Forall_map, Forall_forall. intros. now rewrite map_length, seq_length.
Qed.
Print Assumptions C42_shift_array_shape.

Theorem C42_shift_waveform : forall junk w n_pixels n t_shift fill,
  (0 < n_pixels)%nat -> rect n_pixels n w -> rect n_pixels n junk -> (0 <= t_shift < Z.of_nat n)%Z ->
  (fill < nth (argmax (mean0 w n)) (mean0 w n) 0)%Qc ->
  let average := mean0 (shift_waveform junk w n t_shift fill) n in
  argmax average = Z.to_nat t_shift /\
  nth (Z.to_nat t_shift) average 0%Qc = nth (argmax (mean0 w n)) (mean0 w n) 0%Qc.
Proof. exact shift_waveform_peak. Qed.
Print Assumptions C42_shift_waveform.

Example C42_ex : shift_array [[7; 7; 7]]%nat [[1; 2; 3]]%nat (-1) 0%nat = [[2; 3; 0]]%nat /\
  shift_array [[7; 7; 7]]%nat [[1; 2; 3]]%nat 2 0%nat = [[0; 0; 1]]%nat /\
  shift_array [[7; 7; 7]]%nat [[1; 2; 3]]%nat 5 0%nat = [[0; 0; 0]]%nat /\
  shift_array [[7; 7; 7]]%nat [[1; 2; 3]]%nat (-3) 0%nat = [[0; 0; 0]]%nat.
Proof. vm_compute. repeat split. Qed.
(** The fill value must be below the maximum: otherwise the fill becomes the peak (here peak at sample 1 moved to
    sample 2, fill 0 above the waveform's maximum -1, so the new maximum is sample 0). *)
Example C42_ex_fill : let w := [[qz (-3); qz (-1); qz (-2)]] in
  argmax (mean0 (shift_waveform w w 3 2 0%Qc) 3) = 0%nat.
Proof. vm_compute. reflexivity. Qed.

(** ** C43 *)
(** [spec_shifted np n src t i p j]: sample [j] of pixel [p] in event [i] of [src] minus its rolling baseline (50 events, 16
    samples), moved so that the maximum of the event's average lies at [t] (zero where nothing was moved in). *)
Theorem C43_average : forall n_pixels n_samples source t junk,
  Forall (rect n_pixels n_samples) source -> (forall i, rect n_pixels n_samples (junk i)) ->
  forall j, (j < n_samples)%nat -> nth j (get_average_wf junk n_pixels n_samples source t) 0%Qc =
  (qsum (map (fun i => qsum (map (fun p => spec_shifted n_pixels n_samples source t i p j) (seq 0 n_pixels)) / qn n_pixels)
         (seq 0 (List.length source))) / qn (List.length source))%Qc.
Proof. exact c43_avg. Qed.
Print Assumptions C43_average.

Theorem C43_average_per_pixel : forall n_pixels n_samples source t junk,
  Forall (rect n_pixels n_samples) source -> (forall i, rect n_pixels n_samples (junk i)) ->
  forall p j, (p < n_pixels)%nat -> (j < n_samples)%nat -> nth j (nth p (get_average_wf_per_pixel junk n_pixels n_samples source t) []) 0%Qc =
  (qsum (map (fun i => spec_shifted n_pixels n_samples source t i p j) (seq 0 (List.length source))) / qn (List.length source))%Qc.
Proof. exact c43_pix. Qed.
Print Assumptions C43_average_per_pixel.

Theorem C43_average_is_pixel_mean : forall n_pixels n_samples source t junk,
  Forall (rect n_pixels n_samples) source -> (forall i, rect n_pixels n_samples (junk i)) ->
  forall j, (j < n_samples)%nat -> nth j (get_average_wf junk n_pixels n_samples source t) 0%Qc =
  (qsum (map (fun p => nth j (nth p (get_average_wf_per_pixel junk n_pixels n_samples source t) []) 0) (seq 0 n_pixels)) / qn n_pixels)%Qc.
Proof. exact c43_rel. Qed.
Print Assumptions C43_average_is_pixel_mean.

(** Two events of two pixels, pulses at samples 17 and 18 on a zero pedestal, moved to sample 16. *)
Definition pulse (at_ amp : nat) : list Qc := map (fun i => if Nat.eqb i at_ then qn amp else 0%Qc) (seq 0 20).
Example C43_ex : let src := [[pulse 17 4; pulse 17 2]; [pulse 18 6; pulse 18 8]] in
  let junk := fun _ : nat => [pulse 3 1; pulse 4 1] in
  map this (get_average_wf junk 2 20 src 16) = map this (map (fun i => if Nat.eqb i 16 then qz 5 else 0%Qc) (seq 0 20)) /\
  map (map this) (get_average_wf_per_pixel junk 2 20 src 16) = [map this (pulse 16 5); map this (pulse 16 5)].
Proof. vm_compute. split; reflexivity. Qed.
