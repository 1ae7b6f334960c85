(** Model of the neighbour variants: CrossCorrelationNeighbour (waveform_reducers/cross_correlation.py:165-220) and SlidingWindowNeighbour
    (sliding_window.py:87-134), and of the charge of SlidingWindow (sliding_window.py:50-57).

    From ctapipe, by their documented meaning: neighbor_average_waveform(w, neighbors, 0) is for each pixel the mean of the
    waveforms of its neighbours (weight 0 for the pixel itself; 0/0, NaN, without neighbours); sum_samples_around_peak(w, i, width, 0) is the
    sum of the samples i, ..., i + width - 1 that exist.  The neighbours of each pixel (CameraGeometry) are an argument.  Numbers are exact. *)
From Coq Require Import List ZArith QArith Qcanon Bool Arith.
From Verif.Base Require Import Py Num.
From Verif.WfUtils Require Import Model.
From Verif.Reducers Require Import Model.
Import ListNotations.
Local Open Scope list_scope.

(** One pixel, with neighbours [ns]. *)
Definition neighbour_average (rows : event) (ns : list nat) (n_samples : nat) : list (option Qc) :=
  map (fun j => average (map (fun k => nth j (nth k rows []) 0%Qc) ns)) (seq 0 n_samples).
(** cross_correlation.py:196-198 *)
Definition cc_index_nn (y : list Qc) (w : event) (ns : list nat) (n_samples : nat) : nat := argmax_nan (neighbour_average (cc y w) ns n_samples).
(** cross_correlation.py:199, 201-207, 209-214, 216-222, for all pixels *)
Definition charge_cc_nn (y : list Qc) (neighbours : list (list nat)) (w : event) (n_samples : nat) : list Qc :=
  map (fun p => nth (cc_index_nn y w (snd p) n_samples) (fst p) 0%Qc) (combine (cc y w) neighbours).
Definition t_cc_nn (y : list Qc) (junk : option Qc) (neighbours : list (list nat)) (w : event) (n_samples : nat) : list Qc :=
  map (fun p => extract_pulse_time (fst p) junk (Z.of_nat (cc_index_nn y w (snd p) n_samples))) (combine (cc y w) neighbours).
Definition height_cc_nn (y : list Qc) (neighbours : list (list nat)) (w : event) (n_samples : nat) : list Qc :=
  map (get_pulse_height (snd (normalise_pulse y))) (charge_cc_nn y neighbours w n_samples).

(** Sums of all windows of a waveform; a NaN average is NaN in every sample. *)
Definition window_sums_nan (window_size : nat) (avg : list (option Qc)) : list (option Qc) :=
  if forallb (fun o => match o with Some _ => true | None => false end) avg
  then map Some (window_sums window_size (map (fun o => match o with Some x => x | None => 0%Qc end) avg))
  else map (fun _ => None) avg.
(** sliding_window.py:109-114 *)
Definition sliding_index_nn (window_size : nat) (w : event) (ns : list nat) (n_samples : nat) : nat := argmax_nan (window_sums_nan window_size (neighbour_average w ns n_samples)).
Definition sum_from (row : list Qc) (start size : nat) : Qc := qsum (firstn size (skipn start row)).
(** sliding_window.py:125-134 *)
Definition charge_sliding_nn (window_size : nat) (neighbours : list (list nat)) (w : event) (n_samples : nat) : list Qc :=
  map (fun p => sum_from (fst p) (sliding_index_nn window_size w (snd p) n_samples) window_size) (combine w neighbours).
(** sliding_window.py:50-57 *)
Definition charge_sliding (window_size : nat) (w : event) (n_samples : nat) : list Qc :=
  map (fun row => sum_from row (sliding_peak window_size w n_samples) window_size) w.
