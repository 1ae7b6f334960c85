(** Charge extraction with its arithmetic in double precision.

    extract_dl1 hands doubles to the reducers (BaselineSubtractor.subtract subtracts a double array).  Additions may happen in
    any order ([Base/FlSum]), so the results are relations.  [reference] is the reference pulse as the reducer holds it
    (C84, C85 say how it is loaded).  scipy's short cut for symmetric kernels of odd length (adding two samples before
    multiplying) is left out, as are NaN and overflow. *)
From Coq Require Import List ZArith QArith Qcanon Bool Arith.
From Verif.Base Require Import Py Num Fl FlSum.
From Verif.WfUtils Require Import Model.
From Verif.Reducers Require Import Model.
Import ListNotations.

(** The sum of products: every product and every addition is rounded. *)
Definition dot_to (rnd : Qc -> Qc) (l : list (Qc * Qc)) (v : Qc) : Prop := sums_to rnd (map (fun xy => rnd (fst xy * snd xy)%Qc) l) v.
(** scipy.ndimage.correlate1d(row, weights, mode='constant', origin=origin): the factors of sample [i], and the whole result. *)
Definition taps (row weights : list Qc) (origin : Z) (i : nat) : list (Qc * Qc) :=
  let size := List.length weights in
  map (fun j => (nth j weights 0%Qc, get0 row (Z.of_nat i + Z.of_nat j - Z.of_nat (size / 2) - origin))) (seq 0 size).
Definition fl_correlate (row weights : list Qc) (origin : Z) (out : list Qc) : Prop :=
  List.length out = List.length row /\ forall i, (i < List.length row)%nat -> dot_to fl64 (taps row weights origin i) (nth i out 0%Qc).
(** np.mean(a, axis=0) *)
Definition fl_mean0 (w : event) (n_samples : nat) (m : list Qc) : Prop :=
  List.length m = n_samples /\ forall k, (k < n_samples)%nat -> mean_to fl64 (map (fun row => nth k row 0%Qc) w) (nth k m 0%Qc).
(** cross_correlation.py:94-97, 134-137 *)
Definition fl_cc (reference : list Qc) (w c : event) : Prop := Forall2 (fun row => fl_correlate row reference (cc_origin reference)) w c.
(** cross_correlation.py:92-99: the peak of the average over the pixels; the charges there. *)
Definition fl_charge_cc (reference : list Qc) (w : event) (n_samples : nat) (peak : nat) (charge : list Qc) : Prop :=
  exists c m, fl_cc reference w c /\ fl_mean0 c n_samples m /\ peak = argmax m /\ charge = map (fun row => nth peak row 0%Qc) c.
(** cross_correlation.py:132-140 *)
Definition fl_charge_cc_local (reference : list Qc) (w : event) (charge : list Qc) : Prop :=
  exists c, fl_cc reference w c /\ charge = map (fun row => nth (argmax row) row 0%Qc) c.
(** sliding_window.py:63-67, 79-84 *)
Definition fl_charge_sliding_local (window_size : nat) (w : event) (charge : list Qc) : Prop :=
  exists c, Forall2 (fun row => fl_correlate row (repeat 1%Qc window_size) (- Z.of_nat (window_size / 2))) w c /\ charge = map qmax c.
(** average_wf.py:15-47 *)
Definition fl_charge_averagewf (window_size window_shift : Z) (w : event) (n_samples : nat) (t : Z) (charge : list Qc) : Prop :=
  (exists m, fl_mean0 w n_samples m /\
    t = (let t := Z.of_nat (argmax m) in let n := Z.of_nat n_samples in if (t <? 10)%Z then 10%Z else if (n - 10 <? t)%Z then (n - 10)%Z else t)) /\
  Forall2 (fun row => sums_to fl64 (pyslice row (Some (t - window_shift)%Z) (Some (t - window_shift + window_size)%Z))) w charge.
(** common.py:9-42 *)
Definition fl_mean_column (a b : option Z) (w : event) (col : list Qc) : Prop := Forall2 (fun row => mean_to fl64 (pyslice row a b)) w col.
