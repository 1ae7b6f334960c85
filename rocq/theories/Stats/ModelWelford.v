(** Model of CHECLabPy/stats/welfords.py over exact rationals.  Definitions only. *)
From Coq Require Import QArith Qcanon List.
From Verif.Base Require Import Num.
Import ListNotations.
Local Open Scope Qc_scope.

(** welfords_online_algorithm (welfords.py:29-34); the count is an integer. *)
Definition welford (sample : Qc) (st : Qc * nat * Qc) : Qc * nat * Qc :=
  let '(mean, count, m2) := st in
  let delta := sample - mean in
  let count := S count in
  let mean := mean + delta / qn count in
  let delta2 := sample - mean in
  let m2 := m2 + delta * delta2 in
  (mean, count, m2).
(** Samples added one after the other. *)
Definition welford_all (samples : list Qc) (st : Qc * nat * Qc) : Qc * nat * Qc := fold_left (fun s x => welford x s) samples st.
