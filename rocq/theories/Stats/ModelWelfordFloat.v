(** Model of CHECLabPy/stats/welfords.py in double precision.  Definitions only.

    The function is compiled with fastmath=True (welfords.py:4), which leaves the compiler free to replace x / n by x * (1 / n),
    to fuse a product with the sum that follows it, and to take sample - (mean + q) as (sample - mean) - q.  A [way] is one
    choice of these liberties; every call may be compiled in any way.

    Simplifications:
    - no overflow and no NaN (with fastmath the result is undefined then): [fl64] has no largest exponent;
    - the caller passes doubles; the count is an integer of any size, converted to a double for the division. *)
From Coq Require Import QArith Qcanon List.
From Verif.Base Require Import Num Fl.
Import ListNotations.
Local Open Scope Qc_scope.

(** How the second difference is obtained: from the new mean as written, from the rounded step of the mean, or from the product
    fused into the difference. *)
Inductive second := FromMean | FromStep | Fused.
Record way := { reciprocal : bool; fuse_mean : bool; second_way : second; fuse_m2 : bool }.
(** As written: welfords.py:29-33 with IEEE arithmetic. *)
Definition written : way := {| reciprocal := false; fuse_mean := false; second_way := FromMean; fuse_m2 := false |}.

(** welfords_online_algorithm (welfords.py:29-34). *)
Definition fwelford (w : way) (sample : Qc) (st : Qc * nat * Qc) : Qc * nat * Qc :=
  let '(mean, count, m2) := st in
  let delta := fl64 (sample - mean) in
  let count := S count in
  let n := fl64 (qn count) in
  let r := fl64 (1 / n) in
  let q := if reciprocal w then fl64 (delta * r) else fl64 (delta / n) in
  let mean := if fuse_mean w then fl64 (mean + delta * r) else fl64 (mean + q) in
  let delta2 := match second_way w with
                | FromMean => fl64 (sample - mean)
                | FromStep => fl64 (delta - q)
                | Fused => fl64 (delta - delta * r)
                end in
  let m2 := if fuse_m2 w then fl64 (m2 + delta * delta2) else fl64 (m2 + fl64 (delta * delta2)) in
  (mean, count, m2).
(** Samples added one after the other, each in its own way. *)
Definition fwelford_all (samples : list (way * Qc)) (st : Qc * nat * Qc) : Qc * nat * Qc := fold_left (fun s e => fwelford (fst e) (snd e) s) samples st.
