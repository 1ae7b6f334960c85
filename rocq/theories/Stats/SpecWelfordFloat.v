(** Vocabulary of the statements about Welford's algorithm in double precision.  Definitions only. *)
From Coq Require Import ZArith QArith Qcanon List.
From Verif.Base Require Import Num Fl.
Local Open Scope Qc_scope.

(** A number of the type double. *)
Definition is_double (x : Qc) : Prop := fl64 x = x.
(** Half of the distance from 1 to the next double, and half of the smallest positive one. *)
Definition eps : Qc := two (-53).
Definition tau : Qc := two (-1075).
Definition within (bound a b : Qc) : Prop := - bound <= a - b <= bound.
(** Bound of the error of the mean of n samples in an interval of width D, of sizes at most B. *)
Definition mean_bound (n : nat) (D B : Qc) : Qc := qz 4 * eps * D + (qn n + 1) / qz 2 * (eps * B + qz 2 * tau).
(** Bound of the error of the sum of squared deviations. *)
Definition squares_bound (n : nat) (D B : Qc) : Qc :=
  qz 2 * qn n * (qz 3 * D * (mean_bound n D B + qz 5 * eps * D + tau) + (qn n + qz 2) * eps * D * D + qz 2 * tau).
