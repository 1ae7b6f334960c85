(** Ranges and numbers of bins for which rounding does no harm. *)
From Coq Require Import ZArith QArith Qcanon.
From Verif.Base Require Import Num Fl.
Local Open Scope Qc_scope.

(** The ends of the range are not larger than 2^bits widths of a bin, and neither huge nor too close to each other. *)
Definition fits (bits big : Z) (first last : Qc) (n : nat) : Prop :=
  two (- big) <= last - first /\
  forall v, v = first \/ v = last -> (- two big <= v /\ v <= two big) /\ (- (two bits * (last - first)) <= qn n * v /\ qn n * v <= two bits * (last - first)).
(** In double precision: n <= 2^45 if one of the ends is 0. *)
Definition fits64 : Qc -> Qc -> nat -> Prop := fits 45 500.
(** In single precision: n <= 2^16 if one of the ends is 0. *)
Definition fits32 : Qc -> Qc -> nat -> Prop := fits 16 50.
