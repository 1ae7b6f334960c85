(** Standard deviations of the Common reducer in double precision.  Definitions only.

    np.std of numpy/core/_methods.py (_var, _std): the mean, the deviations from it, their squares, the sum of the squares divided
    by the number of samples, the root; every operation is rounded and sums are taken in any order ([Base/FlSum]).
    [None]: NaN.  Simplification: no overflow. *)
From Coq Require Import List ZArith QArith Qcanon Reals.
From Verif.Base Require Import Py Num Fl FlFacts FlSum.
From Verif.WfUtils Require Import Model.
From Verif.Reducers Require Import Model.
From Verif.Resol Require Import ModelFloat.
Import ListNotations.

Definition fl_square (mean x : Qc) : Qc := let y := fl64 (x - mean)%Qc in fl64 (y * y)%Qc.
Definition fl_std (l : list Qc) (result : option R) : Prop :=
  exists m s, mean_to fl64 l m /\ sums_to fl64 (map (fl_square m) l) s /\ result = fl_sqrt (fl64 (s / qn (List.length l))%Qc).
(** common.py:16-21, 30-35, 44-49: bounds (0, 20), (-20, end), (start, end) *)
Definition fl_std_column (a b : option Z) (w : event) (col : list (option R)) : Prop := Forall2 (fun row => fl_std (pyslice row a b)) w col.
