(** The arithmetic of np.histogram in double and in single precision.  Definitions only. *)
From Coq Require Import List ZArith QArith Qcanon Bool.
From Verif.Base Require Import Num Fl.
From Verif.Spectrum Require Import Model.
Import ListNotations.
Local Open Scope list_scope.
Local Open Scope Qc_scope.

(** np.linspace(first, last, n + 1) in double precision (numpy/core/function_base.py): arange(0, n + 1) * step + first, the
    last one set to last. *)
Definition linspace64 (first last : Qc) (n : Z) : list Qc :=
  let delta := fl64 (last - first) in
  let step := fl64 (delta / qz n) in
  let y k := if qeqb step 0 then fl64 (fl64 (k / qz n) * delta) else fl64 (k * step) in
  map (fun k => fl64 (y (qn k) + first)) (seq 0 (Z.to_nat n)) ++ [last].
(** norm = n / (last - first), numbers of Python. *)
Definition norm64 (first last : Qc) (n : Z) : Qc := fl64 (qz n / fl64 (last - first)).
(** A float64 array of charges (spectrum_fitter.py:272-278). *)
Definition double : arith :=
  Arith (fun first last n x => qtrunc (fl64 (fl64 (x - first) * norm64 first last n))) linspace64 fl32.
(** A float32 array of charges, as read from a DL1 file (extract_dl1.py:17-22 stores float32): the edges are computed in
    double precision and rounded, the index is computed in single precision. *)
Definition single : arith :=
  Arith (fun first last n x => qtrunc (fl32 (fl32 (x - fl32 first) * fl32 (norm64 first last n))))
        (fun first last n => map fl32 (linspace64 first last n)) fl32.
