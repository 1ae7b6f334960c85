(** Model of the limit curves in CHECLabPy/plotting/resolutions.py, over the reals.  None is NaN.  Definitions only. *)
From Coq Require Import Reals.
Local Open Scope R_scope.

(** plotting/resolutions.py:76-97, for a charge different from zero *)
Definition limit_curves (npe n_nsb n_add enf sigma2 : R) : R := sqrt (n_nsb + n_add + enf ^ 2 * npe + (sigma2 * npe) ^ 2) / npe.
(** requirement[true > defined_npe] = np.nan *)
Definition defined (limit npe : R) (v : R) : option R := if Rlt_dec limit npe then None else Some v.
(** plotting/resolutions.py:99-119 *)
Definition requirement (npe : R) : option R := defined 1000 npe (limit_curves npe (sqrt (4 + 3)) 0 (12 / 10) (1 / 10)).
(** plotting/resolutions.py:121-141 *)
Definition goal (npe : R) : option R := defined 2000 npe (limit_curves npe 2 0 (11152 / 10000) (5 / 100)).
(** plotting/resolutions.py:143-154 *)
Definition poisson_limit (npe : R) : R := sqrt npe / npe.
