(** Model of amplitude_calibrator.py and illumination_profile.py of CHECLabPy/calib in double precision.  Definitions only.

    Every operation is rounded to double precision (also for values or images in single precision: the coefficients and the
    profile are double).  Simplifications: as in Calib/Model.v, no overflow (Base/Fl.v); a conversion or profile of 0, which
    gives infinity or NaN, is excluded in the theorems. *)
From Coq Require Import List ZArith QArith Qcanon.
From Verif.Base Require Import Py Num Fl.
Import ListNotations.
Local Open Scope list_scope.

(** amplitude_calibrator.py:22-40 *)
Definition fl_calibrate (ff pedestal : list Qc) (conversion : Qc) (value : Qc) (pixel : nat) : res Qc :=
  match nth_error pedestal pixel, nth_error ff pixel with
  | Some p, Some f => Ok (fl64 (fl64 (fl64 (value - p) / conversion) * f))%Qc
  | _, _ => Raise IndexError
  end.

(** illumination_profile.py:17-31 *)
Definition fl_unfold (profile image : list Qc) : list Qc := map (fun ip => fl64 (fst ip / snd ip)%Qc) (combine image profile).
(** illumination_profile.py:33-47 *)
Definition fl_fold (profile image : list Qc) : list Qc := map (fun ip => fl64 (fst ip * snd ip)%Qc) (combine image profile).
