(** Model of CHECLabPy/waveform_reducers/saturation.py (exact arithmetic). *)
From Coq Require Import List ZArith QArith Qcanon String Bool Arith.
From Verif.Base Require Import Py Num.
From Verif.Chain Require Import Model.
Import ListNotations.
Local Open Scope string_scope.
Local Open Scope list_scope.
Local Open Scope py_scope.

(** Arithmetic value of a keyword argument: booleans are integers. *)
Definition as_int (v : val) : res Z :=
  match v with
  | VInt z => Ok z
  | VBool b => Ok (if b then 1%Z else 0%Z)
  | _ => Raise TypeError
  end.

(** saturation.py:24, [np.mean(self.waveforms, axis=0)] *)
Definition mean_axis0 (wfs : list (list Qc)) (n : nat) : list Qc :=
  map (fun j => qmean (map (fun w => nth j w 0%Qc) wfs)) (seq 0 n).

(** saturation.py:25-30 *)
Definition clamped_peak (wfs : list (list Qc)) (n : nat) : Z :=
  let t := Z.of_nat (argmax (mean_axis0 wfs n)) in
  if (t <? 10)%Z then 10%Z
  else if (Z.of_nat n - 10 <? t)%Z then (Z.of_nat n - 10)%Z
  else t.

(** saturation.py:11-34; [n] is the number of samples, [kwargs] the keyword arguments the reducer was
    made with. *)
Definition saturation_sum (kwargs : dict val) (wfs : list (list Qc)) (n : nat) : res (list Qc) :=
  do window_shift <- as_int (dgetd (VInt 4) "window_shift" kwargs);
  do t_event <- (match dget "t_event" kwargs with
                 | Some v => as_int v
                 | None => Ok (clamped_peak wfs n)
                 end);
  let start := (t_event - window_shift)%Z in
  Ok (map (fun w => qsum (pyslice w (Some start) None)) wfs).
