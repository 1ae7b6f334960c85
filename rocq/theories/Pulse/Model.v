(** Model of how the reference pulse is prepared: CrossCorrelation._load_reference_pulse up to the interpolation (in double
    precision), and the template and the bases of NNLSPulseExtraction.  Definitions only. *)
From Coq Require Import List ZArith QArith Qcanon Qround Bool Arith.
From Flocq Require Import BinarySingleNaN.
From Verif.Base Require Import Py Num F64.
From Verif.Fitter Require Import Model.
Import ListNotations.
Local Open Scope list_scope.
Local Open Scope py_scope.

(** ** cross_correlation.py:69-80 *)

(** time_slice = 1E-9: the double next to it (cross_correlation.py:72). *)
Definition time_slice : b64 := b64_lit 4835703278458517 (-82).
(** np.linspace(0, stop, num) (numpy/core/function_base.py): arange(0, num) * step, the last one set to stop. The addition
    of start = 0 is left out. *)
Definition b64_linspace0 (stop : b64) (num : Z) : res (list b64) :=
  if (num <? 0)%Z then Raise ValueError
  else if (num <=? 1)%Z then Ok (map (fun k => b64_mul (b64_of_Z (Z.of_nat k)) stop) (seq 0 (Z.to_nat num)))
  else let div := b64_of_Z (num - 1) in
       let step := b64_div stop div in
       let y k := if b64_le step (b64_of_Z 0) && b64_le (b64_of_Z 0) step then b64_mul (b64_div k div) stop else b64_mul k step in
       Ok (map (fun k => y (b64_of_Z (Z.of_nat k))) (seq 0 (Z.to_nat (num - 1))) ++ [stop]).
(** interp1d sorts the points; its range goes from the smallest to the largest abscissa. *)
Definition b64_min (x y : b64) : b64 := if b64_lt y x then y else x.
Definition b64_max (x y : b64) : b64 := if b64_lt x y then y else x.
(** cross_correlation.py:73-79: the times at which the pulse is sampled. A cubic interp1d needs four points, and raises
    ValueError for times outside the range of the points. *)
Definition sample_times (refx : list b64) : res (list b64) :=
  match refx with
  | [] => Raise ValueError
  | x0 :: t =>
      if (List.length refx <? 4)%nat then Raise ValueError
      else do max_sample <- b64_int (b64_div (last refx x0) time_slice);
           do x <- b64_linspace0 (b64_mul (b64_of_Z max_sample) time_slice) (max_sample + 1);
           let lo := fold_left b64_min t x0 in
           let hi := fold_left b64_max t x0 in
           if existsb (fun v => b64_lt v lo || b64_lt hi v) x then Raise ValueError else Ok x
  end.
(** [f refx refy]: the interpolation through the points. *)
Definition resample {Y} (f : list b64 -> list Y -> b64 -> Y) (refx : list b64) (refy : list Y) : res (list Y) :=
  do x <- sample_times refx; Ok (map (f refx refy) x).

(** ** nnls_pulse_extraction.py:55-73, exact arithmetic *)
Local Open Scope Qc_scope.

(** y[i] for i >= 0 and y[-i] for i > 0. *)
Definition at_front (l : list Qc) (i : nat) : res Qc := match nth_error l i with Some v => Ok v | None => Raise IndexError end.
Definition at_back (l : list Qc) (i : nat) : res Qc := if (i <=? List.length l)%nat then at_front l (List.length l - i) else Raise IndexError.
(** The ordinates after both adjustments; None if a slope is not finite (division of numpy numbers by zero). Both loops
    write values that depend on the abscissae only. *)
Definition template_points (x y : list Qc) : res (option (list Qc)) :=
  do y4 <- at_front y 4; do x4 <- at_front x 4;
  if qeqb x4 0 then Ok None
  else
  let k := y4 / x4 in
  let y1 := map (fun p : nat * (Qc * Qc) => if (fst p <? 4)%nat then k * fst (snd p) else snd (snd p)) (combine (seq 0 (List.length y)) (combine x y)) in
  do yn <- at_back y1 10; do xn <- at_front x 10; do xb <- at_back x 10;
  if qeqb xn 0 then Ok None
  else
  let k := - yn / xn in
  let m := yn - k * xb in
  let y2 := map (fun p : nat * (Qc * Qc) => if (List.length y1 - 10 <=? fst p)%nat then k * fst (snd p) + m else snd (snd p)) (combine (seq 0 (List.length y1)) (combine x y1)) in
  Ok (Some y2).

(** nnls_pulse_extraction.py:29-40: times of the candidate pulses. [template] is the spline, 0 outside its range. *)
Definition nano : Qc := Q2Qc (1 # 1000000000).
Definition time_bins : list Qc := map (fun j => qn j * nano) (seq 0 128).
Definition positive_times (template : Qc -> Qc) : list Qc := filter (fun x => qltb 0 (template x)) (linspace 0 (qz 120 * nano) 1000).
Definition basis_times (template : Qc -> Qc) (bases_bin : nat) : res (list Qc) :=
  match positive_times template with
  | [] => Raise ValueError
  | t0 :: l =>
      let t_end := last l t0 in
      let nbasis := (Z.to_nat (Qfloor (this (qz 127 + t_end))) * bases_bin)%nat in
      Ok (linspace (0 - t_end) (nth 126 time_bins 0) nbasis)
  end.
(** nnls_pulse_extraction.py:38-40: one column per candidate pulse. *)
Definition model_matrix (template : Qc -> Qc) (basis_t : list Qc) : list (list Qc) :=
  map (fun t => map (fun tb => template (tb - t)) time_bins) basis_t.
