(** extract_pulse_time (waveform_reducers/cross_correlation.py:17-34) with its arithmetic rounded, and the times of CrossCorrelation and
    CrossCorrelationLocal (lines 89-103, 128-147) from a given cross correlation.

    [rnd] rounds the result of every operation; double precision is [rnd := fl64] (the function is compiled for doubles and for
    single precision input with double output; correlate1d returns doubles for doubles, the case modelled).  The cross correlation itself (scipy)
    is an argument.  Overflow and NaN are left out, except for the value read past the end ([junk]). *)
From Coq Require Import List ZArith QArith Qcanon Bool Arith.
From Verif.Base Require Import Py Num Fl.
From Verif.Reducers Require Import Model ModelTimingFloat.
Import ListNotations.
Local Open Scope list_scope.

Section Rounded.
  Variable rnd : Qc -> Qc.
  (** The curvature and the vertex are computed as in timing.py ([f_b], [f_t]): 0.5 * a / b *)
  Definition f_pulse_time (w : list Qc) (junk : option Qc) (peak_index : Z) : Qc :=
    match read w junk (peak_index - 1), read w junk peak_index, read w junk (peak_index + 1) with
    | Some y0, Some y1, Some y2 =>
        if qeqb (f_b rnd y0 y1 y2) 0 then qz peak_index
        else let t_pulse := rnd (f_t rnd y0 y1 y2 + qz peak_index)%Qc in
             if negb (qleb 0 t_pulse && qltb t_pulse (qn (List.length w))) then qz peak_index else t_pulse
    | _, _, _ => qz peak_index
    end.
  (** CrossCorrelation: one index for all pixels; CrossCorrelationLocal: the maximum of each pixel. *)
  Definition f_t_cc (junk : option Qc) (cc : list (list Qc)) (peak_index : Z) : list Qc := map (fun row => f_pulse_time row junk peak_index) cc.
  Definition f_t_cc_local (junk : option Qc) (cc : list (list Qc)) : list Qc := map (fun row => f_pulse_time row junk (Z.of_nat (argmax row))) cc.
End Rounded.
