(** Model of apply_t_cor of CHECLabPy/calib/time_calibrator.py in floating point.  Definitions only.

    Every operation is rounded as in the two compiled versions (signatures in lines 7-10): positions, products and sums in
    double precision; the difference of two samples and the stored result in the precision of the waveforms.
    Simplifications: as in Calib/Model.v, and no overflow (Base/Fl.v); floor and ceil give integers of any size. *)
From Coq Require Import List ZArith QArith Qcanon Bool Arith.
From Verif.Base Require Import Py Num Fl.
From Verif.Calib Require Import Model.
Import ListNotations.
Local Open Scope list_scope.

(** time_calibrator.py:16-28; [rnd]: rounding to the precision of the waveforms. *)
Definition fl_t_cor_sample (rnd : Qc -> Qc) (w : list Qc) (correction : Qc) (isample : nat) : res Qc :=
  let n := Z.of_nat (List.length w) in
  let x := fl64 (qn isample - correction)%Qc in
  let x1 := qfloor x in
  let x2 := qceil x in
  let '(x1, x2) :=
    if (x1 <? 0)%Z then (0, 1)%Z
    else if (n <=? x2)%Z then (n - 2, n - 1)%Z
    else (x1, x2) in
  let y1 := nth (Z.to_nat x1) w 0%Qc in
  let y2 := nth (Z.to_nat x2) w 0%Qc in
  if (x2 - x1 =? 0)%Z then Raise ZeroDivisionError
  else Ok (rnd (fl64 (y1 + fl64 (fl64 (rnd (y2 - y1) * fl64 (x - qz x1)) / qz (x2 - x1))))%Qc).
Definition fl_t_cor_pixel (rnd : Qc -> Qc) (w : list Qc) (correction : Qc) : res (list Qc) :=
  mapM (fl_t_cor_sample rnd w correction) (seq 0 (List.length w)).
(** time_calibrator.py:11-29 *)
Definition fl_apply_t_cor (rnd : Qc -> Qc) (waveforms : list (list Qc)) (t_cor : list Qc) : res (list (list Qc)) :=
  mapM (fun wc => fl_t_cor_pixel rnd (fst wc) (snd wc)) (combine waveforms t_cor).
