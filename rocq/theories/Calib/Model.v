(** Model of the calibrators in CHECLabPy/calib: time_calibrator.py, amplitude_calibrator.py,
    illumination_profile.py, sipm_data_sheet.py.

    Simplifications: numbers are exact rationals (no rounding, no NaN); reading the data files is left out; the
    loops of numba's prange are the sequential loops they are without parallel=True. *)
From Coq Require Import List ZArith QArith Qcanon Qround Bool Arith String.
From Verif.Base Require Import Py Num.
Import ListNotations.
Local Open Scope list_scope.

Definition qfloor (x : Qc) : Z := Qfloor (this x).
Definition qceil (x : Qc) : Z := Qceiling (this x).

(** ** time_calibrator.py:16-28, one sample of one pixel. [x2 - x1 = 0] raises under numba's default error model. *)
Definition t_cor_sample (w : list Qc) (correction : Qc) (isample : nat) : res Qc :=
  let n := Z.of_nat (List.length w) in
  let x := (qn isample - correction)%Qc in
  let x1 := qfloor x in
  let x2 := qceil x in
  let '(x1, x2) :=
    if (x1 <? 0)%Z then (0, 1)%Z
    else if (n <=? x2)%Z then (n - 2, n - 1)%Z
    else (x1, x2) in
  let y1 := nth (Z.to_nat x1) w 0%Qc in
  let y2 := nth (Z.to_nat x2) w 0%Qc in
  if (x2 - x1 =? 0)%Z then Raise ZeroDivisionError
  else Ok (y1 + (y2 - y1) * (x - qz x1) / qz (x2 - x1))%Qc.
Definition t_cor_pixel (w : list Qc) (correction : Qc) : res (list Qc) :=
  mapM (t_cor_sample w correction) (seq 0 (List.length w)).
(** time_calibrator.py:11-29 *)
Definition apply_t_cor (waveforms : list (list Qc)) (t_cor : list Qc) : res (list (list Qc)) :=
  mapM (fun wc => t_cor_pixel (fst wc) (snd wc)) (combine waveforms t_cor).

(** ** amplitude_calibrator.py:22-40 *)
Definition calibrate (ff pedestal : list Qc) (conversion : Qc) (value : Qc) (pixel : nat) : res Qc :=
  match nth_error pedestal pixel, nth_error ff pixel with
  | Some p, Some f => Ok ((value - p) / conversion * f)%Qc
  | _, _ => Raise IndexError
  end.

(** ** illumination_profile.py:17-47 *)
Definition unfold_profile (profile image : list Qc) : list Qc := map (fun ip => (fst ip / snd ip)%Qc) (combine image profile).
Definition fold_profile (profile image : list Qc) : list Qc := map (fun ip => (fst ip * snd ip)%Qc) (combine image profile).

(** ** sipm_data_sheet.py *)
Definition table := list (string * list Qc).

(** scipy sorts the points by abscissa (stable). *)
Fixpoint sort_insert (p : Qc * Qc) (l : list (Qc * Qc)) : list (Qc * Qc) :=
  match l with
  | [] => [p]
  | q :: t => if qltb (fst p) (fst q) then p :: l else q :: sort_insert p t
  end.
Definition sort_points (l : list (Qc * Qc)) : list (Qc * Qc) := fold_left (fun acc p => sort_insert p acc) l [].

(** np.interp between the last abscissa not above [v] and the next one. *)
Fixpoint np_interp (pts : list (Qc * Qc)) (v : Qc) : Qc :=
  match pts with
  | [] => 0%Qc
  | [(_, y)] => y
  | (x1, y1) :: (((x2, y2) :: _) as t) =>
      if qltb v x2 then ((y2 - y1) / (x2 - x1) * (v - x1) + y1)%Qc else np_interp t v
  end.
(** scipy.interpolate.interp1d(x, y)(v): bounds error on either side. *)
Definition interp1d (xs ys : list Qc) (v : Qc) : res Qc :=
  if negb (List.length xs =? List.length ys)%nat then Raise ValueError
  else let pts := sort_points (combine xs ys) in
  match pts with
  | [] => Raise ValueError
  | p :: _ =>
      if qltb v (fst p) then Raise ValueError
      else if qltb (fst (last pts p)) v then Raise ValueError
      else Ok (np_interp pts v)
  end.

(** sipm_data_sheet.py:15-31 *)
Definition is_set (a : string * option Qc) : bool := match snd a with Some _ => true | None => false end.
Definition convert (df : table) (vover opct pde gain : option Qc) : res (dict Qc) :=
  let values := [("vover", vover); ("opct", opct); ("pde", pde); ("gain", gain)]%string in
  let n_set := List.length (filter is_set values) in
  if negb (n_set =? 1)%nat then Raise ValueError
  else match filter is_set values with
       | (key, Some value) :: _ =>
           (do x <- dlookup key df;
            mapM (fun col => rmap (fun y => (fst col, y)) (interp1d x (snd col) value)) df)%py
       | _ => Raise ValueError
       end.
