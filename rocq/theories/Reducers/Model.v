(** Model of the waveform reducers in CHECLabPy/waveform_reducers: average_wf.py, saturation.py, common.py,
    cross_correlation.py, sliding_window.py, superpixel.py, flag_flasher.py, timing.py.

    Simplifications: samples are exact rationals; a NaN arising in the code is [None]; an element read outside an
    array in compiled code yields an arbitrary value (parameter [junk]); the cubic resampling of the reference
    pulse file, ctapipe's functions and the timing plot are left out. *)
From Coq Require Import List ZArith QArith Qcanon Qround Bool Arith.
From Verif.Base Require Import Py Num.
From Verif.WfUtils Require Import Model.
Import ListNotations.
Local Open Scope list_scope.

(** np.max of a non-empty array *)
Definition qmax (l : list Qc) : Qc := nth (argmax l) l 0%Qc.

(** ** average_wf.py *)
(** average_wf.py:20-26; the same lines in saturation.py:24-30 and timing.py:155-161. *)
Definition event_time (w : event) (n_samples : nat) : Z :=
  let t := Z.of_nat (argmax (mean0 w n_samples)) in
  let n := Z.of_nat n_samples in
  if (t <? 10)%Z then 10%Z else if (n - 10 <? t)%Z then (n - 10)%Z else t.
(** average_wf.py:15-27 *)
Definition extraction_time (t_extract : option Z) (w : event) (n_samples : nat) : Z :=
  match t_extract with Some t => t | None => event_time w n_samples end.
(** average_wf.py:37-47 *)
Definition charge_averagewf (t_extract : option Z) (window_size window_shift : Z) (w : event) (n_samples : nat) : list Qc :=
  let start := (extraction_time t_extract w n_samples - window_shift)%Z in
  let stop := (start + window_size)%Z in
  map (fun row => qsum (pyslice row (Some start) (Some stop))) w.

(** ** saturation.py:15-34; [t_event] is the entry of the reducer's arguments. *)
Definition saturation_sum (t_event : option Z) (window_shift : Z) (w : event) (n_samples : nat) : list Qc :=
  let start := (extraction_time t_event w n_samples - window_shift)%Z in
  map (fun row => qsum (pyslice row (Some start) None)) w.

(** ** common.py (the standard deviations are modelled by their squares) *)
Definition qvar (l : list Qc) : Qc := qmean (map (fun x => (x - qmean l) * (x - qmean l))%Qc l).
Definition baseline_start_mean (w : event) : list Qc := map (fun row => qmean (pyslice row (Some 0%Z) (Some 20%Z))) w.
Definition baseline_start_var (w : event) : list Qc := map (fun row => qvar (pyslice row (Some 0%Z) (Some 20%Z))) w.
Definition baseline_end_mean (w : event) : list Qc := map (fun row => qmean (pyslice row (Some (-20)%Z) None)) w.
Definition baseline_end_var (w : event) : list Qc := map (fun row => qvar (pyslice row (Some (-20)%Z) None)) w.
Definition waveform_mean (w : event) : list Qc := map qmean w.
Definition waveform_var (w : event) : list Qc := map qvar w.
Definition waveform_max (w : event) : list Qc := map qmax w.

(** ** cross_correlation.py:17-34. Python index -1 is the last sample; [None] is a value that is not a finite number. *)
Definition read (w : list Qc) (junk : option Qc) (i : Z) : option Qc :=
  let n := Z.of_nat (List.length w) in
  let i := if (i <? 0)%Z then (i + n)%Z else i in
  if (0 <=? i)%Z && (i <? n)%Z then Some (nth (Z.to_nat i) w 0%Qc) else junk.
Definition half : Qc := Q2Qc (1 # 2).
Definition extract_pulse_time (w : list Qc) (junk : option Qc) (peak_index : Z) : Qc :=
  match read w junk (peak_index - 1), read w junk peak_index, read w junk (peak_index + 1) with
  | Some y0, Some y1, Some y2 =>
      let a := (y0 - y2)%Qc in
      let b := (y0 - qz 2 * y1 + y2)%Qc in
      if qeqb b 0 then qz peak_index
      else let t := (half * a / b)%Qc in
           let t_pulse := (t + qz peak_index)%Qc in
           if negb (qleb 0 t_pulse && qltb t_pulse (qn (List.length w))) then qz peak_index else t_pulse
  | _, _, _ => qz peak_index
  end.

(** scipy.ndimage.correlate1d(w, weights, mode='constant', origin=origin) along the last axis:
    sample i is the sum over j of weights[j] * w[i + j - size//2 - origin], zero outside. *)
Definition get0 (w : list Qc) (i : Z) : Qc :=
  if (0 <=? i)%Z && (i <? Z.of_nat (List.length w))%Z then nth (Z.to_nat i) w 0%Qc else 0%Qc.
Definition correlate1d (w weights : list Qc) (origin : Z) : list Qc :=
  let size := List.length weights in
  map (fun i => qsum (map (fun j => nth j weights 0 * get0 w (Z.of_nat i + Z.of_nat j - Z.of_nat (size / 2) - origin))%Qc (seq 0 size)))
      (seq 0 (List.length w)).

(** np.trapz with unit spacing *)
Fixpoint trapz (y : list Qc) : Qc :=
  match y with
  | a :: ((b :: _) as t) => ((a + b) * half + trapz t)%Qc
  | _ => 0%Qc
  end.
(** cross_correlation.py:78-87: from the resampled pulse [y], the reference pulse and the 1 p.e. pulse. *)
Definition cc_origin (y : list Qc) : Z := (Z.of_nat (argmax y) - Z.of_nat (List.length y / 2))%Z.
Definition normalise_pulse (y : list Qc) : list Qc * list Qc :=
  let y_1pe := map (fun v => v / trapz y)%Qc y in
  let m := qmax (correlate1d y_1pe y (cc_origin y)) in
  (map (fun v => v / m)%Qc y, y_1pe).
(** cross_correlation.py:89-90 *)
Definition get_pulse_height (y_1pe : list Qc) (charge : Qc) : Qc := (charge * qmax y_1pe)%Qc.
(** cross_correlation.py:92-99 (common peak) and 132-140 (peak per pixel); 61-62 for the origin. *)
Definition cc (y : list Qc) (w : event) : event :=
  let reference := fst (normalise_pulse y) in
  map (fun row => correlate1d row reference (cc_origin reference)) w.
Definition cc_peak (y : list Qc) (w : event) (n_samples : nat) : nat := argmax (mean0 (cc y w) n_samples).
Definition charge_cc (y : list Qc) (w : event) (n_samples : nat) : list Qc :=
  map (fun row => nth (cc_peak y w n_samples) row 0%Qc) (cc y w).
Definition cc_peak_local (y : list Qc) (w : event) : list nat := map argmax (cc y w).
Definition charge_cc_local (y : list Qc) (w : event) : list Qc := map (fun row => nth (argmax row) row 0%Qc) (cc y w).
Definition height_cc_local (y : list Qc) (w : event) : list Qc := map (get_pulse_height (snd (normalise_pulse y))) (charge_cc_local y w).
Definition t_cc_local (y : list Qc) (junk : option Qc) (w : event) : list Qc :=
  map (fun row => extract_pulse_time row junk (Z.of_nat (argmax row))) (cc y w).

(** ** sliding_window.py:13-17, 31-36, 63-84 *)
Definition window_sums (window_size : nat) (row : list Qc) : list Qc :=
  correlate1d row (repeat 1%Qc window_size) (- Z.of_nat (window_size / 2)).
Definition sliding_peak (window_size : nat) (w : event) (n_samples : nat) : nat := argmax (window_sums window_size (mean0 w n_samples)).
Definition sliding_peak_local (window_size : nat) (w : event) : list nat := map (fun row => argmax (window_sums window_size row)) w.
Definition charge_sliding_local (window_size : nat) (w : event) : list Qc := map (fun row => qmax (window_sums window_size row)) w.

(** ** superpixel.py:9-32 *)
Definition sp_wf (n_pixels n_samples : nat) (w : event) : event :=
  map (fun sp => map (fun j => qsum (map (fun k => nth j (nth (4 * sp + k) w []) 0%Qc) (seq 0 4))) (seq 0 n_samples)) (seq 0 (n_pixels / 4)).
Definition sp_argmax (n_pixels n_samples : nat) (w : event) : list nat := flat_map (fun row => repeat (argmax row) 4) (sp_wf n_pixels n_samples w).
Definition sp_max (n_pixels n_samples : nat) (w : event) : list Qc := flat_map (fun row => repeat (qmax row) 4) (sp_wf n_pixels n_samples w).

(** ** flag_flasher.py:17-25. The average of no entries is NaN; comparisons with NaN are false; np.argmax of an array
    with NaN is the first NaN. *)
Definition average (l : list Qc) : option Qc := match l with [] => None | _ => Some (qmean l) end.
Definition argmax_nan (l : list (option Qc)) : nat :=
  match find (fun i => match nth i l None with None => true | Some _ => false end) (seq 0 (List.length l)) with
  | Some i => i
  | None => argmax (map (fun o => match o with Some x => x | None => 0%Qc end) l)
  end.
Definition unit_vect (w : event) : list (option Qc) :=
  let peaks := map qmax w in
  map (fun tm => average (pyslice peaks (Some (64 * tm)%Z) (Some (64 * (tm + 1))%Z))) [5; 23; 8; 26]%Z.
Definition flasher_unit (w : event) : Z :=
  let u := unit_vect w in
  if existsb (fun o => match o with Some x => qltb x (qz 30) | None => false end) u then (-1)%Z else Z.of_nat (argmax_nan u).

(** ** timing.py:10-107, one pixel *)
(** int(np.round(x)): half to even *)
Definition qround (x : Qc) : Z :=
  let f := Qfloor (this x) in
  let r := (x - qz f)%Qc in
  if qltb r half then f else if qltb half r then (f + 1)%Z else if Z.even f then f else (f + 1)%Z.
Record pulse := { p_t : Qc; p_h : Qc; p_fwhm : option Qc; p_rise : option Qc; p_l : Qc; p_r : Qc; p_10 : Qc; p_90 : Qc }.
Definition no_pulse : pulse := {| p_t := 0; p_h := 0; p_fwhm := Some 0%Qc; p_rise := Some 0%Qc; p_l := 0; p_r := 0; p_10 := 0; p_90 := 0 |}.
Section Timing.
  Variable rd : Z -> Qc.
  (** timing.py:66,76,79,82. Division by zero raises under numba's default error model. *)
  Definition cross (level : Qc) (xi xj : Z) : res Qc :=
    if qeqb (rd xj - rd xi) 0 then Raise ZeroDivisionError
    else Ok (qz xi + (level - rd xi) * qz (xj - xi) / (rd xj - rd xi))%Qc.
  Definition crosses (level : Qc) (xi xj : Z) : bool := qleb level (rd xi) && qleb (rd xj) level.
  (** timing.py:61-67 *)
  Fixpoint forward (level : Qc) (k : nat) (xi : Z) : res Qc :=
    match k with
    | O => Ok 0%Qc
    | S k => if crosses level xi (xi + 1) then cross level xi (xi + 1) else forward level k (xi + 1)
    end.
  (** timing.py:74-82: set on the first crossing; zero means not set. *)
  Definition set_first (level : Qc) (xi : Z) (cur : Qc) : res Qc :=
    if crosses level xi (xi - 1) && qeqb cur 0 then cross level xi (xi - 1) else Ok cur.
  (** timing.py:70-84; [k] is the sample. *)
  Fixpoint backward (l50 l90 l10 : Qc) (k : nat) (s : Qc * Qc * Qc) : res (Qc * Qc * Qc) :=
    match k with
    | O => Ok s
    | S k' =>
        let '(fl, r90, r10) := s in
        let xi := Z.of_nat k in
        (do fl <- set_first l50 xi fl;
         do r90 <- set_first l90 xi r90;
         do r10 <- set_first l10 xi r10;
         if negb (qeqb fl 0) && negb (qeqb r90 0) && negb (qeqb r10 0) then Ok (fl, r90, r10)
         else backward l50 l90 l10 k' (fl, r90, r10))%py
    end.
End Timing.
(** timing.py:23-104. An empty search window raises in np.argmax. *)
Definition pulse_timing (junk : Qc) (w : list Qc) (window_start window_end : Z) : res pulse :=
  let n := List.length w in
  let rd i := match read w (Some junk) i with Some y => y | None => 0%Qc end in
  let baseline := qmean (pyslice w None (Some 10%Z)) in
  let window := pyslice w (Some window_start) (Some window_end) in
  match window with
  | [] => Raise ValueError
  | _ =>
      let peakpos := (Z.of_nat (argmax window) + window_start)%Z in
      let y0 := rd (peakpos - 1)%Z in
      let y1 := rd peakpos in
      let y2 := rd (peakpos + 1)%Z in
      let a := (y0 - y2)%Qc in
      let b := (y0 - qz 2 * y1 + y2)%Qc in
      if qeqb b 0 then Ok no_pulse
      else
        let t := (half * a / b)%Qc in
        let h := (y1 - half * half * (y0 - y2) * t)%Qc in
        let h_pulse := (h - baseline)%Qc in
        let t_pulse := (t + qz peakpos)%Qc in
        if negb (qleb 0 t_pulse && qltb t_pulse (qn n)) then Ok no_pulse
        else
          let i_pulse := qround t_pulse in
          let half_max := (baseline + h_pulse / qz 2)%Qc in
          let l10 := (baseline + h_pulse / qz 10)%Qc in
          let l90 := (baseline + qz 9 / qz 10 * h_pulse)%Qc in
          (do fwhm_r <- forward rd half_max (Z.to_nat (Z.of_nat n - 1 - i_pulse)) i_pulse;
           do s <- backward rd half_max l90 l10 (Z.to_nat i_pulse) (0, 0, 0)%Qc;
           let '(fwhm_l, rt_90, rt_10) := s in
           Ok {| p_t := t_pulse; p_h := h_pulse;
                 p_fwhm := if negb (qeqb fwhm_r 0) && negb (qeqb fwhm_l 0) then Some (fwhm_r - fwhm_l)%Qc else None;
                 p_rise := if negb (qeqb rt_90 0) && negb (qeqb rt_10 0) then Some (rt_90 - rt_10)%Qc else None;
                 p_l := fwhm_l; p_r := fwhm_r; p_10 := rt_10; p_90 := rt_90 |})%py
  end.
(** timing.py:149-179 *)
Definition timing (junk : Qc) (t_extract : option Z) (window_size window_shift : Z) (w : event) (n_samples : nat) : res (list pulse) :=
  let window_start := (extraction_time t_extract w n_samples - window_shift)%Z in
  mapM (fun row => pulse_timing junk row window_start (window_start + window_size)%Z) w.
