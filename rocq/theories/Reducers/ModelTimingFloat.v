(** obtain_pulse_timing (waveform_reducers/timing.py:10-107) with its arithmetic rounded.

    [rnd] rounds the result of every operation; double precision is [rnd := fl64], the exact function of [Reducers/Model.v] is
    [rnd := fun x => x].  The function is compiled by numba for arrays of doubles (extract_dl1 hands doubles to the
    reducers): no operation is fused or reordered.  Left out: overflow, NaN, and the variant compiled for single
    precision. *)
From Coq Require Import List ZArith QArith Qcanon Bool Arith.
From Verif.Base Require Import Py Num Fl.
From Verif.WfUtils Require Import Model.
From Verif.Reducers Require Import Model.
Import ListNotations.
Local Open Scope list_scope.

Section Rounded.
  Variable rnd : Qc -> Qc.
  (** The literals 0.1 and 0.9 *)
  Definition c10 : Qc := rnd (Q2Qc (1 # 10)).
  Definition c90 : Qc := rnd (Q2Qc (9 # 10)).
  (** np.mean in numba: a loop over the elements, then a division *)
  Definition f_mean (l : list Qc) : Qc := rnd (fold_left (fun s x => rnd (s + x)%Qc) l 0%Qc / qn (List.length l))%Qc.

  Section Samples.
    Variable rd : Z -> Qc.
    (** timing.py:66,76,79,82. The difference of two doubles is 0 only if they are equal. *)
    Definition f_cross (level : Qc) (xi xj : Z) : res Qc :=
      let d := rnd (rd xj - rd xi)%Qc in
      if qeqb d 0 then Raise ZeroDivisionError
      else Ok (rnd (qz xi + rnd (rnd (rnd (level - rd xi) * qz (xj - xi)) / d))%Qc).
    (** timing.py:61-67 *)
    Fixpoint f_forward (level : Qc) (k : nat) (xi : Z) : res Qc :=
      match k with
      | O => Ok 0%Qc
      | S k => if crosses rd level xi (xi + 1) then f_cross level xi (xi + 1) else f_forward level k (xi + 1)
      end.
    (** timing.py:74-82 *)
    Definition f_set_first (level : Qc) (xi : Z) (cur : Qc) : res Qc :=
      if crosses rd level xi (xi - 1) && qeqb cur 0 then f_cross level xi (xi - 1) else Ok cur.
    (** timing.py:70-84 *)
    Fixpoint f_backward (l50 l90 l10 : Qc) (k : nat) (s : Qc * Qc * Qc) : res (Qc * Qc * Qc) :=
      match k with
      | O => Ok s
      | S k' =>
          let '(fl, r90, r10) := s in
          let xi := Z.of_nat k in
          (do fl <- f_set_first l50 xi fl;
           do r90 <- f_set_first l90 xi r90;
           do r10 <- f_set_first l10 xi r10;
           if negb (qeqb fl 0) && negb (qeqb r90 0) && negb (qeqb r10 0) then Ok (fl, r90, r10)
           else f_backward l50 l90 l10 k' (fl, r90, r10))%py
      end.
  End Samples.

  (** timing.py:33-43: curvature, time and height of the vertex. *)
  Definition f_b (y0 y1 y2 : Qc) : Qc := rnd (rnd (y0 - rnd (qz 2 * y1)) + y2)%Qc.
  Definition f_t (y0 y1 y2 : Qc) : Qc := rnd (rnd (half * rnd (y0 - y2)) / f_b y0 y1 y2)%Qc.
  Definition f_h (y0 y1 y2 : Qc) : Qc := rnd (y1 - rnd (rnd (half * half * rnd (y0 - y2)) * f_t y0 y1 y2))%Qc.

  (** timing.py:23-104 *)
  Definition f_timing (junk : Qc) (w : list Qc) (window_start window_end : Z) : res pulse :=
    let n := List.length w in
    let rd i := match read w (Some junk) i with Some y => y | None => 0%Qc end in
    let baseline := f_mean (pyslice w None (Some 10%Z)) in
    let window := pyslice w (Some window_start) (Some window_end) in
    match window with
    | [] => Raise ValueError
    | _ =>
        let peakpos := (Z.of_nat (argmax window) + window_start)%Z in
        let y0 := rd (peakpos - 1)%Z in
        let y1 := rd peakpos in
        let y2 := rd (peakpos + 1)%Z in
        if qeqb (f_b y0 y1 y2) 0 then Ok no_pulse
        else
          let h_pulse := rnd (f_h y0 y1 y2 - baseline)%Qc in
          let t_pulse := rnd (f_t y0 y1 y2 + qz peakpos)%Qc in
          if negb (qleb 0 t_pulse && qltb t_pulse (qn n)) then Ok no_pulse
          else
            let i_pulse := qround t_pulse in
            let half_max := rnd (baseline + rnd (h_pulse / qz 2))%Qc in
            let l10 := rnd (baseline + rnd (c10 * h_pulse))%Qc in
            let l90 := rnd (baseline + rnd (c90 * h_pulse))%Qc in
            (do fwhm_r <- f_forward rd half_max (Z.to_nat (Z.of_nat n - 1 - i_pulse)) i_pulse;
             do s <- f_backward rd half_max l90 l10 (Z.to_nat i_pulse) (0, 0, 0)%Qc;
             let '(fwhm_l, rt_90, rt_10) := s in
             Ok {| p_t := t_pulse; p_h := h_pulse;
                   p_fwhm := if negb (qeqb fwhm_r 0) && negb (qeqb fwhm_l 0) then Some (rnd (fwhm_r - fwhm_l))%Qc else None;
                   p_rise := if negb (qeqb rt_90 0) && negb (qeqb rt_10 0) then Some (rnd (rt_90 - rt_10))%Qc else None;
                   p_l := fwhm_l; p_r := fwhm_r; p_10 := rt_10; p_90 := rt_90 |})%py
    end.
End Rounded.
