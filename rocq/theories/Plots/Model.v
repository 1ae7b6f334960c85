(** Model of scripts/plot_spe.py, of the colour limits of plotting/camera.py and of plotting/waveform.py.  Definitions only.
    Matplotlib objects are reduced to what is seen: the array and limits of a colour-mapped artist, the spines of an axes,
    the grid position of a subplot, the text put on it.  Drawing, fonts, sizes and files are not modelled. *)
From Coq Require Import List ZArith QArith Qcanon Bool.
From Verif.Base Require Import Py Num.
From Verif.Camera Require Import Model.
Import ListNotations.
Local Open Scope list_scope.

(** ** scripts/plot_spe.py *)
(** plotting/camera.py:72-82, the assignment of a pandas column: patch j is coloured by the j-th row, whatever its index label. *)
Definition show {V} (n_pixels : nat) (column : list (nat * V)) : res (list V) :=
  if Nat.eqb (List.length column) n_pixels then Ok (map snd column) else Raise AssertionError.
(** plot_spe.py:28-30, 71-72: the two images of one column. *)
Definition spe_camera {V E} (n_pixels : nat) (values : list (nat * V)) (errors : list (nat * E)) : res (list V * list E) :=
  bind (show n_pixels values) (fun v => bind (show n_pixels errors) (fun e => Ok (v, e))).
(** df.loc[label] for an index without repetitions. *)
Fixpoint loc {V} (label : nat) (table : list (nat * V)) : res V :=
  match table with
  | [] => Raise KeyError
  | (k, v) :: rest => if Nat.eqb k label then Ok v else loc label rest
  end.
(** plot_spe.py:84-86: what the spectrum of one pixel is drawn from. *)
Definition spe_pixel {V E A} (values : list (nat * V)) (errors : list (nat * E)) (arrays : list (nat * A)) (pixel : nat) : res (V * E * A) :=
  bind (loc pixel values) (fun v => bind (loc pixel errors) (fun e => bind (loc pixel arrays) (fun a => Ok (v, e, a)))).

(** ** Colour limits (plotting/camera.py:39-42, 68-82, 115-134) *)
(** None is a value that is not finite (np.ma.masked_invalid). *)
Definition valid (l : list (option Qc)) : list Qc := flat_map (fun x => match x with Some v => [v] | None => [] end) l.
(** Normalize.autoscale: limits from the unmasked values, none if there are none. *)
Definition span (l : list Qc) : option (Qc * Qc) := match qmin_list l, qmax_list l with Some a, Some b => Some (a, b) | _, _ => None end.
(** A colour-mapped artist and the fields of CameraImage about it. *)
Record image_state := { shown : list (option Qc); limits : option (Qc * Qc); logarithmic : bool; autoscale : bool }.
(** plotting/camera.py:42, 59 *)
Definition new_image (n_pixels : nat) : image_state := {| shown := repeat (Some 0%Qc) n_pixels; limits := None; logarithmic := false; autoscale := true |}.
(** self.pixels.autoscale(): LogNorm masks what is not positive. *)
Definition rescale (s : image_state) : image_state :=
  let v := valid (shown s) in
  {| shown := shown s; limits := span (if logarithmic s then filter (fun x => qltb 0 x) v else v); logarithmic := logarithmic s; autoscale := autoscale s |}.
(** The calls a user can make. *)
Inductive call := SetImage (val : list (option Qc)) | SetLimitsMinmax (zmin zmax : Qc) | SetZLog | ResetLimits.
Definition do_call (n_pixels : nat) (s : image_state) (c : call) : res image_state :=
  match c with
  | SetImage val =>                                                                    (* camera.py:72-82 *)
      if negb (Nat.eqb (List.length val) n_pixels) then Raise AssertionError
      else let s := {| shown := val; limits := limits s; logarithmic := logarithmic s; autoscale := autoscale s |} in
           Ok (if autoscale s then rescale s else s)
  | SetLimitsMinmax zmin zmax =>                                                       (* camera.py:118-123 *)
      Ok {| shown := shown s; limits := Some (zmin, zmax); logarithmic := logarithmic s; autoscale := false |}
  | SetZLog =>                                                                         (* camera.py:125-127 *)
      Ok (rescale {| shown := shown s; limits := None; logarithmic := true; autoscale := autoscale s |})
  | ResetLimits =>                                                                     (* camera.py:129-134 *)
      Ok (rescale {| shown := shown s; limits := limits s; logarithmic := logarithmic s; autoscale := true |})
  end.
Definition do_calls (n_pixels : nat) (cs : list call) : res image_state := foldM (do_call n_pixels) cs (new_image n_pixels).
(** CameraImageImshow (plotting/camera.py:389-399): the artist holds the whole grid, so autoscale looks at every unmasked cell. *)
Definition grid_values (g : grid mcell) : list Qc := flat_map (fun c => match c with Val v => [v] | Masked => [] end) (List.concat g).
Definition imshow_limits (nr nc : nat) (pixels : list (Z * Z)) (val : list Qc) : res (option (Qc * Qc)) :=
  bind (set_image nr nc pixels val) (fun g => Ok (span (grid_values g))).

(** ** CameraPixelWaveformPlotter (plotting/waveform.py:192-301) *)
Record spine := { visible : bool; colour : nat; linewidth : Qc }.
Record axes := { left : spine; right : spine; bottom : spine; top : spine }.
Definition black : nat := 0.
Definition thin : Qc := Q2Qc (1 # 10).
(** A new axes: axes.linewidth was set to 0.1 (waveform.py:196). *)
Definition new_spine : spine := {| visible := true; colour := black; linewidth := thin |}.
Definition hide (b : bool) (s : spine) : spine := if b then {| visible := false; colour := colour s; linewidth := linewidth s |} else s.
(** waveform.py:231-238 and 290-297; the divisor is n_rows // 6, n_cols // 6. *)
Definition outline (n_rows n_cols : nat) (rc : nat * nat) (a : axes) : res axes :=
  let nr := Nat.div n_rows 6 in let nc := Nat.div n_cols 6 in
  if Nat.eqb nc 0 || Nat.eqb nr 0 then Raise ZeroDivisionError
  else Ok {| left := hide (negb (Nat.eqb (Nat.modulo (snd rc) nc) 0)) (left a);
             right := hide (negb (Nat.eqb (Nat.modulo (snd rc) nc) (nc - 1))) (right a);
             bottom := hide (negb (Nat.eqb (Nat.modulo (fst rc) nr) 0)) (bottom a);
             top := hide (negb (Nat.eqb (Nat.modulo (fst rc) nr) (nr - 1))) (top a) |}.
(** waveform.py:207-243: one axes per row of the mapping; the index of a mapping is 0, 1, 2, ... in row order, so the
    dictionary of axes is a list. Positions in the subplot grid come with it. *)
Definition subplot (n_rows : nat) (rc : nat * nat) : Z * Z := ((Z.of_nat n_rows - 1 - Z.of_nat (fst rc))%Z, Z.of_nat (snd rc)).
Definition new_axes : axes := {| left := new_spine; right := new_spine; bottom := new_spine; top := new_spine |}.
Definition pixel_page (n_rows n_cols : nat) (mapping : list (nat * nat)) : res (list axes) := mapM (fun rc => outline n_rows n_cols rc new_axes) mapping.
(** waveform.py:267-274: enumerate(pixel_mask); a mask longer than the camera ends in a KeyError. *)
Definition all_spines (s : spine) : axes := {| left := s; right := s; bottom := s; top := s |}.
Fixpoint highlight (mask : list bool) (c : nat) (page : list axes) : res (list axes) :=
  match mask, page with
  | [], _ => Ok page
  | _ :: _, [] => Raise KeyError
  | b :: mask, a :: page => bind (highlight mask c page) (fun r => Ok ((if b then all_spines {| visible := true; colour := c; linewidth := 1%Qc |} else a) :: r))
  end.
(** waveform.py:276-297 *)
Fixpoint reset (n_rows n_cols : nat) (mapping : list (nat * nat)) (page : list axes) : res (list axes) :=
  match mapping with
  | [] => Ok page
  | rc :: mapping =>
      match page with
      | [] => Raise KeyError
      | _ :: page => bind (outline n_rows n_cols rc (all_spines {| visible := true; colour := black; linewidth := thin |})) (fun a =>
                     bind (reset n_rows n_cols mapping page) (fun r => Ok (a :: r)))
      end
  end.

(** ** CameraTMWaveformPlotter (plotting/waveform.py:54-189) *)
(** Rows of the module mapping: slot, row, column. *)
Definition tm_row := (nat * (nat * nat))%type.
(** waveforms.mean(axis=0): sample s averaged over the pixels. *)
Definition mean_waveform (n_samples : nat) (w : list (list Qc)) : list Qc :=
  map (fun s => (qsum (map (fun wf => nth s wf 0%Qc) w) / qn (List.length w))%Qc) (seq 0 n_samples).
(** The text of one module: [tmpix|pixel] for each pixel below threshold (waveform.py:143-152). *)
Fixpoint outliers (w : list (list Qc)) (thresh : Qc) (tm : nat) (tmpixs : list nat) : res (list (nat * nat)) :=
  match tmpixs with
  | [] => Ok []
  | tmpix :: rest =>
      let pixel := (tm * 64 + tmpix)%nat in
      match nth_error w pixel with
      | None => Raise IndexError
      | Some wf => match qmax_list wf with
                   | None => Raise ValueError
                   | Some m => bind (outliers w thresh tm rest) (fun r => Ok (if qltb m thresh then (tmpix, pixel) :: r else r))
                   end
      end
  end.
(** One module's axes: position, list of outliers, whether the y and the x axis are drawn (waveform.py:167-185). *)
Record tm_axes := { at_row : Z; at_col : Z; text : list (nat * nat); y_axis : bool; x_axis : bool }.
Definition leftmost (mapping : list tm_row) (row col : nat) : bool := forallb (fun r => negb (Nat.eqb (fst (snd r)) row) || (col <=? snd (snd r))%nat) mapping.
Definition lowest (mapping : list tm_row) (row col : nat) : bool := forallb (fun r => negb (Nat.eqb (snd (snd r)) col) || (row <=? fst (snd r))%nat) mapping.
Definition module_page (n_rows n_samples : nat) (mapping : list tm_row) (fraction : Qc) (w : list (list Qc)) : res (list (nat * tm_axes)) :=
  let n_tm := Nat.div (List.length w) 64 in
  if negb (Nat.eqb (n_tm * 64) (List.length w)) then Raise ValueError                    (* waveforms.reshape (waveform.py:125) *)
  else match qmax_list (mean_waveform n_samples w) with
       | None => Raise ValueError                                                      (* max of nothing *)
       | Some m =>
           let thresh := (m * fraction)%Qc in
           mapM (fun r : tm_row => let '(tm, rc) := r in
             bind (outliers w thresh tm (seq 0 64)) (fun o =>
             Ok (tm, {| at_row := fst (subplot n_rows rc); at_col := snd (subplot n_rows rc); text := o;
                        y_axis := leftmost mapping (fst rc) (snd rc); x_axis := lowest mapping (fst rc) (snd rc) |}))) mapping
       end.
