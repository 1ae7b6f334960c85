(** Model of the annotations of camera images (CHECLabPy/plotting/camera.py: labels of modules, arrow of the telescope,
    LED flashers, values written on pixels, highlighted pixels), for CameraImage (positions in metres) and
    CameraImageImshow (rows and columns), and of what they read from a mapping.  Positions are exact rationals.
    Colours, font sizes and what matplotlib does with the artists are left out.  Definitions only. *)
From Coq Require Import List ZArith QArith Qcanon Qround Bool String.
From Verif.Base Require Import Py Num Str.
From Verif.Camera Require Import Model.
Import ListNotations.
Local Open Scope list_scope.

(** ** Mappings at the level of pixels, superpixels and modules *)
(** The columns of a mapping read by the annotations. *)
Record spot := { s_slot : Z; s_row : Z; s_col : Z; s_x : Qc; s_y : Qc }.
(** fOTUp... entries of the metadata (utils/mapping.py:32-39). *)
Record marks := { up_x_l : Qc; up_x_u : Qc; up_y_l : Qc; up_y_u : Qc; up_col_l : Qc; up_col_u : Qc; up_row_l : Qc; up_row_u : Qc }.
(** A mapping with its metadata: number of rows and columns (None: NaN), size, marks. *)
Record view := { spots : list spot; v_rows : option Z; v_cols : option Z; v_size : Qc; v_marks : marks }.
Definition pixel_spot (p : pixel) : spot := {| s_slot := slot p; s_row := row p; s_col := col p; s_x := xpix p; s_y := ypix p |}.
Definition sp_spot (p : sp_row) : spot := {| s_slot := sp_slot p; s_row := sp_row_ p; s_col := sp_col p; s_x := sp_x p; s_y := sp_y p |}.
Definition tm_spot (p : tm_row) : spot := {| s_slot := tm p; s_row := tm_row_ p; s_col := tm_col p; s_x := tm_x p; s_y := tm_y p |}.
(** utils/mapping.py:5-41 *)
Definition pixel_view (l : list pixel) (nr nc : Z) (sz : Qc) (mk : marks) : view :=
  {| spots := map pixel_spot l; v_rows := Some nr; v_cols := Some nc; v_size := sz; v_marks := mk |}.
(** utils/mapping.py:78-104: every other entry of the metadata is copied as it is. *)
Definition sp_view (l : list pixel) (sz : Qc) (mk : marks) : view :=
  let df := agg superpixel sp_agg l in
  {| spots := map sp_spot df; v_rows := succ_opt (zmax (map sp_row_ df)); v_cols := succ_opt (zmax (map sp_col df)); v_size := (sz * qz 2)%Qc; v_marks := mk |}.
(** utils/mapping.py:107-132 *)
Definition tm_view (l : list pixel) (sz : Qc) (mk : marks) : view :=
  let df := agg slot tm_agg l in
  {| spots := map tm_spot df; v_rows := succ_opt (zmax (map tm_row_ df)); v_cols := succ_opt (zmax (map tm_col df)); v_size := (sz * qz 8)%Qc; v_marks := mk |}.

(** ** Artists *)
Inductive align := Bottom | Top | Centre.
Inductive artist := Text (x y : Qc) (s : string) (va : align) | Arrow (x y dx dy : Qc) | Dot (x y : Qc).
(** What a call adds to the axes and prints. *)
Definition outcome := res (list artist * list string).
Definition no_mapping : string := "Cannot annotate, no mapping attached to class".
(** CameraImage or CameraImageImshow. *)
Inductive axes_kind := Metres | Cells.

(** ** annotate_tm_edge_label (camera.py:217-243 and 483-509) *)
(** idxmax / idxmin of the rows of a group: the first of them. *)
Fixpoint first_best (better : Z -> Z -> bool) (best : spot) (l : list spot) : spot :=
  match l with
  | [] => best
  | p :: l => first_best better (if better (s_row p) (s_row best) then p else best) l
  end.
(** groupby('col').agg(f)['slot']: for every column the module of its first pixel with the extreme row. *)
Definition edge_slots (better : Z -> Z -> bool) (l : list spot) : list Z :=
  agg s_col (fun _ p g => s_slot (first_best better p (tl g))) l.
(** np.unique *)
Definition tm_top (l : list spot) : list Z := keys (edge_slots (fun a b => (b <? a)%Z) l).
Definition tm_bottom (l : list spot) : list Z := keys (edge_slots (fun a b => (a <? b)%Z) l).
(** m.loc[m['slot'] == tm] *)
Definition of_slot (t : Z) (l : list spot) : list spot := filter (fun p => (s_slot p =? t)%Z) l.
Definition or0 (o : option Qc) : Qc := match o with Some q => q | None => 0%Qc end.
(** Series.max(), min() of a column that is never empty here. *)
Definition highest (f : spot -> Qc) (l : list spot) : Qc := or0 (qmax_list (map f l)).
Definition lowest (f : spot -> Qc) (l : list spot) : Qc := or0 (qmin_list (map f l)).
Definition tm_txt (t : Z) : string := "TM" ++ pad02 t.
(** The coordinates of the plot and the distance of a label from its module. *)
Definition x_of (k : axes_kind) (p : spot) : Qc := match k with Metres => s_x p | Cells => qz (s_col p) end.
Definition y_of (k : axes_kind) (p : spot) : Qc := match k with Metres => s_y p | Cells => qz (s_row p) end.
(** camera.py:231, 237: pix_size * 0.7; 497, 503: n_rows/48 + 0.4.  n_rows is NaN only if there are no pixels, hence no
    labels. *)
Definition offset (k : axes_kind) (v : view) : Qc :=
  match k with
  | Metres => (v_size v * Q2Qc (7 # 10))%Qc
  | Cells => (qz (match v_rows v with Some n => n | None => 0%Z end) / qz 48 + Q2Qc (4 # 10))%Qc
  end.
Definition top_label (k : axes_kind) (v : view) (t : Z) : artist :=
  let df := of_slot t (spots v) in
  Text (qmean (map (x_of k) df)) (highest (y_of k) df + offset k v)%Qc (tm_txt t) Bottom.
Definition bottom_label (k : axes_kind) (v : view) (t : Z) : artist :=
  let df := of_slot t (spots v) in
  Text (qmean (map (x_of k) df)) (lowest (y_of k) df - offset k v)%Qc (tm_txt t) Top.
(** [ix]: whether DataFrame.ix exists (removed in pandas 1.0). *)
Definition annotate_tm_edge_label (k : axes_kind) (ix : bool) (m : option view) : outcome :=
  match m with
  | None => Ok ([], [no_mapping])
  | Some v =>
      if ix then Ok (map (top_label k v) (tm_top (spots v)) ++ map (bottom_label k v) (tm_bottom (spots v)), [])
      else Raise AttributeError
  end.

(** ** annotate_on_telescope_up (camera.py:139-155 and 433-449) *)
Definition up_from (k : axes_kind) (m : marks) : Qc * Qc := match k with Metres => (up_x_l m, up_y_l m) | Cells => (up_col_l m, up_row_l m) end.
Definition up_to (k : axes_kind) (m : marks) : Qc * Qc := match k with Metres => (up_x_u m, up_y_u m) | Cells => (up_col_u m, up_row_u m) end.
Definition annotate_on_telescope_up (k : axes_kind) (m : option view) : outcome :=
  match m with
  | None => Ok ([], [no_mapping])
  | Some v =>
      let a := up_from k (v_marks v) in
      let b := up_to k (v_marks v) in
      Ok ([Arrow (fst a) (snd a) (fst b - fst a)%Qc (snd b - snd a)%Qc; Text (fst a) (snd a) "ON-Telescope UP" Bottom], [])
  end.

(** ** annotate_led_flasher (camera.py:245-264), for CameraImage only *)
Definition annotate_led_flasher (m : option view) : outcome :=
  match m with
  | None => Ok ([], [no_mapping])
  | Some v =>
      let axl := up_x_l (v_marks v) in
      let ayl := (up_y_l (v_marks v) + qz 2 * v_size v)%Qc in
      let one (c : string * (Z * Z)) := [Dot (axl * qz (fst (snd c)))%Qc (ayl * qz (snd (snd c)))%Qc; Text (axl * qz (fst (snd c)))%Qc (ayl * qz (snd (snd c)))%Qc (fst c) Centre] in
      Ok (flat_map one [("0"%string, (1, 1)); ("1"%string, (-1, 1)); ("2"%string, (1, -1)); ("3"%string, (-1, -1))]%Z, [])
  end.

(** ** Values written on pixels (camera.py:157-192 and 451-481) *)
(** The argument: a one-dimensional array, or a pandas Series with integer labels. *)
Inductive values (V : Type) := Arr (l : list V) | Ser (l : list (Z * V)).
Arguments Arr {V}. Arguments Ser {V}.
Definition v_size_ {V} (v : values V) : nat := match v with Arr l => List.length l | Ser l => List.length l end.
(** values[pixel] for 0 <= pixel < size: by position in an array, by label in a Series (all entries with that label). *)
Definition v_at {V} (v : values V) (i : nat) : res (list V) :=
  match v with
  | Arr l => match nth_error l i with Some a => Ok [a] | None => Raise IndexError end
  | Ser l => match filter (fun e => (fst e =? Z.of_nat i)%Z) l with [] => Raise KeyError | es => Ok (map snd es) end
  end.
(** The colour of a pixel is the value at its position (camera.py:80: np.ma.masked_invalid(val)). *)
Definition shown {V} (v : values V) : list V := match v with Arr l => l | Ser l => map snd l end.
(** What is written: position and value. *)
Definition note (V : Type) : Type := (Qc * Qc) * list V.
(** self.xpix[pixel] with numpy indexing. *)
Definition add_text_to_pixel {V} (ps : list (Qc * Qc)) (pixel : Z) (v : list V) : res (note V) :=
  bind (axis_index (List.length ps) pixel) (fun i => match nth_error ps i with Some p => Ok (p, v) | None => Raise IndexError end).
(** assert values.size == n_pixels, then pixel by pixel. *)
Definition add_pixel_text {V} (ps : list (Qc * Qc)) (v : values V) : res (list (note V)) :=
  if (v_size_ v =? List.length ps)%nat
  then mapM (fun i => bind (v_at v i) (add_text_to_pixel ps (Z.of_nat i))) (seq 0 (List.length ps))
  else Raise AssertionError.

(** ** highlight_pixels (camera.py:194-215) *)
Inductive dtype := Float | Int | Bool_.
(** The image shown: None before the first assignment, else its dtype (and size: the number of pixels). *)
Definition shown_image := option dtype.
Inductive index := Ints (l : list Z) | Mask (l : list bool).
(** Assignment of a float to an element of an array. *)
Definition cast (d : dtype) (x : Qc) : Qc :=
  match d with
  | Float => x
  | Int => qz (if qltb x 0%Qc then Qceiling (this x) else Qfloor (this x))
  | Bool_ => if qeqb x 0%Qc then 0%Qc else 1%Qc
  end.
(** Indices into an axis of n selected by an index list or a boolean mask. *)
Definition selected (n : nat) (ix : index) : res (list nat) :=
  match ix with
  | Ints l => mapM (axis_index n) l
  | Mask l => if (List.length l =? n)%nat then Ok (map fst (filter snd (combine (seq 0 n) l))) else Raise IndexError
  end.
(** The line widths of the outlines, one per pixel.  np.zeros_like(None) has no axis. *)
Definition highlight_pixels (n : nat) (im : shown_image) (pixels : index) (linewidth : Qc) : res (list Qc) :=
  match im with
  | None => Raise IndexError
  | Some d => bind (selected n pixels) (fun js => Ok (fold_left (fun w j => list_set j (cast d linewidth) w) js (repeat 0%Qc n)))
  end.
