(** Model of CHECLabPy/utils/mapping.py (superpixel and module mappings, row and column of pixels),
    CHECLabPy/core/io/simtel.py (pixel order) and CHECLabPy/plotting/camera.py (CameraImageImshow).
    Positions are exact rationals.  Definitions only. *)
From Coq Require Import List ZArith QArith Qcanon Qround Bool String.
From Verif.Base Require Import Py Num.
Import ListNotations.
Local Open Scope list_scope.

(** ** Pixel mapping data frames (utils/mapping.py:20-41) *)
Record pixel := { superpixel : Z; slot : Z; asic : Z; row : Z; col : Z; xpix : Qc; ypix : Qc }.
(** The metadata dictionary.  n_rows and n_columns are None for NaN (maximum of an empty column). *)
Record metadata := { n_rows : option Z; n_columns : option Z; size : Qc; other : dict val }.
(** Dictionaries live in a store, because a data frame holds a reference to its metadata. *)
Definition heap := list metadata.
Record frame (A : Type) := { rows : list A; meta : nat }.
Arguments rows {A}. Arguments meta {A}.

(** Sorted distinct values of a key column: the keys of a pandas groupby. *)
Fixpoint insert_key (k : Z) (l : list Z) : list Z :=
  match l with
  | [] => [k]
  | h :: t => if (k <? h)%Z then k :: l else if (k =? h)%Z then l else h :: insert_key k t
  end.
Definition keys (l : list Z) : list Z := fold_right insert_key [] l.
(** groupby(key).agg(f): f applied to the rows of each group, groups in increasing order of key. *)
Definition agg {A B} (key : A -> Z) (f : Z -> A -> list A -> B) (l : list A) : list B :=
  flat_map (fun k => match filter (fun a => (key a =? k)%Z) l with [] => [] | a :: g => [f k a (a :: g)] end) (keys (map key l)).
(** Series.max() *)
Definition zmax (l : list Z) : option Z := match l with [] => None | a :: l => Some (fold_left Z.max l a) end.
Definition succ_opt (m : option Z) : option Z := match m with None => None | Some z => Some (z + 1)%Z end.

Record sp_row := { sp : Z; sp_slot : Z; sp_asic : Z; sp_row_ : Z; sp_col : Z; sp_x : Qc; sp_y : Qc }.
(** utils/mapping.py:92-96 *)
Definition sp_agg (k : Z) (a : pixel) (g : list pixel) : sp_row :=
  {| sp := k; sp_slot := slot a; sp_asic := asic a; sp_row_ := (row a / 2)%Z; sp_col := (col a / 2)%Z; sp_x := qmean (map xpix g); sp_y := qmean (map ypix g) |}.
Record tm_row := { tm : Z; tm_row_ : Z; tm_col : Z; tm_x : Qc; tm_y : Qc }.
(** utils/mapping.py:121-124 *)
Definition tm_agg (k : Z) (a : pixel) (g : list pixel) : tm_row :=
  {| tm := k; tm_row_ := (row a / 8)%Z; tm_col := (col a / 8)%Z; tm_x := qmean (map xpix g); tm_y := qmean (map ypix g) |}.
(** utils/mapping.py:97-103 and 125-131: metadata.copy() makes a new dictionary, whose entries are then replaced. *)
Definition new_metadata (h : heap) (m : nat) (rws cls : list Z) (factor : Z) : option heap :=
  match nth_error h m with
  | None => None
  | Some d => Some (h ++ [{| n_rows := succ_opt (zmax rws); n_columns := succ_opt (zmax cls); size := (size d * qz factor)%Qc; other := other d |}])
  end.
(** utils/mapping.py:78-104 *)
Definition get_superpixel_mapping (h : heap) (mapping : frame pixel) : option (heap * frame sp_row) :=
  let df := agg superpixel sp_agg (rows mapping) in
  match new_metadata h (meta mapping) (map sp_row_ df) (map sp_col df) 2 with
  | None => None
  | Some h' => Some (h', {| rows := df; meta := List.length h |})
  end.
(** utils/mapping.py:107-132 *)
Definition get_tm_mapping (h : heap) (mapping : frame pixel) : option (heap * frame tm_row) :=
  let df := agg slot tm_agg (rows mapping) in
  match new_metadata h (meta mapping) (map tm_row_ df) (map tm_col df) 8 with
  | None => None
  | Some h' => Some (h', {| rows := df; meta := List.length h |})
  end.

(** ** Two-dimensional numpy arrays *)
Definition grid (A : Type) := list (list A).
Definition full_grid {A} (n m : nat) (a : A) : grid A := repeat (repeat a m) n.
(** Index normalisation along an axis of n: negative indices count from the end. *)
Definition axis_index (n : nat) (i : Z) : res nat :=
  if (0 <=? i)%Z && (i <? Z.of_nat n)%Z then Ok (Z.to_nat i)
  else if (i <? 0)%Z && (- Z.of_nat n <=? i)%Z then Ok (Z.to_nat (i + Z.of_nat n))
  else Raise IndexError.
Fixpoint list_set {A} (i : nat) (a : A) (l : list A) : list A :=
  match l, i with
  | [], _ => []
  | _ :: t, O => a :: t
  | h :: t, S i => h :: list_set i a t
  end.
Definition cell {A} (g : grid A) (i j : nat) : option A := match nth_error g i with None => None | Some r => nth_error r j end.
Definition grid_set {A} (i j : nat) (a : A) (g : grid A) : grid A := match nth_error g i with None => g | Some r => list_set i (list_set j a r) g end.
(** data[row, col] = values: in the order of the index arrays, so the last value of a repeated cell stays.  Index errors
    are raised before anything is assigned. *)
Definition assign {A} (n m : nat) (g : grid A) (cells : list (Z * Z)) (values : list A) : res (grid A) :=
  match mapM (fun c => bind (axis_index n (fst c)) (fun i => bind (axis_index m (snd c)) (fun j => Ok (i, j)))) cells with
  | Raise e => Raise e
  | Ok ix => Ok (fold_left (fun g p => grid_set (fst (fst p)) (snd (fst p)) (snd p) g) (combine ix values) g)
  end.
(** data[row, col] *)
Definition take {A} (n m : nat) (g : grid A) (d : A) (cells : list (Z * Z)) : res (list A) :=
  mapM (fun c => bind (axis_index n (fst c)) (fun i => bind (axis_index m (snd c)) (fun j => Ok (match cell g i j with Some a => a | None => d end)))) cells.

(** ** SimtelReader pixel order (core/io/simtel.py:72-74)
    geometry: row and column of each simtel pixel; mapping: row and column of each CHECLabPy pixel. *)
Definition pixel_order (nr nc : nat) (geometry mapping : list (Z * Z)) : res (list nat) :=
  match assign nr nc (full_grid nr nc 0%nat) geometry (seq 0 (List.length geometry)) with
  | Raise e => Raise e
  | Ok camera_2d => take nr nc camera_2d 0%nat mapping
  end.
(** core/io/simtel.py:87: waveform[self.pixel_order] *)
Definition build_samples {A} (samples : list A) (order : list nat) : res (list A) :=
  mapM (fun i => match nth_error samples i with Some a => Ok a | None => Raise IndexError end) order.

(** ** CameraImageImshow (plotting/camera.py:343-433) *)
Inductive mcell := Masked | Val (v : Qc).
(** data[r0:r1, c0:c1] = np.ma.masked *)
Definition mask_rect (r0 r1 c0 c1 : nat) (g : grid mcell) : grid mcell :=
  map (fun p => if (r0 <=? fst p)%nat && (fst p <? r1)%nat
                then map (fun q => if (c0 <=? fst q)%nat && (fst q <? c1)%nat then Masked else snd q) (combine (seq 0 (List.length (snd p))) (snd p))
                else snd p) (combine (seq 0 (List.length g)) g).
(** plotting/camera.py:416-433 *)
Definition mask (nr nc : nat) (data : grid mcell) : grid mcell :=
  if (nr =? 48)%nat && (nc =? 48)%nat then
    mask_rect 40 48 40 48 (mask_rect 40 48 0 8 (mask_rect 0 8 0 8 (mask_rect 0 8 40 48 data)))
  else if (nr =? 24)%nat && (nc =? 24)%nat then
    mask_rect 20 24 20 24 (mask_rect 20 24 0 4 (mask_rect 0 4 0 4 (mask_rect 0 4 20 24 data)))
  else if (nr =? 6)%nat && (nc =? 6)%nat then
    mask_rect 5 6 5 6 (mask_rect 5 6 0 1 (mask_rect 0 1 0 1 (mask_rect 0 1 5 6 data)))
  else data.
(** plotting/camera.py:389-399: the data given to imshow by the image setter. Assigning to a masked cell unmasks it. *)
Definition set_image (nr nc : nat) (pixels : list (Z * Z)) (val : list Qc) : res (grid mcell) :=
  if negb (List.length val =? List.length pixels)%nat then Raise AssertionError
  else assign nr nc (mask nr nc (full_grid nr nc (Val 0%Qc))) pixels (map Val val).

(** ** get_row_column (utils/mapping.py:177-223)
    Square roots are avoided: distances are kept squared and compared as squares. *)
Definition qmin_list (l : list Qc) : option Qc := match l with [] => None | a :: l => Some (fold_left (fun m x => if qltb x m then x else m) l a) end.
Definition qmax_list (l : list Qc) : option Qc := match l with [] => None | a :: l => Some (fold_left (fun m x => if qltb m x then x else m) l a) end.
Definition sq (x : Qc) : Qc := (x * x)%Qc.
(** int(np.ceil(a / sqrt(d2))) for a >= 0, d2 > 0 *)
Definition ceil_ratio (a d2 : Qc) : Z := Z.sqrt_up (Qceiling (this (sq a / d2)%Qc)).
(** Bin of a value in np.histogram with n equal bins between the extremes (numpy widens an empty range by 1/2). *)
Definition bin_of (lo hi : Qc) (n : Z) (x : Qc) : Z :=
  let half := Q2Qc (1 # 2) in
  let '(lo, hi) := if qeqb lo hi then (lo - half, hi + half)%Qc else (lo, hi) in
  if qeqb x hi then (n - 1)%Z else Qfloor (this ((x - lo) * qz n / (hi - lo))%Qc).
Definition zrange (n : Z) : list Z := map Z.of_nat (seq 0 (Z.to_nat n)).
(** First index of the largest number *)
Fixpoint argmax_nat (l : list nat) : nat * nat :=
  match l with
  | [] => (0, 0)%nat
  | a :: l => let '(i, m) := argmax_nat l in if (m <=? a)%nat then (0, a)%nat else (S i, m)
  end.
Definition qsorted (l : list Qc) : bool := forallb (fun p => qleb (fst p) (snd p)) (combine l (tl l)).
Definition qrsorted (l : list Qc) : bool := forallb (fun p => qleb (snd p) (fst p)) (combine l (tl l)).
Definition count {A} (p : A -> bool) (l : list A) : nat := List.length (filter p l).
(** x >= f - sqrt m2 and x >= f + sqrt m2 *)
Definition above_lower (x f m2 : Qc) : bool := qleb f x || qleb (sq (f - x)%Qc) m2.
Definition above_upper (x f m2 : Qc) : bool := qleb f x && qleb m2 (sq (x - f)%Qc).
(** np.digitize(x, [*(full - mid), full[-1] + mid]) - 1 for increasing or decreasing edges, mid = sqrt m2 *)
Definition digitize (full : list Qc) (m2 : Qc) (x : Qc) : res Z :=
  let upper := above_upper x (last full 0%Qc) m2 in
  if qsorted full then Ok (Z.of_nat (count (fun f => above_lower x f m2) full + if upper then 1 else 0) - 1)%Z
  else if qrsorted full && qeqb m2 0%Qc then Ok (Z.of_nat (count (fun f => negb (above_lower x f m2)) full + if upper then 0 else 1) - 1)%Z
  else Raise ValueError.
(** Elementwise sum of two arrays with numpy broadcasting. *)
Definition broadcast_add (a b : list Qc) : res (list Qc) :=
  if (List.length a =? List.length b)%nat then Ok (map (fun p => fst p + snd p)%Qc (combine a b))
  else match a, b with
       | [x], _ => Ok (map (fun y => x + y)%Qc b)
       | _, [y] => Ok (map (fun x => x + y)%Qc a)
       | _, _ => Raise ValueError
       end.

Section RowColumn.
  Variable pix : list (Qc * Qc).
  (** np.histogram2d(...)[0] with the given weights at bin (i, j); nrow, ncol bins. *)
  Definition hist (lox hix loy hiy : Qc) (ncol nrow : Z) (w : Qc * Qc -> Qc) (i j : Z) : Qc :=
    qsum (map w (filter (fun p => (bin_of lox hix ncol (fst p) =? i)%Z && (bin_of loy hiy nrow (snd p) =? j)%Z) pix)).
  (** np.bincount(hist.nonzero()[0]).argmax(): the first index along the first axis with most nonzero cells. *)
  Definition fullest (ncol nrow : Z) (h : Z -> Z -> Qc) : res Z :=
    let '(i, m) := argmax_nat (map (fun i => count (fun j => negb (qeqb (h i j) 0%Qc)) (zrange nrow)) (zrange ncol)) in
    if (m =? 0)%nat then Raise ValueError else Ok (Z.of_nat i).
  Definition get_row_column : res (list Z * list Z) :=
    match pix with
    | [] => Raise IndexError
    | p0 :: rest =>
      match qmin_list (map (fun p => sq (fst p - fst p0) + sq (snd p - snd p0))%Qc rest),
            qmin_list (map fst pix), qmax_list (map fst pix), qmin_list (map snd pix), qmax_list (map snd pix) with
      | Some d2, Some lox, Some hix, Some loy, Some hiy =>
        (* division by zero gives inf, or nan for 0 / 0, which int() refuses *)
        if qeqb d2 0%Qc then (if qeqb loy hiy then Raise ValueError else Raise OverflowError)
        else
          let nrow := (ceil_ratio (hiy - loy)%Qc d2 + 1)%Z in
          let ncol := (ceil_ratio (hix - lox)%Qc d2 + 1)%Z in
          let hist_x := hist lox hix loy hiy ncol nrow fst in
          let hist_y := hist lox hix loy hiy ncol nrow snd in
          let hist_c := hist lox hix loy hiy ncol nrow (fun _ => 1%Qc) in
          bind (fullest ncol nrow hist_x) (fun full_col =>
          bind (fullest ncol nrow hist_y) (fun full_row =>
          (* full_col, an index along x, is used along y *)
          if (nrow <=? full_col)%Z then Raise IndexError
          else
            let full_x := map (fun i => hist_x i full_col) (filter (fun i => negb (qeqb (hist_c i full_col) 0%Qc)) (zrange ncol)) in
            let full_y := map (fun j => hist_y full_row j) (filter (fun j => negb (qeqb (hist_c full_row j) 0%Qc)) (zrange nrow)) in
            match full_x, full_y with
            | x0 :: _, y0 :: _ =>
              bind (broadcast_add (map (fun x => sq (x - x0)%Qc) full_x) (map (fun y => sq (y - y0)%Qc) full_y)) (fun d =>
              match qmin_list (tl d) with
              | None => Raise ValueError
              | Some md2 =>
                let m2 := (md2 / qz 4)%Qc in
                bind (mapM (fun p => digitize full_x m2 (fst p)) pix) (fun column =>
                bind (mapM (fun p => digitize full_y m2 (snd p)) pix) (fun row_ => Ok (row_, column)))
              end)
            | _, _ => Raise IndexError
            end))
      | _, _, _, _, _ => Raise ValueError
      end
    end.
End RowColumn.
