(** What the annotations of a camera image should show. *)
From Coq Require Import List ZArith QArith Qcanon Bool String.
From Verif.Base Require Import Py Num.
From Verif.Camera Require Import Model ModelLabels.
Import ListNotations.
Local Open Scope list_scope.

(** Upwards (true) or downwards (false). *)
Definition at_most (up : bool) (a b : Z) : Prop := if up then (a <= b)%Z else (b <= a)%Z.
Definition less (up : bool) (a b : Z) : Prop := if up then (a < b)%Z else (b < a)%Z.
(** p is the outermost pixel of its column, the first one listed if there are several. *)
Definition leads (up : bool) (l : list spot) (p : spot) : Prop :=
  exists a b, l = a ++ p :: b /\ (forall q, In q a -> s_col q = s_col p -> less up (s_row q) (s_row p)) /\ (forall q, In q b -> s_col q = s_col p -> at_most up (s_row q) (s_row p)).
(** The module reaches the edge of the camera in some column. *)
Definition on_edge (up : bool) (l : list spot) (t : Z) : Prop := exists p, leads up l p /\ s_slot p = t.
(** Coordinates of a pixel on the plot: metres, or column and row. *)
Definition at_x (k : axes_kind) (p : spot) : Qc := match k with Metres => s_x p | Cells => qz (s_col p) end.
Definition at_y (k : axes_kind) (p : spot) : Qc := match k with Metres => s_y p | Cells => qz (s_row p) end.
(** The largest (smallest) value of f over the pixels of module t. *)
Definition extreme (up : bool) (l : list spot) (t : Z) (f : spot -> Qc) (m : Qc) : Prop :=
  (exists p, In p l /\ s_slot p = t /\ f p = m) /\ forall p, In p l -> s_slot p = t -> if up then (f p <= m)%Qc else (m <= f p)%Qc.
(** No two pixels share a cell of the grid. *)
Definition one_per_cell (l : list spot) : Prop := NoDup (map (fun p => (s_row p, s_col p)) l).
(** Blocks of k by k pixels: two pixels have the same key exactly if they are in the same block, a key belongs to one
    module, and blocks below each other occupy the same columns. *)
Definition blocks (k : Z) (key : pixel -> Z) (l : list pixel) : Prop :=
  (forall p q, In p l -> In q l -> (key p = key q <-> (row p / k = row q / k)%Z /\ (col p / k = col q / k)%Z)) /\
  (forall p q, In p l -> In q l -> key p = key q -> slot p = slot q) /\
  (forall p q, In p l -> In q l -> (col p / k = col q / k)%Z -> exists r, In r l /\ key r = key p /\ col r = col q).
(** The words of a text and where it hangs; its horizontal position as well. *)
Definition caption (a : artist) : option (string * align) := match a with Text _ _ s va => Some (s, va) | _ => None end.
Definition across (a : artist) : option Qc := match a with Text x _ _ _ => Some x | _ => None end.
(** The points drawn by dots. *)
Definition dots (l : list artist) : list (Qc * Qc) := flat_map (fun a => match a with Dot x y => [(x, y)] | _ => [] end) l.
(** The pixels an index stands for: a list counts negative numbers from the end, a mask names those marked. *)
Definition picks (n : nat) (ix : index) (j : nat) : Prop :=
  match ix with
  | Ints l => exists i, In i l /\ (j < n)%nat /\ (i = Z.of_nat j \/ i = Z.of_nat j - Z.of_nat n)%Z
  | Mask l => nth_error l j = Some true
  end.
(** The index fits a camera of n pixels. *)
Definition fits (n : nat) (ix : index) : Prop :=
  match ix with
  | Ints l => forall i, In i l -> (- Z.of_nat n <= i < Z.of_nat n)%Z
  | Mask l => List.length l = n
  end.
