(** Model of the binned curves of CHECLabPy/plotting/resolutions.py.  Definitions only.

    Simplifications:
    - numbers are exact; of the combined error its square is modelled;
    - the bin edges, [np.geomspace(0.1, x.max(), 100)], are a parameter (a function of the largest value), since they are
      rounded powers; the theorems ask of them that they increase from 0.1 to the largest value;
    - scipy counts a value equal to the last edge to the last bin up to a rounding to some decimals; no value is above the last
      edge, so that only equal ones are concerned;
    - colours, caps and axes are left out. *)
From Coq Require Import List ZArith QArith Qcanon Bool Arith.
From Verif.Base Require Import Py Num.
Import ListNotations.
Local Open Scope list_scope.

(** A point: x, y and the error of y. *)
Definition point := (Qc * Qc * Qc)%type.
Definition px (p : point) : Qc := fst (fst p).
Definition py (p : point) : Qc := snd (fst p).
Definition pe (p : point) : Qc := snd p.

Definition tenth : Qc := Q2Qc (1 # 10).
(** x.max(); an empty Series has NaN, and no edges can be made of it. *)
Definition top (pts : list point) : res Qc :=
  match pts with
  | [] => Raise ValueError
  | p :: pts => Ok (fold_left (fun m p => if qltb m (px p) then px p else m) pts (px p))
  end.
(** np.digitize(x, edges), and scipy's treatment of the last edge: 0 is below the first edge, n_edges above the last. *)
Definition bin_number (edges : list Qc) (x : Qc) : nat :=
  let c := List.length (filter (fun e => qleb e x) edges) in
  if qeqb x (last edges 0%Qc) then (c - 1)%nat else c.
Definition group (edges : list Qc) (k : nat) (pts : list point) : list point := filter (fun p => Nat.eqb (bin_number edges (px p)) k) pts.
(** scipy refuses edges that do not increase. *)
Fixpoint increasing (l : list Qc) : bool :=
  match l with
  | a :: ((b :: _) as t) => qltb a b && increasing t
  | _ => true
  end.
(** resolutions.py:7-8, squared *)
Definition sum_errors2 (l : list Qc) : Qc := (qsum (map (fun e => e * e) l) / (qn (List.length l) * qn (List.length l)))%Qc.
(** resolutions.py:11-21: the means of the bins that are not empty. *)
Definition bin_points (geomspace : Qc -> list Qc) (pts : list point) : res (list point) :=
  bind (top pts) (fun m =>
  let edges := geomspace m in
  if negb (increasing edges) then Raise ValueError else
  let bins := map (fun k => group edges k pts) (seq 1 (List.length edges - 1)) in
  Ok (map (fun g => (qmean (map px g), qmean (map py g), sum_errors2 (map pe g))) (filter (fun g => negb (Nat.eqb (List.length g) 0)) bins))).

(** resolutions.py:30-34 *)
Definition set_store {A} (true_charge : A -> Qc) (rows : list A) : list A := filter (fun r => qltb (Q2Qc (1 # 1000)) (true_charge r)) rows.
(** resolutions.py:46-64: a row is (pixel, point); [None] is plot_camera. *)
Definition plot_curve (geomspace : Qc -> list Qc) (rows : list (nat * point)) (pixel : option nat) : res (list point) :=
  let rows := set_store (fun r => px (snd r)) rows in
  let rows := match pixel with Some p => filter (fun r => Nat.eqb (fst r) p) rows | None => rows end in
  bin_points geomspace (map snd rows).

(** ** ChargeMeanPlotter, resolutions.py:197-236: the range of all curves so far, and the curve that is drawn. *)
Definition limits := option (Qc * Qc).
Definition lower (a : Qc) (l : list Qc) : Qc := fold_left (fun m x => if qltb x m then x else m) l a.
Definition upper (a : Qc) (l : list Qc) : Qc := fold_left (fun m x => if qltb m x then x else m) l a.
Definition mean_plot (s : limits) (curve : list point) : res (limits * list (Qc * Qc)) :=
  match map px curve with
  | [] => Raise ValueError
  | x :: xs =>
      let lo := lower x xs in let hi := upper x xs in
      Ok (match s with
          | None => Some (lo, hi)
          | Some (a, b) => Some (if qltb lo a then lo else a, if qltb b hi then hi else b)
          end, map (fun p => (px p, (py p / px p)%Qc)) curve)
  end.
(** finish, resolutions.py:238-240: the ends of the line at 1. *)
Definition mean_finish (s : limits) : res (Qc * Qc) := match s with Some r => Ok r | None => Raise TypeError end.
