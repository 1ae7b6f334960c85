(** Model of get_running_mean (examples/pandas_cookbook.py:129-197): the statistics of the charge per module (TM), once accumulated
    event by event (the class RunningStats) and once by pandas from the entire table, and the comparison that is printed.

    Rows and groupby are those of [Resol/Model.v]; the key of a row is (tm, 0).  Numbers are exact.  Where the code takes a square root
    the model keeps the square.  np.std handed to agg is pandas' own std (with the Bessel correction), as the cookbook says
    itself for std() in lines 96-112. *)
From Coq Require Import List ZArith QArith Qcanon Bool.
From Verif.Base Require Import Py Num.
From Verif.Resol Require Import Model.
Import ListNotations.
Local Open Scope list_scope.

(** An event: the pixel and the charge of each row. *)
Definition reading := (Z * Qc)%type.
(** 148-157: pixel // 64 rounds down *)
Definition running_row (x : reading) : row :=
  let '(pixel, charge) := x in {| rkey := ((pixel / 64)%Z, 0%Qc); cols := [charge; (charge * charge)%Qc; 1%Qc] |}.
(** 147-161 *)
Definition running_add (bytes : list row -> Z) (max_bytes : Z) (s : obj) (event : list reading) : res obj :=
  add_rows bytes max_bytes s (map running_row event).
(** 169-179. The last column is the square of std. *)
Record run_row := { u_tm : Z; u_sum : Qc; u_sum2 : Qc; u_n : Qc; u_mean : Qc; u_var : Qc }.
Definition run_columns (r : row) : run_row :=
  let sum := nth 0 (cols r) 0%Qc in
  let sum2 := nth 1 (cols r) 0%Qc in
  let n := nth 2 (cols r) 0%Qc in
  let mean := (sum / n)%Qc in
  {| u_tm := fst (rkey r); u_sum := sum; u_sum2 := sum2; u_n := n; u_mean := mean; u_var := (sum2 / n - mean * mean)%Qc |}.
Definition running_finish (s : obj) : res (list run_row) :=
  (do s1 <- amalgamate s; Ok (map run_columns (match df s1 with Some t => t | None => [] end)))%py.
(** 181-185 *)
Definition running (bytes : list row -> Z) (max_bytes : Z) (events : list (list reading)) : res (list run_row) :=
  (do s <- foldM (running_add bytes max_bytes) events new_obj; running_finish s)%py.

(** ** 187-189: groupby('tm').agg(['mean', np.std]) of the entire table; the index of the result is the tm. *)
Record pd_row := { d_tm : Z; d_mean : Qc; d_var : option Qc }.
Fixpoint insert_tm (k : Z) (l : list Z) : list Z :=
  match l with [] => [k] | h :: t => if (k =? h)%Z then l else if (k <? h)%Z then k :: l else h :: insert_tm k t end.
Definition group_tm (table : list reading) : list Z := fold_left (fun l x => insert_tm (fst x / 64)%Z l) table [].
Definition charges_tm (tm : Z) (table : list reading) : list Qc := map snd (filter (fun x => (fst x / 64 =? tm)%Z) table).
Definition pd_std2 (l : list Qc) : option Qc :=
  let m := (qsum l / qn (List.length l))%Qc in
  match List.length l with
  | S (S k) => Some (qsum (map (fun x => (x - m) * (x - m))%Qc l) / qn (S k))%Qc
  | _ => None
  end.
Definition pd_stats (table : list reading) : list pd_row :=
  map (fun tm => let l := charges_tm tm table in {| d_tm := tm; d_mean := (qsum l / qn (List.length l))%Qc; d_var := pd_std2 l |}) (group_tm table).
(** 190-191: a column from another table is aligned on the index: that of the accumulated table is the row number (reset_index), that of
    the other one is the tm. [None] is NaN. *)
Definition aligned {A} (get : pd_row -> option A) (stats : list pd_row) (i : nat) : option A :=
  match find (fun d => (d_tm d =? Z.of_nat i)%Z) stats with Some d => get d | None => None end.
Record cook_row := { k_run : run_row; k_pd_mean : option Qc; k_pd_var : option Qc }.
Definition running_mean (bytes : list row -> Z) (max_bytes : Z) (events : list (list reading)) : res (list cook_row) :=
  rmap (fun rows => let stats := pd_stats (List.concat events) in
          map (fun ir => {| k_run := snd ir; k_pd_mean := aligned (fun d => Some (d_mean d)) stats (fst ir); k_pd_var := aligned d_var stats (fst ir) |})
            (combine (seq 0 (List.length rows)) rows))
       (running bytes max_bytes events).
