(** Model of the monitor information in DL1 files (CHECLabPy/core/io/dl1_reader.py:96-111, 263-530).
    Values are exact rationals; table columns are data columns of one length without NaN.  Definitions only. *)
From Coq Require Import List ZArith QArith Qcanon Bool String.
From Verif.Base Require Import Py Num.
From Verif.Camera Require Import Model.
Import ListNotations.
Local Open Scope string_scope.
Local Open Scope list_scope.

(** A table: its columns in order.  None: the file has no such key. *)
Definition table := dict (list Qc).
Record monitor := { monitor_camera : option table; monitor_tm : option table; monitor_pixel : option table; n_events : Z; n_bytes : Z }.
(** A DL1 file: the integer columns of the data table that point to monitor entries, and the monitor information if the
    key monitor_metadata exists. *)
Record file := { index_columns : dict (list Z); info : option monitor }.

Inductive which := Camera | TM | Pixel.
Definition get_table (m : monitor) (k : which) : option table :=
  match k with Camera => monitor_camera m | TM => monitor_tm m | Pixel => monitor_pixel m end.
(** dl1_reader.py:302-315: get_storer raises KeyError for a missing key. *)
Definition columns (m : monitor) (k : which) : res (list string) :=
  match get_table m k with Some t => Ok (dkeys t) | None => Raise KeyError end.
(** dl1_reader.py:404-427 *)
Definition get_key_for_column (m : monitor) (column : string) : res which :=
  bind (columns m Camera) (fun c => if smem column c then Ok Camera else
  bind (columns m TM) (fun c => if smem column c then Ok TM else
  bind (columns m Pixel) (fun c => if smem column c then Ok Pixel else Raise KeyError))).
(** dl1_reader.py:429-451 *)
Definition select_column (m : monitor) (column : string) (key : option which) : res (list Qc) :=
  bind (match key with Some k => Ok k | None => get_key_for_column m column end) (fun k =>
  match get_table m k with Some t => dlookup column t | None => Raise KeyError end).
(** dl1_reader.py:453-476 *)
Definition select_columns (m : monitor) (cols : list string) (key : option which) : res (list (list Qc)) := mapM (fun c => select_column m c key) cols.
(** np.reshape of a flat array to n rows of k *)
Fixpoint reshape {A} (n k : nat) (l : list A) : list (list A) := match n with O => [] | S n => firstn k l :: reshape n k (skipn k l) end.
(** dl1_reader.py:478-498 *)
Definition select_column_as_array (m : monitor) (column : string) (key : option which) : res (list (list Qc)) :=
  bind (select_column m column key) (fun values =>
  let size := Z.of_nat (List.length values) in
  if (n_events m =? 0)%Z then Raise ZeroDivisionError
  else let n_idevice := (size / n_events m)%Z in
       (* two negative dimensions, or a product different from the size, are refused *)
       if (n_events m <? 0)%Z || negb (n_events m * n_idevice =? size)%Z then Raise ValueError
       else Ok (reshape (Z.to_nat (n_events m)) (Z.to_nat n_idevice) values)).
(** dl1_reader.py:500-517: a column named idevice is replaced by the key of the groupby and cannot be found in the result.
    Devices are integers. *)
Definition get_average (m : monitor) (column : string) : res (list Qc) :=
  bind (get_key_for_column m column) (fun key =>
  bind (select_column m "idevice" (Some key)) (fun idevice =>
  bind (select_column m column (Some key)) (fun values =>
  if String.eqb column "idevice" then Raise KeyError
  else Ok (map snd (agg (fun p => Qround.Qfloor (this (fst p))) (fun k _ g => (k, qmean (map snd g))) (combine idevice values)))))).
(** series[labels] on a default index: every label must exist; the result is indexed by the labels. *)
Definition by_label (values : list Qc) (labels : list Z) : res (list (Z * Qc)) :=
  mapM (fun i => if (0 <=? i)%Z then match nth_error values (Z.to_nat i) with Some v => Ok (i, v) | None => Raise KeyError end else Raise KeyError) labels.
Definition event_key (k : which) : string := match k with Camera => "monitor_camera_index" | TM => "monitor_tm_index" | Pixel => "monitor_pixel_index" end.
(** dl1_reader.py:96-111 and 263-291 *)
Definition get_matched_monitor_column (f : file) (column : string) : res (list (Z * Qc)) :=
  match info f with
  | None => Raise AttributeError
  | Some m =>
    bind (get_key_for_column m column) (fun key =>
    bind (dlookup (event_key key) (index_columns f)) (fun imonitor =>
    bind (select_column m column (Some key)) (fun values => by_label values imonitor)))
  end.
(** dl1_reader.py:333-352 *)
Definition load_entire_table (m : monitor) (k : which) (force : bool) : res table :=
  if (8000000000 <? n_bytes m)%Z && negb force then Raise MemoryError
  else match get_table m k with Some t => Ok t | None => Raise KeyError end.
