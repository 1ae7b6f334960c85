(** Model of CHECLabPy/scripts/extract_dl1.py and CHECLabPy/core/io/dl1_reader.py (the DL1Reader part).

    Simplifications:
    - a row of the 'data' table has the integer columns that the writer casts and one abstract
      payload [V] for all other columns; the float columns' downcast to float32 is an arbitrary
      function [down] of the payload of the row;
    - rows of the 'mc' and 'pointing' tables have an event number and a payload;
    - times are integers (nanoseconds); exceptions of the extractor are not modelled. *)
From Coq Require Import List ZArith String Ascii Bool.
From Verif.Base Require Import Py Str.
From Verif.Hdf5 Require Import Model.
Import ListNotations.
Local Open Scope string_scope.
Local Open Scope list_scope.
Local Open Scope Z_scope.
Local Open Scope py_scope.

(** A row of the 'data' table ([pd.DataFrame(dl1)], extract_dl1.py:57-61, 162-172). *)
Record drow (V : Type) := D {
  d_iev : Z; d_pixel : Z; d_fci : Z; d_tack : Z; d_mctrue : option Z; d_pay : V }.
Arguments D {V} _ _ _ _ _ _.
Arguments d_iev {V} _.
Arguments d_pixel {V} _.
Arguments d_fci {V} _.
Arguments d_tack {V} _.
Arguments d_mctrue {V} _.
Arguments d_pay {V} _.

Inductive row (V : Type) :=
| RData (d : drow V)
| RAux (iev : Z) (p : V).
Arguments RData {V} _.
Arguments RAux {V} _ _.

Definition row_iev {V} (r : row V) : Z :=
  match r with RData d => d_iev d | RAux i _ => i end.
Definition row_pixel {V} (r : row V) : Z :=
  match r with RData d => d_pixel d | RAux _ _ => 0 end.

(** Fixed width casts (numpy [astype] of integers wraps). *)
Definition u16 (z : Z) : Z := z mod 2 ^ 16.
Definition u32 (z : Z) : Z := z mod 2 ^ 32.
Definition u64 (z : Z) : Z := z mod 2 ^ 64.

(** An event as delivered by the waveform reader (core/io/waveform.py:8-41). *)
Record wf (B : Type) := WF {
  wf_iev : Z; wf_stale : bool; wf_missing : bool; wf_tcpu : Z; wf_tack : Z;
  wf_mctrue : option (list Z); wf_body : B }.
Arguments WF {B} _ _ _ _ _ _ _.
Arguments wf_iev {B} _.
Arguments wf_stale {B} _.
Arguments wf_missing {B} _.
Arguments wf_tcpu {B} _.
Arguments wf_tack {B} _.
Arguments wf_mctrue {B} _.
Arguments wf_body {B} _.

(** [DataFrame.sort_values(["iev", "pixel"])]: insertion sort on the two keys. *)
Definition row_le {V} (a b : row V) : bool :=
  (row_iev a <? row_iev b) || ((row_iev a =? row_iev b) && (row_pixel a <=? row_pixel b)).

Fixpoint insert {V} (x : row V) (l : list (row V)) : list (row V) :=
  match l with
  | [] => [x]
  | y :: t => if row_le x y then x :: l else y :: insert x t
  end.

Fixpoint sort_rows {V} (l : list (row V)) : list (row V) :=
  match l with
  | [] => []
  | x :: t => insert x (sort_rows t)
  end.

Section Dl1.
  Context {V B St : Type}.
  Variable mem : list (row V) -> Z.
  Variable down : V -> V.

  (** extract_dl1.py:18-30: casts of one row. *)
  Definition cast_row (r : row V) : row V :=
    match r with
    | RData d => RData (D (u32 (d_iev d)) (u32 (d_pixel d)) (u16 (d_fci d)) (u64 (d_tack d))
                          (option_map u32 (d_mctrue d)) (down (d_pay d)))
    | RAux i p => RAux (u32 i) (down p)
    end.

  (** extract_dl1.py:16-32 [_prepare_before_append]: frames with a 'pixel' column are sorted. *)
  Definition dl1_prep (df : list (row V)) : list (row V) :=
    match df with
    | RData _ :: _ => sort_rows (map cast_row df)
    | _ => map cast_row df
    end.

  (** The extractor (extract_dl1.py:151-174): stateful (rolling baseline); per pixel the
      first_cell_id and the other columns. *)
  Variable ext : St -> wf B -> St * list (Z * V).

  (** extract_dl1.py:131-133 [skip_event] *)
  Definition skip_event (w : wf B) : bool := wf_stale w || wf_missing w.

  (** [pd.DataFrame(dict(iev=..., pixel=arange(n_pixels), ...))]: scalars are broadcast, arrays are
      zipped (extract_dl1.py:97, 162-174). *)
  Definition mc_at (w : wf B) (i : nat) : option Z :=
    match wf_mctrue w with Some l => nth_error l i | None => None end.

  Fixpoint event_rows_from (w : wf B) (i : nat) (vals : list (Z * V)) : list (row V) :=
    match vals with
    | [] => []
    | (fci, v) :: t =>
        RData (D (wf_iev w) (Z.of_nat i) fci (wf_tack w) (mc_at w i) v) :: event_rows_from w (S i) t
    end.

  Definition event_rows (w : wf B) (vals : list (Z * V)) : list (row V) := event_rows_from w 0 vals.

  (** Reader properties used by write_dl1_file. [r_mc], [r_pointing]: per event payloads of the
      simtel tables, [r_base]: metadata fields other than the four set by write_dl1_file. *)
  Record source := Src {
    s_is_mc : bool;
    s_mc : wf B -> V;
    s_pointing : wf B -> V;
    s_mapping : list (row V);
    s_mapping_md : dict val;
    s_base : dict val;
    s_config : dict val;
    s_mcheader : dict val }.

  Record counts := Cnt { c_proc : Z; c_skip : Z; c_start : option Z; c_end : option Z }.

  (** extract_dl1.py:48-72: the event loop; returns the writer calls it makes. *)
  Fixpoint dl1_loop (src : source) (wfs : list (wf B)) (s : St) (c : counts)
    : list (op (row V)) * counts :=
    match wfs with
    | [] => ([], c)
    | w :: t =>
        if skip_event w then
          dl1_loop src t s (Cnt (c_proc c) (c_skip c + 1) (c_start c) (c_end c))
        else
          let '(s', vals) := ext s w in
          let start := match c_start c with None => Some (wf_tcpu w) | x => x end in
          let calls :=
            Append "data" (event_rows w vals) ::
            (if s_is_mc src then
               [Append "mc" [RAux (wf_iev w) (s_mc src w)];
                Append "pointing" [RAux (wf_iev w) (s_pointing src w)]]
             else []) in
          let '(rest, c') := dl1_loop src t s' (Cnt (c_proc c + 1) (c_skip c) start (Some (wf_tcpu w))) in
          (calls ++ rest, c')
    end.

  Definition opt_val (o : option Z) : val := match o with Some z => VInt z | None => VNone end.

  (** extract_dl1.py:121-129: per-module metadata dicts. *)
  Definition tm_key (tm : Z) : string := ("TM" ++ pad02 tm)%string.
  Definition sp_key (tm sp : Z) : string := ("TM" ++ pad02 tm ++ "_SP" ++ pad02 sp)%string.

  Definition zrange (n : Z) : list Z := map Z.of_nat (seq 0 (Z.to_nat n)).

  Definition tm_dict (n_modules : Z) (get : Z -> val) : dict val :=
    fold_left (fun d tm => dset (tm_key tm) (get tm) d) (zrange n_modules) [].

  Definition sp_dict (n_modules n_sp : Z) (get : Z -> Z -> val) : dict val :=
    fold_left (fun d tm =>
      fold_left (fun d' sp => dset (sp_key tm sp) (get tm sp) d') (zrange n_sp) d)
      (zrange n_modules) [].

  (** What the waveform reader reports per module (core/io/waveform.py:108-121, overridden by the
      concrete readers). *)
  Record modules := Mods {
    m_n : Z; m_nsp : Z;
    m_sn : Z -> val; m_sipm : Z -> val; m_prim : Z -> val;
    m_dac : Z -> Z -> val; m_hvon : Z -> Z -> val }.

  (** extract_dl1.py:42-90: all writer calls of write_dl1_file. *)
  Definition dl1_ops (src : source) (ms : modules) (n_pixels : Z) (s0 : St) (wfs : list (wf B))
    : list (op (row V)) :=
    let '(calls, c) := dl1_loop src wfs s0 (Cnt 0 0 None None) in
    let meta := dupdate (dupdate (s_base src)
                  [("n_modules", VInt (m_n ms)); ("n_pixels", VInt n_pixels);
                   ("n_superpixels_per_module", VInt (m_nsp ms))])
                  [("n_events", VInt (c_proc c)); ("n_skipped", VInt (c_skip c));
                   ("start_time", opt_val (c_start c)); ("end_time", opt_val (c_end c))] in
    calls ++
    [AddMap (s_mapping src) (s_mapping_md src);
     AddMeta "data" "metadata" meta;
     AddMeta "data" "config" (s_config src);
     AddMeta "data" "sn" (tm_dict (m_n ms) (m_sn ms));
     AddMeta "data" "sipm_temp" (tm_dict (m_n ms) (m_sipm ms));
     AddMeta "data" "primary_temp" (tm_dict (m_n ms) (m_prim ms));
     AddMeta "data" "dac" (sp_dict (m_n ms) (m_nsp ms) (m_dac ms));
     AddMeta "data" "hvon" (sp_dict (m_n ms) (m_nsp ms) (m_hvon ms))] ++
    (if s_is_mc src then [AddMeta "mc" "mcheader" (s_mcheader src)] else []).

  (** ** DL1Reader *)

  (** dl1_reader.py:50-52 and the properties reading from it (75-119). *)
  Definition md_int (r : reader (row V)) (fld : string) : res Z :=
    do md <- get_metadata r "data" "metadata";
    do v <- dlookup fld md;
    match v with VInt z => Ok z | _ => Raise TypeError end.

  (** The table behind [store.select]/[select_column] (pandas: fixed format is a TypeError). *)
  Definition data_table (r : reader (row V)) : res (list (row V)) :=
    match dget "data" (r_store r) with
    | None => Raise KeyError
    | Some n => match n_fmt n with Fixed => Raise TypeError | Table => Ok (n_rows n) end
    end.

  (** dl1_reader.py:41-48 [event_lookup]: reshape to (n_events, n_pixels), column 0. *)
  Definition event_lookup (r : reader (row V)) : res (list Z) :=
    do rows <- data_table r;
    do ne <- md_int r "n_events";
    do np <- md_int r "n_pixels";
    if negb (Z.of_nat (List.length rows) =? ne * np) || (ne <? 0) || (np <? 0) then Raise ValueError
    else if np =? 0 then Raise IndexError
    else Ok (map (fun i => nth (i * Z.to_nat np) (map row_iev rows) 0) (seq 0 (Z.to_nat ne))).

  (** dl1_reader.py:36-39 [select_event_index] *)
  Definition select_event_index (r : reader (row V)) (index : nat) : res (list (row V)) :=
    do np <- md_int r "n_pixels";
    do rows <- data_table r;
    Ok (firstn (Z.to_nat np) (skipn (index * Z.to_nat np) rows)).

  (** [np.where(lookup == iev)[0]] *)
  Fixpoint where_eq (iev : Z) (i : nat) (l : list Z) : list nat :=
    match l with
    | [] => []
    | x :: t => if x =? iev then i :: where_eq iev (S i) t else where_eq iev (S i) t
    end.

  (** dl1_reader.py:29-34 [__getitem__]: any IndexError of the lookup becomes the message. *)
  Definition dl1_getitem (r : reader (row V)) (iev : Z) : res (list (row V)) :=
    do l <- event_lookup r;
    match where_eq iev 0 l with
    | [] => Raise IndexError
    | i :: _ => select_event_index r i
    end.

  (** dl1_reader.py:212-222 [iterate_over_events] *)
  Definition iterate_over_events (r : reader (row V)) : res (list (list (row V))) :=
    do ne <- md_int r "n_events";
    mapM (select_event_index r) (seq 0 (Z.to_nat ne)).

  (** [np.where(np.isin(lookup, event_list))[0]] *)
  Fixpoint where_in (evs : list Z) (i : nat) (l : list Z) : list nat :=
    match l with
    | [] => []
    | x :: t => if existsb (Z.eqb x) evs then i :: where_in evs (S i) t else where_in evs (S i) t
    end.

  (** dl1_reader.py:224-240 [iterate_over_selected_events] *)
  Definition iterate_over_selected (r : reader (row V)) (evs : list Z) : res (list (list (row V))) :=
    do l <- event_lookup r;
    mapM (select_event_index r) (where_in evs 0 l).

  (** dl1_reader.py:129-155 [get_sn], [get_sipm_temp], [get_primary_temp] ([name] is the dict) *)
  Definition get_tm (name : string) (r : reader (row V)) (tm : Z) : res val :=
    do n <- md_int r "n_modules";
    if n <=? tm then Raise IndexError
    else do d <- get_metadata r "data" name; dlookup (tm_key tm) d.

  (** dl1_reader.py:157-169 [get_sp_dac], [get_sp_hvon] *)
  Definition get_sp (name : string) (r : reader (row V)) (tm sp : Z) : res val :=
    do n <- md_int r "n_modules";
    if n <=? tm then Raise IndexError
    else
      do m <- md_int r "n_superpixels_per_module";
      if m <=? sp then Raise IndexError
      else do d <- get_metadata r "data" name; dlookup (sp_key tm sp) d.
End Dl1.

(** extract_dl1.py:36-40: default output path. *)
Definition out_path (is_mc : bool) (path : string) : string :=
  if is_mc then py_replace ".simtel.gz" "_dl1.h5" path
  else py_replace ".tio" ".h5" (py_replace "_r1" "_dl1" path).
