(** Model of CHECLabPy/core/io/hdf5_writer.py, hdf5_reader.py and hdf5_appender.py.

    Simplifications (all files):
    - a dataframe is the list of its rows (type [A]); all frames appended under one key have the
      same columns; the row index is not modelled;
    - [mem] is [df.memory_usage(index=True, deep=True).sum()], a function of the rows;
    - the HDFStore is a dict key -> node; only dict valued attributes of a node are modelled
      (pandas' own attributes are not; [info] is, because the reader mentions it);
    - files are the value of the store when it is closed. *)
From Coq Require Import List ZArith String Ascii Bool.
From Verif.Base Require Import Py.
Import ListNotations.
Local Open Scope string_scope.
Local Open Scope list_scope.
Local Open Scope Z_scope.
Local Open Scope py_scope.

(** CHECLabPy/version.py:1 *)
Definition lib_version : string := "3.1.0".

Inductive fmt := Fixed | Table.

Record node (A : Type) := Node {
  n_fmt : fmt;
  n_rows : list A;
  n_attrs : dict (dict val) }.
Arguments Node {A} n_fmt n_rows n_attrs.
Arguments n_fmt {A} _.
Arguments n_rows {A} _.
Arguments n_attrs {A} _.

Definition store (A : Type) := dict (node A).

Section Store.
  Context {A : Type}.

  (** [store[key] = df]: pandas HDFStore.put, fixed format; the old node and its attributes go. *)
  Definition st_put (key : string) (rows : list A) (s : store A) : store A :=
    dset key (Node Fixed rows []) s.

  (** [store.append(key, df)]: pandas HDFStore.append / _write_to_group: an empty frame is not
      stored at all, appending to a fixed format node is a ValueError. *)
  Definition st_append (key : string) (rows : list A) (s : store A) : res (store A) :=
    match rows with
    | [] => Ok s
    | _ :: _ =>
        match dget key s with
        | None => Ok (dset key (Node Table rows [("info", [])]) s)
        | Some n =>
            match n_fmt n with
            | Fixed => Raise ValueError
            | Table => Ok (dset key (Node Table (n_rows n ++ rows) (n_attrs n)) s)
            end
        end
    end.

  (** [setattr(store.get_storer(key).attrs, name, d)] for a key known to be in the store. *)
  Definition st_setattr (key name : string) (d : dict val) (s : store A) : store A :=
    match dget key s with
    | None => s
    | Some n => dset key (Node (n_fmt n) (n_rows n) (dset name d (n_attrs n))) s
    end.
End Store.

(** State of an HDF5Writer (hdf5_writer.py:22-30). [w_keys] is the set [self.keys]. *)
Record writer (A : Type) := W {
  w_keys : list string;
  w_meta : dict (dict (dict val));
  w_buf : dict (list (list A));
  w_bufb : dict Z;
  w_nb : dict Z;
  w_store : store A }.
Arguments W {A} _ _ _ _ _ _.
Arguments w_keys {A} _.
Arguments w_meta {A} _.
Arguments w_buf {A} _.
Arguments w_bufb {A} _.
Arguments w_nb {A} _.
Arguments w_store {A} _.

(** Public operations of the writer. *)
Inductive op (A : Type) :=
| Append (key : string) (df : list A)
| Write (kvs : list (string * list A))
| AddMeta (key name : string) (kw : dict val)
| AddMap (df : list A) (md : dict val).
Arguments Append {A} _ _.
Arguments Write {A} _.
Arguments AddMeta {A} _ _ _.
Arguments AddMap {A} _ _.

(** [set.add] *)
Definition set_add (k : string) (l : list string) : list string :=
  if smem k l then l else l ++ [k].

(** hdf5_writer.py:104 [0.5E9] *)
Definition flush_limit : Z := 500000000.

Section Writer.
  Context {A : Type}.
  Variable mem : list A -> Z.
  (** [_prepare_before_append] (hdf5_writer.py:38-52, overridden by DL1Writer). *)
  Variable prep : list A -> list A.

  (** hdf5_writer.py:10-30 *)
  Definition w_init : writer A := W [] [] [] [] [] [].

  (** hdf5_writer.py:54-77 [_append_to_store]. *)
  Definition w_flush (key : string) (w : writer A) : res (writer A) :=
    match dgetd [] key (w_buf w) with
    | [] => Ok w
    | dfs =>
        let df := prep (List.concat dfs) in
        match st_append key df (w_store w) with
        | Raise e => Raise e
        | Ok s =>
            Ok (W (w_keys w) (w_meta w)
                  (dset key [] (w_buf w))
                  (dset key 0 (w_bufb w))
                  (dset key (dgetd 0 key (w_nb w) + mem df) (w_nb w))
                  s)
        end
    end.

  (** hdf5_writer.py:79-105 [append]; if the flush raises, the frame stays buffered. *)
  Definition w_append (key : string) (df : list A) (w : writer A) : writer A * option exn :=
    let w1 := W (set_add key (w_keys w)) (w_meta w)
                (dset key (dgetd [] key (w_buf w) ++ [df]) (w_buf w))
                (dset key (dgetd 0 key (w_bufb w) + mem df) (w_bufb w))
                (w_nb w) (w_store w) in
    if flush_limit <=? dgetd 0 key (w_bufb w1) then
      match w_flush key w1 with
      | Ok w2 => (w2, None)
      | Raise e => (w1, Some e)
      end
    else (w1, None).

  (** hdf5_writer.py:126-129, one iteration of the loop in [write]. *)
  Definition w_write1 (w : writer A) (kv : string * list A) : writer A :=
    W (set_add (fst kv) (w_keys w)) (w_meta w) (w_buf w) (w_bufb w)
      (dset (fst kv) (mem (snd kv)) (w_nb w))
      (st_put (fst kv) (snd kv) (w_store w)).

  (** hdf5_writer.py:107-129 [write] *)
  Definition w_write (kvs : list (string * list A)) (w : writer A) : writer A :=
    fold_left w_write1 kvs w.

  (** hdf5_writer.py:131-140 [add_mapping] *)
  Definition w_add_mapping (df : list A) (md : dict val) (w : writer A) : writer A :=
    W (w_keys w) (w_meta w) (w_buf w) (w_bufb w) (w_nb w)
      (st_setattr "mapping" "metadata" md (st_put "mapping" df (w_store w))).

  (** hdf5_writer.py:178 [self.metadata[key][name].update(kwargs)] *)
  Definition meta_update (key name : string) (kw : dict val) (m : dict (dict (dict val)))
    : dict (dict (dict val)) :=
    let sub := @dgetd (dict (dict val)) [] key m in
    dset key (dset name (dupdate (@dgetd (dict val) [] name sub) kw) sub) m.

  (** hdf5_writer.py:142-178 [add_metadata] *)
  Definition w_add_metadata (key name : string) (kw : dict val) (w : writer A)
    : writer A * option exn :=
    if smem name ["info"; "mapping"] then (w, Some ValueError)
    else (W (w_keys w) (meta_update key name kw (w_meta w)) (w_buf w) (w_bufb w) (w_nb w)
            (w_store w), None).

  (** One public call. *)
  Definition w_step (w : writer A) (o : op A) : writer A * option exn :=
    match o with
    | Append key df => w_append key df w
    | Write kvs => (w_write kvs w, None)
    | AddMeta key name kw => w_add_metadata key name kw w
    | AddMap df md => (w_add_mapping df md w, None)
    end.

  (** Body of [with HDF5Writer(path) as writer:]: runs until the first exception. *)
  Fixpoint w_run (ops : list (op A)) (w : writer A) : writer A * option exn :=
    match ops with
    | [] => (w, None)
    | o :: ops' =>
        match w_step w o with
        | (w', None) => w_run ops' w'
        | (w', Some e) => (w', Some e)
        end
    end.

  (** A caller that catches every exception of a call and carries on. *)
  Definition w_run_catch (ops : list (op A)) (w : writer A) : writer A :=
    fold_left (fun w' o => fst (w_step w' o)) ops w.

  (** hdf5_writer.py:182-187, body of the loop in [_save_metadata]. *)
  Definition save_key (s : store A) (ks : string * dict (dict val)) : store A :=
    let s1 := if dmem (fst ks) s then s else st_put (fst ks) [] s in
    fold_left (fun s' nd => st_setattr (fst ks) (fst nd) (snd nd) s') (snd ks) s1.

  (** hdf5_writer.py:180-187 [_save_metadata] *)
  Definition save_metadata (m : dict (dict (dict val))) (s : store A) : store A :=
    fold_left save_key m s.

  (** hdf5_writer.py:197-199, body of the loop in [finish]; the accumulator is total_bytes.
      [add_metadata(key=key, n_bytes=...)] cannot raise: its name is "metadata". *)
  Definition finish_key (acc : writer A * Z) (key : string) : res (writer A * Z) :=
    let '(w, total) := acc in
    do w1 <- w_flush key w;
    let nb := dgetd 0 key (w_nb w1) in
    let w2 := fst (w_add_metadata key "metadata" [("n_bytes", VInt nb)] w1) in
    Ok (w2, total + nb).

  (** hdf5_writer.py:189-205 [finish]. [order] is the iteration order of the set [self.keys]
      (theorems quantify over every permutation of it). The result is the closed file. *)
  Definition w_finish (order : list string) (w : writer A) : res (store A) :=
    do acc <- foldM finish_key order (w, 0);
    let '(w1, total) := acc in
    let w2 := fst (w_add_metadata "data" "metadata"
                     [("total_bytes", VInt total); ("version", VStr lib_version)] w1) in
    Ok (save_metadata (w_meta w2) (w_store w2)).
End Writer.

(** ** Reader *)

(** State of an HDF5Reader (hdf5_reader.py:45-65). *)
Record reader (A : Type) := R {
  r_store : store A;
  r_dfkeys : list string;
  r_mdkeys : dict (list string) }.
Arguments R {A} _ _ _.
Arguments r_store {A} _.
Arguments r_dfkeys {A} _.
Arguments r_mdkeys {A} _.

(** [subattr.startswith("_")] *)
Definition starts_underscore (s : string) : bool :=
  match s with String c _ => Ascii.eqb c "_" | EmptyString => false end.

(** [v == 0] in Python ([False == 0] is true). *)
Definition is_zero (v : val) : bool :=
  match v with
  | VInt z => z =? 0
  | VBool b => negb b
  | _ => false
  end.

(** [v > 8E9] in Python. *)
Definition over_8GB (v : val) : res bool :=
  match v with
  | VInt z => Ok (8000000000 <? z)
  | VBool _ => Ok false
  | _ => Raise TypeError
  end.

Section Reader.
  Context {A : Type}.

  (** hdf5_reader.py:58-63: names of the dict valued attributes that are listed (the order of
      [dir(attrs)] is not modelled). *)
  Definition visible_names (n : node A) : list string :=
    filter (fun x => negb (starts_underscore x) && negb (smem x ["info"])) (dkeys (n_attrs n)).

  (** hdf5_reader.py:47-64, body of the loop in [_generate_contents_list]; a missing
      [metadata] attribute is an AttributeError, which the [except KeyError] does not catch. *)
  Definition contents_key (r : reader A) (kn : string * node A) : res (reader A) :=
    let '(key, n) := kn in
    match dget "metadata" (n_attrs n) with
    | None => Raise AttributeError
    | Some d =>
        let n_bytes := dgetd (VInt 0) "n_bytes" d in
        if smem key ["mapping"] then Ok r
        else
          let dfk := if is_zero n_bytes then r_dfkeys r else r_dfkeys r ++ [key] in
          let mdk := match visible_names n with
                     | [] => r_mdkeys r
                     | names => dset key names (r_mdkeys r)
                     end in
          Ok (R (r_store r) dfk mdk)
    end.

  (** hdf5_reader.py:41-65 [_generate_contents_list] *)
  Definition contents (s : store A) : res (reader A) := foldM contents_key s (R s [] []).

  (** hdf5_reader.py:132-157 [get_metadata] *)
  Definition get_metadata (r : reader A) (key name : string) : res (dict val) :=
    match dget key (r_mdkeys r) with
    | None => Raise KeyError
    | Some names =>
        if smem name names then
          match dget key (r_store r) with
          | None => Raise AttributeError
          | Some n => match dget name (n_attrs n) with
                      | None => Raise AttributeError
                      | Some d => Ok d
                      end
          end
        else Raise KeyError
    end.

  (** hdf5_reader.py:73-79 [version] *)
  Definition r_version (r : reader A) : res val :=
    match get_metadata r "data" "metadata" with
    | Ok d => match dget "version" d with Some v => Ok v | None => Ok (VStr "1.0.0") end
    | Raise KeyError => Ok (VStr "1.0.0")
    | Raise e => Raise e
    end.

  (** Leading decimal number of a version string; [packaging.version.parse(v).release[0]] for
      the "major.minor.micro" strings CHECLabPy uses (anything else: TypeError). *)
  Fixpoint leading_num (s : string) (acc : option Z) : option Z :=
    match s with
    | EmptyString => acc
    | String c s' =>
        let n := Z.of_nat (nat_of_ascii c) in
        if (48 <=? n) && (n <=? 57) then
          leading_num s' (Some (match acc with None => 0 | Some a => a end * 10 + (n - 48)))
        else acc
    end.

  Definition major (v : val) : res Z :=
    match v with
    | VStr s => match leading_num s None with Some z => Ok z | None => Raise TypeError end
    | _ => Raise TypeError
    end.

  (** hdf5_reader.py:10-39 [__init__]; the second component is the warning issued
      ([Lt]: "older version", [Gt]: "newer version", [Eq]: none). *)
  Definition r_open (s : store A) : res (reader A * comparison) :=
    do r <- contents s;
    do v <- r_version r;
    do mv <- major v;
    do ml <- major (VStr lib_version);
    Ok (r, mv ?= ml).

  (** hdf5_reader.py:174-187 [get_n_bytes] *)
  Definition get_n_bytes (r : reader A) (key : string) : res val :=
    do d <- get_metadata r key "metadata";
    dlookup "n_bytes" d.

  (** [store[key]] *)
  Definition st_get (key : string) (s : store A) : res (list A) :=
    match dget key s with Some n => Ok (n_rows n) | None => Raise KeyError end.

  (** hdf5_reader.py:81-114 [read] *)
  Definition r_read (r : reader A) (key : string) (force : bool) : res (list A) :=
    if negb (smem key (r_dfkeys r)) then Raise KeyError
    else
      do n_bytes <- get_n_bytes r key;
      do big <- over_8GB n_bytes;
      if big && negb force then Raise MemoryError
      else st_get key (r_store r).

  (** hdf5_reader.py:116-130 [get_mapping] *)
  Definition get_mapping (r : reader A) : res (list A * dict val) :=
    match dget "mapping" (r_store r) with
    | None => Raise KeyError
    | Some n => match dget "metadata" (n_attrs n) with
                | None => Raise AttributeError
                | Some d => Ok (n_rows n, d)
                end
    end.

  (** pandas TableIterator.__iter__ (external): rows [current, stop) in steps of [cs]; empty
      chunks are skipped. [None]: the loop has not ended within [fuel] iterations. *)
  Fixpoint chunk_loop (fuel : nat) (cs : Z) (rows : list A) : option (list (list A)) :=
    match rows with
    | [] => Some []
    | _ :: _ =>
        match fuel with
        | O => None
        | S fuel' =>
            let c := firstn (Z.to_nat cs) rows in
            let rest := skipn (Z.to_nat cs) rows in
            match chunk_loop fuel' cs rest with
            | None => None
            | Some cks => Some (match c with [] => cks | _ => c :: cks end)
            end
        end
    end.

  (** hdf5_reader.py:269-293 [iterate_over_chunks]; fixed format tables cannot be iterated
      (TypeError from pandas); the default chunk size is [n_rows / n_bytes * 2E9], truncated by
      pandas' TableIterator (exact rational arithmetic here). *)
  Definition iterate_over_chunks (r : reader A) (key : string) (chunksize : option Z)
    : res (option (list (list A))) :=
    match dget key (r_store r) with
    | None => Raise KeyError
    | Some n =>
        match n_fmt n with
        | Fixed => Raise TypeError
        | Table =>
            let nr := Z.of_nat (List.length (n_rows n)) in
            do cs <- match chunksize with
                     | Some c => if c =? 0 then
                                   do nb <- get_n_bytes r key;
                                   match nb with
                                   | VInt b => if b =? 0 then Raise OverflowError
                                               else Ok (nr * 2000000000 / b)
                                   | _ => Raise TypeError
                                   end
                                 else Ok c
                     | None => do nb <- get_n_bytes r key;
                               match nb with
                               | VInt b => if b =? 0 then Raise OverflowError
                                           else Ok (nr * 2000000000 / b)
                               | _ => Raise TypeError
                               end
                     end;
            Ok (chunk_loop (List.length (n_rows n)) cs (n_rows n))
        end
    end.
End Reader.

(** ** Appender *)
Section Appender.
  Context {A : Type}.
  Variable mem : list A -> Z.
  Variable prep : list A -> list A.

  (** hdf5_appender.py:11-48 [__init__]: the reader part is the content listing of the existing
      file (taken once), the writer part starts with empty buffers and counters. *)
  Definition a_open (s : store A) : res (reader A * writer A) :=
    do rc <- r_open s;
    Ok (fst rc, W [] [] [] [] [] s).

  (** hdf5_appender.py:59-67, body of the loop in [_save_metadata]. *)
  Definition a_setattr (key : string) (s : store A) (nd : string * dict val) : store A :=
    match dget key s with
    | None => s
    | Some n =>
        let d := match dget (fst nd) (n_attrs n) with
                 | Some old => dupdate old (snd nd)
                 | None => snd nd
                 end in
        st_setattr key (fst nd) d s
    end.

  Definition a_save_key (s : store A) (ks : string * dict (dict val)) : store A :=
    let s1 := if dmem (fst ks) s then s else st_put (fst ks) [] s in
    fold_left (a_setattr (fst ks)) (snd ks) s1.

  (** hdf5_appender.py:56-67 [_save_metadata] *)
  Definition a_save_metadata (m : dict (dict (dict val))) (s : store A) : store A :=
    fold_left a_save_key m s.

  (** hdf5_appender.py:69-85 [finish]. [get_metadata] uses the content listing made when the
      file was opened but reads the attribute from the current store. *)
  Definition a_finish (order : list string) (r : reader A) (w : writer A) : res (store A) :=
    do md <- get_metadata (R (w_store w) (r_dfkeys r) (r_mdkeys r)) "data" "metadata";
    do tb <- dlookup "total_bytes" md;
    do t0 <- match tb with VInt z => Ok z | _ => Raise TypeError end;
    do acc <- foldM (finish_key mem prep) order (w, t0);
    let '(w1, total) := acc in
    let w2 := fst (w_add_metadata "data" "metadata"
                     [("total_bytes", VInt total); ("version", VStr lib_version)] w1) in
    Ok (a_save_metadata (w_meta w2) (w_store w2)).
End Appender.
