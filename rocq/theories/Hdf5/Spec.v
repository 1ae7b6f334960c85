(** Vocabulary of the HDF5 properties: what a history of calls means to the user. *)
From Coq Require Import List ZArith String Bool Permutation.
From Verif.Base Require Import Py.
From Verif.Hdf5 Require Import Model.
Import ListNotations.
Local Open Scope string_scope.
Local Open Scope list_scope.
Local Open Scope Z_scope.

Section Spec.
  Context {A : Type}.

  (** All rows appended under [k], in call order. *)
  Fixpoint appended (k : string) (ops : list (op A)) : list A :=
    match ops with
    | [] => []
    | Append k' df :: t => if String.eqb k k' then df ++ appended k t else appended k t
    | _ :: t => appended k t
    end.

  (** Key [k] was used with append. *)
  Definition by_append (k : string) (ops : list (op A)) : Prop :=
    exists df, In (Append k df) ops.

  (** Key [k] was used with write. *)
  Definition by_write (k : string) (ops : list (op A)) : Prop :=
    exists kvs df, In (Write kvs) ops /\ In (k, df) kvs.

  (** [add_mapping] was called. *)
  Definition has_mapping (ops : list (op A)) : Prop :=
    exists df md, In (AddMap df md) ops.

  (** No key is used both with append and with write; add_mapping owns the key 'mapping'. *)
  Definition no_mix (ops : list (op A)) : Prop :=
    forall k, by_append k ops ->
      ~ by_write k ops /\ ~ (k = "mapping" /\ has_mapping ops).

  (** No reserved metadata name is used. *)
  Definition names_ok (ops : list (op A)) : Prop :=
    forall key name kw, In (AddMeta key name kw) ops -> name <> "info" /\ name <> "mapping".

  (** Python keyword arguments are distinct. *)
  Definition kwargs_ok (ops : list (op A)) : Prop :=
    (forall key name kw, In (AddMeta key name kw) ops -> NoDup (dkeys kw)) /\
    (forall kvs, In (Write kvs) ops -> NoDup (map fst kvs)).

  (** Value of metadata field [field] of dict [name] of [key]: the last one given. *)
  Fixpoint last_value (key name field : string) (ops : list (op A)) (acc : option val) : option val :=
    match ops with
    | [] => acc
    | AddMeta k n kw :: t =>
        last_value key name field t
          (if String.eqb k key && String.eqb n name then
             match dget field kw with Some v => Some v | None => acc end
           else acc)
    | _ :: t => last_value key name field t acc
    end.

  (** The dict [name] of [key] was mentioned in some add_metadata call. *)
  Definition meta_named (key name : string) (ops : list (op A)) : Prop :=
    exists kw, In (AddMeta key name kw) ops.

  (** Every key that only carries metadata also carries the default dict 'metadata'. *)
  Definition meta_complete (ops : list (op A)) : Prop :=
    forall key name, meta_named key name ops ->
      key = "data" \/ by_append key ops \/ by_write key ops \/
      (key = "mapping" /\ has_mapping ops) \/ meta_named key "metadata" ops.

  (** The last frame written (write) under [k]. *)
  Fixpoint last_written (k : string) (ops : list (op A)) (acc : option (list A)) : option (list A) :=
    match ops with
    | [] => acc
    | Write kvs :: t =>
        last_written k t (match dget k kvs with Some df => Some df | None => acc end)
    | _ :: t => last_written k t acc
    end.

  (** The mapping (table and metadata) given by the last add_mapping call. *)
  Fixpoint last_mapping (ops : list (op A)) (acc : option (list A * dict val))
    : option (list A * dict val) :=
    match ops with
    | [] => acc
    | AddMap df md :: t => last_mapping t (Some (df, md))
    | _ :: t => last_mapping t acc
    end.

  (** [rows] was stored as these chunks (one per flush). *)
  Definition chunked (rows : list A) (chunks : list (list A)) : Prop :=
    List.concat chunks = rows.

  Definition sum (l : list Z) : Z := fold_right Z.add 0 l.

  (** [f] is the file left by [with HDF5Writer(path) as w: ops], for some iteration order of the
      key set. *)
  Definition completed (mem : list A -> Z) (prep : list A -> list A) (ops : list (op A)) (f : store A) : Prop :=
    exists w order, w_run mem prep ops w_init = (w, None) /\ Permutation order (w_keys w) /\
      w_finish mem prep order w = Ok f.

  (** Metadata field recorded in a file. *)
  Definition mfield (s : store A) (k nm fld : string) : option val :=
    match dget k s with
    | Some n => match dget nm (n_attrs n) with Some d => dget fld d | None => None end
    | None => None
    end.

  (** Rows a file holds under a key. *)
  Definition rows_of (s : store A) (k : string) : list A :=
    match dget k s with Some n => n_rows n | None => [] end.

  (** As [meta_complete], for a file that already has the keys [old]. *)
  Definition meta_complete_on (old : string -> Prop) (ops : list (op A)) : Prop :=
    forall key name, meta_named key name ops ->
      key = "data" \/ by_append key ops \/ by_write key ops \/
      (key = "mapping" /\ has_mapping ops) \/ meta_named key "metadata" ops \/ old key.

  (** The table of [k] is changed by some call. *)
  Definition touched (k : string) (ops : list (op A)) : Prop :=
    by_append k ops \/ by_write k ops \/ (k = "mapping" /\ has_mapping ops).

  (** add_metadata with a reserved name. *)
  Definition reserved_call (o : op A) : bool :=
    match o with AddMeta _ name _ => smem name ["info"; "mapping"] | _ => false end.

  (** pandas accepts appending to [k] (it is absent or in table format). *)
  Definition is_table (s : store A) (k : string) : Prop :=
    forall n, dget k s = Some n -> n_fmt n = Table.

  (** [cks] are consecutive pieces of [cs] rows of [rows], the last one possibly shorter. *)
  Definition pieces (cs : Z) (rows : list A) (cks : list (list A)) : Prop :=
    List.concat cks = rows /\
    (forall i, (S i < List.length cks)%nat -> Z.of_nat (List.length (nth i cks [])) = cs) /\
    (forall c, In c cks -> 0 < Z.of_nat (List.length c) <= cs).
End Spec.
