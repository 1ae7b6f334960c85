(** Model of scripts/convert_hd52root.py.  Definitions only.

    Simplifications:
    - a path is the list of its directories and a base name (as in Plots/ModelFigures.v); the directory of the output exists
      (ROOT only prints an error otherwise);
    - a DL1 file is what DL1Reader gives: the size of the table, the table, the metadata, the mapping and whether there is
      monitor data; names of columns and keys are distinct;
    - floating point values are kept as they are, of any type F; [bits] is the reinterpretation of a double as an integer;
    - [hold] is what can be read back from a char[256] to which a string was assigned;
    - root_numpy.array2tree takes columns of 64-bit integers, floats and booleans and raises TypeError for others;
    - a file opened with 'recreate' whose trees were never written is [Scrap]. *)
From Coq Require Import List ZArith Bool Arith String Ascii.
From Verif.Base Require Import Py.
From Verif.Files Require Import Model.
From Verif.Plots Require ModelFigures.
Import ListNotations.
Local Open Scope list_scope.

Definition path := (list text * text)%type.
Definition path_eqb (a b : path) : bool :=
  text_eqb (snd a) (snd b) && ((List.length (fst a) =? List.length (fst b))%nat && forallb (fun e => text_eqb (fst e) (snd e)) (combine (fst a) (fst b))).

(** Values of the metadata.  MList: a list of numbers; MArray: a numpy array; MOther: anything else (NaT, numpy strings, ...). *)
Inductive mval (F : Type) := MInt (z : Z) | MFloat (f : F) | MBool (b : bool) | MStr (t : text) | MNone | MTime (ns : Z) | MList (l : list Z) | MArray (l : list Z) | MOther.
Arguments MInt {F}. Arguments MFloat {F}. Arguments MBool {F}. Arguments MStr {F}. Arguments MNone {F}. Arguments MTime {F}. Arguments MList {F}. Arguments MArray {F}. Arguments MOther {F}.
(** Columns of a data frame. *)
Inductive column (F : Type) := Ints (l : list Z) | Floats (l : list F) | Bools (l : list bool) | Times (l : list Z) | Objects.
Arguments Ints {F}. Arguments Floats {F}. Arguments Bools {F}. Arguments Times {F}. Arguments Objects {F}.
Definition table (F : Type) := list (text * column F).
Record dl1 (F : Type) := { d_bytes : Z; d_data : table F; d_meta : list (text * mval F); d_mapping : table F; d_monitor : bool }.
Arguments d_bytes {F}. Arguments d_data {F}. Arguments d_meta {F}. Arguments d_mapping {F}. Arguments d_monitor {F}.

(** Branches of the tree with the metadata, which has one entry. *)
Inductive bval (F : Type) := BStr (t : text) | BInt (z : Z) | BFloat (f : F) | BBool (b : bool).
Arguments BStr {F}. Arguments BInt {F}. Arguments BFloat {F}. Arguments BBool {F}.
Record trees (F : Type) := { tMeta : list (text * bval F); tData : table F; tMapping : table F }.
Arguments tMeta {F}. Arguments tData {F}. Arguments tMapping {F}.
Inductive stored (F : Type) := Hdf (d : dl1 F) | Root (t : trees F) | Scrap | Foreign.
Arguments Hdf {F}. Arguments Root {F}. Arguments Scrap {F}. Arguments Foreign {F}.
Definition disk (F : Type) := path -> option (stored F).
Definition put {F} (p : path) (s : stored F) (d : disk F) : disk F := fun q => if path_eqb q p then Some s else d q.

(** convert_hd52root.py:58-59 *)
Definition default_output (p : path) : path := (fst p, fst (ModelFigures.splitext (snd p)) ++ T ".root").
(** 79-84 *)
Definition stamp {F} (v : mval F) : mval F := match v with MTime ns => MInt ns | v => v end.
(** 87-91 *)
Definition view_int {F} (bits : F -> Z) (c : column F) : res (column F) :=
  match c with
  | Ints l => Ok (Ints l)
  | Floats l => Ok (Ints (map bits l))
  | Times l => Ok (Ints l)
  | Bools _ => Raise ValueError
  | Objects => Raise TypeError
  end.
Definition view_data {F} (bits : F -> Z) (t : table F) : res (table F) :=
  mapM (fun c => if text_eqb (fst c) (T "t_cpu") then rmap (pair (fst c)) (view_int bits (snd c)) else Ok c) t.
(** 97-107: the strings become branches, the rest is left for the data frame. *)
Fixpoint strings {F} (hold : text -> text) (meta : list (text * mval F)) : res (list (text * bval F) * list (text * mval F)) :=
  match meta with
  | [] => Ok ([], [])
  | (k, v) :: r =>
      bind (match v with MArray l => if (1 <? List.length l)%nat then Raise ValueError else Ok tt | _ => Ok tt end) (fun _ =>
      bind (strings hold r) (fun o =>
      match v with
      | MNone => Ok ((k, BStr (hold (T "None"))) :: fst o, snd o)
      | MStr t => Ok ((k, BStr (hold t)) :: fst o, snd o)
      | _ => Ok (fst o, (k, v) :: snd o)
      end))
  end.
Definition int64 (z : Z) : bool := ((- 2 ^ 63 <=? z) && (z <? 2 ^ 64))%Z.
(** 108: DataFrame(meta_numeric, index=[0]): lists and arrays must have one element. *)
Definition one_row {F} (v : mval F) : bool := match v with MList l | MArray l => (List.length l =? 1)%nat | _ => true end.
(** 109: array2tree *)
Definition branch {F} (e : text * mval F) : res (text * bval F) :=
  match snd e with
  | MInt z | MList [z] | MArray [z] => if int64 z then Ok (fst e, BInt z) else Raise TypeError
  | MFloat f => Ok (fst e, BFloat f)
  | MBool b => Ok (fst e, BBool b)
  | _ => Raise TypeError
  end.
Definition numbers {F} (meta : list (text * mval F)) : res (list (text * bval F)) :=
  if forallb (fun e => one_row (snd e)) meta then mapM branch meta else Raise ValueError.
(** 29-38 *)
Definition write_tree {F} (t : table F) : res (table F) :=
  mapM (fun c => match snd c with Times _ | Objects => Raise TypeError | Ints l => if forallb int64 l then Ok c else Raise TypeError | _ => Ok c end) t.
(** 93-119: everything after the output was opened. *)
Definition fill {F} (hold : text -> text) (meta : list (text * mval F)) (data mapping : table F) : res (trees F) :=
  bind (strings hold meta) (fun o =>
  bind (numbers (snd o)) (fun ns =>
  bind (write_tree data) (fun td =>
  bind (write_tree mapping) (fun tm => Ok {| tMeta := fst o ++ ns; tData := td; tMapping := tm |})))).
(** hdf5_reader.py:103-110, 66-74: the whole table is read unless it is larger than 8 GB; the monitor reader has no
    load_entire_table (71-72). *)
Definition load {F} (bits : F -> Z) (d : dl1 F) : res (list (text * mval F) * table F * table F) :=
  if (8000000000 <? d_bytes d)%Z then Raise MemoryError
  else if d_monitor d then Raise AttributeError
  else bind (view_data bits (d_data d)) (fun data => Ok (map (fun e => (fst e, stamp (snd e))) (d_meta d), data, d_mapping d)).
(** How the script ends: normally, normally after the message that the input does not exist (54-56), or with an exception. *)
Inductive ending := Finished | NoInput | Failed (e : exn).
Definition convert {F} (hold : text -> text) (bits : F -> Z) (inp : path) (out : option path) (d : disk F) : disk F * ending :=
  match d inp with
  | None => (d, NoInput)
  | Some (Hdf f) =>
      let out := match out with Some p => p | None => default_output inp end in
      match load bits f with
      | Raise e => (d, Failed e)
      | Ok (meta, data, mapping) =>
          match fill hold meta data mapping with
          | Raise e => (put out Scrap d, Failed e)
          | Ok t => (put out (Root t) d, Finished)
          end
      end
  | Some _ => (d, Failed IOError)
  end.
(** sys.exit status of the process: exit() without argument is a success. *)
Definition status (e : ending) : Z := match e with Failed _ => 1 | _ => 0 end.
