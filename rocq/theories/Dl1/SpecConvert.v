(** What a conversion to ROOT should keep. *)
From Coq Require Import List ZArith Bool Arith String Ascii.
From Verif.Base Require Import Py.
From Verif.Files Require Import Model.
From Verif.Plots Require Import SpecFigures.
From Verif.Dl1 Require Import ModelConvert.
Import ListNotations.
Local Open Scope list_scope.

(** What the branch of a value of the metadata should hold; None for values that are not scalar. *)
Definition kept {F} (v : mval F) : option (bval F) :=
  match v with
  | MInt z => Some (BInt z)
  | MTime ns => Some (BInt ns)
  | MFloat f => Some (BFloat f)
  | MBool b => Some (BBool b)
  | MStr t => Some (BStr t)
  | MNone => Some (BStr (T "None"))
  | _ => None
  end.
(** Integers that fit in 64 bits. *)
Definition fits64 (z : Z) : Prop := (- 2 ^ 63 <= z < 2 ^ 64)%Z.
(** A scalar that ROOT can hold: strings of less than 256 characters without NUL. *)
Definition scalar {F} (v : mval F) : Prop :=
  match v with
  | MInt z | MTime z => fits64 z
  | MStr t => (List.length t < 256)%nat /\ ~ In "000"%char t
  | MFloat _ | MBool _ | MNone => True
  | _ => False
  end.
(** A column of numbers; the column of times too if it is called t_cpu. *)
Definition numeric {F} (c : column F) : Prop := match c with Ints l => Forall fits64 l | Floats _ | Bools _ => True | _ => False end.
Definition readable {F} (name : text) (c : column F) : Prop :=
  match c with Times l | Ints l => Forall fits64 l /\ (match c with Times _ => name = T "t_cpu" | _ => True end) | Floats _ | Bools _ => name <> T "t_cpu" | Objects => False end.
(** The column as written: times as nanoseconds. *)
Definition nanoseconds {F} (c : column F) : column F := match c with Times l => Ints l | c => c end.
(** A file that should be convertible. *)
Definition convertible {F} (f : dl1 F) : Prop :=
  (d_bytes f <= 8000000000)%Z /\ (forall k v, In (k, v) (d_meta f) -> scalar v) /\ (forall n c, In (n, c) (d_data f) -> readable n c) /\ (forall n c, In (n, c) (d_mapping f) -> numeric c).
(** A char[256] gives back short strings, and never more than its size. *)
Definition holder (hold : text -> text) : Prop := (forall t, (List.length t < 256)%nat -> ~ In "000"%char t -> hold t = t) /\ forall t, (List.length (hold t) <= 256)%nat.
(** Same files except at p. *)
Definition elsewhere {F} (p : path) (d d' : disk F) : Prop := forall q, q <> p -> d' q = d q.
