(** Python primitives used by all model files.  Definitions only. *)
From Coq Require Import List ZArith String Ascii Bool.
Import ListNotations.

(** Python exception classes raised by the modelled code. *)
Inductive exn :=
| KeyError | IndexError | ValueError | TypeError | AttributeError
| ZeroDivisionError | MemoryError | AssertionError | IOError
| FileNotFoundError | ImportError | StructError | NotImplementedError
| UnboundLocalError | OverflowError | ModuleNotFound.

(** Result of running Python code: a value or a raised exception. *)
Inductive res (A : Type) :=
| Ok (a : A)
| Raise (e : exn).
Arguments Ok {A} a.
Arguments Raise {A} e.

Definition bind {A B} (r : res A) (f : A -> res B) : res B :=
  match r with Ok a => f a | Raise e => Raise e end.

Definition rmap {A B} (f : A -> B) (r : res A) : res B :=
  match r with Ok a => Ok (f a) | Raise e => Raise e end.

Declare Scope py_scope.
Delimit Scope py_scope with py.
Notation "'do' x <- r ; f" := (bind r (fun x => f))
  (at level 200, x name, r at level 100, f at level 200) : py_scope.

(** [mapM f l]: list comprehension whose body may raise. *)
Fixpoint mapM {A B} (f : A -> res B) (l : list A) : res (list B) :=
  match l with
  | [] => Ok []
  | a :: l' =>
      match f a with
      | Raise e => Raise e
      | Ok b => match mapM f l' with
                | Raise e => Raise e
                | Ok bs => Ok (b :: bs)
                end
      end
  end.

(** A Python loop whose body updates a state and may raise. *)
Fixpoint foldM {S A} (f : S -> A -> res S) (l : list A) (s : S) : res S :=
  match l with
  | [] => Ok s
  | a :: l' => match f s a with Raise e => Raise e | Ok s' => foldM f l' s' end
  end.

(** Insertion ordered dict with string keys. *)
Definition dict (V : Type) := list (string * V).

Fixpoint dget {V} (k : string) (d : dict V) : option V :=
  match d with
  | [] => None
  | (k', v) :: d' => if String.eqb k k' then Some v else dget k d'
  end.

(** [d[k] = v]: overwrite in place, otherwise insert at the end. *)
Fixpoint dset {V} (k : string) (v : V) (d : dict V) : dict V :=
  match d with
  | [] => [(k, v)]
  | (k', v') :: d' =>
      if String.eqb k k' then (k', v) :: d' else (k', v') :: dset k v d'
  end.

Definition dmem {V} (k : string) (d : dict V) : bool :=
  match dget k d with Some _ => true | None => false end.

Definition dkeys {V} (d : dict V) : list string := map fst d.
Definition dvalues {V} (d : dict V) : list V := map snd d.

(** [d1.update(d2)], and the value of [{**d1, **d2}]. *)
Definition dupdate {V} (d1 d2 : dict V) : dict V :=
  fold_left (fun d kv => dset (fst kv) (snd kv) d) d2 d1.

(** defaultdict access: the stored value or the default. *)
Definition dgetd {V} (dflt : V) (k : string) (d : dict V) : V :=
  match dget k d with Some v => v | None => dflt end.

(** [d[k]] on a plain dict. *)
Definition dlookup {V} (k : string) (d : dict V) : res V :=
  match dget k d with Some v => Ok v | None => Raise KeyError end.

(** [x in list] for strings. *)
Definition smem (k : string) (l : list string) : bool := existsb (String.eqb k) l.

(** Metadata values that CHECLabPy stores. *)
Inductive val :=
| VInt (z : Z) | VStr (s : string) | VBool (b : bool) | VNone.

(** Python truthiness of such a value. *)
Definition truthy (v : val) : bool :=
  match v with
  | VInt z => negb (Z.eqb z 0)
  | VStr s => negb (String.eqb s "")
  | VBool b => b
  | VNone => false
  end.
