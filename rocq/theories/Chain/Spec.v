(** Vocabulary of the class, reducer and chain properties. *)
From Coq Require Import List ZArith String Ascii Bool Arith.
From Verif.Base Require Import Py Str.
From Verif.Chain Require Import Model.
Import ListNotations.
Local Open Scope string_scope.
Local Open Scope list_scope.

(** Bases are defined before the classes deriving from them. *)
Definition hierarchy (w : list class) : Prop :=
  forall j b, (j < List.length w)%nat -> In b (c_bases (cls_at w j)) -> (b < j)%nat.

(** [d] derives directly from [b]. *)
Definition derives (w : list class) (b d : nat) : Prop :=
  (d < List.length w)%nat /\ In b (c_bases (cls_at w d)).

(** Strict descendants. *)
Inductive descendant (w : list class) (b : nat) : nat -> Prop :=
| desc_direct : forall d, derives w b d -> descendant w b d
| desc_step : forall s d, derives w b s -> descendant w s d -> descendant w b d.

(** The columns a chain without a configuration file computes. *)
Definition on_by_default : list string :=
  ["baseline_start_mean"; "baseline_start_rms"; "baseline_end_mean"; "baseline_end_rms";
   "waveform_mean"; "waveform_rms"; "saturation_sum"; "t_averagewf"; "charge_averagewf";
   "t_cc"; "charge_cc"; "height_cc"].

(** The value of one column setting: keyword argument, else configuration file, else (only without
    a file) the built-in default, else off. *)
Definition switched_on (file : option (dict val)) (kwargs : dict val) (c : string) : bool :=
  match dget c kwargs with
  | Some v => truthy v
  | None =>
      match file with
      | Some d => match dget c d with Some v => truthy v | None => false end
      | None => if in_dec string_dec c on_by_default then true else false
      end
  end.

(** The configuration file the chain was given: none, or its content (an empty file is no entry). *)
Definition file_of (load : string -> option (dict val)) (config_path : option string) : option (dict val) :=
  match config_path with
  | None => None
  | Some p => if String.eqb p "" then None else Some (match load p with Some d => d | None => [] end)
  end.

Section Alone.
  Context {W V St : Type}.
  Variable prepf : reducer -> St -> W -> St * W.
  Variable colf : reducer -> string -> St -> W -> St * W * V.
  Variable postf : reducer -> St -> W -> St * W.

  (** One reducer working alone on its private array [x]. *)
  Fixpoint alone_cols (r : reducer) (cols : list string) (s : St) (x : W) : St * W * dict V :=
    match cols with
    | [] => (s, x, [])
    | c :: t =>
        let '(s1, x1, v) := colf r c s x in
        let '(s2, x2, d) := alone_cols r t s1 x1 in
        (s2, x2, (c, v) :: d)
    end.

  Definition alone_event (r : reducer) (s : St) (x : W) : St * dict V :=
    let '(s1, x1) := prepf r s x in
    let '(s2, x2, d) := alone_cols r (r_active r) s1 x1 in
    (fst (postf r s2 x2), d).

  (** ... over a sequence of events. *)
  Fixpoint alone_history (r : reducer) (s : St) (ws : list W) : list (dict V) :=
    match ws with
    | [] => []
    | x :: t => snd (alone_event r s x) :: alone_history r (fst (alone_event r s x)) t
    end.
End Alone.

(** Text files: the lines of a text, without their newlines. *)
Fixpoint lines_acc (s acc : string) : list string :=
  match s with
  | EmptyString => [acc]
  | String c t => if Ascii.eqb c newline then acc :: lines_acc t "" else lines_acc t (acc ++ String c "")%string
  end.
Definition lines (s : string) : list string := lines_acc s "".

(** A line that is neither empty nor a comment. *)
Definition significant (l : string) : bool :=
  match l with EmptyString => false | String c _ => negb (Ascii.eqb c "#") end.

Definition one_line (s : string) : Prop := ~ exists a b, s = (a ++ String newline b)%string.

Fixpoint all_space (s : string) : Prop :=
  match s with EmptyString => True | String c t => is_space c = true /\ all_space t end.

(** A docstring that starts on a new line and ends on a new line. *)
Definition good_doc (d : string) : Prop :=
  (exists b, d = (nl ++ b)%string) /\ (exists a ws, d = (a ++ nl ++ ws)%string /\ all_space ws).

Definition good_opt_doc (d : option string) : Prop := match d with Some x => good_doc x | None => True end.

(** A column name: one line, not empty, not starting with '#'. *)
Definition col_name_ok (c : string) : Prop := one_line c /\ significant c = true.
