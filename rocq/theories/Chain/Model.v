(** Model of CHECLabPy/core/__init__.py, core/factory.py, core/reducer.py, core/chain.py,
    scripts/generate_dl1_config.py.

    Simplifications:
    - a class is its position in the list of accepted class statements; class number 0 is the base
      class (WaveformReducer, SpectrumFitter);
    - class bodies define columns only: other members that would shadow an inherited column are
      not modelled; a class statement whose bases do not exist is dropped;
    - exceptions inside columns are not modelled. *)
From Coq Require Import List ZArith String Ascii Bool Arith.
From Verif.Base Require Import Py Str.
Import ListNotations.
Local Open Scope string_scope.
Local Open Scope list_scope.
Local Open Scope py_scope.

(** ** Classes *)
Record class := Cls {
  c_qual : string;         (* __qualname__ *)
  c_abs : bool;            (* inspect.isabstract *)
  c_bases : list nat;      (* __bases__ *)
  c_body : list string;    (* columns in the class dict *)
  c_members : list string; (* columns found by getmembers: own and inherited *)
  c_cols : list string     (* the attribute [columns] *)
}.

Definition dummy : class := Cls "" true [] [] [] [].
Definition cls_at (w : list class) (i : nat) : class := nth i w dummy.

(** [__name__]: the part of [__qualname__] after the last dot. *)
Fixpoint last_part (s acc : string) : string :=
  match s with
  | EmptyString => acc
  | String c t => if Ascii.eqb c "." then last_part t "" else last_part t (acc ++ String c "")%string
  end.
Definition c_name (c : class) : string := last_part (c_qual c) "".

(** [base.__subclasses__()], in definition order. *)
Definition subclasses (w : list class) (b : nat) : list nat :=
  filter (fun j => existsb (Nat.eqb b) (c_bases (cls_at w j))) (seq 0 (List.length w)).

(** core/__init__.py:26-33: first class of each name. *)
Fixpoint unique_by_name (w : list class) (l : list nat) (names : list string) : list nat :=
  match l with
  | [] => []
  | c :: t =>
      if smem (c_name (cls_at w c)) names then unique_by_name w t names
      else c :: unique_by_name w t (names ++ [c_name (cls_at w c)])
  end.

(** core/__init__.py:4-33 [child_subclasses]; the recursion is bounded by the number of classes. *)
Fixpoint child_subclasses_n (fuel : nat) (w : list class) (base : nat) : list nat :=
  match fuel with
  | O => []
  | S f =>
      let subs := subclasses w base in
      let family := subs ++ flat_map (child_subclasses_n f w) subs in
      let children := filter (fun g => negb (c_abs (cls_at w g))) family in
      unique_by_name w children []
  end.
Definition child_subclasses (w : list class) (base : nat) : list nat :=
  child_subclasses_n (List.length w) w base.

(** core/factory.py:13-26 [Factory.produce]: the class that is instantiated; the attributes of the
    factory are those of SpectrumFitterFactory (factory.py:29-32). *)
Definition produce (w : list class) (base : nat) (product_name : string) : res nat :=
  let subs := child_subclasses w base in
  let names := map (fun c => c_name (cls_at w c)) subs in
  let d := dupdate [] (combine names subs) in
  match dget product_name d with
  | Some c => Ok c
  | None => Raise KeyError
  end.

(** ** Columns *)

(** A class statement: qualified name, abstractness, bases, names decorated with [@column]. *)
Record class_stmt := Def {
  s_qual : string; s_abs : bool; s_bases : list nat; s_cols : list string }.

(** Registry: column name -> __qualname__ of the function. *)
Definition registry := dict string.

(** reducer.py:14-25 [column.__init__] *)
Definition register (reg : registry) (qual col : string) : res registry :=
  let func := (qual ++ "." ++ col)%string in
  match dget col reg with
  | Some old => if String.eqb old func then Ok (dset col func reg) else Raise AttributeError
  | None => Ok (dset col func reg)
  end.

(** Executing the class body: the registry as it is left, and whether it raised. *)
Fixpoint exec_body (reg : registry) (qual : string) (cols : list string) : registry * option exn :=
  match cols with
  | [] => (reg, None)
  | c :: t =>
      match register reg qual c with
      | Ok reg' => exec_body reg' qual t
      | Raise e => (reg, Some e)
      end
  end.

(** The class dict: one entry per name, at its first position. *)
Fixpoint nodup_names (l seen : list string) : list string :=
  match l with
  | [] => []
  | c :: t => if smem c seen then nodup_names t seen else c :: nodup_names t (seen ++ [c])
  end.

(** reducer.py:51-71 [WaveformReducerMeta.__new__] *)
Definition make_class (w : list class) (s : class_stmt) : class :=
  let body := nodup_names (s_cols s) [] in
  let inherited p := existsb (fun b => smem p (c_members (cls_at w b))) (s_bases s) in
  Cls (s_qual s) (s_abs s) (s_bases s) body
      (body ++ flat_map (fun b => c_members (cls_at w b)) (s_bases s))
      (filter (fun p => negb (inherited p)) body).

Definition world := (registry * list class)%type.

(** One class statement. *)
Definition exec_class (x : world) (s : class_stmt) : world * option exn :=
  let '(reg, w) := x in
  if forallb (fun b => Nat.ltb b (List.length w)) (s_bases s) then
    match exec_body reg (s_qual s) (s_cols s) with
    | (reg', None) => ((reg', w ++ [make_class w s]), None)
    | (reg', Some e) => ((reg', w), Some e)
    end
  else (x, Some TypeError).

(** Any sequence of class statements, rejected ones included (the importing program goes on). *)
Fixpoint exec_classes (x : world) (l : list class_stmt) : world :=
  match l with
  | [] => x
  | s :: t => exec_classes (fst (exec_class x s)) t
  end.

(** reducer.py:74-75: the base class has no columns. *)
Definition world0 (qual : string) (abs : bool) : world := ([], [Cls qual abs [] [] [] []]).

(** ** Configuration *)

(** reducer.py:110-130 [get_active_columns] *)
Definition get_active_columns (cols : list string) (disable_by_default : bool) (kwargs : dict val) : list string :=
  let default := negb disable_by_default in
  filter (fun col => match dget col kwargs with Some v => truthy v | None => default end) cols.

(** chain.py:9-79 *)
Definition default_columns : dict val :=
  [("baseline_end_mean", VBool true); ("baseline_end_rms", VBool true);
   ("baseline_start_mean", VBool true); ("baseline_start_rms", VBool true);
   ("waveform_mean", VBool true); ("waveform_rms", VBool true);
   ("t_event", VBool false); ("t_pulse", VBool false); ("t_pulse_amp", VBool false);
   ("t_rise", VBool false); ("fwhm", VBool false);
   ("saturation_sum", VBool true);
   ("t_averagewf", VBool true); ("charge_averagewf", VBool true);
   ("t_cc", VBool true); ("charge_cc", VBool true); ("height_cc", VBool true);
   ("t_cc_local", VBool false); ("charge_cc_local", VBool false); ("height_cc_local", VBool false);
   ("t_cc_nn", VBool false); ("charge_cc_nn", VBool false); ("height_cc_nn", VBool false);
   ("t_local", VBool false); ("charge_local", VBool false);
   ("t_nn", VBool false); ("charge_nn", VBool false);
   ("charge_nnls", VBool false); ("nnls_tcharge", VBool false); ("nnls_tmcharge", VBool false);
   ("nnls_tccharge", VBool false); ("nnls_norm", VBool false); ("nnls_npulses", VBool false);
   ("nnls_errata", VBool false);
   ("t_sliding", VBool false); ("charge_sliding", VBool false);
   ("t_sliding_local", VBool false); ("charge_sliding_local", VBool false);
   ("t_sliding_nn", VBool false); ("charge_sliding_nn", VBool false);
   ("sp_argmax", VBool false); ("sp_max", VBool false)].

(** chain.py:81-83 *)
Definition default_config : dict val := [].

(** chain.py:109-114 and 120-141; [load] is the content of the YAML file, [None] if it is empty. *)
Definition chain_config (load : string -> option (dict val)) (config_path : option string)
    (kwargs : dict val) : dict val :=
  let config := dupdate [] default_config in
  match config_path with
  | Some path =>
      if String.eqb path "" then dupdate (dupdate config default_columns) kwargs
      else
        let loaded := match load path with Some d => d | None => [] end in
        dupdate (dupdate config loaded) kwargs
  | None => dupdate (dupdate config default_columns) kwargs
  end.

(** A reducer in the chain: its class, the active columns and the keyword arguments. *)
Record reducer := Red { r_cls : nat; r_active : list string; r_kwargs : dict val }.

(** chain.py:143-176 [_build_chain]; keyword arguments that clash with a positional parameter of
    [_build_chain], [get_active_columns] and [__init__] are a TypeError. *)
Fixpoint build_loop (w : list class) (rs : list nat) (config : dict val) : res (list reducer) :=
  match rs with
  | [] => Ok []
  | r :: t =>
      if dmem "cls" config then Raise TypeError
      else
        let active := get_active_columns (c_cols (cls_at w r)) true config in
        if (0 <? List.length active)%nat then
          if dmem "self" config then Raise TypeError
          else do rest <- build_loop w t config; Ok (Red r active config :: rest)
        else build_loop w t config
  end.

Definition build_chain (w : list class) (config : dict val) : res (list reducer) :=
  if dmem "n_pixels" config || dmem "n_samples" config then Raise TypeError
  else build_loop w (child_subclasses w 0) config.

(** chain.py:85-118 *)
Definition chain_init (w : list class) (load : string -> option (dict val)) (config_path : option string)
    (kwargs : dict val) : res (list reducer) :=
  build_chain w (chain_config load config_path kwargs).

(** ** Processing: arrays live in a heap, [self.waveforms] is a location in it *)
Section Process.
  Context {W V St : Type}.
  Variable w0 : W.
  (** What a subclass's [_prepare] does after calling the base class method, what a column does, what
      [_post] does: arbitrary, may change the object's state and its own array in place. *)
  Variable prepf : reducer -> St -> W -> St * W.
  Variable colf : reducer -> string -> St -> W -> St * W * V.
  Variable postf : reducer -> St -> W -> St * W.

  Definition heap := list W.
  Definition h_get (h : heap) (l : nat) : W := nth l h w0.
  Fixpoint h_set (h : heap) (l : nat) (x : W) : heap :=
    match h, l with
    | [], _ => []
    | _ :: t, O => x :: t
    | y :: t, S l' => y :: h_set t l' x
    end.

  (** A reducer object: its state and the location of [self.waveforms]. *)
  Record obj := Obj { o_red : reducer; o_st : St; o_loc : option nat }.

  (** reducer.py:132-152 [_prepare]: [np.copy], then the subclass's own code. *)
  Definition prepare (h : heap) (o : obj) (waveforms : nat) : heap * obj :=
    let l := List.length h in
    let h1 := h ++ [h_get h waveforms] in
    let '(s, x) := prepf (o_red o) (o_st o) (h_get h1 l) in
    (h_set h1 l x, Obj (o_red o) s (Some l)).

  (** reducer.py:27-35 and 154-163 [_get_dict] *)
  Fixpoint get_dict (h : heap) (o : obj) (cols : list string) : heap * obj * dict V :=
    match cols with
    | [] => (h, o, [])
    | c :: t =>
        match o_loc o with
        | None => (h, o, [])
        | Some l =>
            let '(s, x, v) := colf (o_red o) c (o_st o) (h_get h l) in
            let '(h', o', d) := get_dict (h_set h l x) (Obj (o_red o) s (Some l)) t in
            (h', o', (c, v) :: d)
        end
    end.

  (** reducer.py:171-189 [process] *)
  Definition process (h : heap) (o : obj) (waveforms : nat) : heap * obj * dict V :=
    let '(h1, o1) := prepare h o waveforms in
    let '(h2, o2, d) := get_dict h1 o1 (r_active (o_red o1)) in
    match o_loc o2 with
    | None => (h2, o2, d)
    | Some l =>
        let '(s, x) := postf (o_red o2) (o_st o2) (h_get h2 l) in
        (h_set h2 l x, Obj (o_red o2) s (Some l), d)
    end.

  (** chain.py:178-195 [process]: the dict comprehension. *)
  Fixpoint chain_process (h : heap) (os : list obj) (waveforms : nat) (acc : dict V)
    : heap * list obj * dict V :=
    match os with
    | [] => (h, [], acc)
    | o :: t =>
        let '(h1, o1, d) := process h o waveforms in
        let '(h2, os2, acc2) := chain_process h1 t waveforms (dupdate acc d) in
        (h2, o1 :: os2, acc2)
    end.

  (** A sequence of events. *)
  Fixpoint chain_events (h : heap) (os : list obj) (evs : list nat) : heap * list (dict V) :=
    match evs with
    | [] => (h, [])
    | e :: t =>
        let '(h1, os1, d) := chain_process h os e [] in
        let '(h2, ds) := chain_events h1 os1 t in
        (h2, d :: ds)
    end.
End Process.

(** ** generate_dl1_config *)

(** Characters matched by the regular expression [\s] and removed by [str.strip()]. *)
Definition is_space (c : ascii) : bool :=
  let n := nat_of_ascii c in
  ((9 <=? n) && (n <=? 13) || (28 <=? n) && (n <=? 32) || (n =? 133) || (n =? 160))%nat.

Definition newline : ascii := "010"%char.
Definition nl : string := String newline "".

(** The substitution of every newline with the white space after it by [rep] (regular expression at
    generate_dl1_config.py:39 and 45); [skipping] is set inside a match. *)
Fixpoint re_sub (rep s : string) (skipping : bool) : string :=
  match s with
  | EmptyString => ""
  | String c t =>
      if skipping && is_space c then re_sub rep t true
      else if Ascii.eqb c newline then (rep ++ re_sub rep t true)%string
      else String c (re_sub rep t false)
  end.

Fixpoint lstrip (s : string) : string :=
  match s with
  | EmptyString => ""
  | String c t => if is_space c then lstrip t else s
  end.

Fixpoint rstrip (s : string) : string :=
  match s with
  | EmptyString => ""
  | String c t =>
      let r := rstrip t in
      if is_space c && String.eqb r "" then "" else String c r
  end.

(** [s[:-1]] *)
Fixpoint drop_last (s : string) : string :=
  match s with
  | EmptyString => ""
  | String c EmptyString => ""
  | String c t => String c (drop_last t)
  end.

(** generate_dl1_config.py:39, 45 *)
Definition comment_doc (rep doc : string) : string :=
  drop_last (rstrip (lstrip (re_sub rep doc false))).

Definition str_bool (b : bool) : string := if b then "True" else "False".
(** [str] of the values of default_columns (all booleans). *)
Definition str_val (v : val) : string := match v with VBool b => str_bool b | _ => "" end.

(** [if doc and not bare] *)
Definition opt_doc (rep : string) (doc : option string) (bare : bool) : string :=
  match doc with
  | Some d => if String.eqb d "" || bare then "" else comment_doc rep d
  | None => ""
  end.

(** generate_dl1_config.py:41-46: one column. *)
Definition col_text (default : dict val) (bare : bool) (c : string * option string) : string :=
  (fst c ++ ": " ++ str_val (dgetd (VBool true) (fst c) default) ++ nl ++
   opt_doc (nl ++ "#    ") (snd c) bare)%string.

Definition concat_str (l : list string) : string := fold_right append "" l.

(** A reducer as the script sees it: name, docstring, columns with docstrings. *)
Record rdoc := RDoc { rd_name : string; rd_doc : option string; rd_cols : list (string * option string) }.

(** generate_dl1_config.py:35-47 *)
Definition reducer_text (default : dict val) (bare : bool) (r : rdoc) : string :=
  ("# " ++ rd_name r ++ nl ++ opt_doc (nl ++ "#  ") (rd_doc r) bare ++
   concat_str (map (col_text default bare) (rd_cols r)) ++ nl)%string.

Definition config_text (default : dict val) (bare : bool) (rs : list rdoc) : string :=
  concat_str (map (reducer_text default bare) rs).

(** The configuration the generated file stands for: one entry per column. *)
Definition generated_config (default : dict val) (cols : list string) : dict val :=
  map (fun c => (c, dgetd (VBool true) c default)) cols.
