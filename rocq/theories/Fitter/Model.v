(** Model of CHECLabPy/core/spectrum_fitter.py (bookkeeping, configuration, curve normalisation).

    Simplifications:
    - [V] is the type of scalar values (numbers, booleans); limits and range are lists of them
      (Python tuples, YAML sequences);
    - parameter objects are list entries; an attribute of the collection named like a parameter is the
      entry of that name (parameter names that shadow methods or attributes are not modelled);
    - a YAML file is the dict safe_load returns; safe_dump followed by safe_load is the identity apart
      from tuples becoming lists;
    - iminuit is only the keyword arguments it is called with; numbers of the curve are exact. *)
From Coq Require Import List ZArith QArith Qcanon String Bool Arith.
From Verif.Base Require Import Py Str Num.
Import ListNotations.
Local Open Scope string_scope.
Local Open Scope list_scope.
Local Open Scope py_scope.

Section Fitter.
  Context {V : Type}.

  (** spectrum_fitter.py:11-24 *)
  Record param := Par { p_name : string; p_initial : V; p_limits : list V; p_fixed : V; p_multi : bool }.

  (** Values of minuit_kwargs. *)
  Inductive setting := SVal (v : V) | SLim (l : list V).

  (** What [_prepare_parameters] leaves in the collection. *)
  Record prepared := Prep {
    parameter_names : list string; minuit_kwargs : dict setting; lookup : list (dict nat) }.

  (** ** _prepare_parameters, spectrum_fitter.py:74-99 *)
  Definition add_kwargs (kw : dict setting) (name : string) (p : param) : dict setting :=
    dset ("fix_" ++ name)%string (SVal (p_fixed p))
      (dset ("limit_" ++ name)%string (SLim (p_limits p)) (dset name (SVal (p_initial p)) kw)).

  (** [self.lookup[i][key] = value] *)
  Fixpoint set_nth {A} (l : list A) (i : nat) (f : A -> A) : list A :=
    match l, i with
    | [], _ => []
    | x :: t, O => f x :: t
    | x :: t, S i' => x :: set_nth t i' f
    end.

  (** lines 92-99: the loop over illuminations for a multi parameter. *)
  Fixpoint multi_loop (p : param) (is : list nat) (s : prepared * nat) : prepared * nat :=
    match is with
    | [] => s
    | i :: t =>
        let '(st, lookup_i) := s in
        let name := (p_name p ++ dec (N.of_nat i))%string in
        multi_loop p t
          (Prep (parameter_names st ++ [name]) (add_kwargs (minuit_kwargs st) name p)
                (set_nth (lookup st) i (dset (p_name p) lookup_i)), S lookup_i)
    end.

  (** lines 88-89 *)
  Fixpoint shared_loop (p : param) (is : list nat) (lookup_i : nat) (lk : list (dict nat)) : list (dict nat) :=
    match is with
    | [] => lk
    | i :: t => shared_loop p t lookup_i (set_nth lk i (dset (p_name p) lookup_i))
    end.

  Definition prepare_one (n : nat) (s : prepared * nat) (p : param) : prepared * nat :=
    if negb (p_multi p) then
      let '(st, lookup_i) := s in
      (Prep (parameter_names st ++ [p_name p]) (add_kwargs (minuit_kwargs st) (p_name p) p)
            (shared_loop p (seq 0 n) lookup_i (lookup st)), S lookup_i)
    else multi_loop p (seq 0 n) s.

  Definition prepare_parameters (n : nat) (ps : list param) : prepared :=
    fst (fold_left (prepare_one n) ps (Prep [] [] (repeat [] n), O)).

  (** ** The fitter: lines 27-44 and 119-141 *)
  Record fitter := Fit {
    f_n : nat; f_params : list param; f_prep : prepared; f_bins : V; f_range : list V;
    f_result : option (dict V) }.

  Definition new_fitter (n : nat) (ps : list param) (n_bins : V) (range : list V) : fitter :=
    Fit n ps (prepare_parameters n ps) n_bins range None.

  (** [getattr(self, name)] *)
  Fixpoint update_param (q : param) (ps : list param) : res (list param) :=
    match ps with
    | [] => Raise AttributeError
    | p :: t =>
        if String.eqb (p_name p) (p_name q) then
          Ok (Par (p_name p) (p_initial q) (p_limits q) (p_fixed q) (p_multi q) :: t)
        else do t' <- update_param q t; Ok (p :: t')
    end.

  (** lines 101-116 [update]: state after the call, and whether it raised. *)
  Fixpoint update_loop (qs : list param) (ps : list param) : list param * option exn :=
    match qs with
    | [] => (ps, None)
    | q :: t => match update_param q ps with
                | Ok ps' => update_loop t ps'
                | Raise e => (ps, Some e)
                end
    end.
  Definition update (qs : list param) (f : fitter) : fitter * option exn :=
    match update_loop qs (f_params f) with
    | (ps, None) => (Fit (f_n f) ps (prepare_parameters (f_n f) ps) (f_bins f) (f_range f) (f_result f), None)
    | (ps, Some e) => (Fit (f_n f) ps (f_prep f) (f_bins f) (f_range f) (f_result f), Some e)
    end.

  (** lines 239-254 [update_initial] *)
  Fixpoint initial_loop (r : dict V) (ill : nat) (ps : list param) : list param * option exn :=
    match ps with
    | [] => ([], None)
    | p :: t =>
        let key := if p_multi p then (p_name p ++ dec (N.of_nat ill))%string else p_name p in
        match dget key r with
        | None => (p :: t, Some KeyError)
        | Some v =>
            let '(t', e) := initial_loop r ill t in
            (Par (p_name p) v (p_limits p) (p_fixed p) (p_multi p) :: t', e)
        end
    end.
  Definition update_initial (ill : nat) (f : fitter) : fitter * option exn :=
    match f_result f with
    | None => (f, Some ValueError)
    | Some r =>
        let '(ps, e) := initial_loop r ill (f_params f) in
        (Fit (f_n f) ps (f_prep f) (f_bins f) (f_range f) (f_result f), e)
    end.

  (** ** Configuration *)
  Inductive leaf := LVal (v : V) | LSeq (l : list V).
  Inductive yaml := YLeaf (l : leaf) | YMap (d : dict leaf).

  (** [d.pop(k, ...)]: the dict without the key. *)
  Definition dpop {A} (k : string) (d : dict A) : dict A :=
    filter (fun kv => negb (String.eqb k (fst kv))) d.

  Definition as_val (l : leaf) : res V := match l with LVal v => Ok v | LSeq _ => Raise TypeError end.
  (** [tuple(x)] *)
  Definition as_tuple (l : leaf) : res (list V) := match l with LSeq l => Ok l | LVal _ => Raise TypeError end.

  (** lines 158-164, one parameter and one section; the section is a dict. A scalar setting that is a
      sequence in the file would be stored as is; such files are TypeErrors of the model. *)
  Definition sect (s : string) (d : dict yaml) : res (option (dict leaf)) :=
    match dget s d with
    | None => Ok None
    | Some (YMap m) => Ok (Some m)
    | Some (YLeaf _) => Raise AttributeError
    end.

  Definition load_param (p : param) (d : dict yaml) : res (param * dict yaml) :=
    do s1 <- sect "initial" d;
    do r1 <- (match s1 with
              | None => Ok (p_initial p, d)
              | Some m => do v <- (match dget (p_name p) m with Some l => as_val l | None => Ok (p_initial p) end);
                          Ok (v, dset "initial" (YMap (dpop (p_name p) m)) d)
              end);
    let '(ini, d1) := r1 in
    do s2 <- sect "limits" d1;
    do r2 <- (match s2 with
              | None => Ok (p_limits p, d1)
              | Some m => do v <- (match dget (p_name p) m with Some l => as_tuple l | None => Ok (p_limits p) end);
                          Ok (v, dset "limits" (YMap (dpop (p_name p) m)) d1)
              end);
    let '(lim, d2) := r2 in
    do s3 <- sect "fixed" d2;
    do r3 <- (match s3 with
              | None => Ok (p_fixed p, d2)
              | Some m => do v <- (match dget (p_name p) m with Some l => as_val l | None => Ok (p_fixed p) end);
                          Ok (v, dset "fixed" (YMap (dpop (p_name p) m)) d2)
              end);
    let '(fix_, d3) := r3 in
    Ok (Par (p_name p) ini lim fix_ (p_multi p), d3).

  Fixpoint load_params (ps : list param) (d : dict yaml) : res (list param * dict yaml) :=
    match ps with
    | [] => Ok ([], d)
    | p :: t =>
        do r <- load_param p d;
        do r' <- load_params t (snd r);
        Ok (fst r :: fst r', snd r')
    end.

  (** lines 165-170 *)
  Definition drop_empty (s : string) (d : dict yaml) : dict yaml :=
    match dget s d with
    | Some (YMap []) => dpop s d
    | _ => d
    end.

  (** lines 143-172 [load_config]: the new state and the entries reported as unused ([] = no
      warning). [d = None] for an empty file. *)
  Definition load_config (file : option (dict yaml)) (f : fitter) : res (fitter * dict yaml) :=
    match file with
    | None => Ok (f, [])
    | Some d =>
        do bins <- (match dget "n_bins" d with
                    | Some (YLeaf l) => as_val l | Some (YMap _) => Raise TypeError | None => Ok (f_bins f) end);
        let d1 := dpop "n_bins" d in
        do range <- (match dget "range" d1 with
                     | Some (YLeaf l) => as_tuple l | Some (YMap _) => Raise TypeError | None => Ok (f_range f) end);
        let d2 := dpop "range" d1 in
        do r <- load_params (f_params f) d2;
        let '(ps, d3) := r in
        Ok (Fit (f_n f) ps (f_prep f) bins range (f_result f),
            drop_empty "fixed" (drop_empty "limits" (drop_empty "initial" d3)))
    end.

  (** lines 174-199 [save_config] *)
  Fixpoint section_dict (g : param -> leaf) (ps : list param) (d : dict leaf) : dict leaf :=
    match ps with
    | [] => d
    | p :: t => section_dict g t (dset (p_name p) (g p) d)
    end.
  Definition save_config (f : fitter) : dict yaml :=
    [("n_bins", YLeaf (LVal (f_bins f)));
     ("range", YLeaf (LSeq (f_range f)));
     ("initial", YMap (section_dict (fun p => LVal (p_initial p)) (f_params f) []));
     ("limits", YMap (section_dict (fun p => LSeq (p_limits p)) (f_params f) []));
     ("fixed", YMap (section_dict (fun p => LVal (p_fixed p)) (f_params f) []))].

  (** lines 282-288 [apply]: the settings handed to the minimiser. *)
  Definition apply_kwargs (f : fitter) : dict setting := minuit_kwargs (f_prep f).
End Fitter.
Arguments param : clear implicits.
Arguments prepared : clear implicits.
Arguments setting : clear implicits.
Arguments fitter : clear implicits.
Arguments leaf : clear implicits.
Arguments yaml : clear implicits.

(** ** Curve *)
Local Open Scope Qc_scope.

(** [np.trapz(y, x)] *)
Fixpoint trapz (y x : list Qc) : Qc :=
  match y, x with
  | y0 :: ((y1 :: _) as ys), x0 :: ((x1 :: _) as xs) => (x1 - x0) * (y1 + y0) / qz 2 + trapz ys xs
  | _, _ => 0
  end.

(** [np.linspace(a, b, n)] *)
Definition linspace (a b : Qc) (n : nat) : list Qc :=
  match n with
  | 1%nat => [a]
  | _ => map (fun k => a + qn k * ((b - a) / qn (n - 1))) (seq 0 n)
  end.

(** spectrum_fitter.py:222-223; gentile.py:43, mapm.py: scaling to the area of the histogram.
    Division by 0 is inf or nan in numpy and not modelled (here 0). *)
Definition normalise (spectrum xs hist_y hist_x : list Qc) : list Qc :=
  let f := trapz hist_y hist_x / trapz spectrum xs in
  map (fun v => v * f) spectrum.

(** spectrum_fitter.py:202-224 [fit_result_curve]; [spectra] are the results of _get_spectra. *)
Definition fit_result_curve (lo hi : Qc) (n_bins : nat) (get_spectra : list Qc -> list (list Qc))
    (hist_x : list Qc) (hist_y : list (list Qc)) : list Qc * list (list Qc) :=
  let fit_x := linspace lo hi (n_bins * 10) in
  let fit_y := get_spectra fit_x in
  (fit_x, map (fun yh => normalise (fst yh) fit_x (snd yh) hist_x) (combine fit_y hist_y)).
