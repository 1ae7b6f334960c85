(** Model of CHECLabPy/scripts/extract_spe.py: fitting every pixel in one or several processes.  Definitions only.
    The outcome of fitter.apply on one pixel is a total function of that pixel's charges (Fitter/Model.v: apply reads only
    the configuration and the charges); a fit that raises is not modelled. *)
From Coq Require Import List ZArith Bool.
Import ListNotations.

(** Dictionaries with pixel keys, in order of insertion; [d[k] = v]. *)
Fixpoint pset {V} (k : nat) (v : V) (d : list (nat * V)) : list (nat * V) :=
  match d with
  | [] => [(k, v)]
  | (k', v') :: d' => if Nat.eqb k k' then (k', v) :: d' else (k', v') :: pset k v d'
  end.
Section Spe.
  Context {charges outcome V E A : Type}.
  Variable fit : charges -> outcome.
  Variable fit_values : outcome -> V.
  Variable fit_errors : outcome -> E.
  Variable fit_arrays : outcome -> A.
  Variable pixel_charges : nat -> charges.
  (** The steps of _apply_pixel (extract_spe.py:27-50), by one process, that other processes can observe or interrupt:
      fitter.apply changes the process's own fitter; each store to a manager dictionary is one request to the manager. *)
  Inductive step := Apply (pixel : nat) | StoreValues (pixel : nat) | StoreErrors (pixel : nat) | StoreArrays (pixel : nat).
  Definition apply_pixel (pixel : nat) : list step := [Apply pixel; StoreValues pixel; StoreErrors pixel; StoreArrays pixel].
  (** fitters: result held by each process's fitter (processes are numbered); the three manager dictionaries. *)
  Record state := { fitters : nat -> option outcome; pixel_values : list (nat * V); pixel_errors : list (nat * E); pixel_arrays : list (nat * A) }.
  Definition initial : state := {| fitters := fun _ => None; pixel_values := []; pixel_errors := []; pixel_arrays := [] |}.
  Definition exec (s : state) (ws : nat * step) : state :=
    let '(w, st) := ws in
    match st with
    | Apply p => {| fitters := fun w' => if Nat.eqb w' w then Some (fit (pixel_charges p)) else fitters s w'; pixel_values := pixel_values s; pixel_errors := pixel_errors s; pixel_arrays := pixel_arrays s |}
    | StoreValues p => match fitters s w with None => s | Some o => {| fitters := fitters s; pixel_values := pset p (fit_values o) (pixel_values s); pixel_errors := pixel_errors s; pixel_arrays := pixel_arrays s |} end
    | StoreErrors p => match fitters s w with None => s | Some o => {| fitters := fitters s; pixel_values := pixel_values s; pixel_errors := pset p (fit_errors o) (pixel_errors s); pixel_arrays := pixel_arrays s |} end
    | StoreArrays p => match fitters s w with None => s | Some o => {| fitters := fitters s; pixel_values := pixel_values s; pixel_errors := pixel_errors s; pixel_arrays := pset p (fit_arrays o) (pixel_arrays s) |} end
    end.
  (** The program of a process that is given these pixels. *)
  Definition program (pixels : list nat) : list step := flat_map apply_pixel pixels.
  (** Interleavings of the programs of several processes: each step is the next one of some process. *)
  Inductive interleaving : list (list step) -> list (nat * step) -> Prop :=
  | finished : forall ps, (forall p, In p ps -> p = []) -> interleaving ps []
  | advance : forall ps w st rest trace, nth_error ps w = Some (st :: rest) ->
      interleaving (firstn w ps ++ rest :: skipn (S w) ps) trace -> interleaving ps ((w, st) :: trace).
  Definition run (trace : list (nat * step)) : state := fold_left exec trace initial.
  (** extract_spe.py:162-170: one row per dictionary entry, in order of insertion, indexed by pixel. *)
  Definition tables (s : state) := (pixel_values s, pixel_errors s, pixel_arrays s).
  (** extract_spe.py:52-57: pool.map hands every pixel to exactly one process. *)
  Definition distribution (n_pixels : nat) (ds : list (list nat)) : Prop := NoDup (List.concat ds) /\ forall p, In p (List.concat ds) <-> p < n_pixels.
  (** extract_spe.py:59-63 *)
  Definition process (n_pixels : nat) : list (nat * step) := map (fun st => (0, st)) (program (seq 0 n_pixels)).
End Spe.
