(** Model of the events of CHECLabPy: the numpy subclass Waveform (core/io/waveform.py:8-41), the events of the readers
    (core/io/tio.py, core/io/simtel.py), the calibration of raw events (calib/waveform.py) and the containers that the
    reader of simulations fills (core/io/simtel.py:84-103, 120-186).

    Simplifications:
    - of an array only its class and its Python attributes are modelled, not its samples;
    - numpy makes the result of an operation on several arrays an instance of the class of the first operand that is not
      a plain array (no class here defines another priority) and passes that operand to __array_finalize__;
    - functions compiled by numba, and numpy.array of a list of arrays, give plain arrays;
    - the containers of an event of a simulation (mc, pointing, mcheader without obs_id) are opaque values. *)
From Coq Require Import List ZArith QArith Qcanon String Bool.
From Verif.Base Require Import Py.
From Verif.Reader Require Import Model.
Import ListNotations.
Local Open Scope list_scope.
Local Open Scope string_scope.

(** ** Arrays with attributes *)
Inductive value := VNone | VBool (b : bool) | VInt (z : Z) | VPair (a b : Z) | VTime (q : Qc) | VImage (l : list Z).
Inductive cls := Nd | Wf | SimWf.
Record arr := { a_cls : cls; a_attrs : dict value }.
Definition plain : arr := {| a_cls := Nd; a_attrs := [] |}.
(** [obj.name] *)
Definition attr (a : arr) (name : string) : res value := match dget name (a_attrs a) with Some v => Ok v | None => Raise AttributeError end.
(** [obj.name = v]; plain arrays have no other attributes. *)
Definition set_attr (a : arr) (name : string) (v : value) : res arr :=
  match a_cls a with Nd => Raise AttributeError | c => Ok {| a_cls := c; a_attrs := dset name v (a_attrs a) |} end.
(** [getattr(obj, name, None)] *)
Definition getattr (a : arr) (name : string) : value := match dget name (a_attrs a) with Some v => v | None => VNone end.

(** waveform.py:23-33: a new array of class [c] made from [obj] *)
Definition finalize (c : cls) (obj : arr) : arr :=
  match c with
  | Nd => plain
  | _ => {| a_cls := c; a_attrs :=
      [("iev", getattr obj "iev"); ("is_r1", getattr obj "is_r1"); ("first_cell_id", getattr obj "first_cell_id"); ("stale", getattr obj "stale");
       ("missing_packets", getattr obj "missing_packets"); ("t_tack", getattr obj "t_tack"); ("_t_cpu_container", getattr obj "_t_cpu_container"); ("mc_true", getattr obj "mc_true")] |}
  end.
(** waveform.py:9-21; numpy.asarray drops the class of the input. *)
Definition new (c : cls) (iev is_r1 first_cell_id stale missing_packets t_tack t_cpu_container mc_true : value) : arr :=
  let obj := finalize c plain in
  {| a_cls := c; a_attrs := dset "mc_true" mc_true (dset "_t_cpu_container" t_cpu_container (dset "t_tack" t_tack (dset "missing_packets" missing_packets
     (dset "stale" stale (dset "first_cell_id" first_cell_id (dset "is_r1" is_r1 (dset "iev" iev (a_attrs obj)))))))) |}.

(** waveform.py:35-41 as the pair of integers given to pandas, simtel.py:11-13 *)
Definition t_cpu (a : arr) : res value :=
  match a_cls a with
  | Nd => Raise AttributeError
  | Wf => bind (attr a "_t_cpu_container") (fun v => match v with VPair s ns => Ok (VPair s ns) | _ => Raise TypeError end)
  | SimWf => attr a "_t_cpu_container"
  end.

(** ** Operations on events *)
(** Slices, copies, conversions of type, functions of one array *)
Definition op1 (a : arr) : arr := finalize (a_cls a) a.
(** Arithmetic of several arrays *)
Fixpoint opn (l : list arr) : arr :=
  match l with
  | [] => plain
  | a :: r => match a_cls a with Nd => opn r | c => finalize c a end
  end.
(** WaveformCalibrator.__call__, calib/waveform.py:15-20 *)
Definition calibrate (a : arr) : res arr := set_attr (op1 a) "r1" (VBool true).

Inductive expr :=
| Leaf (a : arr)
| Op1 (e : expr)
| Op2 (e f : expr)
| Compiled (e : expr)
| Calibrated (e : expr).
Fixpoint eval (e : expr) : res arr :=
  match e with
  | Leaf a => Ok a
  | Op1 e => rmap op1 (eval e)
  | Op2 e f => bind (eval e) (fun a => bind (eval f) (fun b => Ok (opn [a; b])))
  | Compiled e => rmap (fun _ => plain) (eval e)
  | Calibrated e => bind (eval e) calibrate
  end.

(** ** Events of a tio file *)
Record header := { h_first_cell_id : Z; h_stale : bool; h_missing : bool; h_t_tack : Z; h_cpu_s : Z; h_cpu_ns : Z }.
Record tio := { t_r1 : bool; t_modules : Z; t_superpixels : Z; t_headers : Z -> header; t_sn : Z -> Z; t_dac : Z -> Z -> Z }.
(** tio.py:79-93 *)
Definition tio_event (r : tio) (iev : Z) : arr :=
  let h := t_headers r iev in
  new Wf (VInt iev) (VBool (t_r1 r)) (VInt (h_first_cell_id h)) (VBool (h_stale h)) (VBool (h_missing h)) (VInt (h_t_tack h)) (VPair (h_cpu_s h) (h_cpu_ns h)) VNone.
(** reader[i] of the file with [n] events; several events become a plain array (numpy.array, waveform.py:77-82) *)
Definition tio_getitem (r : tio) (n : Z) (i : index) : res arr :=
  rmap (fun x => match x with Event e => e | Events _ => plain end) (getitem (tio_event r) n i).
(** tio.py:128-144; 146-154 alike *)
Definition get_sn (r : tio) (tm : Z) : res Z := if (t_modules r <=? tm)%Z then Raise IndexError else Ok (t_sn r tm).
(** tio.py:156-161; 163-168 alike *)
Definition get_sp_dac (r : tio) (tm sp : Z) : res Z :=
  if (t_modules r <=? tm)%Z then Raise IndexError else if (t_superpixels r <=? sp)%Z then Raise IndexError else Ok (t_dac r tm sp).
(** tio.py:171-188: ReaderR1, ReaderR0 *)
Definition reader_r1 (r : tio) : res tio := if negb (t_r1 r) then Raise IOError else Ok r.
Definition reader_r0 (r : tio) : res tio := if t_r1 r then Raise IOError else Ok r.
(** from_tio_reader, calib/waveform.py:22-27: the serial numbers *)
Definition sn_list (r : tio) : res (list Z) := mapM (get_sn r) (py_range 0 (t_modules r) 1).

(** ** Events of a simulation *)
Section Simulation.
  Context {C P H : Type}.
  Record event := { e_count : Z; e_time : Qc; e_obs : Z; e_mc : C; e_pointing : P; e_header : H; e_image : list Z }.
  Record sim := { s_run_id : Z; s_mc : option (Z * Qc * C); s_pointing : option (Z * Qc * P); s_mcheader : option (Z * H) }.
  (** waveform.py:58, simtel.py:78-82 *)
  Definition sim_init : sim := {| s_run_id := 0; s_mc := None; s_pointing := None; s_mcheader := None |}.
  (** simtel.py:120-186 *)
  Definition fill (s : sim) (e : event) : sim :=
    {| s_run_id := e_obs e; s_mc := Some (e_count e, e_time e, e_mc e); s_pointing := Some (e_count e, e_time e, e_pointing e);
       s_mcheader := match s_mcheader s with None => Some (e_obs e, e_header e) | h => h end |}.
  (** simtel.py:84-95 *)
  Definition build (s : sim) (e : event) : sim * arr :=
    (fill s e, new SimWf (VInt (e_count e)) (VBool true) (VInt 0) (VBool false) (VBool false) (VInt 0) (VTime (e_time e)) (VImage (e_image e))).
  (** Any sequence of accesses, simtel.py:97-103: the reader and the event after each. *)
  Fixpoint accesses (s : sim) (l : list event) : list (sim * arr) :=
    match l with [] => [] | e :: r => let x := build s e in x :: accesses (fst x) r end.
  Definition after (s : sim) (l : list event) : sim := fold_left fill l s.
  (** The loop of write_dl1_file, scripts/extract_dl1.py:48-70, for a simulation: rows of the tables mc and pointing, after the
      baseline subtractor read the events [before] (utils/waveform.py:20-24). *)
  Definition tables (before l : list event) : list (arr * option (Z * Qc * C) * option (Z * Qc * P)) :=
    map (fun x => (snd x, s_mc (fst x), s_pointing (fst x))) (accesses (after sim_init before) l).
End Simulation.
Arguments event : clear implicits.
Arguments sim : clear implicits.
