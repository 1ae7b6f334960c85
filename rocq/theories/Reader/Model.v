(** Model of CHECLabPy/core/io/waveform.py, the constructor of core/io/tio.py as far as max_events is
    concerned, and the file type detection of core/io/tio.py and core/io/simtel.py.

    Simplifications:
    - [_get_event] is an arbitrary function of the event number; the numpy array made from a list of
      events is the list;
    - Python types that are neither int, slice nor list are one case (this includes numpy integers);
    - a file is the list of its bytes; gunzip and the astropy FITS header parser are arbitrary
      functions that may raise; the constructors of the readers are not modelled. *)
From Coq Require Import List ZArith String Bool.
From Flocq Require Import Core BinarySingleNaN.
From Verif.Base Require Import Py.
Import ListNotations.
Local Open Scope list_scope.
Local Open Scope py_scope.
Local Open Scope Z_scope.

(** ** Indexing *)

(** [range(start, stop, step)], step not 0: CPython compute_range_length and the items. *)
Definition range_len (start stop step : Z) : Z :=
  if 0 <? step then (if start <? stop then (stop - start - 1) / step + 1 else 0)
  else (if stop <? start then (start - stop - 1) / (- step) + 1 else 0).
Definition py_range (start stop step : Z) : list Z :=
  map (fun k => start + Z.of_nat k * step) (seq 0 (Z.to_nat (range_len start stop step))).

(** [slice(a, b, c).indices(n)]: CPython PySlice_GetLongIndices. *)
Definition slice_indices (a b c : option Z) (n : Z) : res (Z * Z * Z) :=
  let step := match c with Some z => z | None => 1 end in
  if step =? 0 then Raise ValueError
  else
    let lower := if step <? 0 then -1 else 0 in
    let upper := if step <? 0 then n - 1 else n in
    let start := match a with
                 | None => if step <? 0 then upper else lower
                 | Some z => if z <? 0 then Z.max (z + n) lower else Z.min z upper
                 end in
    let stop := match b with
                | None => if step <? 0 then lower else upper
                | Some z => if z <? 0 then Z.max (z + n) lower else Z.min z upper
                end in
    Ok (start, stop, step).

Inductive index :=
| IInt (z : Z)
| ISlice (a b c : option Z)
| IList (l : list index)
| IOther.

Inductive item (E : Type) :=
| Event (e : E)
| Events (l : list (item E)).
Arguments Event {E} e.
Arguments Events {E} l.

Section Reader.
  Context {E : Type}.
  Variable get_event : Z -> E.
  Variable n_events : Z.

  (** waveform.py:64-66 *)
  Definition iterate : list E := map get_event (py_range 0 n_events 1).

  (** waveform.py:86-87; [len()] refuses a negative length. *)
  Definition len : res Z := if n_events <? 0 then Raise ValueError else Ok n_events.

  (** waveform.py:69-76 *)
  Definition get_int (iev : Z) : res E :=
    let iev := if iev <? 0 then iev + n_events else iev in
    if iev <? 0 then Raise IndexError
    else do n <- len; if n <=? iev then Raise IndexError else Ok (get_event iev).

  (** waveform.py:68-84 *)
  Fixpoint getitem (iev : index) : res (item E) :=
    match iev with
    | IInt z => do e <- get_int z; Ok (Event e)
    | ISlice a b c =>
        if n_events <? 0 then Raise ValueError
        else
          do t <- slice_indices a b c n_events;
          let '(start, stop, step) := t in
          do l <- mapM (fun ii => do e <- get_int ii; Ok (Event e)) (py_range start stop step);
          Ok (Events l)
    | IList l =>
        do l' <- (fix go (l : list index) : res (list (item E)) :=
                    match l with
                    | [] => Ok []
                    | i :: t => do x <- getitem i; do xs <- go t; Ok (x :: xs)
                    end) l;
        Ok (Events l')
    | IOther => Raise TypeError
    end.
End Reader.

(** tio.py:54 and 76-77 *)
Definition tio_n_events (in_file : Z) (max_events : option Z) : Z :=
  match max_events with
  | None => in_file
  | Some m => if negb (m =? 0) && (m <? in_file) then m else in_file
  end.

(** ** File type detection *)
Definition byte := Z.
Section Detect.
  Variable gunzip : list byte -> res (list byte).
  (** Whether the FITS header of the file has EVENT_HEADER_VERSION. *)
  Variable fits_header : list byte -> res bool.
  (** Byte order of the host. *)
  Variable little_endian : bool.

  (** [marker_bytes[0] == 0x1f and marker_bytes[1] == 0x8b] *)
  Definition gzip_marked (m : list byte) : res bool :=
    match m with
    | [] => Raise IndexError
    | b0 :: m' =>
        if b0 =? 31 then match m' with [] => Raise IndexError | b1 :: _ => Ok (b1 =? 139) end
        else Ok false
    end.

  (** [f.read(n)] of the file or of the gunzipped file. *)
  Definition marker (n : nat) (content : list byte) : res (list byte) :=
    do z <- gzip_marked (firstn n content);
    if z : bool then (do c <- gunzip content; Ok (firstn n c)) else Ok (firstn n content).

  (** [struct.unpack('I', m)] *)
  Definition unpack_I (m : list byte) : res Z :=
    match m with
    | [b0; b1; b2; b3] =>
        Ok (if little_endian then b0 + 256 * b1 + 65536 * b2 + 16777216 * b3
            else b3 + 256 * b2 + 65536 * b1 + 16777216 * b0)
    | _ => Raise StructError
    end.

  (** simtel.py:105-118 *)
  Definition simtel_compatible (content : list byte) : res bool :=
    do m <- marker 4 content;
    do i <- unpack_I m;
    Ok ((i =? 3558836791) || (i =? 931798996)).

  Fixpoint starts_with (p l : list byte) : bool :=
    match p, l with
    | [], _ => true
    | _, [] => false
    | a :: p', b :: l' => (a =? b) && starts_with p' l'
    end.
  (** [p in l] for bytes. *)
  Fixpoint bytes_in (p l : list byte) : bool :=
    starts_with p l || match l with [] => false | _ :: t => bytes_in p t end.

  (** b'FITS' *)
  Definition FITS : list byte := [70; 73; 84; 83].

  (** tio.py:95-114 *)
  Definition tio_compatible (content : list byte) : res bool :=
    do m <- marker 1024 content;
    if negb (bytes_in FITS m) then Ok false
    else match fits_header content with
         | Raise IOError => Ok false
         | Raise FileNotFoundError => Ok false
         | Raise e => Raise e
         | Ok b => Ok b
         end.
End Detect.

(** waveform.py:123-142 [from_path]: the class that is instantiated, [None] if no class accepts. *)
Fixpoint from_path {C F : Type} (compatible : C -> F -> res bool) (subclasses : list C) (f : F) : res (option C) :=
  match subclasses with
  | [] => Ok None
  | c :: t => do b <- compatible c f; if b : bool then Ok (Some c) else from_path compatible t f
  end.

(** ** Time stamps *)
Lemma Hprec : Prec_gt_0 53. Proof. reflexivity. Qed.
Lemma Hmax : Prec_lt_emax 53 1024. Proof. reflexivity. Qed.
Notation b64 := (binary_float 53 1024).

(** Conversion of an integer to double precision, and multiplication (round to nearest even). *)
Definition b64_of_Z (z : Z) : b64 := binary_normalize 53 1024 Hprec Hmax mode_NE z 0 false.
Definition b64_mult (x y : b64) : b64 := @Bmult 53 1024 Hprec Hmax mode_NE x y.

(** Two's complement wrap around of int64. *)
Definition wrap64 (z : Z) : Z := (z + 2 ^ 63) mod 2 ^ 64 - 2 ^ 63.
(** [np.int64] of a float that is in range: truncation. *)
Definition int64_of_b64 (x : b64) : Z := wrap64 (Btrunc x).

(** waveform.py:35-41: nanoseconds since the epoch. *)
Definition t_cpu (t_cpu_s t_cpu_ns : Z) : Z :=
  wrap64 (int64_of_b64 (b64_mult (b64_of_Z t_cpu_s) (b64_of_Z 1000000000)) + wrap64 t_cpu_ns).
