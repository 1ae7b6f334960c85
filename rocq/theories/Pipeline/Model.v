(** Model of how the scripts put the parts together: DL1Extractor.__call__ and the loop around it, several input files of
    extract_dl1.py, and the charges that extract_spe.py takes from DL1 files.  Definitions only. *)
From Coq Require Import List ZArith QArith Qcanon String Bool Arith.
From Verif.Base Require Import Py Str Num.
From Verif.Hdf5 Require Import Model.
From Verif.Dl1 Require Import Model.
From Verif.Calib Require Model.
From Verif.WfUtils Require Import Model.
Import ListNotations.
Local Open Scope list_scope.
Local Open Scope nat_scope.
Local Open Scope py_scope.

(** ** DL1Extractor *)

(** The body of an event: samples and first_cell_id of every pixel. *)
Definition body := (event * list Z)%type.

Section Extractor.
  (** [C]: the columns of one pixel that the chain produces; chain.process is a function of the waveforms it is given. *)
  Context {C : Type}.
  Variable process : event -> list C.
  (** time_calibrator: None for simulations (extract_dl1.py:99-101). *)
  Variable t_cor : option (list Qc).

  (** extract_dl1.py:153-156 *)
  Definition calibrated (w : wf body) : res event :=
    match t_cor with None => Ok (fst (wf_body w)) | Some c => Calib.Model.apply_t_cor (fst (wf_body w)) c end.

  (** extract_dl1.py:151-174: first_cell_id, baseline_subtracted and the columns of the chain. *)
  Definition call (s : subtractor) (w : wf body) : res (subtractor * list (Z * (Qc * C))) :=
    do waveforms_tc <- calibrated w;
    let '(s', waveforms_bs) := subtract s waveforms_tc in
    Ok (s', combine (snd (wf_body w)) (combine (b_baseline s') (process waveforms_bs))).

  (** extract_dl1.py:112: the baseline subtractor sees the events as they come from the reader. *)
  Definition first_baseline (n_pixels : nat) (wfs : list (wf body)) : subtractor :=
    new_subtractor n_pixels (map (fun w => fst (wf_body w)) wfs) 50 16.

  (** extract_dl1.py:48-57: the loop over the reader; an exception ends it. *)
  Fixpoint extract_loop (s : subtractor) (wfs : list (wf body)) : res (list (wf body * list (Z * (Qc * C)))) :=
    match wfs with
    | [] => Ok []
    | w :: t =>
        if skip_event w then extract_loop s t
        else do sv <- call s w; do rest <- extract_loop (fst sv) t; Ok ((w, snd sv) :: rest)
    end.
  Definition extract (n_pixels : nat) (wfs : list (wf body)) : res (list (wf body * list (Z * (Qc * C)))) :=
    extract_loop (first_baseline n_pixels wfs) wfs.

  (** The same as the total function that Dl1/Model.v expects: after an exception, or if pandas refuses columns of
      different lengths, write_dl1_file does not come to an end and the value does not matter. *)
  Definition total_call (dummy : C) (n_pixels : nat) (s : subtractor) (w : wf body) : subtractor * list (Z * (Qc * C)) :=
    match call s w with
    | Ok (s', vals) => if List.length vals =? n_pixels then (s', vals) else (s', repeat (0%Z, (0%Qc, dummy)) n_pixels)
    | Raise _ => (s, repeat (0%Z, (0%Qc, dummy)) n_pixels)
    end.
End Extractor.

(** ** extract_dl1.py:204-210: several input files *)
Section Inputs.
  Context {input output : Type}.
  Variable is_mc : input -> bool.
  Variable reduce : input -> output.
  (** What is on disk: waveform files and DL1 files. *)
  Inductive content := Waves (i : input) | Reduced (o : output).
  (** One input: WaveformReader.from_path (FileNotFoundError; None for a file of another kind, which DL1Extractor cannot
      handle) and write_dl1_file. HDF5Writer removes an existing file of the output name. Not modelled: reading the input
      after the writer has replaced it (C15). *)
  Definition reduce_file (output_path : option string) (fs : dict content) (path : string) : dict content * option exn :=
    match dget path fs with
    | None => (fs, Some FileNotFoundError)
    | Some (Reduced _) => (fs, Some AttributeError)
    | Some (Waves w) =>
        let target := match output_path with
                      | Some o => if (o =? "")%string then out_path (is_mc w) path else o
                      | None => out_path (is_mc w) path
                      end in
        (dset target (Reduced (reduce w)) fs, None)
    end.
  Fixpoint reduce_files (output_path : option string) (fs : dict content) (paths : list string) : dict content * option exn :=
    match paths with
    | [] => (fs, None)
    | p :: t => match reduce_file output_path fs p with
                | (fs', None) => reduce_files output_path fs' t
                | (fs', Some e) => (fs', Some e)
                end
    end.
End Inputs.

(** ** extract_spe.py:109-117 and 27-29: charges from the DL1 files *)
Section Charges.
  Context {V : Type}.
  (** The column of that name; NaN is None. *)
  Variable column : row V -> option Qc.
  (** charges.append(reader.select_column(name).values.reshape((n_events, n_pixels))) *)
  Fixpoint rows_of (n_events n_pixels : nat) (values : list (option Qc)) : list (list (option Qc)) :=
    match n_events with
    | O => []
    | S k => firstn n_pixels values :: rows_of k n_pixels (skipn n_pixels values)
    end.
  Definition file_charges (r : reader (row V)) : res (list (list (option Qc))) :=
    do rows <- data_table r;
    do ne <- md_int r "n_events";
    do np <- md_int r "n_pixels";
    if negb (Z.of_nat (List.length rows) =? ne * np)%Z || (ne <? 0)%Z || (np <? 0)%Z then Raise ValueError
    else Ok (rows_of (Z.to_nat ne) (Z.to_nat np) (map column rows)).
  (** charges[i][:, pixel] *)
  Definition pixel_of (pixel : nat) (charges : list (list (option Qc))) : res (list (option Qc)) :=
    mapM (fun r => match nth_error r pixel with Some c => Ok c | None => Raise IndexError end) charges.
  Definition pixel_charges (charges : list (list (list (option Qc)))) (pixel : nat) : res (list (list (option Qc))) := mapM (pixel_of pixel) charges.
End Charges.
