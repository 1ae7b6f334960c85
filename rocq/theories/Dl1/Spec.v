(** Vocabulary of the DL1 properties. *)
From Coq Require Import List ZArith String Bool Sorted Permutation.
From Verif.Base Require Import Py.
From Verif.Hdf5 Require Import Model.
From Verif.Dl1 Require Import Model.
Import ListNotations.
Local Open Scope Z_scope.

Section Spec.
  Context {V B St : Type}.

  (** Events that are neither stale nor have missing packets. *)
  Definition kept (wfs : list (wf B)) : list (wf B) :=
    filter (fun w => negb (wf_stale w) && negb (wf_missing w)) wfs.

  (** The extractor run over the kept events. *)
  Fixpoint extracted (ext : St -> wf B -> St * list (Z * V)) (s : St) (ws : list (wf B))
    : list (wf B * list (Z * V)) :=
    match ws with
    | [] => []
    | w :: t => (w, snd (ext s w)) :: extracted ext (fst (ext s w)) t
    end.

  (** What the file should hold for one event: one row per pixel, in pixel order. *)
  Definition stored_event (down : V -> V) (e : wf B * list (Z * V)) : list (row V) :=
    map (fun p : nat * (Z * V) =>
           let '(i, (fci, v)) := p in
           RData (D (wf_iev (fst e)) (Z.of_nat i) (fci mod 2 ^ 16) (wf_tack (fst e) mod 2 ^ 64)
                    (match wf_mctrue (fst e) with
                     | Some l => option_map (fun x => x mod 2 ^ 32) (nth_error l i)
                     | None => None end)
                    (down v)))
        (combine (seq 0 (List.length (snd e))) (snd e)).
End Spec.

Section Run.
  Context {V B St : Type}.

  (** The input runs the theorems speak about: at least one event is kept, the kept events have
      increasing 32-bit event numbers, the extractor returns one entry per pixel, and the
      metadata dicts of the waveform reader are dicts (distinct keys). *)
  Record good_run (ext : St -> wf B -> St * list (Z * V)) (src : source (V:=V) (B:=B)) (np : nat)
      (wfs : list (wf B)) : Prop := {
    g_pix : (0 < np)%nat /\ Z.of_nat np < 2 ^ 32;
    g_ext : forall s w, List.length (snd (ext s w)) = np;
    g_some : kept wfs <> [];
    g_ids : forall w, In w (kept wfs) -> 0 <= wf_iev w < 2 ^ 32;
    g_sorted : StronglySorted Z.lt (map wf_iev (kept wfs));
    g_base : NoDup (dkeys (s_base src));
    g_config : NoDup (dkeys (s_config src));
    g_mch : NoDup (dkeys (s_mcheader src)) }.

  (** [write_dl1_file] ran to completion and the resulting file was opened with DL1Reader. *)
  Definition dl1_round_trip (mem : list (row V) -> Z) (down : V -> V)
      (ext : St -> wf B -> St * list (Z * V)) src ms np s0 wfs (r : reader (row V)) : Prop :=
    exists w order f c,
      w_run mem (dl1_prep down) (dl1_ops ext src ms (Z.of_nat np) s0 wfs) w_init = (w, None) /\
      Permutation order (w_keys w) /\
      w_finish mem (dl1_prep down) order w = Ok f /\ r_open f = Ok (r, c).

  (** The time of the last event. *)
  Definition last_kept (wfs : list (wf B)) : option (wf B) := hd_error (rev (kept wfs)).
End Run.
