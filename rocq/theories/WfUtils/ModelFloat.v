(** BaselineSubtractor with its arithmetic in double precision (CHECLabPy/utils/waveform.py:8-36).

    [baseline_waveforms] is made by np.zeros, so it holds doubles; raw (uint16) and calibrated (float32) samples are stored in
    it unchanged.  [np.mean] adds the entries in some order, every addition rounded, and divides by their number.  The order
    depends on numpy and on the processor, so the baseline is a relation: any order is possible.  NaN and overflow are left out. *)
From Coq Require Import List ZArith QArith Qcanon Permutation.
From Verif.Base Require Import Py Num Fl FlSum.
From Verif.WfUtils Require Import Model.
Import ListNotations.

(** waveform.py:26 and 31, pixel [p]: [np.mean(self.baseline_waveforms, axis=(0, 2))] *)
Definition fl_baseline (b : subtractor) (p : nat) (v : Qc) : Prop := mean_to fl64 (concat (map (fun e => nth p e []) (b_buf b))) v.
(** waveform.py:36: [waveforms - self.baseline[:, None]] *)
Definition fl_minus (w : event) (baseline : list Qc) : event := map (fun rb => map (fun x => fl64 (x - snd rb)%Qc) (fst rb)) (combine w baseline).
(** waveform.py:34-36 *)
Definition fl_subtract (b : subtractor) (w : event) (b' : subtractor) (out : event) : Prop :=
  b' = update_baseline b w /\
  exists baseline, List.length baseline = b_pixels b /\ (forall p, (p < b_pixels b)%nat -> fl_baseline b' p (nth p baseline 0%Qc)) /\ out = fl_minus w baseline.
