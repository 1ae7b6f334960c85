(** Model of CHECLabPy/utils/waveform.py.

    Simplifications:
    - numbers are exact; an event is its array of n_pixels rows of n_samples values, and events are
      numbered by their position in the source (Reader.__iter__);
    - events have at least n_base_samples samples and n_base >= 1 (otherwise numpy cannot broadcast, or
      divides by 0);
    - [obtain_dead_pixel_list_r1] is not modelled (it reads an attribute [index] no reader has). *)
From Coq Require Import List ZArith QArith Qcanon Bool Arith.
From Verif.Base Require Import Py Num.
Import ListNotations.
Local Open Scope list_scope.

Definition event := list (list Qc).

(** [waveforms[:, :n_base_samples]] *)
Definition head (n_base_samples : nat) (w : event) : event := map (fun row => pyslice row None (Some (Z.of_nat n_base_samples))) w.

(** [self.baseline_waveforms[i] = x] *)
Fixpoint set_entry {A} (l : list A) (i : nat) (x : A) : list A :=
  match l, i with
  | [], _ => []
  | _ :: t, O => x :: t
  | y :: t, S i' => y :: set_entry t i' x
  end.

(** [np.mean(self.baseline_waveforms, axis=(0, 2))], entry [p] *)
Definition mean02 (n_base n_base_samples : nat) (buf : list event) (p : nat) : Qc :=
  (qsum (map (fun e => qsum (nth p e [])) buf) / qn (n_base * n_base_samples))%Qc.

Record subtractor := Sub {
  b_n : nat; b_samples : nat; b_pixels : nat; b_iev : nat; b_buf : list event; b_baseline : list Qc }.

(** waveform.py:21-25: the loop with its break, from event [iev] on. *)
Fixpoint fill_loop (n_base n_base_samples : nat) (source : list event) (iev : nat) (buf : list event) : list event :=
  match source with
  | [] => buf
  | w :: t => if (n_base <=? iev)%nat then buf
              else fill_loop n_base n_base_samples t (S iev) (set_entry buf iev (head n_base_samples w))
  end.

(** waveform.py:14-26 *)
Definition new_subtractor (n_pixels : nat) (source : list event) (n_base n_base_samples : nat) : subtractor :=
  let buf := fill_loop n_base n_base_samples source 0 (repeat (repeat (repeat 0%Qc n_base_samples) n_pixels) n_base) in
  Sub n_base n_base_samples n_pixels 0 buf (map (mean02 n_base n_base_samples buf) (seq 0 n_pixels)).

(** waveform.py:28-32 *)
Definition update_baseline (b : subtractor) (w : event) : subtractor :=
  let entry := (b_iev b mod b_n b)%nat in
  let buf := set_entry (b_buf b) entry (head (b_samples b) w) in
  Sub (b_n b) (b_samples b) (b_pixels b) (S (b_iev b)) buf (map (mean02 (b_n b) (b_samples b) buf) (seq 0 (b_pixels b))).

(** [waveforms - self.baseline[:, None]] *)
Definition minus_baseline (w : event) (baseline : list Qc) : event :=
  map (fun rb => map (fun x => x - snd rb)%Qc (fst rb)) (combine w baseline).

(** waveform.py:34-36 *)
Definition subtract (b : subtractor) (w : event) : subtractor * event :=
  let b' := update_baseline b w in (b', minus_baseline w (b_baseline b')).

(** ** shift_array, waveform.py:39-49, one row. [junk] is what np.empty_like left in the array. *)
Definition set_slice {A} (l : list A) (a b : option Z) (vals : list A) : list A :=
  let n := List.length l in
  let s := slice_bound n 0 a in
  let e := slice_bound n n b in
  firstn s l ++ vals ++ skipn (Nat.max s e) l.
(** Scalar right-hand side. *)
Definition fill_slice {A} (l : list A) (a b : option Z) (v : A) : list A :=
  let n := List.length l in
  let s := slice_bound n 0 a in
  let e := slice_bound n n b in
  firstn s l ++ repeat v (e - s) ++ skipn (Nat.max s e) l.

Definition shift_row {A} (junk row : list A) (num : Z) (fill : A) : list A :=
  if (0 <? num)%Z then
    set_slice (fill_slice junk None (Some num) fill) (Some num) None (pyslice row None (Some (- num)%Z))
  else if (num <? 0)%Z then
    set_slice (fill_slice junk (Some num) None fill) None (Some num) (pyslice row (Some (- num)%Z) None)
  else set_slice junk None None (pyslice row None None).

Definition shift_array {A} (junk arr : list (list A)) (num : Z) (fill : A) : list (list A) :=
  map (fun jr => shift_row (fst jr) (snd jr) num fill) (combine junk arr).

(** [np.mean(waveforms, 0)] *)
Definition mean0 (w : event) (n_samples : nat) : list Qc :=
  map (fun j => (qsum (map (fun row => nth j row 0%Qc) w) / qn (List.length w))%Qc) (seq 0 n_samples).

(** waveform.py:52-71 *)
Definition shift_waveform (junk w : event) (n_samples : nat) (t_shift : Z) (fill : Qc) : event :=
  let avg_wf_tevent := argmax (mean0 w n_samples) in
  shift_array junk w (t_shift - Z.of_nat avg_wf_tevent) fill.

(** ** Averages over a file, waveform.py:74-146; defaults n_base = 50, n_base_samples = 16, fill 0.
    [junk i] is the uninitialised array of event number [i]. *)
Definition add_list (a b : list Qc) : list Qc := map (fun xy => fst xy + snd xy)%Qc (combine a b).

Fixpoint average_loop (junk : nat -> event) (n_samples : nat) (t_shift : Z) (evs : list event)
    (b : subtractor) (acc : list Qc) (n : nat) : list Qc * nat :=
  match evs with
  | [] => (acc, n)
  | w :: t =>
      let '(b', w_bs) := subtract b w in
      let wf := shift_waveform (junk n) w_bs n_samples t_shift 0%Qc in
      average_loop junk n_samples t_shift t b' (add_list acc (mean0 wf n_samples)) (S n)
  end.
Definition get_average_wf (junk : nat -> event) (n_pixels n_samples : nat) (source : list event) (t_shift : Z) : list Qc :=
  let '(acc, n) := average_loop junk n_samples t_shift source (new_subtractor n_pixels source 50 16) (repeat 0%Qc n_samples) 0 in
  map (fun x => (x / qn n)%Qc) acc.

Definition add_event (a b : event) : event := map (fun xy => add_list (fst xy) (snd xy)) (combine a b).
Fixpoint pixel_loop (junk : nat -> event) (n_samples : nat) (t_shift : Z) (evs : list event)
    (b : subtractor) (acc : event) (n : nat) : event * nat :=
  match evs with
  | [] => (acc, n)
  | w :: t =>
      let '(b', w_bs) := subtract b w in
      let wf := shift_waveform (junk n) w_bs n_samples t_shift 0%Qc in
      pixel_loop junk n_samples t_shift t b' (add_event acc wf) (S n)
  end.
Definition get_average_wf_per_pixel (junk : nat -> event) (n_pixels n_samples : nat) (source : list event) (t_shift : Z) : event :=
  let '(acc, n) := pixel_loop junk n_samples t_shift source (new_subtractor n_pixels source 50 16)
                     (repeat (repeat 0%Qc n_samples) n_pixels) 0 in
  map (map (fun x => (x / qn n)%Qc)) acc.
