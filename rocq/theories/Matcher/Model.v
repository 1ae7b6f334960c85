(** Model of CHECLabPy/calib/amplitude_matcher.py.

    Simplifications:
    - DACs are integers (the default starting array is an int64 array, into which integral floats are
      stored exactly); amplitudes are exact and finite, the aim is not 0;
    - the arrays of the matcher (current_dac, previous_dac, previous_distance, stage, sp_mask) are held
      per superpixel, in one list of records;
    - reading and calibrating the R0 file is left out: a call of process gets the amplitude array
      (n_events x n_pixels) that _extract_amplitude_array returns;
    - printing is left out. *)
From Coq Require Import List ZArith QArith Qcanon Bool Arith.
From Verif.Base Require Import Py Num.
Import ListNotations.
Local Open Scope list_scope.
Local Open Scope Z_scope.

(** amplitude_matcher.py:6-17 *)
Definition STEP10 : Z := 0.
Definition STEP5 : Z := 1.
Definition STEP1 : Z := 2.
Definition FINISH : Z := 3.
Definition G_FIRST_PASS : Z := 0.
Definition G_RESET : Z := 1.
Definition G_SECOND_PASS : Z := 2.
Definition G_FINISH : Z := 3.

Record sp := Sp { sp_cur : Z; sp_prev : Z; sp_pdist : Qc; sp_stage : Z; sp_masked : bool }.

Record matcher := Mat { m_global : Z; m_iter : nat; m_aim : Qc; m_sps : list sp }.

(** ** __init__, lines 44-68 *)
Definition starting (n_superpixels : nat) (starting_dacs : option (list Z)) : list Z :=
  match starting_dacs with Some l => l | None => repeat 100 n_superpixels end.
(** lines 52-57. [bad_hv] may have one entry per superpixel or one per pixel; line 56 computes the
    per-superpixel mask of a per-pixel one but discards it, so that the argument is kept as it is. *)
Definition mask_of (n_pixels : nat) (bad_hv : option (list bool)) : list bool :=
  match bad_hv with
  | None => repeat false (n_pixels / 4)
  | Some b => b
  end.
(** Starting DACs and mask have (at least) one entry per superpixel; shorter arrays are an IndexError
    in Python and read as 0 and False here. *)
Definition new_matcher (n_pixels : nat) (aim : Qc) (starting_dacs : option (list Z)) (bad_hv : option (list bool)) : matcher :=
  let n_superpixels := (n_pixels / 4)%nat in
  let dacs := starting n_superpixels starting_dacs in
  let mask := mask_of n_pixels bad_hv in
  Mat G_FIRST_PASS 0 aim (map (fun k => Sp (nth k dacs 0) (nth k dacs 0) 0%Qc STEP10 (nth k mask false)) (seq 0 n_superpixels)).

(** ** _calculate_average, lines 88-95 *)
(** amplitude.reshape((n_events, n_superpixels, 4)).mean((0, 2)), entry [k] *)
Definition average_of (amplitude : list (list Qc)) (k : nat) : Qc :=
  (qsum (map (fun ev => nth (4 * k) ev 0 + nth (4 * k + 1) ev 0 + nth (4 * k + 2) ev 0 + nth (4 * k + 3) ev 0) amplitude)
   / qn (4 * List.length amplitude))%Qc.
Definition direction_of (aim average : Qc) : Z :=
  if qltb 0 (average - aim) then 1 else if qltb (average - aim) 0 then -1 else 0.
Definition distance_of (aim average : Qc) : Qc := let r := ((average - aim) / aim)%Qc in (r * r)%Qc.

(** ** _get_next_dac_nb, lines 105-136: one superpixel; new DAC and new stage. *)
Definition step_size (stage : Z) : Z :=
  if stage =? STEP10 then 10 else if stage =? STEP5 then 5 else if stage =? STEP1 then 1 else 0.
Definition next_dac (iteration : nat) (s : sp) (distance : Qc) (direction : Z) : Z * Z :=
  if sp_stage s =? FINISH then (sp_cur s, sp_stage s)
  else if sp_masked s then (255, FINISH)
  else
    let pd := if (iteration =? 0)%nat then distance else sp_pdist s in
    if qltb pd distance then (sp_prev s, sp_stage s + 1)
    else
      let d := sp_cur s + step_size (sp_stage s) * direction in
      if 255 <? d then (255, FINISH)
      else if d <? 10 then (255, FINISH)
      else (d, sp_stage s).

(** lines 140-152 *)
Definition advance (iteration : nat) (aim : Qc) (s : sp) (average : Qc) : sp :=
  let distance := distance_of aim average in
  let '(d, st) := next_dac iteration s distance (direction_of aim average) in
  Sp d (sp_cur s) distance st (sp_masked s).

(** ** process, lines 168-191, from the averages on *)
(** lines 172-175 *)
Definition reset (m : matcher) : matcher :=
  if m_global m =? G_RESET then
    Mat (m_global m + 1) 0 (m_aim m)
      (map (fun s => Sp (sp_cur s) (sp_prev s) (sp_pdist s) STEP1 (sp_masked s)) (m_sps m))
  else m.

Definition all_finished (m : matcher) : bool := forallb (fun s => sp_stage s =? FINISH) (m_sps m).

(** New state, returned DACs, and the flag of completion. Lines 178 and 191 differ in the shape of the
    array returned; [reshape((32, 16))] needs 512 superpixels, the DACs are given flat here. *)
Definition process (m : matcher) (amplitude : list (list Qc)) : matcher * (list Z * bool) :=
  let m1 := reset m in
  if m_global m1 =? G_FINISH then (m1, (map sp_cur (m_sps m1), true))
  else
    let sps := map (fun ks => advance (m_iter m1) (m_aim m1) (snd ks) (average_of amplitude (fst ks)))
                   (combine (seq 0 (List.length (m_sps m1))) (m_sps m1)) in
    let m2 := Mat (m_global m1) (S (m_iter m1)) (m_aim m1) sps in
    let m3 := if all_finished m2 then Mat (m_global m2 + 1) (m_iter m2) (m_aim m2) (m_sps m2) else m2 in
    (m3, (map sp_cur (m_sps m3), false)).

(** A history of calls. *)
Fixpoint run (m : matcher) (ms : list (list (list Qc))) : list (matcher * (list Z * bool)) :=
  match ms with
  | [] => []
  | a :: t => let r := process m a in r :: run (fst r) t
  end.

(** The closed loop with a camera whose amplitudes are a function of the DACs commanded. *)
Fixpoint closed_loop (cam : list Z -> list (list Qc)) (n : nat) (m : matcher) : matcher :=
  match n with
  | O => m
  | S n' => let m' := closed_loop cam n' m in fst (process m' (cam (map sp_cur (m_sps m'))))
  end.
