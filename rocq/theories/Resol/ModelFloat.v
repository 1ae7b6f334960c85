(** Model of CHECLabPy/utils/resolutions.py in double precision. The sum of a group is taken by rounded additions in an order
    that is not fixed: the tables that groupby may return are a relation. Every amalgamation adds sums of earlier ones.
    pandas before 1.2 adds plainly, as here; the compensated sums of later versions are not modelled. The counts are integers.
    Overflow, NaN and infinities are not modelled, except that the root of a negative number is undefined ([None], NaN). *)
From Coq Require Import List ZArith QArith Qcanon Bool Reals Sorted.
From Flocq Require Import Core.
From Verif.Base Require Import Py Num Fl FlFacts FlSum.
From Verif.Resol Require Import Model.
Import ListNotations.
Local Open Scope list_scope.

Record frow := { fkey : key; fcols : list Qc; fnum : nat }.

(** resolutions.py:72-78 *)
Definition fl_resolution_row (e : entry) : frow :=
  let '(pixel, truth, measured) := e in
  let d := fl64 (measured - truth)%Qc in
  {| fkey := (pixel, truth); fcols := [fl64 (d * d)%Qc]; fnum := 1 |}.
(** resolutions.py:175-181 *)
Definition fl_statistics_row (e : entry) : frow :=
  let '(pixel, amplitude, charge) := e in
  {| fkey := (pixel, amplitude); fcols := [charge; fl64 (charge * charge)%Qc]; fnum := 1 |}.

(** df.groupby(keys).sum().reset_index() for rows with [m] columns to be summed: one row per distinct key, in increasing order *)
Definition fl_groupby (m : nat) (rows out : list frow) : Prop :=
  StronglySorted (fun a b => key_ltb a b = true) (map fkey out) /\
  (forall k, In k (map fkey out) <-> In k (map fkey rows)) /\
  forall r, In r out ->
    let of := filter (fun x => key_eqb (fkey x) (fkey r)) rows in
    List.length (fcols r) = m /\
    (forall j, (j < m)%nat -> sums_to fl64 (map (fun x => nth j (fcols x) 0%Qc) of) (nth j (fcols r) 0%Qc)) /\
    fnum r = list_sum (map fnum of).
(** groupby('true').sum() and dropping the column pixel *)
Definition fl_forget (r : frow) : frow := {| fkey := (0%Z, snd (fkey r)); fcols := fcols r; fnum := fnum r |}.

(** The object; the number of bytes is not kept, see [fl_step]. *)
Record fobj := { fdf : option (list frow); fdf_list : list (list frow) }.
Definition fl_new : fobj := {| fdf := None; fdf_list := [] |}.
Definition fl_held (s : fobj) : list frow := match fdf s with Some t => t | None => [] end ++ List.concat (fdf_list s).

(** resolutions.py:84-92, 187-195 *)
Definition fl_amalgamate (m : nat) (s s' : fobj) : Prop :=
  (fdf s <> None \/ fdf_list s <> []) /\ exists t, fl_groupby m (fl_held s) t /\ s' = {| fdf := Some t; fdf_list := [] |}.

(** add (79-82, 182-185): the amalgamation happens or not, depending on the memory used; finish (94-110, 197-209) keeps the rows
    whose true charge passes [keep]. *)
Definition fl_append (s : fobj) (rows : list frow) : fobj := {| fdf := fdf s; fdf_list := fdf_list s ++ [rows] |}.
Definition fl_select (keep : Qc -> bool) (s : fobj) : fobj := {| fdf := option_map (filter (fun r => keep (snd (fkey r)))) (fdf s); fdf_list := fdf_list s |}.
Inductive fl_step (m : nat) (to_row : entry -> frow) (keep : Qc -> bool) : fobj -> call -> fobj -> Prop :=
  | step_add s batch : fl_step m to_row keep s (Add batch) (fl_append s (map to_row batch))
  | step_add_amalgamate s batch s' : fl_amalgamate m (fl_append s (map to_row batch)) s' -> fl_step m to_row keep s (Add batch) s'
  | step_finish s s' : fl_amalgamate m s s' -> fl_step m to_row keep s Finish (fl_select keep s').
Inductive fl_run (m : nat) (to_row : entry -> frow) (keep : Qc -> bool) : fobj -> list call -> fobj -> Prop :=
  | run_nil s : fl_run m to_row keep s [] s
  | run_cons s c s1 cs s2 : fl_step m to_row keep s c s1 -> fl_run m to_row keep s1 cs s2 -> fl_run m to_row keep s (c :: cs) s2.
(** The tables df_p and df_c that a last finish may return, before their columns are computed. *)
Definition fl_session (m : nat) (to_row : entry -> frow) (keep : Qc -> bool) (calls : list call) (df_p df_c : list frow) : Prop :=
  exists s s', fl_run m to_row keep fl_new calls s /\ fl_amalgamate m s s' /\
  fdf (fl_select keep s') = Some df_p /\ fl_groupby m (map fl_forget df_p) df_c.
(** resolutions.py:108: df['true'] != 0 *)
Definition keep_resolution (truth : Qc) : bool := negb (qeqb truth 0%Qc).
(** finish of ChargeStatistics keeps every row *)
Definition keep_statistics (amplitude : Qc) : bool := true.
Definition fl_resolution := fl_session 1 fl_resolution_row keep_resolution.
Definition fl_statistics := fl_session 2 fl_statistics_row keep_statistics.

(** np.sqrt, and the quotient of two doubles, rounded to the nearest double *)
Definition rnd64 (x : R) : R := round radix2 (FLT_exp (-1074) 53) ZnearestE x.
Definition fl_sqrt (x : Qc) : option R := if qltb x 0%Qc then None else Some (rnd64 (sqrt (q2r x))).

(** resolutions.py:44-58, 114-120: the argument of the root, charge_resolution_abs and charge_resolution *)
Definition fl_res_square (mc_true : bool) (r : frow) : Qc :=
  let q := fl64 (nth 0 (fcols r) 0 / qn (fnum r))%Qc in
  if mc_true then fl64 (q + snd (fkey r))%Qc else q.
Definition fl_res_abs (mc_true : bool) (r : frow) : option R := fl_sqrt (fl_res_square mc_true r).
Definition fl_res_rel (mc_true : bool) (r : frow) : option R :=
  option_map (fun x => rnd64 (x / Rabs (q2r (snd (fkey r))))%R) (fl_res_abs mc_true r).

(** resolutions.py:210-217: mean, the argument of the root, std *)
Definition fl_stat_mean (r : frow) : Qc := fl64 (nth 0 (fcols r) 0 / qn (fnum r))%Qc.
Definition fl_stat_square (r : frow) : Qc :=
  let mean := fl_stat_mean r in
  fl64 (fl64 (nth 1 (fcols r) 0 / qn (fnum r)) - fl64 (mean * mean))%Qc.
Definition fl_stat_std (r : frow) : option R := fl_sqrt (fl_stat_square r).
