(** Model of CHECLabPy/utils/resolutions.py: ChargeResolution and ChargeStatistics.
    A dataframe is the list of its rows; a row has the columns pixel, true (or amplitude) and the summed columns.
    Numbers are exact; NaN keys, the integer width of the counts and pandas' dtypes are not modelled. Where the code takes
    a square root the model keeps the square. *)
From Coq Require Import List ZArith QArith Qcanon Bool.
From Verif.Base Require Import Py Num.
Import ListNotations.
Local Open Scope list_scope.

Definition key := (Z * Qc)%type.
Record row := { rkey : key; cols : list Qc }.
Definition key_ltb (a b : key) : bool := (fst a <? fst b)%Z || (fst a =? fst b)%Z && qltb (snd a) (snd b).
Definition key_eqb (a b : key) : bool := (fst a =? fst b)%Z && qeqb (snd a) (snd b).
Definition vadd (a b : list Qc) : list Qc := map (fun p => fst p + snd p)%Qc (combine a b).

(** ** df.groupby(keys).sum().reset_index(): one row per distinct key, in increasing order of the keys *)
Fixpoint insert_row (r : row) (acc : list row) : list row :=
  match acc with
  | [] => [r]
  | h :: t =>
      if key_eqb (rkey r) (rkey h) then {| rkey := rkey h; cols := vadd (cols h) (cols r) |} :: t
      else if key_ltb (rkey r) (rkey h) then r :: acc
      else h :: insert_row r t
  end.
Definition groupby (rows : list row) : list row := fold_left (fun acc r => insert_row r acc) rows [].
(** groupby('true').sum() followed by dropping the column pixel: the pixel is replaced by 0 *)
Definition forget_pixel (r : row) : row := {| rkey := (0%Z, snd (rkey r)); cols := cols r |}.

(** ** The object. [_df] is [None] as long as it has no columns (pd.DataFrame()). [bytes] stands for
    memory_usage().sum() of a contribution, whatever it is. *)
Record obj := { df : option (list row); df_list : list (list row); n_bytes : Z }.
Definition new_obj : obj := {| df := None; df_list := []; n_bytes := 0 |}.

(** resolutions.py:84-92, 187-195. groupby on a dataframe without columns raises KeyError. *)
Definition amalgamate (s : obj) : res obj :=
  match df s, df_list s with
  | None, [] => Raise KeyError
  | d, l =>
      let all := match d with Some t => t | None => [] end ++ List.concat l in
      Ok {| df := Some (groupby all); df_list := []; n_bytes := 0 |}
  end.

(** resolutions.py:79-82, 182-185 *)
Definition add_rows (bytes : list row -> Z) (max_bytes : Z) (s : obj) (rows : list row) : res obj :=
  let s' := {| df := df s; df_list := df_list s ++ [rows]; n_bytes := (n_bytes s + bytes rows)%Z |} in
  if (max_bytes <? n_bytes s')%Z then amalgamate s' else Ok s'.

(** An entry of a contribution: pixel, true charge (amplitude), measured charge. *)
Definition entry := (Z * Qc * Qc)%type.
(** resolutions.py:72-78 *)
Definition resolution_row (e : entry) : row :=
  let '(pixel, truth, measured) := e in
  {| rkey := (pixel, truth); cols := [((measured - truth) * (measured - truth))%Qc; 1%Qc] |}.
(** resolutions.py:175-181 *)
Definition statistics_row (e : entry) : row :=
  let '(pixel, amplitude, charge) := e in
  {| rkey := (pixel, amplitude); cols := [charge; (charge * charge)%Qc; 1%Qc] |}.

(** ** ChargeResolution.finish, 94-132. The columns of the result; the last two are squares. *)
Record res_row := { r_pixel : Z; r_true : Qc; r_sum : Qc; r_n : Qc; r_abs2 : Qc; r_rel2 : Qc }.
Definition res_columns (mc_true : bool) (r : row) : res_row :=
  let truth := snd (rkey r) in
  let sum := nth 0 (cols r) 0%Qc in
  let n := nth 1 (cols r) 0%Qc in
  let abs2 := (if mc_true then sum / n + truth else sum / n)%Qc in
  {| r_pixel := fst (rkey r); r_true := truth; r_sum := sum; r_n := n; r_abs2 := abs2; r_rel2 := (abs2 / (truth * truth))%Qc |}.
Definition nonzero_true (r : row) : bool := negb (qeqb (snd (rkey r)) 0%Qc).
Definition resolution_finish (mc_true : bool) (s : obj) : res (obj * (list res_row * list res_row)) :=
  (do s1 <- amalgamate s;
   let t := filter nonzero_true (match df s1 with Some t => t | None => [] end) in
   let s2 := {| df := Some t; df_list := df_list s1; n_bytes := n_bytes s1 |} in
   Ok (s2, (map (res_columns mc_true) t, map (res_columns mc_true) (groupby (map forget_pixel t)))))%py.

(** ** ChargeStatistics.finish, 197-227. The last column is the square of std. *)
Record stat_row := { t_pixel : Z; t_amplitude : Qc; t_sum : Qc; t_sum2 : Qc; t_n : Qc; t_mean : Qc; t_var : Qc }.
Definition stat_columns (r : row) : stat_row :=
  let sum := nth 0 (cols r) 0%Qc in
  let sum2 := nth 1 (cols r) 0%Qc in
  let n := nth 2 (cols r) 0%Qc in
  let mean := (sum / n)%Qc in
  {| t_pixel := fst (rkey r); t_amplitude := snd (rkey r); t_sum := sum; t_sum2 := sum2; t_n := n; t_mean := mean; t_var := (sum2 / n - mean * mean)%Qc |}.
Definition statistics_finish (s : obj) : res (obj * (list stat_row * list stat_row)) :=
  (do s1 <- amalgamate s;
   let t := match df s1 with Some t => t | None => [] end in
   Ok (s1, (map stat_columns t, map stat_columns (groupby (map forget_pixel t)))))%py.

(** ** A session: calls of add and finish in any order. The result is that of a last finish. *)
Inductive call := Add (batch : list entry) | Finish.
Definition run {A} (to_row : entry -> row) (finish : obj -> res (obj * A)) (bytes : list row -> Z) (max_bytes : Z) (calls : list call) : res obj :=
  foldM (fun s c => match c with
                    | Add batch => add_rows bytes max_bytes s (map to_row batch)
                    | Finish => rmap fst (finish s)
                    end) calls new_obj.
Definition session {A} (to_row : entry -> row) (finish : obj -> res (obj * A)) (bytes : list row -> Z) (max_bytes : Z) (calls : list call) : res A :=
  (do s <- run to_row finish bytes max_bytes calls; rmap snd (finish s))%py.
