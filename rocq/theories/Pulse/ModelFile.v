(** Model of examples/extract_reference_pulse.py:28-39: the reference pulse averaged from an R1 file, the text file it is
    written to by np.savetxt, and how np.loadtxt reads that file for cross_correlation.py:71-74.  Definitions only.

    Simplifications:
    - the average of the waveforms and its area are exact; their quotient is rounded to a double before it is written. The
      times are computed in double precision;
    - numbers are finite: minus zero is written as zero; where the area is 0 the file holds nan and inf, which is [None] here;
    - float(): decimal notation with an optional exponent, without blanks, underscores and the words nan, inf; no overflow;
    - np.loadtxt without its arguments: blanks and tabs separate, # starts a comment, lines end with a newline;
    - the plot is left out. *)
From Coq Require Import List ZArith NArith QArith Qcanon Bool Arith String Ascii.
From Verif.Base Require Import Py Num Fl Str.
From Verif.Files Require Import Model.
From Verif.WfUtils Require Import Model.
Import ListNotations.
Local Open Scope list_scope.
Local Open Scope py_scope.

(** ** The format '%.5e' of one number (correctly rounded, ties to even) *)
(** 10^e *)
Definition ten (e : Z) : Qc := if (0 <=? e)%Z then qz (10 ^ e) else (/ qz (10 ^ (- e)))%Qc.
(** The decimal exponent of a number from 1 on, and of one below 1. *)
Fixpoint up (fuel : nat) (q : Qc) : Z :=
  match fuel with
  | O => 0%Z
  | S f => if qltb q (qz 10) then 0%Z else (1 + up f (q / qz 10))%Z
  end.
Fixpoint down (fuel : nat) (q : Qc) : Z :=
  match fuel with
  | O => 0%Z
  | S f => if qltb q 1 then (down f (q * qz 10) - 1)%Z else 0%Z
  end.
Definition expo (q : Qc) : Z :=
  if qltb q 1 then down (S (Z.to_nat (Z.log2 (Zpos (Qden (this q)))))) q else up (S (Z.to_nat (Z.log2 (Qnum (this q))))) q.
(** Sign, the six digits as a number, and the exponent of the first digit. *)
Definition sci (q : Qc) : bool * Z * Z :=
  if qeqb q 0 then (false, 0, 0)%Z
  else
  let a := if qltb q 0 then (- q)%Qc else q in
  let e := expo a in
  let m := qnearest (a * ten (5 - e))%Qc in
  if (m =? 10 ^ 6)%Z then (qltb q 0, 10 ^ 5, e + 1)%Z else (qltb q 0, m, e).
Definition digit (d : Z) : ascii := ascii_of_N (48 + Z.to_N d).
Definition fmt5e (q : Qc) : text :=
  let '(neg, m, e) := sci q in
  (if neg : bool then ["-"%char] else []) ++ digit (m / 10 ^ 5) :: "."%char :: map (fun k => digit ((m / 10 ^ k) mod 10)) [4; 3; 2; 1; 0]%Z ++
  "e"%char :: (if (e <? 0)%Z then "-"%char else "+"%char) :: T (pad02 (Z.abs e)).

(** np.savetxt(path, rows, fmt='%.5e') for two columns. *)
Definition newline : ascii := ascii_of_N 10.
Definition savetxt (rows : list (Qc * Qc)) : text := flat_map (fun r => fmt5e (fst r) ++ " "%char :: fmt5e (snd r) ++ [newline]) rows.

(** ** np.loadtxt *)
Fixpoint take_digits (acc : Z) (n : nat) (t : text) : Z * nat * text :=
  match t with
  | [] => (acc, n, [])
  | c :: r => if is_d c then take_digits (10 * acc + Z.of_N (code c - 48)) (S n) r else (acc, n, t)
  end.
Definition take_sign (t : text) : bool * text :=
  match t with
  | c :: r => if Ascii.eqb c "-" then (true, r) else if Ascii.eqb c "+" then (false, r) else (false, t)
  | [] => (false, [])
  end.
(** float(t) *)
Definition py_float (t : text) : res Qc :=
  let '(neg, t) := take_sign t in
  let '(i, n1, t) := take_digits 0 0 t in
  let '(m, n2, t) := match t with c :: r => if Ascii.eqb c "." then take_digits i 0 r else (i, O, t) | [] => (i, O, []) end in
  if (n1 + n2 =? 0)%nat then Raise ValueError
  else
  let value e := fl64 (qz (if neg : bool then - m else m) * ten (e - Z.of_nat n2))%Qc in
  match t with
  | [] => Ok (value 0%Z)
  | c :: r =>
      if Ascii.eqb c "e" || Ascii.eqb c "E" then
        let '(eneg, r) := take_sign r in
        let '(e, n3, r) := take_digits 0 0 r in
        match r, n3 with
        | [], S _ => Ok (value (if eneg : bool then - e else e)%Z)
        | _, _ => Raise ValueError
        end
      else Raise ValueError
  end.
(** text.split on characters; [f] is the field being read, backwards. *)
Fixpoint fields (sep : ascii -> bool) (f t : text) : list text :=
  match t with
  | [] => [rev f]
  | c :: r => if sep c then rev f :: fields sep [] r else fields sep (c :: f) r
  end.
Definition nonempty (t : text) : bool := match t with [] => false | _ => true end.
Fixpoint before_comment (t : text) : text := match t with [] => [] | c :: r => if Ascii.eqb c "#" then [] else c :: before_comment r end.
Definition is_blank (c : ascii) : bool := Ascii.eqb c " " || Ascii.eqb c (ascii_of_N 9).
Definition words (line : text) : list text := filter nonempty (fields is_blank [] (before_comment line)).
(** The rows of numbers; rows of different lengths are refused. *)
Definition loadtxt (t : text) : res (list (list Qc)) :=
  let lines := filter (fun ws => match ws with [] => false | _ => true end) (map words (fields (fun c => Ascii.eqb c newline) [] t)) in
  do rows <- mapM (mapM py_float) lines;
  match rows with
  | [] => Ok []
  | r :: rest => if forallb (fun s => (List.length s =? List.length r)%nat) rest then Ok rows else Raise ValueError
  end.
(** file[:, 0], file[:, 1] (cross_correlation.py:71-74): an array with one row or one column is squeezed to one dimension. *)
Definition load_columns (t : text) : res (list Qc * list Qc) :=
  do rows <- loadtxt t;
  match rows with
  | [] | [_] => Raise IndexError
  | _ => rmap (fun l => (map fst l, map snd l)) (mapM (fun r => match r with x :: y :: _ => Ok (x, y) | _ => Raise IndexError end) rows)
  end.

(** ** examples/extract_reference_pulse.py *)
Local Open Scope Qc_scope.
(** np.trapz with unit steps *)
Fixpoint trapz (y : list Qc) : Qc :=
  match y with
  | a :: (b :: _) as r => (a + b) / qz 2 + trapz r
  | _ => 0
  end.
(** extract_reference_pulse.py:29-31 *)
Definition reference_pulse (junk : nat -> event) (n_pixels n_samples : nat) (source : list event) : option (list Qc) :=
  let ref_pulse := get_average_wf junk n_pixels n_samples source 60 in
  let area := trapz ref_pulse in
  if qeqb area 0 then None else Some (map (fun v => fl64 (v / area)) ref_pulse).
(** extract_reference_pulse.py:33 *)
Definition x_ref_pulse (n : nat) : list Qc := map (fun k => fl64 (qn k * fl64 (Q2Qc (1 # 1000000000)))) (seq 0 n).
(** extract_reference_pulse.py:39-40 *)
Definition pulse_file (junk : nat -> event) (n_pixels n_samples : nat) (source : list event) : option text :=
  option_map (fun y => savetxt (combine (x_ref_pulse (List.length y)) y)) (reference_pulse junk n_pixels n_samples source).
