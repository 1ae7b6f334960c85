(** Rounding of rational numbers to a binary floating point format, to nearest with ties to even: computable.
    [fl prec emin]: precision in bits and exponent of the smallest positive number. Numbers too large for the format are
    not represented by infinity but rounded as if there was no largest exponent. Definitions only. *)
From Coq Require Import ZArith QArith Qcanon Qround.
From Verif.Base Require Import Num.
Local Open Scope Qc_scope.

(** 2^e *)
Definition two (e : Z) : Qc := if (0 <=? e)%Z then qz (2 ^ e) else / qz (2 ^ (- e)).
(** The exponent e with 2^(e-1) <= |q| < 2^e, for q not 0. *)
Definition qmag (q : Qc) : Z :=
  let l := (Z.log2 (Z.abs (Qnum (this q))) - Z.log2 (Zpos (Qden (this q))))%Z in
  if qltb (if qltb q 0 then - q else q) (two l) then l else (l + 1)%Z.
(** Nearest integer, of two the even one. *)
Definition qnearest (q : Qc) : Z :=
  let f := Qfloor (this q) in
  let r := q - qz f in
  if qltb r (Q2Qc (1 # 2)) then f else if qltb (Q2Qc (1 # 2)) r then (f + 1)%Z else if Z.even f then f else (f + 1)%Z.
Definition fl (prec emin : Z) (q : Qc) : Qc :=
  if qeqb q 0 then 0
  else let e := Z.max (qmag q - prec) emin in qz (qnearest (q * two (- e))) * two e.
(** IEEE double and single precision. *)
Definition fl64 : Qc -> Qc := fl 53 (-1074).
Definition fl32 : Qc -> Qc := fl 24 (-149).
(** astype(int), int(): towards zero. *)
Definition qtrunc (q : Qc) : Z := if qltb q 0 then (- Qfloor (this (- q)))%Z else Qfloor (this q).
