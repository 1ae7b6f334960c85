(** Double precision numbers (IEEE 754 binary64, round to nearest even): the operations of numpy's float64 and of Python's
    float, from Flocq.  Definitions only. *)
From Coq Require Import ZArith.
From Flocq Require Import Core BinarySingleNaN.
From Verif.Base Require Import Py.

Lemma Hprec : Prec_gt_0 53. Proof. reflexivity. Qed.
Lemma Hmax : Prec_lt_emax 53 1024. Proof. reflexivity. Qed.
Notation b64 := (binary_float 53 1024).

(** m * 2^e, rounded. *)
Definition b64_lit (m e : Z) : b64 := binary_normalize 53 1024 Hprec Hmax mode_NE m e false.
Definition b64_of_Z (z : Z) : b64 := b64_lit z 0.
Definition b64_add (x y : b64) : b64 := @Bplus 53 1024 Hprec Hmax mode_NE x y.
Definition b64_sub (x y : b64) : b64 := @Bminus 53 1024 Hprec Hmax mode_NE x y.
Definition b64_mul (x y : b64) : b64 := @Bmult 53 1024 Hprec Hmax mode_NE x y.
Definition b64_div (x y : b64) : b64 := @Bdiv 53 1024 Hprec Hmax mode_NE x y.
Definition b64_le (x y : b64) : bool := @Bleb 53 1024 x y.
Definition b64_lt (x y : b64) : bool := @Bltb 53 1024 x y.
(** Python's int(x). *)
Definition b64_int (x : b64) : res Z :=
  match x with B754_nan => Raise ValueError | B754_infinity _ => Raise OverflowError | _ => Ok (Btrunc x) end.
