(** What the histogram of a fit should contain. *)
From Coq Require Import List ZArith QArith Qcanon Bool Arith.
From Verif.Base Require Import Py Num.
From Verif.Spectrum Require Import Model.
Import ListNotations.
Local Open Scope list_scope.
Local Open Scope Qc_scope.

(** Edges of n bins. *)
Definition edge (edges : list Qc) (k : nat) : Qc := nth k edges 0.
Definition proper_edges (edges : list Qc) (n : nat) (first last : Qc) : Prop :=
  List.length edges = S n /\ edge edges 0 = first /\ edge edges n = last /\ forall i j, (i < j <= n)%nat -> edge edges i < edge edges j.
(** Bins are closed on the left and open on the right, the last one is closed. *)
Definition in_bin (edges : list Qc) (n k : nat) (x : Qc) : bool :=
  qleb (edge edges k) x && (qltb x (edge edges (S k)) || ((S k =? n)%nat && qleb x (edge edges (S k)))).
(** The number of charges in a bin; NaN is in none. *)
Definition content (edges : list Qc) (n k : nat) (charges : list (option Qc)) : nat :=
  List.length (filter (fun o => match o with Some x => in_bin edges n k x | None => false end) charges).
(** The number of charges in the range. *)
Definition n_in_range (first last : Qc) (charges : list (option Qc)) : nat :=
  List.length (filter (fun o => match o with Some x => qleb first x && qleb x last | None => false end) charges).

(** What is asked of the floating point operations: the edges increase from one end of the range to the other, and the
    guessed bin of a value is at most one away from the one between whose edges it lies. *)
Definition faithful (ar : arith) (first last : Qc) (n : nat) : Prop :=
  proper_edges (f_edges ar first last (Z.of_nat n)) n first last /\
  forall x k, (k < n)%nat -> in_bin (f_edges ar first last (Z.of_nat n)) n k x = true ->
    let i := f_index ar first last (Z.of_nat n) x in (0 <= i <= Z.of_nat n /\ Z.abs (i - Z.of_nat k) <= 1)%Z.
