(** Sums in floating point arithmetic.  numpy adds the elements of an array in an order that depends on the memory layout, the
    processor and the version: a sum is the value of some binary tree of additions over the elements in some order.
    Definitions only. *)
From Coq Require Import List ZArith QArith Qcanon Permutation.
From Verif.Base Require Import Num Fl.
Import ListNotations.

Inductive tree (A : Type) := Leaf (a : A) | Node (l r : tree A).
Arguments Leaf {A} a.
Arguments Node {A} l r.
Fixpoint leaves {A} (t : tree A) : list A := match t with Leaf a => [a] | Node l r => leaves l ++ leaves r end.
Fixpoint tmap {A B} (f : A -> B) (t : tree A) : tree B := match t with Leaf a => Leaf (f a) | Node l r => Node (tmap f l) (tmap f r) end.
(** Every addition is rounded by [rnd]. *)
Fixpoint tree_sum (rnd : Qc -> Qc) (t : tree Qc) : Qc := match t with Leaf a => a | Node l r => rnd (tree_sum rnd l + tree_sum rnd r)%Qc end.
(** [v] is a possible result of summing the elements of [l]. *)
Definition sums_to (rnd : Qc -> Qc) (l : list Qc) (v : Qc) : Prop := (l = [] /\ v = 0%Qc) \/ exists t, Permutation (leaves t) l /\ v = tree_sum rnd t.
(** [v] is a possible result of np.mean over the elements of [l]: the sum divided by their number. *)
Definition mean_to (rnd : Qc -> Qc) (l : list Qc) (v : Qc) : Prop := exists s, sums_to rnd l s /\ v = rnd (s / qn (List.length l))%Qc.
(** Two orders: one after the other, and in halves (numpy's pairwise summation has this form). *)
Fixpoint in_order {A} (acc : tree A) (l : list A) : tree A := match l with [] => acc | a :: l => in_order (Node acc (Leaf a)) l end.
