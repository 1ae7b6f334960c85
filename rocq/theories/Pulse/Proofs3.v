(** Proofs about the template and the bases of the NNLS pulse extraction. *)
From Coq Require Import List ZArith QArith Qcanon Qround Bool Arith Lia Lqa.
From Verif.Base Require Import Py PyFacts Lst Num.
From Verif.Fitter Require Import Model.
From Verif.Pulse Require Import Model.
Import ListNotations.
Local Open Scope list_scope.
Local Open Scope Qc_scope.

(** ** Template *)
Lemma front_nth : forall l i, (i < List.length l)%nat -> at_front l i = Ok (nth i l 0).
Proof. intros l i H. unfold at_front. now rewrite (nth_error_nth' l 0 H). Qed.
Lemma back_nth : forall l i, (0 < i <= List.length l)%nat -> at_back l i = Ok (nth (List.length l - i) l 0).
Proof. intros l i H. unfold at_back. replace (i <=? List.length l)%nat with true by (symmetry; apply Nat.leb_le; lia). apply front_nth. lia. Qed.

Lemma nth_adjust : forall (f : nat -> Qc -> Qc -> Qc) x y n i, List.length x = n -> List.length y = n -> (i < n)%nat ->
  nth i (map (fun p : nat * (Qc * Qc) => f (fst p) (fst (snd p)) (snd (snd p))) (combine (seq 0 n) (combine x y))) 0 = f i (nth i x 0) (nth i y 0).
Proof.
  intros f x y n i LX LY I. apply nth_error_nth. rewrite nth_error_map, !nth_error_combine, nth_error_seq. destruct (Nat.ltb_spec i n); [|lia].
  rewrite (nth_error_nth' x 0) by lia. rewrite (nth_error_nth' y 0) by lia. reflexivity.
Qed.
Lemma length_adjust : forall (f : nat * (Qc * Qc) -> Qc) x y n, List.length x = n -> List.length y = n ->
  List.length (map f (combine (seq 0 n) (combine x y))) = n.
Proof. intros. rewrite map_length, !combine_length, seq_length. lia. Qed.

Lemma template_spec : forall x y n, List.length x = n -> List.length y = n -> (15 <= n)%nat -> nth 4 x 0 <> 0 -> nth 10 x 0 <> 0 ->
  exists y', template_points x y = Ok (Some y') /\ List.length y' = n /\
  (forall i, (i <= 4)%nat -> nth i y' 0 = nth 4 y 0 / nth 4 x 0 * nth i x 0) /\
  (forall i, (4 <= i <= n - 10)%nat -> nth i y' 0 = nth i y 0) /\
  (forall i, (n - 10 <= i < n)%nat -> nth i y' 0 = nth (n - 10) y 0 * (nth (n - 10) x 0 + nth 10 x 0 - nth i x 0) / nth 10 x 0).
Proof.
  intros x y n LX LY L X4 X10. unfold template_points.
  rewrite (front_nth y 4), (front_nth x 4) by lia. cbn [bind]. destruct (qeqb_spec (nth 4 x 0) 0) as [E|_]; [contradiction|].
  set (k1 := nth 4 y 0 / nth 4 x 0).
  set (y1 := map (fun p : nat * (Qc * Qc) => if (fst p <? 4)%nat then k1 * fst (snd p) else snd (snd p)) (combine (seq 0 (List.length y)) (combine x y))).
  assert (L1 : List.length y1 = n) by (unfold y1; rewrite LY; now apply length_adjust).
  assert (N1 : forall i, (i < n)%nat -> nth i y1 0 = if (i <? 4)%nat then k1 * nth i x 0 else nth i y 0).
  { intros i I. unfold y1. apply (nth_adjust (fun j a b => if (j <? 4)%nat then k1 * a else b)); lia. }
  rewrite (back_nth y1 10), (front_nth x 10), (back_nth x 10) by lia. cbn [bind]. destruct (qeqb_spec (nth 10 x 0) 0) as [E|_]; [contradiction|].
  rewrite L1, LX. rewrite (N1 (n - 10)%nat) by lia. replace (n - 10 <? 4)%nat with false by (symmetry; apply Nat.ltb_ge; lia).
  set (yn := nth (n - 10) y 0). set (k2 := - yn / nth 10 x 0). set (m := yn - k2 * nth (n - 10) x 0).
  assert (N2 : forall i, (i < n)%nat -> nth i (map (fun p : nat * (Qc * Qc) => if (n - 10 <=? fst p)%nat then k2 * fst (snd p) + m else snd (snd p)) (combine (seq 0 n) (combine x y1))) 0 = if (n - 10 <=? i)%nat then k2 * nth i x 0 + m else nth i y1 0).
  { intros i I. apply (nth_adjust (fun j a b => if (n - 10 <=? j)%nat then k2 * a + m else b)); lia. }
  eexists. split; [reflexivity|]. split; [now apply length_adjust|].
  assert (TAIL : forall i, (n - 10 <= i < n)%nat -> k2 * nth i x 0 + m = yn * (nth (n - 10) x 0 + nth 10 x 0 - nth i x 0) / nth 10 x 0).
  { intros i I. unfold m, k2. field. exact X10. }
  split; [|split].
  - intros i I. rewrite N2 by lia. replace (n - 10 <=? i)%nat with false by (symmetry; apply Nat.leb_gt; lia). rewrite N1 by lia.
    destruct (Nat.ltb_spec i 4) as [_|H]; [reflexivity|]. assert (i = 4)%nat by lia. subst i. unfold k1. field. exact X4.
  - intros i I. rewrite N2 by lia. destruct (Nat.leb_spec (n - 10) i) as [H|H].
    + assert (i = n - 10)%nat by lia. subst i. rewrite TAIL by lia. fold yn. field. exact X10.
    + rewrite N1 by lia. replace (i <? 4)%nat with false by (symmetry; apply Nat.ltb_ge; lia). reflexivity.
  - intros i I. rewrite N2 by lia. replace (n - 10 <=? i)%nat with true by (symmetry; apply Nat.leb_le; lia). now apply TAIL.
Qed.
Lemma template_short : forall x y n, List.length x = n -> List.length y = n -> (n <= 10)%nat -> (n <= 4)%nat \/ nth 4 x 0 <> 0 -> template_points x y = Raise IndexError.
Proof.
  intros x y n LX LY L H. unfold template_points. destruct (le_lt_dec n 4) as [L4|L4].
  - unfold at_front at 1. rewrite (proj2 (nth_error_None y 4)) by lia. reflexivity.
  - rewrite (front_nth y 4), (front_nth x 4) by lia. cbn [bind]. destruct (qeqb_spec (nth 4 x 0) 0) as [E|_]; [destruct H; [lia|contradiction]|].
    set (y1 := map _ _). assert (L1 : List.length y1 = n) by (unfold y1; rewrite LY; now apply length_adjust).
    unfold at_back at 1. rewrite L1. destruct (Nat.leb_spec 10 n) as [HH|]; [|reflexivity]. assert (n = 10)%nat by lia. subst n. rewrite front_nth by lia. cbn [bind].
    unfold at_front at 1. rewrite (proj2 (nth_error_None x 10)) by lia. reflexivity.
Qed.

(** ** Bases *)
Lemma linspace_nth : forall a b n i, (2 <= n)%nat -> (i < n)%nat -> nth i (linspace a b n) 0 = a + qn i * ((b - a) / qn (n - 1)).
Proof.
  intros a b n i N I. unfold linspace. destruct n as [|[|n]]; [lia|lia|]. apply nth_error_nth. rewrite nth_error_map, nth_error_seq.
  destruct (Nat.ltb_spec i (S (S n))); [reflexivity|lia].
Qed.
Lemma linspace_length : forall a b n, List.length (linspace a b n) = n.
Proof. intros a b [|[|n]]; cbn [linspace]; [reflexivity|reflexivity|]. now rewrite map_length, seq_length. Qed.

Definition grid : list Qc := linspace 0 (qz 120 * nano) 1000.
(** The last time of the grid at which the template is positive. *)
Definition pulse_end (template : Qc -> Qc) (t : Qc) : Prop :=
  exists k, (k < 1000)%nat /\ t = nth k grid 0 /\ 0 < template t /\ forall j, (k < j < 1000)%nat -> ~ 0 < template (nth j grid 0).
Lemma grid_nth : forall k, (k < 1000)%nat -> nth k grid 0 = qn k * (Q2Qc (40 # 333) * nano).
Proof.
  intros k K. unfold grid. rewrite linspace_nth by lia. rewrite Qcplus_0_l. f_equal. apply Qc_is_canon. reflexivity.
Qed.
Lemma nano_pos : 0 < nano. Proof. reflexivity. Qed.
Lemma end_range : forall template t, pulse_end template t -> 0 <= t /\ t <= qz 120 * nano.
Proof.
  intros template t (k & K & -> & _). rewrite grid_nth by exact K. assert (E : qz 120 * nano = qn 999 * (Q2Qc (40 # 333) * nano)) by (apply Qc_is_canon; reflexivity). rewrite E.
  assert (P : 0 < Q2Qc (40 # 333) * nano) by reflexivity. pose proof (qn_nonneg k) as A. assert (B : qn k <= qn 999) by (apply qn_le; lia). set (c := Q2Qc (40 # 333) * nano) in *. clearbody c. split; qnra.
Qed.
Lemma last_irr : forall l (c a b : Qc), last (c :: l) a = last (c :: l) b.
Proof. induction l as [|d l IH]; intros c a b; [reflexivity|]. exact (IH d a b). Qed.
Lemma filter_last : forall (P : Qc -> bool) l t0 r, filter P l = t0 :: r -> exists k, (k < List.length l)%nat /\ last r t0 = nth k l 0 /\ P (last r t0) = true /\ forall j, (k < j < List.length l)%nat -> P (nth j l 0) = false.
Proof.
  intros P. induction l as [|a l IH]; intros t0 r H; [discriminate|]. cbn [filter] in H. destruct (filter P l) as [|b r'] eqn:E.
  - destruct (P a) eqn:Pa; [|discriminate]. injection H as <- <-. exists 0%nat. cbn [List.length last nth]. split; [lia|]. split; [reflexivity|]. split; [exact Pa|].
    intros [|j] J; [lia|]. cbn [nth]. destruct (P (nth j l 0)) eqn:Pj; [|reflexivity]. exfalso. assert (In (nth j l 0) (filter P l)) by (apply filter_In; split; [apply nth_In; lia|exact Pj]). rewrite E in H. destruct H.
  - destruct (IH b r' eq_refl) as (k & K & L & PL & R).
    assert (X : last r t0 = last r' b).
    { destruct (P a); injection H as <- <-; [|reflexivity]. destruct r' as [|c r']; [reflexivity|]. change (last (b :: c :: r') a) with (last (c :: r') a). apply last_irr. }
    rewrite X. exists (S k). cbn [List.length nth]. split; [lia|]. split; [exact L|]. split; [exact PL|]. intros [|j] J; [lia|]. cbn [nth]. apply R. lia.
Qed.
Lemma basis_spec : forall template b, (1 <= b)%nat ->
  (basis_times template b = Raise ValueError /\ forall k, (k < 1000)%nat -> ~ 0 < template (nth k grid 0)) \/
  exists t_end l, pulse_end template t_end /\ basis_times template b = Ok l /\ List.length l = (127 * b)%nat /\
  forall i, (i < 127 * b)%nat -> nth i l 0 = qn i * ((qz 126 * nano + t_end) / qn (127 * b - 1)) - t_end.
Proof.
  intros template b B. unfold basis_times, positive_times. fold grid. assert (LG : List.length grid = 1000%nat) by apply linspace_length.
  destruct (filter (fun x => qltb 0 (template x)) grid) as [|t0 r] eqn:E.
  - left. split; [reflexivity|]. intros k K H. assert (I : In (nth k grid 0) (filter (fun x => qltb 0 (template x)) grid)).
    { apply filter_In. split; [apply nth_In; lia|]. destruct (qltb_spec 0 (template (nth k grid 0))); [reflexivity|contradiction]. }
    rewrite E in I. destruct I.
  - right. destruct (filter_last _ _ _ _ E) as (k & K & L & P & R). rewrite LG in *.
    assert (PE : pulse_end template (last r t0)).
    { exists k. split; [exact K|]. split; [exact L|]. split; [destruct (qltb_spec 0 (template (last r t0))); [assumption|discriminate]|].
      intros j J H. specialize (R j J). destruct (qltb_spec 0 (template (nth j grid 0))); [discriminate|contradiction]. }
    destruct (end_range _ _ PE) as [T0 T1]. set (t := last r t0) in *. clearbody t.
    assert (F : Qfloor (this (qz 127 + t)) = 127%Z).
    { assert (A : (inject_Z 127 <= this (qz 127 + t))%Q). { change (qz 127 <= qz 127 + t). qlra. }
      assert (C : (this (qz 127 + t) < inject_Z 128)%Q). { change (qz 127 + t < qz 128). assert (qz 120 * nano < 1) by reflexivity. assert (qz 128 = qz 127 + 1) by (apply Qc_is_canon; reflexivity). qlra. }
      pose proof (Qfloor_resp_le _ _ A) as A'. rewrite Qfloor_Z in A'. pose proof (Qfloor_le (this (qz 127 + t))) as D.
      assert (Qfloor (this (qz 127 + t)) < 128)%Z; [|lia]. rewrite Zlt_Qlt. apply Qle_lt_trans with (1 := D). exact C. }
    exists t. eexists. split; [exact PE|]. split; [reflexivity|]. rewrite F. change (Z.to_nat 127) with 127%nat. split; [apply linspace_length|].
    intros i I. rewrite linspace_nth by lia. assert (N126 : nth 126 time_bins 0 = qz 126 * nano) by (apply Qc_is_canon; reflexivity). rewrite N126.
    replace (qz 126 * nano - (0 - t)) with (qz 126 * nano + t) by ring. ring.
Qed.

(** Points spaced by d from a on: every point of the range is at most d/2 away from one of them. *)
Lemma nearest_point : forall a d n t, 0 < d -> a <= t -> t <= a + qn n * d -> exists i, (i <= n)%nat /\ t - (a + qn i * d) <= d / (1 + 1) /\ a + qn i * d - t <= d / (1 + 1).
Proof.
  intros a d n t D A B.
  assert (H2 : d / (1 + 1) + d / (1 + 1) = d) by (field; discriminate).
  set (h := d / (1 + 1)) in *. clearbody h.
  induction n as [|n IH].
  - exists 0%nat. split; [lia|]. rewrite qn_0 in *. assert (Z : 0 * d = 0) by ring. rewrite Z in *. split; qlra.
  - destruct (qleb_spec t (a + qn n * d)) as [H|H].
    + destruct (IH H) as (i & I & X). exists i. split; [lia|exact X].
    + rewrite qn_S in B. assert (E : (qn n + 1) * d = qn n * d + d) by ring. rewrite E in B. set (c := qn n * d) in *.
      destruct (qleb_spec t (a + c + h)) as [G|G].
      * exists n. split; [lia|]. fold c. split; qlra.
      * exists (S n). split; [lia|]. rewrite qn_S, E. fold c. clearbody c. split; qlra.
Qed.
