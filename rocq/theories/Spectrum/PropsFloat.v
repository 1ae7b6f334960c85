(** Property C78 in floating point arithmetic. *)
From Coq Require Import List ZArith QArith Qcanon Bool Arith Lia Reals.
From Flocq Require Import Core.
From Verif.Base Require Import Py PyFacts Num Lst Fl FlFacts.
From Verif.Spectrum Require Import Model Spec Proofs Proofs2 Props ModelFloat SpecFloat ProofsFloat ProofsFloat2.
From Coq Require Import Lra.
Import ListNotations.
Local Open Scope list_scope.
Local Open Scope Qc_scope.

(** [fl prec emin] is round to nearest even of Flocq, in the format with that precision and smallest exponent. *)
Theorem C78_rounding : forall prec emin q, q2r (fl prec emin q) = round radix2 (FLT_exp emin prec) ZnearestE (q2r q).
Proof. exact fl_round. Qed.
Print Assumptions C78_rounding.
(** Charges in double precision (float64 arrays), and in single precision (float32 arrays, as read from DL1 files). *)
Definition represented (ar : arith) (lo hi : Qc) (n : nat) : Prop :=
  (ar = double /\ fl64 lo = lo /\ fits64 lo hi n) \/ (ar = single /\ fl32 lo = lo /\ fl32 hi = hi /\ fits32 lo hi n).
Lemma fits_lt : forall bits big lo hi n, fits bits big lo hi n -> lo < hi.
Proof. intros bits big lo hi n [A _]. apply q2r_le in A. rewrite q2r_two, q2r_minus in A. pose proof (bpow_gt_0 radix2 (- big)). apply q2r_lt. lra. Qed.
Lemma represented_lt : forall ar lo hi n, represented ar lo hi n -> lo < hi.
Proof. intros ar lo hi n [(_ & _ & F)|(_ & _ & _ & F)]; now apply fits_lt in F. Qed.
Lemma ends : forall lo hi, lo < hi -> first_edge lo hi = lo /\ last_edge lo hi = hi.
Proof. intros lo hi H. unfold first_edge, last_edge, outer_edges. destruct (qeqb_spec lo hi) as [->|]; [exfalso; qlra|auto]. Qed.
(** Then the requirement of C78 holds. *)
Theorem C78_faithful : forall ar lo hi n, (0 < n)%nat -> represented ar lo hi n -> faithful ar lo hi n.
Proof. intros ar lo hi n N [(-> & F & B)|(-> & F & L & B)]; [now apply double_faithful|now apply single_faithful]. Qed.
Print Assumptions C78_faithful.
Lemma within : forall a b w : Qc, (Rabs (q2r a - q2r b) <= q2r w / 8)%R -> qz 8 * (a - b) <= w /\ qz 8 * (b - a) <= w.
Proof. intros a b w H. apply Rabs_le_inv in H. split; apply q2r_le; rewrite q2r_mult, q2r_minus, q2r_qz; lra. Qed.
(** The edges are at most an eighth of a bin away from equal bins. *)
Theorem C78_edges : forall ar lo hi n k, (0 < n)%nat -> represented ar lo hi n -> (k <= n)%nat ->
  let w := (hi - lo) / qn n in let d := edge (f_edges ar lo hi (Z.of_nat n)) k - (lo + qn k * w) in qz 8 * d <= w /\ - w <= qz 8 * d.
Proof.
  intros ar lo hi n k N R K w d.
  assert (EW : q2r w = ((q2r hi - q2r lo) / INR n)%R). { unfold w. rewrite q2r_div; [now rewrite q2r_minus, q2r_qn|]. intro E. pose proof (qn_pos n N) as P. rewrite E in P. now apply Qclt_not_eq in P. }
  assert (B : qz 8 * (edge (f_edges ar lo hi (Z.of_nat n)) k - (lo + qn k * w)) <= w /\ qz 8 * ((lo + qn k * w) - edge (f_edges ar lo hi (Z.of_nat n)) k) <= w).
  { apply within. rewrite q2r_plus, q2r_mult, q2r_qn, EW. destruct R as [(-> & F & B)|(-> & F & L & B)].
    - pose proof (edges_near lo hi n N B k K) as E. assert (P : (0 < (q2r hi - q2r lo) / INR n)%R) by exact (h_pos' lo hi n N B). apply Rle_trans with (1 := E). lra.
    - exact (edges_near32 lo hi n N B k K). }
  unfold d. destruct B as [B1 B2]. split; [exact B1|]. set (e := edge _ k) in *. set (g := lo + qn k * w) in *. set (z := qz 8) in *. clearbody z g e. clearbody w. clear - B2.
  replace (z * (e - g)) with (- (z * (g - e))) by ring. set (t := z * (g - e)) in *. clearbody t. qlra.
Qed.
Print Assumptions C78_edges.
Lemma content_le : forall e n k a, (content e n k a <= List.length a)%nat.
Proof. intros e n k a. unfold content. induction a as [|x a IH]; [auto|]. cbn [filter List.length]. destruct (match x with Some x => in_bin e n k x | None => false end); cbn [List.length]; lia. Qed.
Lemma f32_count : forall c, (c <= 2 ^ 24)%nat -> fl32 (qn c) = qn c.
Proof.
  intros c C. apply fl_format. rewrite q2r_qn, INR_IZR_INZ. assert (B : (0 <= Z.of_nat c <= 2 ^ 24)%Z). { split; [lia|]. apply inj_le in C. rewrite Nat2Z.inj_pow in C. exact C. }
  rewrite <- (C78_float32_counts _ B). apply generic_format_round; [apply FLT_exp_valid; unfold Prec_gt_0; lia|apply valid_rnd_N].
Qed.
(** All together, with nothing left open about the rounding: for up to 2^24 charges per illumination, what the fit gets for
    bin k is exactly the number of charges between edges k and k + 1. *)
Theorem C78_floating_point : forall ar n_illuminations n lo hi charges st, List.length charges = n_illuminations -> (0 < n_illuminations)%nat -> (0 < n)%nat ->
  represented ar lo hi n -> (forall a, In a charges -> List.length a <= 2 ^ 24)%nat ->
  let e := f_edges ar lo hi (Z.of_nat n) in
  exists x y, apply_histograms ar n_illuminations (Z.of_nat n) lo hi charges st = (Hists (Some x) (Some y) (Some (map fl32 e)), None) /\
  List.length y = n_illuminations /\
  forall i a, nth_error charges i = Some a -> nth_error y i = Some (map (fun k => qn (content e n k a)) (seq 0 n)).
Proof.
  intros ar ni n lo hi charges st L NI N R S e. pose proof (represented_lt _ _ _ _ R) as LH. destruct (ends lo hi LH) as [E1 E2].
  assert (F : f32 ar = fl32) by (destruct R as [(-> & _)|(-> & _)]; reflexivity).
  destruct (C78_histograms ar ni n lo hi charges st L NI N (Qclt_le_weak _ _ LH)) as (x & y & edges & A & _ & _ & EE & LY & Y); [rewrite E1, E2; now apply C78_faithful|].
  rewrite E1, E2 in *. fold e in EE, Y. rewrite F in *. exists x, y. split; [rewrite A, EE; reflexivity|]. split; [exact LY|]. intros i a I. destruct (Y i a I) as (h & -> & LH' & K). f_equal.
  apply (nth_ext _ _ 0 0); [now rewrite map_length, seq_length|]. intros k KL. rewrite LH' in KL. rewrite (K k KL). rewrite f32_count by (apply Nat.le_trans with (1 := content_le _ _ _ _); apply S; now apply nth_error_In in I).
  symmetry. apply nth_error_nth. rewrite nth_error_map, nth_error_seq. destruct (Nat.ltb_spec k n); [reflexivity|lia].
Qed.
Print Assumptions C78_floating_point.
(** The usual range and number of bins are far inside the limits (spectrum_fitter.py: n_bins = 100, range = (-10, 100)). *)
Example C78_usual_range : represented single (qz (-10)) (qz 100) 100 /\ represented double (qz (-10)) (qz 100) 100.
Proof.
  split; [right|left]; split; [reflexivity| |reflexivity|]; repeat match goal with |- fl32 _ = _ /\ _ => split; [apply Qc_is_canon; reflexivity|] | |- fl64 _ = _ /\ _ => split; [apply Qc_is_canon; reflexivity|] end;
  (split; [unfold Qcle; vm_compute; discriminate|]; intros v [-> | ->]; split; split; unfold Qcle; vm_compute; discriminate).
Qed.
(** 49 bins from 0 to 1 in single precision: the guessed bin of the 27th edge is 26, and is corrected. *)
Definition edge27 : Qc := Q2Qc (9244588 # 16777216).
Example C78_ex_single : f_index single 0 1 49 edge27 = 26%Z /\
  match apply_histograms single 1 49 0 1 [[Some edge27; Some 1; Some (Q2Qc (9244587 # 16777216)); Some 0; None; Some (qz 2)]] no_hists with
  | (Hists _ (Some [h]) _, None) => map (fun k => this (nth k h 0)) [0; 25; 26; 27; 28; 48]%nat = [1; 0; 1; 1; 0; 1]%Q | _ => False end.
Proof. vm_compute. split; reflexivity. Qed.
(** Beyond the limits edges coincide: 8 bins between 2^24 and 2^24 + 4 in single precision. *)
Example C78_ex_narrow : map this (f_edges single (qz 16777216) (qz 16777220) 8) =
  [16777216; 16777216; 16777216; 16777218; 16777218; 16777218; 16777220; 16777220; 16777220]%Q.
Proof. vm_compute. reflexivity. Qed.
