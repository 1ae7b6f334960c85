(** Property C111: the time corrections that come with the code. *)
From Coq Require Import List ZArith QArith Qabs Qcanon Bool Arith Lia Reals.
From Flocq Require Import Core.
From Verif.Base Require Import Py PyFacts Num Lst Fl FlFacts.
From Verif.Calib Require Import Model Proofs ModelFloat PropsFloat ModelShipped.
From Coq Require Import Lra.
Import ListNotations.
Local Open Scope list_scope.
Local Open Scope Qc_scope.

(** ** Corrections away from whole numbers *)
(** [c] is at least 1/2500 away from every integer, and not large. *)
Definition apart (c : Qc) : Prop := exists f : Z, (IZR f + / 2500 <= q2r c <= IZR f + 1 - / 2500)%R /\ (Rabs (q2r c) <= 1000)%R.
Lemma no_sample : forall c i k, apart c -> (Z.of_nat i <= 2 ^ 40)%Z -> fl64 (qn i - c) <> qn k.
Proof.
  intros c i k (f & F & B) I E. pose proof (fl_error 53 (-1074) ltac:(lia) (qn i - c)) as ER. change (fl 53 (-1074) (qn i - c)) with (fl64 (qn i - c)) in ER. rewrite E in ER. clear E. rewrite q2r_minus, !q2r_qn, !INR_IZR_INZ in ER.
  apply IZR_le in I. change (IZR (2 ^ 40)) with 1099511627776%R in I. assert (0 <= IZR (Z.of_nat i))%R as I0 by (apply IZR_le; lia).
  assert (U : (0 < ulp1 53 <= / 9000000000000000)%R). { unfold ulp1. split; [apply bpow_gt_0|]. rewrite bpow_opp. apply Rinv_le; [lra|]. change 9000000000000000%R with (IZR 9000000000000000). rewrite <- IZR_Zpower by lia. apply IZR_le. vm_compute. discriminate. }
  assert (T : (0 < tiny (-1074) <= / 9000000000000000)%R). { unfold tiny. split; [apply bpow_gt_0|]. apply Rle_trans with (bpow radix2 (-53)); [apply bpow_le; lia|]. exact (proj2 U). }
  revert U T ER. generalize (ulp1 53), (tiny (-1074)). intros u t U T ER. apply Rabs_le_inv in B.
  assert (Rabs (IZR (Z.of_nat i) - q2r c) <= 1099511628776)%R as X by (apply Rabs_le; lra).
  assert (u * Rabs (IZR (Z.of_nat i) - q2r c) <= / 9000000000000000 * 1099511628776)%R as Y by (apply Rmult_le_compat; [lra|apply Rabs_pos|lra|exact X]).
  assert (Rabs (IZR (Z.of_nat k) - (IZR (Z.of_nat i) - q2r c)) <= / 5000)%R as W by lra. apply Rabs_le_inv in W. set (z := (Z.of_nat i - Z.of_nat k)%Z). assert (IZR z = IZR (Z.of_nat i) - IZR (Z.of_nat k))%R as ZE by (unfold z; apply minus_IZR).
  assert (IZR f < IZR z < IZR (f + 1))%R as [Z1 Z2] by (rewrite plus_IZR; lra). apply lt_IZR in Z1. apply lt_IZR in Z2. lia.
Qed.
(** Such corrections never divide by zero. *)
Theorem C111_apart : forall v ws cs, (forall c, In c cs -> apart c) -> (forall w, In w ws -> (2 <= List.length w)%nat /\ (Z.of_nat (List.length w) <= 2 ^ 40)%Z) ->
  exists outs, fl_apply_t_cor (rnd v) ws cs = Ok outs /\ List.length outs = Nat.min (List.length ws) (List.length cs).
Proof.
  intros v ws cs C W. destruct (mapM_ok_all _ _ (fun wc => fl_t_cor_pixel (rnd v) (fst wc) (snd wc)) (combine ws cs)) as [outs E].
  - intros [w c] I. pose proof (in_combine_l _ _ _ _ I) as IW. pose proof (in_combine_r _ _ _ _ I) as IC. destruct (W w IW) as [L1 L2]. apply mapM_ok_all. intros i II. apply in_seq in II. apply fl_no_raise; [exact L1|]. intros k K. apply no_sample; [now apply C|]. cbn [fst] in II. apply Z.le_trans with (2 := L2). lia.
  - exists outs. split; [exact E|]. apply mapM_length in E. now rewrite E, combine_length.
Qed.
Print Assumptions C111_apart.

(** ** The file *)
(** What is read: numbers as near to those of the file as any conversion to double precision. *)
Definition read_as (cs : list Qc) : Prop := Forall2 (fun c d => Rabs (q2r c - q2r d) <= / 1000000)%R cs t_cor.
Definition good (d : Qc) : bool :=
  let f := qz (qfloor d) in Qle_bool (this (f + Q2Qc (1 # 2400))) (this d) && Qle_bool (this d) (this (f + Q2Qc (2399 # 2400))) && Qle_bool (this (Q2Qc (-168 # 100))) (this d) && Qle_bool (this d) (this (Q2Qc (221 # 100))).
Lemma t_cor_good : forallb good (t_cor_a ++ t_cor_b) = true.
Proof. vm_compute. reflexivity. Qed.
Lemma t_cor_in : forall d, In d t_cor -> good d = true.
Proof.
  intros d I. pose proof t_cor_good as G. rewrite forallb_forall in G. apply G. apply in_or_app. unfold t_cor in I. apply in_concat in I as (l & L & I). cbn [In] in L. repeat (destruct L as [<-|L]; [auto|]). destruct L.
Qed.
Lemma qle_real : forall a b : Qc, Qle_bool (this a) (this b) = true -> (q2r a <= q2r b)%R.
Proof. intros a b H. now apply q2r_le, q_le_true. Qed.
Lemma good_spec : forall d c, good d = true -> (Rabs (q2r c - q2r d) <= / 1000000)%R -> apart c /\ (-169 / 100 <= q2r c <= 222 / 100)%R.
Proof.
  intros d c G H. unfold good in G. cbv zeta in G. apply andb_true_iff in G as [G G4]. apply andb_true_iff in G as [G G3]. apply andb_true_iff in G as [G1 G2]. apply qle_real in G1, G2, G3, G4. rewrite q2r_plus, q2r_qz, q2r_Q2Qc in G1, G2. rewrite q2r_Q2Qc in G3, G4. unfold Q2R in *. cbn [Qnum Qden] in *. apply Rabs_le_inv in H. split.
  - exists (qfloor d). split; [lra|]. apply Rabs_le. lra.
  - lra.
Qed.
Lemma forall2_len : forall (A B : Type) (P : A -> B -> Prop) l m, Forall2 P l m -> List.length l = List.length m.
Proof. intros A B P l m H. induction H; cbn [List.length]; congruence. Qed.
Lemma read_spec : forall cs, read_as cs -> List.length cs = 2048%nat /\ forall c, In c cs -> apart c /\ (-169 / 100 <= q2r c <= 222 / 100)%R.
Proof.
  intros cs H. split; [rewrite (forall2_len _ _ _ _ _ H); vm_compute; reflexivity|]. intros c I. unfold read_as in H. pose proof t_cor_in as T. revert T. generalize dependent t_cor. intros l H T. induction H as [|x d cs l X H IH]; [destruct I|]. destruct I as [->|I].
  - apply good_spec with d; [apply T; now left|exact X].
  - apply IH; [exact I|]. intros d' D. apply T. now right.
Qed.
(** With the corrections of the file every event of 2048 pixels is corrected, in single and double precision, ... *)
Theorem C111_shipped : forall v ws cs, read_as cs -> List.length ws = 2048%nat -> (forall w, In w ws -> (2 <= List.length w)%nat /\ (Z.of_nat (List.length w) <= 2 ^ 40)%Z) ->
  exists outs, fl_apply_t_cor (rnd v) ws cs = Ok outs /\ List.length outs = 2048%nat.
Proof.
  intros v ws cs H L W. apply read_spec in H as [LC H]. destruct (C111_apart v ws cs) as (outs & E & LO); [intros c C; now apply H|exact W|]. exists outs. split; [exact E|]. rewrite LO, L, LC. reflexivity.
Qed.
Print Assumptions C111_shipped.
(** ... and every sample but the first three and the last two is interpolated between two neighbouring samples, at most three before and two after it. *)
Theorem C111_inside : forall v ws cs outs p w c i B, read_as cs -> fl_apply_t_cor (rnd v) ws cs = Ok outs -> nth_error ws p = Some w -> nth_error cs p = Some c -> (3 <= i)%nat -> (i + 3 <= List.length w)%nat ->
  (Z.of_nat (List.length w) <= 2 ^ 53)%Z -> (forall y, In y w -> Rabs (q2r y) <= B)%R ->
  exists k, (i <= k + 3)%nat /\ (k <= i + 1)%nat /\ qn k < qn i - c /\ qn i - c < qn (S k) /\
  (Rabs (q2r (nth i (nth p outs []) 0%Qc) - q2r (nth k w 0 + (nth (S k) w 0 - nth k w 0) * (qn i - c - qn k))%Qc) <= B * (6 * unit_of v + 2 * INR (List.length w) * bpow radix2 (-53)) + 6 * tiny_of v)%R.
Proof.
  intros v ws cs outs p w c i B H E W C I1 I2 N BB. apply read_spec in H as [_ H]. destruct (H c (nth_error_In _ _ C)) as [_ R].
  assert (I0 : (3 <= INR i)%R) by (apply le_INR in I1; cbn in I1; lra). assert (IN : (INR i + 3 <= INR (List.length w))%R) by (apply le_INR in I2; rewrite plus_INR in I2; cbn in I2; lra).
  destruct (C95_error v ws cs outs p w c i B E W C) as (k & K & P1 & P2 & ER); [lia|lia|exact N|exact BB| | |].
  - apply q2r_le. rewrite q2r_0, q2r_minus, q2r_qn. lra.
  - apply q2r_le. rewrite q2r_minus, !q2r_qn, minus_INR by lia. cbn [INR]. lra.
  - exists k. pose proof P1 as Q1. pose proof P2 as Q2. apply q2r_lt in Q1, Q2. rewrite q2r_minus, !q2r_qn in Q1, Q2. rewrite S_INR in Q2.
    repeat split; [| |exact P1|exact P2|exact ER].
    + destruct (le_lt_dec i (k + 3)) as [X|X]; [exact X|exfalso]. apply le_INR in X. rewrite S_INR, plus_INR in X. cbn [INR] in X. lra.
    + destruct (le_lt_dec k (i + 1)) as [X|X]; [exact X|exfalso]. apply le_INR in X. rewrite S_INR, plus_INR in X. cbn [INR] in X. lra.
Qed.
Print Assumptions C111_inside.

(** The file as it is, read exactly; the first pixel, a ramp of 10 samples of 0, 10, 20, ... comes out at the ramp shifted by the correction. *)
Example C111_ex_read : read_as t_cor.
Proof. unfold read_as. generalize t_cor. induction l as [|d l IH]; constructor; [|exact IH]. rewrite Rminus_diag_eq, Rabs_R0 by reflexivity. lra. Qed.
Example C111_ex : List.length t_cor = 2048%nat /\ Qeq_bool (this (nth 0 t_cor 0)) (this (nth 64 t_cor 0)) = true /\ Qeq_bool (this (nth 0 t_cor 0)) (this (nth 1024 t_cor 0)) = false /\
  match fl_apply_t_cor (rnd Single) [map (fun i => qn (10 * i)) (seq 0 10)] t_cor with
  | Ok [o] => forallb (fun i => Qle_bool (Qabs (this (nth i o 0 - (qn (10 * i) - qn 10 * nth 0 t_cor 0)))) (1 # 100000)) (seq 0 10)
  | _ => false end = true.
Proof. repeat split; vm_compute; reflexivity. Qed.
