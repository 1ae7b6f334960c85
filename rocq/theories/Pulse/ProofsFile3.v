(** The times and the values of the reference pulse file. *)
From Coq Require Import List ZArith NArith QArith Qcanon Bool Arith Reals Lia Psatz.
From Flocq Require Import Core BinarySingleNaN.
From Verif.Base Require Import Py PyFacts Lst Num Fl FlFacts F64 F64Facts.
From Verif.Files Require Import Model.
From Verif.WfUtils Require Import Model Proofs.
From Verif.Fitter Require Model.
From Verif.Pulse Require Model Proofs Proofs2.
From Verif.Pulse Require Import ModelFile ProofsFile ProofsFile2.
From Coq Require Import Lra.
Import ListNotations.
Local Open Scope R_scope.

(** ** Errors of the three roundings *)
Lemma fl64_rnd : forall q, q2r (fl64 q) = rnd (q2r q).
Proof. intros. unfold fl64. rewrite fl_round. reflexivity. Qed.
Definition small : R := bpow radix2 (-1070).
Lemma small_pos : 0 < small. Proof. apply bpow_gt_0. Qed.
Lemma fl64_error : forall q, Rabs (q2r (fl64 q) - q2r q) <= / 1000000000000 * Rabs (q2r q) + small / 16.
Proof.
  intros q. eapply Rle_trans; [apply fl_error; lia|]. apply Rplus_le_compat.
  - apply Rmult_le_compat_r; [apply Rabs_pos|]. unfold ulp1. cbn. lra.
  - unfold tiny, small. change (-1074 - 1)%Z with (-5 + -1070)%Z. rewrite bpow_plus. replace (bpow radix2 (-5)) with (/ 32) by (cbn; lra). pose proof (bpow_gt_0 radix2 (-1070)). lra.
Qed.
Lemma back_error : forall v, Rabs (q2r (back (fl64 v)) - q2r v) <= 6 / 1000000 * Rabs (q2r v) + small.
Proof.
  intros v. unfold back. pose proof (fl64_error v) as E1. set (y := q2r (fl64 v)) in *. pose proof (fl64_error (decimal (fl64 v))) as E3. rewrite decimal_round in E3. fold y in E3. pose proof (dround_error y) as E2.
  pose proof small_pos. set (d := dround y) in *. set (r := q2r (fl64 (decimal (fl64 v)))) in *. set (x := q2r v) in *.
  assert (A1 : Rabs y <= (1 + / 1000000000000) * Rabs x + small / 16). { replace y with ((y - x) + x) by ring. eapply Rle_trans; [apply Rabs_triang|]. lra. }
  assert (A2 : Rabs d <= (1 + 5 / 1000000) * Rabs y). { replace d with ((d - y) + y) by ring. eapply Rle_trans; [apply Rabs_triang|]. lra. }
  replace (r - x) with ((r - d) + ((d - y) + (y - x))) by ring. eapply Rle_trans; [apply Rabs_triang|]. eapply Rle_trans; [apply Rplus_le_compat_l, Rabs_triang|]. pose proof (Rabs_pos x). lra.
Qed.
Lemma back_le : forall a b, (a <= b)%Qc -> (back (fl64 a) <= back (fl64 b))%Qc.
Proof.
  intros a b H. unfold back. apply q2r_le. rewrite !(fl64_rnd (decimal _)), !decimal_round, !fl64_rnd. apply rnd_le, dround_le, rnd_le. now apply q2r_le.
Qed.
Lemma fl64_0 : fl64 0 = 0%Qc. Proof. apply q2r_eq. rewrite fl64_rnd, q2r_0. apply rnd_0. Qed.
Lemma decimal_0 : decimal 0 = 0%Qc. Proof. apply q2r_eq. rewrite decimal_round, q2r_0. unfold dround. apply round_0, valid_rnd_N. Qed.

(** ** Times *)
Definition ns : Qc := Q2Qc (1 # 1000000000).
Lemma q2r_ns : q2r ns = / 1000000000. Proof. unfold ns. rewrite q2r_Q2Qc. unfold Q2R. cbn. lra. Qed.
Lemma b10_m9 : b10 (-9) = / 1000000000. Proof. unfold b10. cbn. lra. Qed.
Lemma small_ns : small <= / 1000000000 / 1000000000000.
Proof.
  unfold small. apply Rle_trans with (bpow radix2 (-100)); [apply bpow_le; lia|]. change (bpow radix2 (-100)) with (/ IZR (Z.pow_pos 2 100)). cbn. lra.
Qed.
Lemma time_decimal : forall k, (Z.of_nat k < 1000000)%Z -> decimal (fl64 (qn k * fl64 ns)) = (qn k * ns)%Qc.
Proof.
  intros k K. destruct k as [|k].
  - change (qn 0) with 0%Qc. rewrite !Qcmult_0_l, fl64_0. apply decimal_0.
  - set (n := S k) in *. apply q2r_eq. rewrite decimal_round. set (g := q2r (qn n * ns)).
    assert (EG : g = IZR (Z.of_nat n) * b10 (-9)). { unfold g. rewrite q2r_mult, q2r_qn, q2r_ns, b10_m9, INR_IZR_INZ. reflexivity. }
    assert (1 <= IZR (Z.of_nat n)) by (apply IZR_le; lia). assert (IZR (Z.of_nat n) <= 1000000) by (apply IZR_le; lia).
    apply dround_close; [rewrite EG, b10_m9; lra|rewrite EG; apply dround_id; lia|].
    pose proof (fl64_error (qn n * fl64 ns)) as E1. pose proof (fl64_error ns) as E2. rewrite q2r_ns in E2. rewrite q2r_mult, q2r_qn, INR_IZR_INZ in E1.
    set (x := q2r (fl64 (qn n * fl64 ns))) in *. set (s := q2r (fl64 ns)) in *. set (m := IZR (Z.of_nat n)) in *. pose proof small_ns. pose proof small_pos.
    rewrite (Rabs_pos_eq (/ 1000000000)) in E2 by lra. apply Rabs_le_inv in E2.
    assert (S1 : / 1000000000 * (1 - / 100000000000) <= s <= / 1000000000 * (1 + / 100000000000)) by lra.
    rewrite (Rabs_pos_eq (m * s)) in E1 by nra. apply Rabs_le_inv in E1. rewrite EG, b10_m9. apply Rabs_le.
    assert (m * s <= m * (/ 1000000000 * (1 + / 100000000000))) by (apply Rmult_le_compat_l; lra).
    assert (m * (/ 1000000000 * (1 - / 100000000000)) <= m * s) by (apply Rmult_le_compat_l; lra). lra.
Qed.
Lemma time_back : forall k, (Z.of_nat k < 1000000)%Z -> back (fl64 (qn k * fl64 ns)) = fl64 (qn k * ns).
Proof. intros k K. unfold back. now rewrite time_decimal. Qed.

(** ** The doubles in memory *)
Definition holds (b : b64) (q : Qc) : Prop := is_finite b = true /\ B2R b = q2r q /\ Bsign b = qltb q 0.
Lemma holds_whole : forall k b, (Z.of_nat k < 2 ^ 53)%Z -> holds b (fl64 (qn k * ns)) -> b = Proofs2.whole_ns k.
Proof.
  intros k b K (F & V & SG). rewrite fl64_rnd, q2r_mult, q2r_qn, q2r_ns in V. destruct (Proofs2.whole_ns_spec k K) as [F' V'].
  assert (E : B2R b = B2R (Proofs2.whole_ns k)). { rewrite V, V'. reflexivity. }
  destruct k as [|k].
  - change (qn 0) with 0%Qc in SG. rewrite Qcmult_0_l, fl64_0 in SG. change (qltb 0 0) with false in SG.
    apply B2R_Bsign_inj; [exact F|exact F'|exact E|]. rewrite SG. vm_compute. reflexivity.
  - assert (N : B2R (Proofs2.whole_ns (S k)) <> 0).
    { rewrite V'. apply Rgt_not_eq. apply Rlt_le_trans with (bpow radix2 (-30)); [apply bpow_gt_0|]. rewrite <- (rnd_fmt (bpow radix2 (-30))) by (apply fmt_bpow; lia). apply rnd_le.
      rewrite S_INR. pose proof (pos_INR k). unfold Proofs.T. cbn. lra. }
    assert (ST : forall x : b64, is_finite x = true -> B2R x <> 0 -> is_finite_strict x = true) by (intros [] X1 X2; try discriminate X1; try reflexivity; exfalso; apply X2; reflexivity).
    apply B2R_inj; [apply ST; [exact F|rewrite E; exact N]|apply ST; assumption|exact E].
Qed.
