(** Property C109, continued: the default chunk size in double precision. *)
From Coq Require Import ZArith QArith Qcanon Reals Lia.
From Flocq Require Import Core.
From Verif.Base Require Import Num Fl FlFacts.
From Verif.Hdf5 Require Import ModelChunks.
From Coq Require Import Lra.
Local Open Scope R_scope.

(** For rows of [c] bytes a chunk takes at most 2 GB, in spite of the rounding, and the size of the chunk is at most one row below the largest possible one. *)
Theorem C109_chunk_size : forall n c, (0 < n)%Z -> (1 <= c <= 2 ^ 60)%Z -> let size := chunk_size64 n (n * c) in
  (size * c <= 2000000000)%Z /\ (2000000000 / c - 1 <= size <= 2000000000 / c)%Z.
Proof.
  intros n c N C size. assert (0 < IZR n) as NR by (apply IZR_lt; lia). assert (1 <= IZR c <= IZR (2 ^ 60)) as CR by (split; apply IZR_le; lia).
  set (q := (qz n / qz (n * c))%Qc). assert (q2r q * IZR c = 1) as Q.
  { unfold q. rewrite q2r_div, !q2r_qz, mult_IZR; [field; lra|]. intro Z. apply (f_equal q2r) in Z. rewrite q2r_qz, q2r_0, mult_IZR in Z. nra. }
  set (a := fl64 q). set (b := fl64 (a * qz 2000000000)%Qc).
  pose proof (fl_error 53 (-1074) ltac:(lia) q) as E1. change (fl 53 (-1074) q) with a in E1.
  pose proof (fl_error 53 (-1074) ltac:(lia) (a * qz 2000000000)%Qc) as E2. change (fl 53 (-1074) (a * qz 2000000000)%Qc) with b in E2. rewrite q2r_mult, q2r_qz in E2.
  assert (0 <= q2r q) as Q0 by nra. assert (0 <= q2r a) as A0 by (apply (fl_nonneg 53 (-1074) ltac:(lia)); exact Q0). assert (0 <= q2r b) as B0. { apply (fl_nonneg 53 (-1074) ltac:(lia)). rewrite q2r_mult, q2r_qz. nra. }
  rewrite (Rabs_pos_eq (q2r q)) in E1 by exact Q0. rewrite (Rabs_pos_eq (q2r a * _)) in E2 by nra.
  assert (0 < ulp1 53 <= / IZR (10 ^ 15)) as U. { unfold ulp1. split; [apply bpow_gt_0|]. rewrite bpow_opp. apply Rinv_le; [apply IZR_lt; lia|]. rewrite <- IZR_Zpower by lia. apply IZR_le. vm_compute. discriminate. }
  assert (0 < IZR c * tiny (-1074) <= / IZR (10 ^ 15)) as T.
  { unfold tiny. split; [apply Rmult_lt_0_compat; [lra|apply bpow_gt_0]|]. apply Rle_trans with (bpow radix2 60 * bpow radix2 (-1074 - 1)).
    - apply Rmult_le_compat_r; [apply bpow_ge_0|]. rewrite <- IZR_Zpower by lia. apply CR.
    - rewrite <- bpow_plus. apply Rle_trans with (bpow radix2 (-53)); [apply bpow_le; lia|]. exact (proj2 U). }
  revert U T E1 E2. generalize (ulp1 53), (tiny (-1074)). intros u t U T E1 E2. change (IZR (10 ^ 15)) with 1000000000000000 in *.
  apply Rabs_le_inv in E1. apply Rabs_le_inv in E2.
  assert (1 - u - IZR c * t <= q2r a * IZR c <= 1 + u + IZR c * t) as B1.
  { set (k := IZR c) in *. set (w := q2r q) in *. set (z := q2r a) in *. assert (u * w * k = u) as W by (rewrite Rmult_assoc, Q; ring). destruct E1 as [E1 E1']. apply (Rmult_le_compat_r k) in E1; [|lra]. apply (Rmult_le_compat_r k) in E1'; [|lra]. split; lra. }
  assert (2000000000 - / 2 < q2r b * IZR c < 2000000000 + / 2) as B2. 
  { set (x := q2r a * IZR c) in *. set (v := IZR c * t) in *. assert (x * 2000000000 - (u * (x * 2000000000) + v) <= q2r b * IZR c <= x * 2000000000 + (u * (x * 2000000000) + v)) as D.
    { unfold x, v. destruct E2 as [E2 E2']. apply (Rmult_le_compat_r (IZR c)) in E2; [|lra]. apply (Rmult_le_compat_r (IZR c)) in E2'; [|lra]. split; lra. }
    assert (x <= 2) by lra. assert (0 <= x) by lra. assert (u * x <= 2 * u) by nra. lra. }
  unfold size, chunk_size64. fold q. fold a. fold b. rewrite qtrunc_spec, Ztrunc_floor by exact B0. set (m := Zfloor (q2r b)). pose proof (Zfloor_lb (q2r b)) as F1. pose proof (Zfloor_ub (q2r b)) as F2. fold m in F1, F2.
  assert (m * c <= 2000000000)%Z as M1. { apply Z.lt_succ_r, lt_IZR. unfold Z.succ. rewrite plus_IZR, mult_IZR. nra. }
  assert (2000000000 <= (m + 1) * c)%Z as M2. { apply Z.lt_succ_r, lt_IZR. unfold Z.succ. rewrite plus_IZR, mult_IZR, plus_IZR. nra. }
  split; [exact M1|]. split.
  - apply Z.lt_succ_r. apply Z.lt_le_trans with (m + 1)%Z; [|lia]. apply Z.lt_sub_lt_add_r. apply Z.div_lt_upper_bound; nia.
  - apply Z.div_le_lower_bound; lia.
Qed.
Print Assumptions C109_chunk_size.
Example C109_chunk_ex : chunk_size64 1000 24000 = 83333333%Z /\ chunk_size64 7 (7 * 100) = 20000000%Z.
Proof. vm_compute. auto. Qed.
