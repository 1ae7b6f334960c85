(** The two precisions. *)
From Coq Require Import List ZArith QArith Qcanon Bool Arith Lia Reals.
From Flocq Require Import Core Relative.
From Verif.Base Require Import Num Lst Fl FlFacts.
From Verif.Spectrum Require Import Model Spec ModelFloat SpecFloat ProofsFloat.
From Coq Require Import Lra.
Import ListNotations.
Local Open Scope list_scope.
Local Open Scope R_scope.

Lemma fl_rel : forall prec emin q, (1 < prec)%Z -> bpow radix2 (emin + prec - 1) <= Rabs (q2r q) -> Rabs (q2r (fl prec emin q) - q2r q) <= ulp1 prec * Rabs (q2r q).
Proof.
  intros prec emin q P H. rewrite fl_round. pose proof (relative_error_N_FLT radix2 emin prec (valid_prec prec P) (fun x => negb (Z.even x)) (q2r q) H) as E.
  apply Rle_trans with (1 := E). apply Req_le. f_equal. unfold ulp1. replace (- prec)%Z with (-1 + (- prec + 1))%Z by lia. rewrite bpow_plus. cbn. lra.
Qed.
Lemma bp : forall a b, (a <= b)%Z -> bpow radix2 a <= bpow radix2 b.
Proof. intros. now apply bpow_le. Qed.
Lemma bpp : forall a b, bpow radix2 a * bpow radix2 b = bpow radix2 (a + b).
Proof. intros. symmetry. apply bpow_plus. Qed.

(** What [fits] means in real numbers. *)
Definition M (first last : Qc) : R := Rmax (Rabs (q2r first)) (Rabs (q2r last)).
Lemma fits_real : forall bits big first last n, fits bits big first last n -> (0 < n)%nat ->
  let W := q2r last - q2r first in
  bpow radix2 (- big) <= W /\ M first last <= bpow radix2 big /\ INR n * M first last <= bpow radix2 bits * W /\ 0 < W /\ W <= 2 * M first last /\ INR n <= bpow radix2 (bits + 1) /\ 1 <= INR n.
Proof.
  intros bits big first last n [A B] N W. apply q2r_le in A. rewrite q2r_two, q2r_minus in A. fold W in A. pose proof (bpow_gt_0 radix2 (- big)).
  destruct (B first) as [[B1 B2] [B3 B4]]; [auto|]. destruct (B last) as [[B5 B6] [B7 B8]]; [auto|].
  apply q2r_le in B1, B2, B3, B4, B5, B6, B7, B8. rewrite ?q2r_opp, ?q2r_mult, ?q2r_minus, ?q2r_two, ?q2r_qn in *. fold W in B3, B4, B7, B8.
  assert (N1 : 1 <= INR n) by (change 1 with (INR 1); apply le_INR; lia).
  assert (MB : M first last <= bpow radix2 big) by (unfold M; apply Rmax_lub; apply Rabs_le; lra).
  assert (NM : INR n * M first last <= bpow radix2 bits * W).
  { assert (E : forall v, INR n * Rabs v = Rabs (INR n * v)) by (intros v; rewrite Rabs_mult, (Rabs_pos_eq (INR n)); lra). unfold M, Rmax. destruct (Rle_dec (Rabs (q2r first)) (Rabs (q2r last))); rewrite E; apply Rabs_le; lra. }
  assert (WM : W <= 2 * M first last).
  { unfold W. pose proof (Rmax_l (Rabs (q2r first)) (Rabs (q2r last))) as L1. pose proof (Rmax_r (Rabs (q2r first)) (Rabs (q2r last))) as L2. fold (M first last) in L1, L2.
    pose proof (Rle_abs (q2r last)). pose proof (Rle_abs (- q2r first)) as L3. rewrite Rabs_Ropp in L3. lra. }
  repeat split; try assumption; try lra. apply Rmult_le_reg_r with W; [lra|]. apply Rle_trans with (INR n * (2 * M first last)); [apply Rmult_le_compat_l; lra|].
  rewrite bpow_plus. change (bpow radix2 1) with 2. lra.
Qed.
Lemma fits_weaken : forall first last n, fits32 first last n -> fits64 first last n.
Proof.
  intros first last n [A B]. assert (T : forall a b, (a <= b)%Z -> (two a <= two b)%Qc) by (intros a b H; apply q2r_le; rewrite !q2r_two; now apply bp).
  assert (P : (0 <= last - first)%Qc). { apply Qcle_trans with (2 := A). apply q2r_le. rewrite q2r_0, q2r_two. apply bpow_ge_0. }
  split; [apply Qcle_trans with (2 := A); apply T; lia|]. intros v V. destruct (B v V) as [[B1 B2] [B3 B4]]. pose proof (T 50%Z 500%Z ltac:(lia)) as T1. pose proof (T 16%Z 45%Z ltac:(lia)) as T2.
  assert (T3 : (two 16 * (last - first) <= two 45 * (last - first))%Qc) by (apply Qcmult_le_compat_r; assumption).
  set (w1 := (two 16 * (last - first))%Qc) in *. set (w2 := (two 45 * (last - first))%Qc) in *. set (b1 := two 50) in *. set (b2 := two 500) in *. set (nv := (qn n * v)%Qc) in *. clearbody w1 w2 b1 b2 nv. clear T. split; split; clear - B1 B2 B3 B4 T1 T3; qlra.
Qed.

Section Both.
Variables (first last : Qc) (n : nat).
Hypotheses (NP : (0 < n)%nat) (FT : fits64 first last n).
Let W := q2r last - q2r first.
Let Mx := M first last.
Let u := ulp1 53.
Let z := tiny (-1074).
Let h := W / INR n.
Lemma u_small : 0 < u <= / 1000.
Proof. unfold u, ulp1. split; [apply bpow_gt_0|]. apply Rle_trans with (bpow radix2 (-10)); [apply bp; lia|]. cbn. lra. Qed.
Lemma facts : bpow radix2 (-500) <= W /\ Mx <= bpow radix2 500 /\ INR n * Mx <= bpow radix2 45 * W /\ 0 < W /\ W <= 2 * Mx /\ INR n <= bpow radix2 46 /\ 1 <= INR n.
Proof. exact (fits_real 45 500 first last n FT NP). Qed.
Lemma delta_near : Rabs (q2r (fl64 (last - first)) - W) <= u * W.
Proof.
  destruct facts as (A & _ & _ & P & _). unfold fl64. assert (E : q2r (last - first)%Qc = W) by apply q2r_minus. pose proof (fl_rel 53 (-1074) (last - first)%Qc ltac:(lia)) as R. rewrite E, (Rabs_pos_eq W) in R by lra. apply R. apply Rle_trans with (2 := A). apply bp. lia.
Qed.
Lemma qn_nz : forall m, (0 < m)%nat -> qz (Z.of_nat m) <> 0%Qc.
Proof. intros m H E. apply (qz_inj _ 0) in E. lia. Qed.
Lemma d_pos : W * (1 - / 1000) <= q2r (fl64 (last - first)) <= W * (1 + / 1000).
Proof. pose proof delta_near as D. apply Rabs_le_inv in D. pose proof u_small. destruct facts as (_ & _ & _ & P & _). nra. Qed.
Lemma d_nz : fl64 (last - first) <> 0%Qc.
Proof. intro E. pose proof d_pos as D. rewrite E, q2r_0 in D. destruct facts as (_ & _ & _ & P & _). lra. Qed.
Lemma norm_near : Rabs (q2r (norm64 first last (Z.of_nat n)) - INR n / W) <= 2.2 * u * (INR n / W).
Proof.
  destruct facts as (A & B & C & P & WM & NB & N1). pose proof d_pos as D. pose proof delta_near as DN. set (d := fl64 (last - first)) in *.
  unfold norm64. fold d. assert (E : q2r (qz (Z.of_nat n) / d)%Qc = INR n / q2r d). { rewrite q2r_div by apply d_nz. fold (qn n). now rewrite q2r_qn. }
  set (q := (qz (Z.of_nat n) / d)%Qc) in *. assert (QP : 0 < INR n / q2r d) by (apply Rdiv_lt_0_compat; lra).
  assert (R : Rabs (q2r (fl64 q) - q2r q) <= u * Rabs (q2r q)).
  { apply fl_rel; [lia|]. rewrite E, Rabs_pos_eq by lra. apply Rle_trans with (bpow radix2 (-502)); [apply bp; lia|]. apply Rmult_le_reg_r with (q2r d); [lra|]. unfold Rdiv. rewrite Rmult_assoc, Rinv_l, Rmult_1_r by lra.
    apply Rle_trans with (bpow radix2 (-502) * bpow radix2 502); [apply Rmult_le_compat_l; [apply bpow_ge_0|]|rewrite bpp; cbn; lra].
    replace (bpow radix2 502) with (4 * bpow radix2 500) by (change 4 with (bpow radix2 2); now rewrite bpp). lra. }
  rewrite E, (Rabs_pos_eq (INR n / q2r d)) in R by lra. pose proof u_small as U.
  assert (RP : 0 < INR n / W) by (apply Rdiv_lt_0_compat; lra). set (r := INR n / W) in *. assert (EN : INR n = r * W) by (unfold r; field; lra).
  assert (Q : Rabs (INR n / q2r d - r) <= 1.1 * u * r).
  { replace (INR n / q2r d - r) with (r * ((W - q2r d) / q2r d)) by (rewrite EN; field; lra). rewrite Rabs_mult, (Rabs_pos_eq r) by lra. replace (1.1 * u * r) with (r * (1.1 * u)) by ring. apply Rmult_le_compat_l; [lra|].
    unfold Rdiv. rewrite Rabs_mult, (Rabs_pos_eq (/ q2r d)); [|left; apply Rinv_0_lt_compat; lra]. apply Rmult_le_reg_r with (q2r d); [lra|]. rewrite Rmult_assoc, Rinv_l, Rmult_1_r by lra. rewrite Rabs_minus_sym. apply Rle_trans with (1 := DN). nra. }
  set (t := INR n / q2r d) in *. replace (q2r (fl64 q) - r) with ((q2r (fl64 q) - t) + (t - r)) by ring. apply Rle_trans with (1 := Rabs_triang _ _).
  apply Rabs_le_inv in Q. assert (u * t <= u * (r * (1 + / 500))) by (apply Rmult_le_compat_l; nra). assert (Rabs (t - r) <= 1.1 * u * r) by (apply Rabs_le; lra). clearbody t r u. nra.
Qed.
(** Edges in double precision. *)
Lemma uM : u * Mx <= h * / 256.
Proof.
  destruct facts as (A & B & C & P & WM & NB & N1). unfold h. apply Rmult_le_reg_r with (INR n); [lra|]. replace (W / INR n * / 256 * INR n) with (W * / 256) by (field; lra).
  replace (u * Mx * INR n) with (u * (INR n * Mx)) by ring. apply Rle_trans with (u * (bpow radix2 45 * W)); [apply Rmult_le_compat_l; [pose proof u_small; lra|exact C]|].
  rewrite <- Rmult_assoc. unfold u, ulp1. rewrite bpp. cbn. lra.
Qed.
Lemma z_h : 1000 * z <= h.
Proof.
  destruct facts as (A & B & C & P & WM & NB & N1). unfold h. apply Rmult_le_reg_r with (INR n); [lra|]. replace (W / INR n * INR n) with W by (field; lra). apply Rle_trans with (2 := A).
  apply Rle_trans with (bpow radix2 10 * z * bpow radix2 46). { assert (0 < z) by apply bpow_gt_0. apply Rmult_le_compat; [lra|lra| |exact NB]. apply Rmult_le_compat_r; [lra|cbn; lra]. }
  unfold z, tiny. rewrite !bpp. apply bp. lia.
Qed.
Lemma edges_length : List.length (linspace64 first last (Z.of_nat n)) = S n.
Proof. unfold linspace64. rewrite app_length, map_length, seq_length, Nat2Z.id. cbn. lia. Qed.
Lemma edges_last : edge (linspace64 first last (Z.of_nat n)) n = last.
Proof. unfold edge, linspace64. rewrite app_nth2; rewrite map_length, seq_length, Nat2Z.id; [|lia]. now rewrite Nat.sub_diag. Qed.
Let d := fl64 (last - first).
Let s := fl64 (d / qz (Z.of_nat n)).
Lemma step_near : Rabs (q2r s - q2r d / INR n) <= u * Rabs (q2r d / INR n) /\ 0 < q2r s.
Proof.
  destruct facts as (A & B & C & P & WM & NB & N1). pose proof d_pos as D. fold d in D. assert (E : q2r (d / qz (Z.of_nat n))%Qc = q2r d / INR n). { rewrite q2r_div by (apply qn_nz; exact NP). fold (qn n). now rewrite q2r_qn. }
  assert (QP : 0 < q2r d / INR n) by (apply Rdiv_lt_0_compat; lra).
  assert (R : Rabs (q2r s - q2r d / INR n) <= u * Rabs (q2r d / INR n)).
  { rewrite <- E. apply fl_rel; [lia|]. rewrite E, Rabs_pos_eq by lra. apply Rle_trans with (bpow radix2 (-547)); [apply bp; lia|]. apply Rmult_le_reg_r with (INR n); [lra|]. unfold Rdiv. rewrite Rmult_assoc, Rinv_l, Rmult_1_r by lra.
    apply Rle_trans with (bpow radix2 (-547) * bpow radix2 46); [apply Rmult_le_compat_l; [apply bpow_ge_0|exact NB]|]. rewrite bpp. replace (-547 + 46)%Z with (-1 + -500)%Z by lia. rewrite <- bpp. change (bpow radix2 (-1)) with (/ 2). lra. }
  split; [exact R|]. rewrite (Rabs_pos_eq (q2r d / INR n)) in R by lra. apply Rabs_le_inv in R. pose proof u_small. nra.
Qed.
Lemma edge_inner : forall k, (k < n)%nat -> edge (linspace64 first last (Z.of_nat n)) k = fl64 (fl64 (qn k * s) + first).
Proof.
  intros k K. unfold edge, linspace64. rewrite app_nth1 by (rewrite map_length, seq_length, Nat2Z.id; exact K). fold d. fold s. cbv zeta.
  apply nth_error_nth. rewrite nth_error_map, nth_error_seq, Nat2Z.id. destruct (Nat.ltb_spec k n); [|lia]. cbn [option_map Nat.add].
  destruct (qeqb_spec s 0%Qc) as [Z|Z]; [|reflexivity]. exfalso. destruct step_near as [_ S]. rewrite Z, q2r_0 in S. lra.
Qed.
Lemma edge_first : fl64 first = first -> edge (linspace64 first last (Z.of_nat n)) 0 = first.
Proof.
  intros F. rewrite edge_inner by exact NP. replace (qn 0 * s)%Qc with 0%Qc by (rewrite qn_0; ring). change (fl64 0) with 0%Qc. now replace (0 + first)%Qc with first by ring.
Qed.
Lemma M_bounds : - Mx <= q2r first /\ q2r first + W <= Mx /\ q2r first <= Mx.
Proof.
  unfold W, Mx, M. pose proof (Rmax_l (Rabs (q2r first)) (Rabs (q2r last))). pose proof (Rmax_r (Rabs (q2r first)) (Rabs (q2r last))). pose proof (Rle_abs (q2r first)). pose proof (Rle_abs (- q2r first)) as L. rewrite Rabs_Ropp in L. pose proof (Rle_abs (q2r last)). lra.
Qed.
Lemma h_pos' : 0 < h.
Proof. destruct facts as (A & B & C & P & WM & NB & N1). apply Rdiv_lt_0_compat; lra. Qed.
Lemma edges_near : forall k, (k <= n)%nat -> Rabs (q2r (edge (linspace64 first last (Z.of_nat n)) k) - (q2r first + INR k * h)) <= h / 16.
Proof.
  intros k K. pose proof h_pos' as HP. destruct facts as (A & B & C & P & WM & NB & N1). destruct (Nat.eq_dec k n) as [->|NE].
  - rewrite edges_last. replace (q2r last - (q2r first + INR n * h)) with 0 by (unfold h; fold W; replace (q2r last) with (q2r first + W) by (unfold W; ring); field; lra). rewrite Rabs_R0. lra.
  - rewrite edge_inner by lia. destruct M_bounds as (M1 & M2 & M3).
    apply Rle_trans with (11 * u * Mx + 3 * z); [|pose proof uM; pose proof z_h; lra].
    apply (edge_near u z W (INR n) Mx (q2r first) (INR k) (q2r d) (q2r s) (q2r (fl64 (qn k * s)))); try assumption.
    + exact u_small. + apply bpow_ge_0.
    + apply Rle_trans with (1 := C). apply Req_le. f_equal. unfold u, ulp1. rewrite <- bpow_opp. change (/ 256) with (bpow radix2 (-8)). now rewrite bpp.
    + pose proof z_h as ZH. unfold h in ZH. apply (Rmult_le_compat_l (INR n)) in ZH; [|lra]. replace (INR n * (W / INR n)) with W in ZH by (field; lra). lra.
    + split; [apply pos_INR|apply le_INR; lia].
    + exact delta_near. + exact (proj1 step_near).
    + pose proof (fl_error 53 (-1074) ltac:(lia) (qn k * s)%Qc) as E. rewrite q2r_mult, q2r_qn in E. exact E.
    + pose proof (fl_error 53 (-1074) ltac:(lia) (fl64 (qn k * s) + first)%Qc) as E. rewrite q2r_plus in E. exact E.
Qed.
Lemma first_lt_last : (first < last)%Qc.
Proof. apply q2r_lt. destruct facts as (_ & _ & _ & P & _). unfold W in P. lra. Qed.
Lemma h_eq : forall y, y / h = y * (INR n / W).
Proof. intros y. destruct facts as (_ & _ & _ & P & _ & _ & N1). unfold h. field. lra. Qed.

Theorem double_faithful : fl64 first = first -> faithful double first last n.
Proof.
  intros F. apply near_faithful; [exact NP|exact first_lt_last|exact edges_length|now apply edge_first|exact edges_last| |].
  - intros k K. pose proof (edges_near k K) as E. pose proof h_pos'. apply Rle_trans with (1 := E). fold W. fold h. lra.
  - intros x X0 X1. fold W. fold h. apply q2r_le in X0, X1. exists (q2r (fl64 (fl64 (x - first) * norm64 first last (Z.of_nat n)))). split; [apply qtrunc_spec|].
    destruct facts as (A & B & C & P & WM & NB & N1). pose proof norm_near as NN. pose proof u_small as U. assert (RP : 0 < INR n / W) by (apply Rdiv_lt_0_compat; lra).
    assert (D0 : 0 <= q2r (fl64 (x - first))) by (apply fl_nonneg; [lia|rewrite q2r_minus; lra]).
    assert (N0 : 0 <= q2r (norm64 first last (Z.of_nat n))) by (apply Rabs_le_inv in NN; nra).
    split; [apply fl_nonneg; [lia|]; rewrite q2r_mult; now apply Rmult_le_pos|].
    rewrite h_eq. apply (index_near u z W (INR n) (q2r x - q2r first) (q2r (fl64 (x - first))) (q2r (norm64 first last (Z.of_nat n)))); try assumption.
    + split; [apply bpow_ge_0|]. unfold z, tiny. apply Rle_trans with (bpow radix2 (-10)); [apply bp; lia|cbn; lra].
    + apply Rle_trans with (bpow radix2 (-53) * bpow radix2 46); [apply Rmult_le_compat_l; [apply bpow_ge_0|exact NB]|]. rewrite bpp. cbn. lra.
    + pose proof z_h as ZH. unfold h in ZH. assert (E : z * (INR n / W) * (W / INR n) = z) by (field; lra). assert (HP : 0 < W / INR n) by (apply Rdiv_lt_0_compat; lra). apply Rmult_le_reg_r with (W / INR n); [exact HP|]. rewrite E. lra.
    + unfold W. lra.
    + pose proof (fl_error 53 (-1074) ltac:(lia) (x - first)%Qc) as E. rewrite q2r_minus in E. rewrite (Rabs_pos_eq (q2r x - q2r first)) in E by lra. exact E.
    + apply Rle_trans with (1 := NN). nra.
    + pose proof (fl_error 53 (-1074) ltac:(lia) (fl64 (x - first) * norm64 first last (Z.of_nat n))%Qc) as E. rewrite q2r_mult in E. exact E.
Qed.
End Both.

(** Single precision. *)
Lemma single_double : forall q, fl32 q = q -> fl64 q = q.
Proof.
  intros q H. apply fl_format. assert (G : generic_format radix2 (FLT_exp (-149) 24) (q2r q)).
  { rewrite <- H. unfold fl32. rewrite fl_round. apply generic_format_round; [apply FLT_exp_valid; unfold Prec_gt_0; lia|apply valid_rnd_N]. }
  apply FLT_format_generic in G; [|unfold Prec_gt_0; lia]. destruct G as [f E1 E2 E3]. apply generic_format_FLT. exists f; [exact E1|apply Z.lt_trans with (1 := E2); reflexivity|apply Z.le_trans with (2 := E3); lia].
Qed.
Section Single.
Variables (first last : Qc) (n : nat).
Hypotheses (NP : (0 < n)%nat) (FT : fits32 first last n) (FF : fl32 first = first) (FL : fl32 last = last).
Let W := q2r last - q2r first.
Let Mx := M first last.
Let u := ulp1 24.
Let z := tiny (-149).
Let h := W / INR n.
Let FT64 := fits_weaken first last n FT.
Lemma facts32 : bpow radix2 (-50) <= W /\ Mx <= bpow radix2 50 /\ INR n * Mx <= bpow radix2 16 * W /\ 0 < W /\ W <= 2 * Mx /\ INR n <= bpow radix2 17 /\ 1 <= INR n.
Proof. exact (fits_real 16 50 first last n FT NP). Qed.
Lemma u_small32 : 0 < u <= / 1000.
Proof. unfold u, ulp1. split; [apply bpow_gt_0|]. apply Rle_trans with (bpow radix2 (-10)); [apply bp; lia|]. cbn. lra. Qed.
Lemma u_64 : ulp1 53 <= u * / 1000.
Proof. unfold u, ulp1. apply Rle_trans with (bpow radix2 (-24) * bpow radix2 (-10)); [rewrite bpp; apply bp; lia|]. apply Rmult_le_compat_l; [apply bpow_ge_0|]. cbn. lra. Qed.
Lemma z_h32 : 1000 * z <= h.
Proof.
  destruct facts32 as (A & B & C & P & WM & NB & N1). unfold h. apply Rmult_le_reg_r with (INR n); [lra|]. replace (W / INR n * INR n) with W by (field; lra). apply Rle_trans with (2 := A).
  apply Rle_trans with (bpow radix2 10 * z * bpow radix2 17). { assert (0 < z) by apply bpow_gt_0. apply Rmult_le_compat; [lra|lra| |exact NB]. apply Rmult_le_compat_r; [lra|cbn; lra]. }
  unfold z, tiny. rewrite !bpp. apply bp. lia.
Qed.
Lemma uM32 : u * Mx <= h * / 256.
Proof.
  destruct facts32 as (A & B & C & P & WM & NB & N1). unfold h. apply Rmult_le_reg_r with (INR n); [lra|]. replace (W / INR n * / 256 * INR n) with (W * / 256) by (field; lra).
  replace (u * Mx * INR n) with (u * (INR n * Mx)) by ring. apply Rle_trans with (u * (bpow radix2 16 * W)); [apply Rmult_le_compat_l; [pose proof u_small32; lra|exact C]|].
  rewrite <- Rmult_assoc. unfold u, ulp1. rewrite bpp. cbn. lra.
Qed.
Lemma edge32 : forall k, (k <= n)%nat -> edge (f_edges single first last (Z.of_nat n)) k = fl32 (edge (linspace64 first last (Z.of_nat n)) k).
Proof.
  intros k K. unfold edge. cbn [f_edges single]. rewrite (nth_indep _ _ (fl32 0%Qc)) by (rewrite map_length, edges_length; lia). apply map_nth.
Qed.
Lemma norm_near32 : Rabs (q2r (fl32 (norm64 first last (Z.of_nat n))) - INR n / W) <= 3 * u * (INR n / W).
Proof.
  destruct facts32 as (A & B & C & P & WM & NB & N1). pose proof (norm_near first last n NP FT64) as NN. fold W in NN. pose proof u_small32 as U. pose proof u_64 as U64.
  assert (RP : 0 < INR n / W) by (apply Rdiv_lt_0_compat; lra). assert (RB : bpow radix2 (-51) <= INR n / W).
  { apply Rmult_le_reg_r with W; [exact P|]. unfold Rdiv. rewrite Rmult_assoc, Rinv_l, Rmult_1_r by lra. apply Rle_trans with (bpow radix2 (-51) * bpow radix2 51); [apply Rmult_le_compat_l; [apply bpow_ge_0|]|rewrite bpp; cbn; lra].
    replace (bpow radix2 51) with (2 * bpow radix2 50) by (change 2 with (bpow radix2 1); now rewrite bpp). lra. }
  set (r := INR n / W) in *. set (N := norm64 first last (Z.of_nat n)) in *. assert (U0 : 0 < ulp1 53) by apply bpow_gt_0. set (v := ulp1 53) in *. 
  apply Rabs_le_inv in NN. assert (NR : r * (1 - / 100) <= q2r N <= r * (1 + / 100)) by (clearbody r v u; nra).
  assert (R : Rabs (q2r (fl32 N) - q2r N) <= u * Rabs (q2r N)).
  { apply fl_rel; [lia|]. rewrite Rabs_pos_eq by lra. apply Rle_trans with (bpow radix2 (-52)); [apply bp; lia|]. replace (-52)%Z with (-51 + -1)%Z by lia. rewrite <- bpp. change (bpow radix2 (-1)) with (/ 2). lra. }
  rewrite (Rabs_pos_eq (q2r N)) in R by lra. replace (q2r (fl32 N) - r) with ((q2r (fl32 N) - q2r N) + (q2r N - r)) by ring. apply Rle_trans with (1 := Rabs_triang _ _).
  assert (Rabs (q2r N - r) <= 2.2 * v * r) by (apply Rabs_le; lra). assert (u * q2r N <= u * (r * (1 + / 100))) by (apply Rmult_le_compat_l; lra). clearbody r v u. nra.
Qed.
Lemma edges_near32 : forall k, (k <= n)%nat -> Rabs (q2r (edge (f_edges single first last (Z.of_nat n)) k) - (q2r first + INR k * h)) <= h / 8.
Proof.
  assert (HP : 0 < h) by (destruct facts32 as (A & B & C & P & WM & NB & N1); apply Rdiv_lt_0_compat; lra).
  intros k K. rewrite edge32 by exact K. pose proof (edges_near first last n NP FT64 k K) as E. fold W in E. fold h in E. set (e := edge (linspace64 first last (Z.of_nat n)) k) in *.
    pose proof (fl_error 24 (-149) ltac:(lia) e) as R. fold u z in R. change (fl 24 (-149) e) with (fl32 e) in R.
    destruct (M_bounds first last) as (M1 & M2 & M3). fold W in M2. fold Mx in M1, M2, M3. destruct facts32 as (A & B & C & P & WM & NB & N1).
    assert (KH : 0 <= INR k * h <= W). { assert (EW : INR n * h = W) by (unfold h; field; lra). split; [apply Rmult_le_pos; [apply pos_INR|lra]|]. rewrite <- EW. apply Rmult_le_compat_r; [lra|]. now apply le_INR. }
    assert (EB : Rabs (q2r e) <= Mx + h / 16). { replace (q2r e) with ((q2r first + INR k * h) + (q2r e - (q2r first + INR k * h))) by ring. apply Rle_trans with (1 := Rabs_triang _ _). apply Rplus_le_compat; [apply Rabs_le; lra|exact E]. }
    replace (q2r (fl32 e) - (q2r first + INR k * h)) with ((q2r (fl32 e) - q2r e) + (q2r e - (q2r first + INR k * h))) by ring. apply Rle_trans with (1 := Rabs_triang _ _).
    pose proof u_small32 as U. pose proof uM32. pose proof z_h32. assert (u * Rabs (q2r e) <= u * (Mx + h / 16)) by (apply Rmult_le_compat_l; lra). assert (u * (h / 16) <= h / 1000) by nra. lra.
Qed.
Theorem single_faithful : faithful single first last n.
Proof.
  pose proof (single_double first FF) as F64. assert (HP : 0 < h) by (destruct facts32 as (A & B & C & P & WM & NB & N1); apply Rdiv_lt_0_compat; lra).
  apply near_faithful; [exact NP|exact (first_lt_last first last n NP FT64)|cbn [f_edges single]; rewrite map_length; apply edges_length; assumption| | | |].
  - rewrite edge32 by lia. now rewrite edge_first.
  - rewrite edge32 by lia. now rewrite edges_last.
  - exact edges_near32.
  - intros x X0 X1. fold W. fold h. apply q2r_le in X0, X1. cbn [f_index single]. rewrite FF. exists (q2r (fl32 (fl32 (x - first) * fl32 (norm64 first last (Z.of_nat n))))). split; [apply qtrunc_spec|].
    destruct facts32 as (A & B & C & P & WM & NB & N1). pose proof norm_near32 as NN. pose proof u_small32 as U. assert (RP : 0 < INR n / W) by (apply Rdiv_lt_0_compat; lra).
    assert (D0 : 0 <= q2r (fl32 (x - first))) by (apply fl_nonneg; [lia|rewrite q2r_minus; lra]).
    assert (N0 : 0 <= q2r (fl32 (norm64 first last (Z.of_nat n)))) by (apply Rabs_le_inv in NN; nra).
    split; [apply fl_nonneg; [lia|]; rewrite q2r_mult; now apply Rmult_le_pos|].
    unfold h. rewrite (h_eq first last n NP FT64). fold W. apply (index_near u z W (INR n) (q2r x - q2r first) (q2r (fl32 (x - first))) (q2r (fl32 (norm64 first last (Z.of_nat n))))); try assumption.
    + split; [apply bpow_ge_0|]. unfold z, tiny. apply Rle_trans with (bpow radix2 (-10)); [apply bp; lia|cbn; lra].
    + apply Rle_trans with (bpow radix2 (-24) * bpow radix2 17); [apply Rmult_le_compat_l; [apply bpow_ge_0|exact NB]|]. rewrite bpp. cbn. lra.
    + pose proof z_h32 as ZH. unfold h in ZH. assert (E : z * (INR n / W) * (W / INR n) = z) by (field; lra). assert (HP' : 0 < W / INR n) by (apply Rdiv_lt_0_compat; lra). apply Rmult_le_reg_r with (W / INR n); [exact HP'|]. rewrite E. lra.
    + unfold W. lra.
    + pose proof (fl_error 24 (-149) ltac:(lia) (x - first)%Qc) as E. rewrite q2r_minus in E. rewrite (Rabs_pos_eq (q2r x - q2r first)) in E by lra. exact E.
    + pose proof (fl_error 24 (-149) ltac:(lia) (fl32 (x - first) * fl32 (norm64 first last (Z.of_nat n)))%Qc) as E. rewrite q2r_mult in E. exact E.
Qed.
End Single.
