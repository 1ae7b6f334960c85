(** Double and single precision satisfy what C78 asks of the arithmetic. *)
From Coq Require Import List ZArith QArith Qcanon Bool Arith Lia Reals.
From Flocq Require Import Core Relative.
From Verif.Base Require Import Num Lst Fl FlFacts.
From Verif.Spectrum Require Import Model Spec ModelFloat SpecFloat.
From Coq Require Import Lra.
Import ListNotations.
Local Open Scope list_scope.
Local Open Scope R_scope.

(** ** From error bounds to [faithful] *)
Section Near.
Variables (ar : arith) (first last : Qc) (n : nat).
Let h : R := (q2r last - q2r first) / INR n.
Hypotheses (N : (0 < n)%nat) (W : (first < last)%Qc).
Let e := f_edges ar first last (Z.of_nat n).
Hypotheses (LE : List.length e = S n) (E0 : edge e 0 = first) (EN : edge e n = last).
Hypothesis (ED : forall k, (k <= n)%nat -> Rabs (q2r (edge e k) - (q2r first + INR k * h)) <= h / 8).
Hypothesis (IX : forall x, (first <= x)%Qc -> (x <= last)%Qc -> exists g, f_index ar first last (Z.of_nat n) x = Ztrunc g /\ 0 <= g /\ Rabs (g - (q2r x - q2r first) / h) <= / 8).
Lemma h_pos : 0 < h.
Proof. unfold h. apply q2r_lt in W. apply lt_0_INR in N. apply Rdiv_lt_0_compat; lra. Qed.
Lemma edges_increase : forall i j, (i < j <= n)%nat -> (edge e i < edge e j)%Qc.
Proof.
  intros i j I. apply q2r_lt. pose proof h_pos. assert (A : Rabs (q2r (edge e i) - (q2r first + INR i * h)) <= h / 8) by (apply ED; lia). assert (B : Rabs (q2r (edge e j) - (q2r first + INR j * h)) <= h / 8) by (apply ED; lia).
  apply Rabs_le_inv in A. apply Rabs_le_inv in B. assert (C : INR i + 1 <= INR j) by (rewrite <- S_INR; apply le_INR; lia). nra.
Qed.
Lemma edges_mono : forall i j, (i <= j <= n)%nat -> (edge e i <= edge e j)%Qc.
Proof. intros i j I. destruct (Nat.eq_dec i j) as [->|]; [apply Qcle_refl|]. apply Qclt_le_weak, edges_increase. lia. Qed.
Lemma near_faithful : faithful ar first last n.
Proof.
  split. { fold e. split; [exact LE|]. split; [exact E0|]. split; [exact EN|]. exact edges_increase. }
  intros x k K B. fold e in B. unfold in_bin in B. apply andb_prop in B as [B1 B2].
  assert (X0 : (edge e k <= x)%Qc) by (destruct (qleb_spec (edge e k) x); [assumption|discriminate]).
  assert (X1 : (x <= edge e (S k))%Qc).
  { apply Bool.orb_prop in B2 as [B2|B2]; [destruct (qltb_spec x (edge e (S k))); [now apply Qclt_le_weak|discriminate]|]. apply andb_prop in B2 as [_ B2]. destruct (qleb_spec x (edge e (S k))); [assumption|discriminate]. }
  assert (XF : (first <= x)%Qc) by (rewrite <- E0; apply Qcle_trans with (2 := X0); apply edges_mono; lia).
  assert (XL : (x <= last)%Qc) by (rewrite <- EN; apply Qcle_trans with (1 := X1); apply edges_mono; lia).
  destruct (IX x XF XL) as (g & -> & G0 & G). cbv zeta. pose proof h_pos as HP.
  assert (A : Rabs (q2r (edge e k) - (q2r first + INR k * h)) <= h / 8) by (apply ED; lia). assert (C : Rabs (q2r (edge e (S k)) - (q2r first + INR (S k) * h)) <= h / 8) by (apply ED; lia).
  apply Rabs_le_inv in A, C, G. rewrite S_INR in C. apply q2r_le in X0, X1.
  set (t := (q2r x - q2r first) / h) in *. assert (ET : q2r x - q2r first = t * h) by (unfold t; field; lra).
  assert (T0 : INR k - / 8 <= t) by nra. assert (T1 : t <= INR k + 1 + / 8) by nra.
  rewrite Ztrunc_floor by exact G0. pose proof (Zfloor_lb g) as L. pose proof (Zfloor_ub g) as U. set (i := Zfloor g) in *. rewrite INR_IZR_INZ in *. 
  assert (i < Z.of_nat k + 2)%Z by (apply lt_IZR; rewrite plus_IZR; lra). assert (Z.of_nat k - 2 < i)%Z by (apply lt_IZR; rewrite minus_IZR; lra).
  assert (-1 < i)%Z by (apply lt_IZR; lra). lia.
Qed.
End Near.

(** ** Error bounds in real numbers *)
Lemma index_near : forall u z W n y D N g, 0 < u <= / 1000 -> 0 <= z <= / 1000 -> 0 < W -> 1 <= n -> u * n <= / 128 -> z * (n / W) <= / 1000 -> 0 <= y <= W ->
  Rabs (D - y) <= u * y + z -> Rabs (N - n / W) <= 3 * u * (n / W) -> Rabs (g - D * N) <= u * Rabs (D * N) + z -> Rabs (g - y * (n / W)) <= / 8.
Proof.
  intros u z W n y D N g U Z PW N1 UN ZR Y HD HN HG. assert (EW : W * (n / W) = n) by (field; lra). assert (RP : 0 < n / W) by (apply Rdiv_lt_0_compat; lra). set (r := n / W) in *. clearbody r.
  assert (TP : 0 <= y * r) by nra. assert (TN : y * r <= n) by nra. set (t := y * r) in *.
  assert (B : Rabs (D * N - t) <= 5 * u * n + 2 * / 1000).
  { replace (D * N - t) with ((D - y) * N + y * (N - r)) by (unfold t; ring). apply Rle_trans with (1 := Rabs_triang _ _). rewrite !Rabs_mult, (Rabs_pos_eq y) by lra.
    assert (NB : Rabs N <= r * (1 + / 100)). { replace N with (r + (N - r)) by ring. apply Rle_trans with (1 := Rabs_triang _ _). rewrite (Rabs_pos_eq r) by lra. nra. }
    assert (A : Rabs (D - y) * Rabs N <= (u * y + z) * (r * (1 + / 100))) by (apply Rmult_le_compat; auto using Rabs_pos).
    assert (C : y * Rabs (N - r) <= y * (3 * u * r)) by (apply Rmult_le_compat_l; lra).
    assert (E1 : (u * y + z) * (r * (1 + / 100)) = (u * t + z * r) * (1 + / 100)) by (unfold t; ring). assert (E2 : y * (3 * u * r) = 3 * (u * t)) by (unfold t; ring). rewrite E1 in A. rewrite E2 in C.
    assert (u * t <= u * n) by (apply Rmult_le_compat_l; lra). clear E1 E2. clearbody t. assert (0 <= u * t) by (apply Rmult_le_pos; lra). set (ut := u * t) in *. set (un := u * n) in *. set (zr := z * r) in *. replace (5 * u * n) with (5 * un) by (unfold un; ring). clearbody ut un zr. lra. }
  assert (DN : Rabs (D * N) <= n + 1). { replace (D * N) with (t + (D * N - t)) by ring. apply Rle_trans with (1 := Rabs_triang _ _). rewrite (Rabs_pos_eq t) by lra. lra. }
  replace (g - t) with ((g - D * N) + (D * N - t)) by ring. apply Rle_trans with (1 := Rabs_triang _ _).
  assert (u * Rabs (D * N) <= u * (n + 1)) by (apply Rmult_le_compat_l; lra). lra.
Qed.
Lemma edge_near : forall u z W n M f k d s y e, 0 < u <= / 1000 -> 0 <= z -> 0 < W -> 1 <= n -> n * M <= / u * / 256 * W -> n * z <= / 1000 * W -> 0 <= k <= n -> - M <= f -> f + W <= M -> f <= M ->
  Rabs (d - W) <= u * W -> Rabs (s - d / n) <= u * Rabs (d / n) -> Rabs (y - k * s) <= u * Rabs (k * s) + z -> Rabs (e - (y + f)) <= u * Rabs (y + f) + z ->
  Rabs (e - (f + k * (W / n))) <= 11 * u * M + 3 * z.
Proof.
  intros u z W n M f k d s y e U Z PW N1 C1 C2 K F0 F1 F2 Hd Hs Hy He.
  assert (EW : n * (W / n) = W) by (field; lra). assert (HP : 0 < W / n) by (apply Rdiv_lt_0_compat; lra).
  assert (Ed : d / n = W / n + (d - W) / n) by (field; lra).
  assert (Q : Rabs ((d - W) / n) <= u * (W / n)). { unfold Rdiv. rewrite Rabs_mult, (Rabs_pos_eq (/ n)); [|left; apply Rinv_0_lt_compat; lra]. apply Rle_trans with (u * W * / n); [apply Rmult_le_compat_r; [left; apply Rinv_0_lt_compat; lra|assumption]|right; ring]. }
  set (h := W / n) in *. set (q := d / n) in *. assert (Q' : Rabs (q - h) <= u * h) by (replace (q - h) with ((d - W) / n) by (rewrite Ed; ring); exact Q). clearbody h q. clear Ed Q Hd d.
  apply Rabs_le_inv in Q'. assert (Rabs q <= h * (1 + / 1000)) by (apply Rabs_le; nra).
  assert (S1 : Rabs (s - h) <= 2.1 * u * h). { replace (s - h) with ((s - q) + (q - h)) by ring. apply Rle_trans with (1 := Rabs_triang _ _). assert (u * Rabs q <= u * (h * (1 + / 1000))) by (apply Rmult_le_compat_l; lra). assert (Rabs (q - h) <= u * h) by (apply Rabs_le; lra). nra. }
  assert (KH : 0 <= k * h <= W) by nra.
  assert (S2 : Rabs (k * s - k * h) <= 2.1 * u * (k * h)). { replace (k * s - k * h) with (k * (s - h)) by ring. rewrite Rabs_mult, (Rabs_pos_eq k) by lra. apply Rle_trans with (k * (2.1 * u * h)); [apply Rmult_le_compat_l; lra|right; ring]. }
  set (p := k * h) in *. set (v := k * s) in *. clearbody p v. apply Rabs_le_inv in S2.
  assert (VB : Rabs v <= W * (1 + / 100)) by (apply Rabs_le; nra).
  assert (Y1 : Rabs (y - p) <= 3.2 * u * W + z). { replace (y - p) with ((y - v) + (v - p)) by ring. apply Rle_trans with (1 := Rabs_triang _ _). assert (Rabs (v - p) <= 2.1 * u * W) by (apply Rabs_le; nra). assert (u * Rabs v <= u * (W * (1 + / 100))) by (apply Rmult_le_compat_l; lra). nra. }
  assert (WM : W <= 2 * M) by lra. assert (M0 : 0 < M) by lra.
  assert (FB : Rabs (y + f) <= M + (3.2 * u * W + z)). { replace (y + f) with ((p + f) + (y - p)) by ring. apply Rle_trans with (1 := Rabs_triang _ _). apply Rplus_le_compat; [apply Rabs_le; lra|exact Y1]. }
  replace (e - (f + p)) with ((e - (y + f)) + (y - p)) by ring. apply Rle_trans with (1 := Rabs_triang _ _).
  assert (u * Rabs (y + f) <= u * (M + (3.2 * u * W + z))) by (apply Rmult_le_compat_l; lra).
  assert (u * (3.2 * u * W) <= u * M * / 100). { assert (3.2 * u * W <= M * / 100) by nra. nra. }
  assert (u * z <= z) by nra. assert (u * W <= 2 * u * M) by nra. nra.
Qed.
