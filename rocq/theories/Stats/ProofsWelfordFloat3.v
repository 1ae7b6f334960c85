(** Welford's algorithm with rounding over any number of samples. *)
From Coq Require Import ZArith QArith Qcanon Reals Lia List.
From Flocq Require Import Core.
From Verif.Base Require Import Num Fl FlFacts.
From Verif.Stats Require Import ModelWelford ModelWelfordFloat ProofsWelfordFloat ProofsWelfordFloat2.
From Coq Require Import Lra.
Import ListNotations.
Local Open Scope R_scope.

Lemma F_double : forall q, fl64 q = q -> F (q2r q).
Proof. intros q H. rewrite <- H, fl64_rnd. apply rnd_F. Qed.
Lemma double_F : forall q, F (q2r q) -> fl64 q = q.
Proof. intros q H. apply q2r_eq. rewrite fl64_rnd. now apply rnd_id. Qed.

Lemma fl_0 : fl64 0 = 0%Qc.
Proof. apply Qc_is_canon, Qeq_bool_iff. vm_compute. reflexivity. Qed.
Lemma fl_1 : fl64 (qn 1) = 1%Qc.
Proof. apply Qc_is_canon, Qeq_bool_iff. vm_compute. reflexivity. Qed.
Lemma fl_11 : fl64 (1 / 1) = 1%Qc.
Proof. apply Qc_is_canon, Qeq_bool_iff. vm_compute. reflexivity. Qed.
Lemma first_sample : forall w x, fl64 x = x -> fwelford w x (0%Qc, O, 0%Qc) = (x, 1%nat, 0%Qc).
Proof.
  intros w x Fx. unfold fwelford. cbv zeta. rewrite fl_1, fl_11.
  assert (E1 : fl64 (x - 0) = x) by (rewrite <- Fx at 2; f_equal; ring). rewrite E1.
  assert (E2 : (x * 1)%Qc = x) by ring. assert (E3 : (x / 1)%Qc = x) by (field; discriminate). rewrite E2, E3, Fx.
  assert (E4 : fl64 (0 + x) = x) by (rewrite <- Fx at 2; f_equal; ring). rewrite E4.
  assert (E5 : (if reciprocal w then x else x) = x) by now destruct (reciprocal w). rewrite E5.
  assert (E6 : (if fuse_mean w then x else x) = x) by now destruct (fuse_mean w). rewrite E4, E6.
  assert (E7 : (x - x)%Qc = 0%Qc) by ring. rewrite E7, fl_0.
  assert (E8 : match second_way w with FromMean => 0%Qc | FromStep => 0%Qc | Fused => 0%Qc end = 0%Qc) by now destruct (second_way w). rewrite E8.
  assert (E9 : (x * 0)%Qc = 0%Qc) by ring. rewrite E9. rewrite !fl_0. rewrite Qcplus_0_l, fl_0. now destruct (fuse_m2 w).
Qed.
Lemma fwelford_snoc : forall l e s, fwelford_all (l ++ [e]) s = fwelford (fst e) (snd e) (fwelford_all l s).
Proof. intros. unfold fwelford_all. now rewrite fold_left_app. Qed.
Lemma welford_snoc : forall l e s, welford_all (l ++ [e]) s = welford e (welford_all l s).
Proof. intros. unfold welford_all. now rewrite fold_left_app. Qed.

Definition doubles (l : list (way * Qc)) : Prop := forall e, In e l -> fl64 (snd e) = snd e.
Lemma run_safe : forall l, l <> [] -> doubles l -> forall m n m2, fwelford_all l (0%Qc, O, 0%Qc) = (m, n, m2) ->
  n = List.length l /\ F (q2r m) /\ F (q2r m2) /\ 0 <= q2r m2 /\ (exists a b, In a (map snd l) /\ In b (map snd l) /\ q2r a <= q2r m <= q2r b).
Proof.
  induction l as [|e l IH] using rev_ind; intros NE DB m n m2 E; [easy|]. rewrite fwelford_snoc in E.
  assert (Fe : fl64 (snd e) = snd e) by (apply DB, in_or_app; right; now left).
  destruct l as [|e0 l'].
  - cbn [fwelford_all fold_left app] in *. rewrite first_sample in E by exact Fe. injection E as <- <- <-. split; [reflexivity|]. split; [now apply F_double|]. rewrite q2r_0. split; [apply F_0|]. split; [lra|]. exists (snd e), (snd e). cbn. repeat split; try (now left); lra.
  - remember (e0 :: l') as k eqn:Ek. assert (KN : k <> []) by (subst; discriminate). destruct (fwelford_all k (0%Qc, O, 0%Qc)) as [[m0 n0] m20] eqn:E0.
    destruct (IH KN (fun x I => DB x (in_or_app _ _ _ (or_introl I))) m0 n0 m20 eq_refl) as (L & Fm & F2 & P & a & b & Ia & Ib & AB).
    assert (C : (1 <= n0)%nat) by (rewrite L, Ek; cbn; lia).
    destruct (step_safe _ _ _ _ _ _ _ _ E C (F_double _ Fe) Fm F2) as (-> & Fm' & F2' & BT & G).
    split; [rewrite app_length, L; cbn; lia|]. split; [exact Fm'|]. split; [exact F2'|]. split; [lra|].
    rewrite map_app. cbn [map]. destruct (Rle_or_lt (q2r m0) (q2r (snd e))) as [Q|Q].
    + exists a, (snd e). split; [apply in_or_app; now left|]. split; [apply in_or_app; right; now left|]. unfold btw in BT. lra.
    + exists (snd e), b. split; [apply in_or_app; right; now left|]. split; [apply in_or_app; now left|]. unfold btw in BT. lra.
Qed.

(** ** Against exact arithmetic *)
(** [lo], [hi]: bounds of the samples; [B]: bound of their sizes; [N]: bound of their number. *)
Definition E_ (D B : R) (c : nat) : R := 4 * u * D + (INR c + 1) / 2 * (u * B + 2 * t).
Definition H_ (D B : R) (N : nat) : R := 3 * D * (E_ D B N + 5 * u * D + t) + 2 * u * D * D + t + u * INR N * D * D + t.

Lemma exact_step : forall x mu c s, (welford x (mu, c, s) = ((mu + (x - mu) / qn (S c))%Qc, S c, (s + (x - mu) * (x - (mu + (x - mu) / qn (S c))))%Qc)).
Proof. reflexivity. Qed.
Lemma qn_S0 : forall n, qn (S n) <> 0%Qc.
Proof. intros n E. apply (f_equal q2r) in E. rewrite q2r_qn, q2r_0 in E. pose proof (pos_INR n). rewrite S_INR in E. lra. Qed.

Section Run.
Variables (lo hi B : R) (N : nat).
Let D := hi - lo.
Hypothesis (HB : forall x, lo <= x <= hi -> Rabs x <= B).
Hypothesis (N53 : (Z.of_nat N <= 2 ^ 53)%Z).
Lemma run_error : forall l, l <> [] -> (List.length l <= N)%nat -> doubles l -> (forall e, In e l -> lo <= q2r (snd e) <= hi) ->
  forall m n m2 mu k s, fwelford_all l (0%Qc, O, 0%Qc) = (m, n, m2) -> welford_all (map snd l) (0%Qc, O, 0%Qc) = (mu, k, s) ->
  n = List.length l /\ k = List.length l /\ F (q2r m) /\ F (q2r m2) /\ lo <= q2r m <= hi /\ lo <= q2r mu <= hi /\
  INR n * Rabs (q2r m - q2r mu) <= 4 * u * D * INR n + (INR n * (INR n + 1) / 2) * (u * B + 2 * t) /\
  0 <= q2r s <= INR n * (D * D) /\ Rabs (q2r m2 - q2r s) <= INR n * (1 + u) ^ n * H_ D B N.
Proof.
  pose proof u_pos as U. pose proof t_pos as TP.
  induction l as [|e l IH] using rev_ind; intros NE LN DB RG m n m2 mu k s E X; [easy|]. rewrite fwelford_snoc in E. rewrite map_app in X. cbn [map] in X. rewrite welford_snoc in X.
  assert (Fe : fl64 (snd e) = snd e) by (apply DB, in_or_app; right; now left). assert (Re : lo <= q2r (snd e) <= hi) by (apply RG, in_or_app; right; now left).
  assert (D0 : 0 <= D) by (unfold D; lra). assert (B0 : 0 <= B) by (pose proof (HB _ Re); pose proof (Rabs_pos (q2r (snd e))); lra). assert (UB : 0 <= u * B + 2 * t) by (assert (0 <= u * B) by (apply Rmult_le_pos; lra); lra). assert (UD : 0 <= u * D) by (apply Rmult_le_pos; lra). assert (DD : 0 <= D * D) by (apply Rmult_le_pos; lra).
  assert (E0N : forall c, 0 <= E_ D B c). { intros c. unfold E_. pose proof (pos_INR c). assert (0 <= (INR c + 1) / 2 * (u * B + 2 * t)) by (apply Rmult_le_pos; lra). lra. }
  assert (H0 : 0 <= 3 * D * (E_ D B N + 5 * u * D + t)). { pose proof (E0N N). apply Rmult_le_pos; lra. } assert (UDD : 0 <= u * D * D) by (apply Rmult_le_pos; lra). pose proof (pos_INR N) as IN.
  assert (UNDD : 0 <= u * INR N * D * D) by (repeat apply Rmult_le_pos; lra). assert (HN : 0 <= H_ D B N) by (unfold H_; lra).
  destruct l as [|e0 l'].
  - cbn [fwelford_all welford_all fold_left app map] in *. rewrite first_sample in E by exact Fe. rewrite exact_step in X. change (qn 1) with 1%Qc in X.
    injection E as <- <- <-. injection X as EX <- ES. assert (MU : mu = snd e) by (rewrite <- EX; field; discriminate). assert (SS : s = 0%Qc) by (rewrite <- ES; replace (0 + (snd e - 0) / 1)%Qc with (snd e) by (field; discriminate); ring).
    clear EX ES. rewrite MU, SS. rewrite q2r_0. replace (q2r (snd e) - q2r (snd e)) with 0 by ring. replace (0 - 0) with 0 by ring. rewrite Rabs_R0. change (INR 1) with 1.
    split; [reflexivity|]. split; [reflexivity|]. split; [now apply F_double|]. split; [apply F_0|]. split; [exact Re|]. split; [exact Re|]. split; [lra|]. split; [lra|].
    cbn [pow]. apply Rmult_le_pos; [lra|exact HN].
  - remember (e0 :: l') as j eqn:Ej. assert (KN : j <> []) by (subst; discriminate). destruct (fwelford_all j (0%Qc, O, 0%Qc)) as [[m0 n0] m20] eqn:EF. destruct (welford_all (map snd j) (0%Qc, O, 0%Qc)) as [[mu0 k0] s0] eqn:EX.
    rewrite app_length in LN |- *. cbn [List.length] in LN |- *.
    destruct (IH KN ltac:(lia) (fun x I => DB x (in_or_app _ _ _ (or_introl I))) (fun x I => RG x (in_or_app _ _ _ (or_introl I))) m0 n0 m20 mu0 k0 s0 eq_refl eq_refl) as (L & K & Fm & F2 & RM & RMU & EM & [S0 S1] & EV).
    assert (C : (1 <= n0)%nat) by (rewrite L, Ej; cbn; lia). subst k0. rewrite <- L in *. rewrite exact_step in X. injection X as X1 X2 X3. clear IH L.
    destruct (step_safe _ _ _ _ _ _ _ _ E C (F_double _ Fe) Fm F2) as (-> & Fm' & F2' & BT & G).
    set (x := q2r (snd e)) in *.
    assert (MU' : q2r mu = q2r mu0 + (x - q2r mu0) * / INR (S n0)) by (rewrite <- X1, q2r_plus, q2r_div, q2r_minus, q2r_qn by apply qn_S0; reflexivity).
    assert (S' : q2r s = q2r s0 + (x - q2r mu0) * (x - q2r mu)) by (rewrite <- X3, X1, q2r_plus, q2r_mult, !q2r_minus; reflexivity).
    pose proof (half_inv _ (INR2 (S n0) ltac:(lia))) as I.
    assert (BMU : btw (q2r mu0) (q2r mu) x) by (rewrite MU'; unfold btw; destruct (Rle_or_lt (q2r mu0) x); [left|right]; nra).
    pose proof (btw_bounds _ _ _ _ _ BT RM Re) as RM'. pose proof (btw_bounds _ _ _ _ _ BMU RMU Re) as RMU'.
    assert (HD : Rabs (x - q2r m0) <= D) by (apply Rabs_le; unfold D; lra). assert (HMU : Rabs (x - q2r mu) <= D) by (apply Rabs_le; unfold D; lra).
    assert (NN : (Z.of_nat (S n0) <= 2 ^ 53)%Z) by lia.
    pose proof (mean_error _ _ _ _ _ _ _ _ D B E C NN (F_double _ Fe) Fm F2 HD (HB _ Re) (HB _ RM)) as ME. fold x in ME.
    assert (n1 : 1 <= INR n0) by (change 1 with (INR 1); now apply le_INR). assert (SI : INR (S n0) = INR n0 + 1) by apply S_INR.
    set (i := / INR (S n0)) in *. assert (Ii : INR (S n0) * i = 1) by (unfold i; apply Rinv_r; lra).
    assert (EM' : INR (S n0) * Rabs (q2r m - q2r mu) <= 4 * u * D * INR (S n0) + (INR (S n0) * (INR (S n0) + 1) / 2) * (u * B + 2 * t)).
    { assert (A : Rabs (q2r m - q2r mu) <= (4 * u * D * i + (u * B + 2 * t)) + Rabs (q2r m0 - q2r mu0) * (1 - i)).
      { rewrite MU'. replace (q2r m - (q2r mu0 + (x - q2r mu0) * i)) with ((q2r m - (q2r m0 + (x - q2r m0) * i)) + (q2r m0 - q2r mu0) * (1 - i)) by ring. apply abs_add; [exact ME|]. rewrite Rabs_mult, (Rabs_pos_eq (1 - i)) by lra. lra. }
      apply Rle_trans with (INR (S n0) * ((4 * u * D * i + (u * B + 2 * t)) + Rabs (q2r m0 - q2r mu0) * (1 - i))); [apply Rmult_le_compat_l; lra|].
      replace (INR (S n0) * (4 * u * D * i + (u * B + 2 * t) + Rabs (q2r m0 - q2r mu0) * (1 - i))) with (4 * u * D * (INR (S n0) * i) + INR (S n0) * (u * B + 2 * t) + Rabs (q2r m0 - q2r mu0) * (INR (S n0) - INR (S n0) * i)) by ring. rewrite Ii.
      rewrite SI. replace (INR n0 + 1 - 1) with (INR n0) by ring. lra. }
    assert (EN : forall c a, (1 <= c)%nat -> (c <= N)%nat -> INR c * a <= 4 * u * D * INR c + (INR c * (INR c + 1) / 2) * (u * B + 2 * t) -> a <= E_ D B N).
    { intros c a C1 CN H. assert (c1 : 1 <= INR c) by (change 1 with (INR 1); now apply le_INR). assert (cn : INR c <= INR N) by now apply le_INR.
      apply Rle_trans with (E_ D B c); unfold E_; [|assert ((INR c + 1) / 2 * (u * B + 2 * t) <= (INR N + 1) / 2 * (u * B + 2 * t)) by (apply Rmult_le_compat_r; lra); lra].
      apply Rmult_le_reg_l with (INR c); [lra|]. lra. }
    destruct (square_error _ _ _ _ _ _ _ _ D (E_ D B N) (q2r mu0) (q2r mu) E C NN (F_double _ Fe) Fm F2 HD MU' HMU (EN n0 _ C ltac:(lia) EM) (EN (S n0) _ ltac:(lia) ltac:(lia) EM')) as (p & P1 & P2). fold x in P2.
    split; [lia|]. split; [rewrite <- X2; lia|]. split; [exact Fm'|]. split; [exact F2'|]. split; [exact RM'|]. split; [exact RMU'|]. split; [exact EM'|].
    assert (T0 : 0 <= (x - q2r mu0) * (x - q2r mu)) by (unfold btw in BMU; nra).
    assert (T1 : (x - q2r mu0) * (x - q2r mu) <= D * D). { apply Rle_trans with (1 := Rle_abs _). apply abs_mul; [apply Rabs_le; unfold D; lra|exact HMU]. }
    assert (SB : 0 <= q2r s <= INR (S n0) * (D * D)) by (rewrite S', SI; lra). split; [exact SB|].
    set (T := (x - q2r mu0) * (x - q2r mu)) in *. set (f := INR n0 * (1 + u) ^ n0 * H_ D B N) in *.
    set (h := 3 * D * (E_ D B N + 5 * u * D + t) + 2 * u * D * D + t) in *. assert (h0 : 0 <= h) by (unfold h; lra).
    assert (A1 : Rabs (q2r m20 + p - q2r s) <= f + h). { rewrite S'. replace (q2r m20 + p - (q2r s0 + T)) with ((q2r m20 - q2r s0) + (p - T)) by ring. now apply abs_add. }
    assert (A2 : Rabs (q2r m20 + p) <= f + h + INR N * (D * D)).
    { replace (q2r m20 + p) with ((q2r m20 + p - q2r s) + q2r s) by ring. apply abs_add; [exact A1|]. rewrite Rabs_pos_eq by lra. apply Rle_trans with (1 := proj2 SB). apply Rmult_le_compat_r; [exact DD|]. apply le_INR. lia. }
    assert (A3 : Rabs (q2r m2 - q2r s) <= (1 + u) * (f + h) + u * INR N * D * D + t).
    { rewrite P1. replace (rnd (q2r m20 + p) - q2r s) with ((rnd (q2r m20 + p) - (q2r m20 + p)) + (q2r m20 + p - q2r s)) by ring. eapply Rle_trans; [eapply abs_add; [apply rnd_err|exact A1]|].
      assert (u * Rabs (q2r m20 + p) <= u * (f + h + INR N * (D * D))) by (apply Rmult_le_compat_l; lra). lra. }
    apply Rle_trans with (1 := A3). set (g := u * INR N * D * D + t) in *. assert (g0 : 0 <= g) by (unfold g; lra). assert (HE : H_ D B N = h + g) by (unfold H_, h, g; ring).
    assert (PW : 1 <= (1 + u) ^ n0) by (apply pow_R1_Rle; lra). rewrite SI. change ((1 + u) ^ S n0) with ((1 + u) * (1 + u) ^ n0). set (w := (1 + u) ^ n0) in *.
    assert (W1 : 1 <= (1 + u) * w) by nra. assert (HG : h + g <= (1 + u) * w * (h + g)) by nra. assert (G1 : g <= (1 + u) * g) by nra.
    apply Rle_trans with ((1 + u) * (f + (h + g))); [unfold g in *; lra|]. unfold f. rewrite HE in *.
    replace ((INR n0 + 1) * ((1 + u) * w) * (h + g)) with ((1 + u) * (INR n0 * w * (h + g) + w * (h + g))) by ring. apply Rmult_le_compat_l; [lra|]. assert (h + g <= w * (h + g)) by nra. lra.
Qed.
End Run.
Lemma pow_u : forall n, (Z.of_nat n <= 2 ^ 52)%Z -> (1 + u) ^ n <= 1 + 2 * INR n * u.
Proof.
  pose proof u_pos as U. induction n as [|n IH]; intros H; [cbn; lra|]. specialize (IH ltac:(lia)). cbn [pow]. rewrite S_INR.
  assert (K : 2 * INR n * u <= 1). { assert (INR n <= bpow radix2 52). { rewrite INR_IZR_INZ. change (bpow radix2 52) with (IZR (2 ^ 52)). apply IZR_le. lia. } assert (2 * bpow radix2 52 * u = 1) by (change 2 with (bpow radix2 1); unfold u; rewrite <- !bpow_plus; reflexivity). nra. }
  apply Rle_trans with ((1 + u) * (1 + 2 * INR n * u)); [apply Rmult_le_compat_l; lra|]. nra.
Qed.
Lemma pow_u2 : forall n, (Z.of_nat n <= 2 ^ 52)%Z -> (1 + u) ^ n <= 2.
Proof.
  intros n H. apply Rle_trans with (1 := pow_u n H). pose proof u_pos. assert (INR n <= bpow radix2 52). { rewrite INR_IZR_INZ. change (bpow radix2 52) with (IZR (2 ^ 52)). apply IZR_le. lia. } assert (2 * bpow radix2 52 * u = 1) by (change 2 with (bpow radix2 1); unfold u; rewrite <- !bpow_plus; reflexivity). nra.
Qed.
