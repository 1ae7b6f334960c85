(** Signs and errors of one step of Welford's algorithm. *)
From Coq Require Import ZArith QArith Qcanon Reals Lia List.
From Flocq Require Import Core.
From Verif.Base Require Import Num Fl FlFacts.
From Verif.Stats Require Import ModelWelford ModelWelfordFloat ProofsWelfordFloat.
From Coq Require Import Lra.
Import ListNotations.
Local Open Scope R_scope.

Lemma rnd_sign : forall a b, 0 <= a * b -> 0 <= rnd a * rnd b.
Proof.
  intros a b H. destruct (Rle_or_lt 0 a) as [A|A].
  - destruct (Rle_or_lt 0 b) as [B|B]; [apply Rmult_le_pos; now apply rnd_nonneg|].
    assert (a = 0) by nra. subst a. rewrite rnd_0. lra.
  - destruct (Rle_or_lt b 0) as [B|B]; [|assert (b = 0) by nra; subst b; rewrite rnd_0; lra].
    assert (rnd a <= 0) by (rewrite <- rnd_0; apply rnd_le; lra). assert (rnd b <= 0) by (rewrite <- rnd_0; apply rnd_le; lra). nra.
Qed.
Lemma btw_sign : forall a b, btw 0 b a -> 0 <= a * (a - b).
Proof. unfold btw. intros. nra. Qed.
Lemma half_btw : forall a r, 0 <= r <= / 2 -> btw 0 (a * r) a.
Proof. unfold btw. intros a r H. destruct (Rle_or_lt 0 a); [left|right]; nra. Qed.
Lemma btw_abs : forall a b, btw 0 b a -> Rabs (a - b) <= Rabs a.
Proof. unfold btw. intros a b [H|H]; [rewrite !Rabs_pos_eq by lra; lra|rewrite !Rabs_left1 by lra; lra]. Qed.
Lemma rnd_abs_le : forall a b, F b -> Rabs a <= Rabs b -> Rabs (rnd a) <= Rabs b.
Proof.
  intros a b Fb H. apply Rabs_le_inv in H. assert (FB : F (Rabs b)) by (apply generic_format_abs; exact Fb). apply Rabs_le. split.
  - rewrite <- (rnd_id _ FB), <- rnd_opp. now apply rnd_le.
  - rewrite <- (rnd_id _ FB). now apply rnd_le.
Qed.

(** The mean stays between the old mean and the sample, the sum of squares does not decrease. *)
Lemma step_safe : forall w x m c m2 m' c' m2', fwelford w x (m, c, m2) = (m', c', m2') -> (1 <= c)%nat -> F (q2r x) -> F (q2r m) -> F (q2r m2) ->
  c' = S c /\ F (q2r m') /\ F (q2r m2') /\ btw (q2r m) (q2r m') (q2r x) /\ q2r m2 <= q2r m2'.
Proof.
  intros w x m c m2 m' c' m2' E C Fx Fm F2. destruct (shape _ _ _ _ _ _ _ _ E C) as (EC & d2 & (r & [R0 _] & EM) & ED & E2).
  split; [exact EC|]. destruct (step_btw _ _ r Fx Fm R0) as (B1 & B2 & _). set (d := rnd (q2r x - q2r m)) in *.
  assert (FM : F (q2r m')) by (destruct EM as [-> | ->]; apply rnd_F). assert (FM2 : F (q2r m2')) by (destruct E2 as [-> | ->]; apply rnd_F).
  assert (B : btw (q2r m) (q2r m') (q2r x)) by (destruct EM as [-> | ->]; now apply btw_rnd).
  repeat split; try assumption. assert (P : 0 <= d * d2).
  { destruct ED as [-> | (r' & [R1 _] & ED)].
    - apply rnd_sign. unfold btw in B. nra.
    - assert (Fd : F d) by apply rnd_F. destruct (step_btw _ _ r' Fx Fm R1) as (_ & _ & B3). fold d in B3.
      rewrite <- (rnd_id d Fd). destruct ED as [-> | ->]; apply rnd_sign, btw_sign; [now apply half_btw|exact B3]. }
  rewrite <- (rnd_id _ F2). destruct E2 as [-> | ->]; apply rnd_le; [lra|]. pose proof (rnd_nonneg _ P). lra.
Qed.

(** ** Errors *)
Lemma abs_mul : forall a b x y, Rabs a <= x -> Rabs b <= y -> Rabs (a * b) <= x * y.
Proof. intros. rewrite Rabs_mult. apply Rmult_le_compat; try assumption; apply Rabs_pos. Qed.
Lemma abs_add : forall a b x y, Rabs a <= x -> Rabs b <= y -> Rabs (a + b) <= x + y.
Proof. intros. apply Rle_trans with (1 := Rabs_triang _ _). lra. Qed.

Lemma quotient_error : forall x m D n r, F x -> F m -> Rabs (x - m) <= D -> (2 <= n)%nat -> (Z.of_nat n <= 2 ^ 53)%Z -> recip n r ->
  Rabs (rnd (x - m) - (x - m)) <= u * D /\ Rabs (rnd (x - m)) <= (1 + u) * D /\
  Rabs (rnd (x - m) * r - (x - m) * / INR n) <= 3 * u * D * / INR n /\
  Rabs (rnd (rnd (x - m) * r) - (x - m) * / INR n) <= 4 * u * D * / INR n + t.
Proof.
  intros x m D n r Fx Fm HD N2 N53 [R0 R1]. specialize (R1 N53). pose proof (half_inv _ (INR2 n N2)) as I. set (i := / INR n) in *. set (d := rnd (x - m)). set (a := x - m) in *.
  pose proof u_pos as U. pose proof u_small as US. pose proof t_pos as TP. assert (D0 : 0 <= D) by (pose proof (Rabs_pos a); lra).
  assert (A : Rabs (d - a) <= u * D). { apply Rle_trans with (1 := rnd_minus x m Fx Fm). apply Rmult_le_compat_l; [lra|exact HD]. }
  assert (DD : Rabs d <= (1 + u) * D). { replace d with (d - a + a) by ring. replace ((1 + u) * D) with (u * D + D) by ring. now apply abs_add. }
  assert (RI : Rabs r <= (1 + u) * i). { replace r with (r - i + i) by ring. replace ((1 + u) * i) with (u * i + i) by ring. apply abs_add; [exact R1|]. rewrite Rabs_pos_eq; lra. }
  assert (Di : 0 <= D * i) by (apply Rmult_le_pos; lra). assert (uDi : 0 <= u * (D * i)) by (apply Rmult_le_pos; lra).
  assert (u2 : u * (u * (D * i)) <= / 1024 * (u * (D * i))) by (apply Rmult_le_compat_r; lra).
  assert (u3 : u * (u * (u * (D * i))) <= / 1024 * (u * (u * (D * i)))) by (apply Rmult_le_compat_r; [apply Rmult_le_pos; lra|lra]).
  assert (E1 : Rabs (d * r - a * i) <= (u * D) * ((1 + u) * i) + D * (u * i)).
  { replace (d * r - a * i) with ((d - a) * r + a * (r - i)) by ring. apply abs_add; apply abs_mul; assumption. }
  assert (E2 : Rabs (d * r) <= ((1 + u) * D) * ((1 + u) * i)) by (apply abs_mul; assumption).
  repeat split; try assumption.
  - apply Rle_trans with (1 := E1). nra.
  - replace (rnd (d * r) - a * i) with ((rnd (d * r) - d * r) + (d * r - a * i)) by ring. eapply Rle_trans; [eapply abs_add; [apply rnd_err|exact E1]|].
    assert (u * Rabs (d * r) <= u * (((1 + u) * D) * ((1 + u) * i))) by (apply Rmult_le_compat_l; lra). nra.
Qed.

Lemma mean_error : forall w x m c m2 m' c' m2' D B, fwelford w x (m, c, m2) = (m', c', m2') -> (1 <= c)%nat -> (Z.of_nat (S c) <= 2 ^ 53)%Z -> F (q2r x) -> F (q2r m) -> F (q2r m2) ->
  Rabs (q2r x - q2r m) <= D -> Rabs (q2r x) <= B -> Rabs (q2r m) <= B ->
  Rabs (q2r m' - (q2r m + (q2r x - q2r m) * / INR (S c))) <= 4 * u * D * / INR (S c) + (u * B + 2 * t).
Proof.
  intros w x m c m2 m' c' m2' D B E C N53 Fx Fm F2 HD HX HM. destruct (shape _ _ _ _ _ _ _ _ E C) as (EC & d2 & (r & RR & EM) & _).
  destruct (quotient_error (q2r x) (q2r m) D (S c) r Fx Fm HD ltac:(lia) N53 RR) as (_ & _ & Q1 & Q2).
  destruct (step_btw _ _ r Fx Fm (proj1 RR)) as (B1 & B2 & _). set (d := rnd (q2r x - q2r m)) in *. pose proof u_pos as U. pose proof t_pos as TP.
  pose proof (half_inv _ (INR2 (S c) ltac:(lia))) as I. set (i := / INR (S c)) in *. assert (D0 : 0 <= D) by (pose proof (Rabs_pos (q2r x - q2r m)); lra).
  assert (G : forall y, btw (q2r m) (q2r m + y) (q2r x) -> Rabs (y - (q2r x - q2r m) * i) <= 4 * u * D * i + t -> Rabs (rnd (q2r m + y) - (q2r m + (q2r x - q2r m) * i)) <= 4 * u * D * i + (u * B + 2 * t)).
  { intros y BT Y. replace (rnd (q2r m + y) - (q2r m + (q2r x - q2r m) * i)) with ((rnd (q2r m + y) - (q2r m + y)) + (y - (q2r x - q2r m) * i)) by ring.
    eapply Rle_trans; [eapply abs_add; [apply rnd_err|exact Y]|]. assert (Rabs (q2r m + y) <= B) by (apply Rabs_le_inv in HX, HM; apply Rabs_le; unfold btw in BT; lra).
    assert (u * Rabs (q2r m + y) <= u * B) by (apply Rmult_le_compat_l; lra). lra. }
  assert (Di : 0 <= u * D * i) by (repeat apply Rmult_le_pos; lra).
  destruct EM as [-> | ->]; apply G; try assumption. lra.
Qed.

(** The increment of the sum of squares, against the exact one from means [mu], [mu'] near the computed ones. *)
Lemma square_error : forall w x m c m2 m' c' m2' D e mu mu', fwelford w x (m, c, m2) = (m', c', m2') -> (1 <= c)%nat -> (Z.of_nat (S c) <= 2 ^ 53)%Z -> F (q2r x) -> F (q2r m) -> F (q2r m2) ->
  Rabs (q2r x - q2r m) <= D -> mu' = mu + (q2r x - mu) * / INR (S c) -> Rabs (q2r x - mu') <= D -> Rabs (q2r m - mu) <= e -> Rabs (q2r m' - mu') <= e ->
  exists p, q2r m2' = rnd (q2r m2 + p) /\ Rabs (p - (q2r x - mu) * (q2r x - mu')) <= 3 * D * (e + 5 * u * D + t) + 2 * u * D * D + t.
Proof.
  intros w x m c m2 m' c' m2' D e mu mu' E C N53 Fx Fm F2 HD EMU HMU EM EM'.
  destruct (step_safe _ _ _ _ _ _ _ _ E C Fx Fm F2) as (_ & FM' & _ & BT & _).
  destruct (shape _ _ _ _ _ _ _ _ E C) as (EC & d2 & _ & ED & E2). pose proof u_pos as U. pose proof u_small as US. pose proof t_pos as TP.
  pose proof (half_inv _ (INR2 (S c) ltac:(lia))) as I. set (i := / INR (S c)) in *. assert (D0 : 0 <= D) by (pose proof (Rabs_pos (q2r x - q2r m)); lra). assert (e0 : 0 <= e) by (pose proof (Rabs_pos (q2r m - mu)); lra).
  destruct (quotient_error (q2r x) (q2r m) D (S c) _ Fx Fm HD ltac:(lia) N53 (recip_exact (S c) ltac:(lia))) as (A1 & A2 & _).
  set (d := rnd (q2r x - q2r m)) in *. assert (Fd : F d) by apply rnd_F.
  assert (uD0 : 0 <= u * D) by (apply Rmult_le_pos; lra).
  assert (HD' : Rabs (q2r x - q2r m') <= D). { apply Rabs_le. apply Rabs_le_inv in HD. unfold btw in BT. lra. }
  assert (D2 : Rabs (d2 - (q2r x - mu')) <= e + 5 * u * D + t /\ Rabs d2 <= (1 + u) * D).
  { destruct ED as [-> | (r & RR & ED)].
    - pose proof (rnd_minus _ _ Fx FM') as R1. assert (R2 : Rabs (rnd (q2r x - q2r m') - (q2r x - q2r m')) <= u * D) by (apply Rle_trans with (1 := R1); apply Rmult_le_compat_l; lra). split.
      + replace (rnd (q2r x - q2r m') - (q2r x - mu')) with ((rnd (q2r x - q2r m') - (q2r x - q2r m')) + - (q2r m' - mu')) by ring. eapply Rle_trans; [eapply abs_add; [exact R2|rewrite Rabs_Ropp; exact EM']|]. lra.
      + replace (rnd (q2r x - q2r m')) with ((rnd (q2r x - q2r m') - (q2r x - q2r m')) + (q2r x - q2r m')) by ring. eapply Rle_trans; [eapply abs_add; [exact R2|exact HD']|]. lra.
    - destruct (quotient_error (q2r x) (q2r m) D (S c) r Fx Fm HD ltac:(lia) N53 RR) as (_ & _ & Q1 & Q2). destruct (step_btw _ _ r Fx Fm (proj1 RR)) as (_ & _ & B3). fold d i in Q1, Q2, B3.
      assert (G : forall y, btw 0 y d -> Rabs (y - (q2r x - q2r m) * i) <= 4 * u * D * i + t -> Rabs (rnd (d - y) - (d - y)) <= u * Rabs (d - y) + t -> Rabs (y - (q2r x - q2r m) * i) + Rabs (rnd (d - y) - (d - y)) <= (2 * u * D + t) + 2 * u * D ->
                Rabs (rnd (d - y) - (q2r x - mu')) <= e + 5 * u * D + t /\ Rabs (rnd (d - y)) <= (1 + u) * D).
      { intros y BY Y R1 SUM. split.
        - rewrite EMU. replace (rnd (d - y) - (q2r x - (mu + (q2r x - mu) * i))) with ((rnd (d - y) - (d - y)) + (d - (q2r x - q2r m)) + - (y - (q2r x - q2r m) * i) + - ((q2r m - mu) * (1 - i))) by ring.
          assert (M1 : Rabs ((q2r m - mu) * (1 - i)) <= e) by (replace e with (e * 1) by ring; apply abs_mul; [exact EM|rewrite Rabs_pos_eq; lra]).
          eapply Rle_trans; [apply Rabs_triang|]. eapply Rle_trans; [apply Rplus_le_compat_r; apply Rabs_triang|]. eapply Rle_trans; [apply Rplus_le_compat_r, Rplus_le_compat_r; apply Rabs_triang|]. rewrite !Rabs_Ropp. lra.
        - apply Rle_trans with (2 := A2). apply rnd_abs_le; [exact Fd|]. now apply btw_abs. }
      assert (uDi : u * D * i <= u * D * / 2) by (apply Rmult_le_compat_l; lra). assert (u2 : u * ((1 + u) * D) <= u * D * (1 + / 1024)) by (replace (u * ((1 + u) * D)) with (u * D * (1 + u)) by ring; apply Rmult_le_compat_l; lra).
      destruct ED as [-> | ->]; (apply G; [| |apply rnd_err|]).
      + apply half_btw, RR.
      + assert (0 <= u * D * i) by (apply Rmult_le_pos; lra). lra.
      + pose proof (rnd_err (d - d * r)) as R1. pose proof (btw_abs d (d * r) (half_btw d r (proj1 RR))) as R2. assert (u * Rabs (d - d * r) <= u * ((1 + u) * D)) by (apply Rmult_le_compat_l; lra). lra.
      + exact B3.
      + exact Q2.
      + pose proof (rnd_minus d (rnd (d * r)) Fd (rnd_F _)) as R1. pose proof (btw_abs d _ B3) as R2. assert (u * Rabs (d - rnd (d * r)) <= u * ((1 + u) * D)) by (apply Rmult_le_compat_l; lra). lra. }
  destruct D2 as [D2 D2a].
  assert (A3 : Rabs (d - (q2r x - mu)) <= u * D + e). { replace (d - (q2r x - mu)) with ((d - (q2r x - q2r m)) + - (q2r m - mu)) by ring. apply abs_add; [exact A1|now rewrite Rabs_Ropp]. }
  set (G := e + 5 * u * D + t) in *. assert (G0 : 0 <= G) by (unfold G; lra).
  assert (PT : Rabs (d * d2 - (q2r x - mu) * (q2r x - mu')) <= 3 * D * G).
  { replace (d * d2 - (q2r x - mu) * (q2r x - mu')) with (d * (d2 - (q2r x - mu')) + (d - (q2r x - mu)) * (q2r x - mu')) by ring. eapply Rle_trans; [eapply abs_add; [eapply abs_mul; [exact A2|exact D2]|eapply abs_mul; [exact A3|exact HMU]]|].
    assert (DG : 0 <= D * G) by (apply Rmult_le_pos; lra). assert ((u * D + e) * D <= G * D) by (apply Rmult_le_compat_r; unfold G; lra). assert (u * (D * G) <= / 1024 * (D * G)) by (apply Rmult_le_compat_r; lra). nra. }
  assert (DD : 0 <= D * D) by (apply Rmult_le_pos; lra). assert (uDD : 0 <= u * (D * D)) by (apply Rmult_le_pos; lra).
  destruct E2 as [E2|E2]; [exists (d * d2)|exists (rnd (d * d2))]; (split; [exact E2|]).
  - apply Rle_trans with (1 := PT). lra.
  - replace (rnd (d * d2) - (q2r x - mu) * (q2r x - mu')) with ((rnd (d * d2) - d * d2) + (d * d2 - (q2r x - mu) * (q2r x - mu'))) by ring.
    eapply Rle_trans; [eapply abs_add; [apply rnd_err|exact PT]|]. assert (P1 : Rabs (d * d2) <= ((1 + u) * D) * ((1 + u) * D)) by (apply abs_mul; assumption).
    assert (P2 : ((1 + u) * D) * ((1 + u) * D) <= 2 * (D * D)) by (replace (((1 + u) * D) * ((1 + u) * D)) with ((1 + u) * (1 + u) * (D * D)) by ring; apply Rmult_le_compat_r; nra).
    assert (u * Rabs (d * d2) <= u * (2 * (D * D))) by (apply Rmult_le_compat_l; lra). lra.
Qed.
