(** The vertex of the parabola through three samples, in double precision, in R. *)
From Coq Require Import ZArith Reals Lia.
From Flocq Require Import Core Sterbenz.
From Verif.Stats Require Import ProofsWelfordFloat.
From Coq Require Import Lra.
Local Open Scope R_scope.
Local Instance P53 : Prec_gt_0 53.
Proof. reflexivity. Qed.
Local Instance V53 : Valid_exp fx.
Proof. apply FLT_exp_valid. reflexivity. Qed.
Local Instance M53 : Monotone_exp fx.
Proof. apply FLT_exp_monotone. Qed.

(** ** Numbers that stay clear of underflow *)
Definition G (x : R) : Prop := exists m e : Z, x = IZR m * bpow radix2 e /\ (Z.abs m < 2 ^ 53)%Z /\ (-1000 <= e)%Z.
Lemma F_dyadic : forall m e, (Z.abs m < 2 ^ 53)%Z -> (-1074 <= e)%Z -> F (IZR m * bpow radix2 e).
Proof. intros m e M E. apply generic_format_FLT. exists (Float radix2 m e); auto. Qed.
Lemma G_F : forall x, G x -> F x.
Proof. intros x (m & e & -> & M & E). apply F_dyadic; auto. lia. Qed.
Lemma G_scale : forall x k, (-70 <= k)%Z -> G x -> F (x * bpow radix2 k).
Proof. intros x k K (m & e & -> & M & E). rewrite Rmult_assoc, <- bpow_plus. apply F_dyadic; auto. lia. Qed.
Lemma G_double : forall x, G x -> G (2 * x).
Proof. intros x (m & e & -> & M & E). exists m, (e + 1)%Z. split; [|split; [auto|lia]]. rewrite bpow_plus. change (bpow radix2 1) with 2. ring. Qed.
Lemma G_opp : forall x, G x -> G (- x).
Proof. intros x (m & e & -> & M & E). exists (- m)%Z, e. rewrite opp_IZR. split; [ring|]. split; [lia|auto]. Qed.
Lemma F_large : forall x, F x -> bpow radix2 (-947) <= Rabs x -> G x.
Proof.
  intros x FX L. apply FLT_format_generic in FX; [|exact P53]. destruct FX as [[m e] E M EX]. cbn in M, EX. unfold F2R in E. cbn in E.
  exists m, e. split; auto. split; auto. destruct (Z_lt_le_dec e (-1000)) as [C|C]; auto. exfalso.
  assert (Rabs x < bpow radix2 (-947)); [|lra]. rewrite E, Rabs_mult, (Rabs_pos_eq (bpow radix2 e)) by apply bpow_ge_0.
  apply Rlt_le_trans with (bpow radix2 53 * bpow radix2 e).
  - apply Rmult_lt_compat_r; [apply bpow_gt_0|]. rewrite <- abs_IZR. change (bpow radix2 53) with (IZR (2 ^ 53)). now apply IZR_lt.
  - rewrite <- bpow_plus. apply bpow_le. lia.
Qed.
Lemma G_usual : forall x, F x -> x = 0 \/ bpow radix2 (-900) <= Rabs x -> G x.
Proof.
  intros x FX [->|L]; [exists 0%Z, 0%Z; split; [ring|split; [reflexivity|lia]]|]. apply F_large; auto. eapply Rle_trans; [|exact L]. apply bpow_le. lia.
Qed.
(** Multiples of 2^-1000 *)
Lemma G_multiple : forall x, G x -> exists m, x = IZR m * bpow radix2 (-1000).
Proof.
  intros x (m & e & -> & _ & E). exists (m * 2 ^ (e + 1000))%Z. rewrite mult_IZR, (IZR_Zpower radix2) by lia. rewrite Rmult_assoc, <- bpow_plus. f_equal. f_equal. lia.
Qed.
Lemma G_rnd : forall m, G (rnd (IZR m * bpow radix2 (-1000))).
Proof.
  intros m. destruct (Z_lt_le_dec (Z.abs m) (2 ^ 53)) as [S|S].
  - rewrite rnd_id by (apply F_dyadic; auto; lia). exists m, (-1000)%Z. split; auto. split; auto. lia.
  - apply F_large; [apply rnd_F|]. assert (bpow radix2 (-947) <= Rabs (IZR m * bpow radix2 (-1000))) as L.
    { rewrite Rabs_mult, (Rabs_pos_eq (bpow _ _)) by apply bpow_ge_0. replace (-947)%Z with (53 + -1000)%Z by lia. rewrite bpow_plus. apply Rmult_le_compat_r; [apply bpow_ge_0|].
      rewrite <- abs_IZR. change (bpow radix2 53) with (IZR (2 ^ 53)). now apply IZR_le. }
    apply abs_round_ge_generic; auto; [exact V53|apply valid_rnd_N|]. apply generic_format_bpow. unfold fx, FLT_exp. lia.
Qed.
Lemma G_minus : forall x y, G x -> G y -> G (rnd (x - y)).
Proof.
  intros x y GX GY. apply G_multiple in GX as [m ->]. apply G_multiple in GY as [n ->]. rewrite <- Rmult_minus_distr_r, <- minus_IZR. apply G_rnd.
Qed.
Lemma G_plus : forall x y, G x -> G y -> G (rnd (x + y)).
Proof. intros x y GX GY. replace (x + y) with (x - - y) by ring. apply G_minus; auto. now apply G_opp. Qed.
Lemma rnd_zero : forall x y, F x -> F y -> rnd (x - y) = 0 -> x = y.
Proof.
  intros x y FX FY E. pose proof (rnd_minus x y FX FY) as H. rewrite E in H. replace (0 - (x - y)) with (- (x - y)) in H by ring. rewrite Rabs_Ropp in H.
  pose proof u_small. pose proof (Rabs_pos (x - y)). assert (Rabs (x - y) = 0) as Z by nra. destruct (Req_dec (x - y) 0) as [|N]; [lra|]. now apply Rabs_no_R0 in N.
Qed.

(** ** Three samples *)
Section Vertex.
Variables (y0 y1 y2 : R).
Hypotheses (G0 : G y0) (G1 : G y1) (G2 : G y2).
Definition cb : R := rnd (rnd (y0 - rnd (2 * y1)) + y2).
Definition ca : R := rnd (y0 - y2).
Definition ct : R := rnd (rnd (/ 2 * ca) / cb).
Definition ch : R := rnd (y1 - rnd (rnd (/ 2 * / 2 * ca) * ct)).
Let F0 := G_F _ G0.
Let F1 := G_F _ G1.
Let F2 := G_F _ G2.
Lemma twice : rnd (2 * y1) = 2 * y1.
Proof. apply rnd_id, G_F, G_double, G1. Qed.
Lemma G_ca : G ca.
Proof. now apply G_minus. Qed.
Lemma G_u : G (rnd (y0 - 2 * y1)).
Proof. apply G_minus; auto. now apply G_double. Qed.
Lemma G_cb : G cb.
Proof. unfold cb. rewrite twice. apply G_plus; auto. apply G_u. Qed.
Lemma half_ca : rnd (/ 2 * ca) = / 2 * ca.
Proof. apply rnd_id. replace (/ 2 * ca) with (ca * bpow radix2 (-1)) by (change (bpow radix2 (-1)) with (/ 2); ring). apply G_scale; [lia|apply G_ca]. Qed.
Lemma quarter_ca : rnd (/ 2 * / 2 * ca) = / 4 * ca.
Proof.
  replace (/ 2 * / 2 * ca) with (/ 4 * ca) by field. apply rnd_id. replace (/ 4 * ca) with (ca * bpow radix2 (-2)) by (change (bpow radix2 (-2)) with (/ 4); ring). apply G_scale; [lia|apply G_ca].
Qed.
Lemma cb_eq : cb = - rnd (rnd (2 * y1 - y0) - y2).
Proof.
  unfold cb. rewrite twice. replace (y0 - 2 * y1) with (- (2 * y1 - y0)) by ring. rewrite rnd_opp.
  replace (- rnd (2 * y1 - y0) + y2) with (- (rnd (2 * y1 - y0) - y2)) by ring. apply rnd_opp.
Qed.
Lemma ca_eq : ca = - rnd (y2 - y0).
Proof. unfold ca. replace (y0 - y2) with (- (y2 - y0)) by ring. apply rnd_opp. Qed.

Hypotheses (M0 : y0 <= y1) (M2 : y2 <= y1).
Lemma cb_le : cb <= - rnd (y1 - y2).
Proof.
  rewrite cb_eq. apply Ropp_le_contravar. apply rnd_le. assert (y1 <= rnd (2 * y1 - y0)); [|lra].
  rewrite <- (rnd_id y1 F1) at 1. apply rnd_le. lra.
Qed.
Lemma cb_np : cb <= 0.
Proof. pose proof cb_le. assert (0 <= rnd (y1 - y2)); [|lra]. apply rnd_nonneg. lra. Qed.

(** Falling: the neighbour before is the higher one. *)
Lemma falling : y2 <= y0 -> cb <> 0 -> - / 2 <= ct <= 0.
Proof.
  intros D N. pose proof cb_np. pose proof cb_le as B. assert (ca <= - cb) as A.
  { apply Rle_trans with (rnd (y1 - y2)); [|lra]. apply rnd_le. lra. }
  assert (0 <= ca) as A0 by (apply rnd_nonneg; lra). unfold ct. rewrite half_ca. assert (cb < 0) as C by lra.
  split.
  - rewrite <- (rnd_id (- / 2)). 2:{ replace (- / 2) with (IZR (-1) * bpow radix2 (-1)) by (change (bpow radix2 (-1)) with (/ 2); lra). apply F_dyadic; lia. }
    apply rnd_le. replace (/ 2 * ca / cb) with (- (/ 2 * (ca / - cb))) by (field; lra). assert (ca / - cb <= 1); [|lra].
    apply Rmult_le_reg_r with (- cb); [lra|]. unfold Rdiv. rewrite Rmult_assoc, Rinv_l by lra. lra.
  - rewrite <- rnd_0. apply rnd_le. replace (/ 2 * ca / cb) with (- (/ 2 * (ca / - cb))) by (field; lra). assert (0 <= ca / - cb); [|lra].
    unfold Rdiv. apply Rmult_le_pos; auto. apply Rlt_le, Rinv_0_lt_compat. lra.
Qed.

(** Rising: either the curvature is at least the difference, or it is accurate. *)
Lemma rising_b : y0 <= y2 -> y2 < y1 -> - ca <= - cb * (1 + 5 * u).
Proof.
  intros D L. set (X := 2 * y1 - y0). set (U := rnd X). rewrite cb_eq, ca_eq. fold X. fold U. rewrite !Ropp_involutive.
  pose proof u_small as US. pose proof u_pos as UP.
  assert (Rabs (U - X) <= u * Rabs X) as E. { apply rnd_minus; auto. apply G_F, G_double, G1. }
  assert (rnd (y2 - y0) <= rnd (U - y2) -> rnd (y2 - y0) <= rnd (U - y2) * (1 + 5 * u)) as EASY.
  { intros A. assert (0 <= rnd (y2 - y0)) by (apply rnd_nonneg; lra). nra. }
  destruct (Rle_dec (y2 - y0) (U - y2)) as [C|C]; [apply EASY, rnd_le; lra|]. apply Rnot_le_lt in C.
  assert (X - U > 2 * (y1 - y2)) as C' by (unfold X in *; lra). clear C EASY.
  assert (0 < X) as XP.
  { destruct (Rlt_le_dec 0 X) as [|XN]; auto. exfalso. assert (F X) as FX.
    { unfold X. replace (2 * y1 - y0) with (- y0 - - (2 * y1)) by ring. apply sterbenz; auto.
      - exact V53.
      - exact M53.
      - now apply F_opp.
      - apply F_opp, G_F, G_double, G1.
      - unfold X in XN. split; lra. }
    unfold U in C'. rewrite rnd_id in C' by exact FX. lra. }
  rewrite (Rabs_pos_eq X) in E by lra. apply Rabs_le_inv in E.
  assert (y2 <= X / 2) as Y2.
  { destruct (Rle_dec y2 (X / 2)) as [|N]; auto. exfalso. apply Rnot_le_lt in N.
    assert (y2 + ulp radix2 fx y2 <= y1) as S. { rewrite <- succ_eq_pos by lra. apply succ_le_lt; auto. exact V53. }
    pose proof (ulp_FLT_gt radix2 (-1074) 53 y2) as W. change (FLT_exp (-1074) 53) with fx in W. rewrite (Rabs_pos_eq y2) in W by lra. change (bpow radix2 (- (53))) with u in W. nra. }
  set (a := y2 - y0) in *. assert (a >= X / 2 - u * X) as A by (unfold a, X in *; lra).
  assert (U - y2 >= a - u * X) as B by (unfold a, X in *; lra).
  assert (u * X <= 2 * u * a * (1 + 3 * u)) as XA. { assert (X <= 2 * a * (1 + 3 * u)); [|nra]. assert (X * (1 / 2 - u) <= a) by lra. nra. }
  assert (0 < a) as AP by nra.
  pose proof (rnd_minus y2 y0 F2 F0) as R1. fold a in R1. rewrite (Rabs_pos_eq a) in R1 by lra. apply Rabs_le_inv in R1.
  assert (F U) as FU by apply rnd_F. pose proof (rnd_minus U y2 FU F2) as R2. assert (0 <= U - y2) by nra. rewrite (Rabs_pos_eq (U - y2)) in R2 by auto. apply Rabs_le_inv in R2.
  assert (u * u <= u * / 1024) as UU by nra.
  assert (rnd a <= a * (1 + u)) by lra.
  assert (a * (1 - 2 * u * (1 + 3 * u)) <= U - y2) as B2 by lra.
  assert ((U - y2) * (1 - u) <= rnd (U - y2)) by lra.
  assert (a * ((1 - 2 * u * (1 + 3 * u)) * (1 - u)) <= rnd (U - y2)) as B3. { apply Rle_trans with ((U - y2) * (1 - u)); auto. rewrite <- Rmult_assoc. apply Rmult_le_compat_r; [lra|auto]. }
  assert (1 + u <= (1 - 2 * u * (1 + 3 * u)) * (1 - u) * (1 + 5 * u)) as K.
  { replace ((1 - 2 * u * (1 + 3 * u)) * (1 - u) * (1 + 5 * u)) with (1 + u + (u - 19 * (u * u) - 14 * (u * u * u) + 30 * (u * u * u * u))) by ring.
    assert (u * u * u <= u * / 1024) by nra. assert (0 <= u * u * u * u) by (repeat apply Rmult_le_pos; lra). lra. }
  apply Rle_trans with (a * (1 + u)); auto. apply Rle_trans with (a * ((1 - 2 * u * (1 + 3 * u)) * (1 - u) * (1 + 5 * u))); [apply Rmult_le_compat_l; lra|].
  rewrite <- Rmult_assoc. apply Rmult_le_compat_r; lra.
Qed.
Lemma strict_nonzero : y0 < y1 -> y2 < y1 -> cb <> 0.
Proof.
  intros L0 L2 E. destruct (Rle_dec y2 y0) as [D|D].
  - pose proof cb_le as B. rewrite E in B. assert (0 <= rnd (y1 - y2)) by (apply rnd_nonneg; lra). assert (rnd (y1 - y2) = 0) as Z by lra. apply rnd_zero in Z; auto. lra.
  - pose proof (rising_b ltac:(lra) L2) as B. rewrite E in B. rewrite ca_eq in B. assert (0 <= rnd (y2 - y0)) by (apply rnd_nonneg; lra). assert (rnd (y2 - y0) = 0) as Z by lra. apply rnd_zero in Z; auto. lra.
Qed.
Lemma rising : y0 <= y2 -> y2 < y1 -> cb <> 0 -> 0 <= ct <= / 2 + 7 / 2 * u.
Proof.
  intros D L N. pose proof cb_np. pose proof (rising_b D L) as B. unfold ct. rewrite half_ca. pose proof u_small as US. pose proof u_pos as UP.
  assert (ca <= 0) as A0 by (rewrite ca_eq; assert (0 <= rnd (y2 - y0)) by (apply rnd_nonneg; lra); lra). assert (cb < 0) as C by lra.
  replace (/ 2 * ca / cb) with (/ 2 * (- ca / - cb)) by (field; lra).
  assert (0 <= - ca / - cb) as Q0. { unfold Rdiv. apply Rmult_le_pos; [lra|]. apply Rlt_le, Rinv_0_lt_compat. lra. }
  assert (- ca / - cb <= 1 + 5 * u) as Q1. { apply Rmult_le_reg_r with (- cb); [lra|]. unfold Rdiv. rewrite Rmult_assoc, Rinv_l by lra. lra. }
  split; [apply rnd_nonneg; lra|]. pose proof (rnd_err (/ 2 * (- ca / - cb))) as E. rewrite (Rabs_pos_eq (/ 2 * _)) in E by lra. apply Rabs_le_inv in E.
  assert (t <= u * / 16). { apply t_u. change (/ 16) with (bpow radix2 (-4)). apply bpow_le. lia. } assert (u * u <= u * / 1024) by nra. nra.
Qed.

(** The interpolated height is not below the sample. *)
Lemma height : cb <> 0 -> y1 <= ch.
Proof.
  intros N. pose proof cb_np. unfold ch, ct. rewrite half_ca, quarter_ca. rewrite <- (rnd_id y1 F1) at 1. apply rnd_le.
  assert (rnd (/ 4 * ca * rnd (/ 2 * ca / cb)) <= 0); [|lra]. apply Rle_trans with (rnd 0); [|apply Req_le, rnd_0]. apply rnd_le. assert (cb < 0) as C by lra.
  assert (/ cb < 0) as I by (now apply Rinv_lt_0_compat). destruct (Rle_dec 0 ca) as [A|A].
  - assert (rnd (/ 2 * ca / cb) <= 0). { rewrite <- rnd_0. apply rnd_le. unfold Rdiv. nra. } nra.
  - apply Rnot_le_lt in A. assert (0 <= rnd (/ 2 * ca / cb)). { apply rnd_nonneg. unfold Rdiv. nra. } nra.
Qed.

(** The time as computed and the vertex itself. *)
Lemma accuracy : forall M, 0 < M -> Rabs y0 <= M -> Rabs y1 <= M -> Rabs y2 <= M -> let b := y0 - 2 * y1 + y2 in
  32 * u * M <= - b -> Rabs (ct - / 2 * (y0 - y2) / b) <= 12 * u * (M / - b).
Proof.
  intros M MP A0 A1 A2 b KB. pose proof u_small as US. pose proof u_pos as UP. apply Rabs_le_inv in A0, A1, A2.
  assert (0 < - b) as BP by nra.
  assert (Rabs (rnd (y0 - 2 * y1) - (y0 - 2 * y1)) <= u * (3 * M)) as E1.
  { eapply Rle_trans; [apply rnd_minus; auto; apply G_F, G_double, G1|]. apply Rmult_le_compat_l; [lra|]. apply Rabs_le. lra. }
  assert (Rabs (cb - (rnd (y0 - 2 * y1) + y2)) <= u * (5 * M)) as E2.
  { unfold cb. rewrite twice. replace (rnd (y0 - 2 * y1) + y2) with (rnd (y0 - 2 * y1) - - y2) by ring. eapply Rle_trans; [apply rnd_minus; [apply rnd_F|now apply F_opp]|].
    apply Rmult_le_compat_l; [lra|]. apply Rabs_le. apply Rabs_le_inv in E1. nra. }
  assert (Rabs (ca - (y0 - y2)) <= u * (2 * M)) as E3. { eapply Rle_trans; [now apply rnd_minus|]. apply Rmult_le_compat_l; [lra|]. apply Rabs_le. lra. }
  assert (Rabs (cb - b) <= 8 * u * M) as EB. { apply Rabs_le_inv in E1, E2. apply Rabs_le. unfold b. lra. } clear E1 E2.
  set (a := y0 - y2) in *. assert (Rabs a <= - b) as AB. { apply Rabs_le. unfold a, b in *. lra. }
  assert (3 / 4 * - b <= - cb) as CB. { apply Rabs_le_inv in EB. lra. }
  assert (cb <> 0) as NZ by lra. assert (b <> 0) as NB by lra.
  unfold ct. rewrite half_ca. set (x := / 2 * ca / cb). set (r := M / - b).
  assert (0 < r) as RP by (unfold r, Rdiv; apply Rmult_lt_0_compat; auto; apply Rinv_0_lt_compat; auto).
  assert (1 / 4 <= r) as R4. { unfold r. apply Rmult_le_reg_r with (- b); auto. unfold Rdiv. rewrite (Rmult_assoc M), Rinv_l by lra. unfold b. lra. }
  assert (Rabs (x - / 2 * a / b) <= 20 / 3 * u * r) as EX.
  { replace (x - / 2 * a / b) with (/ 2 * ((ca - a) - (cb - b) * (a / b)) / cb) by (unfold x; field; auto).
    unfold Rdiv at 1. rewrite !Rabs_mult, (Rabs_pos_eq (/ 2)) by lra. rewrite (Rabs_left1 (/ cb)) by (apply Rlt_le, Rinv_lt_0_compat; lra).
    assert (Rabs (ca - a - (cb - b) * (a / b)) <= 10 * u * M) as T.
    { eapply Rle_trans; [apply Rabs_triang|]. rewrite Rabs_Ropp, Rabs_mult. assert (Rabs (a / b) <= 1).
      { unfold Rdiv. rewrite Rabs_mult, Rabs_inv, (Rabs_left1 b) by lra. apply Rmult_le_reg_r with (- b); auto. rewrite Rmult_assoc, Rinv_l by lra. lra. }
      assert (Rabs (cb - b) * Rabs (a / b) <= 8 * u * M * 1) by (apply Rmult_le_compat; auto; apply Rabs_pos). lra. }
    assert (- / cb <= 4 / 3 * / - b) as I. { replace (- / cb) with (/ - cb) by (field; lra). replace (4 / 3 * / - b) with (/ (3 / 4 * - b)) by (field; lra). apply Rinv_le; lra. }
    assert (0 <= - / cb). { assert (/ cb < 0) by (apply Rinv_lt_0_compat; lra). lra. }
    apply Rle_trans with (/ 2 * (10 * u * M) * (4 / 3 * / - b)).
    - apply Rmult_le_compat; auto. apply Rmult_le_pos; [lra|apply Rabs_pos]. apply Rmult_le_compat_l; [lra|auto].
    - apply Req_le. unfold r. field. lra. }
  assert (Rabs (/ 2 * a / b) <= / 2) as VB.
  { unfold Rdiv. rewrite !Rabs_mult, (Rabs_pos_eq (/ 2)), Rabs_inv, (Rabs_left1 b) by lra. rewrite Rmult_assoc. rewrite <- (Rmult_1_r (/ 2)) at 2. apply Rmult_le_compat_l; [lra|].
    apply Rmult_le_reg_r with (- b); auto. rewrite Rmult_assoc, Rinv_l by lra. lra. }
  pose proof (rnd_err x) as ER. assert (t <= u * / 16) as TT. { apply t_u. change (/ 16) with (bpow radix2 (-4)). apply bpow_le. lia. }
  assert (u * r <= / 32) as UR. { unfold r. apply Rmult_le_reg_r with (- b); auto. unfold Rdiv. replace (u * (M * / - b) * - b) with (u * M) by (field; lra). lra. }
  assert (Rabs x <= 1) as XB. { replace x with ((x - / 2 * a / b) + / 2 * a / b) by ring. eapply Rle_trans; [apply Rabs_triang|]. lra. }
  replace (rnd x - / 2 * a / b) with ((rnd x - x) + (x - / 2 * a / b)) by ring. eapply Rle_trans; [apply Rabs_triang|]. assert (u * Rabs x <= u * 1) by (apply Rmult_le_compat_l; lra).
  assert (u <= 4 * u * r) by nra. nra.
Qed.
End Vertex.

(** ** The time in the waveform: adding the number of the sample *)
Lemma F_half : forall p, (Z.abs p < 2 ^ 51)%Z -> F (IZR p + / 2) /\ F (IZR p - / 2).
Proof.
  intros p P. split.
  - replace (IZR p + / 2) with (IZR (2 * p + 1) * bpow radix2 (-1)) by (rewrite plus_IZR, mult_IZR; change (bpow radix2 (-1)) with (/ 2); lra). apply F_dyadic; lia.
  - replace (IZR p - / 2) with (IZR (2 * p - 1) * bpow radix2 (-1)) by (rewrite minus_IZR, mult_IZR; change (bpow radix2 (-1)) with (/ 2); lra). apply F_dyadic; lia.
Qed.
Lemma F_int : forall p, (Z.abs p < 2 ^ 53)%Z -> F (IZR p).
Proof. intros p P. replace (IZR p) with (IZR p * bpow radix2 0) by (cbn; ring). apply F_dyadic; lia. Qed.
Lemma before_half : forall p x, (4 <= p < 2 ^ 51)%Z -> x <= / 2 + 7 / 2 * u -> rnd (x + IZR p) <= IZR p + / 2.
Proof.
  intros p x P X. destruct (F_half p) as [FH _]; [lia|]. assert (4 <= IZR p) as P4 by (apply (IZR_le 4); lia). apply round_N_le_midp; [exact V53|exact FH|].
  rewrite succ_eq_pos by lra. assert (8 * u <= ulp radix2 fx (IZR p + / 2)); [|pose proof u_pos; lra].
  apply Rle_trans with (ulp radix2 fx 4).
  - change 4 with (bpow radix2 2). rewrite ulp_bpow. unfold u. change 8 with (bpow radix2 3). rewrite <- bpow_plus. apply bpow_le. unfold fx, FLT_exp. lia.
  - apply ulp_le; [exact V53|exact M53|]. rewrite !Rabs_pos_eq by lra. lra.
Qed.

(** ** A flat top: the curvature cancels *)
Lemma tie : forall e, (-1000 <= e)%Z -> rnd (bpow radix2 e + bpow radix2 (e - 53)) = bpow radix2 e.
Proof.
  intros e E. set (x := bpow radix2 e + bpow radix2 (e - 53)). assert (0 < bpow radix2 (e - 53) < bpow radix2 e) as B by (split; [apply bpow_gt_0|apply bpow_lt; lia]).
  assert (mag radix2 x = e + 1 :> Z)%Z as MX.
  { apply mag_unique. rewrite Rabs_pos_eq by (unfold x; lra). replace (e + 1 - 1)%Z with e by lia. rewrite bpow_plus. change (bpow radix2 1) with 2. unfold x. lra. }
  unfold rnd, round, scaled_mantissa, cexp. rewrite MX. replace (fx (e + 1)) with (e - 52)%Z by (unfold fx, FLT_exp; lia).
  replace (x * bpow radix2 (- (e - 52))) with (IZR (2 ^ 52) + / 2).
  2:{ unfold x. rewrite Rmult_plus_distr_r, <- !bpow_plus. replace (e + - (e - 52))%Z with 52%Z by lia. replace (e - 53 + - (e - 52))%Z with (-1)%Z by lia. reflexivity. }
  assert (ZnearestE (IZR (2 ^ 52) + / 2) = 2 ^ 52)%Z as ->.
  { unfold Znearest. assert (Zfloor (IZR (2 ^ 52) + / 2) = 2 ^ 52)%Z as ->. { apply Zfloor_imp. rewrite plus_IZR. lra. }
    rewrite Rcompare_Eq by lra. reflexivity. }
  unfold F2R. cbn [Fnum Fexp]. change (IZR (2 ^ 52)) with (bpow radix2 52). rewrite <- bpow_plus. f_equal. lia.
Qed.
Lemma flat_top : forall e, (-900 <= e)%Z -> cb (bpow radix2 e - bpow radix2 (e - 53)) (bpow radix2 e) (bpow radix2 e) = 0.
Proof.
  intros e E. unfold cb. assert (F (2 * bpow radix2 e)) as FD. { replace (2 * bpow radix2 e) with (bpow radix2 (e + 1)) by (rewrite bpow_plus; change (bpow radix2 1) with 2; ring). apply F_pow. lia. }
  rewrite (rnd_id _ FD). replace (bpow radix2 e - bpow radix2 (e - 53) - 2 * bpow radix2 e) with (- (bpow radix2 e + bpow radix2 (e - 53))) by ring.
  rewrite rnd_opp, tie by lia. replace (- bpow radix2 e + bpow radix2 e) with 0 by ring. apply rnd_0.
Qed.
