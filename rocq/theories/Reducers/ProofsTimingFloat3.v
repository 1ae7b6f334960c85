(** Pulse timing in double precision. *)
From Coq Require Import List ZArith QArith Qcanon Qround Bool Arith Reals Lia.
From Verif.Base Require Import Py PyFacts Num Lst Fl FlFacts.
From Verif.WfUtils Require Import Model Proofs.
From Verif.Reducers Require Import Model Proofs Proofs3 ModelTimingFloat ProofsTimingFloat ProofsTimingFloat2.
From Verif.Stats Require Import ProofsWelfordFloat.
From Flocq Require Import Core.
From Coq Require Import Lra.
Import ListNotations.
Local Open Scope list_scope.
Local Open Scope Qc_scope.

(** ** Rounding of rationals *)
Lemma fl64_mono : forall a b, a <= b -> fl64 a <= fl64 b.
Proof. intros a b H. apply q2r_le. apply q2r_le in H. rewrite !fl64_rnd. now apply rnd_le. Qed.
Lemma fl64_0 : fl64 0 = 0.
Proof. reflexivity. Qed.
Lemma fl64_1 : fl64 1 = 1.
Proof. apply Qc_is_canon. vm_compute. reflexivity. Qed.
Lemma fl64_opp : forall a, fl64 (- a) = - fl64 a.
Proof. intros a. apply q2r_eq. rewrite fl64_rnd, !q2r_opp, fl64_rnd. apply rnd_opp. Qed.
Lemma fl64_idem : forall a, fl64 (fl64 a) = fl64 a.
Proof. intros a. now apply fl_idem. Qed.
Lemma fl64_F : forall a, fl64 a = a <-> F (q2r a).
Proof. intros a. split; intros H; [rewrite <- H, fl64_rnd; apply rnd_F|]. apply q2r_eq. rewrite fl64_rnd. now apply rnd_id. Qed.
Lemma fl64_int : forall z, (Z.abs z < 2 ^ 53)%Z -> fl64 (qz z) = qz z.
Proof. intros z H. apply fl_int; [lia|auto]. Qed.
Lemma fl64_pos : forall z, (0 < z)%Z -> 0 < fl64 (qz z).
Proof. intros z H. apply Qclt_le_trans with 1; [reflexivity|]. rewrite <- fl64_1. apply fl64_mono. change 1 with (qz 1). apply (proj1 (qz_le 1 z)). lia. Qed.
Lemma fl64_sub0 : forall a b, fl64 a = a -> fl64 b = b -> fl64 (a - b) = 0 -> a = b.
Proof.
  intros a b A B E. apply fl64_F in A, B. apply q2r_eq. apply rnd_zero; auto. rewrite <- q2r_minus, <- fl64_rnd, E. apply q2r_0.
Qed.

(** ** The function after the choice of the peak sample *)
Definition base64 (w : list Qc) : Qc := f_mean fl64 (pyslice w None (Some 10%Z)).
Definition level64 (c base h : Qc) : Qc := fl64 (base + fl64 (c * h)).
Definition tail64 (rd : Z -> Qc) (base : Qc) (n : nat) (t_pulse h_pulse : Qc) : res pulse :=
    if negb (qleb 0 t_pulse && qltb t_pulse (qn n)) then Ok no_pulse
    else
      let i_pulse := qround t_pulse in
      (do fwhm_r <- f_forward fl64 rd (fl64 (base + fl64 (h_pulse / qz 2))) (Z.to_nat (Z.of_nat n - 1 - i_pulse)) i_pulse;
       do s <- f_backward fl64 rd (fl64 (base + fl64 (h_pulse / qz 2))) (level64 (c90 fl64) base h_pulse) (level64 (c10 fl64) base h_pulse) (Z.to_nat i_pulse) (0, 0, 0);
       let '(fwhm_l, rt_90, rt_10) := s in
       Ok {| p_t := t_pulse; p_h := h_pulse;
             p_fwhm := if negb (qeqb fwhm_r 0) && negb (qeqb fwhm_l 0) then Some (fl64 (fwhm_r - fwhm_l)) else None;
             p_rise := if negb (qeqb rt_90 0) && negb (qeqb rt_10 0) then Some (fl64 (rt_90 - rt_10)) else None;
             p_l := fwhm_l; p_r := fwhm_r; p_10 := rt_10; p_90 := rt_90 |})%py.
Definition at64 (junk : Qc) (w : list Qc) (p : Z) : res pulse :=
  let rd := samples junk w in
  let y0 := rd (p - 1)%Z in let y1 := rd p in let y2 := rd (p + 1)%Z in
  if qeqb (f_b fl64 y0 y1 y2) 0 then Ok no_pulse
  else tail64 rd (base64 w) (List.length w) (fl64 (f_t fl64 y0 y1 y2 + qz p)) (fl64 (f_h fl64 y0 y1 y2 - base64 w)).
Lemma timing64_at : forall junk w s e, f_timing fl64 junk w s e =
  match pyslice w (Some s) (Some e) with [] => Raise ValueError | win => at64 junk w (Z.of_nat (argmax win) + s) end.
Proof.
  intros. cbv beta zeta delta [f_timing at64 tail64 level64 samples base64]. generalize (pyslice w (Some s) (Some e)). intros [|x l]; [reflexivity|].
  generalize (Z.of_nat (argmax (x :: l)) + s)%Z. intros. reflexivity.
Qed.

(** Cases of a result *)
Lemma tail64_cases : forall rd base n t h r, tail64 rd base n t h = Ok r ->
  r = no_pulse \/ (0 <= t /\ t < qn n /\ p_t r = t /\ p_h r = h /\
    exists fr fl r90 r10, f_forward fl64 rd (fl64 (base + fl64 (h / qz 2))) (Z.to_nat (Z.of_nat n - 1 - qround t)) (qround t) = Ok fr /\
      f_backward fl64 rd (fl64 (base + fl64 (h / qz 2))) (level64 (c90 fl64) base h) (level64 (c10 fl64) base h) (Z.to_nat (qround t)) (0, 0, 0) = Ok (fl, r90, r10) /\
      p_l r = fl /\ p_r r = fr /\ p_10 r = r10 /\ p_90 r = r90 /\
      p_fwhm r = (if negb (qeqb fr 0) && negb (qeqb fl 0) then Some (fl64 (fr - fl)) else None) /\
      p_rise r = (if negb (qeqb r90 0) && negb (qeqb r10 0) then Some (fl64 (r90 - r10)) else None)).
Proof.
  intros rd base n t h r E. unfold tail64 in E. cbv zeta in E.
  destruct (qleb_spec 0 t) as [T0|]; cbn [andb negb] in E; [|left; congruence].
  destruct (qltb_spec t (qn n)) as [T1|]; cbn [negb] in E; [|left; congruence]. right. split; auto. split; auto.
  destruct (f_forward _ _ _ _ _) as [fr|] eqn:EF; cbn [bind] in E; [|discriminate]. destruct (f_backward _ _ _ _ _ _ _) as [[[fl r90] r10]|] eqn:EB; cbn [bind] in E; [|discriminate].
  injection E as <-. cbn [p_t p_h p_l p_r p_10 p_90 p_fwhm p_rise]. split; auto. split; auto. exists fr, fl, r90, r10. repeat split; auto.
Qed.
Lemma at64_cases : forall junk w p r, at64 junk w p = Ok r -> r = no_pulse \/
  (f_b fl64 (samples junk w (p - 1)) (samples junk w p) (samples junk w (p + 1)) <> 0 /\
   tail64 (samples junk w) (base64 w) (List.length w) (fl64 (f_t fl64 (samples junk w (p - 1)) (samples junk w p) (samples junk w (p + 1)) + qz p))
     (fl64 (f_h fl64 (samples junk w (p - 1)) (samples junk w p) (samples junk w (p + 1)) - base64 w)) = Ok r).
Proof.
  intros junk w p r. unfold at64. cbv zeta. generalize (f_b fl64 (samples junk w (p - 1)) (samples junk w p) (samples junk w (p + 1))). intros b.
  generalize (tail64 (samples junk w) (base64 w) (List.length w) (fl64 (f_t fl64 (samples junk w (p - 1)) (samples junk w p) (samples junk w (p + 1)) + qz p)) (fl64 (f_h fl64 (samples junk w (p - 1)) (samples junk w p) (samples junk w (p + 1)) - base64 w))). intros q.
  destruct (qeqb_spec b 0) as [Z|N]; intros E; [left; injection E as <-; reflexivity|right; split; assumption].
Qed.

Lemma found0 : forall k, found fl64 k 0.
Proof. now left. Qed.
Lemma qround_le : forall x n, x < qn n -> 0 <= x -> (qround x <= Z.of_nat n)%Z.
Proof.
  intros x n L P. unfold qround. change (Qfloor (this x)) with (Calib.Model.qfloor x). destruct (Calib.Proofs.qfloor_spec x) as [A B].
  assert (Calib.Model.qfloor x < Z.of_nat n)%Z. { apply qz_lt. change (qz (Z.of_nat n)) with (qn n). qlra. }
  destruct (qltb _ half); [lia|]. destruct (qltb half _); [lia|]. destruct (Z.even _); lia.
Qed.

Lemma tail64_fwhm : forall rd base n t h r f, tail64 rd base n t h = Ok r -> p_fwhm r = Some f -> 0 <= f.
Proof.
  intros rd base n t h r f E W. destruct (tail64_cases _ _ _ _ _ _ E) as [->|(T0 & T1 & _ & _ & fr & fl & r90 & r10 & EF & EB & _ & _ & _ & _ & EW & _)]; [injection W as <-; apply Qcle_refl|].
  rewrite EW in W. destruct (qeqb_spec fr 0) as [|NR]; [discriminate|]. destruct (qeqb_spec fl 0) as [|NL]; [discriminate|]. injection W as <-.
  pose proof (qround_nonneg t T0) as RN. apply rnd_nn; [exact fl64_mono|exact fl64_0|].
  destruct (fforward_bound fl64 fl64_mono fl64_0 fl64_1 fl64_idem rd _ _ _ _ EF) as [|[A _]]; [congruence|].
  destruct (fbackward_found fl64 fl64_mono fl64_0 fl64_1 fl64_opp fl64_idem rd _ _ _ _ (Z.to_nat (qround t)) _ _ _ _ _ _ (le_n _) (found0 _) (found0 _) (found0 _) EB) as ([|[_ B]] & _); [congruence|].
  rewrite Z2Nat.id in B by auto. qlra.
Qed.
Lemma tail64_range : forall rd base n t h r, (Z.of_nat n < 2 ^ 53)%Z -> tail64 rd base n t h = Ok r ->
  (0 <= p_l r /\ p_l r <= qn n) /\ (0 <= p_r r /\ p_r r <= qn n) /\ (0 <= p_10 r /\ p_10 r <= qn n) /\ (0 <= p_90 r /\ p_90 r <= qn n).
Proof.
  intros rd base n t h r N E. assert (0 <= qn n) as NN by (apply (proj1 (qz_le 0 _)); lia).
  destruct (tail64_cases _ _ _ _ _ _ E) as [->|(T0 & T1 & _ & _ & fr & fl & r90 & r10 & EF & EB & -> & -> & -> & -> & _)].
  - cbn [p_l p_r p_10 p_90 no_pulse]. repeat split; auto; apply Qcle_refl.
  - pose proof (qround_nonneg t T0) as RN. pose proof (qround_le t n T1 T0) as RL.
    destruct (fbackward_found fl64 fl64_mono fl64_0 fl64_1 fl64_opp fl64_idem rd _ _ _ _ (Z.to_nat (qround t)) _ _ _ _ _ _ (le_n _) (found0 _) (found0 _) (found0 _) EB) as (A & B & C).
    assert (forall x, found fl64 (Z.to_nat (qround t)) x -> 0 <= x /\ x <= qn n) as FB.
    { intros x [->|[P Q]]; [split; auto; apply Qcle_refl|]. split; auto. eapply Qcle_trans; [exact Q|]. rewrite Z2Nat.id by auto. rewrite fl64_int by lia. now apply (proj1 (qz_le _ _)). }
    split; [auto|]. split; [|auto]. destruct (fforward_bound fl64 fl64_mono fl64_0 fl64_1 fl64_idem rd _ _ _ _ EF) as [->|[P Q]]; [split; auto; apply Qcle_refl|]. split.
    + eapply Qcle_trans; [|exact P]. rewrite fl64_int by lia. apply (proj1 (qz_le 0 _)). lia.
    + eapply Qcle_trans; [exact Q|]. assert (qround t + Z.of_nat (Z.to_nat (Z.of_nat n - 1 - qround t)) <= Z.of_nat n)%Z as L by lia. rewrite fl64_int by lia. now apply (proj1 (qz_le _ _)).
Qed.
Lemma c10_c90 : c10 fl64 <= c90 fl64.
Proof. apply fl64_mono. discriminate. Qed.
Lemma level_mono : forall base h, 0 <= h -> level64 (c10 fl64) base h <= level64 (c90 fl64) base h.
Proof.
  intros base h H. unfold level64. apply fl64_mono. assert (fl64 (c10 fl64 * h) <= fl64 (c90 fl64 * h)); [|qlra]. apply fl64_mono. pose proof c10_c90. revert H H0. generalize (c10 fl64) (c90 fl64). intros. qnra.
Qed.
Lemma tail64_rise : forall rd base n t h r v, tail64 rd base n t h = Ok r -> p_rise r = Some v -> 0 <= p_h r ->
  level64 (c90 fl64) base (p_h r) <= rd (qround (p_t r)) -> 0 <= v.
Proof.
  intros rd base n t h r v E W HP L. destruct (tail64_cases _ _ _ _ _ _ E) as [->|(T0 & T1 & ET & EH & fr & fl & r90 & r10 & EF & EB & _ & _ & _ & _ & _ & EW)]; [injection W as <-; apply Qcle_refl|].
  rewrite EW in W. rewrite ET, EH in *. destruct (qeqb_spec r90 0) as [|N9]; [discriminate|]. destruct (qeqb_spec r10 0) as [|N1]; [discriminate|]. injection W as <-.
  pose proof (qround_nonneg t T0) as RN. apply rnd_nn; [exact fl64_mono|exact fl64_0|].
  apply (fbackward_rise fl64 fl64_mono fl64_0 fl64_1 fl64_opp fl64_idem rd fl64_pos) in EB.
  - destruct EB as [[? _]|EB]; [congruence|]. qlra.
  - now apply level_mono.
  - left. rewrite Z2Nat.id by auto. auto.
Qed.
Lemma tail64_ok : forall rd base n t h, (forall i j, fl64 (rd i - rd j) = 0 -> rd i = rd j) -> 0 <= h -> level64 (c90 fl64) base h < rd (qround t) -> exists r, tail64 rd base n t h = Ok r.
Proof.
  intros rd base n t h NZ H L. unfold tail64. cbv zeta. destruct (qleb_spec 0 t) as [T0|]; cbn [andb negb]; [|eauto]. destruct (qltb_spec t (qn n)); cbn [negb]; [|eauto].
  pose proof (qround_nonneg t T0) as RN. assert (fl64 (base + fl64 (h / qz 2)) <= level64 (c90 fl64) base h) as L5.
  { unfold level64. apply fl64_mono. assert (fl64 (h / qz 2) <= fl64 (c90 fl64 * h)); [|qlra]. apply fl64_mono.
    replace (h / qz 2) with (Q2Qc (1 # 2) * h) by (replace (Q2Qc (1 # 2)) with (/ qz 2) by (apply Qc_is_canon; vm_compute; reflexivity); unfold Qcdiv; ring).
    assert (Q2Qc (1 # 2) <= c90 fl64) as C. { unfold c90. replace (Q2Qc (1 # 2)) with (fl64 (Q2Qc (1 # 2))) by (apply Qc_is_canon; vm_compute; reflexivity). apply fl64_mono. discriminate. }
    revert C H. generalize (Q2Qc (1 # 2)) (c90 fl64). intros. qnra. }
  pose proof (level_mono base h H) as L1.
  destruct (fforward_ok fl64 fl64_0 fl64_1 rd NZ (fl64 (base + fl64 (h / qz 2))) (Z.to_nat (Z.of_nat n - 1 - qround t)) (qround t)) as [fr ->]; [qlra|]. cbn [bind].
  assert (forall l, l <= level64 (c90 fl64) base h -> ok_inv rd l (Z.to_nat (qround t)) 0) as OK.
  { intros l LL. destruct (Z.to_nat (qround t)) eqn:K; [now right; right|]. right. left. split; auto. rewrite <- K, Z2Nat.id by auto. qlra. }
  destruct (fbackward_ok fl64 fl64_mono fl64_0 fl64_1 fl64_opp fl64_idem rd fl64_pos NZ (fl64 (base + fl64 (h / qz 2))) (level64 (c90 fl64) base h) (level64 (c10 fl64) base h) (Z.to_nat (qround t)) 0 0 0) as [[[fl r90] r10] ->]; auto.
  - apply OK. apply Qcle_refl.
  - cbn [bind]. eauto.
Qed.

(** ** The vertex *)
Definition usual (x : Qc) : Prop := fl64 x = x /\ (x = 0 \/ two (-900) <= x \/ x <= - two (-900)).
Lemma usual_G : forall x, usual x -> G (q2r x).
Proof.
  intros x [FX U]. apply G_usual; [now apply fl64_F|]. destruct U as [->|U]; [left; apply q2r_0|right]. rewrite <- q2r_two.
  destruct U as [U|U]; apply q2r_le in U; [apply Rle_trans with (1 := U); apply Rle_abs|]. rewrite q2r_opp in U. rewrite <- Rabs_Ropp. eapply Rle_trans; [|apply Rle_abs]. lra.
Qed.
Section Three.
Variables (y0 y1 y2 : Qc).
Lemma b_real : q2r (f_b fl64 y0 y1 y2) = cb (q2r y0) (q2r y1) (q2r y2).
Proof. unfold f_b, cb. rewrite fl64_rnd, q2r_plus, fl64_rnd, q2r_minus, fl64_rnd, q2r_mult, q2r_qz. reflexivity. Qed.
Lemma a_real : q2r (fl64 (y0 - y2)) = ca (q2r y0) (q2r y2).
Proof. unfold ca. now rewrite fl64_rnd, q2r_minus. Qed.
Lemma half_real : q2r half = (/ 2)%R.
Proof. exact q2r_half. Qed.
Lemma t_real : f_b fl64 y0 y1 y2 <> 0 -> q2r (f_t fl64 y0 y1 y2) = ct (q2r y0) (q2r y1) (q2r y2).
Proof. intros N. unfold f_t, ct. rewrite fl64_rnd, q2r_div by auto. rewrite fl64_rnd, q2r_mult, half_real, a_real, b_real. reflexivity. Qed.
Lemma h_real : f_b fl64 y0 y1 y2 <> 0 -> q2r (f_h fl64 y0 y1 y2) = ch (q2r y0) (q2r y1) (q2r y2).
Proof. intros N. unfold f_h, ch. rewrite fl64_rnd, q2r_minus, fl64_rnd, q2r_mult, fl64_rnd, !q2r_mult, half_real, a_real, t_real by auto. reflexivity. Qed.
Lemma b_zero : f_b fl64 y0 y1 y2 = 0 <-> cb (q2r y0) (q2r y1) (q2r y2) = 0%R.
Proof. rewrite <- b_real. split; [intros ->; apply q2r_0|]. intros E. apply q2r_eq. now rewrite E, q2r_0. Qed.
Hypotheses (U0 : usual y0) (U1 : usual y1) (U2 : usual y2) (L0 : y0 <= y1).
Let G0 := usual_G _ U0.
Let G1 := usual_G _ U1.
Let G2 := usual_G _ U2.
Lemma curved : y2 < y1 -> f_b fl64 y0 y1 y2 <> 0.
Proof.
  intros L2 E. apply b_zero in E. pose proof (proj1 (q2r_le _ _) L0) as R0. pose proof (proj1 (q2r_lt _ _) L2) as R2.
  destruct (Rle_dec (q2r y2) (q2r y0)) as [D|D].
  - assert (cb (q2r y0) (q2r y1) (q2r y2) <= - rnd (q2r y1 - q2r y2))%R as B by (apply cb_le; auto; lra). rewrite E in B.
    assert (0 <= rnd (q2r y1 - q2r y2))%R by (apply rnd_nonneg; lra). assert (rnd (q2r y1 - q2r y2) = 0)%R as Z by lra. apply rnd_zero in Z; [lra|now apply G_F|now apply G_F].
  - revert E. apply strict_nonzero; auto; lra.
Qed.
Lemma half_sample : forall p, (4 <= p < 2 ^ 51)%Z -> y2 < y1 ->
  qz p - half <= fl64 (f_t fl64 y0 y1 y2 + qz p) /\ fl64 (f_t fl64 y0 y1 y2 + qz p) <= qz p + half /\
  (y2 <= y0 -> fl64 (f_t fl64 y0 y1 y2 + qz p) <= qz p) /\ (y0 <= y2 -> qz p <= fl64 (f_t fl64 y0 y1 y2 + qz p)).
Proof.
  intros p P L2. pose proof (curved L2) as N. assert (cb (q2r y0) (q2r y1) (q2r y2) <> 0%R) as NR by (rewrite <- b_zero; exact N).
  pose proof (proj1 (q2r_le _ _) L0) as R0. pose proof (proj1 (q2r_lt _ _) L2) as R2. destruct (F_half p ltac:(lia)) as [FP FM]. assert (F (IZR p)) as FI by (apply F_int; lia).
  assert (q2r (fl64 (f_t fl64 y0 y1 y2 + qz p)) = rnd (ct (q2r y0) (q2r y1) (q2r y2) + IZR p)) as T by (rewrite fl64_rnd, q2r_plus, q2r_qz, t_real by auto; reflexivity).
  assert (q2r y2 <= q2r y0 -> - / 2 <= ct (q2r y0) (q2r y1) (q2r y2) <= 0)%R as DN by (intros; apply falling; auto; lra).
  assert (q2r y0 <= q2r y2 -> 0 <= ct (q2r y0) (q2r y1) (q2r y2) <= / 2 + 7 / 2 * u)%R as UPW by (intros; apply rising; auto; lra).
  set (x := ct (q2r y0) (q2r y1) (q2r y2)) in *.
  assert (q2r y2 <= q2r y0 -> rnd (x + IZR p) <= IZR p)%R as D1. { intros H. specialize (DN H). rewrite <- (rnd_id (IZR p)) by auto. rewrite (rnd_id (IZR p)) at 1 by auto. apply rnd_le. lra. }
  assert (q2r y0 <= q2r y2 -> IZR p <= rnd (x + IZR p))%R as D2. { intros H. specialize (UPW H). rewrite <- (rnd_id (IZR p)) at 1 by auto. apply rnd_le. lra. }
  rewrite !q2r_le, !q2r_minus, !q2r_plus, T, q2r_qz, half_real. repeat split; auto.
  - destruct (Rle_dec (q2r y2) (q2r y0)) as [D|D]; [|assert (IZR p <= rnd (x + IZR p))%R by (apply D2; lra); lra].
    specialize (DN D). rewrite <- (rnd_id (IZR p - / 2)) by auto. apply rnd_le. lra.
  - destruct (Rle_dec (q2r y2) (q2r y0)) as [D|D]; [specialize (D1 D); lra|]. apply before_half; [lia|]. apply UPW. lra.
Qed.
Lemma high : forall base, y2 < y1 -> fl64 (y1 - base) <= fl64 (f_h fl64 y0 y1 y2 - base).
Proof.
  intros base L2. pose proof (curved L2) as N. assert (cb (q2r y0) (q2r y1) (q2r y2) <> 0%R) as NR by (rewrite <- b_zero; exact N).
  assert (y1 <= f_h fl64 y0 y1 y2) as H; [|apply fl64_mono; qlra]. apply q2r_le. rewrite h_real by auto. apply q2r_le in L0. apply q2r_lt in L2. apply height; auto. lra.
Qed.
Lemma near : forall p M, (1 <= p)%Z -> y2 < y1 -> 0 < M -> - M <= y0 -> y0 <= M -> - M <= y1 -> y1 <= M -> - M <= y2 -> y2 <= M ->
  let b := y0 - qz 2 * y1 + y2 in let v := qz p + half * (y0 - y2) / b in let e := two (-49) * (M / - b) + two (-52) * qz p in
  two (-48) * M <= - b -> v - e <= fl64 (f_t fl64 y0 y1 y2 + qz p) /\ fl64 (f_t fl64 y0 y1 y2 + qz p) <= v + e.
Proof.
  intros p M P L2 MP A0 A0' A1 A1' A2 A2' b v e KB. pose proof (curved L2) as N.
  assert (b <> 0) as NB. { intro E. rewrite E in KB. change (- 0) with 0 in KB. assert (0 < two (-48)) as TP by reflexivity. revert KB MP TP. generalize (two (-48)). intros. assert (0 < q * M) by qnra. qlra. }
  assert (- b <> 0) as NB' by now apply qopp_nz.
  assert (q2r (- b) = - (q2r y0 - 2 * q2r y1 + q2r y2))%R as BR by (unfold b; rewrite q2r_opp, q2r_plus, q2r_minus, q2r_mult, q2r_qz; reflexivity).
  apply q2r_le in L0, A0, A0', A1, A1', A2, A2', KB. apply q2r_lt in L2, MP. rewrite q2r_opp in A0, A1, A2. rewrite q2r_0 in MP. rewrite q2r_mult, q2r_two, BR in KB.
  assert (bpow radix2 (-48) = 32 * u)%R as U48 by (unfold u; change 32%R with (bpow radix2 5); rewrite <- bpow_plus; reflexivity). rewrite U48 in KB.
  pose proof (accuracy (q2r y0) (q2r y1) (q2r y2) G0 G1 G2 L0 (Rlt_le _ _ L2) (q2r M) MP) as AC. cbv zeta in AC.
  assert (Rabs (q2r y0) <= q2r M)%R as B0 by (apply Rabs_le; lra). assert (Rabs (q2r y1) <= q2r M)%R as B1 by (apply Rabs_le; lra). assert (Rabs (q2r y2) <= q2r M)%R as B2 by (apply Rabs_le; lra).
  specialize (AC B0 B1 B2 KB). rewrite <- t_real in AC by auto.
  rewrite !q2r_le. unfold v, e. rewrite !q2r_minus, !q2r_plus, !q2r_mult, fl64_rnd, !q2r_plus, q2r_qz, !q2r_two. rewrite (q2r_div M) by auto. unfold Qcdiv. rewrite !q2r_mult, q2r_inv, half_real, q2r_minus by auto.
  assert (q2r b = q2r y0 - 2 * q2r y1 + q2r y2)%R as BR2 by (rewrite q2r_opp in BR; lra). rewrite BR, BR2.
  set (x := q2r (f_t fl64 y0 y1 y2)) in *. set (vv := (/ 2 * (q2r y0 - q2r y2) * / (q2r y0 - 2 * q2r y1 + q2r y2))%R).
  unfold Rdiv at 1 in AC. fold vv in AC. set (r := (q2r M / - (q2r y0 - 2 * q2r y1 + q2r y2))%R) in *.
  assert (bpow radix2 (-49) = 16 * u)%R as -> by (unfold u; change 16%R with (bpow radix2 4); rewrite <- bpow_plus; reflexivity).
  assert (bpow radix2 (-52) = 2 * u)%R as -> by (unfold u; change 2%R with (bpow radix2 1); rewrite <- bpow_plus; reflexivity).
  pose proof u_pos as UP. assert (0 < - (q2r y0 - 2 * q2r y1 + q2r y2))%R as BP by nra. set (bb := (q2r y0 - 2 * q2r y1 + q2r y2)%R) in *.
  assert (1 / 4 <= r)%R as R4. { unfold r. apply Rmult_le_reg_r with (- bb)%R; auto. unfold Rdiv. rewrite (Rmult_assoc (q2r M)), Rinv_l by lra. unfold bb. lra. }
  assert (u * r <= / 32)%R as UR. { unfold r. apply Rmult_le_reg_r with (- bb)%R; auto. unfold Rdiv. replace (u * (q2r M * / - bb) * - bb)%R with (u * q2r M)%R by (field; lra). lra. }
  assert (Rabs vv <= / 2)%R as VB.
  { unfold vv. rewrite !Rabs_mult, (Rabs_pos_eq (/ 2)), Rabs_inv, (Rabs_left1 bb) by lra. rewrite Rmult_assoc. rewrite <- (Rmult_1_r (/ 2)) at 2. apply Rmult_le_compat_l; [lra|].
    apply Rmult_le_reg_r with (- bb)%R; auto. rewrite Rmult_assoc, Rinv_l by lra. rewrite Rmult_1_r, Rmult_1_l. apply Rabs_le. unfold bb. lra. }
  apply Rabs_le_inv in AC, VB. assert (1 <= IZR p)%R as P1 by (apply (IZR_le 1); lia).
  pose proof (rnd_err (x + IZR p)) as ER. assert (Rabs (x + IZR p) <= 2 * IZR p)%R as XB by (apply Rabs_le; lra).
  assert (t <= u * / 16)%R as TT. { apply t_u. change (/ 16)%R with (bpow radix2 (-4)). apply bpow_le. lia. }
  assert (u * Rabs (x + IZR p) <= u * (2 * IZR p))%R as UX by (apply Rmult_le_compat_l; lra). apply Rabs_le_inv in ER. assert (u <= 4 * u * r)%R by nra.
  split; lra.
Qed.
End Three.
Lemma top : forall e, (-900 <= e)%Z -> f_b fl64 (two e - two (e - 53)) (two e) (two e) = 0.
Proof. intros e E. apply b_zero. rewrite q2r_minus, !q2r_two. now apply flat_top. Qed.
Lemma vertex_eq : forall p y0 y1 y2 v, vertex p y0 y1 y2 v -> v = p + half * (y0 - y2) / (y0 - qz 2 * y1 + y2).
Proof.
  intros p y0 y1 y2 v (w & c & N & A & B & C). cbv zeta in A, B, C. rewrite <- A, <- B, <- C. replace (qz 2) with (1 + 1) by (apply Qc_is_canon; reflexivity).
  replace (w * ((p - 1 - v) * (p - 1 - v)) + c - (1 + 1) * (w * ((p - v) * (p - v)) + c) + (w * ((p + 1 - v) * (p + 1 - v)) + c)) with (w + w) by ring.
  replace (half * (w * ((p - 1 - v) * (p - 1 - v)) + c - (w * ((p + 1 - v) * (p + 1 - v)) + c))) with ((v - p) * (half + half) * (w + w)) by ring. rewrite half2. field.
  intro Z. apply N. replace w with ((half + half) * w) by (rewrite half2; ring). replace ((half + half) * w) with (half * (w + w)) by ring. rewrite Z. ring.
Qed.
Lemma two_pos : forall e, 0 < two e.
Proof. intros e. apply q2r_lt. rewrite q2r_0, q2r_two. apply bpow_gt_0. Qed.
Lemma samples_double : forall junk w i, fl64 junk = junk -> Forall (fun x => fl64 x = x) w -> fl64 (samples junk w i) = samples junk w i.
Proof.
  intros junk w i J U. unfold samples, read. match goal with |- context [if ?c then Some (nth ?n w ?d) else _] => destruct c; [destruct (le_lt_dec (List.length w) n) as [G|G]; [rewrite nth_overflow by auto; reflexivity|]|auto] end.
  rewrite Forall_forall in U. apply U. now apply nth_In.
Qed.
