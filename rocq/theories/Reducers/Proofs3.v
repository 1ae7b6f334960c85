(** Pulse timing. *)
From Coq Require Import List ZArith QArith Qcanon Qround Bool Arith Lia.
From Verif.Base Require Import Py PyFacts Num Lst.
From Verif.WfUtils Require Import Model Proofs.
From Verif.Reducers Require Import Model Proofs.
From Verif.Calib Require Model Proofs.
Import ListNotations.
Local Open Scope list_scope.
Local Open Scope Qc_scope.

Lemma qround_near : forall x p, qz p - half < x -> x < qz p + half -> qround x = p.
Proof.
  intros x p A B. unfold qround. change (Qfloor (this x)) with (Calib.Model.qfloor x). pose proof half2. pose proof half_pos.
  destruct (Qclt_le_dec x (qz p)) as [X|X].
  - assert (Calib.Model.qfloor x = p - 1)%Z as ->.
    { apply Calib.Proofs.qfloor_unique; [|replace (p - 1 + 1)%Z with p by lia; exact X]. rewrite qz_minus. change (qz 1) with 1. qlra. }
    rewrite qz_minus. change (qz 1) with 1. destruct (qltb_spec (x - (qz p - 1)) half); [exfalso; qlra|]. destruct (qltb_spec half (x - (qz p - 1))); [lia|exfalso; qlra].
  - assert (Calib.Model.qfloor x = p)%Z as ->.
    { apply Calib.Proofs.qfloor_unique; auto. rewrite qz_plus. change (qz 1) with 1. qlra. }
    destruct (qltb_spec (x - qz p) half); [auto|exfalso; qlra].
Qed.

Section T.
Variable rd : Z -> Qc.

Lemma crosses_iff : forall level xi xj, crosses rd level xi xj = true <-> level <= rd xi /\ rd xj <= level.
Proof.
  intros. unfold crosses. destruct (qleb_spec level (rd xi)), (qleb_spec (rd xj) level); cbn; split; try tauto; try discriminate.
Qed.
Lemma ratio_bounds : forall yi yj level, level <= yi -> yj <= level -> yj - yi <> 0 -> 0 <= (level - yi) / (yj - yi) /\ (level - yi) / (yj - yi) <= 1.
Proof.
  intros yi yj level A B N. assert (yj < yi) as L. { apply Qcnot_le_lt. intro X. apply N. assert (yj = yi) by (apply Qcle_antisym; qlra). subst. ring. }
  assert (yi - yj <> 0) as N2 by (intro Z; apply N; replace (yj - yi) with (- (yi - yj)) by ring; rewrite Z; reflexivity).
  replace ((level - yi) / (yj - yi)) with ((yi - level) / (yi - yj)) by (field; auto).
  split; [apply qdiv_nonneg; qlra|]. replace 1 with ((yi - yj) / (yi - yj)) by (field; auto). apply qdiv_le; qlra.
Qed.
Lemma cross_forward : forall level xi r, crosses rd level xi (xi + 1) = true -> cross rd level xi (xi + 1) = Ok r -> qz xi <= r /\ r <= qz (xi + 1).
Proof.
  intros level xi r C E. apply crosses_iff in C as [A B]. unfold cross in E. destruct (qeqb_spec (rd (xi + 1) - rd xi) 0) as [|N]; [discriminate|]. injection E as <-.
  replace (xi + 1 - xi)%Z with 1%Z by lia. rewrite qz_plus. change (qz 1) with 1.
  destruct (ratio_bounds _ _ _ A B N) as [R1 R2]. replace ((level - rd xi) * 1 / (rd (xi + 1) - rd xi)) with ((level - rd xi) / (rd (xi + 1) - rd xi)) by (field; auto).
  split; qlra.
Qed.
Lemma cross_backward : forall level xi r, crosses rd level xi (xi - 1) = true -> cross rd level xi (xi - 1) = Ok r ->
  qz (xi - 1) <= r /\ r <= qz xi /\ r = qz xi - (level - rd xi) / (rd (xi - 1)%Z - rd xi) /\ rd (xi - 1)%Z - rd xi <> 0.
Proof.
  intros level xi r C E. apply crosses_iff in C as [A B]. unfold cross in E. destruct (qeqb_spec (rd (xi - 1) - rd xi) 0) as [|N]; [discriminate|]. injection E as <-.
  replace (xi - 1 - xi)%Z with (-1)%Z by lia. rewrite qz_minus. change (qz 1) with 1. change (qz (-1)) with (- (1)).
  destruct (ratio_bounds _ _ _ A B N) as [R1 R2]. replace ((level - rd xi) * - (1) / (rd (xi - 1)%Z - rd xi)) with (- ((level - rd xi) / (rd (xi - 1)%Z - rd xi))) by (field; auto).
  repeat split; auto; qlra.
Qed.
Lemma forward_bound : forall level k xi r, (0 <= xi)%Z -> forward rd level k xi = Ok r -> r <> 0 -> qz xi <= r.
Proof.
  induction k as [|k IH]; intros xi r P E N; cbn [forward] in E; [congruence|]. destruct (crosses rd level xi (xi + 1)) eqn:C.
  - now apply (cross_forward level xi r).
  - apply IH in E; auto; [|lia]. eapply Qcle_trans; [|exact E]. apply (proj1 (qz_le _ _)). lia.
Qed.
Lemma set_first_cases : forall level xi cur r, set_first rd level xi cur = Ok r ->
  (r = cur /\ (crosses rd level xi (xi - 1) = false \/ cur <> 0)) \/ (cur = 0 /\ crosses rd level xi (xi - 1) = true /\ cross rd level xi (xi - 1) = Ok r).
Proof.
  intros level xi cur r E. unfold set_first in E. destruct (crosses rd level xi (xi - 1)) eqn:C; cbn [andb] in E; [|left; split; [congruence|auto]].
  destruct (qeqb_spec cur 0) as [Z|Z]; [right; auto|left; split; [congruence|auto]].
Qed.
Lemma backward_left : forall l50 l90 l10 k fl r90 r10 fl' r90' r10', backward rd l50 l90 l10 k (fl, r90, r10) = Ok (fl', r90', r10') ->
  fl' = fl \/ fl' <= qz (Z.of_nat k).
Proof.
  induction k as [|k IH]; intros fl r90 r10 fl' r90' r10' E; cbn [backward] in E; [injection E; auto|].
  destruct (set_first rd l50 (Z.of_nat (S k)) fl) as [fl1|] eqn:E1; cbn [bind] in E; [|discriminate].
  destruct (set_first rd l90 (Z.of_nat (S k)) r90) as [r901|] eqn:E2; cbn [bind] in E; [|discriminate].
  destruct (set_first rd l10 (Z.of_nat (S k)) r10) as [r101|] eqn:E3; cbn [bind] in E; [|discriminate].
  assert (fl1 = fl \/ fl1 <= qz (Z.of_nat (S k))) as H1.
  { destruct (set_first_cases _ _ _ _ E1) as [[? _]|(_ & C & X)]; auto. right. now apply (cross_backward l50 _ fl1). }
  destruct (negb (qeqb fl1 0) && negb (qeqb r901 0) && negb (qeqb r101 0)).
  - injection E as <- _ _. exact H1.
  - apply IH in E as [->|E]; auto. right. eapply Qcle_trans; [exact E|]. apply (proj1 (qz_le _ _)). lia.
Qed.
Definition rise_inv (l90 : Qc) (k : nat) (r90 r10 : Qc) : Prop :=
  (r90 = 0 /\ r10 = 0 /\ l90 <= rd (Z.of_nat k)) \/ (qz (Z.of_nat k) <= r90 /\ r10 <= r90).
Lemma backward_rise : forall l50 l90 l10 k fl r90 r10 fl' r90' r10', l10 <= l90 -> rise_inv l90 k r90 r10 ->
  backward rd l50 l90 l10 k (fl, r90, r10) = Ok (fl', r90', r10') -> (r90' = 0 /\ r10' = 0) \/ r10' <= r90'.
Proof.
  induction k as [|k IH]; intros fl r90 r10 fl' r90' r10' L I E; cbn [backward] in E.
  - injection E as <- <- <-. destruct I as [(-> & -> & _)|[_ I]]; auto.
  - destruct (set_first rd l50 (Z.of_nat (S k)) fl) as [fl1|] eqn:E1; cbn [bind] in E; [|discriminate].
    destruct (set_first rd l90 (Z.of_nat (S k)) r90) as [r901|] eqn:E2; cbn [bind] in E; [|discriminate].
    destruct (set_first rd l10 (Z.of_nat (S k)) r10) as [r101|] eqn:E3; cbn [bind] in E; [|discriminate].
    replace (Z.of_nat (S k) - 1)%Z with (Z.of_nat k) in * by lia.
    assert (Z.of_nat (S k) - 1 = Z.of_nat k)%Z as SK by lia.
    assert (rise_inv l90 k r901 r101) as I'.
    { unfold rise_inv. destruct I as [(-> & -> & Y)|[Y1 Y2]].
      - destruct (set_first_cases _ _ _ _ E2) as [[-> [C|C]]|(_ & C & X)]; [|congruence|].
        + assert (l90 < rd (Z.of_nat k)) as Y'. { apply Qcnot_le_lt. intro Q. assert (crosses rd l90 (Z.of_nat (S k)) (Z.of_nat (S k) - 1) = true) by (apply crosses_iff; rewrite SK; auto). congruence. }
          left. split; auto. split; [|qlra]. destruct (set_first_cases _ _ _ _ E3) as [[-> _]|(_ & C3 & _)]; auto.
          apply crosses_iff in C3 as [_ C3]. rewrite SK in C3. exfalso. qlra.
        + right. destruct (cross_backward _ _ _ C X) as (B1 & B2 & B3 & B4). rewrite SK in *. split; auto.
          destruct (set_first_cases _ _ _ _ E3) as [[-> _]|(_ & C3 & X3)].
          * eapply Qcle_trans; [|exact B1]. apply (proj1 (qz_le 0 _)). lia.
          * destruct (cross_backward _ _ _ C3 X3) as (_ & _ & D3 & _). rewrite SK in D3. subst r901 r101.
            apply crosses_iff in C as [C1 C2]. rewrite ?SK in C2. clear B1 B2 X X3 E E2 E3. set (yi := rd (Z.of_nat (S k))) in *. set (yj := rd (Z.of_nat k)) in *.
            assert (yi - yj <> 0) as N2 by (intro Z; apply B4; replace (yj - yi) with (- (yi - yj)) by ring; rewrite Z; reflexivity).
            replace ((l10 - yi) / (yj - yi)) with ((yi - l10) / (yi - yj)) by (field; auto). replace ((l90 - yi) / (yj - yi)) with ((yi - l90) / (yi - yj)) by (field; auto).
            assert (0 < yi - yj). { apply Qcnot_le_lt. intro Q. apply N2. apply Qcle_antisym; qlra. }
            assert ((yi - l90) / (yi - yj) <= (yi - l10) / (yi - yj)) by (apply qdiv_le; qlra). qlra.
      - right. assert (0 < r90) as P. { eapply Qclt_le_trans; [|exact Y1]. apply (proj1 (qz_lt 0 _)). lia. }
        assert (r901 = r90) as ->. { destruct (set_first_cases _ _ _ _ E2) as [[-> _]|(Z & _)]; auto. subst. now apply Qclt_not_eq in P. }
        split; [eapply Qcle_trans; [|exact Y1]; apply (proj1 (qz_le _ _)); lia|].
        destruct (set_first_cases _ _ _ _ E3) as [[-> _]|(_ & C3 & X3)]; auto.
        destruct (cross_backward _ _ _ C3 X3) as (_ & D & _). eapply Qcle_trans; eauto. }
    destruct (negb (qeqb fl1 0) && negb (qeqb r901 0) && negb (qeqb r101 0)).
    + injection E as <- <- <-. destruct I' as [(-> & -> & _)|[_ I']]; auto.
    + now apply IH in E.
Qed.

(** No division by zero when the starting sample is above the levels. *)
Lemma forward_ok : forall level k xi, level < rd xi -> exists r, forward rd level k xi = Ok r.
Proof.
  induction k as [|k IH]; intros xi H; cbn [forward]; [eauto|]. destruct (crosses rd level xi (xi + 1)) eqn:C.
  - apply crosses_iff in C as [_ C]. unfold cross. destruct (qeqb_spec (rd (xi + 1) - rd xi) 0) as [Z|]; [|eauto]. exfalso. qlra.
  - apply IH. apply Qcnot_le_lt. intro Q. assert (crosses rd level xi (xi + 1) = true); [|congruence]. apply crosses_iff. split; [qlra|auto].
Qed.
Definition ok_inv (level : Qc) (k : nat) (cur : Qc) : Prop := 0 < cur \/ (cur = 0 /\ level < rd (Z.of_nat k)) \/ k = 0%nat.
Lemma set_first_ok : forall level k cur, ok_inv level (S k) cur -> exists r, set_first rd level (Z.of_nat (S k)) cur = Ok r /\ ok_inv level k r.
Proof.
  intros level k cur I. unfold set_first. assert (Z.of_nat (S k) - 1 = Z.of_nat k)%Z as SK by lia.
  destruct I as [I|[[-> I]|I]]; [| |discriminate].
  - assert (qeqb cur 0 = false) as ->. { destruct (qeqb_spec cur 0) as [Z|]; auto. subst. now apply Qclt_not_eq in I. }
    rewrite andb_false_r. exists cur. split; auto. now left.
  - assert (qeqb 0 0 = true) as -> by reflexivity. rewrite andb_true_r.
    destruct (crosses rd level (Z.of_nat (S k)) (Z.of_nat (S k) - 1)) eqn:C.
    + destruct (cross rd level (Z.of_nat (S k)) (Z.of_nat (S k) - 1)) as [r|] eqn:X.
      * exists r. split; auto. destruct (cross_backward _ _ _ C X) as (B & _). destruct k as [|k]; [now right; right|]. left.
        eapply Qclt_le_trans; [|exact B]. apply (proj1 (qz_lt 0 _)). lia.
      * exfalso. unfold cross in X. apply crosses_iff in C as [_ C]. destruct (qeqb_spec (rd (Z.of_nat (S k) - 1) - rd (Z.of_nat (S k))) 0) as [E|]; [|discriminate]. qlra.
    + exists 0. split; auto. right. left. split; auto. apply Qcnot_le_lt. intro Q.
      assert (crosses rd level (Z.of_nat (S k)) (Z.of_nat (S k) - 1) = true); [|congruence]. apply crosses_iff. rewrite SK. split; [qlra|auto].
Qed.
Lemma backward_ok : forall l50 l90 l10 k fl r90 r10, ok_inv l50 k fl -> ok_inv l90 k r90 -> ok_inv l10 k r10 ->
  exists s, backward rd l50 l90 l10 k (fl, r90, r10) = Ok s.
Proof.
  induction k as [|k IH]; intros fl r90 r10 A B C; [eexists; reflexivity|]. cbn [backward].
  destruct (set_first_ok _ _ _ A) as (fl1 & -> & A'). destruct (set_first_ok _ _ _ B) as (r901 & -> & B'). destruct (set_first_ok _ _ _ C) as (r101 & -> & C'). cbn [bind].
  destruct (negb (qeqb fl1 0) && negb (qeqb r901 0) && negb (qeqb r101 0)); [eexists; reflexivity|]. now apply IH.
Qed.
End T.

(** ** One pixel *)
Definition samples (junk : Qc) (w : list Qc) (i : Z) : Qc := match read w (Some junk) i with Some y => y | None => 0 end.
Definition baseline (w : list Qc) : Qc := qmean (pyslice w None (Some 10%Z)).

Lemma pyslice_argmax : forall w s e, (0 <= s)%Z -> (s < e)%Z -> (e <= Z.of_nat (List.length w))%Z ->
  pyslice w (Some s) (Some e) <> [] /\
  let p := (argmax (pyslice w (Some s) (Some e)) + Z.to_nat s)%nat in
  (Z.to_nat s <= p < Z.to_nat e)%nat /\ (forall j, (Z.to_nat s <= j < Z.to_nat e)%nat -> nth j w 0 <= nth p w 0) /\ (forall j, (Z.to_nat s <= j < p)%nat -> nth j w 0 < nth p w 0).
Proof.
  intros w s e A B C. replace e with (s + (e - s))%Z by lia. rewrite pyslice_window by lia. replace (s + (e - s))%Z with e by lia.
  set (win := map (fun k => nth (Z.to_nat s + k) w 0) (seq 0 (Z.to_nat (e - s)))).
  assert (List.length win = Z.to_nat (e - s)) as L by (unfold win; now rewrite map_length, seq_length).
  assert (win <> []) as N by (intro E; rewrite E in L; cbn in L; lia). split; auto. cbv zeta. destruct (argmax_spec win N) as (P & Q & R). rewrite L in *.
  assert (forall j, (j < Z.to_nat (e - s))%nat -> nth j win 0 = nth (Z.to_nat s + j) w 0) as W by (intros; unfold win; now rewrite nth_map_seq).
  rewrite (Nat.add_comm (argmax win)). repeat split; try lia.
  - intros j J. specialize (Q (j - Z.to_nat s)%nat ltac:(lia)). rewrite !W in Q by lia. replace (Z.to_nat s + (j - Z.to_nat s))%nat with j in Q by lia. exact Q.
  - intros j J. specialize (R (j - Z.to_nat s)%nat ltac:(lia)). rewrite !W in R by lia. replace (Z.to_nat s + (j - Z.to_nat s))%nat with j in R by lia. exact R.
Qed.

(** The function after the choice of the peak sample. *)
Definition timing_tail (rd : Z -> Qc) (base : Qc) (n : nat) (t_pulse h_pulse : Qc) : res pulse :=
    if negb (qleb 0 t_pulse && qltb t_pulse (qn n)) then Ok no_pulse
    else
      let i_pulse := qround t_pulse in
      (do fwhm_r <- forward rd (base + h_pulse / qz 2) (Z.to_nat (Z.of_nat n - 1 - i_pulse)) i_pulse;
       do s <- backward rd (base + h_pulse / qz 2) (base + qz 9 / qz 10 * h_pulse) (base + h_pulse / qz 10) (Z.to_nat i_pulse) (0, 0, 0);
       let '(fwhm_l, rt_90, rt_10) := s in
       Ok {| p_t := t_pulse; p_h := h_pulse;
             p_fwhm := if negb (qeqb fwhm_r 0) && negb (qeqb fwhm_l 0) then Some (fwhm_r - fwhm_l) else None;
             p_rise := if negb (qeqb rt_90 0) && negb (qeqb rt_10 0) then Some (rt_90 - rt_10) else None;
             p_l := fwhm_l; p_r := fwhm_r; p_10 := rt_10; p_90 := rt_90 |})%py.
Definition timing_at (junk : Qc) (w : list Qc) (peakpos : Z) : res pulse :=
  let n := List.length w in
  let rd := samples junk w in
  let y0 := rd (peakpos - 1)%Z in
  let y1 := rd peakpos in
  let y2 := rd (peakpos + 1)%Z in
  let b := y0 - qz 2 * y1 + y2 in
  if qeqb b 0 then Ok no_pulse
  else
    let t := half * (y0 - y2) / b in
    timing_tail rd (baseline w) n (t + qz peakpos) (y1 - half * half * (y0 - y2) * t - baseline w).
Lemma pulse_timing_at : forall junk w s e, pulse_timing junk w s e =
  match pyslice w (Some s) (Some e) with [] => Raise ValueError | win => timing_at junk w (Z.of_nat (argmax win) + s) end.
Proof. intros. cbv beta zeta delta [pulse_timing timing_at timing_tail samples baseline]. generalize (pyslice w (Some s) (Some e)). intros [|x l]; [reflexivity|]. generalize (Z.of_nat (argmax (x :: l)) + s)%Z. intros. reflexivity. Qed.

Lemma qround_nonneg : forall x, 0 <= x -> (0 <= qround x)%Z.
Proof.
  intros x P. unfold qround. change (Qfloor (this x)) with (Calib.Model.qfloor x). destruct (Calib.Proofs.qfloor_spec x) as [A B].
  assert (0 <= Calib.Model.qfloor x)%Z. { assert (qz 0 < qz (Calib.Model.qfloor x + 1)) as X by (change (qz 0) with 0; qlra). apply qz_lt in X. lia. }
  destruct (qltb _ half); [lia|]. destruct (qltb half _); [lia|]. destruct (Z.even _); lia.
Qed.

Lemma tail_fwhm : forall rd base n t h r f, timing_tail rd base n t h = Ok r -> p_fwhm r = Some f -> 0 <= f.
Proof.
  intros rd base n t h r f E F. unfold timing_tail in E. cbv zeta in E.
  destruct (qleb_spec 0 t) as [T0|]; cbn [andb negb] in E; [|injection E as <-; injection F as <-; apply Qcle_refl].
  destruct (qltb_spec t (qn n)); cbn [negb] in E; [|injection E as <-; injection F as <-; apply Qcle_refl].
  pose proof (qround_nonneg t T0) as RN.
  destruct (forward _ _ _ _) as [fr|] eqn:EF; cbn [bind] in E; [|discriminate]. destruct (backward _ _ _ _ _ _) as [[[fl r90] r10]|] eqn:EB; cbn [bind] in E; [|discriminate].
  injection E as <-. cbn [p_fwhm] in F. destruct (qeqb_spec fr 0) as [|NR]; [discriminate|]. destruct (qeqb_spec fl 0) as [|NL]; [discriminate|]. injection F as <-.
  pose proof (forward_bound _ _ _ _ _ RN EF NR). destruct (backward_left _ _ _ _ _ _ _ _ _ _ _ EB) as [->|BL]; [congruence|]. rewrite Z2Nat.id in BL by auto. qlra.
Qed.
Lemma timing_fwhm : forall junk w p r f, timing_at junk w p = Ok r -> p_fwhm r = Some f -> 0 <= f.
Proof.
  intros junk w p r f E F. unfold timing_at in E. cbv zeta in E.
  destruct (qeqb _ 0); [injection E as <-; injection F as <-; apply Qcle_refl|]. now apply (tail_fwhm _ _ _ _ _ _ _ E).
Qed.
Lemma tail_rise : forall rd base n t h r v, timing_tail rd base n t h = Ok r -> p_rise r = Some v -> 0 <= p_h r ->
  base + qz 9 / qz 10 * p_h r <= rd (qround (p_t r)) -> 0 <= v.
Proof.
  intros rd base n t h r v E F. unfold timing_tail in E. cbv zeta in E.
  destruct (qleb_spec 0 t) as [T0|]; cbn [andb negb] in E; [|injection E as <-; injection F as <-; intros; apply Qcle_refl].
  destruct (qltb_spec t (qn n)); cbn [negb] in E; [|injection E as <-; injection F as <-; intros; apply Qcle_refl].
  pose proof (qround_nonneg t T0) as RN.
  destruct (forward _ _ _ _) as [fr|] eqn:EF; cbn [bind] in E; [|discriminate]. destruct (backward _ _ _ _ _ _) as [[[fl r90] r10]|] eqn:EB; cbn [bind] in E; [|discriminate].
  injection E as <-. cbn [p_rise p_h p_t] in *. intros H0 HY. destruct (qeqb_spec r90 0) as [|N9]; [discriminate|]. destruct (qeqb_spec r10 0) as [|N1]; [discriminate|]. injection F as <-.
  apply backward_rise in EB.
  - destruct EB as [[? _]|EB]; [congruence|]. qlra.
  - assert (qz 9 / qz 10 * h - h / qz 10 = qz 8 / qz 10 * h) as X. { replace (qz 9) with (qz 8 + 1) by (apply Qc_is_canon; reflexivity). field. discriminate. }
    assert (0 <= qz 8 / qz 10 * h). { assert (0 <= qz 8 / qz 10) by discriminate. revert H0 H. generalize h (qz 8 / qz 10). intros. qnra. } qlra.
  - left. rewrite Z2Nat.id by auto. auto.
Qed.
Lemma timing_rise : forall junk w p r v, timing_at junk w p = Ok r -> p_rise r = Some v -> 0 <= p_h r ->
  baseline w + qz 9 / qz 10 * p_h r <= samples junk w (qround (p_t r)) -> 0 <= v.
Proof.
  intros junk w p r v E F. unfold timing_at in E. cbv zeta in E.
  destruct (qeqb _ 0); [injection E as <-; injection F as <-; intros; apply Qcle_refl|]. now apply (tail_rise _ _ _ _ _ _ _ E).
Qed.
Lemma timing_local_max : forall junk w (p : nat), (1 <= p)%nat -> (S p < List.length w)%nat ->
  let y0 := nth (p - 1) w 0 in let y1 := nth p w 0 in let y2 := nth (p + 1) w 0 in y0 < y1 -> y2 < y1 ->
  let t := half * (y0 - y2) / (y0 - qz 2 * y1 + y2) in let h := y1 - half * half * (y0 - y2) * t - baseline w in
  (forall r, timing_at junk w (Z.of_nat p) = Ok r -> p_t r = t + qn p /\ p_h r = h /\ vertex (qn p) y0 y1 y2 (p_t r) /\ qround (p_t r) = Z.of_nat p /\
     qn p - half < p_t r /\ p_t r < qn p + half /\ y1 <= baseline w + p_h r) /\
  (0 <= h -> baseline w + qz 9 / qz 10 * h < y1 -> exists r, timing_at junk w (Z.of_nat p) = Ok r).
Proof.
  intros junk w p P L y0 y1 y2 A B t h.
  assert (forall i, (i < List.length w)%nat -> samples junk w (Z.of_nat i) = nth i w 0) as S. { intros i I. unfold samples. rewrite read_in by lia. now rewrite Nat2Z.id. }
  assert (y0 + y2 < qz 2 * y1) as C. { replace (qz 2 * y1) with (y1 + y1). qlra. replace (qz 2) with (1 + 1) by (apply Qc_is_canon; reflexivity). ring. }
  destruct (vertex_bound y0 y1 y2) as (_ & _ & V3 & V4 & V5); [qlra|qlra|auto|]. cbv zeta in V3, V4, V5. fold t in V3, V4, V5. specialize (V3 A). specialize (V4 B).
  assert (y0 - qz 2 * y1 + y2 <> 0) as N'. { intro Z. assert (y0 + y2 = qz 2 * y1) by (replace (y0 + y2) with ((y0 - qz 2 * y1 + y2) + qz 2 * y1) by ring; rewrite Z; ring). qlra. }
  pose proof (vertex_formula (qn p) y0 y1 y2 N') as V. fold t in V.
  assert (qround (t + qn p) = Z.of_nat p) as RD by (apply qround_near; fold (qn p); qlra).
  assert (timing_at junk w (Z.of_nat p) = 
      (do fwhm_r <- forward (samples junk w) (baseline w + h / qz 2) (Z.to_nat (Z.of_nat (List.length w) - 1 - Z.of_nat p)) (Z.of_nat p);
       do s <- backward (samples junk w) (baseline w + h / qz 2) (baseline w + qz 9 / qz 10 * h) (baseline w + h / qz 10) p (0, 0, 0);
       let '(fwhm_l, rt_90, rt_10) := s in
       Ok {| p_t := t + qn p; p_h := h;
             p_fwhm := if negb (qeqb fwhm_r 0) && negb (qeqb fwhm_l 0) then Some (fwhm_r - fwhm_l) else None;
             p_rise := if negb (qeqb rt_90 0) && negb (qeqb rt_10 0) then Some (rt_90 - rt_10) else None;
             p_l := fwhm_l; p_r := fwhm_r; p_10 := rt_10; p_90 := rt_90 |})%py) as E.
  { unfold timing_at, timing_tail. replace (Z.of_nat p - 1)%Z with (Z.of_nat (p - 1)) by lia. replace (Z.of_nat p + 1)%Z with (Z.of_nat (p + 1)) by lia. rewrite !S by lia.
    cbv zeta. fold y0 y1 y2. destruct (qeqb_spec (y0 - qz 2 * y1 + y2) 0) as [|_]; [contradiction|]. fold t. fold (qn p). fold h. rewrite RD.
    assert (1 <= qn p) by (apply (proj1 (qz_le 1 _)); lia). assert (qn p + 1 < qn (List.length w)) by (rewrite <- qn_S; apply (proj1 (qz_lt _ _)); lia). pose proof half2. pose proof half_pos.
    destruct (qleb_spec 0 (t + qn p)) as [X|X]; [|exfalso; apply X; qlra]. destruct (qltb_spec (t + qn p) (qn (List.length w))) as [Y|Y]; [|exfalso; apply Y; qlra].
    cbn [andb negb]. rewrite Nat2Z.id. reflexivity. }
  split.
  - intros r R. rewrite E in R. destruct (forward _ _ _ _) as [fr|]; cbn [bind] in R; [|discriminate]. destruct (backward _ _ _ _ _ _) as [[[fl r90] r10]|]; cbn [bind] in R; [|discriminate].
    injection R as <-. cbn [p_t p_h]. repeat split; auto; try qlra.
    unfold h. assert (0 <= half * half * - ((y0 - y2) * t)) as Q. { assert (0 <= half * half) by discriminate. revert V5 H. generalize (half * half) (- ((y0 - y2) * t)). intros. qnra. }
    replace (half * half * (y0 - y2) * t) with (- (half * half * - ((y0 - y2) * t))) by ring. qlra.
  - intros H0 H9. assert (baseline w + h / qz 2 < y1 /\ baseline w + h / qz 10 < y1) as [H5 H1].
    { assert (qz 9 / qz 10 * h - h / qz 2 = qz 4 / qz 10 * h) as X by (replace (qz 9) with (qz 4 + qz 5) by (apply Qc_is_canon; reflexivity); replace (qz 10) with (qz 2 * qz 5) by (apply Qc_is_canon; reflexivity); field; split; discriminate).
      assert (qz 9 / qz 10 * h - h / qz 10 = qz 8 / qz 10 * h) as X2. { replace (qz 9) with (qz 8 + 1) by (apply Qc_is_canon; reflexivity). field. discriminate. }
      assert (0 <= qz 8 / qz 10 * h). { assert (0 <= qz 8 / qz 10) by discriminate. revert H0 H. generalize h (qz 8 / qz 10). intros. qnra. }
      assert (0 <= qz 4 / qz 10 * h). { assert (0 <= qz 4 / qz 10) by discriminate. revert H0 H1. generalize h (qz 4 / qz 10). intros. qnra. }
      split; qlra. }
    rewrite E. destruct (forward_ok (samples junk w) (baseline w + h / qz 2) (Z.to_nat (Z.of_nat (List.length w) - 1 - Z.of_nat p)) (Z.of_nat p)) as [fr ->]; [rewrite S by lia; auto|]. cbn [bind].
    destruct (backward_ok (samples junk w) (baseline w + h / qz 2) (baseline w + qz 9 / qz 10 * h) (baseline w + h / qz 10) p 0 0 0) as [[[fl r90] r10] ->];
      try (right; left; split; [reflexivity|rewrite S by lia; auto]). cbn [bind]. eexists. reflexivity.
Qed.
