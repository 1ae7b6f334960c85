(** Pulse timing with rounded arithmetic: what needs only that rounding is monotone. *)
From Coq Require Import List ZArith QArith Qcanon Qround Bool Arith Lia.
From Verif.Base Require Import Py PyFacts Num Lst Fl.
From Verif.WfUtils Require Import Model Proofs.
From Verif.Reducers Require Import Model Proofs Proofs3 ModelTimingFloat.
Import ListNotations.
Local Open Scope list_scope.
Local Open Scope Qc_scope.

Lemma qopp_nz : forall d : Qc, d <> 0 -> - d <> 0.
Proof. intros d N E. apply N. replace d with (- - d) by ring. rewrite E. reflexivity. Qed.
Lemma qdiv_opp : forall x d : Qc, d <> 0 -> - x / - d = x / d.
Proof. intros x d N. field. split; auto. now apply qopp_nz. Qed.

(** ** Without rounding: the exact function *)
Section Exact.
Let id := fun x : Qc => x.
Lemma exact_mean : forall l, f_mean id l = qmean l.
Proof.
  intros l. unfold f_mean, qmean, id. f_equal. unfold qsum. assert (forall l a, fold_left (fun s x => s + x) l a = a + fold_right Qcplus 0 l) as A.
  { clear. induction l as [|x l IH]; intros a; cbn; [ring|]. rewrite IH. ring. }
  rewrite A. ring.
Qed.
Lemma exact_cross : forall rd level xi xj, f_cross id rd level xi xj = cross rd level xi xj.
Proof. reflexivity. Qed.
Lemma exact_forward : forall rd level k xi, f_forward id rd level k xi = forward rd level k xi.
Proof. induction k as [|k IH]; intros; cbn [f_forward forward]; [reflexivity|]. now rewrite IH. Qed.
Lemma exact_backward : forall rd l50 l90 l10 k s, f_backward id rd l50 l90 l10 k s = backward rd l50 l90 l10 k s.
Proof.
  induction k as [|k IH]; intros [[fl r90] r10]; cbn [f_backward backward]; [reflexivity|].
  change (f_set_first id rd) with (set_first rd).
  destruct (set_first rd l50 _ fl); cbn [bind]; [|reflexivity]. destruct (set_first rd l90 _ r90); cbn [bind]; [|reflexivity]. destruct (set_first rd l10 _ r10); cbn [bind]; [|reflexivity]. now rewrite IH.
Qed.
Lemma exact_timing : forall junk w s e, f_timing id junk w s e = pulse_timing junk w s e.
Proof.
  intros. unfold f_timing, pulse_timing. rewrite exact_mean. destruct (pyslice w (Some s) (Some e)) as [|x l]; [reflexivity|].
  generalize (Z.of_nat (argmax (x :: l)) + s)%Z. intros p. cbv zeta. unfold f_b, f_h, f_t, id at 1 2 3.
  set (rd := fun i : Z => match read w (Some junk) i with Some y => y | None => 0 end).
  change (f_b id (rd (p - 1)%Z) (rd p) (rd (p + 1)%Z)) with (rd (p - 1)%Z - qz 2 * rd p + rd (p + 1)%Z).
  destruct (qeqb _ 0); [reflexivity|]. unfold id at 1 2 3 4 5 6 7 8 9 10 11.
  match goal with |- (if negb (qleb 0 ?t && _) then _ else _) = _ => set (tp := t) end.
  destruct (negb _); [reflexivity|]. rewrite exact_forward, exact_backward.
  match goal with |- context [c10 id * ?h] => set (hp := h) end.
  replace (c10 id * hp) with (hp / qz 10). 2:{ unfold c10, id. replace (Q2Qc (1 # 10)) with (/ qz 10) by (apply Qc_is_canon; vm_compute; reflexivity). unfold Qcdiv. ring. }
  replace (c90 id * hp) with (qz 9 / qz 10 * hp). 2:{ unfold c90, id. apply (f_equal (fun c => c * hp)). apply Qc_is_canon; vm_compute; reflexivity. }
  reflexivity.
Qed.
End Exact.

(** ** Monotone rounding *)
Section Mono.
Variable rnd : Qc -> Qc.
Hypothesis mono : forall a b, a <= b -> rnd a <= rnd b.
Hypothesis zero : rnd 0 = 0.
Hypothesis one : rnd 1 = 1.
Hypothesis opp : forall a, rnd (- a) = - rnd a.
Hypothesis idem : forall a, rnd (rnd a) = rnd a.

Lemma rnd_nn : forall a, 0 <= a -> 0 <= rnd a.
Proof. intros a A. rewrite <- zero. now apply mono. Qed.
Lemma rnd_np : forall a, a <= 0 -> rnd a <= 0.
Proof. intros a A. rewrite <- zero. now apply mono. Qed.

(** Fraction of the interval, as computed. *)
Definition ratio (level yi yj : Qc) : Qc := rnd (rnd (level - yi) / rnd (yj - yi)).
Lemma ratio_mono : forall l1 l2 yi yj, l1 <= l2 -> rnd (yj - yi) < 0 -> ratio l2 yi yj <= ratio l1 yi yj.
Proof.
  intros l1 l2 yi yj L N. unfold ratio. apply mono. assert (rnd (yj - yi) <> 0) as NZ by (intro E; rewrite E in N; discriminate N).
  assert (rnd (l1 - yi) <= rnd (l2 - yi)) by (apply mono; qlra). revert H N NZ. generalize (rnd (l1 - yi)) (rnd (l2 - yi)) (rnd (yj - yi)). intros x y d H N NZ.
  replace (x / d) with (- x / - d) by (apply qdiv_opp; auto).
  replace (y / d) with (- y / - d) by (apply qdiv_opp; auto). apply qdiv_le; qlra.
Qed.
Lemma ratio_range : forall level yi yj, level <= yi -> yj <= level -> rnd (yj - yi) <> 0 -> rnd (yj - yi) < 0 /\ 0 <= ratio level yi yj /\ ratio level yi yj <= 1.
Proof.
  intros level yi yj A B N. assert (rnd (yj - yi) <= 0) as P by (apply rnd_np; qlra).
  assert (rnd (yj - yi) < 0) as Q. { destruct (Qcle_lt_or_eq _ _ P); [auto|congruence]. } split; auto. unfold ratio.
  assert (rnd (level - yi) <= 0) as L1 by (apply rnd_np; qlra). assert (rnd (yj - yi) <= rnd (level - yi)) as L2 by (apply mono; qlra).
  revert Q N L1 L2. generalize (rnd (level - yi)) (rnd (yj - yi)). intros x d Q N L1 L2.
  replace (x / d) with (- x / - d) by (apply qdiv_opp; auto).
  split; [apply rnd_nn, qdiv_nonneg; qlra|]. rewrite <- one. apply mono. replace 1 with (- d / - d) by (rewrite qdiv_opp by auto; field; auto). apply qdiv_le; qlra.
Qed.
Variable rd : Z -> Qc.
Lemma fcross_forward : forall level xi r, crosses rd level xi (xi + 1) = true -> f_cross rnd rd level xi (xi + 1) = Ok r ->
  rnd (qz xi) <= r /\ r <= rnd (qz (xi + 1)) /\ rnd (rd (xi + 1)%Z - rd xi) <> 0.
Proof.
  intros level xi r C E. apply crosses_iff in C as [A B]. unfold f_cross in E. cbv zeta in E. destruct (qeqb_spec (rnd (rd (xi + 1)%Z - rd xi)) 0) as [|N]; [discriminate|]. injection E as <-.
  replace (xi + 1 - xi)%Z with 1%Z by lia. rewrite qz_plus. change (qz 1) with 1. rewrite Qcmult_1_r, idem. fold (ratio level (rd xi) (rd (xi + 1)%Z)).
  destruct (ratio_range _ _ _ A B N) as (_ & R1 & R2). split; [|split; auto]; apply mono; qlra.
Qed.
Lemma fcross_backward : forall level xi r, crosses rd level xi (xi - 1) = true -> f_cross rnd rd level xi (xi - 1) = Ok r ->
  rnd (qz (xi - 1)) <= r /\ r <= rnd (qz xi) /\ r = rnd (qz xi - ratio level (rd xi) (rd (xi - 1)%Z)) /\ rnd (rd (xi - 1)%Z - rd xi) <> 0.
Proof.
  intros level xi r C E. apply crosses_iff in C as [A B]. unfold f_cross in E. cbv zeta in E. destruct (qeqb_spec (rnd (rd (xi - 1)%Z - rd xi)) 0) as [|N]; [discriminate|]. injection E as <-.
  replace (xi - 1 - xi)%Z with (-1)%Z by lia. rewrite qz_minus. change (qz 1) with 1. change (qz (-1)) with (- (1)).
  replace (rnd (level - rd xi) * - (1)) with (- rnd (level - rd xi)) by ring. rewrite opp, idem. replace (- rnd (level - rd xi) / rnd (rd (xi - 1)%Z - rd xi)) with (- (rnd (level - rd xi) / rnd (rd (xi - 1)%Z - rd xi))) by (field; auto).
  rewrite opp. fold (ratio level (rd xi) (rd (xi - 1)%Z)). destruct (ratio_range _ _ _ A B N) as (_ & R1 & R2).
  split; [apply mono; qlra|]. split; [apply mono; qlra|]. split; auto.
Qed.
Lemma fforward_bound : forall level k xi r, f_forward rnd rd level k xi = Ok r -> r = 0 \/ rnd (qz xi) <= r /\ r <= rnd (qz (xi + Z.of_nat k)).
Proof.
  induction k as [|k IH]; intros xi r E; cbn [f_forward] in E; [left; congruence|]. destruct (crosses rd level xi (xi + 1)) eqn:C.
  - right. destruct (fcross_forward level xi r C E) as (A & B & _). split; auto. eapply Qcle_trans; [exact B|]. apply mono. apply (proj1 (qz_le _ _)). lia.
  - apply IH in E as [E|[A B]]; auto. right. split.
    + eapply Qcle_trans; [|exact A]. apply mono. apply (proj1 (qz_le _ _)). lia.
    + replace (xi + Z.of_nat (S k))%Z with (xi + 1 + Z.of_nat k)%Z by lia. exact B.
Qed.
Lemma fset_first_cases : forall level xi cur r, f_set_first rnd rd level xi cur = Ok r ->
  (r = cur /\ (crosses rd level xi (xi - 1) = false \/ cur <> 0)) \/ (cur = 0 /\ crosses rd level xi (xi - 1) = true /\ f_cross rnd rd level xi (xi - 1) = Ok r).
Proof.
  intros level xi cur r E. unfold f_set_first in E. destruct (crosses rd level xi (xi - 1)) eqn:C; cbn [andb] in E; [|left; split; [congruence|auto]].
  destruct (qeqb_spec cur 0) as [Z|Z]; [right; auto|left; split; [congruence|auto]].
Qed.
(** A time found by the backward search, from sample [k] on. *)
Definition found (k : nat) (x : Qc) : Prop := x = 0 \/ (0 <= x /\ x <= rnd (qz (Z.of_nat k))).
Lemma found_step : forall level k cur r, (cur = 0 \/ found (S k) cur) -> f_set_first rnd rd level (Z.of_nat (S k)) cur = Ok r -> found (S k) r.
Proof.
  intros level k cur r F E. apply fset_first_cases in E as [[-> _]|(_ & C & X)]; [destruct F as [->|F]; auto; now left|].
  right. destruct (fcross_backward _ _ _ C X) as (A & B & _). split; auto. eapply Qcle_trans; [|exact A]. apply rnd_nn. apply (proj1 (qz_le 0 _)). lia.
Qed.
Lemma fbackward_found : forall l50 l90 l10 k m fl r90 r10 fl' r90' r10', (k <= m)%nat -> found m fl -> found m r90 -> found m r10 ->
  f_backward rnd rd l50 l90 l10 k (fl, r90, r10) = Ok (fl', r90', r10') -> found m fl' /\ found m r90' /\ found m r10'.
Proof.
  induction k as [|k IH]; intros m fl r90 r10 fl' r90' r10' K F1 F2 F3 E; cbn [f_backward] in E; [injection E as <- <- <-; auto|].
  destruct (f_set_first rnd rd l50 _ fl) as [fl1|] eqn:E1; cbn [bind] in E; [|discriminate].
  destruct (f_set_first rnd rd l90 _ r90) as [r901|] eqn:E2; cbn [bind] in E; [|discriminate].
  destruct (f_set_first rnd rd l10 _ r10) as [r101|] eqn:E3; cbn [bind] in E; [|discriminate].
  assert (forall level cur r, found m cur -> f_set_first rnd rd level (Z.of_nat (S k)) cur = Ok r -> found m r) as G.
  { intros level cur r F X. pose proof X as X'. apply fset_first_cases in X as [[-> _]|(-> & _)]; auto. apply found_step in X'; [|now left].
    destruct X' as [->|[A B]]; [now left|right]. split; auto. eapply Qcle_trans; [exact B|]. apply mono, (proj1 (qz_le _ _)). lia. }
  apply G in E1, E2, E3; auto. destruct (_ && _ && _); [injection E as <- <- <-; auto|]. apply (IH m) in E; auto. lia.
Qed.
Definition frise_inv (l90 : Qc) (k : nat) (r90 r10 : Qc) : Prop :=
  (r90 = 0 /\ r10 = 0 /\ l90 <= rd (Z.of_nat k)) \/ (rnd (qz (Z.of_nat k)) <= r90 /\ r10 <= r90).
Hypothesis pos : forall z, (0 < z)%Z -> 0 < rnd (qz z).
Hypothesis nonzero : forall i j, rnd (rd i - rd j) = 0 -> rd i = rd j.
Lemma fbackward_rise : forall l50 l90 l10 k fl r90 r10 fl' r90' r10', l10 <= l90 -> frise_inv l90 k r90 r10 ->
  f_backward rnd rd l50 l90 l10 k (fl, r90, r10) = Ok (fl', r90', r10') -> (r90' = 0 /\ r10' = 0) \/ r10' <= r90'.
Proof.
  induction k as [|k IH]; intros fl r90 r10 fl' r90' r10' L I E; cbn [f_backward] in E.
  - injection E as <- <- <-. destruct I as [(-> & -> & _)|[_ I]]; auto.
  - destruct (f_set_first rnd rd l50 (Z.of_nat (S k)) fl) as [fl1|] eqn:E1; cbn [bind] in E; [|discriminate].
    destruct (f_set_first rnd rd l90 (Z.of_nat (S k)) r90) as [r901|] eqn:E2; cbn [bind] in E; [|discriminate].
    destruct (f_set_first rnd rd l10 (Z.of_nat (S k)) r10) as [r101|] eqn:E3; cbn [bind] in E; [|discriminate].
    assert (Z.of_nat (S k) - 1 = Z.of_nat k)%Z as SK by lia.
    assert (frise_inv l90 k r901 r101) as I'.
    { unfold frise_inv. destruct I as [(-> & -> & Y)|[Y1 Y2]].
      - destruct (fset_first_cases _ _ _ _ E2) as [[-> [C|C]]|(_ & C & X)]; [|congruence|].
        + assert (l90 < rd (Z.of_nat k)) as Y'. { apply Qcnot_le_lt. intro Q. assert (crosses rd l90 (Z.of_nat (S k)) (Z.of_nat (S k) - 1) = true) by (apply crosses_iff; rewrite SK; auto). congruence. }
          left. split; auto. split; [|qlra]. destruct (fset_first_cases _ _ _ _ E3) as [[-> _]|(_ & C3 & _)]; auto.
          apply crosses_iff in C3 as [_ C3]. rewrite SK in C3. exfalso. qlra.
        + right. destruct (fcross_backward _ _ _ C X) as (B1 & B2 & B3 & B4). rewrite SK in *. split; auto.
          destruct (fset_first_cases _ _ _ _ E3) as [[-> _]|(_ & C3 & X3)].
          * eapply Qcle_trans; [|exact B1]. apply rnd_nn. apply (proj1 (qz_le 0 _)). lia.
          * destruct (fcross_backward _ _ _ C3 X3) as (_ & _ & D3 & _). rewrite SK in D3. subst r901 r101.
            apply crosses_iff in C as [C1 C2]. rewrite ?SK in C2. apply mono.
            destruct (ratio_range _ _ _ C1 C2 B4) as (N & _). pose proof (ratio_mono _ _ _ _ L N). qlra.
      - right. assert (0 < r90) as P. { eapply Qclt_le_trans; [|exact Y1]. apply pos. lia. }
        assert (r901 = r90) as ->. { destruct (fset_first_cases _ _ _ _ E2) as [[-> _]|(Z & _)]; auto. subst. now apply Qclt_not_eq in P. }
        split; [eapply Qcle_trans; [|exact Y1]; apply mono, (proj1 (qz_le _ _)); lia|].
        destruct (fset_first_cases _ _ _ _ E3) as [[-> _]|(_ & C3 & X3)]; auto.
        destruct (fcross_backward _ _ _ C3 X3) as (_ & D & _). eapply Qcle_trans; eauto. }
    destruct (negb (qeqb fl1 0) && negb (qeqb r901 0) && negb (qeqb r101 0)).
    + injection E as <- <- <-. destruct I' as [(-> & -> & _)|[_ I']]; auto.
    + now apply IH in E.
Qed.
(** No division by zero when the starting sample is above the levels. *)
Lemma fforward_ok : forall level k xi, level < rd xi -> exists r, f_forward rnd rd level k xi = Ok r.
Proof.
  induction k as [|k IH]; intros xi H; cbn [f_forward]; [eauto|]. destruct (crosses rd level xi (xi + 1)) eqn:C.
  - apply crosses_iff in C as [_ C]. unfold f_cross. cbv zeta. destruct (qeqb_spec (rnd (rd (xi + 1)%Z - rd xi)) 0) as [Z|]; [|eauto]. apply nonzero in Z. exfalso. qlra.
  - apply IH. apply Qcnot_le_lt. intro Q. assert (crosses rd level xi (xi + 1) = true); [|congruence]. apply crosses_iff. split; [qlra|auto].
Qed.
Lemma fset_first_ok : forall level k cur, ok_inv rd level (S k) cur -> exists r, f_set_first rnd rd level (Z.of_nat (S k)) cur = Ok r /\ ok_inv rd level k r.
Proof.
  intros level k cur I. unfold f_set_first. assert (Z.of_nat (S k) - 1 = Z.of_nat k)%Z as SK by lia.
  destruct I as [I|[[-> I]|I]]; [| |discriminate].
  - assert (qeqb cur 0 = false) as ->. { destruct (qeqb_spec cur 0) as [Z|]; auto. subst. now apply Qclt_not_eq in I. }
    rewrite andb_false_r. exists cur. split; auto. now left.
  - assert (qeqb 0 0 = true) as -> by reflexivity. rewrite andb_true_r.
    destruct (crosses rd level (Z.of_nat (S k)) (Z.of_nat (S k) - 1)) eqn:C.
    + destruct (f_cross rnd rd level (Z.of_nat (S k)) (Z.of_nat (S k) - 1)) as [r|] eqn:X.
      * exists r. split; auto. destruct (fcross_backward _ _ _ C X) as (B & _). destruct k as [|k]; [now right; right|]. left.
        eapply Qclt_le_trans; [|exact B]. apply pos. lia.
      * exfalso. unfold f_cross in X. cbv zeta in X. apply crosses_iff in C as [_ C].
        destruct (qeqb_spec (rnd (rd (Z.of_nat (S k) - 1)%Z - rd (Z.of_nat (S k)))) 0) as [E|]; [|discriminate]. apply nonzero in E. qlra.
    + exists 0. split; auto. right. left. split; auto. apply Qcnot_le_lt. intro Q.
      assert (crosses rd level (Z.of_nat (S k)) (Z.of_nat (S k) - 1) = true); [|congruence]. apply crosses_iff. rewrite SK. split; [qlra|auto].
Qed.
Lemma fbackward_ok : forall l50 l90 l10 k fl r90 r10, ok_inv rd l50 k fl -> ok_inv rd l90 k r90 -> ok_inv rd l10 k r10 ->
  exists s, f_backward rnd rd l50 l90 l10 k (fl, r90, r10) = Ok s.
Proof.
  induction k as [|k IH]; intros fl r90 r10 A B C; [eexists; reflexivity|]. cbn [f_backward].
  destruct (fset_first_ok _ _ _ A) as (fl1 & -> & A'). destruct (fset_first_ok _ _ _ B) as (r901 & -> & B'). destruct (fset_first_ok _ _ _ C) as (r101 & -> & C'). cbn [bind].
  destruct (negb (qeqb fl1 0) && negb (qeqb r901 0) && negb (qeqb r101 0)); [eexists; reflexivity|]. now apply IH.
Qed.

End Mono.
