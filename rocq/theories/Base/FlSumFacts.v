(** Errors of sums and means in floating point, for every order of the additions. *)
From Coq Require Import List ZArith QArith Qcanon Reals Lia Permutation.
From Flocq Require Import Core.
From Verif.Base Require Import Num Fl FlFacts FlSum.
From Coq Require Import Lra.
Import ListNotations.
Local Open Scope R_scope.

Definition rsum (l : list R) : R := fold_right Rplus 0 l.
Lemma rsum_app : forall a b, rsum (a ++ b) = rsum a + rsum b.
Proof. unfold rsum. induction a as [|x a IH]; intros b; cbn [app fold_right]; [lra|]. rewrite IH. lra. Qed.
Lemma rsum_perm : forall a b, Permutation a b -> rsum a = rsum b.
Proof. unfold rsum. induction 1; cbn [fold_right]; lra. Qed.
Lemma rsum_le : forall A (f g : A -> R) l, (forall x, In x l -> f x <= g x) -> rsum (map f l) <= rsum (map g l).
Proof. unfold rsum. induction l as [|a l IH]; intros H; cbn [map fold_right]; [lra|]. pose proof (H a (or_introl eq_refl)). assert (fold_right Rplus 0 (map f l) <= fold_right Rplus 0 (map g l)) by (apply IH; intros; apply H; now right). lra. Qed.
Lemma rsum_const : forall A (l : list A) c, rsum (map (fun _ => c) l) = INR (length l) * c.
Proof. unfold rsum. induction l as [|a l IH]; intros c; cbn [map fold_right]; [cbn; lra|]. rewrite IH. cbn [length]. rewrite S_INR. lra. Qed.
Lemma rsum_nonneg : forall A (f : A -> R) l, (forall x, In x l -> 0 <= f x) -> 0 <= rsum (map f l).
Proof. intros A f l H. replace 0 with (rsum (map (fun _ : A => 0) l)) by (rewrite rsum_const; lra). now apply rsum_le. Qed.
Lemma q2r_qsum : forall l, q2r (qsum l) = rsum (map q2r l).
Proof. unfold qsum, rsum. induction l as [|a l IH]; cbn [map fold_right]; [apply q2r_0|]. now rewrite q2r_plus, IH. Qed.
Lemma rsum_abs : forall l, Rabs (rsum l) <= rsum (map Rabs l).
Proof. unfold rsum. induction l as [|a l IH]; cbn [map fold_right]; [rewrite Rabs_R0; lra|]. pose proof (Rabs_triang a (fold_right Rplus 0 l)). lra. Qed.
Lemma leaves_tmap : forall A B (f : A -> B) t, leaves (tmap f t) = map f (leaves t).
Proof. induction t as [a|l IHl r IHr]; cbn [tmap leaves]; [reflexivity|]. now rewrite IHl, IHr, map_app. Qed.
Lemma leaves_nonempty : forall A (t : tree A), (0 < length (leaves t))%nat.
Proof. induction t as [a|l IHl r IHr]; cbn [leaves]; [cbn; lia|]. rewrite app_length. lia. Qed.
Lemma in_order_leaves : forall A (l : list A) acc, leaves (in_order acc l) = leaves acc ++ l.
Proof. induction l as [|a l IH]; intros acc; cbn [in_order]; [now rewrite app_nil_r|]. rewrite IH. cbn [leaves]. now rewrite <- app_assoc. Qed.
(** Every list has a sum. *)
Lemma sums_to_exists : forall rnd l, exists v, sums_to rnd l v.
Proof. intros rnd [|a l]; [exists 0%Qc; now left|]. exists (tree_sum rnd (in_order (Leaf a) l)). right. eexists. split; [|reflexivity]. rewrite in_order_leaves. apply Permutation_refl. Qed.

Section Sum.
Variables (prec emin : Z).
Hypothesis (P : (1 < prec)%Z).
Let u := ulp1 prec.
(** The smallest normal number. *)
Definition normal_min : R := bpow radix2 (emin + prec - 1).
Let c := normal_min.
Definition growth (k : nat) : R := (1 + u) ^ k.
Lemma u_pos : 0 < u. Proof. apply bpow_gt_0. Qed.
Lemma c_pos : 0 < c. Proof. apply bpow_gt_0. Qed.
Lemma growth_1 : forall k, 1 <= growth k.
Proof. intros k. unfold growth. pose proof u_pos. apply pow_R1_Rle. lra. Qed.
Lemma growth_le : forall j k, (j <= k)%nat -> growth j <= growth k.
Proof. intros j k H. unfold growth. pose proof u_pos. apply Rle_pow; [lra|exact H]. Qed.
Lemma growth_S : forall k, growth (S k) = (1 + u) * growth k.
Proof. reflexivity. Qed.
(** Small multiples: the usual n u, up to a factor of two. *)
Lemma growth_small : forall k, 2 * (INR k * u) <= 1 -> growth k - 1 <= 2 * (INR k * u).
Proof.
  induction k as [|k IH]; intros H; [unfold growth; cbn; lra|]. rewrite S_INR in *. pose proof u_pos. assert (K : 2 * (INR k * u) <= 1) by lra. specialize (IH K). rewrite growth_S.
  assert (u * growth k <= u * 2) by (apply Rmult_le_compat_l; lra). lra.
Qed.
Lemma fl_error' : forall q, Rabs (q2r (fl prec emin q) - q2r q) <= u * (Rabs (q2r q) + c).
Proof.
  intros q. pose proof (fl_error prec emin P q) as H. fold u in H. replace (u * (Rabs (q2r q) + c)) with (u * Rabs (q2r q) + tiny emin); [exact H|].
  rewrite Rmult_plus_distr_l. f_equal. unfold u, c, ulp1, tiny, normal_min. rewrite <- bpow_plus. f_equal. lia.
Qed.
(** A sum whose leaves (computed, exact) are already k roundings away from their exact values. *)
Lemma tree_error : forall (k : nat) (t : tree (Qc * Qc)),
  (forall v e, In (v, e) (leaves t) -> Rabs (q2r v - q2r e) <= (growth k - 1) * (Rabs (q2r e) + c)) ->
  Rabs (q2r (tree_sum (fl prec emin) (tmap fst t)) - rsum (map (fun ve => q2r (snd ve)) (leaves t)))
  <= (growth (k + (length (leaves t) - 1)) - 1) * (rsum (map (fun ve => Rabs (q2r (snd ve))) (leaves t)) + INR (length (leaves t)) * c).
Proof.
  intros k t. pose proof u_pos as U. pose proof c_pos as C. induction t as [[v e]|l IHl r IHr]; intros H.
  - specialize (H v e (or_introl eq_refl)). cbn [tmap tree_sum fst leaves map snd length Nat.sub]. unfold rsum. cbn [map fold_right]. rewrite Nat.add_0_r. cbn [INR].
    replace (q2r e + 0) with (q2r e) by lra. replace (Rabs (q2r e) + 0 + 1 * c) with (Rabs (q2r e) + c) by lra. exact H.
  - cbn [tmap tree_sum leaves] in *. rewrite !map_app, !rsum_app, app_length, plus_INR.
    assert (HL := IHl (fun v e I => H v e (in_or_app _ _ _ (or_introl I)))). assert (HR := IHr (fun v e I => H v e (in_or_app _ _ _ (or_intror I)))). clear IHl IHr.
    pose proof (leaves_nonempty _ l) as NL. pose proof (leaves_nonempty _ r) as NR.
    assert (ML : 0 <= rsum (map (fun ve => Rabs (q2r (snd ve))) (leaves l))) by (apply rsum_nonneg; intros; apply Rabs_pos).
    assert (MR : 0 <= rsum (map (fun ve => Rabs (q2r (snd ve))) (leaves r))) by (apply rsum_nonneg; intros; apply Rabs_pos).
    assert (AL := rsum_abs (map (fun ve => q2r (snd ve)) (leaves l))). assert (AR := rsum_abs (map (fun ve => q2r (snd ve)) (leaves r))). rewrite map_map in AL, AR.
    set (nl := length (leaves l)) in *. set (nr := length (leaves r)) in *.
    set (SL := rsum (map (fun ve => q2r (snd ve)) (leaves l))) in *. set (SR := rsum (map (fun ve => q2r (snd ve)) (leaves r))) in *.
    set (TL := rsum (map (fun ve => Rabs (q2r (snd ve))) (leaves l))) in *. set (TR := rsum (map (fun ve => Rabs (q2r (snd ve))) (leaves r))) in *.
    set (a := tree_sum (fl prec emin) (tmap fst l)) in *. set (b := tree_sum (fl prec emin) (tmap fst r)) in *.
    pose proof (fl_error' (a + b)%Qc) as E. rewrite q2r_plus in E.
    set (g := growth (k + (nl + nr - 2))). 
    assert (GL : growth (k + (nl - 1)) <= g) by (apply growth_le; lia). assert (GR : growth (k + (nr - 1)) <= g) by (apply growth_le; lia).
    assert (G1 : 1 <= g) by apply growth_1.
    replace (k + (nl + nr - 1))%nat with (S (k + (nl + nr - 2))) by lia. rewrite growth_S. fold g.
    assert (INL : 1 <= INR nl) by (apply (le_INR 1); lia). assert (INR' : 1 <= INR nr) by (apply (le_INR 1); lia).
    set (X := TL + INR nl * c) in *. set (Y := TR + INR nr * c) in *.
    assert (CN : c <= INR nl * c) by (rewrite <- (Rmult_1_l c) at 1; apply Rmult_le_compat_r; lra). assert (CM : 0 <= INR nr * c) by (apply Rmult_le_pos; lra).
    assert (X0 : 0 <= X) by (unfold X; lra). assert (Y0 : 0 <= Y) by (unfold Y; lra).
    assert (EL : Rabs (q2r a - SL) <= (g - 1) * X). { eapply Rle_trans; [exact HL|]. apply Rmult_le_compat_r; lra. }
    assert (ER : Rabs (q2r b - SR) <= (g - 1) * Y). { eapply Rle_trans; [exact HR|]. apply Rmult_le_compat_r; lra. }
    assert (AB : Rabs (q2r a + q2r b) <= TL + TR + (g - 1) * X + (g - 1) * Y).
    { replace (q2r a + q2r b) with ((q2r a - SL) + (q2r b - SR) + (SL + SR)) by lra. eapply Rle_trans; [apply Rabs_triang|]. pose proof (Rabs_triang (q2r a - SL) (q2r b - SR)). pose proof (Rabs_triang SL SR). lra. }
    replace (q2r (fl prec emin (a + b)%Qc) - (SL + SR)) with ((q2r (fl prec emin (a + b)%Qc) - (q2r a + q2r b)) + ((q2r a - SL) + (q2r b - SR))) by lra.
    eapply Rle_trans; [apply Rabs_triang|]. pose proof (Rabs_triang (q2r a - SL) (q2r b - SR)) as TRI.
    assert (UM : u * (Rabs (q2r a + q2r b) + c) <= u * (X + Y + (g - 1) * X + (g - 1) * Y)). { apply Rmult_le_compat_l; [lra|]. unfold X, Y in *. lra. }
    replace (TL + TR + (INR nl + INR nr) * c) with (X + Y) by (unfold X, Y; lra).
    replace (((1 + u) * g - 1) * (X + Y)) with (u * (X + Y + (g - 1) * X + (g - 1) * Y) + ((g - 1) * X + (g - 1) * Y)) by ring. lra.
Qed.
(** Sums of given numbers. *)
Theorem sum_error : forall l v, sums_to (fl prec emin) l v ->
  Rabs (q2r v - q2r (qsum l)) <= (growth (length l - 1) - 1) * (rsum (map (fun x => Rabs (q2r x)) l) + INR (length l) * c).
Proof.
  intros l v [[ -> ->]|(t & PM & ->)].
  - cbn [qsum fold_right length Nat.sub map]. unfold growth, rsum, qsum. cbn [fold_right pow INR map]. rewrite Rminus_diag_eq by reflexivity. rewrite Rabs_R0. lra.
  - pose proof (tree_error 0 (tmap (fun x => (x, x)) t)) as H.
    assert (TM : tmap fst (tmap (fun x : Qc => (x, x)) t) = t) by (clear; induction t; cbn [tmap fst]; congruence).
    rewrite TM, leaves_tmap, !map_map, map_length in H. cbn [snd] in H. rewrite Nat.add_0_l in H.
    assert (LEN : length (leaves t) = length l) by now apply Permutation_length.
    rewrite q2r_qsum. rewrite LEN in H. rewrite (rsum_perm _ _ (Permutation_map (fun x => q2r x) PM)) in H. rewrite (rsum_perm _ _ (Permutation_map (fun x => Rabs (q2r x)) PM)) in H. apply H.
    intros a b I. apply in_map_iff in I as (x & E & _). injection E as <- <-. rewrite Rminus_diag_eq by reflexivity. rewrite Rabs_R0. unfold growth. cbn [pow]. lra.
Qed.
Theorem mean_error : forall l v, l <> [] -> mean_to (fl prec emin) l v ->
  Rabs (q2r v - q2r (qsum l / qn (length l))%Qc) <= (growth (length l) - 1) * (rsum (map (fun x => Rabs (q2r x)) l) / INR (length l) + c).
Proof.
  intros l v NE (s & S & ->). pose proof (sum_error l s S) as E. pose proof u_pos as U. pose proof c_pos as C.
  assert (N0 : (0 < length l)%nat) by (destruct l; [easy|cbn; lia]). set (n := length l) in *.
  assert (NR : 0 < INR n) by now apply lt_0_INR. assert (QN : qn n <> 0%Qc) by (intro K; pose proof (q2r_qn n) as Q; rewrite K, q2r_0 in Q; lra).
  set (M := rsum (map (fun x => Rabs (q2r x)) l)) in *. assert (M0 : 0 <= M) by (apply rsum_nonneg; intros; apply Rabs_pos).
  pose proof (fl_error' (s / qn n)%Qc) as F. rewrite !q2r_div, q2r_qn in * by exact QN.
  assert (AS : Rabs (q2r (qsum l)) <= M) by (rewrite q2r_qsum; unfold M; rewrite <- (map_map q2r Rabs); apply rsum_abs).
  set (g := growth (n - 1)) in *. assert (G1 : 1 <= g) by apply growth_1. replace (growth n) with (growth (Datatypes.S (n - 1))) by (f_equal; lia). rewrite growth_S. fold g.
  assert (SM : Rabs (q2r s) <= M + (g - 1) * (M + INR n * c)). { replace (q2r s) with ((q2r s - q2r (qsum l)) + q2r (qsum l)) by lra. eapply Rle_trans; [apply Rabs_triang|]. lra. }
  assert (IN : 0 < / INR n) by now apply Rinv_0_lt_compat.
  assert (D : forall x, Rabs (x / INR n) = Rabs x / INR n) by (intros x; unfold Rdiv; rewrite Rabs_mult, (Rabs_pos_eq (/ INR n)) by lra; reflexivity).
  replace (q2r (fl prec emin (s / qn n)%Qc) - q2r (qsum l) / INR n) with ((q2r (fl prec emin (s / qn n)%Qc) - q2r s / INR n) + (q2r s - q2r (qsum l)) / INR n) by (field; lra).
  eapply Rle_trans; [apply Rabs_triang|]. rewrite (D (q2r s - q2r (qsum l))). rewrite D in F.
  assert (E1 : Rabs (q2r s - q2r (qsum l)) / INR n <= (g - 1) * (M / INR n + c)).
  { apply Rmult_le_reg_r with (INR n); [exact NR|]. unfold Rdiv at 1. rewrite Rmult_assoc, Rinv_l, Rmult_1_r by lra. eapply Rle_trans; [exact E|]. apply Req_le. field. lra. }
  assert (E2 : Rabs (q2r s) / INR n <= M / INR n + (g - 1) * (M / INR n + c)).
  { apply Rmult_le_reg_r with (INR n); [exact NR|]. unfold Rdiv at 1. rewrite Rmult_assoc, Rinv_l, Rmult_1_r by lra. eapply Rle_trans; [exact SM|]. apply Req_le. field. lra. }
  set (Z := M / INR n + c) in *. assert (E3 : u * (Rabs (q2r s) / INR n + c) <= u * (Z + (g - 1) * Z)) by (apply Rmult_le_compat_l; [lra|unfold Z in *; lra]).
  replace (((1 + u) * g - 1) * Z) with (u * (Z + (g - 1) * Z) + (g - 1) * Z) by ring. lra.
Qed.
(** Numbers on a common grid whose absolute values add up to less than the precision are summed without any error. *)
Lemma sum_exact : forall e l v, (emin <= e)%Z -> (forall x, In x l -> exists z, x = (qz z * two e)%Qc) ->
  rsum (map (fun x => Rabs (q2r x)) l) <= bpow radix2 (prec + e) -> sums_to (fl prec emin) l v -> v = qsum l.
Proof.
  intros e l v EM GR SM [[ -> ->]|(t & PM & ->)]; [reflexivity|].
  assert (IN : forall x, In x (leaves t) -> exists z, x = (qz z * two e)%Qc) by (intros x X; apply GR; eapply Permutation_in; eauto).
  assert (S2 : rsum (map (fun x => Rabs (q2r x)) (leaves t)) <= bpow radix2 (prec + e)) by (now rewrite (rsum_perm _ _ (Permutation_map (fun x => Rabs (q2r x)) PM))).
  assert (Q : qsum l = qsum (leaves t)) by (apply q2r_eq; rewrite !q2r_qsum; symmetry; apply rsum_perm, Permutation_map, PM). rewrite Q. clear -EM IN S2 P.
  assert (G : forall t, (forall x, In x (leaves t) -> exists z, x = (qz z * two e)%Qc) -> exists z, qsum (leaves t) = (qz z * two e)%Qc).
  { clear. induction t as [a|l IHl r IHr]; intros IN; cbn [leaves] in *; [destruct (IN a (or_introl eq_refl)) as [z ->]; exists z; unfold qsum; cbn [fold_right]; ring|].
    destruct IHl as [zl ZL]; [intros; apply IN, in_or_app; auto|]. destruct IHr as [zr ZR]; [intros; apply IN, in_or_app; auto|]. exists (zl + zr)%Z. rewrite qsum_app, ZL, ZR.
    replace (qz (zl + zr)) with (qz zl + qz zr)%Qc; [ring|]. apply q2r_eq. rewrite q2r_plus, !q2r_qz. now rewrite plus_IZR. }
  induction t as [a|l IHl r IHr]; [unfold qsum; cbn [tree_sum leaves fold_right]; ring|].
  cbn [tree_sum leaves] in *. rewrite map_app, rsum_app in S2.
  assert (A0 : forall t, 0 <= rsum (map (fun x => Rabs (q2r x)) (leaves t))) by (intros; apply rsum_nonneg; intros; apply Rabs_pos).
  rewrite IHl, IHr; [|intros; apply IN, in_or_app; auto|pose proof (A0 l); lra|intros; apply IN, in_or_app; auto|pose proof (A0 r); lra].
  rewrite <- qsum_app. apply fl_format. destruct (G (Node l r)) as [z Z]; [exact IN|]. cbn [leaves] in Z.
  assert (AB : Rabs (q2r (qsum (leaves l ++ leaves r))) <= bpow radix2 (prec + e)).
  { rewrite q2r_qsum. eapply Rle_trans; [apply rsum_abs|]. rewrite map_map, map_app, rsum_app. exact S2. }
  rewrite Z, q2r_mult, q2r_qz, q2r_two in *.
  assert (ZB : (Z.abs z <= 2 ^ prec)%Z).
  { apply le_IZR. rewrite abs_IZR. change (2 ^ prec)%Z with (radix2 ^ prec)%Z. rewrite IZR_Zpower by lia. rewrite Rabs_mult, (Rabs_pos_eq (bpow radix2 e)) in AB by apply bpow_ge_0.
    rewrite bpow_plus in AB. apply Rmult_le_reg_r with (bpow radix2 e); [apply bpow_gt_0|exact AB]. }
  destruct (Z.eq_dec (Z.abs z) (2 ^ prec)) as [EQ|NE].
  - assert (ZZ : z = (2 ^ prec)%Z \/ z = (- 2 ^ prec)%Z) by lia. assert (PW : IZR (2 ^ prec) = bpow radix2 prec) by (change (2 ^ prec)%Z with (radix2 ^ prec)%Z; apply IZR_Zpower; lia).
    assert (FB : generic_format radix2 (FLT_exp emin prec) (bpow radix2 (prec + e))) by (apply generic_format_FLT_bpow; [exact P|lia] || (apply generic_format_bpow; unfold FLT_exp; lia)).
    destruct ZZ as [ ->| ->].
    + rewrite PW, <- bpow_plus. exact FB.
    + rewrite opp_IZR, PW, Ropp_mult_distr_l_reverse, <- bpow_plus. apply generic_format_opp. exact FB.
  - apply generic_format_FLT. exists (Float radix2 z e); [reflexivity|cbn [Fnum]; change (radix2 ^ prec)%Z with (2 ^ prec)%Z; lia|exact EM].
Qed.
End Sum.

(** ** Sums of products *)
Lemma tree_lift : forall A B (f : A -> B) (t : tree B) l, leaves t = map f l -> exists t', tmap f t' = t /\ leaves t' = l.
Proof.
  induction t as [b|l IHl r IHr]; intros x E; cbn [leaves] in E.
  - destruct x as [|a [|? ?]]; try discriminate. injection E as ->. exists (Leaf a). split; reflexivity.
  - symmetry in E. apply map_eq_app in E as (x1 & x2 & -> & E1 & E2). destruct (IHl x1 (eq_sym E1)) as (t1 & T1 & L1). destruct (IHr x2 (eq_sym E2)) as (t2 & T2 & L2).
    exists (Node t1 t2). cbn [tmap leaves]. split; congruence.
Qed.
Theorem dot_error : forall prec emin, (1 < prec)%Z -> forall (l : list (Qc * Qc)) v,
  sums_to (fl prec emin) (map (fun xy => fl prec emin (fst xy * snd xy)%Qc) l) v ->
  Rabs (q2r v - q2r (qsum (map (fun xy => (fst xy * snd xy)%Qc) l))) <=
  (growth prec (length l) - 1) * (rsum (map (fun xy => Rabs (q2r (fst xy * snd xy)%Qc)) l) + INR (length l) * normal_min prec emin).
Proof.
  intros prec emin P l v [[E ->]|(t & PM & ->)].
  - apply map_eq_nil in E as ->. cbn [map length]. unfold growth, rsum, qsum. cbn [fold_right pow INR map]. rewrite Rminus_diag_eq by reflexivity. rewrite Rabs_R0. lra.
  - set (f := fun xy : Qc * Qc => fl prec emin (fst xy * snd xy)%Qc) in *. destruct (Permutation_map_inv _ _ PM) as (l3 & E & P3).
    destruct (tree_lift _ _ f t l3 E) as (t' & <- & L'). pose proof (tree_error prec emin P 1 (tmap (fun xy => (f xy, (fst xy * snd xy)%Qc)) t')) as H.
    assert (TM : tmap fst (tmap (fun xy : Qc * Qc => (f xy, (fst xy * snd xy)%Qc)) t') = tmap f t') by (clear; induction t'; cbn [tmap fst]; congruence).
    rewrite TM, leaves_tmap, !map_map, map_length in H. cbn [snd] in H. rewrite L' in H. rewrite q2r_qsum, map_map.
    rewrite (rsum_perm _ _ (Permutation_map (fun xy : Qc * Qc => q2r (fst xy * snd xy)%Qc) P3)). rewrite (rsum_perm _ _ (Permutation_map (fun xy : Qc * Qc => Rabs (q2r (fst xy * snd xy)%Qc)) P3)). rewrite (Permutation_length P3).
    assert (N0 : (0 < length l3)%nat) by (rewrite <- L'; apply leaves_nonempty). replace (length l3) with (1 + (length l3 - 1))%nat at 1 by lia. apply H.
    intros a e I. apply in_map_iff in I as (xy & E2 & _). injection E2 as <- <-. unfold f. eapply Rle_trans; [apply (fl_error' prec emin P)|]. unfold growth. cbn [pow]. apply Req_le. ring.
Qed.
