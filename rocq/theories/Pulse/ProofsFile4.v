(** The area and the peak of the extracted pulse. *)
From Coq Require Import List ZArith NArith QArith Qcanon Bool Arith Reals Lia Psatz.
From Flocq Require Import Core BinarySingleNaN.
From Verif.Base Require Import Py PyFacts Lst Num Fl FlFacts.
From Verif.WfUtils Require Import Model Proofs.
From Verif.Pulse Require Import ModelFile ProofsFile ProofsFile2 ProofsFile3.
From Coq Require Import Lra.
Import ListNotations.
Local Open Scope list_scope.
Local Open Scope R_scope.

(** ** Area *)
Definition qabs (q : Qc) : Qc := if qltb q 0 then (- q)%Qc else q.
Lemma two_nz : qz 2 <> 0%Qc. Proof. intro E. apply (f_equal q2r) in E. rewrite q2r_qz, q2r_0 in E. lra. Qed.
Lemma trapz_cons : forall a b l, q2r (trapz (a :: b :: l)) = (q2r a + q2r b) / 2 + q2r (trapz (b :: l)).
Proof. intros. cbn [trapz]. rewrite q2r_plus, q2r_div, q2r_plus, q2r_qz by apply two_nz. reflexivity. Qed.
Lemma trapz_close : forall e c ys y, 0 <= c -> Forall2 (fun a b => Rabs (q2r a - q2r b) <= e * Rabs (q2r b) + c) ys y ->
  Rabs (q2r (trapz ys) - q2r (trapz y)) <= e * q2r (trapz (map qabs y)) + c * INR (List.length y - 1).
Proof.
  intros e c ys y C H. induction H as [|a b ys y H1 H IH].
  - cbn. rewrite q2r_0, Rminus_0_r, Rabs_R0. lra.
  - destruct H as [|a' b' ys y H2 H].
    + cbn. rewrite q2r_0, Rminus_0_r, Rabs_R0. lra.
    + cbn [map] in *. rewrite !trapz_cons. unfold qabs at 1 2. rewrite !q2r_abs. cbn [List.length] in *. replace (S (S (List.length y)) - 1)%nat with (S (S (List.length y) - 1)) by lia. rewrite S_INR.
      set (A := q2r (trapz (a' :: ys))) in *. set (B := q2r (trapz (b' :: y))) in *.
      replace ((q2r a + q2r a') / 2 + A - ((q2r b + q2r b') / 2 + B)) with ((q2r a - q2r b) / 2 + ((q2r a' - q2r b') / 2 + (A - B))) by field.
      eapply Rle_trans; [apply Rabs_triang|]. eapply Rle_trans; [apply Rplus_le_compat_l, Rabs_triang|].
      unfold Rdiv at 1 2. rewrite !Rabs_mult, (Rabs_pos_eq (/ 2)) by lra. lra.
Qed.
Lemma trapz_div : forall a l, a <> 0%Qc -> trapz (map (fun v => v / a)%Qc l) = (trapz l / a)%Qc.
Proof.
  intros a l A. induction l as [|x l IH]; [cbn; field; exact A|]. destruct l as [|y l]; [cbn; field; exact A|].
  cbn [map] in *. change (trapz (x / a :: y / a :: map (fun v => v / a) l)%Qc) with ((x / a + y / a) / qz 2 + trapz (y / a :: map (fun v => v / a) l))%Qc. rewrite IH.
  change (trapz (x :: y :: l)) with ((x + y) / qz 2 + trapz (y :: l))%Qc. field. split; [exact two_nz|exact A].
Qed.
Lemma trapz_zero : forall l, (forall v, In v l -> v = 0%Qc) -> trapz l = 0%Qc.
Proof.
  induction l as [|x l IH]; intro H; [reflexivity|]. destruct l as [|y l]; [reflexivity|].
  change (trapz (x :: y :: l)) with ((x + y) / qz 2 + trapz (y :: l))%Qc. rewrite IH by (intros v I; apply H; now right). rewrite (H x), (H y) by (cbn; auto). field. exact two_nz.
Qed.
Lemma map_qabs : forall l, (forall v, In v l -> (0 <= v)%Qc) -> map qabs l = l.
Proof.
  intros l H. rewrite <- (map_id l) at 2. apply map_ext_in. intros v I. unfold qabs. destruct (qltb_spec v 0%Qc) as [K|K]; [|reflexivity]. exfalso. specialize (H v I). exact (Qcle_not_lt _ _ H K).
Qed.

(** ** Length of the average *)
Lemma average_length : forall junk np n src t, Forall (rect np n) src -> (forall i, rect np n (junk i)) -> List.length (get_average_wf junk np n src t) = n.
Proof.
  intros junk np n src t HS HJ. unfold get_average_wf. pose proof (average_loop_spec np n src t junk src [] (repeat 0%Qc n) eq_refl) as E. cbn [List.length after fold_left] in E.
  rewrite E, map_length. apply (fold_add n (fun i => mean0 (prepared np n src t junk i) n)); [apply repeat_length|]. intros. apply mean0_length.
Qed.

(** ** Peak *)
Section Peak.
Variables (np n : nat) (src : list event) (junk : nat -> event).
Hypotheses (Hs : Forall (rect np n) src) (Hj : forall i, rect np n (junk i)) (Hp : (0 < np)%nat).
Let m i := spec_mean np n src i.
Definition event_mean (i j : nat) : Qc := (qsum (map (fun p => spec_shifted np n src 60 i p j) (seq 0 np)) / qn np)%Qc.
Lemma m_length : forall i, List.length (m i) = n.
Proof. intros. unfold m, spec_mean. now rewrite map_length, seq_length. Qed.
Lemma event_mean_spec : forall i j, event_mean i j =
  let k := (Z.of_nat j - (60 - Z.of_nat (argmax (m i))))%Z in if ((0 <=? k) && (k <? Z.of_nat n))%Z then nth (Z.to_nat k) (m i) 0%Qc else 0%Qc.
Proof.
  intros i j. unfold event_mean, spec_shifted. fold (m i). cbv zeta. destruct (_ && _)%bool eqn:E.
  - apply andb_true_iff in E as [E1 E2]. apply Z.leb_le in E1. apply Z.ltb_lt in E2. set (k := Z.to_nat _). change (m i) with (spec_mean np n src i). unfold spec_mean. rewrite nth_map_seq by (unfold k; lia). reflexivity.
  - replace (qsum (map (fun _ : nat => 0%Qc) (seq 0 np))) with 0%Qc; [field; intro Z; pose proof (qn_pos np Hp) as Q; rewrite Z in Q; now apply Qclt_not_eq in Q|].
    clear. induction (seq 0 np) as [|x l IH]; [reflexivity|]. cbn [map]. rewrite qsum_cons, <- IH. ring.
Qed.
Lemma average_event_mean : forall j, (j < n)%nat -> nth j (get_average_wf junk np n src 60) 0%Qc = (qsum (map (fun i => event_mean i j) (seq 0 (List.length src))) / qn (List.length src))%Qc.
Proof. intros j J. rewrite (c43_avg np n src 60 junk Hs Hj j J). reflexivity. Qed.
Lemma event_mean_peak : forall i j, (60 < n)%nat -> (j < n)%nat -> (exists k, (k < n)%nat /\ 0 <= nth k (m i) 0)%Qc -> (event_mean i j <= event_mean i 60)%Qc.
Proof.
  intros i j N J (k0 & K0 & P). rewrite !event_mean_spec. cbv zeta. pose proof (m_length i) as L. assert (NE : m i <> []) by (intro E; rewrite E in L; cbn in L; lia).
  destruct (argmax_spec (m i) NE) as (A1 & A2 & _). set (a := argmax (m i)) in *. rewrite L in *.
  replace (Z.of_nat 60 - (60 - Z.of_nat a))%Z with (Z.of_nat a) by lia. rewrite (proj2 (Z.leb_le 0 (Z.of_nat a))) by lia. rewrite (proj2 (Z.ltb_lt (Z.of_nat a) _)) by lia. cbn [andb]. rewrite Nat2Z.id.
  destruct (_ && _)%bool eqn:E.
  - apply andb_true_iff in E as [E1 E2]. apply Z.leb_le in E1. apply Z.ltb_lt in E2. apply A2. lia.
  - apply Qcle_trans with (1 := P). now apply A2.
Qed.
Lemma qsum_le : forall (f g : nat -> Qc) l, (forall i, In i l -> f i <= g i)%Qc -> (qsum (map f l) <= qsum (map g l))%Qc.
Proof.
  intros f g. induction l as [|x l IH]; intro H; [apply Qcle_refl|]. cbn [map]. rewrite !qsum_cons. apply Qcplus_le_compat; [apply H; now left|apply IH; intros; apply H; now right].
Qed.
Lemma average_peak : forall j, (60 < n)%nat -> (j < n)%nat -> src <> [] -> (forall i, (i < List.length src)%nat -> exists k, (k < n)%nat /\ 0 <= nth k (m i) 0)%Qc ->
  (nth j (get_average_wf junk np n src 60) 0 <= nth 60 (get_average_wf junk np n src 60) 0)%Qc.
Proof.
  intros j N J NE H. rewrite !average_event_mean by lia. unfold Qcdiv. apply Qcmult_le_compat_r.
  - apply qsum_le. intros i I. apply in_seq in I. apply event_mean_peak; auto. apply H. lia.
  - apply q2r_le. rewrite q2r_0. assert (Q : (0 < qn (List.length src))%Qc) by (apply qn_pos; destruct src; [contradiction|cbn; lia]). rewrite q2r_inv by (intro E; rewrite E in Q; now apply Qclt_not_eq in Q). apply q2r_lt in Q. rewrite q2r_0 in Q. apply Rlt_le, Rinv_0_lt_compat, Q.
Qed.
Lemma average_short : forall v, (n <= 30)%nat -> In v (get_average_wf junk np n src 60) -> v = 0%Qc.
Proof.
  intros v N I. apply (In_nth _ _ 0%Qc) in I as (j & J & <-). rewrite average_length in J by assumption. rewrite average_event_mean by exact J.
  replace (map (fun i => event_mean i j) (seq 0 (List.length src))) with (map (fun _ : nat => 0%Qc) (seq 0 (List.length src))).
  - replace (qsum (map (fun _ : nat => 0%Qc) (seq 0 (List.length src)))) with 0%Qc; [unfold Qcdiv; ring|]. clear. induction (seq 0 (List.length src)) as [|x l IH]; [reflexivity|]. cbn [map]. rewrite qsum_cons, <- IH. ring.
  - apply map_ext. intro i. rewrite event_mean_spec. cbv zeta. pose proof (m_length i) as L. assert (NE : m i <> []) by (intro E; rewrite E in L; cbn in L; lia).
    destruct (argmax_spec (m i) NE) as (A1 & _). rewrite L in A1. destruct (Z.leb_spec 0 (Z.of_nat j - (60 - Z.of_nat (argmax (m i))))); [lia|reflexivity].
Qed.
End Peak.
