(** Lemmas about binned curves. *)
From Coq Require Import List ZArith QArith Qcanon Bool Arith Lia Sorted.
From Verif.Base Require Import Py Num Lst.
From Verif.Resol Require Import ModelBins.
Import ListNotations.
Local Open Scope list_scope.
Local Open Scope Qc_scope.

(** Edges, and the bins they make: the first edge of a bin belongs to it, of the last bin also the second one. *)
Definition edges_to (m : Qc) (edges : list Qc) : Prop :=
  (2 <= List.length edges)%nat /\ nth 0 edges 0 = tenth /\ last edges 0 = m /\ forall i, (S i < List.length edges)%nat -> nth i edges 0 < nth (S i) edges 0.
Definition in_bin (edges : list Qc) (k : nat) (x : Qc) : Prop :=
  (S k < List.length edges)%nat /\ nth k edges 0 <= x /\ (x < nth (S k) edges 0 \/ (S (S k) = List.length edges /\ x = last edges 0)).

Lemma last_nth : forall (l : list Qc), last l 0 = nth (List.length l - 1) l 0.
Proof. induction l as [|a [|b l] IH]; auto. change (last (a :: b :: l) 0) with (last (b :: l) 0). rewrite IH. cbn [List.length Nat.sub nth]. now rewrite Nat.sub_0_r. Qed.
Lemma increasing_iff : forall l, increasing l = true <-> forall i, (S i < List.length l)%nat -> nth i l 0 < nth (S i) l 0.
Proof.
  induction l as [|a [|b l] IH]; [split; [intros _ i I; cbn in I; lia|reflexivity]|split; [intros _ i I; cbn in I; lia|reflexivity]|].
  change (increasing (a :: b :: l)) with (qltb a b && increasing (b :: l)). rewrite andb_true_iff, IH. destruct (qltb_spec a b) as [Q|Q]; split.
  - intros [_ H] [|i] I; [exact Q|]. apply (H i). cbn in *. lia.
  - intros H. split; [reflexivity|]. intros i I. apply (H (S i)). cbn in *. lia.
  - intros [H _]. discriminate.
  - intros H. exfalso. apply Q. apply (H 0%nat). cbn. lia.
Qed.
Lemma sorted_le : forall l, (forall i, (S i < List.length l)%nat -> nth i l 0 < nth (S i) l 0) -> forall i j, (i < j)%nat -> (j < List.length l)%nat -> nth i l 0 < nth j l 0.
Proof. intros l H i j L. induction L as [|j L IH]; intros J; [now apply H|]. apply Qclt_trans with (nth j l 0); [apply IH; lia|now apply H]. Qed.
(** The number of edges at or below [x]. *)
Lemma count_spec : forall x l, (forall i, (S i < List.length l)%nat -> nth i l 0 < nth (S i) l 0) ->
  let c := List.length (filter (fun e => qleb e x) l) in
  (c <= List.length l)%nat /\ (forall i, (i < c)%nat -> nth i l 0 <= x) /\ (forall i, (c <= i)%nat -> (i < List.length l)%nat -> x < nth i l 0).
Proof.
  intros x. induction l as [|a l IH]; intros S c; [cbn; repeat split; intros; lia|].
  assert (SI : forall i, (Datatypes.S i < List.length l)%nat -> nth i l 0 < nth (Datatypes.S i) l 0) by (intros i I; apply (S (Datatypes.S i)); cbn; lia).
  destruct (IH SI) as (C1 & C2 & C3). unfold c. cbn [filter]. destruct (qleb_spec a x) as [Q|Q].
  - cbn [List.length]. split; [lia|]. split.
    + intros [|i] I; [exact Q|]. apply C2. lia.
    + intros [|i] I J; [lia|]. apply C3; lia.
  - assert (E : filter (fun e => qleb e x) l = []).
    { destruct (filter (fun e => qleb e x) l) as [|b f] eqn:F; [reflexivity|]. exfalso. assert (I : In b (filter (fun e => qleb e x) l)) by (rewrite F; now left). apply filter_In in I as [I B].
      destruct (qleb_spec b x) as [B'|]; [|discriminate]. destruct (In_nth l b 0 I) as (i & J & K). assert (a < b); [|apply Q; apply Qclt_le_weak; now apply Qclt_le_trans with b].
      rewrite <- K. change a with (nth 0 (a :: l) 0). change (nth i l 0) with (nth (Datatypes.S i) (a :: l) 0). apply (sorted_le (a :: l) S); cbn; lia. }
    rewrite E. cbn [List.length]. split; [lia|]. split; [lia|]. intros i _ J. destruct i as [|i]; [now apply Qcnot_le_lt|].
    apply Qclt_trans with a; [now apply Qcnot_le_lt|]. change a with (nth 0 (a :: l) 0). apply (sorted_le (a :: l) S); cbn in *; lia.
Qed.
Lemma bin_number_iff : forall m edges x k, edges_to m edges -> x <= m -> (bin_number edges x = S k /\ (S k < List.length edges)%nat <-> in_bin edges k x).
Proof.
  intros m edges x k (L & F & LA & S) XM. destruct (count_spec x edges S) as (C1 & C2 & C3). unfold bin_number, in_bin. set (c := List.length (filter (fun e => qleb e x) edges)) in *.
  rewrite last_nth in *. destruct (qeqb_spec x (nth (List.length edges - 1) edges 0)) as [EQ|NE].
  - assert (CL : c = List.length edges). { destruct (Nat.lt_ge_cases c (List.length edges)) as [J|J]; [|lia]. exfalso. assert (Q := C3 (List.length edges - 1)%nat ltac:(lia) ltac:(lia)). rewrite EQ in Q at 1. revert Q. apply Qcle_not_lt, Qcle_refl. }
    split.
    + intros [B K]. split; [exact K|]. split; [apply C2; lia|]. right. split; [lia|exact EQ].
    + intros (K & _ & [LT|[LL _]]); [|split; lia]. exfalso. apply (Qcle_not_lt (nth (Datatypes.S k) edges 0) x); [apply C2; lia|exact LT].
  - assert (XL : x < m). { destruct (Qclt_le_dec x m) as [|G]; [assumption|]. exfalso. apply NE. rewrite LA. now apply Qcle_antisym. }
    assert (CL : (c < List.length edges)%nat). { destruct (Nat.lt_ge_cases c (List.length edges)) as [J|J]; [assumption|]. exfalso. assert (Q := C2 (List.length edges - 1)%nat ltac:(lia)). rewrite LA in Q. now apply (Qcle_not_lt _ _ Q). }
    split.
    + intros [B K]. split; [exact K|]. split; [apply C2; lia|]. left. apply C3; lia.
    + intros (K & G & [LT|[_ E]]); [|now elim NE]. split; [|exact K]. destruct (lt_eq_lt_dec c (Datatypes.S k)) as [[J|J]|J]; [|exact J|].
      * exfalso. assert (Q := C3 k ltac:(lia) ltac:(lia)). now apply (Qcle_not_lt _ _ G).
      * exfalso. assert (Q := C2 (Datatypes.S k) J). now apply (Qcle_not_lt _ _ Q).
Qed.
Lemma bin_exists : forall m edges x, edges_to m edges -> tenth <= x -> x <= m -> exists k, in_bin edges k x.
Proof.
  intros m edges x E X1 X2. pose proof E as (L & F & LA & S). destruct (count_spec x edges S) as (C1 & C2 & C3). set (c := List.length (filter (fun e => qleb e x) edges)) in *.
  assert (C0 : (0 < c)%nat). { destruct (Nat.eq_dec c 0) as [Z|]; [|lia]. exfalso. assert (Q := C3 0%nat ltac:(lia) ltac:(lia)). rewrite F in Q. now apply (Qcle_not_lt _ _ X1). }
  destruct (Nat.eq_dec c (List.length edges)) as [CL|CL].
  - exists (List.length edges - 2)%nat. unfold in_bin. split; [lia|]. split; [apply C2; lia|]. right. split; [lia|]. apply Qcle_antisym; [now rewrite LA|]. rewrite last_nth. apply C2. lia.
  - exists (c - 1)%nat. unfold in_bin. split; [lia|]. split; [apply C2; lia|]. left. apply C3; lia.
Qed.
Lemma bin_unique : forall m edges x j k, edges_to m edges -> in_bin edges j x -> in_bin edges k x -> j = k.
Proof.
  intros m edges x j k (L & F & LA & S).
  assert (H : forall j k, (j < k)%nat -> in_bin edges j x -> in_bin edges k x -> False).
  { clear j k. intros j k JK (J1 & J2 & [J3|[J3 _]]) (K1 & K2 & _); [|lia]. apply (Qcle_not_lt _ _ K2). apply Qclt_le_trans with (nth (Datatypes.S j) edges 0); [exact J3|].
    destruct (Nat.eq_dec (Datatypes.S j) k) as [<-|]; [apply Qcle_refl|]. apply Qclt_le_weak. apply (sorted_le edges S); lia. }
  intros J K. destruct (lt_eq_lt_dec j k) as [[A|A]|A]; [|exact A|]; exfalso; eauto.
Qed.
Lemma bin_above : forall m edges x k, edges_to m edges -> in_bin edges k x -> tenth <= x.
Proof.
  intros m edges x k (L & F & LA & S) (K1 & K2 & _). rewrite <- F. apply Qcle_trans with (nth k edges 0); [|exact K2]. destruct k as [|k]; [apply Qcle_refl|]. apply Qclt_le_weak. apply (sorted_le edges S); lia.
Qed.
(** The largest value. *)
Lemma fold_top : forall pts a, let m := fold_left (fun m p => if qltb m (px p) then px p else m) pts a in
  a <= m /\ (forall p, In p pts -> px p <= m) /\ (m = a \/ exists p, In p pts /\ px p = m).
Proof.
  induction pts as [|q pts IH]; intros a m; [cbn; repeat split; [apply Qcle_refl|easy|now left]|]. unfold m. cbn [fold_left]. destruct (IH (if qltb a (px q) then px q else a)) as (A & B & C). cbv zeta in *.
  set (m' := fold_left _ pts _) in *. destruct (qltb_spec a (px q)) as [Q|Q].
  - split; [apply Qclt_le_weak; now apply Qclt_le_trans with (px q)|]. split; [intros p [<-|I]; auto|]. right. destruct C as [C|(p & I & C)]; [exists q; split; [now left|auto]|exists p; split; [now right|auto]].
  - split; [exact A|]. split; [intros p [<-|I]; [apply Qcle_trans with a; [now apply Qcnot_lt_le|exact A]|auto]|]. destruct C as [C|(p & I & C)]; [now left|right; exists p; split; [now right|auto]].
Qed.
Lemma top_spec : forall pts m, top pts = Ok m -> (forall p, In p pts -> px p <= m) /\ exists p, In p pts /\ px p = m.
Proof.
  intros [|q pts] m E; [discriminate|]. cbn [top] in E. injection E as <-. destruct (fold_top pts (px q)) as (A & B & C). split.
  - intros p [<-|I]; auto.
  - destruct C as [->|(p & I & C)]; [exists q; split; [now left|reflexivity]|exists p; split; [now right|exact C]].
Qed.
(** Means lie between bounds. *)
Lemma mean_ge : forall l a, l <> [] -> (forall x, In x l -> a <= x) -> a <= qmean l.
Proof.
  intros l a N H. unfold qmean. assert (P : 0 < qn (List.length l)) by (apply qn_pos; destruct l; [easy|cbn; lia]).
  assert (S : qn (List.length l) * a <= qsum l). { clear N P. induction l as [|x l IH]; [cbn [List.length]; unfold qsum; cbn [fold_right]; change (qn 0) with 0; replace (0 * a) with 0 by ring; apply Qcle_refl|].
    cbn [List.length]. rewrite qn_S. unfold qsum in *. cbn [fold_right]. pose proof (H x (or_introl eq_refl)). assert (qn (List.length l) * a <= fold_right Qcplus 0 l) by (apply IH; intros; apply H; now right). replace ((qn (List.length l) + 1) * a) with (qn (List.length l) * a + a) by ring. generalize dependent (qn (List.length l) * a). intros; qlra. }
  apply Qcmult_lt_0_le_reg_r with (qn (List.length l)); [exact P|]. replace (qsum l / qn (List.length l) * qn (List.length l)) with (qsum l) by (field; intro Z; rewrite Z in P; now apply Qclt_not_eq in P). replace (a * qn (List.length l)) with (qn (List.length l) * a) by ring. exact S.
Qed.
Lemma mean_lt : forall l a, l <> [] -> (forall x, In x l -> x < a) -> qmean l < a.
Proof.
  intros l a N H. unfold qmean. assert (P : 0 < qn (List.length l)) by (apply qn_pos; destruct l; [easy|cbn; lia]).
  assert (S : qsum l < qn (List.length l) * a). { clear P. induction l as [|x l IH]; [easy|]. cbn [List.length]. rewrite qn_S. unfold qsum in *. cbn [fold_right]. pose proof (H x (or_introl eq_refl)).
    destruct l as [|y l]; [cbn [fold_right List.length]; change (qn 0) with 0; replace ((0 + 1) * a) with a by ring; qlra|]. assert (fold_right Qcplus 0 (y :: l) < qn (List.length (y :: l)) * a) by (apply IH; [easy|intros; apply H; now right]). replace ((qn (List.length (y :: l)) + 1) * a) with (qn (List.length (y :: l)) * a + a) by ring. generalize dependent (qn (List.length (y :: l)) * a). intros; qlra. }
  assert (D : qsum l / qn (List.length l) * qn (List.length l) = qsum l) by (field; intro Z; rewrite Z in P; now apply Qclt_not_eq in P).
  destruct (Qclt_le_dec (qsum l / qn (List.length l)) a) as [|G]; [assumption|]. exfalso. apply (Qcle_not_lt (qn (List.length l) * a) (qsum l)); [|exact S].
  rewrite <- D. rewrite Qcmult_comm. apply Qcmult_le_compat_r; [exact G|now apply Qclt_le_weak].
Qed.
Lemma mean_le : forall l a, l <> [] -> (forall x, In x l -> x <= a) -> qmean l <= a.
Proof.
  intros l a N H. assert (G := mean_ge (map Qcopp l) (- a)). assert (M : qmean (map Qcopp l) = - qmean l).
  { unfold qmean. rewrite map_length. assert (S : qsum (map Qcopp l) = - qsum l). { clear. induction l as [|x l IH]; [reflexivity|]. unfold qsum in *. cbn [map fold_right]. rewrite IH. ring. } rewrite S. unfold Qcdiv. ring. }
  rewrite M in G. assert (- a <= - qmean l); [|qlra]. apply G; [destruct l; [easy|discriminate]|]. intros x I. apply in_map_iff in I as (y & <- & Y). specialize (H y Y). qlra.
Qed.
