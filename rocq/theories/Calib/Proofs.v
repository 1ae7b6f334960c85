(** Time correction. *)
From Coq Require Import List ZArith QArith Qcanon Qround Bool Arith Lia.
From Verif.Base Require Import Py PyFacts Num Lst.
From Verif.Calib Require Import Model.
Import ListNotations.
Local Open Scope list_scope.
Local Open Scope Qc_scope.

Lemma qfloor_spec : forall x, qz (qfloor x) <= x /\ x < qz (qfloor x + 1).
Proof.
  intro x. unfold qfloor, Qcle, Qclt. rewrite !this_qz. split; [apply Qfloor_le|apply Qlt_floor].
Qed.
Lemma qceil_spec : forall x, x <= qz (qceil x) /\ qz (qceil x - 1) < x.
Proof.
  intro x. unfold qceil, Qcle, Qclt. rewrite !this_qz. split; [apply Qle_ceiling|apply Qceiling_lt].
Qed.
Lemma qfloor_unique : forall x z, qz z <= x -> x < qz (z + 1) -> qfloor x = z.
Proof.
  intros x z H1 H2. destruct (qfloor_spec x) as [A B]. 
  assert (qz (qfloor x) < qz (z + 1)) as C by qlra. assert (qz z < qz (qfloor x + 1)) as D by qlra.
  apply qz_lt in C. apply qz_lt in D. lia.
Qed.
Lemma qceil_unique : forall x z, x <= qz z -> qz (z - 1) < x -> qceil x = z.
Proof.
  intros x z H1 H2. destruct (qceil_spec x) as [A B]. 
  assert (qz (z - 1) < qz (qceil x)) as C by qlra. assert (qz (qceil x - 1) < qz z) as D by qlra.
  apply qz_lt in C. apply qz_lt in D. lia.
Qed.

Definition integer (c : Qc) : Prop := exists z, c = qz z.

(** Sample position below 0, above the last sample, between two samples. *)
Lemma sample_low : forall w c i, qn i - c < 0 -> (2 <= List.length w)%nat ->
  t_cor_sample w c i = Ok (nth 0 w 0 + (nth 1 w 0 - nth 0 w 0) * (qn i - c)).
Proof.
  intros w c i H L. unfold t_cor_sample. set (x := qn i - c) in *. destruct (qfloor_spec x) as [A B].
  assert (qz (qfloor x) < qz 0) as C by (change (qz 0) with 0; qlra). apply qz_lt in C.
  rewrite (proj2 (Z.ltb_lt _ _) C). cbn [Z.sub Z.opp Z.add Z.eqb Z.to_nat Pos.to_nat Pos.iter_op]. f_equal.
  change (Pos.to_nat 1) with 1%nat. change (qz 0) with 0. change (qz 1) with 1. field. discriminate.
Qed.
Lemma sample_high : forall w c i, (2 <= List.length w)%nat -> qz (Z.of_nat (List.length w) - 1) < qn i - c ->
  let n := List.length w in
  t_cor_sample w c i = Ok (nth (n - 2) w 0 + (nth (n - 1) w 0 - nth (n - 2) w 0) * (qn i - c - qn (n - 2))).
Proof.
  intros w c i L H n. unfold t_cor_sample. set (x := qn i - c) in *. fold n in H |- *.
  destruct (qfloor_spec x) as [A B]. destruct (qceil_spec x) as [A2 B2].
  assert (qz (Z.of_nat n - 1) < qz (qfloor x + 1)) as C by qlra. apply qz_lt in C.
  assert (qz (Z.of_nat n - 1) < qz (qceil x)) as C2 by qlra. apply qz_lt in C2.
  rewrite (proj2 (Z.ltb_ge _ _)) by (fold n in L; lia). rewrite (proj2 (Z.leb_le _ _)) by lia.
  replace (Z.of_nat n - 1 - (Z.of_nat n - 2))%Z with 1%Z by lia. cbn [Z.eqb]. f_equal.
  replace (Z.to_nat (Z.of_nat n - 2)) with (n - 2)%nat by lia. replace (Z.to_nat (Z.of_nat n - 1)) with (n - 1)%nat by lia.
  replace (Z.of_nat n - 2)%Z with (Z.of_nat (n - 2)) by (fold n in L; lia). fold (qn (n - 2)). change (qz 1) with 1. field. discriminate.
Qed.
Lemma sample_mid : forall w c i k, (S k < List.length w)%nat -> qn k < qn i - c -> qn i - c < qn (S k) ->
  t_cor_sample w c i = Ok (nth k w 0 + (nth (S k) w 0 - nth k w 0) * (qn i - c - qn k)).
Proof.
  intros w c i k L H1 H2. unfold t_cor_sample. set (x := qn i - c) in *.
  assert (qfloor x = Z.of_nat k) as ->.
  { apply qfloor_unique; [fold (qn k); qlra|]. replace (Z.of_nat k + 1)%Z with (Z.of_nat (S k)) by lia. exact H2. }
  assert (qceil x = Z.of_nat (S k)) as ->.
  { apply qceil_unique; [fold (qn (S k)); qlra|]. replace (Z.of_nat (S k) - 1)%Z with (Z.of_nat k) by lia. exact H1. }
  rewrite (proj2 (Z.ltb_ge _ _)) by lia. rewrite (proj2 (Z.leb_gt _ _)) by lia.
  replace (Z.of_nat (S k) - Z.of_nat k)%Z with 1%Z by lia. cbn [Z.eqb]. f_equal.
  rewrite !Nat2Z.id. fold (qn k). change (qz 1) with 1. field. discriminate.
Qed.
Lemma sample_integer : forall w c i k, (k < List.length w)%nat -> qn i - c = qn k -> t_cor_sample w c i = Raise ZeroDivisionError.
Proof.
  intros w c i k L H. unfold t_cor_sample. rewrite H.
  assert (qfloor (qn k) = Z.of_nat k) as ->.
  { apply qfloor_unique; unfold qn; [apply Qcle_refl|apply (proj1 (qz_lt _ _)); lia]. }
  assert (qceil (qn k) = Z.of_nat k) as ->.
  { apply qceil_unique; unfold qn; [apply Qcle_refl|apply (proj1 (qz_lt _ _)); lia]. }
  rewrite (proj2 (Z.ltb_ge _ _)) by lia. rewrite (proj2 (Z.leb_gt _ _)) by lia. now rewrite Z.sub_diag.
Qed.

(** Every position is of one of these kinds. *)
Lemma position : forall (n : nat) x, (2 <= n)%nat -> x < 0 \/ qz (Z.of_nat n - 1) < x \/
  (exists k, (S k < n)%nat /\ qn k < x /\ x < qn (S k)) \/ (exists k, (k < n)%nat /\ x = qn k).
Proof.
  intros n x L. destruct (Qclt_le_dec x 0) as [|H0]; auto. destruct (Qclt_le_dec (qz (Z.of_nat n - 1)) x) as [|H1]; auto.
  right. right. destruct (qfloor_spec x) as [A B].
  assert (qz 0 < qz (qfloor x + 1)) as C by (change (qz 0) with 0; qlra). apply qz_lt in C.
  assert (qz (qfloor x) <= qz (Z.of_nat n - 1)) as D by qlra. apply qz_le in D.
  destruct (Qcle_lt_or_eq _ _ A) as [A'|A'].
  - left. exists (Z.to_nat (qfloor x)). 
    assert (qz (qfloor x) < qz (Z.of_nat n - 1)) as E by qlra. apply qz_lt in E. unfold qn.
    replace (Z.of_nat (S (Z.to_nat (qfloor x)))) with (qfloor x + 1)%Z by lia. rewrite Z2Nat.id by lia. repeat split; auto. lia.
  - right. exists (Z.to_nat (qfloor x)). unfold qn. rewrite Z2Nat.id by lia. split; auto. lia.
Qed.

Lemma position_int : forall i c k, qn i - c = qn k -> integer c.
Proof. intros i c k H. exists (Z.of_nat i - Z.of_nat k)%Z. rewrite qz_minus. fold (qn i) (qn k). rewrite <- H. ring. Qed.

Lemma sample_ok : forall w c i, (2 <= List.length w)%nat -> (forall k, (k < List.length w)%nat -> qn i - c <> qn k) ->
  exists y, t_cor_sample w c i = Ok y.
Proof.
  intros w c i L N. destruct (position (List.length w) (qn i - c) L) as [H|[H|[(k & K & H1 & H2)|(k & K & H)]]].
  - eexists. now apply sample_low.
  - eexists. now apply sample_high.
  - eexists. now apply (sample_mid w c i k).
  - exfalso. now apply (N k).
Qed.

Definition interpolated (w : list Qc) (x y : Qc) : Prop :=
  let n := List.length w in
  (x < 0 -> y = nth 0 w 0 + (nth 1 w 0 - nth 0 w 0) * x) /\
  (qz (Z.of_nat n - 1) < x -> y = nth (n - 2) w 0 + (nth (n - 1) w 0 - nth (n - 2) w 0) * (x - qn (n - 2))) /\
  (forall k, (S k < n)%nat -> qn k < x -> x < qn (S k) -> y = nth k w 0 + (nth (S k) w 0 - nth k w 0) * (x - qn k)).
Lemma sample_interpolated : forall w c i y, (2 <= List.length w)%nat -> t_cor_sample w c i = Ok y -> interpolated w (qn i - c) y.
Proof.
  intros w c i y L E. repeat split; intros.
  - rewrite sample_low in E by auto. now injection E as <-.
  - rewrite sample_high in E by auto. now injection E as <-.
  - rewrite (sample_mid w c i k) in E by auto. now injection E as <-.
Qed.

Lemma mapM_ok_all : forall A B (f : A -> res B) l, (forall x, In x l -> exists y, f x = Ok y) -> exists ys, mapM f l = Ok ys.
Proof.
  induction l as [|x l IH]; intros H; cbn; [eauto|]. destruct (H x (or_introl eq_refl)) as [y ->]. cbn [bind].
  destruct IH as [ys ->]; [intros; apply H; now right|]. cbn. eauto.
Qed.
Lemma mapM_nth : forall A B (f : A -> res B) l ys i x, mapM f l = Ok ys -> nth_error l i = Some x ->
  exists y, f x = Ok y /\ nth_error ys i = Some y.
Proof.
  induction l as [|a l IH]; intros ys i x E N; [destruct i; discriminate|]. cbn in E. destruct (f a) as [b|] eqn:F; cbn [bind] in E; [|discriminate].
  destruct (mapM f l) as [bs|] eqn:M; cbn in E; [|discriminate]. injection E as <-. destruct i; cbn in *; [injection N as <-; eauto|eauto].
Qed.
Lemma mapM_length : forall A B (f : A -> res B) l ys, mapM f l = Ok ys -> List.length ys = List.length l.
Proof.
  induction l as [|a l IH]; intros ys E; cbn in E; [now injection E as <-|]. destruct (f a) as [b|]; cbn [bind] in E; [|discriminate].
  destruct (mapM f l) as [bs|] eqn:M; cbn in E; [|discriminate]. injection E as <-. cbn. f_equal. now apply IH.
Qed.
Lemma mapM_raise : forall A B (f : A -> res B) l x e, In x l -> f x = Raise e -> (forall y, In y l -> f y = Raise e \/ exists z, f y = Ok z) -> mapM f l = Raise e.
Proof.
  induction l as [|a l IH]; intros x e I E H; [destruct I|]. cbn. destruct (H a (or_introl eq_refl)) as [->|[z Z]]; auto. rewrite Z. cbn [bind].
  destruct I as [->|I]; [congruence|]. rewrite (IH x e) by (auto; intros; apply H; now right). reflexivity.
Qed.

Lemma pixel_interpolated : forall w c, (2 <= List.length w)%nat -> ~ integer c ->
  exists out, t_cor_pixel w c = Ok out /\ List.length out = List.length w /\
  forall i, (i < List.length w)%nat -> interpolated w (qn i - c) (nth i out 0).
Proof.
  intros w c L N. destruct (mapM_ok_all _ _ (t_cor_sample w c) (seq 0 (List.length w))) as [out E].
  { intros i _. apply sample_ok; auto. intros k _ H. apply N. now apply (position_int i c k). }
  exists out. split; auto. split; [apply mapM_length in E; now rewrite seq_length in E|].
  intros i I. destruct (mapM_nth _ _ _ _ _ i i E) as (y & Y & NE).
  { rewrite nth_error_seq. now rewrite (proj2 (Nat.ltb_lt _ _) I). }
  rewrite (nth_error_nth _ _ 0 NE). now apply (sample_interpolated w c i y).
Qed.

Lemma affine_interpolated : forall a b n x y, (2 <= n)%nat -> interpolated (map (fun j => a + b * qn j) (seq 0 n)) x y ->
  (forall k, (k < n)%nat -> x <> qn k) -> y = a + b * x.
Proof.
  intros a b n x y L (H1 & H2 & H3) N. rewrite map_length, seq_length in *.
  destruct (position n x L) as [H|[H|[(k & K & A & B)|(k & K & H)]]].
  - rewrite H1 by auto. rewrite !nth_map_seq by lia. change (qn 0) with 0. change (qn 1) with 1. ring.
  - rewrite H2 by auto. rewrite !nth_map_seq by lia. replace (n - 1)%nat with (S (n - 2)) by lia. rewrite qn_S. ring.
  - rewrite (H3 k) by auto. rewrite !nth_map_seq by lia. rewrite qn_S. ring.
  - exfalso. now apply (N k).
Qed.

(** ** Integer corrections *)
Lemma pixel_raise_iff : forall w c, (2 <= List.length w)%nat ->
  (t_cor_pixel w c = Raise ZeroDivisionError <-> exists z, c = qz z /\ (Z.abs z < Z.of_nat (List.length w))%Z) /\
  (t_cor_pixel w c = Raise ZeroDivisionError \/ exists out, t_cor_pixel w c = Ok out).
Proof.
  intros w c L.
  assert (forall i, t_cor_sample w c i = Raise ZeroDivisionError \/ exists y, t_cor_sample w c i = Ok y) as T.
  { intro i. destruct (position (List.length w) (qn i - c) L) as [H|[H|[(k & K & H1 & H2)|(k & K & H)]]].
    - right. eexists. now apply sample_low.
    - right. eexists. now apply sample_high.
    - right. eexists. now apply (sample_mid w c i k).
    - left. now apply (sample_integer w c i k). }
  assert ((exists z, c = qz z /\ (Z.abs z < Z.of_nat (List.length w))%Z) -> t_cor_pixel w c = Raise ZeroDivisionError) as R.
  { intros (z & -> & B). unfold t_cor_pixel. 
    set (i := Z.to_nat (Z.max 0 z)). set (k := Z.to_nat (Z.max 0 (- z))).
    apply (mapM_raise _ _ _ _ i); auto.
    - apply in_seq. lia.
    - apply (sample_integer w _ i k); [lia|]. unfold qn. rewrite <- qz_minus. f_equal. lia. }
  split; [split; auto|].
  - intros E. destruct (forallb (fun i => forallb (fun k => negb (qeqb (qn i - c) (qn k))) (seq 0 (List.length w))) (seq 0 (List.length w))) eqn:F.
    + exfalso. rewrite forallb_forall in F. destruct (mapM_ok_all _ _ (t_cor_sample w c) (seq 0 (List.length w))) as [out E2].
      { intros i I. apply sample_ok; auto. intros k K H. specialize (F i I). rewrite forallb_forall in F. specialize (F k). rewrite in_seq in F.
        specialize (F ltac:(lia)). destruct (qeqb_spec (qn i - c) (qn k)); [discriminate|auto]. }
      unfold t_cor_pixel in E. congruence.
    + assert (exists i k, (i < List.length w)%nat /\ (k < List.length w)%nat /\ qn i - c = qn k) as (i & k & I & K & H).
      { clear - F. assert (forall l, (forall i, In i l -> (i < List.length w)%nat) -> forallb (fun i => forallb (fun k => negb (qeqb (qn i - c) (qn k))) (seq 0 (List.length w))) l = false ->
          exists i k, (i < List.length w)%nat /\ (k < List.length w)%nat /\ qn i - c = qn k) as G.
        { induction l as [|i l IH]; intros B X; [discriminate|]. cbn in X. apply andb_false_iff in X as [X|X]; [|apply IH; auto; intros; apply B; now right].
          clear IH. assert (i < List.length w)%nat as I by (apply B; now left). exists i.
          assert (forall l, (forall k, In k l -> (k < List.length w)%nat) -> forallb (fun k => negb (qeqb (qn i - c) (qn k))) l = false -> exists k, (k < List.length w)%nat /\ qn i - c = qn k) as G2.
          { clear. induction l as [|k l IH]; intros B X; [discriminate|]. cbn in X. apply andb_false_iff in X as [X|X]; [|apply IH; auto; intros; apply B; now right].
            exists k. split; [apply B; now left|]. destruct (qeqb_spec (qn i - c) (qn k)); [auto|discriminate]. }
          destruct (G2 (seq 0 (List.length w))) as (k & K); auto. { intros k K. apply in_seq in K. lia. } exists k. tauto. }
        apply (G (seq 0 (List.length w))); auto. intros i I. apply in_seq in I. lia. }
      exists (Z.of_nat i - Z.of_nat k)%Z. split; [|lia]. rewrite qz_minus. fold (qn i) (qn k). rewrite <- H. ring.
  - destruct (mapM (t_cor_sample w c) (seq 0 (List.length w))) as [out|e] eqn:E; [right; exists out; exact E|left].
    unfold t_cor_pixel. rewrite E. clear - T E. revert E. generalize (seq 0 (List.length w)). induction l as [|i l IH]; [discriminate|]. cbn.
    destruct (T i) as [->|[y ->]]; cbn [bind]; [congruence|]. destruct (mapM (t_cor_sample w c) l); cbn; [discriminate|]. intro X. apply IH. congruence.
Qed.
