(** Rows and columns of a regular square grid. *)
From Coq Require Import List ZArith QArith Qcanon Qround Bool Lia Permutation.
From Verif.Base Require Import Py PyFacts Num Lst.
From Verif.Camera Require Import Model Proofs3.
Import ListNotations.
Local Open Scope list_scope.

Section Axis.
  Variable a p : Qc.
  Hypothesis P : (0 < p)%Qc.
  Definition pos (i : Z) : Qc := (a + p * qz i)%Qc.
  Lemma pos_le : forall i j, (pos i <= pos j)%Qc <-> (i <= j)%Z.
  Proof.
    intros i j. unfold pos. rewrite (qz_le i j). generalize (qz i), (qz j). clear - P. intros x y. split; intros H; [|].
    - apply Qcnot_lt_le. intro L. assert (0 < p * (x - y))%Qc as Q by (assert (0 < x - y)%Qc by qlra; generalize dependent (x - y)%Qc; intros; qnra). replace (p * (x - y))%Qc with (p * x - p * y)%Qc in Q by ring. generalize dependent (p * x)%Qc. generalize (p * y)%Qc. intros. qlra.
    - assert (0 <= p * (y - x))%Qc as Q by (assert (0 <= y - x)%Qc by qlra; generalize dependent (y - x)%Qc; intros; qnra). replace (p * (y - x))%Qc with (p * y - p * x)%Qc in Q by ring. generalize dependent (p * x)%Qc. generalize (p * y)%Qc. intros. qlra.
  Qed.
  Lemma pos_sq : forall i j, sq (pos i - pos j)%Qc = (sq p * qz ((i - j) * (i - j)))%Qc.
  Proof. intros. unfold sq, pos. rewrite qz_mult, qz_minus. ring. Qed.
  Definition half2 : Qc := ((1 + 1) * sq p / qz 4)%Qc.
  Lemma half2_pos : (0 < half2)%Qc.
  Proof. unfold half2. apply qdiv_pos; [reflexivity|]. unfold sq. qnra. Qed.
  Lemma half2_lt : (half2 < sq p)%Qc.
  Proof.
    assert (0 < sq p)%Qc as S by (unfold sq; qnra). unfold half2. replace ((1 + 1) * sq p / qz 4)%Qc with (sq p * Q2Qc (1 # 2))%Qc.
    - generalize dependent (sq p). intros s S. replace (s * Q2Qc (1 # 2))%Qc with (s - s * Q2Qc (1 # 2))%Qc.
      + assert (0 < s * Q2Qc (1 # 2))%Qc as K by (assert (0 < Q2Qc (1 # 2))%Qc by reflexivity; generalize dependent (Q2Qc (1 # 2)); intros; qnra). generalize dependent (s * Q2Qc (1 # 2))%Qc. intros. qlra.
      + assert (Q2Qc (1 # 2) + Q2Qc (1 # 2) = 1)%Qc as E by (apply Qc_is_canon; reflexivity). replace s with (s * 1)%Qc at 1 by ring. rewrite <- E. ring.
    - assert (1 + 1 = Q2Qc (1 # 2) * qz 4)%Qc as E by (apply Qc_is_canon; reflexivity). rewrite E. field. discriminate.
  Qed.
  Lemma lower_pos : forall i c, above_lower (pos c) (pos i) half2 = (i <=? c)%Z.
  Proof.
    intros i c. unfold above_lower. destruct (Z.leb_spec i c) as [L|L].
    - destruct (qleb_spec (pos i) (pos c)) as [|N]; [reflexivity|]. exfalso. apply N. now apply (proj2 (pos_le _ _)).
    - destruct (qleb_spec (pos i) (pos c)) as [N|_]; [apply (proj1 (pos_le _ _)) in N; lia|]. cbn [orb]. destruct (qleb_spec (sq (pos i - pos c)%Qc) half2) as [N|]; [|reflexivity]. exfalso. rewrite pos_sq in N.
      assert (1 <= (i - c) * (i - c))%Z as G by nia. apply qz_le in G. change (qz 1) with 1%Qc in G. pose proof half2_lt as H. assert (0 < sq p)%Qc as S by (unfold sq; qnra).
      revert N G. generalize (qz ((i - c) * (i - c))). generalize dependent (sq p). generalize half2. clear. intros h s H S k N G. assert (s <= s * k)%Qc by qnra. generalize dependent (s * k)%Qc. intros. qlra.
  Qed.
  Lemma upper_pos : forall n c, (c < n)%Z -> above_upper (pos c) (pos (n - 1)) half2 = false.
  Proof.
    intros n c L. unfold above_upper. destruct (qleb_spec (pos (n - 1)) (pos c)) as [N|]; [|reflexivity]. apply (proj1 (pos_le _ _)) in N. assert (c = n - 1)%Z as -> by lia. cbn [andb].
    rewrite pos_sq, Z.sub_diag. change (qz (0 * 0)) with 0%Qc. destruct (qleb_spec half2 (sq p * 0)%Qc) as [B|]; [|reflexivity]. exfalso. pose proof half2_pos as H. replace (sq p * 0)%Qc with 0%Qc in B by ring. revert H B. generalize half2. intros. qlra.
  Qed.
  Lemma zrange_S : forall n, zrange (Z.of_nat (S n)) = zrange (Z.of_nat n) ++ [Z.of_nat n].
  Proof. intros n. unfold zrange. rewrite !Nat2Z.id. rewrite seq_S, map_app. reflexivity. Qed.
  Lemma count_upto : forall n c, (0 <= c < Z.of_nat n)%Z -> count (fun i => (i <=? c)%Z) (zrange (Z.of_nat n)) = S (Z.to_nat c).
  Proof.
    induction n as [|n IH]; intros c C; [lia|]. rewrite zrange_S. unfold count in *. rewrite filter_app, app_length. cbn [filter].
    destruct (Z.eq_dec c (Z.of_nat n)) as [->|N].
    - rewrite Z.leb_refl. rewrite (filter_all _ _ (zrange (Z.of_nat n))) by (intros i I; apply zrange_in in I; apply Z.leb_le; lia). rewrite zrange_length. cbn [List.length]. lia.
    - rewrite IH by lia. destruct (Z.leb_spec (Z.of_nat n) c); [lia|]. cbn [List.length]. lia.
  Qed.
  Lemma qsorted_spec : forall l, (forall k x y, nth_error l k = Some x -> nth_error l (S k) = Some y -> (x <= y)%Qc) -> qsorted l = true.
  Proof.
    intros l H. unfold qsorted. apply forallb_forall. intros [x y] I. apply In_nth_error in I as (k & K). rewrite nth_error_combine in K. destruct (nth_error l k) as [x'|] eqn:X; [|discriminate]. destruct (nth_error (tl l) k) as [y'|] eqn:Y; [|discriminate]. injection K as -> ->. cbn [fst snd].
    destruct (qleb_spec x y) as [|N]; [reflexivity|]. exfalso. apply N. apply (H k); auto. destruct l; [now destruct k|exact Y].
  Qed.
  Lemma last_map : forall (g : Z -> Qc) n d, last (map g (zrange (Z.of_nat (S n)))) d = g (Z.of_nat n).
  Proof. intros. rewrite zrange_S, map_app. cbn [map]. apply last_last. Qed.
  Lemma count_map : forall A B (g : A -> B) q l, count q (map g l) = count (fun x => q (g x)) l.
  Proof. intros. unfold count. induction l as [|x l IH]; [reflexivity|]. cbn [map filter]. destruct (q (g x)); cbn [List.length]; now rewrite IH. Qed.
  Lemma digitize_pos : forall n c, (0 <= c < n)%Z -> digitize (map pos (zrange n)) half2 (pos c) = Ok c.
  Proof.
    intros n c C. unfold digitize. rewrite qsorted_spec.
    - rewrite count_map. rewrite (count_ext _ _ (fun i => (i <=? c)%Z)) by (intros; apply lower_pos).
      assert (NE : n = Z.of_nat (S (Z.to_nat (n - 1)))) by lia. rewrite NE at 1. rewrite count_upto by lia. rewrite NE, last_map, Z2Nat.id by lia. rewrite upper_pos by lia. f_equal. lia.
    - intros k x y X Y. rewrite nth_error_map in X, Y. destruct (nth_error (zrange n) k) as [i|] eqn:I; [|discriminate]. destruct (nth_error (zrange n) (S k)) as [j|] eqn:J; [|discriminate]. injection X as <-. injection Y as <-.
      assert (S k < Z.to_nat n)%nat as B by (rewrite <- zrange_length; apply nth_error_Some; congruence). rewrite zrange_nth in I, J by lia. injection I as <-. injection J as <-. apply (proj2 (pos_le _ _)). lia.
  Qed.
End Axis.

Lemma qmin_diag : forall x0 y0 p n, (0 < p)%Qc -> (2 <= n)%Z ->
  exists d, broadcast_add (map (fun i => sq (pos x0 p i - pos x0 p 0)%Qc) (zrange n)) (map (fun j => sq (pos y0 p j - pos y0 p 0)%Qc) (zrange n)) = Ok d /\ qmin_list (tl d) = Some ((1 + 1) * sq p)%Qc.
Proof.
  intros x0 y0 p n P N. unfold broadcast_add. rewrite !map_length, Nat.eqb_refl. eexists. split; [reflexivity|].
  assert (E : forall l, map (fun q => fst q + snd q)%Qc (combine (map (fun i => sq (pos x0 p i - pos x0 p 0)%Qc) l) (map (fun j => sq (pos y0 p j - pos y0 p 0)%Qc) l)) = map (fun i => ((1 + 1) * (sq p * qz (i * i)))%Qc) l).
  { induction l as [|i l IH]; [reflexivity|]. cbn [map combine fst snd]. f_equal; [|exact IH]. rewrite !pos_sq. rewrite Z.sub_0_r. ring. }
  rewrite E. unfold zrange. destruct (Z.to_nat n) as [|[|k]] eqn:K; [lia|lia|]. cbn [seq map tl].
  assert (0 < sq p)%Qc as SP by (unfold sq; qnra). apply qmin_is.
  - left. change (qz (Z.of_nat 1 * Z.of_nat 1)) with 1%Qc. ring.
  - intros x X. change (((1 + 1) * (sq p * qz (Z.of_nat 1 * Z.of_nat 1)))%Qc :: map (fun i => ((1 + 1) * (sq p * qz (i * i)))%Qc) (map Z.of_nat (seq 2 k))) with (map (fun i => ((1 + 1) * (sq p * qz (i * i)))%Qc) (map Z.of_nat (seq 1 (S k)))) in X.
    clear E. apply in_map_iff in X as (i & <- & I). apply in_map_iff in I as (m & <- & I). apply in_seq in I. assert (1 <= Z.of_nat m * Z.of_nat m)%Z as G by nia. apply qz_le in G. change (qz 1) with 1%Qc in G. revert G. generalize (qz (Z.of_nat m * Z.of_nat m)). generalize dependent (sq p). clear. intros s SP k G.
    assert (s <= s * k)%Qc by qnra. generalize dependent (s * k)%Qc. intros q Q. replace ((1 + 1) * s)%Qc with (s + s)%Qc by ring. replace ((1 + 1) * q)%Qc with (q + q)%Qc by ring. qlra.
Qed.
Lemma broadcast_fail : forall a b, (2 <= List.length a)%nat -> (2 <= List.length b)%nat -> List.length a <> List.length b -> broadcast_add a b = Raise ValueError.
Proof. intros a b A B N. unfold broadcast_add. destruct (Nat.eqb_spec (List.length a) (List.length b)); [easy|]. destruct a as [|x [|x' a]]; cbn in A; try lia. destruct b as [|y [|y' b]]; cbn in B; try lia. reflexivity. Qed.
