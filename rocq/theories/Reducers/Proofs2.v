(** Cross correlation and sliding windows. *)
From Coq Require Import List ZArith QArith Qcanon Qround Bool Arith Lia.
From Verif.Base Require Import Py PyFacts Num Lst.
From Verif.WfUtils Require Import Model Proofs.
From Verif.Reducers Require Import Model Proofs.
Import ListNotations.
Local Open Scope list_scope.
Local Open Scope Qc_scope.

Lemma correlate1d_length : forall w weights o, List.length (correlate1d w weights o) = List.length w.
Proof. intros. unfold correlate1d. now rewrite map_length, seq_length. Qed.
Lemma correlate1d_nth : forall w weights o i, (i < List.length w)%nat -> nth i (correlate1d w weights o) 0 =
  qsum (map (fun j => nth j weights 0 * get0 w (Z.of_nat i + Z.of_nat j - Z.of_nat (List.length weights / 2) - o))%Qc (seq 0 (List.length weights))).
Proof. intros. unfold correlate1d. now rewrite nth_map_seq by auto. Qed.
Lemma get0_in : forall w i, (0 <= i < Z.of_nat (List.length w))%Z -> get0 w i = nth (Z.to_nat i) w 0.
Proof. intros w i B. unfold get0. rewrite (proj2 (Z.leb_le 0 i)), (proj2 (Z.ltb_lt i _)) by lia. reflexivity. Qed.
Lemma get0_out : forall w i, (i < 0 \/ Z.of_nat (List.length w) <= i)%Z -> get0 w i = 0.
Proof. intros w i [B|B]; unfold get0; [rewrite (proj2 (Z.leb_gt 0 i)) by lia; reflexivity|]. rewrite (proj2 (Z.ltb_ge i _)) by lia. now rewrite andb_false_r. Qed.
Lemma get0_cases : forall w i, ((0 <= i < Z.of_nat (List.length w))%Z /\ get0 w i = nth (Z.to_nat i) w 0) \/ ((i < 0 \/ Z.of_nat (List.length w) <= i)%Z /\ get0 w i = 0).
Proof. intros w i. destruct (Z_lt_le_dec i 0); [right; split; auto; apply get0_out; auto|]. destruct (Z_lt_le_dec i (Z.of_nat (List.length w))); [left|right]; split; auto; [apply get0_in; auto|apply get0_out; auto]. Qed.

Definition lincomb (a b : Qc) (w v : list Qc) : list Qc := map (fun xy => a * fst xy + b * snd xy) (combine w v).
Lemma get0_lincomb : forall a b w v i, List.length w = List.length v -> get0 (lincomb a b w v) i = a * get0 w i + b * get0 v i.
Proof.
  intros a b w v i L. assert (List.length (lincomb a b w v) = List.length w) as LL by (unfold lincomb; rewrite map_length, combine_length; lia).
  unfold get0. rewrite LL, <- L. destruct ((0 <=? i)%Z && (i <? Z.of_nat (List.length w))%Z) eqn:E; [|ring].
  apply andb_true_iff in E as [E1 E2]. apply Z.leb_le in E1. apply Z.ltb_lt in E2.
  unfold lincomb. rewrite (nth_of_error _ _ _ 0). rewrite nth_error_map, nth_error_combine.
  rewrite !(nth_error_nth' _ 0) by lia. reflexivity.
Qed.
Lemma correlate1d_linear : forall a b w v weights o, List.length w = List.length v ->
  correlate1d (lincomb a b w v) weights o = lincomb a b (correlate1d w weights o) (correlate1d v weights o).
Proof.
  intros a b w v weights o L. assert (List.length (lincomb a b w v) = List.length w) as LL by (unfold lincomb; rewrite map_length, combine_length; lia).
  apply list_ext. intro i. unfold lincomb at 2. rewrite nth_error_map, nth_error_combine.
  destruct (Nat.lt_ge_cases i (List.length w)) as [B|B].
  - rewrite !(nth_error_nth' _ 0) by (rewrite correlate1d_length; lia). cbn [option_map fst snd]. f_equal. rewrite !correlate1d_nth by lia.
    rewrite <- !qsum_map_scale, <- qsum_map_plus. f_equal. apply map_ext. intro j. rewrite get0_lincomb by auto. ring.
  - rewrite !(proj2 (nth_error_None _ _)) by (rewrite correlate1d_length; lia). reflexivity.
Qed.

(** ** Autocorrelation *)
Lemma qsum_split : forall (f : nat -> Qc) a b, qsum (map f (seq 0 (a + b))) = qsum (map f (seq 0 a)) + qsum (map (fun j => f (a + j)%nat) (seq 0 b)).
Proof.
  intros f a b. rewrite seq_app, map_app, qsum_app. f_equal. cbn [plus]. rewrite <- (map_map (fun j => (a + j)%nat) f). f_equal. f_equal.
  rewrite <- (Nat.add_0_r a) at 1. generalize 0%nat. induction b as [|b IH]; intro s; auto. cbn [seq map]. f_equal. rewrite <- IH. f_equal. lia.
Qed.
Lemma qsum_zero : forall A (f : A -> Qc) l, (forall x, In x l -> f x = 0) -> qsum (map f l) = 0.
Proof. induction l as [|x l IH]; intro H; [reflexivity|]. cbn [map]. rewrite qsum_cons, H, IH; [ring| |now left]. intros; apply H; now right. Qed.
Lemma qsum_map_ext : forall A (f g : A -> Qc) l, (forall x, In x l -> f x = g x) -> qsum (map f l) = qsum (map g l).
Proof. intros. f_equal. now apply map_ext_in. Qed.

Lemma shifted_sum_le : forall (f : Z -> Qc) (m : nat) (s : Z), (forall z, 0 <= f z) -> (forall z, (z < 0 \/ Z.of_nat m <= z)%Z -> f z = 0) ->
  qsum (map (fun j => f (Z.of_nat j + s)%Z) (seq 0 m)) <= qsum (map (fun j => f (Z.of_nat j)) (seq 0 m)).
Proof.
  intros f m s P Z0. destruct (Z_lt_le_dec (Z.abs s) (Z.of_nat m)) as [B|B].
  - destruct (Z_lt_le_dec s 0) as [N|N].
    + set (k := Z.to_nat (- s)). replace m with (k + (m - k))%nat at 1 by lia. rewrite qsum_split.
      rewrite (qsum_zero _ (fun j => f (Z.of_nat j + s)%Z)) by (intros j J; apply in_seq in J; apply Z0; lia).
      replace m with ((m - k) + k)%nat at 2 by lia. rewrite qsum_split.
      rewrite (qsum_map_ext _ (fun j => f (Z.of_nat (k + j) + s)%Z) (fun j => f (Z.of_nat j))) by (intros j J; f_equal; lia).
      assert (0 <= qsum (map (fun j => f (Z.of_nat (m - k + j))) (seq 0 k))). { apply qsum_nonneg. intros x X. apply in_map_iff in X as (j & <- & _). apply P. } qlra.
    + set (k := Z.to_nat s). replace m with ((m - k) + k)%nat at 1 by lia. rewrite qsum_split.
      rewrite (qsum_zero _ (fun j => f (Z.of_nat (m - k + j) + s)%Z)) by (intros j J; apply in_seq in J; apply Z0; lia).
      replace m with (k + (m - k))%nat at 2 by lia. rewrite (qsum_split (fun j => f (Z.of_nat j)) k).
      rewrite (qsum_map_ext _ (fun j => f (Z.of_nat j + s)%Z) (fun j => f (Z.of_nat (k + j)))) by (intros j J; f_equal; lia).
      assert (0 <= qsum (map (fun j => f (Z.of_nat j)) (seq 0 k))). { apply qsum_nonneg. intros x X. apply in_map_iff in X as (j & <- & _). apply P. } qlra.
  - rewrite (qsum_zero _ (fun j => f (Z.of_nat j + s)%Z)) by (intros j J; apply in_seq in J; apply Z0; lia).
    apply qsum_nonneg. intros x X. apply in_map_iff in X as (j & <- & _). apply P.
Qed.

Definition energy (y : list Qc) : Qc := qsum (map (fun v => v * v) y).
Lemma energy_seq : forall y, energy y = qsum (map (fun j => nth j y 0 * nth j y 0) (seq 0 (List.length y))).
Proof. intro y. unfold energy. rewrite <- (map_seq_nth _ y 0) at 1. now rewrite map_map. Qed.
Lemma autocorrelation : forall y s, qsum (map (fun j => nth j y 0 * get0 y (Z.of_nat j + s)) (seq 0 (List.length y))) <= energy y.
Proof.
  intros y s. set (m := List.length y).
  assert (qsum (map (fun j => (1 + 1) * (nth j y 0 * get0 y (Z.of_nat j + s))) (seq 0 m)) <= 
          qsum (map (fun j => nth j y 0 * nth j y 0 + get0 y (Z.of_nat j + s) * get0 y (Z.of_nat j + s)) (seq 0 m))) as A.
  { apply qsum_le. intros j _. generalize (nth j y 0) (get0 y (Z.of_nat j + s)). intros a b. assert (0 <= (a - b) * (a - b)) as Q by qnra. replace ((a - b) * (a - b)) with (a * a + b * b - (1 + 1) * (a * b)) in Q by ring. qlra. }
  rewrite qsum_map_scale, qsum_map_plus in A.
  assert (qsum (map (fun j => get0 y (Z.of_nat j + s) * get0 y (Z.of_nat j + s)) (seq 0 m)) <= energy y) as B.
  { rewrite energy_seq. eapply Qcle_trans; [apply (shifted_sum_le (fun z => get0 y z * get0 y z))|].
    - intro z. generalize (get0 y z). intro a. qnra.
    - intros z Z. rewrite get0_out by (fold m; lia). ring.
    - fold m. rewrite (qsum_map_ext _ _ (fun j => nth j y 0 * nth j y 0)); [apply Qcle_refl|]. intros j J. apply in_seq in J. rewrite get0_in by (fold m; lia). now rewrite Nat2Z.id. }
  unfold m in A at 2. rewrite <- energy_seq in A. rewrite Qcmult_plus_distr_l, !Qcmult_1_l in A. qlra.
Qed.
Lemma autocorrelation0 : forall y, qsum (map (fun j => nth j y 0 * get0 y (Z.of_nat j + 0)) (seq 0 (List.length y))) = energy y.
Proof. intro y. rewrite energy_seq. apply qsum_map_ext. intros j J. apply in_seq in J. rewrite Z.add_0_r, get0_in by lia. now rewrite Nat2Z.id. Qed.

(** ** Normalisation *)
Lemma nth_map0 : forall (f : Qc -> Qc) l i, f 0 = 0 -> nth i (map f l) 0 = f (nth i l 0).
Proof. intros f l i E. rewrite <- E at 1. apply map_nth. Qed.
Lemma get0_map : forall (f : Qc -> Qc) l i, f 0 = 0 -> get0 (map f l) i = f (get0 l i).
Proof. intros f l i E. unfold get0. rewrite map_length. destruct (_ && _); auto. now apply nth_map0. Qed.
Lemma argmax_from_scale : forall c l i best bv, 0 < c -> argmax_from (map (fun v => c * v) l) i best (c * bv) = argmax_from l i best bv.
Proof.
  intros c. induction l as [|x l IH]; intros i best bv P; auto. cbn [map argmax_from]. destruct (qltb_spec (c * bv) (c * x)) as [X|X], (qltb_spec bv x) as [Y|Y]; auto.
  - exfalso. apply Y. apply Qcnot_le_lt. intro Z. assert (c * x <= c * bv) by qnra. qlra.
  - exfalso. apply X. qnra.
Qed.
Lemma argmax_scale : forall c l, 0 < c -> argmax (map (fun v => c * v) l) = argmax l.
Proof. intros c [|x l] P; auto. cbn [map argmax]. now apply argmax_from_scale. Qed.

Lemma trapz_pos_nonempty : forall y, 0 < trapz y -> y <> [].
Proof. intros [|a y] H E; [|discriminate]. cbn in H. now apply Qclt_not_eq in H. Qed.
Lemma energy_pos : forall y, 0 < trapz y -> 0 < energy y.
Proof.
  intros y H. assert (0 <= energy y) as N by (apply qsum_nonneg; intros x X; apply in_map_iff in X as (v & <- & _); qnra).
  destruct (Qcle_lt_or_eq _ _ N) as [|Z]; auto. exfalso.
  assert (forall v, In v y -> v = 0) as A.
  { clear H N. induction y as [|a y IH]; intros v V; [destruct V|]. unfold energy in Z. cbn [map] in Z. rewrite qsum_cons in Z. fold (energy y) in Z.
    assert (0 <= energy y) as N by (apply qsum_nonneg; intros x X; apply in_map_iff in X as (u & <- & _); qnra). assert (0 <= a * a) by qnra.
    assert (0 = energy y) as E1 by (apply Qcle_antisym; qlra). assert (a * a = 0) as E2 by (apply Qcle_antisym; qlra).
    destruct V as [<-|V]; [|now apply IH]. apply Qcmult_integral in E2. tauto. }
  assert (trapz y = 0) as T.
  { clear - A. induction y as [|a [|b y] IH]; auto. cbn [trapz]. cbn [trapz] in IH. rewrite IH by (intros; apply A; now right). rewrite (A a), (A b) by (cbn; auto). ring. }
  rewrite T in H. now apply Qclt_not_eq in H.
Qed.
Lemma divmul : forall y c, map (fun v => v / c) y = map (fun v => / c * v) y.
Proof. intros. apply map_ext. intro v. unfold Qcdiv. ring. Qed.
Lemma inv_pos : forall c, 0 < c -> 0 < / c.
Proof. intros c P. assert (c <> 0) by (intro Z; rewrite Z in P; now apply Qclt_not_eq in P). replace (/ c) with (1 / c) by (field; auto). apply qdiv_pos; auto. reflexivity. Qed.

Lemma norm_value : forall y, 0 < trapz y -> qmax (correlate1d (map (fun v => v / trapz y) y) y (cc_origin y)) = energy y / trapz y.
Proof.
  intros y T. pose proof (trapz_pos_nonempty y T) as N. destruct (argmax_spec y N) as (A & _).
  assert (trapz y <> 0) as T0 by (intro Z; rewrite Z in T; now apply Qclt_not_eq in T).
  assert (forall i, (i < List.length y)%nat -> nth i (correlate1d (map (fun v => v / trapz y) y) y (cc_origin y)) 0 =
     qsum (map (fun j => nth j y 0 * get0 y (Z.of_nat j + (Z.of_nat i - Z.of_nat (argmax y)))) (seq 0 (List.length y))) / trapz y) as E.
  { intros i I. rewrite correlate1d_nth by (rewrite map_length; auto). unfold Qcdiv at 2. rewrite Qcmult_comm, <- qsum_map_scale. apply qsum_map_ext. intros j _.
    rewrite get0_map by (field; auto). unfold cc_origin. match goal with |- _ * (get0 y ?a / _) = _ * (_ * get0 y ?b) => replace a with b by lia end. unfold Qcdiv. ring. }
  apply qmax_unique.
  - exists (argmax y). rewrite correlate1d_length, map_length. split; auto. rewrite E by auto. now rewrite Z.sub_diag, autocorrelation0.
  - intros i I. rewrite correlate1d_length, map_length in I. rewrite E by auto. apply qdiv_le; auto. apply autocorrelation.
Qed.

(** The pulse: [A] times the unit-area pulse with its maximum at sample [t]. *)
Definition placed (y1pe : list Qc) (p : nat) (A : Qc) (t n : nat) (row : list Qc) : Prop :=
  List.length row = n /\ forall k, (k < n)%nat -> nth k row 0 = A * get0 y1pe (Z.of_nat k - Z.of_nat t + Z.of_nat p).
Lemma cc_row : forall y A t n row i, 0 < trapz y -> (argmax y <= t)%nat -> (t + List.length y <= n + argmax y)%nat ->
  placed (snd (normalise_pulse y)) (argmax y) A t n row -> (i < n)%nat ->
  let reference := fst (normalise_pulse y) in
  nth i (correlate1d row reference (cc_origin reference)) 0 =
  A * (qsum (map (fun j => nth j y 0 * get0 y (Z.of_nat j + (Z.of_nat i - Z.of_nat t))) (seq 0 (List.length y))) / energy y).
Proof.
  intros y A t n row i T P1 P2 (L & R) I reference. pose proof (energy_pos y T) as EP.
  assert (energy y <> 0) as E0 by (intro Z; rewrite Z in EP; now apply Qclt_not_eq in EP).
  assert (trapz y <> 0) as T0 by (intro Z; rewrite Z in T; now apply Qclt_not_eq in T).
  assert (reference = map (fun v => v / (energy y / trapz y)) y) as ER by (unfold reference, normalise_pulse; cbn [fst]; now rewrite norm_value).
  assert (0 < energy y / trapz y) as CP by now apply qdiv_pos.
  assert (energy y / trapz y <> 0) as C0 by (intro Z; rewrite Z in CP; now apply Qclt_not_eq in CP).
  assert (argmax reference = argmax y) as EA by (rewrite ER, divmul; apply argmax_scale; now apply inv_pos).
  assert (List.length reference = List.length y) as EL by (rewrite ER; now rewrite map_length).
  rewrite correlate1d_nth by lia. unfold cc_origin. rewrite EA, EL.
  unfold Qcdiv at 1. rewrite (Qcmult_comm (qsum _) (/ energy y)), <- qsum_map_scale, <- qsum_map_scale. apply qsum_map_ext. intros j J. apply in_seq in J.
  rewrite ER, nth_map0 by (field; auto).
  assert (get0 row (Z.of_nat i + Z.of_nat j - Z.of_nat (List.length y / 2) - (Z.of_nat (argmax y) - Z.of_nat (List.length y / 2))) =
          A * (get0 y (Z.of_nat j + (Z.of_nat i - Z.of_nat t)) / trapz y)) as ->.
  { assert (Z.of_nat i + Z.of_nat j - Z.of_nat (List.length y / 2) - (Z.of_nat (argmax y) - Z.of_nat (List.length y / 2)) = Z.of_nat i + Z.of_nat j - Z.of_nat (argmax y))%Z as -> by lia.
    destruct (get0_cases row (Z.of_nat i + Z.of_nat j - Z.of_nat (argmax y))) as [[B ->]|[B ->]].
    - rewrite R by lia. unfold normalise_pulse. cbn [snd]. rewrite get0_map by (field; auto).
      match goal with |- A * (get0 y ?a / _) = A * (get0 y ?b / _) => replace a with b by lia end. reflexivity.
    - rewrite get0_out by lia. field. auto. }
  field. auto.
Qed.

Lemma cc_row_bound : forall y A t n row, 0 < trapz y -> (argmax y <= t)%nat -> (t + List.length y <= n + argmax y)%nat -> 0 <= A ->
  placed (snd (normalise_pulse y)) (argmax y) A t n row ->
  let reference := fst (normalise_pulse y) in let c := correlate1d row reference (cc_origin reference) in
  List.length c = n /\ (t < n)%nat /\ nth t c 0 = A /\ forall i, (i < n)%nat -> nth i c 0 <= A.
Proof.
  intros y A t n row T P1 P2 PA PL reference c. pose proof (energy_pos y T) as EP. pose proof (trapz_pos_nonempty y T) as N. destruct (argmax_spec y N) as (AL & _).
  assert (energy y <> 0) as E0 by (intro Z; rewrite Z in EP; now apply Qclt_not_eq in EP).
  assert (t < n)%nat as TN by lia. split; [unfold c; rewrite correlate1d_length; apply PL|]. split; auto. split.
  - unfold c, reference. rewrite (cc_row y A t n row t) by auto. rewrite Z.sub_diag, autocorrelation0. field. auto.
  - intros i I. unfold c, reference. rewrite (cc_row y A t n row i) by auto.
    assert (qsum (map (fun j => nth j y 0 * get0 y (Z.of_nat j + (Z.of_nat i - Z.of_nat t))) (seq 0 (List.length y))) / energy y <= 1) as B.
    { replace 1 with (energy y / energy y) by (field; auto). apply qdiv_le; auto. apply autocorrelation. }
    revert B. generalize (qsum (map (fun j => nth j y 0 * get0 y (Z.of_nat j + (Z.of_nat i - Z.of_nat t))) (seq 0 (List.length y))) / energy y). intros x B. qnra.
Qed.

(** The common peak: every pixel is a multiple of the same placed pulse. *)
Lemma cc_row_ratio : forall y A B t n row row0, 0 < trapz y -> (argmax y <= t)%nat -> (t + List.length y <= n + argmax y)%nat ->
  placed (snd (normalise_pulse y)) (argmax y) A t n row -> placed (snd (normalise_pulse y)) (argmax y) B t n row0 ->
  let reference := fst (normalise_pulse y) in forall i, (i < n)%nat ->
  B * nth i (correlate1d row reference (cc_origin reference)) 0 = A * nth i (correlate1d row0 reference (cc_origin reference)) 0.
Proof. intros y A B t n row row0 T P1 P2 PA PB reference i I. unfold reference. rewrite (cc_row y A t n row i), (cc_row y B t n row0 i) by auto. ring. Qed.

(** ** Sliding windows *)
Lemma window_sums_length : forall s row, List.length (window_sums s row) = List.length row.
Proof. intros. apply correlate1d_length. Qed.
Lemma window_sums_nth : forall s row i, (i < List.length row)%nat -> nth i (window_sums s row) 0 = window_sum row i s.
Proof.
  intros s row i I. unfold window_sums. rewrite correlate1d_nth by auto. rewrite repeat_length. unfold window_sum. apply qsum_map_ext. intros j J. apply in_seq in J.
  rewrite (nth_of_error _ _ _ 0), nth_error_repeat, (proj2 (Nat.ltb_lt j s)) by lia.
  replace (Z.of_nat i + Z.of_nat j - Z.of_nat (s / 2) - - Z.of_nat (s / 2))%Z with (Z.of_nat (i + j)) by lia.
  destruct (get0_cases row (Z.of_nat (i + j))) as [[_ ->]|[B ->]]; [rewrite Nat2Z.id; ring|]. rewrite nth_overflow by lia. ring.
Qed.
Lemma sliding_spec : forall s row, row <> [] ->
  let c := qmax (window_sums s row) in let k := argmax (window_sums s row) in
  (k < List.length row)%nat /\ c = window_sum row k s /\ (forall i, (i < List.length row)%nat -> window_sum row i s <= c) /\
  (forall i, (i < k)%nat -> window_sum row i s < c).
Proof.
  intros s row N c k. destruct (argmax_spec (window_sums s row)) as (A & B & C).
  { intro E. apply N. apply (f_equal (@List.length _)) in E. rewrite window_sums_length in E. destruct row; [auto|discriminate]. }
  rewrite window_sums_length in *. fold k in A, B, C. unfold c, qmax. fold k. rewrite window_sums_nth by auto. repeat split; auto.
  - intros i I. specialize (B i I). now rewrite !window_sums_nth in B by auto.
  - intros i I. specialize (C i I). now rewrite !window_sums_nth in C by lia.
Qed.
