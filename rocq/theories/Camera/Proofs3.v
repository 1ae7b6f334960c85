(** Lemmas about get_row_column on regular grids. *)
From Coq Require Import List ZArith QArith Qcanon Qround Bool Lia Permutation.
From Verif.Base Require Import Py PyFacts Num Lst.
From Verif.Camera Require Import Model.
Import ListNotations.
Local Open Scope list_scope.

Lemma qmin_fold : forall l a m, (m <= a)%Qc -> (forall x, In x l -> m <= x)%Qc -> a = m \/ In m l -> fold_left (fun m x => if qltb x m then x else m) l a = m.
Proof.
  induction l as [|b l IH]; intros a m A L I; cbn [fold_left]; [destruct I as [|[]]; auto|].
  apply IH.
  - destruct (qltb b a); [apply L; now left|auto].
  - intros x X. apply L. now right.
  - assert (m <= b)%Qc as B by (apply L; now left). destruct (qltb_spec b a) as [Q|Q].
    + destruct I as [->|[->|I]]; [exfalso; qlra|now left|now right].
    + destruct I as [->|[->|I]]; [now left| |now right]. left. apply Qcle_antisym; [|auto]. now apply Qcnot_lt_le.
Qed.
Lemma qmin_is : forall l m, In m l -> (forall x, In x l -> m <= x)%Qc -> qmin_list l = Some m.
Proof. intros [|a l] m I L; [destruct I|]. cbn [qmin_list]. f_equal. apply qmin_fold; [apply L; now left|intros; apply L; now right|]. destruct I; auto. Qed.
Lemma qmax_fold : forall l a m, (a <= m)%Qc -> (forall x, In x l -> x <= m)%Qc -> a = m \/ In m l -> fold_left (fun m x => if qltb m x then x else m) l a = m.
Proof.
  induction l as [|b l IH]; intros a m A L I; cbn [fold_left]; [destruct I as [|[]]; auto|].
  apply IH.
  - destruct (qltb a b); [apply L; now left|auto].
  - intros x X. apply L. now right.
  - assert (b <= m)%Qc as B by (apply L; now left). destruct (qltb_spec a b) as [Q|Q].
    + destruct I as [->|[->|I]]; [exfalso; qlra|now left|now right].
    + destruct I as [->|[->|I]]; [now left| |now right]. left. apply Qcle_antisym; [auto|]. now apply Qcnot_lt_le.
Qed.
Lemma qmax_is : forall l m, In m l -> (forall x, In x l -> x <= m)%Qc -> qmax_list l = Some m.
Proof. intros [|a l] m I L; [destruct I|]. cbn [qmax_list]. f_equal. apply qmax_fold; [apply L; now left|intros; apply L; now right|]. destruct I; auto. Qed.

Lemma qfloor_is : forall v c, (qz c <= v)%Qc -> (v < qz (c + 1))%Qc -> Qfloor (this v) = c.
Proof.
  intros v c L H. apply this_le in L. apply this_lt in H. rewrite this_qz in L, H.
  assert (c <= Qfloor (this v))%Z. { rewrite <- (Qfloor_Z c). now apply Qfloor_resp_le. }
  assert (Qfloor (this v) < c + 1)%Z. { rewrite Zlt_Qlt. eapply Qle_lt_trans; [apply Qfloor_le|exact H]. }
  lia.
Qed.
Lemma qceil_z : forall c, Qceiling (this (qz c)) = c.
Proof. intros c. rewrite <- (Qceiling_Z c) at 2. apply Qceiling_comp. apply this_qz. Qed.
Lemma ceil_ratio_grid : forall p k, (0 < p)%Qc -> (0 <= k)%Z -> ceil_ratio (p * qz k)%Qc (sq p) = k.
Proof.
  intros p k P K. unfold ceil_ratio. replace (sq (p * qz k) / sq p)%Qc with (qz (k * k)).
  - rewrite qceil_z. now apply Z.sqrt_up_square.
  - rewrite qz_mult. unfold sq. field. intro Z. rewrite Z in P. now apply Qclt_not_eq in P.
Qed.
Lemma bin_grid : forall x0 p N c, (0 < p)%Qc -> (2 <= N)%Z -> (0 <= c < N)%Z -> bin_of x0 (x0 + p * qz (N - 1))%Qc N (x0 + p * qz c)%Qc = c.
Proof.
  intros x0 p N c P N2 C. unfold bin_of.
  assert (M : (0 < qz (N - 1))%Qc) by (change 0%Qc with (qz 0); apply (proj1 (qz_lt _ _)); lia).
  assert (PM : (0 < p * qz (N - 1))%Qc) by (generalize dependent (qz (N - 1)); intros; qnra).
  destruct (qeqb_spec x0 (x0 + p * qz (N - 1))%Qc) as [E|_]; [exfalso; generalize dependent (p * qz (N - 1))%Qc; intros; qlra|].
  destruct (qeqb_spec (x0 + p * qz c)%Qc (x0 + p * qz (N - 1))%Qc) as [E|NE].
  - assert (qz c = qz (N - 1)) as Q. { assert (p * qz c = p * qz (N - 1))%Qc as E2 by (generalize dependent (p * qz (N - 1))%Qc; generalize (p * qz c)%Qc; intros; qlra). apply (f_equal (fun x => x / p)%Qc) in E2.
      assert (p <> 0)%Qc as PN by (intro Z; rewrite Z in P; now apply Qclt_not_eq in P). replace (qz c) with (p * qz c / p)%Qc by (field; auto). rewrite E2. field. auto. }
    apply qz_inj in Q. lia.
  - assert (c < N - 1)%Z as CL. { assert (c <> N - 1)%Z by (intros ->; now apply NE). lia. }
    assert (p <> 0)%Qc as PN by (intro Z; rewrite Z in P; now apply Qclt_not_eq in P). assert (qz (N - 1) <> 0)%Qc as MN by (intro Z; rewrite Z in M; now apply Qclt_not_eq in M).
    replace ((x0 + p * qz c - x0) * qz N / (x0 + p * qz (N - 1) - x0))%Qc with (qz (c * N) / qz (N - 1))%Qc.
    2: { rewrite qz_mult. field. split; [|auto]. replace (x0 + p * qz (N - 1) - x0)%Qc with (p * qz (N - 1))%Qc by ring. intro Z. rewrite Z in PM. now apply Qclt_not_eq in PM. }
    apply qfloor_is.
    + replace (qz c) with (qz (c * (N - 1)) / qz (N - 1))%Qc by (rewrite qz_mult; field; auto). apply (proj1 (qdiv_le _ _ _ M)). apply (proj1 (qz_le _ _)). lia.
    + replace (qz (c + 1)) with (qz ((c + 1) * (N - 1)) / qz (N - 1))%Qc by (rewrite qz_mult; field; auto). apply (proj1 (qdiv_lt _ _ _ M)). apply (proj1 (qz_lt _ _)). lia.
Qed.

Lemma argmax_nat_spec : forall l, l <> [] -> exists i m, argmax_nat l = (i, m) /\ nth_error l i = Some m /\ (forall x, In x l -> (x <= m)%nat) /\ (forall k x, (k < i)%nat -> nth_error l k = Some x -> (x < m)%nat).
Proof.
  induction l as [|a l IH]; intros N; [easy|]. destruct l as [|b l].
  - exists 0%nat, a. cbn. split; [now destruct a|]. split; [reflexivity|]. split; [intros x [<-|[]]; lia|intros; lia].
  - destruct IH as (i & m & E & K & L & F); [easy|]. change (argmax_nat (a :: b :: l)) with (let '(i, m) := argmax_nat (b :: l) in if (m <=? a)%nat then (0, a)%nat else (S i, m)). rewrite E.
    destruct (Nat.leb_spec m a).
    + exists 0%nat, a. repeat split; [|intros; lia]. intros x [<-|X]; [lia|]. specialize (L x X). lia.
    + exists (S i), m. split; [reflexivity|]. split; [exact K|]. split; [intros x [<-|X]; [lia|now apply L]|]. intros [|k] x KI X; cbn [nth_error] in X; [injection X as <-; lia|]. apply (F k); [lia|auto].
Qed.
Lemma zrange_in : forall n x, In x (zrange n) <-> (0 <= x < n)%Z.
Proof. intros n x. unfold zrange. rewrite in_map_iff. split; [intros (k & <- & K); apply in_seq in K; lia|]. intros H. exists (Z.to_nat x). split; [lia|]. apply in_seq. lia. Qed.
Lemma zrange_length : forall n, List.length (zrange n) = Z.to_nat n.
Proof. intros. unfold zrange. now rewrite map_length, seq_length. Qed.
Lemma zrange_nth : forall n k, (k < Z.to_nat n)%nat -> nth_error (zrange n) k = Some (Z.of_nat k).
Proof. intros n k K. unfold zrange. rewrite nth_error_map, nth_error_seq. destruct (Nat.ltb_spec k (Z.to_nat n)); [reflexivity|lia]. Qed.
Lemma count_le : forall A (p : A -> bool) l, (count p l <= List.length l)%nat.
Proof. intros. unfold count. induction l as [|a l IH]; cbn [filter List.length]; [lia|]. destruct (p a); cbn [List.length]; lia. Qed.
Lemma count_all : forall A (p : A -> bool) l, count p l = List.length l <-> forall a, In a l -> p a = true.
Proof.
  intros A p l. induction l as [|a l IH]; [split; [intros _ a []|reflexivity]|]. unfold count in *. cbn [filter List.length]. pose proof (count_le _ p l) as C. unfold count in C. destruct (p a) eqn:E; cbn [List.length].
  - split; [intros H x [<-|X]; [auto|apply IH; [lia|auto]]|]. intros H. f_equal. apply IH. intros; apply H; now right.
  - split; [lia|]. intros H. specialize (H a (or_introl eq_refl)). congruence.
Qed.
Lemma count_ext : forall A (p q : A -> bool) l, (forall a, In a l -> p a = q a) -> count p l = count q l.
Proof. intros A p q l H. unfold count. f_equal. induction l as [|a l IH]; [reflexivity|]. cbn [filter]. rewrite (H a (or_introl eq_refl)), IH by (intros; apply H; now right). reflexivity. Qed.
Lemma filter_all : forall A (p : A -> bool) l, (forall a, In a l -> p a = true) -> filter p l = l.
Proof. intros A p l H. induction l as [|a l IH]; [reflexivity|]. cbn [filter]. rewrite (H a (or_introl eq_refl)), IH by (intros; apply H; now right). reflexivity. Qed.
Lemma mapM_map : forall A B (f : A -> res B) g l, (forall a, In a l -> f a = Ok (g a)) -> mapM f l = Ok (map g l).
Proof. intros A B f g l H. induction l as [|a l IH]; [reflexivity|]. cbn [mapM map]. rewrite (H a (or_introl eq_refl)), IH by (intros; apply H; now right). reflexivity. Qed.
Lemma mapM_map_in : forall A B C (f : B -> res C) (h : A -> B) l, mapM f (map h l) = mapM (fun a => f (h a)) l.
Proof. intros. induction l as [|a l IH]; [reflexivity|]. cbn [mapM map]. now rewrite IH. Qed.

(** ** A regular grid *)
Section Grid.
  Variable x0 y0 p : Qc.
  Variable ncol nrow : Z.
  Variable cells : list (Z * Z). (* column, row *)
  Hypothesis P : (0 < p)%Qc.
  Hypothesis N2 : (2 <= ncol)%Z.
  Hypothesis M2 : (2 <= nrow)%Z.
  Hypothesis ND : NoDup cells.
  Hypothesis IN : forall c, In c cells -> (0 <= fst c < ncol)%Z /\ (0 <= snd c < nrow)%Z.
  Definition gx (i : Z) : Qc := (x0 + p * qz i)%Qc.
  Definition gy (j : Z) : Qc := (y0 + p * qz j)%Qc.
  Definition place (c : Z * Z) : Qc * Qc := (gx (fst c), gy (snd c)).
  Hypothesis NX : forall c, In c cells -> gx (fst c) <> 0%Qc.
  Hypothesis NY : forall c, In c cells -> gy (snd c) <> 0%Qc.
  Definition mem (c : Z * Z) : bool := existsb (fun d => (fst d =? fst c)%Z && (snd d =? snd c)%Z) cells.
  Lemma mem_in : forall c, mem c = true <-> In c cells.
  Proof.
    intros [i j]. unfold mem. rewrite existsb_exists. split.
    - intros ([a b] & I & E). cbn [fst snd] in E. apply andb_prop in E as [E1 E2]. apply Z.eqb_eq in E1, E2. now subst.
    - intros I. exists (i, j). split; auto. cbn. now rewrite !Z.eqb_refl.
  Qed.
  Lemma one_cell : forall (w : Z * Z -> Qc) i j l, NoDup l -> qsum (map w (filter (fun c => (fst c =? i)%Z && (snd c =? j)%Z) l)) = if existsb (fun d => (fst d =? i)%Z && (snd d =? j)%Z) l then w (i, j) else 0%Qc.
  Proof.
    intros w i j l N. induction N as [|[a b] l X N IH]; [reflexivity|]. cbn [filter existsb fst snd]. destruct (Z.eqb_spec a i) as [EA|]; cbn [andb orb]; [|exact IH]. destruct (Z.eqb_spec b j) as [EB|]; cbn [andb orb]; [|exact IH]. subst a b.
    cbn [map]. rewrite qsum_cons. replace (filter _ l) with (@nil (Z * Z)); [cbn; ring|]. symmetry. destruct (filter _ l) as [|[a b] m] eqn:E; [reflexivity|]. exfalso. assert (In (a, b) (filter (fun c => (fst c =? i)%Z && (snd c =? j)%Z) l)) as I by (rewrite E; now left).
    apply filter_In in I as [I K]. cbn [fst snd] in K. apply andb_prop in K as [K1 K2]. apply Z.eqb_eq in K1, K2. now subst.
  Qed.
  Lemma hist_grid : forall w i j, hist (map place cells) (gx 0) (gx (ncol - 1)) (gy 0) (gy (nrow - 1)) ncol nrow w i j = if mem (i, j) then w (place (i, j)) else 0%Qc.
  Proof.
    intros w i j. unfold hist.
    assert (forall l, (forall c, In c l -> In c cells) ->
      map w (filter (fun q => (bin_of (gx 0) (gx (ncol - 1)) ncol (fst q) =? i)%Z && (bin_of (gy 0) (gy (nrow - 1)) nrow (snd q) =? j)%Z) (map place l)) =
      map (fun c => w (place c)) (filter (fun c => (fst c =? i)%Z && (snd c =? j)%Z) l)) as E.
    { induction l as [|c l IH]; intros S; [reflexivity|]. cbn [map filter place fst snd]. destruct (IN c (S c (or_introl eq_refl))) as [C1 C2].
      assert (bin_of (gx 0) (gx (ncol - 1)) ncol (gx (fst c)) = fst c) as -> by (replace (gx 0) with x0 by (unfold gx; change (qz 0) with 0%Qc; ring); now apply bin_grid).
      assert (bin_of (gy 0) (gy (nrow - 1)) nrow (gy (snd c)) = snd c) as -> by (replace (gy 0) with y0 by (unfold gy; change (qz 0) with 0%Qc; ring); now apply bin_grid).
      destruct ((fst c =? i)%Z && (snd c =? j)%Z); cbn [map]; [f_equal|]; apply IH; intros; apply S; now right. }
    rewrite E by auto. rewrite one_cell by exact ND. reflexivity.
  Qed.
  (** A complete column. *)
  Definition complete_col (i : Z) : Prop := (0 <= i < ncol)%Z /\ forall j, (0 <= j < nrow)%Z -> In (i, j) cells.
  Lemma fullest_grid : forall h, (forall i j, (0 <= i < ncol)%Z -> (0 <= j < nrow)%Z -> qeqb (h i j) 0%Qc = negb (mem (i, j))) -> (exists i, complete_col i) ->
    exists f, fullest ncol nrow h = Ok f /\ complete_col f /\ forall k, (0 <= k < f)%Z -> ~ complete_col k.
  Proof.
    intros h H (i0 & B0 & C0). unfold fullest.
    assert (CE : forall i, (0 <= i < ncol)%Z -> count (fun j => negb (qeqb (h i j) 0%Qc)) (zrange nrow) = count (fun j => mem (i, j)) (zrange nrow)).
    { intros i I. apply count_ext. intros j J. apply zrange_in in J. rewrite H by auto. apply negb_involutive. }
    assert (FULL : forall i, (0 <= i < ncol)%Z -> (complete_col i <-> count (fun j => negb (qeqb (h i j) 0%Qc)) (zrange nrow) = Z.to_nat nrow)).
    { intros i I. rewrite CE by auto. rewrite <- zrange_length. rewrite count_all. split; [intros [_ C] j J; apply mem_in, C; now apply zrange_in in J|]. intros C. split; [auto|]. intros j J. apply mem_in, C. now apply zrange_in. }
    destruct (argmax_nat_spec (map (fun i => count (fun j => negb (qeqb (h i j) 0%Qc)) (zrange nrow)) (zrange ncol))) as (i & m & E & K & L & F).
    { intro X. apply (f_equal (@List.length nat)) in X. rewrite map_length, zrange_length in X. cbn in X. lia. }
    rewrite E. rewrite nth_error_map in K. destruct (nth_error (zrange ncol) i) as [z|] eqn:Z; [|discriminate]. cbn [option_map] in K. injection K as K.
    assert (IB : (i < Z.to_nat ncol)%nat) by (rewrite <- zrange_length; apply nth_error_Some; congruence). rewrite zrange_nth in Z by auto. injection Z as <-.
    assert (m = Z.to_nat nrow) as MX.
    { assert (Z.to_nat nrow <= m)%nat. { rewrite <- (proj1 (FULL i0 B0) (conj B0 C0)). apply L. apply in_map_iff. exists i0. split; [reflexivity|]. now apply zrange_in. }
      assert (m <= Z.to_nat nrow)%nat. { rewrite <- K, <- zrange_length. apply count_le. } lia. }
    destruct (Nat.eqb_spec m 0); [lia|]. exists (Z.of_nat i). split; [reflexivity|]. split; [apply FULL; [lia|congruence]|].
    intros k KB C. assert (nth_error (map (fun i => count (fun j => negb (qeqb (h i j) 0%Qc)) (zrange nrow)) (zrange ncol)) (Z.to_nat k) = Some (Z.to_nat nrow)) as X.
    { rewrite nth_error_map, zrange_nth by lia. cbn [option_map]. f_equal. rewrite Z2Nat.id by lia. apply FULL; [lia|exact C]. }
    apply F in X; lia.
  Qed.
  Lemma hist_mem_x : forall i j, qeqb (hist (map place cells) (gx 0) (gx (ncol - 1)) (gy 0) (gy (nrow - 1)) ncol nrow fst i j) 0%Qc = negb (mem (i, j)).
  Proof. intros i j. rewrite hist_grid. destruct (mem (i, j)) eqn:E; [|now destruct (qeqb_spec 0%Qc 0%Qc)]. apply mem_in in E. destruct (qeqb_spec (fst (place (i, j))) 0%Qc) as [X|]; [|reflexivity]. exfalso. apply (NX _ E). exact X. Qed.
  Lemma hist_mem_y : forall i j, qeqb (hist (map place cells) (gx 0) (gx (ncol - 1)) (gy 0) (gy (nrow - 1)) ncol nrow snd i j) 0%Qc = negb (mem (i, j)).
  Proof. intros i j. rewrite hist_grid. destruct (mem (i, j)) eqn:E; [|now destruct (qeqb_spec 0%Qc 0%Qc)]. apply mem_in in E. destruct (qeqb_spec (snd (place (i, j))) 0%Qc) as [X|]; [|reflexivity]. exfalso. apply (NY _ E). exact X. Qed.
  Lemma hist_mem_c : forall i j, qeqb (hist (map place cells) (gx 0) (gx (ncol - 1)) (gy 0) (gy (nrow - 1)) ncol nrow (fun _ => 1%Qc) i j) 0%Qc = negb (mem (i, j)).
  Proof. intros i j. rewrite hist_grid. destruct (mem (i, j)); [|now destruct (qeqb_spec 0%Qc 0%Qc)]. reflexivity. Qed.
  (** Everything up to the rows and columns of the fullest column. *)
  Lemma row_column_grid : forall c0 rest, cells = c0 :: rest ->
    (exists c, In c rest /\ Z.abs (fst c - fst c0) + Z.abs (snd c - snd c0) = 1)%Z ->
    (exists i, complete_col i) -> (exists j, (0 <= j < nrow)%Z /\ In (0%Z, j) cells) -> (exists j, (0 <= j < nrow)%Z /\ In ((ncol - 1)%Z, j) cells) ->
    exists f, complete_col f /\ (forall k, (0 <= k < f)%Z -> ~ complete_col k) /\
    ((nrow <= f)%Z -> get_row_column (map place cells) = Raise IndexError) /\
    ((f < nrow)%Z -> (forall i, (0 <= i < ncol)%Z -> In (i, f) cells) -> get_row_column (map place cells) =
      bind (broadcast_add (map (fun i => sq (gx i - gx 0)%Qc) (zrange ncol)) (map (fun j => sq (gy j - gy 0)%Qc) (zrange nrow))) (fun d =>
      match qmin_list (tl d) with
      | None => Raise ValueError
      | Some md2 =>
        let m2 := (md2 / qz 4)%Qc in
        bind (mapM (fun q => digitize (map gx (zrange ncol)) m2 (fst q)) (map place cells)) (fun column =>
        bind (mapM (fun q => digitize (map gy (zrange nrow)) m2 (snd q)) (map place cells)) (fun row_ => Ok (row_, column)))
      end)).
  Proof.
    intros c0 rest CE NB CC LO HI.
    assert (MONO : forall i j, (i <= j)%Z -> (p * qz i <= p * qz j)%Qc).
    { intros i j IJ. apply qz_le in IJ. revert IJ. generalize (qz i), (qz j). intros a b AB. assert (0 <= p * (b - a))%Qc by (assert (0 <= b - a)%Qc by qlra; generalize dependent (b - a)%Qc; intros; qnra). replace (p * b)%Qc with (p * a + p * (b - a))%Qc by ring. generalize dependent (p * (b - a))%Qc. intros. qlra. }
    assert (D2 : qmin_list (map (fun q => sq (fst q - fst (place c0)) + sq (snd q - snd (place c0)))%Qc (map place rest)) = Some (sq p)).
    { rewrite map_map.
      assert (DE : forall c, (sq (fst (place c) - fst (place c0)) + sq (snd (place c) - snd (place c0)))%Qc = (sq p * qz ((fst c - fst c0) * (fst c - fst c0) + (snd c - snd c0) * (snd c - snd c0)))%Qc).
      { intros c. unfold place, gx, gy, sq. cbn [fst snd]. rewrite qz_plus, !qz_mult, !qz_minus. ring. }
      apply qmin_is.
      - destruct NB as (c & I & A). apply in_map_iff. exists c. split; [|exact I]. rewrite DE. replace ((fst c - fst c0) * (fst c - fst c0) + (snd c - snd c0) * (snd c - snd c0))%Z with 1%Z by nia. change (qz 1) with 1%Qc. ring.
      - intros x X. apply in_map_iff in X as (c & <- & I). rewrite DE. rewrite CE in ND. inversion ND as [|? ? X _]; subst.
        assert (c <> c0) as NE by (intros ->; contradiction).
        assert (1 <= (fst c - fst c0) * (fst c - fst c0) + (snd c - snd c0) * (snd c - snd c0))%Z as G.
        { destruct c as [a b], c0 as [a0 b0]. cbn [fst snd] in *. assert (SQ : forall d, (0 <= d * d)%Z /\ (d <> 0 -> 1 <= d * d)%Z) by (clear; intros d; split; [apply Z.square_nonneg|intros Hd; destruct (Z.lt_trichotomy d 0) as [|[|]]; nia]).
          destruct (SQ (a - a0)%Z) as [A1 A2], (SQ (b - b0)%Z) as [B1 B2]. assert (a - a0 <> 0 \/ b - b0 <> 0)%Z as [N|N] by (destruct (Z.eq_dec a a0), (Z.eq_dec b b0); [subst; congruence|lia..]); [specialize (A2 N)|specialize (B2 N)]; lia. }
        apply qz_le in G. change (qz 1) with 1%Qc in G. assert (0 < sq p)%Qc as SP by (unfold sq; qnra). revert G. generalize (qz ((fst c - fst c0) * (fst c - fst c0) + (snd c - snd c0) * (snd c - snd c0))) as k. generalize dependent (sq p). intros s _ SP k K. clear - SP K. qnra. }
    assert (LX : qmin_list (map fst (map place cells)) = Some (gx 0)).
    { rewrite map_map. apply qmin_is.
      - destruct LO as (j & _ & I). apply in_map_iff. exists (0%Z, j). auto.
      - intros x X. apply in_map_iff in X as (c & <- & I). destruct (IN c I) as [B _]. unfold place, gx. cbn [fst]. specialize (MONO 0%Z (fst c) (proj1 B)). generalize dependent (p * qz (fst c))%Qc. generalize (p * qz 0)%Qc. intros. qlra. }
    assert (HX : qmax_list (map fst (map place cells)) = Some (gx (ncol - 1))).
    { rewrite map_map. apply qmax_is.
      - destruct HI as (j & _ & I). apply in_map_iff. exists ((ncol - 1)%Z, j). auto.
      - intros x X. apply in_map_iff in X as (c & <- & I). destruct (IN c I) as [B _]. unfold place, gx. cbn [fst]. assert (fst c <= ncol - 1)%Z as Q by lia. specialize (MONO _ _ Q). generalize dependent (p * qz (fst c))%Qc. generalize (p * qz (ncol - 1))%Qc. intros. qlra. }
    assert (LY : qmin_list (map snd (map place cells)) = Some (gy 0)).
    { rewrite map_map. apply qmin_is.
      - destruct CC as (i & _ & C). apply in_map_iff. exists (i, 0%Z). split; [reflexivity|]. apply C. lia.
      - intros x X. apply in_map_iff in X as (c & <- & I). destruct (IN c I) as [_ B]. unfold place, gy. cbn [snd]. specialize (MONO 0%Z (snd c) (proj1 B)). generalize dependent (p * qz (snd c))%Qc. generalize (p * qz 0)%Qc. intros. qlra. }
    assert (HY : qmax_list (map snd (map place cells)) = Some (gy (nrow - 1))).
    { rewrite map_map. apply qmax_is.
      - destruct CC as (i & _ & C). apply in_map_iff. exists (i, (nrow - 1)%Z). split; [reflexivity|]. apply C. lia.
      - intros x X. apply in_map_iff in X as (c & <- & I). destruct (IN c I) as [_ B]. unfold place, gy. cbn [snd]. assert (snd c <= nrow - 1)%Z as Q by lia. specialize (MONO _ _ Q). generalize dependent (p * qz (snd c))%Qc. generalize (p * qz (nrow - 1))%Qc. intros. qlra. }
    assert (S0 : qeqb (sq p) 0%Qc = false). { destruct (qeqb_spec (sq p) 0%Qc) as [E|]; [|reflexivity]. exfalso. assert (0 < sq p)%Qc as SP by (unfold sq; qnra). rewrite E in SP. now apply Qclt_not_eq in SP. }
    assert (RX : (ceil_ratio (gx (ncol - 1) - gx 0)%Qc (sq p) + 1 = ncol)%Z).
    { replace (gx (ncol - 1) - gx 0)%Qc with (p * qz (ncol - 1))%Qc by (unfold gx; change (qz 0) with 0%Qc; ring). rewrite ceil_ratio_grid by (auto; lia). lia. }
    assert (RY : (ceil_ratio (gy (nrow - 1) - gy 0)%Qc (sq p) + 1 = nrow)%Z).
    { replace (gy (nrow - 1) - gy 0)%Qc with (p * qz (nrow - 1))%Qc by (unfold gy; change (qz 0) with 0%Qc; ring). rewrite ceil_ratio_grid by (auto; lia). lia. }
    destruct (fullest_grid (hist (map place cells) (gx 0) (gx (ncol - 1)) (gy 0) (gy (nrow - 1)) ncol nrow fst) (fun i j _ _ => hist_mem_x i j) CC) as (f & F & CF & FIRST).
    destruct (fullest_grid (hist (map place cells) (gx 0) (gx (ncol - 1)) (gy 0) (gy (nrow - 1)) ncol nrow snd) (fun i j _ _ => hist_mem_y i j) CC) as (f' & F' & CF' & FIRST').
    assert (G : get_row_column (map place cells) =
      if (nrow <=? f)%Z then Raise IndexError
      else let full_x := map (fun i => hist (map place cells) (gx 0) (gx (ncol - 1)) (gy 0) (gy (nrow - 1)) ncol nrow fst i f) (filter (fun i => negb (qeqb (hist (map place cells) (gx 0) (gx (ncol - 1)) (gy 0) (gy (nrow - 1)) ncol nrow (fun _ => 1%Qc) i f) 0%Qc)) (zrange ncol)) in
            let full_y := map (fun j => hist (map place cells) (gx 0) (gx (ncol - 1)) (gy 0) (gy (nrow - 1)) ncol nrow snd f' j) (filter (fun j => negb (qeqb (hist (map place cells) (gx 0) (gx (ncol - 1)) (gy 0) (gy (nrow - 1)) ncol nrow (fun _ => 1%Qc) f' j) 0%Qc)) (zrange nrow)) in
            match full_x, full_y with
            | x0 :: _, y0 :: _ =>
              bind (broadcast_add (map (fun x => sq (x - x0)%Qc) full_x) (map (fun y => sq (y - y0)%Qc) full_y)) (fun d =>
              match qmin_list (tl d) with
              | None => Raise ValueError
              | Some md2 =>
                let m2 := (md2 / qz 4)%Qc in
                bind (mapM (fun p => digitize full_x m2 (fst p)) (map place cells)) (fun column =>
                bind (mapM (fun p => digitize full_y m2 (snd p)) (map place cells)) (fun row_ => Ok (row_, column)))
              end)
            | _, _ => Raise IndexError
            end).
    { assert (ME : map place cells = place c0 :: map place rest) by (rewrite CE; reflexivity). revert LX HX LY HY F F' ME. generalize (map place cells). intros pp LX HX LY HY F F' ME.
      destruct pp as [|q0 qs]; [discriminate|]. assert (q0 = place c0) by congruence. assert (qs = map place rest) by congruence. subst q0 qs.
      unfold get_row_column. rewrite D2, LX, HX, LY, HY, S0, RX, RY, F. cbn [bind]. rewrite F'. reflexivity. }
    exists f. split; [exact CF|]. split; [exact FIRST|]. rewrite G. split.
    - intros B. destruct (Z.leb_spec nrow f); [reflexivity|lia].
    - intros B FR. destruct (Z.leb_spec nrow f); [lia|]. clear G.
      assert (FX : map (fun i => hist (map place cells) (gx 0) (gx (ncol - 1)) (gy 0) (gy (nrow - 1)) ncol nrow fst i f) (filter (fun i => negb (qeqb (hist (map place cells) (gx 0) (gx (ncol - 1)) (gy 0) (gy (nrow - 1)) ncol nrow (fun _ => 1%Qc) i f) 0%Qc)) (zrange ncol)) = map gx (zrange ncol)).
      { rewrite filter_all. 2: { intros i I. apply zrange_in in I. rewrite hist_mem_c, negb_involutive. apply mem_in. now apply FR. }
        apply map_ext_in. intros i I. apply zrange_in in I. rewrite hist_grid. rewrite (proj2 (mem_in (i, f)) (FR i I)). reflexivity. }
      assert (FY : map (fun j => hist (map place cells) (gx 0) (gx (ncol - 1)) (gy 0) (gy (nrow - 1)) ncol nrow snd f' j) (filter (fun j => negb (qeqb (hist (map place cells) (gx 0) (gx (ncol - 1)) (gy 0) (gy (nrow - 1)) ncol nrow (fun _ => 1%Qc) f' j) 0%Qc)) (zrange nrow)) = map gy (zrange nrow)).
      { destruct CF' as [_ CF']. rewrite filter_all. 2: { intros j J. apply zrange_in in J. rewrite hist_mem_c, negb_involutive. apply mem_in. now apply CF'. }
        apply map_ext_in. intros j J. apply zrange_in in J. rewrite hist_grid. rewrite (proj2 (mem_in (f', j)) (CF' j J)). reflexivity. }
      rewrite FX, FY. cbv zeta.
      assert (HEAD : forall g : Z -> Qc, forall n, (2 <= n)%Z -> exists t, map g (zrange n) = g 0%Z :: t).
      { intros g n Hn. unfold zrange. destruct (Z.to_nat n) as [|k] eqn:K; [lia|]. cbn [seq map]. eexists. reflexivity. }
      destruct (HEAD gx ncol N2) as (tx & TX). destruct (HEAD gy nrow M2) as (ty & TY). rewrite <- (map_map gx (fun x => sq (x - gx 0)%Qc)), <- (map_map gy (fun y => sq (y - gy 0)%Qc)). rewrite TX, TY. reflexivity.
  Qed.
End Grid.
