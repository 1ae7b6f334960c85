(** Proofs on the histogram. *)
From Coq Require Import List ZArith QArith Qcanon Qround Bool Arith Lia.
From Verif.Base Require Import Py PyFacts Num Lst.
From Verif.Fitter Require Import Model Proofs.
From Verif.Spectrum Require Import Model Spec.
Import ListNotations.
Local Open Scope list_scope.
Local Open Scope Qc_scope.

Lemma in_bin_spec : forall e n k x, in_bin e n k x = true <-> edge e k <= x /\ (x < edge e (S k) \/ (S k = n /\ x <= edge e (S k))).
Proof.
  intros. unfold in_bin. destruct (qleb_spec (edge e k) x), (qltb_spec x (edge e (S k))), (Nat.eqb_spec (S k) n), (qleb_spec x (edge e (S k))); cbn; intuition congruence.
Qed.
Lemma edges_mono : forall e n first last, proper_edges e n first last -> forall i j, (i <= j <= n)%nat -> edge e i <= edge e j.
Proof. intros e n f l (_ & _ & _ & M) i j H. destruct (Nat.eq_dec i j) as [->|N]; [apply Qcle_refl|]. apply Qclt_le_weak, M. lia. Qed.
Lemma in_bin_unique : forall e n first last x i j, proper_edges e n first last -> (i < n)%nat -> (j < n)%nat ->
  in_bin e n i x = true -> in_bin e n j x = true -> i = j.
Proof.
  intros e n f l x i j P I J A B. apply in_bin_spec in A as [A1 A2], B as [B1 B2]. pose proof (edges_mono _ _ _ _ P) as M. destruct P as (_ & _ & _ & SI).
  destruct (Nat.lt_trichotomy i j) as [H|[H|H]]; auto; exfalso.
  - pose proof (M (S i) j ltac:(lia)) as X. destruct A2 as [A2|[A2 _]]; [qlra|lia].
  - pose proof (M (S j) i ltac:(lia)) as X. destruct B2 as [B2|[B2 _]]; [qlra|lia].
Qed.
Lemma in_bin_range : forall e n first last x k, proper_edges e n first last -> (k < n)%nat -> in_bin e n k x = true -> first <= x <= last.
Proof.
  intros e n f l x k P K A. apply in_bin_spec in A as [A1 A2]. pose proof (edges_mono _ _ _ _ P 0%nat k ltac:(lia)) as X. pose proof (edges_mono _ _ _ _ P (S k) n ltac:(lia)) as Y.
  destruct P as (_ & E0 & En & _). rewrite E0 in X. rewrite En in Y. split; [qlra|]. destruct A2 as [A2|[_ A2]]; qlra.
Qed.
Lemma in_bin_exists : forall e n first last x, proper_edges e n first last -> (0 < n)%nat -> first <= x <= last ->
  exists k, (k < n)%nat /\ in_bin e n k x = true.
Proof.
  intros e n f l x P N [A B]. destruct P as (L & E0 & En & SI).
  assert (forall m, (m <= n)%nat -> (exists k, (k < m)%nat /\ edge e k <= x /\ x < edge e (S k)) \/ edge e m <= x) as G.
  { induction m as [|m IH]; intros M; [right; now rewrite E0|]. destruct IH as [(k & K & C)|C]; [lia|left; exists k; split; [lia|exact C]|].
    destruct (qltb_spec x (edge e (S m))) as [D|D]; [left; exists m; split; [lia|auto]|right; qlra]. }
  destruct (G n) as [(k & K & C1 & C2)|C]; auto.
  - exists k. split; auto. apply in_bin_spec. auto.
  - exists (n - 1)%nat. split; [lia|]. apply in_bin_spec. replace (S (n - 1)) with n by lia. rewrite En. split; auto.
    pose proof (SI (n - 1)%nat n ltac:(lia)). rewrite En in *. qlra.
Qed.

Lemma zget_edge : forall l i, (0 <= i < Z.of_nat (List.length l))%Z -> zget l i = Ok (edge l (Z.to_nat i)).
Proof.
  intros l i H. unfold zget, edge. rewrite (proj2 (Z.ltb_ge i 0)) by lia. cbv zeta. rewrite (proj2 (Z.ltb_ge i 0)) by lia.
  destruct (nth_error l (Z.to_nat i)) eqn:E; [now rewrite (nth_error_nth _ _ 0 E)|]. apply nth_error_None in E. lia.
Qed.
(** The corrections find the bin. *)
Lemma hist_index_bin : forall ar first last n x k, faithful ar first last n -> (k < n)%nat -> in_bin (f_edges ar first last (Z.of_nat n)) n k x = true ->
  hist_index ar first last (Z.of_nat n) (f_edges ar first last (Z.of_nat n)) x = Ok (Z.of_nat k).
Proof.
  intros ar f l n x k [P F] K B. pose proof (F x k K B) as [I1 I2]. unfold hist_index. set (i0 := f_index ar f l (Z.of_nat n) x) in *.
  set (e := f_edges ar f l (Z.of_nat n)) in *. pose proof P as (L & E0 & En & SI). pose proof (edges_mono _ _ _ _ P) as M. pose proof B as B'. apply in_bin_spec in B' as [B1 B2].
  set (i1 := if (i0 =? Z.of_nat n)%Z then (i0 - 1)%Z else i0). assert (0 <= i1 < Z.of_nat n /\ Z.abs (i1 - Z.of_nat k) <= 1)%Z as [J1 J2].
  { subst i1. destruct (Z.eqb_spec i0 (Z.of_nat n)); lia. }
  rewrite zget_edge by lia. cbn [bind].
  assert (i1 = Z.of_nat k - 1 \/ i1 = Z.of_nat k \/ i1 = Z.of_nat k + 1)%Z as [C|[C|C]] by lia; rewrite C.
  - (* one too low *)
    assert (0 < k)%nat by lia. replace (Z.to_nat (Z.of_nat k - 1)) with (k - 1)%nat by lia.
    pose proof (M (k - 1)%nat k ltac:(lia)). destruct (qltb_spec x (edge e (k - 1))); [exfalso; qlra|].
    rewrite zget_edge by lia. cbn [bind]. replace (Z.to_nat (Z.of_nat k - 1 + 1)) with k by lia. destruct (qleb_spec (edge e k) x); [|contradiction].
    rewrite (proj2 (Z.eqb_neq _ _)) by lia. cbn [andb negb]. f_equal. lia.
  - rewrite Nat2Z.id. destruct (qltb_spec x (edge e k)); [exfalso; qlra|]. rewrite zget_edge by lia. cbn [bind].
    replace (Z.to_nat (Z.of_nat k + 1)) with (S k) by lia. destruct (qleb_spec (edge e (S k)) x) as [Q|Q]; cbn [andb]; auto.
    destruct B2 as [B2|[B2 _]]; [exfalso; qlra|]. rewrite (proj2 (Z.eqb_eq _ _)) by lia. reflexivity.
  - (* one too high *)
    replace (Z.to_nat (Z.of_nat k + 1)) with (S k) by lia. destruct B2 as [B2|[B2 _]]; [|lia].
    destruct (qltb_spec x (edge e (S k))); [|contradiction]. rewrite zget_edge by lia. cbn [bind].
    replace (Z.to_nat (Z.of_nat k + 1 - 1 + 1)) with (S k) by lia. destruct (qleb_spec (edge e (S k)) x); [exfalso; qlra|]. cbn [andb]. f_equal. lia.
Qed.

(** The list of bins of the kept values. *)
Lemma hist_indices : forall ar first last n, faithful ar first last n -> (0 < n)%nat -> forall a,
  let e := f_edges ar first last (Z.of_nat n) in
  exists is, mapM (hist_index ar first last (Z.of_nat n) e) (kept first last a) = Ok is /\
    Forall (fun i => 0 <= i < Z.of_nat n)%Z is /\
    List.length is = n_in_range first last a /\
    forall k, (k < n)%nat -> List.length (filter (fun i => (i =? Z.of_nat k)%Z) is) = content e n k a.
Proof.
  intros ar f l n F N a e. pose proof F as [P _]. fold e in P. induction a as [|[x|] a (is & E & R & T & C)].
  - exists []. cbn. auto.
  - unfold kept, n_in_range, content in *. cbn [flat_map filter]. destruct (qleb f x && qleb x l) eqn:K.
    + cbn [app mapM]. apply andb_prop in K as [K1 K2]. destruct (qleb_spec f x) as [L1|]; [|discriminate]. destruct (qleb_spec x l) as [L2|]; [|discriminate].
      destruct (in_bin_exists e n f l x P N (conj L1 L2)) as (k & Kn & B). pose proof (hist_index_bin ar f l n x k F Kn B) as HI. fold e in HI. rewrite HI, E.
      exists (Z.of_nat k :: is). split; auto. split; [constructor; auto; lia|]. split; [cbn [List.length]; now rewrite T|]. intros j J. cbn [filter].
      destruct (Z.eqb_spec (Z.of_nat k) (Z.of_nat j)) as [Q|Q].
      * assert (k = j) as <- by lia. rewrite B. cbn [List.length]. now rewrite C.
      * destruct (in_bin e n j x) eqn:B'; [exfalso; apply Q; f_equal; now apply (in_bin_unique e n f l x)|]. now apply C.
    + cbn [app]. exists is. split; auto. split; auto. split; auto. intros j J. destruct (in_bin e n j x) eqn:B'; [|now apply C].
      exfalso. destruct (in_bin_range e n f l x j P J B'). destruct (qleb_spec f x), (qleb_spec x l); cbn in K; try discriminate; contradiction.
  - exists is. unfold kept, n_in_range, content in *. cbn [flat_map filter app]. auto.
Qed.
Definition first_edge (lo hi : Qc) : Qc := fst (outer_edges lo hi).
Definition last_edge (lo hi : Qc) : Qc := snd (outer_edges lo hi).
Lemma np_histogram_ok : forall ar n lo hi a, (0 < n)%nat -> lo <= hi -> faithful ar (first_edge lo hi) (last_edge lo hi) n ->
  let e := f_edges ar (first_edge lo hi) (last_edge lo hi) (Z.of_nat n) in
  np_histogram ar a (Z.of_nat n) lo hi = Ok (map (fun k => content e n k a) (seq 0 n), e).
Proof.
  intros ar n lo hi a N L F e. unfold np_histogram, first_edge, last_edge in *. rewrite (proj2 (Z.ltb_ge _ _)) by lia.
  destruct (qltb_spec hi lo); [exfalso; qlra|]. destruct (outer_edges lo hi) as [f l]. cbn [fst snd] in *. subst e.
  destruct (hist_indices ar f l n F N a) as (is & E & R & _ & C). rewrite E. cbn [bind]. unfold bincount.
  replace (forallb _ is) with true.
  - cbn [bind]. f_equal. f_equal. rewrite Nat2Z.id. apply map_ext_in. intros k K. apply in_seq in K. apply C. lia.
  - symmetry. apply forallb_forall. intros i I. apply (proj1 (Forall_forall _ _) R) in I. apply andb_true_intro. split; [apply Z.leb_le|apply Z.ltb_lt]; lia.
Qed.

(** ** apply *)
Lemma apply_loop_ok : forall ar n lo hi charges ys st, (0 < n)%nat -> lo <= hi -> faithful ar (first_edge lo hi) (last_edge lo hi) n ->
  let e := f_edges ar (first_edge lo hi) (last_edge lo hi) (Z.of_nat n) in
  apply_loop ar (Z.of_nat n) lo hi charges ys st =
  (Hists (match charges with [] => hist_x st | _ => Some (map (f32 ar) (between e)) end)
         (Some (ys ++ map (fun a => map (fun k => f32 ar (qn (content e n k a))) (seq 0 n)) charges))
         (match charges with [] => hist_edges st | _ => Some (map (f32 ar) e) end), None).
Proof.
  intros ar n lo hi charges ys st N L F e. revert ys st. induction charges as [|a charges IH]; intros ys st; cbn [apply_loop map].
  - now rewrite app_nil_r.
  - rewrite np_histogram_ok by auto. fold e. rewrite map_map. rewrite IH, <- app_assoc. cbn [app hist_x hist_edges]. destruct charges; reflexivity.
Qed.

Lemma between_length : forall e, List.length (between e) = pred (List.length e).
Proof. intros [|x e]; auto. unfold between. rewrite map_length, combine_length. cbn. lia. Qed.
Lemma between_nth : forall e k, (S k < List.length e)%nat -> nth k (between e) 0 = (edge e k + edge e (S k)) / qz 2.
Proof.
  unfold between, edge. induction e as [|x e IH]; intros k H; [cbn in H; lia|]. destruct e as [|y e]; [cbn in H; lia|]. cbn [tl combine map]. destruct k as [|k].
  - cbn [nth fst snd]. unfold Qcdiv. ring.
  - exact (IH k ltac:(cbn in *; lia)).
Qed.

(** Every charge of the range is in exactly one bin. *)
Lemma content_total : forall e n first last a, proper_edges e n first last -> (0 < n)%nat ->
  fold_right plus 0%nat (map (fun k => content e n k a) (seq 0 n)) = n_in_range first last a.
Proof.
  intros e n f l a P N.
  assert (forall (p : nat -> bool) j s m, (s <= j < s + m)%nat -> p j = true -> (forall i, (s <= i < s + m)%nat -> p i = true -> i = j) ->
    forall g, fold_right plus 0%nat (map (fun i => (if p i then S (g i) else g i)) (seq s m)) = S (fold_right plus 0%nat (map g (seq s m)))) as ADD.
  { intros p j s m. revert s. induction m as [|m IH]; intros s J PJ U g; [lia|]. cbn [seq map fold_right]. destruct (Nat.eq_dec s j) as [->|D].
    - rewrite PJ. cbn. f_equal. f_equal. f_equal. apply map_ext_in. intros i I. apply in_seq in I. destruct (p i) eqn:PI; auto. apply U in PI; lia.
    - destruct (p s) eqn:PS; [apply U in PS; lia|]. rewrite IH; [lia|lia|auto|]. intros i I. apply U. lia. }
  assert (forall (p : nat -> bool) s m, (forall i, (s <= i < s + m)%nat -> p i = false) ->
    forall g, fold_right plus 0%nat (map (fun i => (if p i then S (g i) else g i)) (seq s m)) = fold_right plus 0%nat (map g (seq s m))) as SAME.
  { intros p s m H g. f_equal. apply map_ext_in. intros i I. apply in_seq in I. now rewrite H. }
  unfold content, n_in_range. induction a as [|o a IH]; cbn [filter].
  - clear. generalize 0%nat at 2. induction n as [|n IH]; intros s; auto. cbn. apply IH.
  - transitivity (fold_right plus 0%nat (map (fun k => if match o with Some x => in_bin e n k x | None => false end
      then S (List.length (filter (fun o0 => match o0 with Some x => in_bin e n k x | None => false end) a))
      else List.length (filter (fun o0 => match o0 with Some x => in_bin e n k x | None => false end) a)) (seq 0 n))).
    { f_equal. apply map_ext. intro k. destruct (match o with Some x => in_bin e n k x | None => false end); reflexivity. }
    destruct o as [x|].
    + destruct (qleb_spec f x) as [A|A]; cbn [andb].
      * destruct (qleb_spec x l) as [B|B].
        -- destruct (in_bin_exists e n f l x P N (conj A B)) as (k & K & C). rewrite (ADD (fun k => in_bin e n k x) k); [cbn; now rewrite <- IH|lia|auto|].
           intros i I D. apply (in_bin_unique e n f l x); auto; lia.
        -- rewrite (SAME (fun k => in_bin e n k x)); auto. intros i I. destruct (in_bin e n i x) eqn:D; auto. exfalso. apply B. now apply (in_bin_range e n f l x i P ltac:(lia) D).
      * rewrite (SAME (fun k => in_bin e n k x)); auto. intros i I. destruct (in_bin e n i x) eqn:D; auto. exfalso. apply A. now apply (in_bin_range e n f l x i P ltac:(lia) D).
    + exact IH.
Qed.

(** ** Exact arithmetic is faithful *)
Lemma exact_edges : forall first last n k, (0 < n)%nat -> (k <= n)%nat ->
  edge (f_edges exact first last (Z.of_nat n)) k = first + qn k * ((last - first) / qn n).
Proof.
  intros f l n k N K. unfold edge. cbn [exact f_edges]. rewrite linspace_nth by lia. replace (Z.to_nat (Z.of_nat n + 1) - 1)%nat with n by lia. reflexivity.
Qed.
Lemma exact_faithful : forall first last n, first < last -> (0 < n)%nat -> faithful exact first last n.
Proof.
  intros f l n L N. pose proof (qn_pos n N) as PN. assert (qn n <> 0) as ZN by (intro Z; rewrite Z in PN; now apply Qclt_not_eq in PN).
  assert (0 < (l - f) / qn n) as W.
  { unfold Qcdiv. replace 0 with (0 * / qn n) by ring. apply Qcmult_lt_compat_r; [|qlra]. 
    apply Qcnot_le_lt. intro H. assert (qn n * / qn n <= qn n * 0) as X. { rewrite (Qcmult_comm (qn n)), (Qcmult_comm (qn n)). apply Qcmult_le_compat_r; auto. now apply Qclt_le_weak. }
    rewrite Qcmult_inv_r in X by auto. replace (qn n * 0) with 0 in X by ring. qlra. }
  set (w := (l - f) / qn n) in *.
  assert (proper_edges (f_edges exact f l (Z.of_nat n)) n f l) as P.
  { split; [cbn [exact f_edges]; rewrite linspace_length; lia|]. split; [rewrite exact_edges by lia; rewrite qn_0; ring|].
    split; [rewrite exact_edges by lia; field; auto|]. intros i j H. rewrite !exact_edges by lia. fold w.
    assert (qn i < qn j) as Q by (apply qn_lt; lia). assert (qn i * w < qn j * w) by now apply Qcmult_lt_compat_r. qlra. }
  split; auto. intros x k K B. cbn [exact f_index]. pose proof (in_bin_range _ _ _ _ _ _ P K B) as [R1 R2]. apply in_bin_spec in B as [B1 B2].
  rewrite !exact_edges in B1 by lia. rewrite !exact_edges in B2 by lia. fold w in B1, B2.
  change (qz (Z.of_nat n)) with (qn n). set (y := (x - f) * (qn n / (l - f))). assert (l - f <> 0) as ZD by qlra.
  assert (x = f + y * w) as X. { subst y w. field. auto. }
  assert (qn k <= y) as Y1.
  { apply Qcnot_lt_le. intro H. assert (y * w < qn k * w) by now apply Qcmult_lt_compat_r. qlra. }
  assert (y < qn (S k) \/ (S k = n /\ y <= qn (S k))) as Y2.
  { destruct B2 as [B2|[B2 B3]]; [left|right; split; auto].
    - apply Qcnot_le_lt. intro H. assert (qn (S k) * w <= y * w) by (apply Qcmult_le_compat_r; auto; now apply Qclt_le_weak). qlra.
    - apply Qcnot_lt_le. intro H. assert (qn (S k) * w < y * w) by now apply Qcmult_lt_compat_r. qlra. }
  assert (Z.of_nat k <= Qfloor (this y))%Z as F1.
  { rewrite <- (Qfloor_Z (Z.of_nat k)). apply Qfloor_resp_le. rewrite <- this_qz. exact Y1. }
  assert (Qfloor (this y) <= Z.of_nat (S k))%Z as F2.
  { rewrite <- (Qfloor_Z (Z.of_nat (S k))). apply Qfloor_resp_le. rewrite <- this_qz. change (y <= qn (S k)). destruct Y2 as [Y2|[_ Y2]]; auto. now apply Qclt_le_weak. }
  cbv zeta. lia.
Qed.
