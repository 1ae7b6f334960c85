(** The outer loop of the solver, optimality, and the charge columns. *)
From Coq Require Import List ZArith QArith Qcanon Bool Arith Lia Permutation.
From Verif.Base Require Import Num Lst.
From Verif.WfUtils Require Proofs.
From Verif.Reducers Require Import Model Proofs Proofs2.
From Verif.Nnls Require Import Model Proofs.
Import ListNotations.
Local Open Scope list_scope.
Local Open Scope nat_scope.

Section Outer.
  Variable cols : list (list Qc).
  Variable b : list Qc.
  Variable lsq : nat -> list nat -> list Qc.
  Variable maxit : nat.
  Variable tol : Qc.
  Hypothesis lsq_length : forall k F, List.length (lsq k F) = List.length F.
  Let n := List.length cols.

  (** y holds the gradient for the clamped columns, and x[F] is an answer of the least squares solver. *)
  Definition tracked (F G : list nat) (x : list (option Qc)) (y : list Qc) : Prop :=
    exists xF, take x F = map Some xF /\ (F = [] \/ exists c, xF = lsq c F) /\
    forall j, In j G -> nth j y 0%Qc = dot (nth j cols []) (residual cols b F xF).

  Lemma outer_spec : forall fuel0 fuel it k F G x y, n + 1 < fuel0 -> maxit < fuel + it -> it <= maxit -> good n F G x -> tracked F G x y -> k + List.length F = 2 * it ->
    exists s, outer cols b lsq maxit tol fuel0 fuel it k F G x y = Some s /\
      good n (passive s) (active s) (sol s) /\ iterations s <= maxit /\ lstsqs s + List.length (passive s) <= 2 * iterations s /\
      (converged s = true -> exists xF, take (sol s) (passive s) = map Some xF /\ (passive s = [] \/ exists c, xF = lsq c (passive s)) /\
         forall j, In j (active s) -> tol <= dot (nth j cols []) (residual cols b (passive s) xF))%Qc /\
      ((forall j, j < n -> nth j x None <> None) -> (forall c H, ~ In 0%Qc (lsq c H)) -> forall j, j < n -> nth j (sol s) None <> None).
  Proof.
    intros fuel0. induction fuel as [|fuel IH]; intros it k F G x y F0 FU IM GD TR CT; [lia|]. cbn [outer].
    destruct (Nat.leb_spec maxit it) as [MI|MI].
    - eexists. split; [reflexivity|]. cbn [passive active sol iterations lstsqs converged]. split; [auto|]. split; [lia|]. split; [lia|]. split; [discriminate|auto].
    - destruct TR as (xF & TK & OR & YG). destruct G as [|g G'].
      + eexists. split; [reflexivity|]. cbn [passive active sol iterations lstsqs converged]. split; [auto|]. split; [lia|]. split; [lia|]. split; [|auto].
        intros _. exists xF. split; [auto|]. split; [auto|]. easy.
      + set (G := g :: G') in *. set (m := argmin (map (fun j => nth j y 0%Qc) G)). set (r := nth m G 0).
        destruct (argmin_spec (map (fun j => nth j y 0%Qc) G)) as [AL AM]; [discriminate|]. rewrite map_length in AL, AM. fold m in AL, AM.
        rewrite (nth_map' _ _ _ G m 0) in AM by auto. fold r in AM.
        assert (In r G) as RG by (apply nth_In; auto).
        destruct (qleb_spec tol (nth r y 0%Qc)) as [TL|TL].
        * eexists. split; [reflexivity|]. cbn [passive active sol iterations lstsqs converged]. split; [auto|]. split; [lia|]. split; [lia|]. split; [|auto].
          intros _. exists xF. split; [auto|]. split; [auto|]. intros j J. rewrite <- YG by auto. apply (In_nth _ _ 0) in J as (q & Q & <-).
          specialize (AM q Q). rewrite (nth_map' _ _ _ G q 0) in AM by auto. qlra.
        * assert (good n (sort_nat (F ++ [r])) (remove1 r G) x) as GD1.
          { destruct GD as (P & L & NN & ZZ). split; [|split; [auto|split; [auto|]]].
            - rewrite sort_nat_perm, <- P, <- app_assoc. apply Permutation_app_head. cbn [app]. symmetry. now apply remove1_perm.
            - intros j J. apply ZZ. eapply remove1_sub; eauto. }
          assert (LS : List.length (sort_nat (F ++ [r])) = S (List.length F)). { rewrite (Permutation_length (sort_nat_perm _)), app_length. cbn [List.length]. lia. }
          destruct (inner_spec lsq lsq_length n fuel0 k _ _ _ GD1) as [IT IS].
          assert (List.length F <= n) as FN. { destruct GD as (P & _). apply Permutation_length in P. rewrite app_length, seq_length in P. lia. }
          destruct (inner lsq fuel0 k (sort_nat (F ++ [r])) (remove1 r G) x) as [[[[[k' F'] G1] x'] xF']|] eqn:EI; [|exfalso; apply IT; [lia|auto]].
          destruct (IS _ _ _ _ _ eq_refl) as (GD2 & KC & [c XC] & XN & TK' & NS).
          destruct (IH (S it) k' F' G1 x' (map (fun j => if existsb (Nat.eqb j) G1 then dot (nth j cols []) (residual cols b F' xF') else 0%Qc) (seq 0 (List.length cols)))) as (s & E & A1 & A2 & A3 & A4 & A5); auto; try lia.
          { exists xF'. split; [auto|]. split; [right; now exists c|]. intros j J. destruct (good_nodup _ _ _ _ GD2) as (_ & _ & _ & BG & _).
            rewrite nth_map_seq by (now apply BG). replace (existsb (Nat.eqb j) G1) with true; [auto|]. symmetry. apply existsb_exists. exists j. split; auto. apply Nat.eqb_refl. }
          exists s. split; [exact E|]. split; [auto|]. split; [auto|]. split; [auto|]. split; [auto|]. intros AS NZ. apply A5; auto.
  Qed.

  Lemma residual_nil : residual cols b [] [] = map (fun i => 0 - nth i b 0)%Qc (seq 0 (List.length b)).
  Proof. reflexivity. Qed.
  Lemma dot_seq : forall u v m, List.length v = m -> dot u v = qsum (map (fun i => nth i u 0 * nth i v 0)%Qc (seq 0 m)).
  Proof.
    intros u v m <-. revert u. induction v as [|h t IH]; intros [|a u]; unfold dot; cbn [combine map List.length seq qsum]; auto.
    - rewrite qsum_cons. replace (nth 0 [] 0 * nth 0 (h :: t) 0)%Qc with 0%Qc by (cbn [nth]; ring). rewrite qsum_zero; [symmetry; apply Qcplus_0_l|]. intros i I. apply in_seq in I. destruct i; cbn [nth]; ring.
    - rewrite !qsum_cons. cbn [nth fst snd]. f_equal. fold (dot u t). rewrite IH. rewrite <- seq_shift, map_map. reflexivity.
  Qed.
  Lemma nnls_spec : forall fuel, maxit < fuel -> n + 1 < fuel ->
    exists s, nnls cols b lsq maxit tol fuel = Some s /\
      good n (passive s) (active s) (sol s) /\ iterations s <= maxit /\ lstsqs s + List.length (passive s) <= 2 * iterations s /\
      (converged s = true -> exists xF, take (sol s) (passive s) = map Some xF /\ (passive s = [] \/ exists c, xF = lsq c (passive s)) /\
         forall j, In j (active s) -> tol <= dot (nth j cols []) (residual cols b (passive s) xF))%Qc /\
      ((forall c H, ~ In 0%Qc (lsq c H)) -> forall j, j < n -> nth j (sol s) None <> None).
  Proof.
    intros fuel F1 F2. unfold nnls. fold n.
    assert (X0 : forall j, j < n -> nth j (repeat (Some 0%Qc) n) None = Some 0%Qc). { intros j J. rewrite nth_of_error, nth_error_repeat. now rewrite (proj2 (Nat.ltb_lt j n)). }
    destruct (outer_spec fuel fuel 0 0 [] (seq 0 n) (repeat (Some 0%Qc) n) (map (fun c => (- dot c b)%Qc) cols)) as (s & E & A1 & A2 & A3 & A4 & A5); auto; try lia.
    - split; [reflexivity|]. split; [apply repeat_length|]. split; intros j J; [rewrite X0 by auto; cbn; qlra|]. apply in_seq in J. rewrite X0 by lia. reflexivity.
    - exists []. split; [reflexivity|]. split; [now left|]. intros j J. apply in_seq in J. rewrite (nth_map' _ _ _ cols j []) by (fold n; lia). rewrite residual_nil.
      rewrite (dot_seq _ b (List.length b)) by auto. rewrite (dot_seq _ (map _ _) (List.length b)) by (now rewrite map_length, seq_length).
      transitivity (qsum (map (fun i => - (1) * (nth i (nth j cols []) 0 * nth i b 0))%Qc (seq 0 (List.length b)))); [rewrite qsum_map_scale; ring|].
      apply qsum_map_ext. intros i I. apply in_seq in I. rewrite nth_map_seq by lia. ring.
    - exists s. split; [auto|]. split; [auto|]. split; [auto|]. split; [auto|]. split; [auto|]. intros NZ. apply A5; auto. intros j J. rewrite X0 by auto. discriminate.
  Qed.
End Outer.

(** ** Optimality *)
Local Open Scope Qc_scope.
Definition predict (cols : list (list Qc)) (x : list Qc) (i : nat) : Qc :=
  qsum (map (fun j => nth i (nth j cols []) 0 * nth j x 0) (seq 0 (List.length cols))).
Definition sqerr (cols : list (list Qc)) (b x : list Qc) : Qc :=
  qsum (map (fun i => (predict cols x i - nth i b 0) * (predict cols x i - nth i b 0)) (seq 0 (List.length b))).

Lemma sq_pos : forall a : Qc, 0 <= a * a.
Proof. intros. qnra. Qed.
Lemma residual_predict : forall cols b F G x xF, good (List.length cols) F G (map Some x) -> take (map Some x) F = map Some xF ->
  forall i, (i < List.length b)%nat -> nth i (residual cols b F xF) 0 = predict cols x i - nth i b 0.
Proof.
  intros cols b F G x xF GD TK i I. unfold residual. rewrite nth_map_seq by auto. f_equal. unfold predict.
  pose proof GD as (P & L & NN & ZZ). rewrite map_length in L. destruct (good_nodup _ _ _ _ GD) as (DF & DG & BF & BG & DJ).
  rewrite (WfUtils.Proofs.qsum_perm _ _ (Permutation_map _ (Permutation_sym P))). rewrite map_app, qsum_app. rewrite (qsum_zero _ _ G).
  - rewrite Qcplus_0_r. assert (xF = map (fun j => nth j x 0) F) as ->.
    { assert (map Some xF = map Some (map (fun j => nth j x 0) F)) as E.
      { rewrite <- TK. unfold take. rewrite map_map. apply map_ext_in. intros j J. rewrite (nth_map' _ _ Some x j 0) by (rewrite L; auto). reflexivity. }
      clear -E. revert E. generalize (map (fun j => nth j x 0) F). induction xF as [|h t IH]; intros [|h' t']; cbn [map]; try discriminate; auto. intros [= -> E]. f_equal; auto. }
    f_equal. clear. induction F as [|h t IH]; cbn [map combine]; auto. f_equal; auto.
  - intros j J. specialize (ZZ j J). rewrite (nth_map' _ _ Some x j 0) in ZZ by (rewrite L; auto). cbn [zero] in ZZ. rewrite ZZ. ring.
Qed.
Lemma qsum_minus : forall A (f g : A -> Qc) l, qsum (map (fun x => f x - g x) l) = qsum (map f l) - qsum (map g l).
Proof.
  intros. induction l as [|h t IH]; cbn [map]; [unfold qsum; cbn [fold_right]; ring|]. rewrite !qsum_cons, IH. ring.
Qed.
Lemma optimal : forall cols b F G x xF tol, good (List.length cols) F G (map Some x) -> take (map Some x) F = map Some xF -> tol <= 0 ->
  (forall j, In j F -> dot (nth j cols []) (residual cols b F xF) = 0) ->
  (forall j, In j G -> tol <= dot (nth j cols []) (residual cols b F xF)) ->
  forall z, List.length z = List.length cols -> (forall v, In v z -> 0 <= v) ->
  sqerr cols b x <= sqerr cols b z - (1 + 1) * tol * qsum z.
Proof.
  intros cols b F G x xF tol GD TK T0 NF NG z LZ PZ. pose proof (residual_predict _ b _ _ _ _ GD TK) as RP.
  pose proof GD as (P & L & NN & ZZ). rewrite map_length in L. destruct (good_nodup _ _ _ _ GD) as (DF & DG & BF & BG & DJ).
  set (R := residual cols b F xF) in *. assert (LR : List.length R = List.length b) by (unfold R, residual; now rewrite map_length, seq_length).
  set (idx := seq 0 (List.length b)) in *. set (js := seq 0 (List.length cols)).
  set (g := fun j => dot (nth j cols []) R).
  assert (E : qsum (map (fun i => nth i R 0 * (predict cols z i - predict cols x i)) idx) = qsum (map (fun j => (nth j z 0 - nth j x 0) * g j) js)).
  { transitivity (qsum (map (fun i => qsum (map (fun j => nth i R 0 * (nth i (nth j cols []) 0 * (nth j z 0 - nth j x 0))) js)) idx)).
    - apply qsum_map_ext. intros i I. unfold predict. rewrite <- qsum_minus, <- qsum_map_scale. apply qsum_map_ext. intros j J. ring.
    - rewrite (WfUtils.Proofs.qsum_swap _ _ (fun i j => nth i R 0 * (nth i (nth j cols []) 0 * (nth j z 0 - nth j x 0)))). apply qsum_map_ext. intros j J. unfold g.
      rewrite (dot_seq _ R (List.length b)) by auto. rewrite <- qsum_map_scale. apply qsum_map_ext. intros i I. ring. }
  assert (B : tol * qsum z <= qsum (map (fun j => (nth j z 0 - nth j x 0) * g j) js)).
  { assert (tol * qsum z = qsum (map (fun j => tol * nth j z 0) js)) as ->. { rewrite qsum_map_scale. f_equal. unfold js. rewrite <- LZ. now rewrite map_seq_nth. }
    apply qsum_le. intros j J. assert (In j (F ++ G)) as FG by (apply (Permutation_in _ (Permutation_sym P)); auto). apply in_seq in J.
    assert (0 <= nth j z 0) as ZP by (apply PZ, nth_In; lia). apply in_app_or in FG as [FG|FG].
    - unfold g. rewrite NF by auto. generalize dependent (nth j z 0). intros. replace ((q - nth j x 0) * 0) with 0 by ring. qnra.
    - specialize (ZZ j FG). rewrite (nth_map' _ _ Some x j 0) in ZZ by (rewrite L; auto). cbn [zero] in ZZ. rewrite ZZ. specialize (NG j FG). fold (g j) in NG.
      generalize dependent (nth j z 0). generalize dependent (g j). intros. replace ((q0 - 0) * q) with (q0 * q) by ring. qnra. }
  rewrite <- E in B.
  assert (D : sqerr cols b z - sqerr cols b x = qsum (map (fun i => (1 + 1) * (nth i R 0 * (predict cols z i - predict cols x i)) + (predict cols z i - predict cols x i) * (predict cols z i - predict cols x i)) idx)).
  { unfold sqerr. rewrite <- qsum_minus. apply qsum_map_ext. intros i I. rewrite RP by (apply in_seq in I; lia). ring. }
  rewrite qsum_map_plus, qsum_map_scale in D.
  assert (0 <= qsum (map (fun i => (predict cols z i - predict cols x i) * (predict cols z i - predict cols x i)) idx)) as SQ.
  { apply qsum_nonneg. intros v V. apply in_map_iff in V as (i & <- & _). apply sq_pos. }
  revert B D SQ. generalize (qsum (map (fun i => (predict cols z i - predict cols x i) * (predict cols z i - predict cols x i)) idx)).
  generalize (qsum (map (fun i => nth i R 0 * (predict cols z i - predict cols x i)) idx)). generalize (sqerr cols b z), (sqerr cols b x). intros sz sx q1 q2 B D SQ.
  replace ((1 + 1) * tol * qsum z) with (tol * qsum z + tol * qsum z) by ring. replace ((1 + 1) * q1) with (q1 + q1) in D by ring. generalize dependent (tol * qsum z). intros. qlra.
Qed.
