(** The active set solver. *)
From Coq Require Import List ZArith QArith Qcanon Bool Arith Lia Permutation.
From Verif.Base Require Import Num Lst.
From Verif.Reducers Require Import Model Proofs.
From Verif.Nnls Require Import Model.
Import ListNotations.
Local Open Scope list_scope.
Local Open Scope nat_scope.

(** ** Index lists *)
Lemma insert_nat_perm : forall r l, Permutation (insert_nat r l) (r :: l).
Proof.
  intros r l. induction l as [|h t IH]; cbn [insert_nat]; auto. destruct (h <=? r); auto.
  rewrite IH. apply perm_swap.
Qed.
Lemma sort_nat_perm_acc : forall l acc, Permutation (fold_left (fun acc r => insert_nat r acc) l acc) (l ++ acc).
Proof.
  induction l as [|h t IH]; intros acc; cbn [fold_left app]; auto. rewrite IH, insert_nat_perm. symmetry. apply Permutation_middle.
Qed.
Lemma sort_nat_perm : forall l, Permutation (sort_nat l) l.
Proof. intros. unfold sort_nat. rewrite sort_nat_perm_acc. now rewrite app_nil_r. Qed.
Lemma remove1_perm : forall r l, In r l -> Permutation l (r :: remove1 r l).
Proof.
  intros r l. induction l as [|h t IH]; cbn [In remove1]; [easy|]. intros H.
  destruct (Nat.eqb_spec h r) as [->|N]; auto. destruct H; [congruence|]. rewrite (IH H) at 1. apply perm_swap.
Qed.
Lemma remove1_length : forall r l, In r l -> List.length (remove1 r l) = List.length l - 1.
Proof. intros r l H. apply remove1_perm, Permutation_length in H. rewrite H. cbn [List.length]. lia. Qed.
Lemma remove1_sub : forall r l j, In j (remove1 r l) -> In j l.
Proof. intros r l. induction l as [|h t IH]; cbn [In remove1]; auto. intros j. destruct (h =? r); cbn [In]; intuition. Qed.
Lemma index_of_some : forall r l k, index_of r l = Some k -> k < List.length l /\ nth k l 0 = r.
Proof.
  intros r l. induction l as [|h t IH]; cbn [index_of]; [easy|]. intros k. destruct (Nat.eqb_spec h r) as [->|N].
  - intros [= <-]. cbn [List.length nth]. split; [lia|auto].
  - destruct (index_of r t) as [k'|]; [|easy]. cbn [option_map]. intros [= <-]. destruct (IH _ eq_refl) as [A B]. cbn [List.length nth]. split; [lia|auto].
Qed.
Lemma index_of_none : forall r l, index_of r l = None -> ~ In r l.
Proof.
  intros r l. induction l as [|h t IH]; cbn [index_of In]; auto. destruct (Nat.eqb_spec h r) as [->|N]; [easy|].
  destruct (index_of r t); [easy|]. intros _ [?|?]; [congruence|]. now apply IH.
Qed.
Lemma index_of_nth : forall l k, NoDup l -> k < List.length l -> index_of (nth k l 0) l = Some k.
Proof.
  intros l k D K. destruct (index_of (nth k l 0) l) as [k'|] eqn:E.
  - apply index_of_some in E as [A B]. f_equal. eapply NoDup_nth with (d := 0); eauto.
  - apply index_of_none in E. exfalso. apply E, nth_In, K.
Qed.

Lemma nodup_app : forall A (l m : list A), NoDup (l ++ m) -> NoDup l /\ NoDup m /\ forall j, In j l -> In j m -> False.
Proof.
  intros A l m. induction l as [|h t IH]; cbn [app In]; intros D; [split; [constructor|]; easy|]. inversion D as [|? ? N D']; subst. destruct (IH D') as (X & Y & Z).
  split; [|split; [auto|]].
  - constructor; auto. intro K. apply N, in_or_app. auto.
  - intros j [->|J] K; [apply N, in_or_app; auto|]. now apply (Z j).
Qed.

(** ** Assignments *)
Lemma assign_length : forall x F vals, List.length (assign x F vals) = List.length x.
Proof. intros. unfold assign. now rewrite map_length, seq_length. Qed.
Lemma assign_nth : forall x F vals i, i < List.length x ->
  nth i (assign x F vals) None = match index_of i F with Some k => nth k vals None | None => nth i x None end.
Proof. intros. unfold assign. now rewrite nth_map_seq. Qed.
Lemma take_assign : forall x F vals, NoDup F -> (forall i, In i F -> i < List.length x) -> List.length vals = List.length F ->
  take (assign x F vals) F = vals.
Proof.
  intros x F vals D B L. unfold take. apply (nth_ext _ _ None None); rewrite map_length; [auto|]. intros k K.
  rewrite (nth_indep _ None (nth 0 (assign x F vals) None)) by (now rewrite map_length).
  rewrite (map_nth (fun i => nth i (assign x F vals) None)). rewrite assign_nth by (apply B, nth_In, K). now rewrite index_of_nth.
Qed.

(** ** Minimum of a vector *)
Lemma nth_map' : forall A B (f : A -> B) l k d e, k < List.length l -> nth k (map f l) e = f (nth k l d).
Proof. intros. rewrite (nth_indep _ e (f d)) by (now rewrite map_length). apply map_nth. Qed.
Lemma argmin_spec : forall l, l <> [] -> argmin l < List.length l /\ forall k, k < List.length l -> (nth (argmin l) l 0 <= nth k l 0)%Qc.
Proof.
  intros l N. unfold argmin. destruct (argmax_spec (map Qcopp l)) as (A & B & _); [destruct l; [easy|discriminate]|]. rewrite map_length in *. split; auto.
  intros k K. specialize (B k K). rewrite !(nth_map' _ _ Qcopp l _ 0%Qc) in B by auto. qlra.
Qed.
Lemma argmax_nan_spec : forall l, l <> [] -> argmax_nan l < List.length l /\
  (nth (argmax_nan l) l None = None \/
   exists a, nth (argmax_nan l) l None = Some a /\ forall k, k < List.length l -> exists v, nth k l None = Some v /\ (v <= a)%Qc).
Proof.
  intros l N. unfold argmax_nan. destruct (find _ _) as [i|] eqn:E.
  - apply find_some in E as [E1 E2]. apply in_seq in E1. destruct (nth i l None) eqn:E3; [easy|]. split; [lia|now left].
  - set (g := fun o : option Qc => match o with Some x => x | None => 0%Qc end).
    assert (forall k, k < List.length l -> exists v, nth k l None = Some v) as S.
    { intros k K. pose proof (find_none _ _ E k) as F. specialize (F (proj2 (in_seq _ _ _) (conj (Nat.le_0_l _) K))). cbv beta in F.
      destruct (nth k l None) as [v|]; [now exists v|easy]. }
    destruct (argmax_spec (map g l)) as (A & B & _); [destruct l; [easy|discriminate]|]. rewrite map_length in *. fold (argmax (map g l)) in *. split; auto. right.
    destruct (S _ A) as [a EA]. exists a. split; auto. intros k K. destruct (S k K) as [v EV]. exists v. split; auto.
    specialize (B k K). rewrite !(nth_map' _ _ g l _ None) in B by auto. rewrite EA, EV in B. exact B.
Qed.
Lemma argmin_nan_spec : forall l, l <> [] -> argmin_nan l < List.length l /\
  (nth (argmin_nan l) l None = None \/
   exists a, nth (argmin_nan l) l None = Some a /\ forall k, k < List.length l -> exists v, nth k l None = Some v /\ (a <= v)%Qc).
Proof.
  intros l N. unfold argmin_nan. destruct (argmax_nan_spec (map (option_map Qcopp) l)) as (A & B); [destruct l; [easy|discriminate]|].
  rewrite map_length in *. split; auto. rewrite (nth_map' _ _ (option_map Qcopp) l _ None None A) in B.
  destruct B as [B|(a & B & C)].
  - left. destruct (nth _ l None); [discriminate|auto].
  - right. destruct (nth (argmax_nan (map (option_map Qcopp) l)) l None) as [a'|]; [|discriminate]. cbn [option_map] in B. injection B as B. exists a'. split; auto.
    intros k K. destruct (C k K) as (v & E & L). rewrite (nth_map' _ _ (option_map Qcopp) l _ None None K) in E. destruct (nth k l None) as [v'|]; [|discriminate].
    cbn [option_map] in E. injection E as E. exists v'. split; auto. qlra.
Qed.

(** ** One step back towards the feasible region *)
Definition nonneg (o : option Qc) : Prop := match o with Some v => (0 <= v)%Qc | None => True end.
Definition zero (o : option Qc) : Prop := match o with Some v => v = 0%Qc | None => True end.

Lemma div_pos : forall a b, (0 <= a -> 0 < b -> 0 <= a / b)%Qc.
Proof.
  intros a b A B. assert (b <> 0)%Qc as N by (intro Z; rewrite Z in B; now apply Qclt_not_eq in B).
  destruct (Qclt_le_dec (a / b) 0); auto. exfalso. assert (a = a / b * b)%Qc by (now field). generalize dependent (a / b)%Qc. intros. qnra.
Qed.
Lemma theta_some : forall v xf a, (0 <= v -> xf <= 0 -> theta (Some v) xf = Some a -> 0 <= a /\ a <= 1 /\ a * (v - xf) = v)%Qc.
Proof.
  intros v xf a V X E. unfold theta in E. destruct (qeqb_spec (v - xf) 0) as [|N]; [discriminate|]. injection E as <-.
  assert (0 < v - xf)%Qc as P. { destruct (Qcle_lt_or_eq 0 (v - xf)) as [?|Z]; [qlra|auto|]. now rewrite <- Z in N. }
  assert (v / (v - xf) * (v - xf) = v)%Qc as E by (now field). pose proof (div_pos _ _ V P). split; [auto|]. split; auto.
  revert E H P. generalize (v / (v - xf))%Qc as a. intros. destruct (Qclt_le_dec 1 a) as [L|]; auto. exfalso.
  assert (0 < (a - 1) * (v - xf))%Qc. { assert (0 < a - 1)%Qc by qlra. generalize dependent (a - 1)%Qc. intros. generalize dependent (v - xf)%Qc. intros. qnra. }
  assert ((a - 1) * (v - xf) = xf)%Qc. { transitivity (a * (v - xf) - (v - xf))%Qc; [ring|]. rewrite E. ring. } qlra.
Qed.
Lemma blend_nonneg : forall a v xf, (0 <= a -> a <= 1 -> 0 <= v -> (xf <= 0 -> v + a * (xf - v) >= 0) -> 0 <= v + a * (xf - v))%Qc.
Proof.
  intros a v xf A0 A1 V H. destruct (Qclt_le_dec 0 xf) as [P|P]; [|now apply H].
  replace (v + a * (xf - v))%Qc with ((1 - a) * v + a * xf)%Qc by ring.
  assert (0 <= (1 - a) * v)%Qc. { assert (0 <= 1 - a)%Qc by qlra. generalize dependent (1 - a)%Qc. intros. qnra. }
  assert (0 <= a * xf)%Qc by qnra. qlra.
Qed.
Lemma theta_blend : forall a v xf t, (0 <= v -> xf <= 0 -> theta (Some v) xf = Some t -> a <= t -> 0 <= v + a * (xf - v))%Qc.
Proof.
  intros a v xf t V X E L. destruct (theta_some _ _ _ V X E) as (A & B & C).
  replace (v + a * (xf - v))%Qc with (v - a * (v - xf))%Qc by ring. rewrite <- C at 1.
  replace (t * (v - xf) - a * (v - xf))%Qc with ((t - a) * (v - xf))%Qc by ring.
  assert (0 <= t - a)%Qc by qlra. assert (0 <= v - xf)%Qc by qlra. generalize dependent (t - a)%Qc. intros. generalize dependent (v - xf)%Qc. intros. qnra.
Qed.

Section Inner.
  Variable lsq : nat -> list nat -> list Qc.
  Hypothesis lsq_length : forall k F, List.length (lsq k F) = List.length F.
  Variable n : nat.

  (** What holds for the sets and the vector between any two steps. *)
  Definition good (F G : list nat) (x : list (option Qc)) : Prop :=
    Permutation (F ++ G) (seq 0 n) /\ List.length x = n /\ (forall j, j < n -> nonneg (nth j x None)) /\ (forall j, In j G -> zero (nth j x None)).

  Lemma good_nodup : forall F G x, good F G x -> NoDup F /\ NoDup G /\ (forall j, In j F -> j < n) /\ (forall j, In j G -> j < n) /\ (forall j, In j F -> In j G -> False).
  Proof.
    intros F G x (P & _). pose proof (Permutation_NoDup (Permutation_sym P) (seq_NoDup n 0)) as D.
    assert (forall j, In j (F ++ G) -> j < n) as B. { intros j J. apply (Permutation_in _ P), in_seq in J. lia. }
    destruct (nodup_app _ _ _ D) as (X & Y & Z). split; [auto|]. split; [auto|].
    split; [intros; apply B, in_or_app; auto|]. split; [intros; apply B, in_or_app; auto|]. exact Z.
  Qed.

  (** The data of an infeasible round. *)
  Lemma back_step : forall k F G x, good F G x -> forallb (fun v => qleb 0 v) (lsq k F) = false ->
    let xF := lsq k F in
    let masked := filter (fun p => qleb (snd p) 0%Qc) (combine F xF) in
    let th := map (fun p => theta (nth (fst p) x None) (snd p)) masked in
    let r_F := argmin_nan th in
    let alpha := nth r_F th None in
    let r := fst (nth r_F masked (0, 0%Qc)) in
    let x' := assign x F (map (fun p => blend alpha (nth (fst p) x None) (snd p)) (combine F xF)) in
    In r F /\ good (remove1 r F) (sort_nat (G ++ [r])) x' /\
    ((forall j, j < n -> nth j x None <> None) -> ~ In 0%Qc xF -> forall j, j < n -> nth j x' None <> None).
  Proof.
    intros k F G x GD NF xF masked th r_F alpha r x'. pose proof GD as (P & L & NN & ZZ).
    destruct (good_nodup _ _ _ GD) as (DF & DG & BF & BG & DJ).
    assert (LF : List.length xF = List.length F) by apply lsq_length.
    assert (MI : forall p, In p masked <-> In p (combine F xF) /\ (snd p <= 0)%Qc).
    { intros p. unfold masked. rewrite filter_In. destruct (qleb_spec (snd p) 0%Qc); intuition; discriminate. }
    assert (masked <> []) as MN.
    { destruct (forallb_forall (fun v => qleb 0 v) xF) as [_ FA]. destruct (existsb (fun v => negb (qleb 0 v)) xF) eqn:EX.
      - apply existsb_exists in EX as (v & VI & VN). destruct (qleb_spec 0%Qc v) as [|VL]; [discriminate|].
        apply (In_nth _ _ 0%Qc) in VI as (i & I & E). intro Z.
        assert (In (nth i F 0, v) masked) as IM. { apply MI. split; [|cbn [snd]; qlra]. rewrite <- E, <- combine_nth by auto. apply nth_In. rewrite combine_length. lia. }
        rewrite Z in IM. easy.
      - exfalso. assert (forallb (fun v => qleb 0 v) xF = true); [|unfold xF in *; congruence]. apply FA. intros v V.
        destruct (qleb 0 v) eqn:Q; auto. assert (existsb (fun v => negb (qleb 0 v)) xF = true); [|congruence]. apply existsb_exists. exists v. now rewrite Q. }
    assert (th <> []) as TN. { unfold th. destruct masked; [easy|discriminate]. }
    destruct (argmin_nan_spec th TN) as [RL RC]. fold r_F in RL, RC. fold alpha in RC.
    assert (RM : r_F < List.length masked) by (unfold th in RL; now rewrite map_length in RL).
    set (pr := nth r_F masked (0, 0%Qc)) in *. assert (In pr masked) as PRI by (apply nth_In, RM).
    destruct (proj1 (MI _) PRI) as [PRC PRN].
    assert (In r F) as RF. { unfold r. destruct pr as [f v] eqn:EP. cbn [fst]. eapply in_combine_l. exact PRC. }
    assert (AT : alpha = theta (nth r x None) (snd pr)). { unfold alpha, th. rewrite (nth_map' _ _ _ masked r_F (0, 0%Qc)) by auto. reflexivity. }
    (* the new vector *)
    assert (XN : forall j, j < n -> (~ In j F /\ nth j x' None = nth j x None) \/
                 (exists xf, In (j, xf) (combine F xF) /\ nth j x' None = blend alpha (nth j x None) xf)).
    { intros j J. unfold x'. rewrite assign_nth by lia. destruct (index_of j F) as [q|] eqn:E.
      - right. apply index_of_some in E as [Q1 Q2]. assert (q < List.length (combine F xF)) as Q3 by (rewrite combine_length; lia).
        rewrite (nth_map' _ _ _ (combine F xF) q (0, 0%Qc)) by auto. rewrite combine_nth by auto. cbn [fst snd]. rewrite Q2. exists (nth q xF 0%Qc). split; auto.
        rewrite <- Q2 at 1. rewrite <- combine_nth by auto. now apply nth_In.
      - left. split; auto. now apply index_of_none. }
    assert (BN : forall j xf, j < n -> In (j, xf) (combine F xF) -> nonneg (blend alpha (nth j x None) xf)).
    { intros j xf J I. unfold blend. destruct alpha as [a|] eqn:EA; [|easy]. destruct (nth j x None) as [v|] eqn:EV; [|easy]. cbn [nonneg].
      destruct RC as [RC|(a' & RC & RB)]; [discriminate|]. injection RC as <-.
      assert (0 <= v)%Qc as V0 by (pose proof (NN j J) as Z; now rewrite EV in Z).
      assert (0 <= a /\ a <= 1)%Qc as [A0 A1].
      { destruct (nth r x None) as [vr|] eqn:ER; [|discriminate AT]. assert (0 <= vr)%Qc as VR by (pose proof (NN r (BF _ RF)) as Z; now rewrite ER in Z).
        symmetry in AT. destruct (theta_some _ _ _ VR PRN AT) as (? & ? & _). auto. }
      apply blend_nonneg; auto. intros XL. assert (In (j, xf) masked) as IM by (apply MI; auto).
      apply (In_nth _ _ (0, 0%Qc)) in IM as (q & Q & E). destruct (RB q) as (t & T & TL); [unfold th; now rewrite map_length|].
      unfold th in T. rewrite (nth_map' _ _ _ masked q (0, 0%Qc)) in T by auto. rewrite E in T. cbn [fst snd] in T. rewrite EV in T. now apply (theta_blend a v xf t). }
    split; [auto|]. split; [split; [|split; [|split]]|].
    - rewrite sort_nat_perm, app_assoc. rewrite <- P. rewrite (remove1_perm r F RF) at 2. rewrite <- app_assoc. cbn [app]. rewrite app_assoc.
      rewrite (Permutation_app_comm _ [r]). reflexivity.
    - unfold x'. now rewrite assign_length.
    - intros j J. destruct (XN j J) as [[_ ->]|(xf & I & ->)]; auto.
    - intros j J. apply (Permutation_in _ (sort_nat_perm _)), in_app_or in J. destruct J as [J|[<-|[]]].
      + destruct (XN j (BG j J)) as [[_ ->]|(xf & I & ->)]; [now apply ZZ|]. exfalso. apply (DJ j); auto. now apply in_combine_l in I.
      + destruct (XN r (BF r RF)) as [[Z _]|(xf & I & ->)]; [easy|].
        assert (xf = snd pr) as ->.
        { clear -I PRC DF. fold r in PRC. subst r. destruct pr as [f v]. cbn [fst snd] in *. revert I PRC DF. generalize xF. induction F as [|h t IH]; intros [|y ys]; cbn [combine In]; try easy.
          intros [E|I] [E'|I'] D; inversion D; subst; try congruence.
          - injection E as -> ->. exfalso. apply H1. now apply in_combine_l in I'.
          - injection E' as -> ->. exfalso. apply H1. now apply in_combine_l in I.
          - eapply IH; eauto. }
        rewrite AT. unfold theta, blend. destruct (nth r x None) as [v|]; [|easy]. destruct (qeqb_spec (v - snd pr)%Qc 0%Qc) as [|N]; [easy|]. cbn [zero]. now field.
    - intros AS NZ j J. destruct (XN j J) as [[_ ->]|(xf & I & ->)]; [auto|].
      assert (alpha <> None) as AN.
      { rewrite AT. destruct (nth r x None) as [vr|] eqn:ER; [|now apply AS in ER; auto]. unfold theta. destruct (qeqb_spec (vr - snd pr)%Qc 0%Qc) as [Z|]; [|discriminate]. exfalso.
        assert (0 <= vr)%Qc as VR by (pose proof (NN r (BF _ RF)) as Y; now rewrite ER in Y). assert (snd pr = 0)%Qc as SZ by qlra.
        apply NZ. rewrite <- SZ. destruct pr as [f v]. cbn [snd]. now apply in_combine_r in PRC. }
      destruct alpha; [|easy]. destruct (nth j x None) eqn:EV; [|now apply AS in EV]. discriminate.
  Qed.

  Lemma inner_spec : forall fuel k F G x, good F G x ->
    (List.length F < fuel -> inner lsq fuel k F G x <> None) /\
    (forall k' F' G' x' xF, inner lsq fuel k F G x = Some (k', F', G', x', xF) ->
       good F' G' x' /\ k' + List.length F' = k + S (List.length F) /\ (exists c, xF = lsq c F') /\ (forall v, In v xF -> 0 <= v)%Qc /\
       take x' F' = map Some xF /\
       ((forall j, j < n -> nth j x None <> None) -> (forall c H, ~ In 0%Qc (lsq c H)) -> forall j, j < n -> nth j x' None <> None)).
  Proof.
    induction fuel as [|fuel IH]; intros k F G x GD; [split; [lia|discriminate]|]. cbn [inner]. destruct (forallb _ (lsq k F)) eqn:FE.
    - split; [discriminate|]. intros k' F' G' x' xF [= <- <- <- <- <-]. pose proof GD as (P & L & NN & ZZ). destruct (good_nodup _ _ _ GD) as (DF & DG & BF & BG & DJ).
      assert (forall v, In v (lsq k F) -> (0 <= v)%Qc) as NV. { intros v V. apply (proj1 (forallb_forall _ _) FE) in V. now destruct (qleb_spec 0%Qc v). }
      assert (XN : forall j, j < n -> nth j (assign x F (map Some (lsq k F))) None = nth j x None \/ exists v, In v (lsq k F) /\ nth j (assign x F (map Some (lsq k F))) None = Some v).
      { intros j J. rewrite assign_nth by lia. destruct (index_of j F) as [q|] eqn:E; [|auto]. right. apply index_of_some in E as [Q _].
        exists (nth q (lsq k F) 0%Qc). rewrite <- (lsq_length k F) in Q. split; [now apply nth_In|]. now rewrite (nth_map' _ _ Some _ q 0%Qc). }
      split; [split; [auto|split; [now rewrite assign_length|split]]|].
      + intros j J. destruct (XN j J) as [->|(v & V & ->)]; auto. cbn [nonneg]. auto.
      + intros j J. rewrite assign_nth by (rewrite L; auto). destruct (index_of j F) eqn:E; auto. exfalso. apply index_of_some in E as [Q <-]. apply (DJ (nth n0 F 0)); auto. now apply nth_In.
      + split; [lia|]. split; [now exists k|]. split; [auto|]. split.
        * apply take_assign; auto; [intros; rewrite L; auto|]. now rewrite map_length.
        * intros AS _ j J. destruct (XN j J) as [->|(v & V & ->)]; [auto|discriminate].
    - pose proof (back_step k F G x GD FE) as BS. cbv zeta in BS. destruct BS as (RF & GD' & NS).
      set (r := fst (nth _ _ _)) in *. set (x1 := assign _ _ _) in *.
      destruct (IH (S k) _ _ x1 GD') as [T S]. pose proof (remove1_length r F RF) as RL. assert (List.length F <> 0) by (destruct F; [easy|discriminate]).
      split.
      + intros FL. apply T. lia.
      + intros k' F' G' x' xF E. destruct (S _ _ _ _ _ E) as (A & B & C & D & E' & N). split; [auto|]. split; [lia|]. split; [auto|]. split; [auto|]. split; [auto|].
        intros AS NZ. apply N; auto.
  Qed.
End Inner.
