(** Lemmas for property C77: what one call commands. *)
From Coq Require Import List ZArith QArith Qcanon Bool Arith Lia.
From Verif.Base Require Import Py Num.
From Verif.Matcher Require Import Model Spec Proofs.
Import ListNotations.
Local Open Scope list_scope.
Local Open Scope Z_scope.

Lemma skipn_4 : forall A (l : list A) k d, (4 * k + 4 <= List.length l)%nat ->
  firstn 4 (skipn (4 * k) l) = [nth (4 * k) l d; nth (4 * k + 1) l d; nth (4 * k + 2) l d; nth (4 * k + 3) l d].
Proof.
  intros A l k d. generalize (4 * k)%nat. intros n. revert l. induction n as [|n IH]; intros l H.
  - destruct l as [|a [|b [|c [|e l]]]]; cbn in H; try lia. reflexivity.
  - destruct l as [|a l]; cbn in H; [lia|]. cbn [skipn Nat.add nth]. rewrite IH by lia. reflexivity.
Qed.

Lemma average_mean : forall amplitude k, (forall ev, In ev amplitude -> (4 * k + 4 <= List.length ev)%nat) ->
  average_of amplitude k = sp_mean amplitude k.
Proof.
  intros a k H. unfold average_of, sp_mean.
  assert (qsum (map (fun ev => nth (4 * k) ev 0 + nth (4 * k + 1) ev 0 + nth (4 * k + 2) ev 0 + nth (4 * k + 3) ev 0)%Qc a)
          = qsum (sp_amplitudes a k) /\ (4 * List.length a)%nat = List.length (sp_amplitudes a k)) as [E1 E2].
  { unfold sp_amplitudes. induction a as [|ev a IH]; [split; reflexivity|].
    destruct IH as [I1 I2]; [intros e I; apply H; now right|]. cbn [map List.concat].
    rewrite (skipn_4 _ ev k 0%Qc) by (apply H; now left). rewrite app_length. cbn [List.length app].
    unfold qsum in *. cbn [fold_right]. rewrite I1. split; [ring|]. lia. }
  now rewrite E1, E2.
Qed.

Lemma distance_rel : forall aim a, aim <> 0%Qc -> distance_of aim a = rel_distance aim a.
Proof. intros aim a N. unfold distance_of, rel_distance. field. auto. Qed.

Lemma advance_cases : forall it aim s a, sp_stage s <> FINISH -> sp_masked s = false -> sp_ok s -> aim <> 0%Qc ->
  let s' := advance it aim s a in
  sp_pdist s' = rel_distance aim a /\ sp_prev s' = sp_cur s /\ sp_masked s' = false /\
  (((0 < it)%nat /\ (sp_pdist s < rel_distance aim a)%Qc /\ sp_cur s' = sp_prev s /\ sp_stage s' = sp_stage s + 1) \/
   ((it = 0%nat \/ (rel_distance aim a <= sp_pdist s)%Qc) /\
    exists d, towards aim a (nth (Z.to_nat (sp_stage s)) [10; 5; 1] 0) d /\
      ((10 <= sp_cur s + d <= 255 /\ sp_cur s' = sp_cur s + d /\ sp_stage s' = sp_stage s) \/
       (~ 10 <= sp_cur s + d <= 255 /\ sp_cur s' = 255 /\ sp_stage s' = FINISH)))).
Proof.
  intros it aim s a NF M OK NZ s'. unfold s'. rewrite advance_pdist, advance_prev, advance_masked, advance_cur, advance_stage.
  rewrite <- distance_rel by auto. split; auto. split; auto. split; auto.
  unfold next_dac. destruct (Z.eqb_spec (sp_stage s) FINISH) as [|_]; [contradiction|]. rewrite M.
  assert (exists d, towards aim a (nth (Z.to_nat (sp_stage s)) [10; 5; 1] 0) d /\ d = step_size (sp_stage s) * direction_of aim a) as (d & T & ED).
  { eexists. split; [|reflexivity].
    assert (step_size (sp_stage s) = nth (Z.to_nat (sp_stage s)) [10; 5; 1] 0) as <-.
    { destruct OK as (_ & _ & R). unfold step_size. unfold_consts.
      assert (sp_stage s = 0 \/ sp_stage s = 1 \/ sp_stage s = 2) as [->|[->| ->]] by lia; reflexivity. }
    destruct (direction_cases aim a) as [[-> H]|[[-> H]|[-> H]]]; unfold towards; [left|right; left|right; right]; split; auto; lia. }
  destruct (qltb_spec (if (it =? 0)%nat then distance_of aim a else sp_pdist s) (distance_of aim a)) as [Q|Q].
  - left. destruct (Nat.eqb_spec it 0) as [->|N]; [exfalso; qlra|]. cbn. repeat split; auto; lia.
  - right. split.
    + destruct (Nat.eqb_spec it 0) as [->|N]; [now left|]. right. qlra.
    + exists d. split; auto. rewrite <- ED.
      destruct (Z.ltb_spec 255 (sp_cur s + d)); [right; cbn; repeat split; auto; lia|].
      destruct (Z.ltb_spec (sp_cur s + d) 10); [right; cbn; repeat split; auto; lia|].
      left. cbn. repeat split; auto; lia.
Qed.

Lemma c77_transition : forall m amplitude i s, mat_ok m -> quiet m -> m_aim m <> 0%Qc ->
  nth_error (m_sps m) i = Some s -> sp_masked s = false -> sp_stage s <> FINISH ->
  (forall ev, In ev amplitude -> (4 * i + 4 <= List.length ev)%nat) ->
  exists s', nth_error (m_sps (fst (process m amplitude))) i = Some s' /\
    nth_error (fst (snd (process m amplitude))) i = Some (sp_cur s') /\
    m_iter (fst (process m amplitude)) = S (m_iter m) /\
    sp_pdist s' = rel_distance (m_aim m) (sp_mean amplitude i) /\ sp_prev s' = sp_cur s /\ sp_masked s' = false /\
    (((0 < m_iter m)%nat /\ (sp_pdist s < rel_distance (m_aim m) (sp_mean amplitude i))%Qc /\
      sp_cur s' = sp_prev s /\ sp_stage s' = sp_stage s + 1) \/
     ((m_iter m = 0%nat \/ (rel_distance (m_aim m) (sp_mean amplitude i) <= sp_pdist s)%Qc) /\
      exists d, towards (m_aim m) (sp_mean amplitude i) (nth (Z.to_nat (sp_stage s)) [10; 5; 1] 0) d /\
        ((10 <= sp_cur s + d <= 255 /\ sp_cur s' = sp_cur s + d /\ sp_stage s' = sp_stage s) \/
         (~ 10 <= sp_cur s + d <= 255 /\ sp_cur s' = 255 /\ sp_stage s' = FINISH)))).
Proof.
  intros m a i s OK Q NZ E M NF HL.
  destruct (process_quiet m a Q) as (_ & D & _ & IT & _ & _ & N).
  exists (advance (m_iter m) (m_aim m) s (average_of a i)). rewrite D, nth_error_map, (N i s E).
  split; auto. split; auto. split; auto. rewrite average_mean by auto.
  apply advance_cases; auto. destruct OK as [_ F]. rewrite Forall_nth in F. eauto.
Qed.

(** ** Sizes of the changes along a history *)
Definition size_ok (m : matcher) (d : Z) : Prop :=
  In (Z.abs d) [0; 1; 5; 10] /\ (m_global m = G_SECOND_PASS -> Z.abs d <= 1).
Definition step_inv (m : matcher) : Prop :=
  mat_ok m /\ m_aim m <> 0%Qc /\
  (quiet m -> forall i s, nth_error (m_sps m) i = Some s -> sp_masked s = false -> sp_stage s <> FINISH ->
     (m_global m = G_SECOND_PASS -> sp_stage s = STEP1) /\
     (m_iter m = 0%nat \/ size_ok m (sp_cur s - sp_prev s))).

Lemma advance_size : forall m a i s, step_inv m -> quiet m -> nth_error (m_sps m) i = Some s -> sp_masked s = false ->
  let s' := advance (m_iter m) (m_aim m) s a in
  (sp_stage s = FINISH /\ sp_cur s' = sp_cur s /\ sp_stage s' = FINISH) \/
  (sp_cur s' = 255 /\ sp_stage s' = FINISH) \/
  (size_ok m (sp_cur s' - sp_cur s) /\ sp_prev s' = sp_cur s /\ sp_masked s' = false /\
   sp_stage s <= sp_stage s' <= FINISH).
Proof.
  intros m a i s (OK & NZ & I) Q E M s'. specialize (I Q i s E M).
  destruct (Z.eq_dec (sp_stage s) FINISH) as [F|NF].
  - left. destruct (advance_finished (m_iter m) (m_aim m) s a F). auto.
  - right. destruct (I NF) as (I1 & I2).
    assert (sp_ok s) as SO by (destruct OK as [_ F]; rewrite Forall_nth in F; eauto).
    destruct (advance_cases (m_iter m) (m_aim m) s a NF M SO NZ) as (A1 & A2 & A3 & A4). fold s' in A1, A2, A3, A4.
    assert (0 <= sp_stage s <= 2) as ST by (destruct SO as (_ & _ & R); unfold_consts; lia).
    destruct A4 as [(B1 & B2 & B3 & B4)|(B1 & d & T & [(B2 & B3 & B4)|(B2 & B3 & B4)])].
    + right. destruct I2 as [I2|I2]; [lia|]. split; [|repeat split; auto; unfold_consts; lia].
      rewrite B3. unfold size_ok in *. replace (sp_prev s - sp_cur s) with (- (sp_cur s - sp_prev s)) by lia.
      now rewrite Z.abs_opp.
    + right. split; [|repeat split; auto; unfold_consts; lia]. rewrite B3. replace (sp_cur s + d - sp_cur s) with d by lia.
      assert (In (nth (Z.to_nat (sp_stage s)) [10; 5; 1] 0) [10; 5; 1]) as IN by (apply nth_In; cbn; lia).
      split.
      * set (t := nth _ _ _) in *. clearbody t. simpl in IN. unfold towards in T. simpl. destruct T as [[_ ->]|[[_ ->]|[_ ->]]]; [| |now left]; lia.
      * intros G. rewrite (I1 G) in T. change (nth (Z.to_nat STEP1) [10; 5; 1] 0) with 1 in T. unfold towards in T. destruct T as [[_ ->]|[[_ ->]|[_ ->]]]; cbn; lia.
    + left. auto.
Qed.

Lemma step_inv_reset : forall m, step_inv m -> step_inv (reset m).
Proof.
  intros m (OK & NZ & I). unfold reset. destruct (Z.eqb_spec (m_global m) G_RESET) as [E|N]; [|split; auto].
  split; [|split; auto].
  - pose proof (reset_ok m OK) as R. unfold reset in R. rewrite E in *. exact R.
  - intros _ i s Es _ _. cbn [m_sps m_iter] in *. rewrite nth_error_map in Es.
    destruct (nth_error (m_sps m) i); [|discriminate]. inversion Es. auto.
Qed.

Lemma process_mask_len : forall m a, mat_ok m ->
  map sp_masked (m_sps (fst (process m a))) = map sp_masked (m_sps m).
Proof.
  intros m a OK. rewrite process_reset.
  assert (map sp_masked (m_sps (reset m)) = map sp_masked (m_sps m)) as <-.
  { unfold reset. destruct (_ =? _); auto. cbn [m_sps]. rewrite map_map. reflexivity. }
  destruct (reset_cases m OK) as [Q|G].
  - destruct (process_quiet (reset m) a Q) as (_ & _ & _ & _ & _ & L & N).
    assert (forall (l l' : list sp), List.length l' = List.length l ->
      (forall i s, nth_error l i = Some s -> exists s', nth_error l' i = Some s' /\ sp_masked s' = sp_masked s) ->
      map sp_masked l' = map sp_masked l) as X.
    { clear. induction l as [|x l IH]; intros [|y l'] HL H; cbn in HL; try discriminate; auto.
      cbn [map]. f_equal.
      - destruct (H 0%nat x eq_refl) as (s' & E & M). inversion E; subst. auto.
      - apply IH; [lia|]. intros i s E. apply (H (S i) s E). }
    apply X; auto. intros i s E. rewrite (N i s E). eexists. split; [reflexivity|]. apply advance_masked.
  - now rewrite process_finish.
Qed.

Lemma step_inv_process : forall m a, step_inv m -> step_inv (fst (process m a)).
Proof.
  intros m a H. rewrite process_reset. apply step_inv_reset in H. pose proof H as (OK & NZ & I).
  assert (mat_ok (fst (process (reset m) a))) as OK' by (now apply process_ok).
  destruct (Z.eq_dec (m_global (reset m)) G_FINISH) as [G|G].
  { rewrite process_finish by auto. exact H. }
  assert (quiet (reset m)) as Q.
  { assert (reset (reset m) = reset m) as RR by apply reset_reset. destruct (reset_cases (reset m) OK) as [X|X]; rewrite RR in X; tauto. }
  remember (reset m) as m1 eqn:Em. clear Em m.
  destruct (process_quiet m1 a Q) as (_ & _ & AI & IT & GL & LN & N).
  split; auto. split; [now rewrite AI|]. intros Q' i s' E' M' NF.
  destruct (all_finished (fst (process m1 a))) eqn:AF.
  { exfalso. unfold all_finished in AF. rewrite forallb_forall in AF. apply NF. apply Z.eqb_eq. apply AF. eapply nth_error_In; eauto. }
  assert (exists s, nth_error (m_sps m1) i = Some s) as (s & E).
  { destruct (nth_error (m_sps m1) i) eqn:X; eauto. apply nth_error_None in X. rewrite <- LN in X. apply nth_error_None in X. congruence. }
  rewrite (N i s E) in E'. inversion E' as [E'']. clear E'. subst s'. rewrite advance_masked in M'.
  destruct (advance_size m1 (average_of a i) i s H Q E M') as [(F & _)|[(_ & F)|(S1 & S2 & _ & S4)]].
  - exfalso. apply NF. now apply advance_finished.
  - contradiction.
  - split.
    + rewrite GL. intros G2. destruct (I Q i s E M') as (I1 & _).
      * intros X. apply NF. now apply advance_finished.
      * rewrite (I1 G2) in S4. unfold_consts. lia.
    + right. unfold size_ok in *. rewrite GL, S2. exact S1.
Qed.

Lemma step_inv_new : forall np aim dacs bad, aim <> 0%Qc ->
  (forall d, In d (starting (np / 4) dacs) -> 10 <= d <= 255) ->
  (np / 4 <= List.length (starting (np / 4) dacs))%nat -> step_inv (new_matcher np aim dacs bad).
Proof.
  intros np aim dacs bad NZ H L. split; [now apply new_ok|]. split; auto. intros _ i s _ _ _. split; [discriminate|]. now left.
Qed.

Lemma c77_sizes : forall m a i s s', step_inv m ->
  nth_error (m_sps m) i = Some s -> sp_masked s = false -> nth_error (m_sps (fst (process m a))) i = Some s' ->
  sp_cur s' = 255 \/ (In (Z.abs (sp_cur s' - sp_cur s)) [0; 1; 5; 10] /\
                      (m_global m = G_RESET \/ m_global m = G_SECOND_PASS -> Z.abs (sp_cur s' - sp_cur s) <= 1)).
Proof.
  intros m a i s s' H E M E'. rewrite process_reset in E'. apply step_inv_reset in H. pose proof H as (OK & NZ & I).
  assert (exists s1, nth_error (m_sps (reset m)) i = Some s1 /\ sp_cur s1 = sp_cur s /\ sp_masked s1 = false) as (s1 & E1 & C1 & M1).
  { unfold reset. destruct (_ =? _); [|eauto]. cbn [m_sps]. rewrite nth_error_map, E. eexists. split; [reflexivity|]. auto. }
  assert (m_global m = G_RESET \/ m_global m = G_SECOND_PASS -> m_global (reset m) = G_SECOND_PASS) as GG.
  { unfold reset. intros [X|X]; rewrite X; cbn; auto. }
  rewrite <- C1. destruct (Z.eq_dec (m_global (reset m)) G_FINISH) as [G|G].
  { rewrite process_finish in E' by auto. cbn [fst] in E'. assert (s' = s1) as -> by congruence. right.
    rewrite Z.sub_diag. cbn. split; [auto|lia]. }
  assert (quiet (reset m)) as Q.
  { assert (reset (reset m) = reset m) as RR by apply reset_reset. destruct (reset_cases (reset m) OK) as [X|X]; rewrite RR in X; tauto. }
  destruct (process_quiet (reset m) a Q) as (_ & _ & _ & _ & _ & _ & N).
  rewrite (N i s1 E1) in E'. inversion E' as [E'']. clear E'. subst s'.
  destruct (advance_size (reset m) (average_of a i) i s1 H Q E1 M1) as [(F & X & _)|[(X & _)|((S1 & S2) & _)]].
  - right. rewrite X, Z.sub_diag. cbn. split; [auto|lia].
  - now left.
  - right. auto.
Qed.

Lemma run_succ : forall ms m k mk r mk1 r1, nth_error (run m ms) k = Some (mk, r) -> nth_error (run m ms) (S k) = Some (mk1, r1) ->
  exists a, (mk1, r1) = process mk a.
Proof.
  induction ms as [|a ms IH]; intros m [|k] mk r mk1 r1 E E1; cbn [run nth_error] in *; try discriminate.
  - destruct ms as [|b ms]; [discriminate|]. cbn [run nth_error] in E1. inversion E1 as [E2]. exists b.
    destruct (process m a) as [x y] eqn:P. inversion E; subst. cbn [fst] in *. congruence.
  - eapply IH; eauto.
Qed.

Lemma c77_history : forall np aim dacs bad ms k m d b m' d' b' i x x', aim <> 0%Qc ->
  (forall d, In d (starting (np / 4) dacs) -> 10 <= d <= 255) ->
  (np / 4 <= List.length (starting (np / 4) dacs))%nat ->
  nth_error (run (new_matcher np aim dacs bad) ms) k = Some (m, (d, b)) ->
  nth_error (run (new_matcher np aim dacs bad) ms) (S k) = Some (m', (d', b')) ->
  nth_error d i = Some x -> nth_error d' i = Some x' ->
  x' = 255 \/ (In (Z.abs (x' - x)) [0; 1; 5; 10] /\
               (m_global m = G_RESET \/ m_global m = G_SECOND_PASS -> Z.abs (x' - x) <= 1)).
Proof.
  intros np aim dacs bad ms k m d b m' d' b' i x x' NZ H L E E' X X'.
  pose proof (step_inv_new np aim dacs bad NZ H L) as I0.
  pose proof (run_states step_inv step_inv_process _ _ _ _ _ I0 E) as IM.
  pose proof (new_ok np aim dacs bad H L) as OK0.
  rewrite (run_dacs _ _ _ _ _ _ OK0 E) in X. rewrite (run_dacs _ _ _ _ _ _ OK0 E') in X'.
  rewrite nth_error_map in X, X'.
  destruct (nth_error (m_sps m) i) as [s|] eqn:Es; [|discriminate]. inversion X; subst. clear X.
  destruct (nth_error (m_sps m') i) as [s'|] eqn:Es'; [|discriminate]. inversion X'; subst. clear X'.
  destruct (run_succ _ _ _ _ _ _ _ E E') as (a & P).
  assert (m' = fst (process m a)) as -> by (rewrite <- P; reflexivity).
  destruct (sp_masked s) eqn:M; [|eapply c77_sizes; eauto].
  left.
  pose proof (run_masked _ _ _ _ _ OK0 (new_masked_ok np aim dacs bad) ltac:(discriminate) E') as MK.
  unfold masked_255 in MK. rewrite Forall_nth in MK. apply (MK i s' Es').
  pose proof (process_mask_len m a (proj1 IM)) as ML.
  apply (f_equal (fun l => nth_error l i)) in ML. rewrite !nth_error_map, Es, Es' in ML. cbn in ML. congruence.
Qed.
