(** Lemmas about the amplitude matcher. *)
From Coq Require Import List ZArith QArith Qcanon Bool Arith Lia.
From Verif.Base Require Import Py Num.
From Verif.Matcher Require Import Model.
Import ListNotations.
Local Open Scope list_scope.
Local Open Scope Z_scope.

(** ** One superpixel *)
Lemma direction_cases : forall aim a,
  (direction_of aim a = 1 /\ (aim < a)%Qc) \/ (direction_of aim a = -1 /\ (a < aim)%Qc) \/ (direction_of aim a = 0 /\ a = aim).
Proof.
  intros aim a. unfold direction_of. destruct (qltb_spec 0 (a - aim)) as [P|P].
  - left. split; auto. qlra.
  - destruct (qltb_spec (a - aim) 0) as [Q|Q]; [right; left; split; auto; qlra|]. right. right. split; auto. qlra.
Qed.

Lemma distance_tie : forall aim a b, aim <> 0%Qc -> (aim < a)%Qc -> (b < aim)%Qc -> distance_of aim a = distance_of aim b -> (a + b = aim + aim)%Qc.
Proof.
  intros aim a b N A B E. unfold distance_of in E.
  assert ((a - b) * (a + b - (aim + aim)) = 0)%Qc as Z.
  { replace ((a - b) * (a + b - (aim + aim)))%Qc with
      (((a - aim) / aim * ((a - aim) / aim) - (b - aim) / aim * ((b - aim) / aim)) * (aim * aim))%Qc by (field; auto).
    rewrite E. ring. }
  apply Qcmult_integral in Z. destruct Z as [Z|Z].
  - exfalso. assert (a = b)%Qc by (replace a with (a - b + b)%Qc by ring; rewrite Z; ring). subst. qlra.
  - replace (a + b)%Qc with (a + b - (aim + aim) + (aim + aim))%Qc by ring. rewrite Z. ring.
Qed.

Definition dac_ok (d : Z) : Prop := 10 <= d <= 255.
Definition sp_ok (s : sp) : Prop := dac_ok (sp_cur s) /\ dac_ok (sp_prev s) /\ 0 <= sp_stage s <= 3.

Ltac unfold_consts := unfold STEP10, STEP5, STEP1, FINISH, G_FIRST_PASS, G_RESET, G_SECOND_PASS, G_FINISH in *.

Lemma next_dac_ok : forall it s dist dir, sp_ok s ->
  dac_ok (fst (next_dac it s dist dir)) /\ sp_stage s <= snd (next_dac it s dist dir) <= 3.
Proof.
  intros it s dist dir (C & P & S). unfold next_dac, dac_ok in *. unfold_consts.
  destruct (Z.eqb_spec (sp_stage s) 3); [cbn; lia|]. destruct (sp_masked s); [cbn; lia|].
  destruct (qltb _ _); [cbn; lia|].
  match goal with |- context [255 <? ?d] => set (x := d) end.
  destruct (Z.ltb_spec 255 x); [cbn; lia|]. destruct (Z.ltb_spec x 10); cbn; lia.
Qed.

Lemma advance_cur : forall it aim s a, sp_cur (advance it aim s a) = fst (next_dac it s (distance_of aim a) (direction_of aim a)).
Proof. intros. unfold advance. destruct (next_dac _ _ _ _). reflexivity. Qed.
Lemma advance_stage : forall it aim s a, sp_stage (advance it aim s a) = snd (next_dac it s (distance_of aim a) (direction_of aim a)).
Proof. intros. unfold advance. destruct (next_dac _ _ _ _). reflexivity. Qed.
Lemma advance_prev : forall it aim s a, sp_prev (advance it aim s a) = sp_cur s.
Proof. intros. unfold advance. destruct (next_dac _ _ _ _). reflexivity. Qed.
Lemma advance_pdist : forall it aim s a, sp_pdist (advance it aim s a) = distance_of aim a.
Proof. intros. unfold advance. destruct (next_dac _ _ _ _). reflexivity. Qed.
Lemma advance_masked : forall it aim s a, sp_masked (advance it aim s a) = sp_masked s.
Proof. intros. unfold advance. destruct (next_dac _ _ _ _). reflexivity. Qed.

Lemma advance_ok : forall it aim s a, sp_ok s -> sp_ok (advance it aim s a).
Proof.
  intros it aim s a H. destruct (next_dac_ok it s (distance_of aim a) (direction_of aim a) H) as [A B].
  unfold sp_ok. rewrite advance_cur, advance_stage, advance_prev. destruct H as (C & P & S). repeat split; try apply A; try apply C; lia.
Qed.
Lemma advance_mono : forall it aim s a, sp_ok s -> sp_stage s <= sp_stage (advance it aim s a).
Proof. intros. rewrite advance_stage. now apply next_dac_ok. Qed.
Lemma advance_finished : forall it aim s a, sp_stage s = FINISH ->
  sp_stage (advance it aim s a) = FINISH /\ sp_cur (advance it aim s a) = sp_cur s.
Proof. intros it aim s a H. rewrite advance_stage, advance_cur. unfold next_dac. rewrite H. cbn. auto. Qed.
Lemma advance_mask : forall it aim s a, sp_masked s = true -> sp_stage s <> FINISH ->
  sp_stage (advance it aim s a) = FINISH /\ sp_cur (advance it aim s a) = 255.
Proof.
  intros it aim s a M H. rewrite advance_stage, advance_cur. unfold next_dac.
  destruct (Z.eqb_spec (sp_stage s) FINISH); [congruence|]. rewrite M. auto.
Qed.

(** ** The whole camera *)
Definition quiet (m : matcher) : Prop := m_global m = G_FIRST_PASS \/ m_global m = G_SECOND_PASS.

Lemma reset_quiet : forall m, quiet m -> reset m = m.
Proof. intros m [E|E]; unfold reset; rewrite E; reflexivity. Qed.
Lemma reset_reset : forall m, reset (reset m) = reset m.
Proof.
  intros m. unfold reset. destruct (Z.eqb_spec (m_global m) G_RESET) as [E|N]; cbn [m_global].
  - rewrite E. reflexivity.
  - destruct (Z.eqb_spec (m_global m) G_RESET); [congruence|reflexivity].
Qed.
Lemma process_reset : forall m a, process m a = process (reset m) a.
Proof. intros m a. unfold process. now rewrite reset_reset. Qed.
Lemma reset_length : forall m, List.length (m_sps (reset m)) = List.length (m_sps m).
Proof. intros m. unfold reset. destruct (_ =? _); auto. cbn. now rewrite map_length. Qed.

Lemma nth_error_combine_seq : forall A (l : list A) i a b, nth_error l i = Some b ->
  nth_error (combine (seq a (List.length l)) l) i = Some (a + i, b)%nat.
Proof.
  induction l as [|x l IH]; intros [|i] a b E; try discriminate; cbn in *.
  - inversion E. do 2 f_equal. lia.
  - rewrite (IH _ _ _ E). do 2 f_equal. lia.
Qed.

Lemma process_quiet : forall m a, quiet m ->
  snd (snd (process m a)) = false /\
  fst (snd (process m a)) = map sp_cur (m_sps (fst (process m a))) /\
  m_aim (fst (process m a)) = m_aim m /\
  m_iter (fst (process m a)) = S (m_iter m) /\
  m_global (fst (process m a)) = (if all_finished (fst (process m a)) then m_global m + 1 else m_global m) /\
  List.length (m_sps (fst (process m a))) = List.length (m_sps m) /\
  forall i s, nth_error (m_sps m) i = Some s ->
    nth_error (m_sps (fst (process m a))) i = Some (advance (m_iter m) (m_aim m) s (average_of a i)).
Proof.
  intros m a Q. unfold process. rewrite (reset_quiet m Q).
  assert (m_global m =? G_FINISH = false) as E by (destruct Q as [->| ->]; reflexivity). rewrite E.
  set (sps := map _ (combine _ _)).
  assert (List.length sps = List.length (m_sps m)) as L.
  { unfold sps. rewrite map_length, combine_length, seq_length. lia. }
  assert (forall i s, nth_error (m_sps m) i = Some s ->
            nth_error sps i = Some (advance (m_iter m) (m_aim m) s (average_of a i))) as N.
  { intros i s Es. unfold sps. rewrite nth_error_map, (nth_error_combine_seq _ _ _ 0 _ Es). reflexivity. }
  set (m2 := Mat _ _ _ sps).
  assert (all_finished (if all_finished m2 then Mat (m_global m2 + 1) (m_iter m2) (m_aim m2) (m_sps m2) else m2) = all_finished m2) as AF.
  { destruct (all_finished m2) eqn:F; auto. }
  cbn [fst snd]. rewrite AF. destruct (all_finished m2) eqn:F; cbn [m_global m_iter m_aim m_sps]; repeat split; auto.
Qed.

Lemma process_finish : forall m a, m_global m = G_FINISH -> process m a = (m, (map sp_cur (m_sps m), true)).
Proof. intros m a E. unfold process, reset. rewrite E. cbn. now rewrite E. Qed.

Lemma process_true : forall m a, snd (snd (process m a)) = true -> 0 <= m_global m <= 3 -> m_global m = G_FINISH.
Proof.
  intros m a H R. destruct (Z.eq_dec (m_global m) 3) as [E|N]; auto. exfalso.
  destruct (Z.eq_dec (m_global m) 1) as [E1|N1].
  - rewrite process_reset in H. destruct (process_quiet (reset m) a) as [F _]; [|congruence].
    right. unfold reset. rewrite E1. cbn. rewrite ?E1. reflexivity.
  - destruct (process_quiet m a) as [F _]; [|congruence]. unfold quiet. unfold_consts. lia.
Qed.

(** Invariants of every history. *)
Definition mat_ok (m : matcher) : Prop := 0 <= m_global m <= 3 /\ Forall sp_ok (m_sps m).

Lemma Forall_nth : forall A (P : A -> Prop) l, Forall P l <-> forall i x, nth_error l i = Some x -> P x.
Proof.
  intros A P l. rewrite Forall_forall. split.
  - intros H i x E. apply H. eapply nth_error_In; eauto.
  - intros H x I. apply In_nth_error in I. destruct I as [i E]. eauto.
Qed.

Lemma reset_ok : forall m, mat_ok m -> mat_ok (reset m).
Proof.
  intros m [G F]. unfold reset. destruct (Z.eqb_spec (m_global m) G_RESET) as [E|N]; [|split; auto].
  split; cbn [m_global m_sps]; [unfold_consts; lia|]. rewrite Forall_map. eapply Forall_impl; [|exact F].
  intros s (A & B & C). unfold sp_ok. cbn. unfold_consts. repeat split; try apply A; try apply B; lia.
Qed.

Lemma reset_cases : forall m, mat_ok m -> quiet (reset m) \/ m_global (reset m) = G_FINISH.
Proof.
  intros m [G _]. unfold reset, quiet. destruct (Z.eqb_spec (m_global m) G_RESET) as [E|N]; cbn [m_global]; unfold_consts; lia.
Qed.

Lemma back : forall m m' i s', List.length (m_sps m') = List.length (m_sps m) -> nth_error (m_sps m') i = Some s' ->
  exists s, nth_error (m_sps m) i = Some s.
Proof.
  intros m m' i s' L E. destruct (nth_error (m_sps m) i) as [s|] eqn:X; eauto.
  apply nth_error_None in X. rewrite <- L in X. apply nth_error_None in X. congruence.
Qed.

Lemma process_ok : forall m a, mat_ok m -> mat_ok (fst (process m a)).
Proof.
  intros m a H. rewrite process_reset. pose proof (reset_ok m H) as R. destruct (reset_cases m H) as [Q|E].
  - destruct (process_quiet (reset m) a Q) as (_ & _ & _ & _ & G & L & N). split.
    + rewrite G. destruct Q as [-> | ->]; unfold_consts; destruct (all_finished _); lia.
    + apply Forall_nth. intros i s' E. destruct (back _ _ _ _ L E) as [s Es].
      rewrite (N i s Es) in E. inversion E; subst. apply advance_ok.
      destruct R as [_ F]. rewrite Forall_nth in F. eauto.
  - rewrite process_finish by auto. exact R.
Qed.

Lemma run_states : forall (P : matcher -> Prop), (forall m a, P m -> P (fst (process m a))) ->
  forall ms m k m' r, P m -> nth_error (run m ms) k = Some (m', r) -> P m'.
Proof.
  intros P H. induction ms as [|a ms IH]; intros m [|k] m' r HP E; cbn [run nth_error] in E; try discriminate.
  - assert (fst (process m a) = m') as <- by (injection E as ->; reflexivity). now apply H.
  - eapply IH; [|exact E]. now apply H.
Qed.
Lemma run_dacs : forall ms m k m' d b, mat_ok m -> nth_error (run m ms) k = Some (m', (d, b)) -> d = map sp_cur (m_sps m').
Proof.
  induction ms as [|a ms IH]; intros m [|k] m' d b HP E; cbn [run nth_error] in E; try discriminate.
  - inversion E as [E']. clear E. rewrite process_reset in E'. destruct (reset_cases m HP) as [Q|G].
    + destruct (process_quiet (reset m) a Q) as (_ & D & _). rewrite E' in D. exact D.
    + rewrite process_finish in E' by auto. inversion E'. reflexivity.
  - eapply IH; [|exact E]. now apply process_ok.
Qed.

Lemma new_ok : forall np aim dacs bad, (forall d, In d (starting (np / 4) dacs) -> dac_ok d) ->
  (np / 4 <= List.length (starting (np / 4) dacs))%nat -> mat_ok (new_matcher np aim dacs bad).
Proof.
  intros np aim dacs bad H L. split; [unfold new_matcher, G_FIRST_PASS; cbn [m_global]; lia|]. unfold new_matcher. cbn [m_sps].
  rewrite Forall_map. rewrite Forall_forall. intros k Ik. apply in_seq in Ik. unfold sp_ok. cbn [sp_cur sp_prev sp_stage].
  unfold_consts. assert (dac_ok (nth k (starting (np / 4) dacs) 0)) by (apply H, nth_In; lia). repeat split; try apply H0; lia.
Qed.

Lemma c36 : forall np aim dacs bad ms k m d b,
  (forall d, In d (starting (np / 4) dacs) -> dac_ok d) -> (np / 4 <= List.length (starting (np / 4) dacs))%nat ->
  nth_error (run (new_matcher np aim dacs bad) ms) k = Some (m, (d, b)) -> Forall dac_ok d.
Proof.
  intros np aim dacs bad ms k m d b H L E. pose proof (new_ok np aim dacs bad H L) as OK.
  rewrite (run_dacs _ _ _ _ _ _ OK E). pose proof (run_states mat_ok process_ok _ _ _ _ _ OK E) as [_ F].
  rewrite Forall_map. eapply Forall_impl; [|exact F]. intros s (C & _). exact C.
Qed.

(** ** Protocol *)
Definition masked_ok (m : matcher) : Prop := Forall (fun s => sp_masked s = true -> sp_stage s = FINISH -> sp_cur s = 255) (m_sps m).

(** After a call every masked superpixel is at 255. *)
Lemma process_masked : forall m a, mat_ok m -> masked_ok m ->
  masked_ok (fst (process m a)) /\
  (m_global m <> G_FINISH -> Forall (fun s => sp_masked s = true -> sp_cur s = 255 /\ sp_stage s = FINISH) (m_sps (fst (process m a)))).
Proof.
  intros m a OK MK. rewrite process_reset.
  assert (masked_ok (reset m)) as MR.
  { unfold masked_ok, reset in *. destruct (_ =? _); auto. cbn [m_sps]. rewrite Forall_map. eapply Forall_impl; [|exact MK].
    cbn. intros s _ _ X. discriminate. }
  destruct (reset_cases m OK) as [Q|E].
  - destruct (process_quiet (reset m) a Q) as (_ & _ & _ & _ & _ & L & N).
    assert (Forall (fun s => sp_masked s = true -> sp_cur s = 255 /\ sp_stage s = FINISH) (m_sps (fst (process (reset m) a)))) as F.
    { apply Forall_nth. intros i s' E M. destruct (back _ _ _ _ L E) as [s Es]. rewrite (N i s Es) in E. inversion E; subst.
      rewrite advance_masked in M. destruct (Z.eq_dec (sp_stage s) FINISH) as [X|X].
      - destruct (advance_finished (m_iter (reset m)) (m_aim (reset m)) s (average_of a i) X) as [A B]. split; auto. rewrite B.
        unfold masked_ok in MR. rewrite Forall_nth in MR. eapply MR; eauto.
      - destruct (advance_mask (m_iter (reset m)) (m_aim (reset m)) s (average_of a i) M X) as [A B]. auto. }
    split; auto. eapply Forall_impl; [|exact F]. cbn. intros s H M _. now apply H.
  - rewrite process_finish by auto. split; auto. intros X. exfalso. apply X. unfold reset in E.
    destruct (Z.eqb_spec (m_global m) G_RESET) as [EQ|]; auto. cbn [m_global] in E. rewrite EQ in E. discriminate.
Qed.

(** Masked superpixels after any number of calls. *)
Definition masked_255 (m : matcher) : Prop := Forall (fun s => sp_masked s = true -> sp_cur s = 255 /\ sp_stage s = FINISH) (m_sps m).

Lemma run_masked : forall ms m k m' r, mat_ok m -> masked_ok m -> m_global m <> G_FINISH ->
  nth_error (run m ms) k = Some (m', r) -> masked_255 m'.
Proof.
  assert (forall ms m k m' r, mat_ok m -> masked_255 m -> nth_error (run m ms) k = Some (m', r) -> masked_255 m') as LATER.
  { intros ms m k m' r OK MK E.
    refine (proj2 (run_states (fun m => mat_ok m /\ masked_255 m) _ ms m k m' r (conj OK MK) E)).
    clear. intros m a [OK MK]. split; [now apply process_ok|].
    assert (masked_ok m) as MO by (eapply Forall_impl; [|exact MK]; cbn; intros s H M _; now apply H).
    destruct (Z.eq_dec (m_global m) G_FINISH) as [G|G].
    - rewrite process_finish by auto. exact MK.
    - now apply process_masked. }
  intros [|a ms] m [|k] m' r OK MK G E; cbn [run nth_error] in E; try discriminate.
  - inversion E as [E']. replace m' with (fst (process m a)) by (rewrite E'; reflexivity). now apply process_masked.
  - eapply LATER; [| |exact E]; [now apply process_ok|now apply process_masked].
Qed.

Lemma new_masked_ok : forall np aim dacs bad, masked_ok (new_matcher np aim dacs bad).
Proof.
  intros. unfold masked_ok, new_matcher. cbn [m_sps]. rewrite Forall_map. rewrite Forall_forall. intros k _ _ X. discriminate.
Qed.

(** Two passes. *)
Lemma run_finish : forall ms m k x, m_global m = G_FINISH -> nth_error (run m ms) k = Some x -> x = (m, (map sp_cur (m_sps m), true)).
Proof.
  induction ms as [|a ms IH]; intros m [|k] x G E; cbn [run nth_error] in E; try discriminate.
  - rewrite process_finish in E by auto. congruence.
  - rewrite process_finish in E by auto. cbn [fst] in E. eapply IH; eauto.
Qed.

Lemma run_second : forall ms m k m' d, quiet (reset m) -> m_global (reset m) = G_SECOND_PASS ->
  nth_error (run m ms) k = Some (m', (d, true)) ->
  exists j mj dj, (j < k)%nat /\ nth_error (run m ms) j = Some (mj, (dj, false)) /\ all_finished mj = true /\ m_global mj = G_FINISH /\
    d = map sp_cur (m_sps mj) /\ m' = mj /\
    forall k' x, (j < k')%nat -> nth_error (run m ms) k' = Some x -> x = (mj, (map sp_cur (m_sps mj), true)).
Proof.
  induction ms as [|a ms IH]; intros m k m' d Q G E; [destruct k; discriminate|].
  cbn [run] in *. rewrite process_reset in *.
  destruct (process_quiet (reset m) a Q) as (F & D & A & I & G' & L & N).
  destruct k as [|k]; cbn [nth_error] in E.
  - inversion E as [E']. rewrite E' in F. discriminate.
  - destruct (all_finished (fst (process (reset m) a))) eqn:AF.
    + assert (m_global (fst (process (reset m) a)) = G_FINISH) as GF by (rewrite G', G; reflexivity).
      destruct (process (reset m) a) as [m1 [d1 b1]] eqn:P. cbn [fst snd] in *. subst b1.
      exists 0%nat, m1, d1. pose proof (run_finish _ _ _ _ GF E) as X. inversion X; subst.
      repeat split; auto; try lia. intros [|k'] x Hk Ex; [lia|]. cbn [nth_error] in Ex. eapply run_finish; eauto.
    + assert (m_global (fst (process (reset m) a)) = G_SECOND_PASS) as GF by congruence.
      assert (reset (fst (process (reset m) a)) = fst (process (reset m) a)) as RR by (apply reset_quiet; now right).
      destruct (IH (fst (process (reset m) a)) k m' d) as (j & mj & dj & J1 & J2 & J3 & J4 & J5 & J6 & J7); auto.
      { rewrite RR. now right. } { now rewrite RR. }
      exists (S j), mj, dj. repeat split; auto; try lia.
      intros [|k'] x Hk Ex; [lia|]. cbn [nth_error] in Ex. apply (J7 k'); auto. lia.
Qed.

Lemma run_first : forall ms m k m' d, m_global m = G_FIRST_PASS ->
  nth_error (run m ms) k = Some (m', (d, true)) ->
  exists i mi di j mj dj, (i < j < k)%nat /\
    nth_error (run m ms) i = Some (mi, (di, false)) /\ all_finished mi = true /\ m_global mi = G_RESET /\
    nth_error (run m ms) j = Some (mj, (dj, false)) /\ all_finished mj = true /\ m_global mj = G_FINISH /\
    d = map sp_cur (m_sps mj) /\ m' = mj /\
    forall k' x, (j < k')%nat -> nth_error (run m ms) k' = Some x -> x = (mj, (map sp_cur (m_sps mj), true)).
Proof.
  induction ms as [|a ms IH]; intros m k m' d G E; [destruct k; discriminate|].
  cbn [run] in *. assert (quiet m) as Q by now left.
  destruct (process_quiet m a Q) as (F & D & A & I & G' & L & N).
  destruct k as [|k]; cbn [nth_error] in E.
  - inversion E as [E']. rewrite E' in F. discriminate.
  - destruct (all_finished (fst (process m a))) eqn:AF.
    + assert (m_global (fst (process m a)) = G_RESET) as GF by (rewrite G', G; reflexivity).
      assert (m_global (reset (fst (process m a))) = G_SECOND_PASS) as GR by (unfold reset; rewrite GF; cbn; now rewrite ?GF).
      destruct (run_second ms (fst (process m a)) k m' d) as (j & mj & dj & J1 & J2 & J3 & J4 & J5 & J6 & J7); auto.
      { now right. }
      destruct (process m a) as [m1 [d1 b1]] eqn:P. cbn [fst snd] in *. subst b1.
      exists 0%nat, m1, d1, (S j), mj, dj. repeat split; auto; try lia.
      intros [|k'] x Hk Ex; [lia|]. cbn [nth_error] in Ex. apply (J7 k'); auto. lia.
    + assert (m_global (fst (process m a)) = G_FIRST_PASS) as GF by congruence.
      destruct (IH (fst (process m a)) k m' d GF E) as (i & mi & di & j & mj & dj & J0 & J1 & J2 & J3 & J4 & J5 & J6 & J7 & J8 & J9).
      exists (S i), mi, di, (S j), mj, dj. repeat split; auto; try lia.
      intros [|k'] x Hk Ex; [lia|]. cbn [nth_error] in Ex. apply (J9 k'); auto. lia.
Qed.

(** ** Closed loop, one superpixel *)
Section Loop.
  Variable aim : Qc.
  Hypothesis aim_nz : aim <> 0%Qc.
  Variable r : Z -> Qc.

  Fixpoint spl (it n : nat) (s : sp) : sp :=
    match n with
    | O => s
    | S n' => let s' := spl it n' s in advance (it + n') aim s' (r (sp_cur s'))
    end.
  Lemma spl_plus : forall it a b s, spl it (a + b) s = spl (it + a) b (spl it a s).
  Proof.
    intros it a. induction b as [|b IH]; intros s; [now rewrite Nat.add_0_r|].
    rewrite Nat.add_succ_r. cbn [spl]. rewrite IH. now rewrite Nat.add_assoc.
  Qed.
  Lemma spl_ok : forall it n s, sp_ok s -> sp_ok (spl it n s).
  Proof. intros it n s H. induction n; cbn [spl]; auto. now apply advance_ok. Qed.
  Lemma spl_masked : forall it n s, sp_masked (spl it n s) = sp_masked s.
  Proof. intros it n s. induction n; cbn [spl]; auto. now rewrite advance_masked. Qed.
  Lemma spl_finished : forall it n s, sp_stage s = FINISH -> sp_stage (spl it n s) = FINISH /\ sp_cur (spl it n s) = sp_cur s.
  Proof.
    intros it n s H. induction n as [|n [I1 I2]]; cbn [spl]; auto.
    destruct (advance_finished (it + n) aim (spl it n s) (r (sp_cur (spl it n s))) I1) as [A B]. split; auto. congruence.
  Qed.

  (** No DAC gives exactly the aim, and no two DACs one step apart lie at exactly the same distance on
      either side of it (the matcher moving from the one to the other and back). *)
  Definition generic : Prop :=
    (forall x, dac_ok x -> r x <> aim) /\
    (forall x k, In k [1; 5; 10] -> dac_ok x -> dac_ok (x + k) -> (aim < r x)%Qc -> (r (x + k) < aim)%Qc ->
       (r x + r (x + k) <> aim + aim)%Qc).
  Hypothesis gen : generic.

  Definition rem (x : Z) : Z := if direction_of aim (r x) =? 1 then 255 - x else x - 10.

  Lemma rem_up : forall x, direction_of aim (r x) = 1 -> rem x = 255 - x.
  Proof. intros x E. unfold rem. now rewrite E. Qed.
  Lemma rem_down : forall x, direction_of aim (r x) = -1 -> rem x = x - 10.
  Proof. intros x E. unfold rem. now rewrite E. Qed.

  (** One call on an unfinished, unmasked superpixel. *)
  Lemma call_cases : forall it s, sp_ok s -> sp_masked s = false -> sp_stage s <> FINISH ->
    let s' := advance it aim s (r (sp_cur s)) in
    let x := sp_cur s + step_size (sp_stage s) * direction_of aim (r (sp_cur s)) in
    (qltb (if (it =? 0)%nat then distance_of aim (r (sp_cur s)) else sp_pdist s) (distance_of aim (r (sp_cur s))) = true /\
       sp_cur s' = sp_prev s /\ sp_stage s' = sp_stage s + 1) \/
    (qltb (if (it =? 0)%nat then distance_of aim (r (sp_cur s)) else sp_pdist s) (distance_of aim (r (sp_cur s))) = false /\
       ~ dac_ok x /\ sp_cur s' = 255 /\ sp_stage s' = FINISH) \/
    (qltb (if (it =? 0)%nat then distance_of aim (r (sp_cur s)) else sp_pdist s) (distance_of aim (r (sp_cur s))) = false /\
       dac_ok x /\ sp_cur s' = x /\ sp_stage s' = sp_stage s).
  Proof.
    intros it s OK M NF s' x. unfold s'. rewrite advance_cur, advance_stage. unfold next_dac.
    destruct (Z.eqb_spec (sp_stage s) FINISH); [congruence|]. rewrite M. fold x.
    destruct (qltb _ _) eqn:C; [left; auto|right]. unfold dac_ok.
    destruct (Z.ltb_spec 255 x); [left; cbn; repeat split; auto; lia|].
    destruct (Z.ltb_spec x 10); [left; cbn; repeat split; auto; lia|]. right. cbn. repeat split; auto; lia.
  Qed.

  Lemma step_size_in : forall st, 0 <= st <= 3 -> st <> FINISH -> In (step_size st) [1; 5; 10].
  Proof.
    intros st H N. unfold_consts. assert (st = 0 \/ st = 1 \/ st = 2) as [->|[->| ->]] by lia; cbn; auto.
  Qed.

  Lemma dir_nz : forall x, dac_ok x -> (direction_of aim (r x) = 1 /\ (aim < r x)%Qc) \/ (direction_of aim (r x) = -1 /\ (r x < aim)%Qc).
  Proof.
    intros x H. destruct (direction_cases aim (r x)) as [A|[A|[_ A]]]; auto. exfalso. apply (proj1 gen x H A).
  Qed.

  (** A move whose end points back: the stage ends within the next two calls. *)
  Lemma flip_ends : forall it s0 s1, sp_ok s1 -> sp_masked s1 = false -> sp_stage s1 <> FINISH -> dac_ok s0 -> it <> 0%nat ->
    sp_cur s1 = s0 + step_size (sp_stage s1) * direction_of aim (r s0) -> sp_pdist s1 = distance_of aim (r s0) ->
    direction_of aim (r (sp_cur s1)) <> direction_of aim (r s0) ->
    exists c, (1 <= c <= 2)%nat /\ sp_stage s1 < sp_stage (spl it c s1).
  Proof.
    intros it x0 s1 OK M NF Hx Hit E PD DF.
    pose proof (step_size_in (sp_stage s1) (proj2 (proj2 OK)) NF) as KS. set (k := step_size (sp_stage s1)) in *.
    assert (dac_ok (sp_cur s1)) as H1 by apply OK. set (x1 := sp_cur s1) in *.
    assert (spl it 1 s1 = advance it aim s1 (r x1)) as SP1 by (cbn [spl]; now rewrite Nat.add_0_r).
    destruct (call_cases it s1 OK M NF) as [(C & E1 & E2)|[(C & X & E1 & E2)|(C & X & E1 & E2)]].
    - exists 1%nat. split; [lia|]. rewrite SP1. fold x1 in E2. lia.
    - exists 1%nat. split; [lia|]. rewrite SP1. fold x1 in E2. rewrite E2. unfold_consts. destruct OK as (_ & _ & OK3). lia.
    - fold x1 k in C, X, E1, E2. set (s2 := advance it aim s1 (r x1)) in *.
      replace (it =? 0)%nat with false in C by (symmetry; now apply Nat.eqb_neq). rewrite PD in C.
      assert (sp_cur s2 = x0 /\ (distance_of aim (r x1) < distance_of aim (r x0))%Qc) as [BACK LT].
      { assert (distance_of aim (r x1) <> distance_of aim (r x0) /\ x1 + k * direction_of aim (r x1) = x0) as [NE B].
        { destruct (dir_nz x0 Hx) as [[A1 A2]|[A1 A2]], (dir_nz x1 H1) as [[B1 B2]|[B1 B2]]; try congruence;
            rewrite A1 in E; rewrite B1; (split; [|lia]); intros TIE.
          - symmetry in TIE. apply distance_tie in TIE; auto. assert (x1 = x0 + k) as EX by lia.
            apply (proj2 gen x0 k); auto; rewrite <- EX; auto.
          - apply distance_tie in TIE; auto. assert (x0 = x1 + k) as EX by lia.
            apply (proj2 gen x1 k); auto; rewrite <- EX; auto. }
        split; [congruence|]. destruct (qltb_spec (distance_of aim (r x0)) (distance_of aim (r x1))); [discriminate|]. apply Qcnot_lt_le in n. destruct (Qcle_lt_or_eq _ _ n); [auto|congruence]. }
      exists 2%nat. split; [lia|]. change 2%nat with (1 + 1)%nat. rewrite spl_plus, SP1. cbn [spl]. rewrite Nat.add_0_r.
      assert (sp_ok s2) as OK2 by now apply advance_ok.
      assert (sp_masked s2 = false) as M2 by (unfold s2; now rewrite advance_masked).
      assert (sp_stage s2 <> FINISH) as NF2 by congruence.
      assert (sp_pdist s2 = distance_of aim (r x1)) as PD2 by (unfold s2; now rewrite advance_pdist).
      destruct (call_cases (it + 1) s2 OK2 M2 NF2) as [(C2 & G1 & G2)|Q]; [rewrite G2; lia|].
      exfalso. assert (qltb (distance_of aim (r x1)) (distance_of aim (r x0)) = false) as C2.
      { replace (it + 1 =? 0)%nat with false in Q by (symmetry; apply Nat.eqb_neq; lia). rewrite PD2, BACK in Q. tauto. }
      destruct (qltb_spec (distance_of aim (r x1)) (distance_of aim (r x0))); [discriminate|contradiction].
  Qed.

  Lemma stage_ends : forall n it s, sp_ok s -> sp_masked s = false -> sp_stage s <> FINISH -> (Z.to_nat (rem (sp_cur s)) <= n)%nat ->
    exists c, (1 <= c <= n + 3)%nat /\ sp_stage s < sp_stage (spl it c s).
  Proof.
    induction n as [n IH] using lt_wf_ind; intros it s OK M NF R.
    pose proof (step_size_in (sp_stage s) (proj2 (proj2 OK)) NF) as KS. 
    assert (step_size (sp_stage s) >= 1) as K1 by (destruct KS as [<-|[<-|[<-|[]]]]; lia).
    assert (dac_ok (sp_cur s)) as H0 by apply OK.
    assert (spl it 1 s = advance it aim s (r (sp_cur s))) as SP1 by (cbn [spl]; now rewrite Nat.add_0_r).
    destruct (call_cases it s OK M NF) as [(C & E1 & E2)|[(C & X & E1 & E2)|(C & X & E1 & E2)]].
    - exists 1%nat. split; [lia|]. rewrite SP1. lia.
    - exists 1%nat. split; [lia|]. rewrite SP1, E2. unfold_consts. destruct OK as (_ & _ & OK3). lia.
    - set (s1 := advance it aim s (r (sp_cur s))) in *.
      assert (sp_ok s1) as OK1 by now apply advance_ok.
      assert (sp_masked s1 = false) as M1 by (unfold s1; now rewrite advance_masked).
      assert (sp_pdist s1 = distance_of aim (r (sp_cur s))) as PD1 by (unfold s1; now rewrite advance_pdist).
      assert (sp_stage s1 <> FINISH) as NF1 by congruence.
      assert (dac_ok (sp_cur s1)) as H1 by apply OK1.
      destruct (Z.eq_dec (direction_of aim (r (sp_cur s1))) (direction_of aim (r (sp_cur s)))) as [DE|DE].
      + destruct (Nat.eq_dec n 0) as [->|N0].
        { exfalso. unfold dac_ok in H0, H1. destruct (dir_nz _ H0) as [[A1 _]|[A1 _]];
            [rewrite (rem_up _ A1) in R|rewrite (rem_down _ A1) in R]; rewrite A1 in E1; lia. }
        destruct (IH (n - 1)%nat ltac:(lia) (S it) s1 OK1 M1 NF1) as (c & C1 & C2).
        { unfold dac_ok in H0, H1. destruct (dir_nz _ H0) as [[A1 _]|[A1 _]];
            [rewrite (rem_up _ A1) in R; rewrite rem_up by congruence|rewrite (rem_down _ A1) in R; rewrite rem_down by congruence];
            rewrite A1 in E1; lia. }
        exists (1 + c)%nat. split; [lia|]. rewrite spl_plus, SP1, Nat.add_1_r. lia.
      + destruct (flip_ends (S it) (sp_cur s) s1) as (c & C1 & C2); auto; [congruence|].
        exists (1 + c)%nat. split; [lia|]. rewrite spl_plus, SP1, Nat.add_1_r. lia.
  Qed.

  Lemma rem_bound : forall x, dac_ok x -> (Z.to_nat (rem x) <= 245)%nat.
  Proof. intros x H. unfold rem, dac_ok in *. destruct (_ =? _); lia. Qed.

  Lemma pass_ends : forall j it s, sp_ok s -> 3 - sp_stage s <= Z.of_nat j ->
    exists c, (c <= 248 * j)%nat /\ sp_stage (spl it c s) = FINISH.
  Proof.
    induction j as [|j IH]; intros it s OK J.
    - exists 0%nat. split; [lia|]. cbn. destruct OK as (_ & _ & S). unfold_consts. lia.
    - destruct (Z.eq_dec (sp_stage s) FINISH) as [F|NF]; [exists 0%nat; split; [lia|auto]|].
      destruct (sp_masked s) eqn:M.
      + exists 1%nat. split; [lia|]. cbn [spl]. now apply advance_mask.
      + destruct (stage_ends 245 it s OK M NF) as (c & C1 & C2); [apply rem_bound; apply OK|].
        destruct (IH (it + c)%nat (spl it c s)) as (c' & D1 & D2); [now apply spl_ok|lia|].
        exists (c + c')%nat. split; [lia|]. rewrite spl_plus. exact D2.
  Qed.
End Loop.
