(** The amplitude matcher in a closed loop with a camera. *)
From Coq Require Import List ZArith QArith Qcanon Bool Arith Lia.
From Verif.Base Require Import Py Num.
From Verif.Matcher Require Import Model Proofs.
Import ListNotations.
Local Open Scope list_scope.
Local Open Scope Z_scope.

(** The average amplitude of superpixel [k] is a function of its DAC alone. *)
Definition responds (cam : list Z -> list (list Qc)) (resp : nat -> Z -> Qc) : Prop :=
  forall dacs k, (k < List.length dacs)%nat -> average_of (cam dacs) k = resp k (nth k dacs 0).

Section Camera.
  Variable cam : list Z -> list (list Qc).
  Variable resp : nat -> Z -> Qc.
  Hypothesis cam_resp : responds cam resp.

  Lemma cam_at : forall m i s, nth_error (m_sps m) i = Some s -> average_of (cam (map sp_cur (m_sps m))) i = resp i (sp_cur s).
  Proof.
    intros m i s E. rewrite cam_resp.
    - f_equal. apply nth_error_nth with (d := 0). now rewrite nth_error_map, E.
    - rewrite map_length. apply nth_error_Some. congruence.
  Qed.

  Lemma reset_curs : forall m, map sp_cur (m_sps (reset m)) = map sp_cur (m_sps m).
  Proof. intros m. unfold reset. destruct (_ =? _); auto. cbn [m_sps]. rewrite map_map. reflexivity. Qed.
  Lemma loop_reset : forall n m, closed_loop cam (S n) m = closed_loop cam (S n) (reset m).
  Proof.
    induction n as [|n IH]; intros m.
    - cbn [closed_loop]. now rewrite process_reset, reset_curs.
    - cbn [closed_loop] in *. now rewrite IH.
  Qed.
  Lemma loop_plus : forall a b m, closed_loop cam (a + b) m = closed_loop cam b (closed_loop cam a m).
  Proof.
    intros a. induction b as [|b IH]; intros m; [now rewrite Nat.add_0_r|]. rewrite Nat.add_succ_r. cbn [closed_loop]. now rewrite IH.
  Qed.
  Lemma loop_ok : forall n m, mat_ok m -> mat_ok (closed_loop cam n m).
  Proof. induction n; intros m H; cbn [closed_loop]; auto. apply process_ok. auto. Qed.
  Lemma loop_finish : forall n m, m_global m = G_FINISH -> closed_loop cam n m = m.
  Proof. induction n; intros m H; cbn [closed_loop]; auto. rewrite IHn by auto. now rewrite process_finish. Qed.

  (** Within a pass every superpixel evolves on its own. *)
  Lemma pass_trace : forall n m, quiet m -> (forall j, (j < n)%nat -> m_global (closed_loop cam j m) = m_global m) ->
    let mn := closed_loop cam n m in
    m_aim mn = m_aim m /\ m_iter mn = (m_iter m + n)%nat /\ List.length (m_sps mn) = List.length (m_sps m) /\
    m_global mn = (if (0 <? n)%nat && all_finished mn then m_global m + 1 else m_global m) /\
    forall i s, nth_error (m_sps m) i = Some s -> nth_error (m_sps mn) i = Some (spl (m_aim m) (resp i) (m_iter m) n s).
  Proof.
    induction n as [|n IH]; intros m Q H mn; subst mn.
    - cbn. repeat split; auto.
    - destruct IH with (m := m) as (A & I & L & G & N); auto.
      set (mn := closed_loop cam n m) in *.
      assert (m_global mn = m_global m) as GE by (apply H; lia).
      assert (quiet mn) as Qn by (unfold quiet; now rewrite GE).
      destruct (process_quiet mn (cam (map sp_cur (m_sps mn))) Qn) as (_ & _ & A' & I' & G' & L' & N').
      cbn [closed_loop]. fold mn. split; [congruence|]. split; [lia|]. split; [congruence|]. split.
      + rewrite G', GE. reflexivity.
      + intros i s E. specialize (N i s E). rewrite (N' i _ N). rewrite (cam_at _ _ _ N). cbn [spl]. now rewrite A, I.
  Qed.

  (** A pass in which every superpixel would finish ends. *)
  Lemma pass_finishes : forall N m, quiet m -> (0 < N)%nat ->
    (forall i s, nth_error (m_sps m) i = Some s -> exists c, (c <= N)%nat /\ sp_stage (spl (m_aim m) (resp i) (m_iter m) c s) = FINISH) ->
    exists j, (1 <= j <= N)%nat /\ m_global (closed_loop cam j m) = m_global m + 1 /\
      m_aim (closed_loop cam j m) = m_aim m.
  Proof.
    intros N m Q NP F.
    assert (forall n, (exists j, (1 <= j <= n)%nat /\ m_global (closed_loop cam j m) = m_global m + 1 /\ m_aim (closed_loop cam j m) = m_aim m) \/
                      (forall j, (j <= n)%nat -> m_global (closed_loop cam j m) = m_global m)) as D.
    { induction n as [|n [(j & J1 & J2)|H]].
      - right. intros j Hj. assert (j = 0%nat) as -> by lia. reflexivity.
      - left. exists j. split; [lia|auto].
      - destruct (pass_trace (S n) m Q) as (A & I & L & G & _); [intros; apply H; lia|].
        destruct ((0 <? S n)%nat && all_finished (closed_loop cam (S n) m)) eqn:E.
        + left. exists (S n). split; [lia|auto].
        + right. intros j Hj. destruct (Nat.eq_dec j (S n)) as [->|]; [auto|apply H; lia]. }
    destruct (D N) as [X|H]; auto. exfalso.
    destruct (pass_trace N m Q) as (A & I & L & G & T); [intros; apply H; lia|].
    assert (all_finished (closed_loop cam N m) = true) as AF.
    { unfold all_finished. apply forallb_forall. intros s' Is. apply In_nth_error in Is. destruct Is as [i Ei].
      destruct (back _ _ _ _ L Ei) as [s Es]. rewrite (T i s Es) in Ei. inversion Ei; subst.
      destruct (F i s Es) as (c & C1 & C2). apply Z.eqb_eq.
      replace N with (c + (N - c))%nat by lia. rewrite spl_plus. now apply spl_finished. }
    rewrite AF, (H N) in G by lia. replace (0 <? N)%nat with true in G by (symmetry; now apply Nat.ltb_lt). cbn in G. lia.
  Qed.

  Lemma terminates : forall m, mat_ok m -> m_global m = G_FIRST_PASS -> m_aim m <> 0%Qc ->
    (forall i, (i < List.length (m_sps m))%nat -> generic (m_aim m) (resp i)) ->
    forall n, (992 <= n)%nat -> m_global (closed_loop cam n m) = G_FINISH.
  Proof.
    intros m OK G AZ GEN n Hn.
    destruct (pass_finishes 744 m) as (j1 & J1 & G1 & A1); [now left|lia| |].
    { intros i s E. destruct (pass_ends (m_aim m) AZ (resp i) (GEN i ltac:(apply nth_error_Some; congruence)) 3 (m_iter m) s) as (c & C1 & C2).
      - destruct OK as [_ F]. rewrite Forall_nth in F. eauto.
      - destruct OK as [_ F]. rewrite Forall_nth in F. destruct (F i s E) as (_ & _ & X). lia.
      - exists c. split; [lia|auto]. }
    set (m1 := closed_loop cam j1 m) in *.
    assert (mat_ok m1) as OK1 by (apply loop_ok; auto).
    assert (m_global m1 = G_RESET) as GR by (rewrite G1, G; reflexivity).
    assert (m_global (reset m1) = G_SECOND_PASS) as G2 by (unfold reset; rewrite GR; reflexivity).
    assert (m_aim (reset m1) = m_aim m) as A2 by (unfold reset; destruct (_ =? _); auto).
    assert (List.length (m_sps m1) = List.length (m_sps m)) as L1.
    { clear - cam_resp OK. unfold m1. induction j1 as [|n IH]; auto. cbn [closed_loop]. rewrite process_reset.
      pose proof (loop_ok n m OK) as O. destruct (reset_cases _ O) as [Q|E].
      - destruct (process_quiet (reset (closed_loop cam n m)) (cam (map sp_cur (m_sps (closed_loop cam n m)))) Q) as (_ & _ & _ & _ & _ & L & _).
        rewrite L, reset_length. exact IH.
      - rewrite process_finish by auto. cbn [fst]. now rewrite reset_length. }
    destruct (pass_finishes 248 (reset m1)) as (j2 & J2 & G3 & A3); [now right|lia| |].
    { intros i s E. destruct (pass_ends (m_aim (reset m1)) ltac:(congruence) (resp i) ) with (j := 1%nat) (it := m_iter (reset m1)) (s := s) as (c & C1 & C2).
      - rewrite A2. apply GEN. rewrite <- L1, <- reset_length. apply nth_error_Some. congruence.
      - pose proof (reset_ok m1 OK1) as [_ F]. rewrite Forall_nth in F. eauto.
      - assert (sp_stage s = STEP1) as ->; [|unfold STEP1; lia].
        unfold reset in E. rewrite GR in E. cbn [Z.eqb G_RESET Pos.eqb m_sps] in E. rewrite nth_error_map in E.
        destruct (nth_error (m_sps m1) i); [|discriminate]. inversion E. reflexivity.
      - exists c. split; [lia|auto]. }
    replace n with (j1 + (j2 + (n - j1 - j2)))%nat by lia. rewrite loop_plus. fold m1. rewrite loop_plus.
    destruct j2 as [|j2]; [lia|]. rewrite loop_reset. rewrite loop_finish; rewrite G3, G2; reflexivity.
  Qed.

  (** ** Best DAC *)
  Section Best.
    Variable aim : Qc.
    Variable r : Z -> Qc.
    Notation D := (fun x => distance_of aim (r x)).
    Definition tried (n : nat) (s : sp) : list Z := map (fun j => sp_cur (spl aim r 0 j s)) (seq 0 n).
    Lemma tried_S : forall n s, tried (S n) s = tried n s ++ [sp_cur (spl aim r 0 n s)].
    Proof. intros. unfold tried. rewrite seq_S, map_app. reflexivity. Qed.

    Lemma best_inv : forall n s, sp_ok s -> sp_masked s = false -> sp_stage s <> FINISH ->
      let sn := spl aim r 0 n s in
      (sp_stage sn <> FINISH /\ (0 < n)%nat ->
         In (sp_prev sn) (tried n s) /\ sp_pdist sn = D (sp_prev sn) /\
         ((forall w, In w (tried n s) -> (D (sp_prev sn) <= D w)%Qc) \/
          In (sp_cur sn) (tried n s) /\ (forall w, In w (tried n s) -> (D (sp_cur sn) <= D w)%Qc))).
    Proof.
      induction n as [|n IH]; intros s OK M NF sn; subst sn; [intros [_ X]; lia|]. intros [NF' _].
      cbn [spl] in *. rewrite Nat.add_0_l in *. set (s' := spl aim r 0 n s) in *.
      assert (sp_stage s' <> FINISH) as NFs.
      { intros X. apply NF'. now apply advance_finished. }
      assert (sp_ok s') as OK' by (apply spl_ok; auto).
      assert (sp_masked s' = false) as M' by (unfold s'; now rewrite spl_masked).
      rewrite advance_prev, advance_pdist, tried_S. fold s'.
      split; [apply in_or_app; right; now left|]. split; auto.
      destruct n as [|n].
      - left. intros w I. cbn in I. destruct I as [<-|[]]. apply Qcle_refl.
      - destruct (IH s OK M NF) as (P & PD & B); [split; auto; lia|]. fold s' in P, PD, B.
        destruct (call_cases aim r (S n) s' OK' M' NFs) as [(C & E1 & E2)|[(C & X & E1 & E2)|(C & X & E1 & E2)]]; [|congruence|];
          cbn [Nat.eqb] in C; rewrite PD in C.
        + right. rewrite E1. destruct (qltb_spec (D (sp_prev s')) (D (sp_cur s'))) as [LT|]; [|discriminate].
          split; [apply in_or_app; now left|].
          destruct B as [B|[_ B]]; [|exfalso; specialize (B _ P); cbn beta in *; qlra].
          intros w I. apply in_app_or in I. destruct I as [I|[<-|[]]]; [auto|]. cbn beta in *. qlra.
        + left. destruct (qltb_spec (D (sp_prev s')) (D (sp_cur s'))) as [|GE]; [discriminate|].
          intros w I. apply in_app_or in I. destruct I as [I|[<-|[]]]; [|apply Qcle_refl].
          destruct B as [B|[_ B]]; [specialize (B w I)|apply B; auto]. cbn beta in *. qlra.
    Qed.

    Lemma best_final : forall n s, sp_ok s -> sp_masked s = false -> sp_stage s <> FINISH ->
      sp_stage (spl aim r 0 n s) <> FINISH -> sp_stage (spl aim r 0 (S n) s) = FINISH ->
      let d := sp_cur (spl aim r 0 (S n) s) in
      let x := sp_cur (spl aim r 0 n s) in
      (In d (tried (S n) s) /\ forall w, In w (tried (S n) s) -> (D d <= D w)%Qc) \/
      (d = 255 /\ exists k, In k [10; 5; 1] /\ ~ dac_ok (x + k * direction_of aim (r x))).
    Proof.
      intros n s OK M NF NFn F d x. unfold d. cbn [spl] in F |- *. rewrite Nat.add_0_l in *. unfold x in *. clear d x.
      set (s' := spl aim r 0 n s) in *.
      assert (sp_ok s') as OK' by (apply spl_ok; auto).
      assert (sp_masked s' = false) as M' by (unfold s'; now rewrite spl_masked).
      destruct (call_cases aim r n s' OK' M' NFn) as [(C & E1 & E2)|[(C & X & E1 & E2)|(C & X & E1 & E2)]]; [| |congruence].
      - left. destruct n as [|n]; [cbn [Nat.eqb] in C; destruct (qltb_spec (D (sp_cur s')) (D (sp_cur s'))) as [L|]; [exfalso; cbn beta in L; qlra|discriminate]|].
        cbn [Nat.eqb] in C. destruct (best_inv (S n) s OK M NF) as (P & PD & B); [split; auto; lia|]. fold s' in P, PD, B.
        rewrite PD in C. destruct (qltb_spec (D (sp_prev s')) (D (sp_cur s'))) as [LT|]; [|discriminate].
        rewrite E1, tried_S. fold s'. split; [apply in_or_app; now left|].
        destruct B as [B|[_ B]]; [|exfalso; specialize (B _ P); cbn beta in *; qlra].
        intros w I. apply in_app_or in I. destruct I as [I|[<-|[]]]; [auto|]. cbn beta in *. qlra.
      - right. split; auto. exists (step_size (sp_stage s')). split; auto.
        destruct (step_size_in (sp_stage s')) as [<-|[<-|[<-|[]]]]; cbn; auto. apply OK'.
    Qed.
  End Best.

  Definition pass_start (m : matcher) : Prop := (m_global m = G_FIRST_PASS /\ m_iter m = 0%nat) \/ m_global m = G_RESET.
  Definition cur_at (m : matcher) (i : nat) : Z := nth i (map sp_cur (m_sps m)) 0.

  Lemma cur_at_nth : forall m i s, nth_error (m_sps m) i = Some s -> cur_at m i = sp_cur s.
  Proof. intros m i s E. unfold cur_at. apply nth_error_nth. now rewrite nth_error_map, E. Qed.

  Lemma best_dac : forall m i n s s' s'', mat_ok m -> pass_start m ->
    (forall j, (1 <= j <= n)%nat -> quiet (closed_loop cam j m)) ->
    nth_error (m_sps m) i = Some s -> sp_masked s = false -> (m_global m = G_FIRST_PASS -> sp_stage s <> FINISH) ->
    nth_error (m_sps (closed_loop cam n m)) i = Some s' -> ((0 < n)%nat -> sp_stage s' <> FINISH) ->
    nth_error (m_sps (closed_loop cam (S n) m)) i = Some s'' -> sp_stage s'' = FINISH ->
    let tried := map (fun j => cur_at (closed_loop cam j m) i) (seq 0 (S n)) in
    (In (sp_cur s'') tried /\
       forall w, In w tried -> (distance_of (m_aim m) (resp i (sp_cur s'')) <= distance_of (m_aim m) (resp i w))%Qc) \/
    (sp_cur s'' = 255 /\ exists k, In k [10; 5; 1] /\ ~ dac_ok (sp_cur s' + k * direction_of (m_aim m) (resp i (sp_cur s')))).
  Proof.
    intros m i n s s' s'' OK PS Q E M NF E' NF' E'' F'' T.
    (* the pass seen from its reset state *)
    assert (quiet (reset m) /\ m_iter (reset m) = 0%nat /\ m_aim (reset m) = m_aim m) as (QR & IR & AR).
    { destruct PS as [[G I]|G].
      - rewrite reset_quiet by now left. repeat split; auto. now left.
      - unfold reset. rewrite G. cbn. rewrite ?G. repeat split; auto. right. cbn. now rewrite ?G. }
    assert (exists s0, nth_error (m_sps (reset m)) i = Some s0 /\ sp_cur s0 = sp_cur s /\ sp_masked s0 = false /\ sp_stage s0 <> FINISH) as (s0 & E0 & C0 & M0 & NF0).
    { destruct PS as [[G I]|G].
      - rewrite reset_quiet by now left. exists s. auto.
      - unfold reset. rewrite G. cbn [Z.eqb G_RESET Pos.eqb m_sps]. rewrite nth_error_map, E. eexists. split; [reflexivity|]. cbn. auto.
        repeat split; auto. discriminate. }
    assert (mat_ok (reset m)) as OKR by now apply reset_ok.
    assert (sp_ok s0) as OK0 by (destruct OKR as [_ F]; rewrite Forall_nth in F; eauto).
    assert (forall j, (0 < j)%nat -> closed_loop cam j m = closed_loop cam j (reset m)) as LR.
    { intros [|j] H; [lia|apply loop_reset]. }
    assert (forall j, (j <= n)%nat -> m_global (closed_loop cam j (reset m)) = m_global (reset m)) as GC.
    { induction j as [|j IH]; intros Hj; auto.
      destruct (pass_trace (S j) (reset m) QR) as (_ & _ & _ & G & _).
      { intros k Hk. clear - IH Hj Hk Q QR cam_resp LR. revert k Hk. 
        assert (forall b k, (k <= b)%nat -> (b <= n)%nat -> m_global (closed_loop cam k (reset m)) = m_global (reset m)) as X.
        { induction b as [|b IHb]; intros k Hk Hb; [assert (k = 0%nat) as -> by lia; reflexivity|].
          destruct (Nat.eq_dec k (S b)) as [->|]; [|apply IHb; lia].
          destruct (pass_trace (S b) (reset m) QR) as (_ & _ & _ & G & _); [intros; apply IHb; lia|].
          specialize (Q (S b) ltac:(lia)). rewrite LR in Q by lia. unfold quiet in *.
          destruct ((0 <? S b)%nat && all_finished _); auto. unfold_consts. lia. }
        intros k Hk. apply (X j); lia. }
      specialize (Q (S j) ltac:(lia)). rewrite LR in Q by lia. unfold quiet in *.
      destruct ((0 <? S j)%nat && all_finished _); auto. unfold_consts. lia. }
    assert (forall j, (j <= S n)%nat -> nth_error (m_sps (closed_loop cam j (reset m))) i = Some (spl (m_aim m) (resp i) 0 j s0)) as TR.
    { intros j Hj. destruct (pass_trace j (reset m) QR) as (_ & _ & _ & _ & X); [intros; apply GC; lia|].
      rewrite (X i s0 E0), AR, IR. reflexivity. }
    assert (s'' = spl (m_aim m) (resp i) 0 (S n) s0) as ES.
    { rewrite LR in E'' by lia. rewrite TR in E'' by lia. congruence. }
    assert (sp_cur s' = sp_cur (spl (m_aim m) (resp i) 0 n s0) /\ sp_stage (spl (m_aim m) (resp i) 0 n s0) <> FINISH) as [ES' NFn].
    { destruct n as [|n].
      - cbn in *. assert (s' = s) as -> by congruence. auto.
      - rewrite LR in E' by lia. rewrite TR in E' by lia. inversion E'; subst s'. split; auto. apply NF'. lia. }
    assert (T = tried (m_aim m) (resp i) (S n) s0) as ET.
    { unfold T, tried. apply map_ext_in. intros j Ij. apply in_seq in Ij. destruct j as [|j].
      - cbn. rewrite (cur_at_nth _ _ _ E). auto.
      - rewrite LR by lia. apply cur_at_nth. apply TR. lia. }
    rewrite ET, ES, ES'. apply best_final; auto. rewrite <- ES. exact F''.
  Qed.

  (** ** Loops that never end *)
  Lemma never_all : forall m i s, mat_ok m -> m_global m = G_FIRST_PASS -> nth_error (m_sps m) i = Some s ->
    (forall n, sp_stage (spl (m_aim m) (resp i) (m_iter m) n s) <> FINISH) ->
    forall n, m_global (closed_loop cam n m) = G_FIRST_PASS.
  Proof.
    intros m i s OK G E NF. induction n as [n IH] using lt_wf_ind.
    destruct (pass_trace n m) as (_ & _ & _ & GN & T); [now left|intros j Hj; rewrite G; now apply IH|].
    rewrite GN, G. destruct ((0 <? n)%nat && all_finished (closed_loop cam n m)) eqn:A; auto. exfalso.
    apply andb_true_iff in A. destruct A as [_ A]. unfold all_finished in A. rewrite forallb_forall in A.
    specialize (A _ (nth_error_In _ _ (T i s E))). apply Z.eqb_eq in A. now apply (NF n).
  Qed.

  Lemma stuck : forall aim r it n s, sp_masked s = false -> sp_stage s = STEP10 -> dac_ok (sp_cur s) -> r (sp_cur s) = aim ->
    (it = 0%nat \/ sp_pdist s = distance_of aim aim) ->
    let sn := spl aim r it n s in sp_cur sn = sp_cur s /\ sp_stage sn = STEP10 /\ (n = 0%nat \/ sp_pdist sn = distance_of aim aim).
  Proof.
    intros aim r it n s M S D R I. induction n as [|n (IH1 & IH2 & IH3)]; cbn [spl]; auto.
    rewrite advance_cur, advance_stage, advance_pdist. rewrite IH1, R.
    assert (sp_masked (spl aim r it n s) = false) as Mn by (now rewrite spl_masked).
    unfold next_dac. rewrite IH2, Mn. cbn [Z.eqb STEP10 FINISH].
    assert (direction_of aim aim = 0) as ->.
    { destruct (direction_cases aim aim) as [[_ X]|[[_ X]|[X _]]]; auto; exfalso; qlra. }
    assert (qltb (if (it + n =? 0)%nat then distance_of aim aim else sp_pdist (spl aim r it n s)) (distance_of aim aim) = false) as ->.
    { assert ((if (it + n =? 0)%nat then distance_of aim aim else sp_pdist (spl aim r it n s)) = distance_of aim aim) as ->.
      { destruct (Nat.eqb_spec (it + n) 0); auto. destruct IH3 as [->|]; auto. cbn. destruct I; [lia|auto]. }
      destruct (qltb_spec (distance_of aim aim) (distance_of aim aim)); auto. exfalso. qlra. }
    rewrite Z.mul_0_r, Z.add_0_r, IH1. unfold dac_ok in D.
    destruct (Z.ltb_spec 255 (sp_cur s)); [lia|]. destruct (Z.ltb_spec (sp_cur s) 10); [lia|]. cbn. auto.
  Qed.

  (** Two DACs one step of 10 apart, at the same distance on either side of the aim. *)
  Lemma oscillate : forall aim r n s, sp_masked s = false -> sp_stage s = STEP10 ->
    dac_ok (sp_cur s) -> dac_ok (sp_cur s + 10) -> (aim < r (sp_cur s))%Qc -> (r (sp_cur s) + r (sp_cur s + 10)%Z = aim + aim)%Qc ->
    let sn := spl aim r 0 n s in
    (sp_cur sn = sp_cur s \/ sp_cur sn = sp_cur s + 10) /\ sp_stage sn = STEP10 /\
    (n = 0%nat \/ sp_pdist sn = distance_of aim (r (sp_cur s))).
  Proof.
    intros aim r n s M S D1 D2 U T.
    assert (r (sp_cur s + 10)%Z = aim + aim - r (sp_cur s))%Qc as RE by (rewrite <- T; ring).
    assert (distance_of aim (r (sp_cur s + 10)%Z) = distance_of aim (r (sp_cur s))) as DE.
    { rewrite RE. unfold distance_of. replace (aim + aim - r (sp_cur s) - aim)%Qc with (- (r (sp_cur s) - aim))%Qc by ring.
      unfold Qcdiv. ring. }
    assert (direction_of aim (r (sp_cur s)) = 1) as DU.
    { destruct (direction_cases aim (r (sp_cur s))) as [[X _]|[[_ X]|[_ X]]]; auto; exfalso; [|rewrite X in U]; qlra. }
    assert (direction_of aim (r (sp_cur s + 10)%Z) = -1) as DD.
    { rewrite RE. destruct (direction_cases aim (aim + aim - r (sp_cur s))%Qc) as [[_ X]|[[X _]|[_ X]]]; auto; exfalso.
      - qlra.
      - assert (aim + aim - r (sp_cur s) - aim = 0)%Qc as Y by (rewrite X; ring). qlra. }
    induction n as [|n (IH1 & IH2 & IH3)]; cbn [spl]; auto.
    rewrite advance_cur, advance_stage, advance_pdist.
    assert (sp_masked (spl aim r 0 n s) = false) as Mn by (now rewrite spl_masked).
    set (sn := spl aim r 0 n s) in *.
    assert (distance_of aim (r (sp_cur sn)) = distance_of aim (r (sp_cur s))) as DN by (destruct IH1 as [-> | ->]; auto).
    rewrite DN. unfold next_dac. rewrite IH2, Mn. cbn [Z.eqb STEP10 FINISH].
    assert (qltb (if (0 + n =? 0)%nat then distance_of aim (r (sp_cur s)) else sp_pdist sn) (distance_of aim (r (sp_cur s))) = false) as ->.
    { assert ((if (0 + n =? 0)%nat then distance_of aim (r (sp_cur s)) else sp_pdist sn) = distance_of aim (r (sp_cur s))) as ->.
      { destruct (Nat.eqb_spec (0 + n) 0); auto. destruct IH3 as [->|]; auto. lia. }
      destruct (qltb_spec (distance_of aim (r (sp_cur s))) (distance_of aim (r (sp_cur s)))); auto. exfalso. qlra. }
    change (step_size STEP10) with 10. unfold dac_ok in *.
    destruct IH1 as [EC|EC]; rewrite EC; [rewrite DU|rewrite DD];
      match goal with |- context [255 <? ?d] => destruct (Z.ltb_spec 255 d); [lia|]; destruct (Z.ltb_spec d 10); [lia|] end; cbn; 
      repeat split; auto; lia.
  Qed.
End Camera.
