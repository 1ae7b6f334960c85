(** Properties C36-C40: amplitude matching. *)
From Coq Require Import List ZArith QArith Qcanon Bool Arith Lia.
From Verif.Base Require Import Py Num.
From Verif.Matcher Require Import Model Spec Proofs Proofs2 Proofs3.
Import ListNotations.
Local Open Scope list_scope.
Local Open Scope Z_scope.

Ltac vmr := repeat match goal with |- _ /\ _ => split; [vm_compute; reflexivity|] end; vm_compute; reflexivity.

(** A camera of one superpixel with response [r]. *)
Definition one_sp (r : Z -> Qc) (dacs : list Z) : list (list Qc) := let a := r (nth 0 dacs 0) in [[a; a; a; a]].
(** A falling response: 1000 - 4 DAC. *)
Definition falling (x : Z) : Qc := qz (1000 - 4 * x).

(** ** C36. Whatever is measured, every DAC returned is in [10, 255]. *)
Theorem C36_dacs_in_range : forall n_pixels aim starting_dacs bad_hv measurements k m dacs finished,
  (forall d, In d (starting (n_pixels / 4) starting_dacs) -> 10 <= d <= 255) ->
  (n_pixels / 4 <= List.length (starting (n_pixels / 4) starting_dacs))%nat ->
  nth_error (run (new_matcher n_pixels aim starting_dacs bad_hv) measurements) k = Some (m, (dacs, finished)) ->
  Forall (fun d => 10 <= d <= 255) dacs.
Proof. exact c36. Qed.
Print Assumptions C36_dacs_in_range.

(** The default starting DACs qualify. *)
Theorem C36_default_start : forall n_pixels,
  (forall d, In d (starting (n_pixels / 4) None) -> 10 <= d <= 255) /\
  (n_pixels / 4 <= List.length (starting (n_pixels / 4) None))%nat.
Proof.
  intros np. cbn [starting]. split.
  - intros d I. apply repeat_spec in I. lia.
  - rewrite repeat_length. lia.
Qed.
Print Assumptions C36_default_start.

Example C36_example :
  map (fun x => fst (snd x)) (run (new_matcher 4 (qz 201) None None)
     [[[qz 300; qz 300; qz 300; qz 300]]; [[qz 280; qz 280; qz 280; qz 280]]; [[qz 100; qz 100; qz 100; qz 100]]])
  = [[110]; [120]; [110]].
Proof. vmr. Qed.

(** ** C37. *)
(** A superpixel with bad HV is at 255 after every call. *)
Theorem C37_masked_at_255 : forall n_pixels aim starting_dacs bad_hv measurements k m dacs finished i,
  (forall d, In d (starting (n_pixels / 4) starting_dacs) -> 10 <= d <= 255) ->
  (n_pixels / 4 <= List.length (starting (n_pixels / 4) starting_dacs))%nat ->
  nth_error (run (new_matcher n_pixels aim starting_dacs bad_hv) measurements) k = Some (m, (dacs, finished)) ->
  (i < n_pixels / 4)%nat -> nth i (mask_of n_pixels bad_hv) false = true ->
  nth_error dacs i = Some 255.
Proof.
  intros np aim dacs bad ms k m d b i H L E Hi M.
  pose proof (new_ok np aim dacs bad H L) as OK.
  pose proof (run_masked _ _ _ _ _ OK (new_masked_ok np aim dacs bad) ltac:(discriminate) E) as MK.
  rewrite (run_dacs _ _ _ _ _ _ OK E).
  (* the mask of superpixel i never changes *)
  assert (exists s, nth_error (m_sps m) i = Some s /\ sp_masked s = true) as (s & Es & Ms).
  { refine (proj2 (run_states (fun m => mat_ok m /\ exists s, nth_error (m_sps m) i = Some s /\ sp_masked s = true) _ _ _ _ _ _ _ E)).
    - clear. intros m a [OK (s & Es & Ms)]. split; [now apply process_ok|]. rewrite process_reset.
      assert (exists s, nth_error (m_sps (reset m)) i = Some s /\ sp_masked s = true) as (s1 & E1 & M1).
      { unfold reset. destruct (_ =? _); eauto. cbn [m_sps]. rewrite nth_error_map, Es. eexists. split; [reflexivity|auto]. }
      destruct (reset_cases m OK) as [Q|G].
      + destruct (process_quiet (reset m) a Q) as (_ & _ & _ & _ & _ & _ & N). rewrite (N i s1 E1).
        eexists. split; [reflexivity|]. now rewrite advance_masked.
      + rewrite process_finish by auto. cbn [fst]. eauto.
    - split; auto. unfold new_matcher. cbn [m_sps]. rewrite nth_error_map.
      rewrite nth_error_nth' with (d := 0%nat) by (rewrite seq_length; auto). rewrite seq_nth by auto.
      eexists. split; [reflexivity|]. exact M. }
  rewrite nth_error_map, Es. cbn [option_map]. f_equal. unfold masked_255 in MK. rewrite Forall_nth in MK. now apply (MK i s Es).
Qed.
Print Assumptions C37_masked_at_255.

(** Within a pass (a call that does not start or follow one) stages never go back and a finished
    superpixel keeps its DAC. *)
Theorem C37_within_a_pass : forall m amplitude i s, mat_ok m -> m_global m <> G_RESET ->
  nth_error (m_sps m) i = Some s ->
  exists s', nth_error (m_sps (fst (process m amplitude))) i = Some s' /\
    sp_stage s <= sp_stage s' /\ (sp_stage s = FINISH -> sp_cur s' = sp_cur s /\ sp_stage s' = FINISH).
Proof.
  intros m a i s OK NR E. destruct (Z.eq_dec (m_global m) G_FINISH) as [G|G].
  - rewrite process_finish by auto. exists s. cbn. repeat split; auto. lia.
  - assert (quiet m) as Q. { destruct OK as [R _]. unfold quiet. unfold_consts. lia. }
    destruct (process_quiet m a Q) as (_ & _ & _ & _ & _ & _ & N). rewrite (N i s E). eexists. split; [reflexivity|].
    destruct OK as [_ F]. rewrite Forall_nth in F. split; [apply advance_mono; eauto|].
    intros X. destruct (advance_finished (m_iter m) (m_aim m) s (average_of a i) X) as [A B]. auto.
Qed.
Print Assumptions C37_within_a_pass.

(** The hypothesis holds in every state of every history. *)
Theorem C37_histories_ok : forall n_pixels aim starting_dacs bad_hv measurements k m r,
  (forall d, In d (starting (n_pixels / 4) starting_dacs) -> 10 <= d <= 255) ->
  (n_pixels / 4 <= List.length (starting (n_pixels / 4) starting_dacs))%nat ->
  nth_error (run (new_matcher n_pixels aim starting_dacs bad_hv) measurements) k = Some (m, r) -> mat_ok m.
Proof.
  intros np aim dacs bad ms k m r H L E. eapply (run_states mat_ok process_ok); [|exact E]. now apply new_ok.
Qed.
Print Assumptions C37_histories_ok.

(** Completion is reported only after two complete passes, and then for ever with the same DACs. *)
Theorem C37_two_passes : forall n_pixels aim starting_dacs bad_hv measurements k m dacs,
  nth_error (run (new_matcher n_pixels aim starting_dacs bad_hv) measurements) k = Some (m, (dacs, true)) ->
  exists i mi di j mj dj, (i < j < k)%nat /\
    nth_error (run (new_matcher n_pixels aim starting_dacs bad_hv) measurements) i = Some (mi, (di, false)) /\
    Forall (fun s => sp_stage s = FINISH) (m_sps mi) /\
    nth_error (run (new_matcher n_pixels aim starting_dacs bad_hv) measurements) j = Some (mj, (dj, false)) /\
    Forall (fun s => sp_stage s = FINISH) (m_sps mj) /\
    dacs = map sp_cur (m_sps mj) /\
    forall k' x, (j < k')%nat -> nth_error (run (new_matcher n_pixels aim starting_dacs bad_hv) measurements) k' = Some x ->
      x = (mj, (dacs, true)).
Proof.
  intros np aim dacs bad ms k m d E.
  assert (forall m, all_finished m = true -> Forall (fun s => sp_stage s = FINISH) (m_sps m)) as AF.
  { intros x H. unfold all_finished in H. rewrite forallb_forall in H. apply Forall_forall. intros s I. apply Z.eqb_eq. auto. }
  destruct (run_first ms (new_matcher np aim dacs bad) k m d eq_refl E)
    as (i & mi & di & j & mj & dj & J0 & J1 & J2 & J3 & J4 & J5 & J6 & J7 & J8 & J9).
  exists i, mi, di, j, mj, dj. repeat split; auto; try lia. intros k' x Hk Ex. rewrite J7. eauto.
Qed.
Print Assumptions C37_two_passes.

Example C37_example : (* two superpixels, the second with bad HV *)
  let cam := fun dacs => [[falling (nth 0 dacs 0); falling (nth 0 dacs 0); falling (nth 0 dacs 0); falling (nth 0 dacs 0);
                           qz 0; qz 0; qz 0; qz 0]] in
  let m0 := new_matcher 8 (qz 401) None (Some [false; true]) in
  map sp_cur (m_sps (closed_loop cam 1 m0)) = [110; 255] /\
  m_global (closed_loop cam 10 m0) = G_FIRST_PASS /\ m_global (closed_loop cam 11 m0) = G_RESET /\
  m_global (closed_loop cam 12 m0) = G_SECOND_PASS /\ m_global (closed_loop cam 13 m0) = G_FINISH /\
  map sp_cur (m_sps (closed_loop cam 20 m0)) = [150; 255].
Proof. cbv zeta. vmr. Qed.

(** ** C38. The loop need not end. *)
(** A superpixel whose starting DAC happens to give exactly the aim is never finished. *)
Theorem C38_termination_refuted : exists (r : Z -> Qc),
  (forall n, let m := closed_loop (one_sp r) n (new_matcher 4 (qz 100) None None) in
     snd (snd (process m (one_sp r (map sp_cur (m_sps m))))) = false) /\
  (* the response is a falling straight line *)
  (forall x, r x = qz (200 - x)).
Proof.
  exists (fun x => qz (200 - x)). split; [|reflexivity]. intros n m.
  set (m0 := new_matcher 4 (qz 100) None None) in *.
  assert (responds (one_sp (fun x => qz (200 - x))) (fun k x => if (k =? 0)%nat then qz (200 - x) else average_of (one_sp (fun x => qz (200 - x)) [x]) k)) as RS.
  { intros dacs k Hk. destruct (Nat.eqb_spec k 0) as [->|N].
    - unfold average_of, one_sp. cbn [map qsum fold_right List.length nth Nat.mul Nat.add]. 
      replace (qn 4) with (1 + 1 + 1 + 1)%Qc by (apply Qc_is_canon; reflexivity). field. intros X. apply this_eq in X. discriminate.
    - unfold average_of, one_sp. destruct k as [|[|k]]; [lia| |];
      cbn [map qsum fold_right List.length Nat.mul]; do 2 f_equal; rewrite !nth_overflow by (cbn; lia); reflexivity. }
  assert (m_global m = G_FIRST_PASS) as G.
  { apply (never_all _ _ RS m0 0%nat (Sp 100 100 0%Qc STEP10 false)); try reflexivity.
    - apply new_ok; apply C36_default_start.
    - intros k. cbn [m_iter m0 new_matcher].
      destruct (stuck (m_aim m0) (fun x => qz (200 - x)) 0 k (Sp 100 100 0%Qc STEP10 false)) as (_ & S & _); auto.
      + unfold dac_ok. cbn. lia.
      + intros X. change (sp_stage (spl (m_aim m0) (fun x => qz (200 - x)) 0 k (Sp 100 100 0%Qc STEP10 false)) = FINISH) in X.
        rewrite S in X. discriminate. }
  apply (process_quiet m (one_sp (fun x => qz (200 - x)) (map sp_cur (m_sps m)))). now left.
Qed.
Print Assumptions C38_termination_refuted.

(** In general: for every camera, a superpixel that starts exactly at the aim, or between two DACs a
    step of 10 apart that lie symmetrically about the aim, keeps the matcher running for ever. *)
Theorem C38_endless : forall cam resp m i s, responds cam resp -> mat_ok m ->
  m_global m = G_FIRST_PASS -> m_iter m = 0%nat ->
  nth_error (m_sps m) i = Some s -> sp_masked s = false -> sp_stage s = STEP10 ->
  (resp i (sp_cur s) = m_aim m \/
   dac_ok (sp_cur s + 10) /\ (m_aim m < resp i (sp_cur s))%Qc /\
   (resp i (sp_cur s) + resp i (sp_cur s + 10)%Z = m_aim m + m_aim m)%Qc) ->
  forall n a, snd (snd (process (closed_loop cam n m) a)) = false.
Proof.
  intros cam resp m i s RS OK G I E M S H n a.
  assert (sp_ok s) as (D & _) by (destruct OK as [_ F]; rewrite Forall_nth in F; eauto).
  assert (m_global (closed_loop cam n m) = G_FIRST_PASS) as GN.
  { apply (never_all cam resp RS m i s OK G E). intros k. rewrite I. destruct H as [H|(H1 & H2 & H3)].
    - destruct (stuck (m_aim m) (resp i) 0 k s M S D H) as (_ & X & _); auto. rewrite X. discriminate.
    - destruct (oscillate (m_aim m) (resp i) k s M S D H1 H2 H3) as (_ & X & _). rewrite X. discriminate. }
  apply process_quiet. now left.
Qed.
Print Assumptions C38_endless.

(** Apart from such coincidences (no DAC exactly at the aim, no two DACs 1, 5 or 10 apart exactly
    symmetric about it) the loop ends, whatever the response: call 993 reports completion. *)
Theorem C38_terminates : forall n_pixels aim starting_dacs bad_hv cam resp,
  aim <> 0%Qc -> responds cam resp ->
  (forall d, In d (starting (n_pixels / 4) starting_dacs) -> 10 <= d <= 255) ->
  (n_pixels / 4 <= List.length (starting (n_pixels / 4) starting_dacs))%nat ->
  (forall i, (i < n_pixels / 4)%nat ->
     (forall x, 10 <= x <= 255 -> resp i x <> aim) /\
     (forall x k, In k [1; 5; 10] -> 10 <= x <= 255 -> 10 <= x + k <= 255 -> (aim < resp i x)%Qc -> (resp i (x + k)%Z < aim)%Qc ->
        (resp i x + resp i (x + k)%Z <> aim + aim)%Qc)) ->
  forall n a, (992 <= n)%nat ->
    snd (snd (process (closed_loop cam n (new_matcher n_pixels aim starting_dacs bad_hv)) a)) = true.
Proof.
  intros np aim dacs bad cam resp AZ RS H L GEN n a Hn. rewrite process_finish; auto.
  apply (terminates cam resp RS); auto.
  - now apply new_ok.
  - cbn [m_sps m_aim new_matcher]. intros i Hi. apply GEN. unfold new_matcher in Hi. cbn in Hi. now rewrite map_length, seq_length in Hi.
Qed.
Print Assumptions C38_terminates.

(** The hypotheses are met by a falling line that misses the aim. *)
Example C38_hypotheses : let r := fun x => qz (1000 - 4 * x) in
  (forall x, 10 <= x <= 255 -> r x <> qz 401) /\
  (forall x k, In k [1; 5; 10] -> 10 <= x <= 255 -> 10 <= x + k <= 255 -> (qz 401 < r x)%Qc -> (r (x + k)%Z < qz 401)%Qc ->
     (r x + r (x + k)%Z <> qz 401 + qz 401)%Qc).
Proof.
  cbv zeta. split.
  - intros x _ E. apply qz_inj in E. lia.
  - intros x k _ _ _ _ _ E. rewrite <- !qz_plus in E. apply qz_inj in E. lia.
Qed.
Example C38_example :
  m_global (closed_loop (one_sp falling) 13 (new_matcher 4 (qz 401) None None)) = G_FINISH.
Proof. vmr. Qed.

(** ** C39. When a superpixel finishes a pass, its DAC is one of those tried in that pass and the best
    of them, unless the DAC range was left, when it is 255. *)
Theorem C39_best_dac : forall cam resp m i n s s' s'', responds cam resp -> mat_ok m -> pass_start m ->
  (forall j, (1 <= j <= n)%nat -> quiet (closed_loop cam j m)) ->
  nth_error (m_sps m) i = Some s -> sp_masked s = false -> (m_global m = G_FIRST_PASS -> sp_stage s <> FINISH) ->
  nth_error (m_sps (closed_loop cam n m)) i = Some s' -> ((0 < n)%nat -> sp_stage s' <> FINISH) ->
  nth_error (m_sps (closed_loop cam (S n) m)) i = Some s'' -> sp_stage s'' = FINISH ->
  let tried := map (fun j => cur_at (closed_loop cam j m) i) (seq 0 (S n)) in
  (In (sp_cur s'') tried /\
     forall w, In w tried -> (distance_of (m_aim m) (resp i (sp_cur s'')) <= distance_of (m_aim m) (resp i w))%Qc) \/
  (sp_cur s'' = 255 /\ exists k, In k [10; 5; 1] /\ ~ dac_ok (sp_cur s' + k * direction_of (m_aim m) (resp i (sp_cur s')))).
Proof. intros cam resp m i n s s' s'' RS. apply best_dac. exact RS. Qed.
Print Assumptions C39_best_dac.

Example C39_example : (* the first pass: the DACs tried, the DAC kept, and the distance of the last one left *)
  let m0 := new_matcher 4 (qz 403) None None in
  map (fun j => cur_at (closed_loop (one_sp falling) j m0) 0) (seq 0 12)
    = [100; 110; 120; 130; 140; 150; 140; 150; 145; 150; 149; 150] /\
  cur_at (closed_loop (one_sp falling) 12 m0) 0 = 149 /\
  map sp_stage (m_sps (closed_loop (one_sp falling) 11 m0)) = [STEP1] /\
  map sp_stage (m_sps (closed_loop (one_sp falling) 12 m0)) = [FINISH] /\
  (distance_of (qz 403) (falling 149) ?= distance_of (qz 403) (falling 150))%Qc = Lt.
Proof. cbv zeta. vmr. Qed.

(** ** C40. A per-pixel mask is read as if it were per superpixel. *)
Theorem C40_per_pixel_mask_refuted : exists n_pixels bad_hv m dacs b,
  List.length bad_hv = n_pixels /\
  (* all four pixels of superpixel 1 are bad *)
  Forall (fun p => nth p bad_hv false = true) [4; 5; 6; 7]%nat /\
  process (new_matcher n_pixels (qz 201) None (Some bad_hv)) [repeat (qz 300) n_pixels] = (m, (dacs, b)) /\
  nth_error dacs 1 = Some 110.
Proof.
  exists 8%nat, [false; false; false; false; true; true; true; true]. do 3 eexists.
  split; [reflexivity|]. split; [repeat constructor|]. split; [reflexivity|]. vm_compute. reflexivity.
Qed.
Print Assumptions C40_per_pixel_mask_refuted.

(** What is used: superpixel [i] is masked iff entry [i] of the argument is set, whatever its length;
    with one entry per superpixel this is the intended meaning. *)
Theorem C40_mask_meaning : forall n_pixels aim starting_dacs bad_hv i s,
  nth_error (m_sps (new_matcher n_pixels aim starting_dacs (Some bad_hv))) i = Some s ->
  (sp_masked s = true <-> nth_error bad_hv i = Some true).
Proof.
  intros np aim dacs bad i s E. unfold new_matcher in E. cbn [m_sps mask_of] in E. rewrite nth_error_map in E.
  destruct (nth_error (seq 0 (np / 4)) i) as [k|] eqn:K; [|discriminate].
  assert (k = i) as ->.
  { pose proof K as K'. apply nth_error_nth with (d := 0%nat) in K. rewrite seq_nth in K; [lia|].
    rewrite <- (seq_length (np / 4) 0). apply nth_error_Some. congruence. }
  inversion E. cbn [sp_masked]. split.
  - intros H. destruct (nth_error bad i) eqn:B; [|apply nth_error_None in B; rewrite nth_overflow in H by auto; discriminate].
    apply nth_error_nth with (d := false) in B. congruence.
  - intros H. now apply nth_error_nth with (d := false) in H.
Qed.
Print Assumptions C40_mask_meaning.

(** ** C77. What one call commands for a superpixel that is neither masked nor finished: if the mean
    amplitude of its four pixels has moved away from the aim since the last call of the pass, the
    previous DAC again, and a finer step from now on; else a step of 10, 5 or 1 towards the aim, or
    255 if that leaves the range. *)
Theorem C77_transition : forall m amplitude i s, mat_ok m -> quiet m -> m_aim m <> 0%Qc ->
  nth_error (m_sps m) i = Some s -> sp_masked s = false -> sp_stage s <> FINISH ->
  (forall ev, In ev amplitude -> (4 * i + 4 <= List.length ev)%nat) ->
  exists s', nth_error (m_sps (fst (process m amplitude))) i = Some s' /\
    nth_error (fst (snd (process m amplitude))) i = Some (sp_cur s') /\
    m_iter (fst (process m amplitude)) = S (m_iter m) /\
    sp_pdist s' = rel_distance (m_aim m) (sp_mean amplitude i) /\ sp_prev s' = sp_cur s /\ sp_masked s' = false /\
    (((0 < m_iter m)%nat /\ (sp_pdist s < rel_distance (m_aim m) (sp_mean amplitude i))%Qc /\
      sp_cur s' = sp_prev s /\ sp_stage s' = sp_stage s + 1) \/
     ((m_iter m = 0%nat \/ (rel_distance (m_aim m) (sp_mean amplitude i) <= sp_pdist s)%Qc) /\
      exists d, towards (m_aim m) (sp_mean amplitude i) (nth (Z.to_nat (sp_stage s)) [10; 5; 1] 0) d /\
        ((10 <= sp_cur s + d <= 255 /\ sp_cur s' = sp_cur s + d /\ sp_stage s' = sp_stage s) \/
         (~ 10 <= sp_cur s + d <= 255 /\ sp_cur s' = 255 /\ sp_stage s' = FINISH)))).
Proof. exact c77_transition. Qed.
Print Assumptions C77_transition.

(** Along every history a DAC changes by 1, 5 or 10 or goes to 255, and in the second pass by 1. *)
Theorem C77_step_sizes : forall n_pixels aim starting_dacs bad_hv measurements k m d b m' d' b' i x x', aim <> 0%Qc ->
  (forall d, In d (starting (n_pixels / 4) starting_dacs) -> 10 <= d <= 255) ->
  (n_pixels / 4 <= List.length (starting (n_pixels / 4) starting_dacs))%nat ->
  nth_error (run (new_matcher n_pixels aim starting_dacs bad_hv) measurements) k = Some (m, (d, b)) ->
  nth_error (run (new_matcher n_pixels aim starting_dacs bad_hv) measurements) (S k) = Some (m', (d', b')) ->
  nth_error d i = Some x -> nth_error d' i = Some x' ->
  x' = 255 \/ (In (Z.abs (x' - x)) [0; 1; 5; 10] /\
               (m_global m = G_RESET \/ m_global m = G_SECOND_PASS -> Z.abs (x' - x) <= 1)).
Proof. exact c77_history. Qed.
Print Assumptions C77_step_sizes.

(** Two events of two superpixels: means 301 and 101, aim 201. *)
Example C77_example :
  let a := [[qz 300; qz 301; qz 302; qz 299; qz 101; qz 101; qz 101; qz 100]; [qz 302; qz 302; qz 301; qz 301; qz 102; qz 101; qz 101; qz 101]] in
  this (sp_mean a 0) = this (qz 301) /\ this (sp_mean a 1) = this (qz 101) /\
  fst (snd (process (new_matcher 8 (qz 201) None None) a)) = [110; 90].
Proof. cbv zeta. vmr. Qed.
