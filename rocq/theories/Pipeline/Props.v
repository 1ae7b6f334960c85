(** Properties C81-C83: the scripts as a whole. *)
From Coq Require Import List ZArith QArith Qcanon String Bool Arith Lia.
From Verif.Base Require Import Py PyFacts Lst Str Num.
From Verif.Spectrum Require Import Model Spec Proofs Proofs2 Props ModelFloat SpecFloat PropsFloat.
From Verif.Hdf5 Require Import Model Spec.
From Verif.Dl1 Require Import Model Spec Proofs Proofs2 Proofs3.
From Verif.Dl1 Require Props.
From Verif.Calib Require Proofs Proofs2.
From Verif.WfUtils Require Import Model Proofs.
From Verif.Pipeline Require Import Model Proofs Proofs2.
Import ListNotations.
Local Open Scope nat_scope.
Local Open Scope list_scope.
Ltac vmr := repeat match goal with |- _ /\ _ => split; [vm_compute; reflexivity|] end; vm_compute; reflexivity.

(** ** C81. Sum of the first 16 samples of a pixel. *)
Definition start_sum (p : nat) (e : event) : Qc := qsum (firstn 16 (nth p e [])).
(** The samples of a list of events after the time correction. *)
Definition corrected (t_cor : option (list Qc)) (ws : list (wf body)) (es : list event) : Prop := Forall2 (fun w e => calibrated t_cor w = Ok e) ws es.
(** The last 50 kept events up to the k-th one. *)
Definition last50 (k : nat) (wfs : list (wf body)) : list (wf body) := skipn (S k - 50) (firstn (S k) (kept wfs)).

(** From the 50th kept event on, what is stored for an event is determined by it and the 49 kept events before it: two
    runs that agree there agree in the row, whatever was skipped and whatever came before. *)
Theorem C81_settled : forall C (process : event -> list C) t_cor n_pixels wfs wfs' out out' k k',
  extract process t_cor n_pixels wfs = Ok out -> extract process t_cor n_pixels wfs' = Ok out' ->
  49 <= k < List.length (kept wfs) -> 49 <= k' < List.length (kept wfs') -> last50 k wfs = last50 k' wfs' ->
  nth_error out k = nth_error out' k'.
Proof.
  intros C process t_cor np wfs wfs' out out' k k' H H' [K L] [K' L'] E.
  apply (settled C process t_cor np 50 16 (map (fun w => fst (wf_body w)) wfs) (map (fun w => fst (wf_body w)) wfs') wfs wfs' out out' k k'); [lia|exact H|exact H'|lia|lia|exact L|exact L'|exact E].
Qed.
Print Assumptions C81_settled.

(** What is stored: one entry per kept event, in order; the baseline of a pixel is the mean of the first 16 samples over the
    last 50 kept events after time correction, this one included, and the chain is given the corrected waveforms minus it. *)
Theorem C81_values : forall C (process : event -> list C) t_cor n_pixels n_samples wfs out,
  extract process t_cor n_pixels wfs = Ok out ->
  (forall w e, In w (kept wfs) -> calibrated t_cor w = Ok e -> rect n_pixels n_samples e) ->
  map fst out = kept wfs /\
  forall k w vals, nth_error out k = Some (w, vals) -> exists e bs, calibrated t_cor w = Ok e /\ rect n_pixels n_samples bs /\
    forall p fci b c, nth_error vals p = Some (fci, (b, c)) -> p < n_pixels ->
      nth_error (snd (wf_body w)) p = Some fci /\ nth_error (process bs) p = Some c /\
      (forall j, j < n_samples -> nth j (nth p bs []) 0%Qc = (nth j (nth p e []) 0 - b)%Qc) /\
      (49 <= k -> exists es, corrected t_cor (last50 k wfs) es /\ b = (qsum (map (start_sum p) es) / qn 800)%Qc) /\
      (k < 50 -> exists es, corrected t_cor (firstn (S k) (kept wfs)) es /\
         b = ((qsum (map (fun v => start_sum p (fst (wf_body v))) (skipn (S k) (firstn 50 wfs))) + qsum (map (start_sum p) es)) / qn 800)%Qc).
Proof.
  intros C process t_cor np n wfs out H R. unfold extract, first_baseline in H.
  destruct (loop_out process t_cor _ _ _ H) as (tcs & F & M & V). split; [exact M|]. intros k w vals N.
  destruct (V _ _ _ N) as (e & NE & CE & ->).
  assert (LT : List.length tcs = List.length (kept wfs)) by (clear - F; induction F; cbn; auto).
  assert (KL : k < List.length tcs) by (apply nth_error_Some; congruence).
  set (bl := b_baseline (after (new_subtractor np (map (fun w => fst (wf_body w)) wfs) 50 16) (firstn (S k) tcs))) in *.
  assert (LB : List.length bl = np) by apply baseline_pixels.
  assert (W : In w (kept wfs)) by (rewrite <- M; change w with (fst (w, values_of process w e bl)); apply in_map; now apply nth_error_In in N).
  exists e, (minus_baseline e bl). split; [exact CE|]. split; [apply minus_baseline_rect; [now apply (R w)|exact LB]|].
  intros p fci b c P Hp. destruct (nth_pixel_values _ _ _ _ _ _ _ _ _ P) as (P1 & P2 & P3).
  split; [exact P1|]. split; [exact P3|].
  assert (EB : nth p bl 0%Qc = b) by now apply nth_error_nth_default.
  split; [|split].
  - intros j J. rewrite (minus_baseline_nth e bl np n); auto; [now rewrite EB|now apply (R w)].
  - intros K. exists (skipn (S k - 50) (firstn (S k) tcs)). split; [now apply Forall2_slice|]. rewrite <- EB. unfold bl.
    assert (FL : List.length (firstn (S k) tcs) = S k) by (rewrite firstn_length_le; lia).
    assert (L50 : 50 <= List.length (firstn (S k) tcs)) by lia.
    rewrite (c41_late np _ 50 16 (firstn (S k) tcs) p) by (assumption || lia). rewrite FL. reflexivity.
  - intros K. exists (firstn (S k) tcs). split; [exact (Forall2_slice _ _ _ _ _ 0 (S k) F)|]. rewrite <- EB. unfold bl.
    assert (FL : List.length (firstn (S k) tcs) = S k) by (rewrite firstn_length_le; lia).
    rewrite (c41_early np _ 50 16 (firstn (S k) tcs) p) by (assumption || lia). rewrite FL, firstn_map, skipn_map, map_map. reflexivity.
Qed.
Print Assumptions C81_values.

(** The time correction [calibrated] that occurs in it: none for simulations, otherwise the waveform of each pixel is read
    [c] samples earlier, with linear interpolation. *)
Theorem C81_time_correction : forall t_cor w e, calibrated t_cor w = Ok e ->
  (t_cor = None -> e = fst (wf_body w)) /\
  forall cs p v c, t_cor = Some cs -> nth_error (fst (wf_body w)) p = Some v -> nth_error cs p = Some c -> 2 <= List.length v ->
  exists o, nth_error e p = Some o /\ List.length o = List.length v /\ forall i, i < List.length v -> Calib.Proofs.interpolated v (qn i - c)%Qc (nth i o 0%Qc).
Proof.
  intros t_cor w e H. split; [intros ->; now injection H|]. intros cs p v c -> V C L. unfold calibrated in H.
  destruct (Calib.Proofs2.event_pixel _ _ _ p v c H V C) as (o & O & NO). exists o. split; [exact NO|]. unfold Calib.Model.t_cor_pixel in O.
  assert (LO : List.length o = List.length v) by (rewrite (Calib.Proofs.mapM_length _ _ _ _ _ O); apply seq_length). split; [exact LO|]. intros i I.
  assert (N : nth_error (seq 0 (List.length v)) i = Some i) by (rewrite nth_error_seq; now destruct (Nat.ltb_spec i (List.length v)); [|lia]).
  destruct (Calib.Proofs.mapM_nth _ _ _ _ _ _ _ O N) as (y & E & Y). rewrite (nth_error_nth _ _ 0%Qc Y). now apply Calib.Proofs.sample_interpolated.
Qed.
Print Assumptions C81_time_correction.

(** In the DL1 file: reading back a kept event gives the values of [extract]. *)
Theorem C81_file : forall C (process : event -> list C) t_cor dummy n_pixels wfs out mem down src ms r,
  extract process t_cor n_pixels wfs = Ok out -> (forall w vals, In (w, vals) out -> List.length vals = n_pixels) ->
  0 < n_pixels -> (Z.of_nat n_pixels < 2 ^ 32)%Z -> kept wfs <> [] ->
  (forall w, In w (kept wfs) -> (0 <= wf_iev w < 2 ^ 32)%Z) -> Sorted.StronglySorted Z.lt (map wf_iev (kept wfs)) ->
  NoDup (dkeys (s_base src)) -> NoDup (dkeys (s_config src)) -> NoDup (dkeys (s_mcheader src)) ->
  dl1_round_trip mem down (total_call process t_cor dummy n_pixels) src ms n_pixels (first_baseline n_pixels wfs) wfs r ->
  (forall e, In e out -> dl1_getitem r (wf_iev (fst e)) = Ok (stored_event down e)) /\
  iterate_over_events r = Ok (map (stored_event down) out).
Proof.
  intros C process t_cor dummy np wfs out mem down src ms r H L P1 P2 K I SO N1 N2 N3 RT.
  assert (G : good_run (total_call process t_cor dummy np) src np wfs).
  { constructor; auto. intros s w. apply total_length. }
  assert (E : extracted (total_call process t_cor dummy np) (first_baseline np wfs) (kept wfs) = out) by (apply total_loop; assumption).
  destruct (c12 mem down _ src ms np _ wfs G r RT) as (A & _). destruct (c13 mem down _ src ms np _ wfs G r RT) as (B & _). rewrite E in A, B. split; assumption.
Qed.
Print Assumptions C81_file.

(** Before the 50th kept event it is not so: the samples of a stale event are part of the baseline. Two runs that differ in
    the stale event only store different values for the event that is kept. *)
Definition flat_event (v : Z) : event := [repeat (qz v) 16].
Definition run_with (stale : Z) : list (wf body) := [WF 0 false false 100 11 None (flat_event 8, [3%Z]); WF 1 true false 110 12 None (flat_event stale, [3%Z])].
Definition unit_process (e : event) : list unit := map (fun _ => tt) e.
Definition stored_baselines (wfs : list (wf body)) : res (list (list (Z * (Q * unit)))) :=
  (do out <- extract unit_process None 1 wfs; Ok (map (fun e => map (fun v => (fst v, (this (fst (snd v)), snd (snd v)))) (snd e)) out))%py.
Lemma differ : forall A B (f : A -> B) (r r' : res A) b b', bind r (fun x => Ok (f x)) = Ok b -> bind r' (fun x => Ok (f x)) = Ok b' -> b <> b' -> exists x x', r = Ok x /\ r' = Ok x' /\ x <> x'.
Proof. intros A B f [x|] [x'|] b b' E E' N; try discriminate. exists x, x'. repeat split. intros ->. rewrite E in E'. injection E' as ->. now apply N. Qed.
Theorem C81_skipped_refuted : exists wfs wfs' out out', kept wfs = kept wfs' /\ extract unit_process None 1 wfs = Ok out /\ extract unit_process None 1 wfs' = Ok out' /\ out <> out'.
Proof.
  exists (run_with 0), (run_with 400).
  assert (B0 : stored_baselines (run_with 0) = Ok [[(3%Z, (4 # 25, tt))]]) by (vm_compute; reflexivity).
  assert (B1 : stored_baselines (run_with 400) = Ok [[(3%Z, (204 # 25, tt))]]) by (vm_compute; reflexivity).
  unfold stored_baselines in B0, B1.
  destruct (differ _ _ _ _ _ _ _ B0 B1) as (out & out' & E & E' & N); [discriminate|].
  exists out, out'. split; [reflexivity|]. split; [exact E|]. split; [exact E'|exact N].
Qed.
Print Assumptions C81_skipped_refuted.

(** 60 events of which every seventh is stale; the rows of the last one do not depend on the stale ones. *)
Definition long_run (stale : Z) : list (wf body) :=
  map (fun i => let z := Z.of_nat i in if (i mod 7 =? 3)%nat then WF z true false 0 0 None (flat_event stale, [3%Z]) else WF z false false 0 0 None (flat_event z, [3%Z])) (seq 0 60).
Example C81_ex : List.length (kept (long_run 5)) = 51 /\
  (do b <- stored_baselines (long_run 5); Ok (nth 50 b []))%py = (do b <- stored_baselines (long_run 99); Ok (nth 50 b []))%py /\
  (do b <- stored_baselines (long_run 5); Ok (nth 50 b []))%py = Ok [(3%Z, (1491 # 50, tt))].
Proof. vmr. Qed.
Example C81_ex_time : (do out <- extract unit_process (Some [Q2Qc (1 # 2)]) 1 [WF 0 false false 0 0 None ([map (fun i => qz (Z.of_nat (i * 50))) (seq 0 18)], [3%Z])];
   Ok (map (fun e => map (fun v => this (fst (snd v))) (snd e)) out))%py = Ok [[7]]%Q /\
  extract unit_process (Some [0%Qc]) 1 (run_with 0) = Raise ZeroDivisionError.
Proof. vmr. Qed.

(** ** C82. With default output names, every input ends up in its own file and nothing else is touched, provided the names
    do not collide. *)
Theorem C82_default_names : forall input output (is_mc : input -> bool) (reduce : input -> output) (w : string -> input) paths fs,
  (forall p, In p paths -> dget p fs = Some (Waves (w p))) ->
  (forall p q, In p paths -> In q paths -> out_path (is_mc (w p)) p = out_path (is_mc (w q)) q -> p = q) ->
  (forall p q, In p paths -> In q paths -> out_path (is_mc (w p)) p <> q) ->
  exists fs', reduce_files is_mc reduce None fs paths = (fs', None) /\
  (forall p, In p paths -> dget (out_path (is_mc (w p)) p) fs' = Some (Reduced (reduce (w p)))) /\
  (forall q, (forall p, In p paths -> q <> out_path (is_mc (w p)) p) -> dget q fs' = dget q fs).
Proof. intros. now apply (files_default is_mc reduce w). Qed.
Print Assumptions C82_default_names.
(** The usual names: Run_r1.tio becomes Run_dl1.h5 and Run.simtel.gz becomes Run_dl1.h5; distinct inputs of one kind do not collide. *)
Theorem C82_usual_names : forall stem,
  (~ occurs "_r1" stem -> ~ occurs ".tio" stem -> out_path false (stem ++ "_r1.tio") = (stem ++ "_dl1.h5")%string) /\
  (~ occurs ".simtel.gz" stem -> out_path true (stem ++ ".simtel.gz") = (stem ++ "_dl1.h5")%string).
Proof. intros stem. split; intros; unfold out_path; [rewrite replace_r1 by assumption; now apply replace_tio|now apply replace_simtel]. Qed.
Print Assumptions C82_usual_names.
Lemma tail_differs : forall a b s t, (a ++ s)%string = (b ++ t)%string -> String.length s = String.length t -> s = t.
Proof.
  assert (L : forall x y, String.length (x ++ y) = String.length x + String.length y) by (induction x; intros; cbn; auto).
  induction a as [|c a IH]; intros b s t E T.
  - destruct b as [|d b]; [exact E|]. apply (f_equal String.length) in E. cbn in E. rewrite L in E. lia.
  - destruct b as [|d b]; [apply (f_equal String.length) in E; cbn in E; rewrite L in E; lia|]. injection E as _ E. now apply (IH b).
Qed.
Theorem C82_real_runs : forall input output (reduce : input -> output) (w : string -> input) stems fs,
  (forall s, In s stems -> ~ occurs "_r1" s /\ ~ occurs ".tio" s) ->
  (forall s, In s stems -> dget (s ++ "_r1.tio")%string fs = Some (Waves (w s))) ->
  exists fs', reduce_files (fun _ => false) reduce None fs (map (fun s => (s ++ "_r1.tio")%string) stems) = (fs', None) /\
  forall s, In s stems -> dget (s ++ "_dl1.h5")%string fs' = Some (Reduced (reduce (w s))) /\ dget (s ++ "_r1.tio")%string fs' = Some (Waves (w s)).
Proof.
  intros input output reduce w stems fs N G.
  set (paths := map (fun s => (s ++ "_r1.tio")%string) stems).
  set (wp := fun p : string => match find (fun s => ((s ++ "_r1.tio") =? p)%string) stems with Some s => w s | None => w p end).
  assert (WP : forall s, In s stems -> wp (s ++ "_r1.tio")%string = w s).
  { intros s S. unfold wp. destruct (find _ stems) as [s'|] eqn:F.
    - apply find_some in F as [_ F]. apply String.eqb_eq, app_same_tail in F. now subst.
    - exfalso. apply (find_none _ _ F) in S. now rewrite String.eqb_refl in S. }
  assert (OP : forall s, In s stems -> out_path false (s ++ "_r1.tio") = (s ++ "_dl1.h5")%string).
  { intros s S. destruct (N s S). now apply C82_usual_names. }
  assert (X : forall a b, (a ++ "_dl1.h5")%string <> (b ++ "_r1.tio")%string).
  { intros a b E. apply tail_differs in E; [discriminate|reflexivity]. }
  destruct (C82_default_names input output (fun _ => false) reduce wp paths fs) as (fs' & E & A & B).
  - intros p P. unfold paths in P. apply in_map_iff in P as (s & <- & S). rewrite WP by exact S. now apply G.
  - intros p q P Q. unfold paths in P, Q. apply in_map_iff in P as (s & <- & S). apply in_map_iff in Q as (t & <- & T). rewrite !OP by assumption.
    intros H. apply app_same_tail in H. now subst.
  - intros p q P Q. unfold paths in P, Q. apply in_map_iff in P as (s & <- & S). apply in_map_iff in Q as (t & <- & T). rewrite OP by assumption. apply X.
  - exists fs'. split; [exact E|]. intros s S. split.
    + rewrite <- (OP s S). rewrite (A (s ++ "_r1.tio")%string); [now rewrite WP|]. unfold paths. now apply (in_map (fun s => (s ++ "_r1.tio")%string)).
    + rewrite B; [now apply G|]. intros p P. unfold paths in P. apply in_map_iff in P as (t & <- & T). rewrite OP by assumption. apply not_eq_sym, X.
Qed.
Print Assumptions C82_real_runs.
(** With -o there is one output for all inputs: it holds the last one, and everything else is as before. *)
Theorem C82_single_output : forall input output (is_mc : input -> bool) (reduce : input -> output) (w : string -> input) o p0 paths fs, o <> ""%string ->
  (forall p, In p (p0 :: paths) -> dget p fs = Some (Waves (w p))) -> ~ In o (p0 :: paths) ->
  exists fs', reduce_files is_mc reduce (Some o) fs (p0 :: paths) = (fs', None) /\
  dget o fs' = Some (Reduced (reduce (w (last (p0 :: paths) ""%string)))) /\ (forall q, q <> o -> dget q fs' = dget q fs).
Proof. intros. now apply files_single. Qed.
Print Assumptions C82_single_output.
(** Success means that every input was a waveform file, and an error is reported for the first one that is not. *)
Theorem C82_completes : forall input output (is_mc : input -> bool) (reduce : input -> output) o paths fs fs',
  reduce_files is_mc reduce o fs paths = (fs', None) -> forall p, In p paths -> exists i, dget p fs = Some (Waves i).
Proof.
  intros input output is_mc reduce o. induction paths as [|p0 paths IH]; intros fs fs' H p P; [destruct P|]. cbn [reduce_files] in H.
  destruct (reduce_file is_mc reduce o fs p0) as [fs1 [e|]] eqn:E; [discriminate|]. unfold reduce_file in E.
  destruct (dget p0 fs) as [[i|r]|] eqn:G; try discriminate. injection E as <-. destruct P as [<-|P]; [now exists i|].
  destruct (IH _ _ H p P) as (j & J). rewrite dget_dset in J. destruct (String.eqb _ _) in J; [discriminate|]. now exists j.
Qed.
Print Assumptions C82_completes.
Theorem C82_errors : forall input output (is_mc : input -> bool) (reduce : input -> output) o paths fs fs' e,
  reduce_files is_mc reduce o fs paths = (fs', Some e) -> exists before p after, paths = before ++ p :: after /\
  reduce_files is_mc reduce o fs before = (fs', None) /\
  ((dget p fs' = None /\ e = FileNotFoundError) \/ ((exists r, dget p fs' = Some (Reduced r)) /\ e = AttributeError)).
Proof.
  intros input output is_mc reduce o. induction paths as [|p0 paths IH]; intros fs fs' e H; [discriminate|]. cbn [reduce_files] in H.
  destruct (reduce_file is_mc reduce o fs p0) as [fs1 [e1|]] eqn:E.
  - injection H as -> ->. exists [], p0, paths. unfold reduce_file in E. destruct (dget p0 fs) as [[i|r]|] eqn:G; [discriminate|..]; injection E as <- <-; (split; [reflexivity|]; split; [reflexivity|]).
    + right. split; [now exists r|reflexivity].
    + now left.
  - destruct (IH _ _ _ H) as (b & p & a & -> & B & D). exists (p0 :: b), p, a. split; [reflexivity|]. split; [cbn [reduce_files]; now rewrite E|exact D].
Qed.
Print Assumptions C82_errors.
(** So the claim that every input is found in some DL1 file afterwards is false. *)
Theorem C82_every_input_refuted : exists (fs fs' : dict (@content Z Z)) paths o p i,
  reduce_files (fun _ => false) (fun i => i) (Some o) fs paths = (fs', None) /\ In p paths /\ dget p fs = Some (Waves i) /\ forall q, dget q fs' <> Some (Reduced i).
Proof.
  exists [("a_r1.tio", Waves 1%Z); ("b_r1.tio", Waves 2%Z)]%string. eexists. exists ["a_r1.tio"; "b_r1.tio"]%string, "out.h5"%string, "a_r1.tio"%string, 1%Z.
  split; [vm_compute; reflexivity|]. split; [now left|]. split; [reflexivity|]. intros q E. apply dget_In in E. repeat (destruct E as [E|E]; [discriminate|]). destruct E.
Qed.
Print Assumptions C82_every_input_refuted.
(** Default names collide for a real and a simulated run of the same stem. *)
Example C82_ex : reduce_files (fun i => (i =? 2)%Z) (fun i => i) None [("a_r1.tio", Waves 1%Z); ("b_r1.tio", Waves 3%Z)]%string ["a_r1.tio"; "b_r1.tio"; "c_r1.tio"]%string =
  ([("a_r1.tio", Waves 1%Z); ("b_r1.tio", Waves 3%Z); ("a_dl1.h5", Reduced 1%Z); ("b_dl1.h5", Reduced 3%Z)]%string, Some FileNotFoundError) /\
  out_path false "a_r1.tio" = out_path true "a.simtel.gz".
Proof. vmr. Qed.

(** ** C83. The charges of a pixel: for every kept event of the file, in order, the charge that was stored for that pixel. *)
Definition charge_column {V} (charge : V -> option Qc) (r : row V) : option Qc := match r with RData d => charge (d_pay d) | RAux _ _ => None end.
Definition charges_of {V B} (charge : V -> option Qc) (down : V -> V) (p : nat) (evs : list (wf B * list (Z * V))) (cs : list (option Qc)) : Prop :=
  Forall2 (fun e c => exists fci v, nth_error (snd e) p = Some (fci, v) /\ c = charge (down v)) evs cs.
Lemma stored_nth : forall V B (down : V -> V) (e : wf B * list (Z * V)) p x charge, nth_error (stored_event down e) p = Some x ->
  exists fci v, nth_error (snd e) p = Some (fci, v) /\ charge_column charge x = charge (down v).
Proof.
  intros V B down e p x charge H. unfold stored_event in H. rewrite nth_error_map, nth_error_combine, nth_error_seq in H.
  destruct (p <? List.length (snd e)); [|discriminate]. destruct (nth_error (snd e) p) as [[fci v]|]; [|discriminate]. injection H as <-. now exists fci, v.
Qed.
Theorem C83_charges : forall V B St mem down (ext : St -> wf B -> St * list (Z * V)) src ms np s0 wfs charge,
  good_run ext src np wfs -> forall r, dl1_round_trip mem down ext src ms np s0 wfs r ->
  exists ch, file_charges (charge_column charge) r = Ok ch /\ List.length ch = List.length (kept wfs) /\
  (forall p, p < np -> exists cs, pixel_of p ch = Ok cs /\ charges_of charge down p (extracted ext s0 (kept wfs)) cs) /\
  (forall p, np <= p -> pixel_of p ch = Raise IndexError).
Proof.
  intros V B St mem down ext src ms np s0 wfs charge G r RT. destruct (reader_view mem down ext src ms np s0 wfs G r RT) as (H & _).
  exists (map (map (charge_column charge)) (map (stored_event down) (extracted ext s0 (kept wfs)))).
  assert (F : Forall (fun b => List.length b = np) (map (stored_event down) (extracted ext s0 (kept wfs)))) by apply H.
  assert (LE : forall ws s, List.length (extracted ext s ws) = List.length ws) by (induction ws; intros; cbn; auto).
  split; [now apply (charges_holds (charge_column charge) r np _ _ H)|]. split; [now rewrite !map_length, LE|]. split.
  - intros p P. destruct (pixel_of_blocks (charge_column charge) np p _ F P) as (cs & E & C). exists cs. split; [exact E|]. unfold charges_of.
    clear - C. revert cs C. induction (extracted ext s0 (kept wfs)) as [|e l IH]; intros cs C; inversion C as [|? c ? cs' D1 D2]; subst; constructor; [|now apply IH].
    destruct D1 as (x & N & ->). now apply (stored_nth V B).
  - intros p P. pose proof (g_some _ _ _ _ G) as K. destruct (kept wfs) as [|w ws]; [congruence|]. cbn [extracted map] in F |- *. now apply (pixel_of_outside (charge_column charge) np).
Qed.
Print Assumptions C83_charges.
(** Together with C78: what is histogrammed for pixel p and illumination i is, bin by bin, the number of kept events of the
    i-th file whose charge of pixel p lies in the bin. [files]: the charges array of each file, with what the file holds. *)
Theorem C83_histograms : forall V B (charge : V -> option Qc) (down : V -> V) p (files : list (list (list (option Qc)) * list (wf B * list (Z * V)))) ar n lo hi st,
  files <> [] -> (forall ch evs, In (ch, evs) files -> exists cs, pixel_of p ch = Ok cs /\ charges_of charge down p evs cs) ->
  0 < n -> (lo <= hi)%Qc -> faithful ar (first_edge lo hi) (last_edge lo hi) n ->
  let e := f_edges ar (first_edge lo hi) (last_edge lo hi) (Z.of_nat n) in
  exists cs x y edges, pixel_charges (map fst files) p = Ok cs /\
  apply_histograms ar (List.length files) (Z.of_nat n) lo hi cs st = (Hists (Some x) (Some y) (Some edges), None) /\
  forall i ch evs, nth_error files i = Some (ch, evs) -> exists h, nth_error y i = Some h /\ List.length h = n /\
  forall k, k < n -> nth k h 0%Qc = f32 ar (qn (List.length (filter (fun ev =>
    match nth_error (snd ev) p with Some (_, v) => match charge (down v) with Some q => in_bin e n k q | None => false end | None => false end) evs))).
Proof.
  intros V B charge down p files ar n lo hi st NE H N LH F e.
  assert (X : exists cs, pixel_charges (map fst files) p = Ok cs /\ Forall2 (fun f c => charges_of charge down p (snd f) c) files cs).
  { clear NE. induction files as [|[ch evs] files IH]; [exists []; split; [reflexivity|constructor]|].
    destruct IH as (cs & E & C); [intros c v I; apply (H c v); now right|]. destruct (H ch evs) as (c & Ec & Cc); [now left|].
    exists (c :: cs). unfold pixel_charges in *. cbn [map mapM fst]. rewrite Ec. cbn [bind]. rewrite E. cbn [bind]. split; [reflexivity|]. constructor; assumption. }
  destruct X as (cs & E & C). assert (L : List.length cs = List.length files) by (clear - C; induction C; cbn; auto).
  destruct (C78_histograms ar (List.length files) n lo hi cs st) as (x & y & edges & A & _ & _ & _ & _ & Y); auto; [destruct files; [congruence|cbn; lia]|].
  exists cs, x, y, edges. split; [exact E|]. split; [exact A|]. intros i ch evs I.
  assert (exists c, nth_error cs i = Some c /\ charges_of charge down p evs c) as (c & Ic & Cc).
  { clear - C I. revert i I. induction C; intros [|i] I; cbn in *; [discriminate|discriminate|injection I as ->; eauto|eauto]. }
  destruct (Y i c Ic) as (h & Ih & Lh & K). exists h. split; [exact Ih|]. split; [exact Lh|]. intros k Kn. rewrite (K k Kn). do 2 f_equal. unfold Verif.Spectrum.Spec.content. fold e.
  clear - Cc. induction Cc as [|ev q evs c (fci & v & Nv & ->) Cc IH]; [reflexivity|]. cbn [filter]. rewrite Nv.
  destruct (charge (down v)) as [z|]; [destruct (in_bin e n k z); cbn [List.length]; now rewrite IH|exact IH].
Qed.
Print Assumptions C83_histograms.
(** In single precision, in which DL1 files store the charges: nothing is left open about the rounding. *)
Theorem C83_single : forall V B (charge : V -> option Qc) (down : V -> V) p (files : list (list (list (option Qc)) * list (wf B * list (Z * V)))) n lo hi st,
  files <> [] -> (forall ch evs, In (ch, evs) files -> exists cs, pixel_of p ch = Ok cs /\ charges_of charge down p evs cs) ->
  0 < n -> represented single lo hi n -> (forall ch evs, In (ch, evs) files -> List.length evs <= 2 ^ 24) ->
  let e := f_edges single lo hi (Z.of_nat n) in
  exists cs x y edges, pixel_charges (map fst files) p = Ok cs /\
  apply_histograms single (List.length files) (Z.of_nat n) lo hi cs st = (Hists (Some x) (Some y) (Some edges), None) /\
  forall i ch evs, nth_error files i = Some (ch, evs) -> exists h, nth_error y i = Some h /\ List.length h = n /\
  forall k, k < n -> nth k h 0%Qc = qn (List.length (filter (fun ev =>
    match nth_error (snd ev) p with Some (_, v) => match charge (down v) with Some q => in_bin e n k q | None => false end | None => false end) evs)).
Proof.
  intros V B charge down p files n lo hi st NE H N R S e. pose proof (represented_lt _ _ _ _ R) as LH. destruct (ends lo hi LH) as [E1 E2].
  destruct (C83_histograms V B charge down p files single n lo hi st NE H N (Qclt_le_weak _ _ LH)) as (cs & x & y & edges & A & C & D); [rewrite E1, E2; now apply C78_faithful|].
  rewrite E1, E2 in D. fold e in D. exists cs, x, y, edges. split; [exact A|]. split; [exact C|]. intros i ch evs I. destruct (D i ch evs I) as (h & Ih & L & K). exists h. split; [exact Ih|]. split; [exact L|].
  intros k Kn. rewrite (K k Kn). apply f32_count. apply Nat.le_trans with (List.length evs); [|apply (S ch); now apply nth_error_In in I].
  generalize (fun ev : wf B * list (Z * V) => match nth_error (snd ev) p with Some (_, v) => match charge (down v) with Some q => in_bin e n k q | None => false end | None => false end). intro f.
  clear. induction evs as [|a l IH]; [auto|]. cbn [filter]. destruct (f a); cbn [List.length]; lia.
Qed.
Print Assumptions C83_single.
(** The DL1 file of C12_example: events 3, 6 and 9 with two pixels each. *)
Example C83_ex : (do ch <- file_charges (charge_column (fun v => if (v =? 60)%Z then None else Some (qz v))) (Verif.Dl1.Props.ex_reader false);
   do p0 <- pixel_of 0 ch; do p1 <- pixel_of 1 ch; Ok (map (option_map this) p0, map (option_map this) p1))%py =
   Ok ([Some 40; Some 100; Some 182]%Q, [Some 40; None; Some 80]%Q) /\
  (do ch <- file_charges (charge_column (fun v => Some (qz v))) (Verif.Dl1.Props.ex_reader false); pixel_of 2 ch)%py = Raise IndexError.
Proof. vmr. Qed.
