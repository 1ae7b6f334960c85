(** Properties C12-C15: extract_dl1 and DL1Reader. *)
From Coq Require Import List ZArith String Bool Sorted Permutation Lia.
From Verif.Base Require Import Py PyFacts Str.
From Verif.Hdf5 Require Import Model Spec.
From Verif.Dl1 Require Import Model Spec Proofs Proofs2 Proofs3.
Import ListNotations.
Local Open Scope string_scope.
Local Open Scope list_scope.
Local Open Scope Z_scope.

Ltac vmr := repeat match goal with |- _ /\ _ => split; [vm_compute; reflexivity|] end; vm_compute; reflexivity.

(** Example run: two pixels, five events of which the second is stale and the fourth has missing
    packets; the extractor has state (a running sum) and the writer flushes in the middle of it. *)
Definition ex_mem (l : list (row Z)) : Z := 150000000 * Z.of_nat (List.length l).
Definition ex_down (v : Z) : Z := 2 * (v / 2).
Definition ex_ext (s : Z) (w : wf Z) : Z * list (Z * Z) :=
  (s + wf_body w, [(7, s + wf_body w); (70000, wf_body w)]).
Definition ex_wfs : list (wf Z) :=
  [WF 3 false false 100 11 (Some [5; -1]) 40; WF 4 true false 110 12 None 50;
   WF 6 false false 120 13 None 61; WF 8 false true 130 14 None 70; WF 9 false false 140 15 None 81].
Definition ex_src (mc : bool) : source (V:=Z) (B:=Z) :=
  Src mc (fun _ => 1) (fun w => wf_body w) [RAux 0 0] [("pixel", VInt 1)] [("camera_version", VStr "1.1.0")]
      [("charge", VBool true)] [("e", VInt 3)].
Definition ex_ms : modules :=
  Mods 12 3 (fun tm => VInt (100 + tm)) (fun tm => VInt (2 * tm)) (fun tm => VInt (3 * tm))
       (fun tm sp => VInt (1000 * tm + sp)) (fun tm sp => VBool (Z.even (tm + sp))).

Lemma ex_good : forall mc, good_run ex_ext (ex_src mc) 2 ex_wfs.
Proof.
  intros mc. constructor; cbn.
  - split; lia.
  - reflexivity.
  - discriminate.
  - intros w H. repeat (destruct H as [<-|H]; [cbn; lia|]). destruct H.
  - repeat constructor.
  - repeat constructor; simpl; tauto.
  - repeat constructor; simpl; tauto.
  - repeat constructor; simpl; tauto.
Qed.

(** *** C12 *)

(** Writing and reopening always succeed, for every iteration order of the writer's key set. *)
Theorem C12_dl1_completes : forall V B St mem down (ext : St -> wf B -> St * list (Z * V)) src ms np s0 wfs,
  good_run ext src np wfs ->
  exists w, w_run mem (dl1_prep down) (dl1_ops ext src ms (Z.of_nat np) s0 wfs) w_init = (w, None) /\
    forall order, Permutation order (w_keys w) -> exists f r,
      w_finish mem (dl1_prep down) order w = Ok f /\ r_open f = Ok (r, Eq).
Proof. exact @dl1_completes. Qed.
Print Assumptions C12_dl1_completes.

Theorem C12_dl1_round_trip : forall V B St mem down (ext : St -> wf B -> St * list (Z * V)) src ms np s0 wfs,
  good_run ext src np wfs ->
  forall r, dl1_round_trip mem down ext src ms np s0 wfs r ->
    (forall e, In e (extracted ext s0 (kept wfs)) ->
       dl1_getitem r (wf_iev (fst e)) = Ok (stored_event down e)) /\
    (forall iev, ~ In iev (map wf_iev (kept wfs)) -> dl1_getitem r iev = Raise IndexError) /\
    (exists md, get_metadata r "data" "metadata" = Ok md /\
      dget "n_events" md = Some (VInt (Z.of_nat (List.length (kept wfs)))) /\
      dget "n_skipped" md = Some (VInt (Z.of_nat (List.length wfs) - Z.of_nat (List.length (kept wfs)))) /\
      dget "start_time" md = Some (match hd_error (kept wfs) with Some e => VInt (wf_tcpu e) | None => VNone end) /\
      dget "end_time" md = Some (match last_kept wfs with Some e => VInt (wf_tcpu e) | None => VNone end)).
Proof.
  intros V B St mem down ext src ms np s0 wfs G r RT. destruct (c12 mem down ext src ms np s0 wfs G r RT) as (A1 & A2 & md & A3 & A4 & A5 & A6 & A7). split; [exact A1|]. split; [exact A2|].
  exists md. split; [exact A3|]. split; [exact A4|]. split; [exact A5|]. split; [rewrite A6; now destruct (hd_error (kept wfs))|rewrite A7; now destruct (last_kept wfs)].
Qed.
Print Assumptions C12_dl1_round_trip.

Definition ex_reader (mc : bool) : reader (row Z) :=
  match w_run ex_mem (dl1_prep ex_down) (dl1_ops ex_ext (ex_src mc) ex_ms 2 0 ex_wfs) w_init with
  | (w, _) => match w_finish ex_mem (dl1_prep ex_down) (rev (w_keys w)) w with
              | Ok f => match r_open f with Ok (r, _) => r | Raise _ => R [] [] [] end
              | Raise _ => R [] [] [] end
  end.

Example C12_example : forall mc, good_run ex_ext (ex_src mc) 2 ex_wfs /\
  dl1_round_trip ex_mem ex_down ex_ext (ex_src mc) ex_ms 2 0 ex_wfs (ex_reader mc) /\
  dl1_getitem (ex_reader mc) 6 =
    Ok [RData (D 6 0 7 13 None 100); RData (D 6 1 4464 13 None 60)] /\
  dl1_getitem (ex_reader mc) 3 =
    Ok [RData (D 3 0 7 11 (Some 5) 40); RData (D 3 1 4464 11 (Some 4294967295) 40)] /\
  dl1_getitem (ex_reader mc) 4 = Raise IndexError.
Proof.
  intros mc. split; [apply ex_good|]. split.
  - unfold dl1_round_trip. destruct mc.
    + exists (fst (w_run ex_mem (dl1_prep ex_down) (dl1_ops ex_ext (ex_src true) ex_ms 2 0 ex_wfs) w_init)).
      eexists. eexists. eexists. split; [vm_compute; reflexivity|]. split; [symmetry; apply Permutation_rev|].
      split; vm_compute; reflexivity.
    + exists (fst (w_run ex_mem (dl1_prep ex_down) (dl1_ops ex_ext (ex_src false) ex_ms 2 0 ex_wfs) w_init)).
      eexists. eexists. eexists. split; [vm_compute; reflexivity|]. split; [symmetry; apply Permutation_rev|].
      split; vm_compute; reflexivity.
  - destruct mc; vmr.
Qed.

(** If no event is kept the statement fails: reading any event of the file is a TypeError, and for
    Monte Carlo input the file cannot even be opened. *)
Theorem C12_empty_run_refuted : exists (wfs : list (wf Z)) w f r,
  kept wfs = [] /\
  w_run ex_mem (dl1_prep ex_down) (dl1_ops ex_ext (ex_src false) ex_ms 2 0 wfs) w_init = (w, None) /\
  w_finish ex_mem (dl1_prep ex_down) (w_keys w) w = Ok f /\ r_open f = Ok (r, Eq) /\
  dl1_getitem r 3 = Raise TypeError.
Proof. exists [WF 3 true false 100 11 None 40]. eexists. eexists. eexists. vmr. Qed.
Print Assumptions C12_empty_run_refuted.

Theorem C12_empty_mc_run_refuted : exists (wfs : list (wf Z)) w f,
  kept wfs = [] /\
  w_run ex_mem (dl1_prep ex_down) (dl1_ops ex_ext (ex_src true) ex_ms 2 0 wfs) w_init = (w, None) /\
  w_finish ex_mem (dl1_prep ex_down) (w_keys w) w = Ok f /\ r_open f = Raise AttributeError.
Proof. exists [WF 3 true false 100 11 None 40]. eexists. eexists. vmr. Qed.
Print Assumptions C12_empty_mc_run_refuted.

(** *** C76 *)

(** Beside the 'data' table a DL1 file holds the camera mapping, the reducer configuration, the
    metadata of the input and, for simulations, one 'mc' and one 'pointing' row per kept event. *)
Theorem C76_other_tables : forall V B St mem,
  (forall l, l <> [] -> 0 < mem l) -> (forall l, 0 <= mem l) ->
  forall down (ext : St -> wf B -> St * list (Z * V)) src ms np s0 wfs,
  good_run ext src np wfs ->
  forall r, dl1_round_trip mem down ext src ms np s0 wfs r ->
    get_mapping r = Ok (s_mapping src, s_mapping_md src) /\
    (exists d, get_metadata r "data" "config" = Ok d /\ forall fld, dget fld d = dget fld (s_config src)) /\
    (exists md, get_metadata r "data" "metadata" = Ok md /\
       dget "n_modules" md = Some (VInt (m_n ms)) /\ dget "n_pixels" md = Some (VInt (Z.of_nat np)) /\
       dget "n_superpixels_per_module" md = Some (VInt (m_nsp ms)) /\
       forall fld, ~ In fld ["n_modules"; "n_pixels"; "n_superpixels_per_module"; "n_events"; "n_skipped";
                             "start_time"; "end_time"; "n_bytes"; "total_bytes"; "version"] ->
         dget fld md = dget fld (s_base src)) /\
    (s_is_mc src = true ->
       r_read r "mc" true = Ok (map (fun w => RAux (wf_iev w) (down (s_mc src w))) (kept wfs)) /\
       r_read r "pointing" true = Ok (map (fun w => RAux (wf_iev w) (down (s_pointing src w))) (kept wfs)) /\
       exists d, get_metadata r "mc" "mcheader" = Ok d /\
         forall fld, dget fld d = dget fld (s_mcheader src)) /\
    (s_is_mc src = false -> forall fc,
       r_read r "mc" fc = Raise KeyError /\ r_read r "pointing" fc = Raise KeyError).
Proof. exact @c76. Qed.
Print Assumptions C76_other_tables.

Example C76_example :
  good_run ex_ext (ex_src true) 2 ex_wfs /\
  r_read (ex_reader true) "pointing" true = Ok [RAux 3 40; RAux 6 60; RAux 9 80] /\
  r_read (ex_reader false) "pointing" true = Raise KeyError /\
  get_mapping (ex_reader true) = Ok ([RAux 0 0], [("pixel", VInt 1)]).
Proof. split; [apply ex_good|]. vmr. Qed.

(** *** C13 *)
Theorem C13_event_iteration : forall V B St mem down (ext : St -> wf B -> St * list (Z * V)) src ms np s0 wfs,
  good_run ext src np wfs ->
  forall r, dl1_round_trip mem down ext src ms np s0 wfs r ->
    iterate_over_events r = Ok (map (stored_event down) (extracted ext s0 (kept wfs))) /\
    data_table r = Ok (List.concat (map (stored_event down) (extracted ext s0 (kept wfs)))) /\
    forall sel, iterate_over_selected r sel =
      Ok (map (stored_event down)
           (filter (fun e => existsb (Z.eqb (wf_iev (fst e))) sel) (extracted ext s0 (kept wfs)))).
Proof. exact @c13. Qed.
Print Assumptions C13_event_iteration.

(** The same for any reader whose 'data' table is [n_events] blocks of [n_pixels] rows. *)
Theorem C13_any_block_file : forall V (r : reader (row V)) np bs ievs,
  (0 < np)%nat -> data_table r = Ok (List.concat bs) ->
  md_int r "n_events" = Ok (Z.of_nat (List.length bs)) -> md_int r "n_pixels" = Ok (Z.of_nat np) ->
  Forall (fun b => List.length b = np) bs ->
  Forall2 (fun b i => forall x, In x b -> row_iev x = i) bs ievs ->
  iterate_over_events r = Ok bs /\
  forall sel, iterate_over_selected r sel =
    Ok (map fst (filter (fun p : list (row V) * Z => existsb (Z.eqb (snd p)) sel) (combine bs ievs))).
Proof.
  intros V r np bs ievs H1 H2 H3 H4 H5 H6.
  assert (holds r np bs ievs) as H by (repeat split; auto).
  split; [exact (iterate_holds r np bs ievs H)|intros sel; exact (selected_holds r np bs ievs sel H)].
Qed.
Print Assumptions C13_any_block_file.

Example C13_example : 
  iterate_over_selected (ex_reader false) [9; 3; 9; 4] =
  Ok [[RData (D 3 0 7 11 (Some 5) 40); RData (D 3 1 4464 11 (Some 4294967295) 40)];
      [RData (D 9 0 7 15 None 182); RData (D 9 1 4464 15 None 80)]].
Proof. vm_compute. reflexivity. Qed.

(** *** C14 (a negative module number is a KeyError, not an IndexError) *)
Theorem C14_module_metadata : forall V B St mem down (ext : St -> wf B -> St * list (Z * V)) src ms np s0 wfs,
  good_run ext src np wfs ->
  forall r, dl1_round_trip mem down ext src ms np s0 wfs r ->
    (forall tm, 0 <= tm < m_n ms ->
       get_tm "sn" r tm = Ok (m_sn ms tm) /\ get_tm "sipm_temp" r tm = Ok (m_sipm ms tm) /\
       get_tm "primary_temp" r tm = Ok (m_prim ms tm) /\
       forall sp, 0 <= sp < m_nsp ms ->
         get_sp "dac" r tm sp = Ok (m_dac ms tm sp) /\ get_sp "hvon" r tm sp = Ok (m_hvon ms tm sp)) /\
    (forall nm tm, m_n ms <= tm -> get_tm nm r tm = Raise IndexError /\
       forall sp, get_sp nm r tm sp = Raise IndexError) /\
    (forall nm tm sp, tm < m_n ms -> m_nsp ms <= sp -> get_sp nm r tm sp = Raise IndexError) /\
    (forall nm tm, In nm ["sn"; "sipm_temp"; "primary_temp"] -> tm < m_n ms -> tm < 0 ->
       get_tm nm r tm = Raise KeyError).
Proof. exact @c14. Qed.
Print Assumptions C14_module_metadata.

Example C14_example : get_tm "sn" (ex_reader true) 11 = Ok (VInt 111) /\
  get_sp "dac" (ex_reader true) 11 2 = Ok (VInt 11002) /\ get_tm "sn" (ex_reader true) 12 = Raise IndexError /\
  get_tm "sn" (ex_reader true) (-1) = Raise KeyError.
Proof. vmr. Qed.

(** *** C15: false as stated; the output path is the input path exactly when the expected pattern
    does not occur in it. *)
Theorem C15_output_path_refuted : exists path, path <> "" /\ out_path false path = path /\ out_path true path = path.
Proof. exists "/data/run100.fits". split; [discriminate|vmr]. Qed.
Print Assumptions C15_output_path_refuted.

Theorem C15_output_differs_iff : forall is_mc path,
  out_path is_mc path = path <->
  (if is_mc then ~ occurs ".simtel.gz" path else ~ occurs "_r1" path /\ ~ occurs ".tio" path).
Proof. exact out_path_same. Qed.
Print Assumptions C15_output_differs_iff.

Example C15_example : out_path false "d/Run17_r1.tio" = "d/Run17_dl1.h5" /\
  out_path true "d/gamma.simtel.gz" = "d/gamma_dl1.h5".
Proof. vmr. Qed.
