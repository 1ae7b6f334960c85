(** Properties C16-C22: class discovery, columns, configuration, isolation of reducers. *)
From Coq Require Import List ZArith QArith Qcanon String Ascii Bool Arith Lia.
From Verif.Base Require Import Py PyFacts Str Num.
From Verif.Chain Require Import Model Spec Proofs Proofs2 Saturation SaturationProofs.
Import ListNotations.
Local Open Scope string_scope.
Local Open Scope list_scope.
Local Open Scope nat_scope.

Ltac vmr := repeat match goal with |- _ /\ _ => split; [vm_compute; reflexivity|] end; vm_compute; reflexivity.

(** The reducers of CHECLabPy/waveform_reducers, in the order in which they are imported; class 0 is
    WaveformReducer. *)
Definition repo_stmts : list class_stmt :=
  [Def "AverageWF" false [0] ["t_averagewf"; "charge_averagewf"];
   Def "Common" false [0] ["baseline_start_mean"; "baseline_start_rms"; "baseline_end_mean"; "baseline_end_rms";
     "waveform_mean"; "waveform_rms"; "waveform_max"];
   Def "CrossCorrelation" false [0] ["t_cc"; "charge_cc"; "height_cc"];
   Def "CrossCorrelationLocal" false [3] ["t_cc_local"; "charge_cc_local"; "height_cc_local"];
   Def "CrossCorrelationNeighbour" false [3] ["t_cc_nn"; "charge_cc_nn"; "height_cc_nn"];
   Def "CtapipeLocalPeakIntegrator" false [0] ["t_local"; "charge_local"];
   Def "CtapipeNeighbourPeakIntegrator" false [0] ["t_nn"; "charge_nn"];
   Def "FlagFlashers" false [0] ["flasher_unit"];
   Def "NNLSPulseExtraction" false [0] ["charge_nnls"; "nnls_tcharge"; "nnls_tmcharge"; "nnls_tccharge"; "nnls_norm";
     "nnls_npulses"; "nnls_errata"];
   Def "Saturation" false [0] ["saturation_sum"];
   Def "SlidingWindow" false [0] ["t_sliding"; "charge_sliding"];
   Def "SlidingWindowLocal" false [11] ["t_sliding_local"; "charge_sliding_local"];
   Def "SlidingWindowNeighbour" false [11] ["t_sliding_nn"; "charge_sliding_nn"];
   Def "SPAmplitude" false [0] ["sp_argmax"; "sp_max"];
   Def "Timing" false [0] ["t_pulse"; "t_pulse_amp"; "t_event"; "fwhm"; "t_rise"]].
Definition repo_world : world := exec_classes (world0 "WaveformReducer" false) repo_stmts.
Definition repo_classes : list class := snd repo_world.

(** A small hierarchy with an abstract class, a diamond and a repeated name. *)
Definition ex_classes : list class :=
  snd (exec_classes (world0 "Base" true)
    [Def "A" false [0] []; Def "Mid" true [0] []; Def "B" false [2] []; Def "C" false [2; 1] [];
     Def "f.<locals>.A" false [3] []; Def "D" false [3; 4] []]).

(** *** C16 *)
Theorem C16_child_subclasses : forall w b, hierarchy w ->
  (forall c, In c (child_subclasses w b) -> descendant w b c /\ c_abs (cls_at w c) = false) /\
  NoDup (map (fun c => c_name (cls_at w c)) (child_subclasses w b)) /\
  (forall c, descendant w b c -> c_abs (cls_at w c) = false ->
     exists d, In d (child_subclasses w b) /\ c_name (cls_at w d) = c_name (cls_at w c)) /\
  (forall c d, derives w b c -> c_abs (cls_at w c) = false ->
     In d (child_subclasses w b) -> c_name (cls_at w d) = c_name (cls_at w c) -> derives w b d).
Proof. exact c16. Qed.
Print Assumptions C16_child_subclasses.

(** With distinct names it is exactly the set of non-abstract descendants. *)
Theorem C16_distinct_names : forall w b, hierarchy w ->
  (forall c d, descendant w b c -> descendant w b d -> c_abs (cls_at w c) = false -> c_abs (cls_at w d) = false ->
     c_name (cls_at w c) = c_name (cls_at w d) -> c = d) ->
  forall c, In c (child_subclasses w b) <-> descendant w b c /\ c_abs (cls_at w c) = false.
Proof. exact children_all. Qed.
Print Assumptions C16_distinct_names.

(** Every hierarchy that class statements can produce is covered. *)
Theorem C16_reachable : forall q a l, hierarchy (snd (exec_classes (world0 q a) l)).
Proof. exact reachable_hierarchy. Qed.
Print Assumptions C16_reachable.

(** The name of a class is what follows the last dot of its qualified name, all of it without a dot. *)
Theorem C16_name : forall q n a b d m l, (forall x, In x (list_ascii_of_string n) -> x <> "."%char) ->
  c_name (Cls (q ++ "." ++ n) a b d m l) = n /\ c_name (Cls n a b d m l) = n.
Proof.
  intros q n a b d m l H. unfold c_name. cbn [c_qual].
  assert (forall acc, last_part n acc = (acc ++ n)%string) as E.
  { induction n as [|c n IH]; intros acc; cbn [last_part]; [now rewrite append_nil_r|]. destruct (Ascii.eqb_spec c ".") as [->|_]; [exfalso; now apply (H "."%char); [left|]|].
    rewrite IH by (intros x X; apply H; now right). now rewrite append_assoc. }
  split; [|apply (E ""%string)]. change ("." ++ n)%string with (String "." n). enough (forall acc, last_part (q ++ String "." n) acc = n) as X by apply X. induction q as [|c q IH]; intros acc; cbn [append last_part]; [apply (E ""%string)|]. destruct (Ascii.eqb c "."); apply IH.
Qed.
Print Assumptions C16_name.

(** The abstract Mid is left out but its children are found; class 5, named A as class 1, loses
    against the direct subclass; class 6 is found once although it is reachable in two ways. *)
Example C16_example :
  child_subclasses ex_classes 0 = [1; 4; 6; 3] /\
  map (fun c => c_name (cls_at ex_classes c)) (child_subclasses ex_classes 0) = ["A"; "C"; "D"; "B"] /\
  child_subclasses ex_classes 3 = [5; 6] /\
  List.length (child_subclasses repo_classes 0) = 15.
Proof. vmr. Qed.

(** *** C17 *)
Theorem C17_factory_produce : forall w b n, hierarchy w ->
  (forall c, produce w b n = Ok c ->
     descendant w b c /\ c_abs (cls_at w c) = false /\ c_name (cls_at w c) = n) /\
  (forall c, descendant w b c -> c_abs (cls_at w c) = false -> c_name (cls_at w c) = n ->
     (forall d, descendant w b d -> c_abs (cls_at w d) = false -> c_name (cls_at w d) = n -> d = c) ->
     produce w b n = Ok c) /\
  (produce w b n = Raise KeyError <->
     ~ exists c, descendant w b c /\ c_abs (cls_at w c) = false /\ c_name (cls_at w c) = n) /\
  (forall e, produce w b n = Raise e -> e = KeyError).
Proof. exact c17. Qed.
Print Assumptions C17_factory_produce.

Example C17_example :
  produce ex_classes 0 "D" = Ok 6 /\ produce ex_classes 0 "A" = Ok 1 /\
  produce ex_classes 0 "Mid" = Raise KeyError /\ produce ex_classes 0 "f.<locals>.A" = Raise KeyError.
Proof. vmr. Qed.

(** *** C18 *)
Theorem C18_second_definition_refused : forall q a l s i p,
  i < List.length (snd (exec_classes (world0 q a) l)) ->
  In p (c_body (cls_at (snd (exec_classes (world0 q a) l)) i)) ->
  (forall b, In b (s_bases s) -> b < List.length (snd (exec_classes (world0 q a) l))) ->
  In p (s_cols s) -> s_qual s <> c_qual (cls_at (snd (exec_classes (world0 q a) l)) i) ->
  snd (exec_class (exec_classes (world0 q a) l) s) = Some AttributeError /\
  snd (fst (exec_class (exec_classes (world0 q a) l) s)) = snd (exec_classes (world0 q a) l).
Proof. intros q a l s i p. exact (column_refused _ s i p (exec_classes_ok l _ (reg_ok0 q a))). Qed.
Print Assumptions C18_second_definition_refused.

Theorem C18_one_reducer_per_column : forall q a l b i j p,
  In i (child_subclasses (snd (exec_classes (world0 q a) l)) b) ->
  In j (child_subclasses (snd (exec_classes (world0 q a) l)) b) ->
  In p (c_cols (cls_at (snd (exec_classes (world0 q a) l)) i)) ->
  In p (c_cols (cls_at (snd (exec_classes (world0 q a) l)) j)) -> i = j.
Proof. intros q a l b i j p. exact (columns_disjoint _ b i j p (exec_classes_ok l _ (reg_ok0 q a))). Qed.
Print Assumptions C18_one_reducer_per_column.

(** The output of the chain for event [i]: a column is present iff some reducer has it active, and its
    value is the one a reducer that has it active computes alone. *)
Theorem C18_chain_output : forall W V St (w0 : W) prepf (colf : reducer -> string -> St -> W -> St * W * V) postf
    q a l load path kwargs chain os h evs h' ds,
  chain_init (snd (exec_classes (world0 q a) l)) load path kwargs = Ok chain -> map o_red os = chain ->
  (forall e, In e evs -> e < List.length h) ->
  chain_events w0 prepf colf postf h os evs = (h', ds) ->
  forall i c, i < List.length evs ->
    (forall v, dget c (nth i ds []) = Some v <->
       exists o, In o os /\ In c (r_active (o_red o)) /\
         dget c (nth i (alone_history prepf colf postf (o_red o) (o_st o) (map (h_get w0 h) evs)) []) = Some v) /\
    (In c (dkeys (nth i ds [])) <-> exists r, In r chain /\ In c (r_active r)).
Proof.
  intros W V St w0 prepf colf postf q a l load path kwargs chain os h evs h' ds.
  exact (chain_output w0 prepf colf postf _ load path kwargs chain os h evs h' ds (exec_classes_ok l _ (reg_ok0 q a))).
Qed.
Print Assumptions C18_chain_output.

Example C18_example :
  snd (exec_class repo_world (Def "Other" false [0] ["fresh"; "t_cc"])) = Some AttributeError /\
  snd (exec_class repo_world (Def "Other" false [0] ["fresh"])) = None /\
  snd (exec_class (fst (exec_class repo_world (Def "Other" false [0] ["fresh"; "t_cc"])))
         (Def "Third" false [0] ["fresh"])) = Some AttributeError /\
  snd (exec_class (fst (exec_class repo_world (Def "Other" false [0] ["fresh"; "t_cc"])))
         (Def "Other" false [0] ["fresh"])) = None /\
  c_cols (cls_at repo_classes 4) = ["t_cc_local"; "charge_cc_local"; "height_cc_local"] /\
  List.length (c_members (cls_at repo_classes 4)) = 6.
Proof. vmr. Qed.

(** *** C19 *)
Theorem C19_active_columns : forall w load path kwargs, dict_ok kwargs ->
  (forall d, file_of load path = Some d -> dict_ok d) ->
  (forall chain, chain_init w load path kwargs = Ok chain ->
     map (fun r => (r_cls r, r_active r)) chain =
     map (fun r => (r, filter (switched_on (file_of load path) kwargs) (c_cols (cls_at w r))))
         (filter (fun r => existsb (switched_on (file_of load path) kwargs) (c_cols (cls_at w r)))
                 (child_subclasses w 0))) /\
  ((forall k, In k ["n_pixels"; "n_samples"; "cls"; "self"] ->
      dget k kwargs = None /\ forall d, file_of load path = Some d -> dget k d = None) ->
   exists chain, chain_init w load path kwargs = Ok chain).
Proof. exact c19. Qed.
Print Assumptions C19_active_columns.

Definition ex_load (p : string) : option (dict val) :=
  if String.eqb p "cfg.yml" then Some [("t_cc", VBool true); ("t_event", VInt 3); ("waveform_mean", VBool false);
    ("fwhm", VNone)] else None.
Definition active_of (r : res (list reducer)) : list (nat * list string) :=
  match r with Ok c => map (fun r => (r_cls r, r_active r)) c | Raise _ => [] end.

(** Default, a file with a keyword argument switching off one column and on another, and an empty
    file. *)
Example C19_example :
  active_of (chain_init repo_classes ex_load None []) =
    [(1, ["t_averagewf"; "charge_averagewf"]);
     (2, ["baseline_start_mean"; "baseline_start_rms"; "baseline_end_mean"; "baseline_end_rms"; "waveform_mean"; "waveform_rms"]);
     (3, ["t_cc"; "charge_cc"; "height_cc"]); (10, ["saturation_sum"])] /\
  active_of (chain_init repo_classes ex_load (Some "cfg.yml") [("t_cc", VInt 0); ("sp_max", VBool true)]) =
    [(14, ["sp_max"]); (15, ["t_event"])] /\
  chain_init repo_classes ex_load (Some "empty.yml") [] = Ok [] /\
  chain_init repo_classes ex_load None [("n_pixels", VInt 3)] = Raise TypeError.
Proof. vmr. Qed.

(** *** C20 *)
Theorem C20_reducers_isolated : forall W V St (w0 : W) prepf (colf : reducer -> string -> St -> W -> St * W * V) postf
    h os evs h' ds, (forall e, In e evs -> e < List.length h) ->
  chain_events w0 prepf colf postf h os evs = (h', ds) ->
  (forall l, l < List.length h -> h_get w0 h' l = h_get w0 h l) /\
  List.length ds = List.length evs /\
  forall i, i < List.length evs ->
    nth i ds [] = fold_left dupdate
      (map (fun o => nth i (alone_history prepf colf postf (o_red o) (o_st o) (map (h_get w0 h) evs)) []) os) [].
Proof. intros W V St w0 prepf colf postf h os evs. exact (chain_events_spec w0 prepf colf postf evs h os). Qed.
Print Assumptions C20_reducers_isolated.

(** Two reducers that both scribble over their array and keep state; the same array is processed
    twice. *)
Definition ex_prep (r : reducer) (s : Z) (x : list Z) : Z * list Z := ((s + 1)%Z, map (Z.mul 2) x).
Definition ex_col (r : reducer) (c : string) (s : Z) (x : list Z) : Z * list Z * Z :=
  ((s + 10)%Z, map (fun _ => 0%Z) x, fold_left Z.add x s).
Definition ex_post (r : reducer) (s : Z) (x : list Z) : Z * list Z := ((s + 100)%Z, []).
Example C20_example :
  chain_events [] ex_prep ex_col ex_post [[1; 2]; [3]]%Z
    [Obj (Red 1 ["a"; "b"] []) 0%Z None; Obj (Red 2 ["c"] []) 5%Z None] [0; 0; 1] =
  ([[1; 2]; [3]; []; []; []; []; []; []]%Z,
   [[("a", 7); ("b", 11); ("c", 12)]; [("a", 128); ("b", 132); ("c", 123)]; [("a", 249); ("b", 253); ("c", 234)]]%Z).
Proof. vm_compute. reflexivity. Qed.

(** *** C21 *)

(** As documented when "t_event" is not among the keyword arguments. *)
Theorem C21_without_t_event : forall kwargs wfs n shift, dget "t_event" kwargs = None ->
  dgetd (VInt 4) "window_shift" kwargs = VInt (Z.of_nat shift) -> shift <= 10 ->
  wfs <> [] -> 20 <= n -> (forall w, In w wfs -> List.length w = n) ->
  exists t, is_pulse_start wfs n t /\
    saturation_sum kwargs wfs n = Ok (map (fun w => qsum (skipn (t - shift) w)) wfs).
Proof. exact c21_without. Qed.
Print Assumptions C21_without_t_event.

(** With the column switch t_event: False (as in the default configuration) the last 4 samples are
    summed, with t_event: True the last 3, wherever the pulse is. *)
Theorem C21_with_t_event_switch : forall kwargs wfs n v, dget "t_event" kwargs = Some (VBool v) ->
  dget "window_shift" kwargs = None -> 4 <= n -> (forall w, In w wfs -> List.length w = n) ->
  saturation_sum kwargs wfs n = Ok (map (fun w => qsum (skipn (n - if v then 3 else 4) w)) wfs).
Proof. exact c21_with. Qed.
Print Assumptions C21_with_t_event_switch.

Theorem C21_default_chain : forall load kwargs wfs n, dict_ok kwargs -> dget "t_event" kwargs = None ->
  dget "window_shift" kwargs = None -> 4 <= n -> (forall w, In w wfs -> List.length w = n) ->
  saturation_sum (chain_config load None kwargs) wfs n = Ok (map (fun w => qsum (skipn (n - 4) w)) wfs).
Proof.
  intros load kwargs wfs n HK HT HW Hn HL.
  exact (c21_with _ wfs n false (default_has_t_event load kwargs HK HT) (default_no_shift load kwargs HK HW) Hn HL).
Qed.
Print Assumptions C21_default_chain.

(** A pulse at sample 20 of 40 in one pixel, a flat second pixel. *)
Definition ex_wfs : list (list Qc) :=
  [map (fun k => if k =? 20 then qz 100 else qz 1) (seq 0 40); map (fun _ => qz 2) (seq 0 40)].
Definition ex_file (p : string) : option (dict val) := Some [("saturation_sum", VBool true)].

(** Switching the column t_event on, off or leaving it out changes saturation_sum. *)
Theorem C21_refuted : exists load wfs n,
  (forall w, In w wfs -> List.length w = n) /\ 20 <= n /\
  saturation_sum (chain_config load (Some "f") []) wfs n <> saturation_sum (chain_config load None []) wfs n /\
  saturation_sum (chain_config load (Some "f") [("t_event", VBool true)]) wfs n <>
  saturation_sum (chain_config load (Some "f") [("t_event", VBool false)]) wfs n.
Proof.
  exists ex_file, ex_wfs, 40. split; [|split; [|split]].
  - intros w [<-|[<-|[]]]; reflexivity.
  - lia.
  - intros E. assert (forall a b : res (list Qc), a = b -> match a with Ok (x :: _) => this x | _ => 0%Q end =
      match b with Ok (x :: _) => this x | _ => 0%Q end) as F by (intros a b ->; reflexivity).
    apply F in E. vm_compute in E. discriminate.
  - intros E. assert (forall a b : res (list Qc), a = b -> match a with Ok (x :: _) => this x | _ => 0%Q end =
      match b with Ok (x :: _) => this x | _ => 0%Q end) as F by (intros a b ->; reflexivity).
    apply F in E. vm_compute in E. discriminate.
Qed.
Print Assumptions C21_refuted.

Definition qvals (r : res (list Qc)) : list Q := match r with Ok l => map this l | Raise _ => [] end.
Example C21_example :
  qvals (saturation_sum [] ex_wfs 40) = [123#1; 48#1]%Q /\
  qvals (saturation_sum (chain_config ex_file None []) ex_wfs 40) = [4#1; 8#1]%Q /\
  qvals (saturation_sum [("window_shift", VInt 0)] ex_wfs 40) = [119#1; 40#1]%Q.
Proof. vmr. Qed.

(** *** C22 *)

(** The lines of the generated file that are not blank and not comments: one per column. *)
Theorem C22_generated_lines : forall default bare rs,
  (forall r, In r rs -> one_line (rd_name r) /\ good_opt_doc (rd_doc r) /\
     forall c, In c (rd_cols r) -> col_name_ok (fst c) /\ good_opt_doc (snd c)) ->
  filter significant (lines (config_text default bare rs)) =
  map (fun c => c ++ ": " ++ match dgetd (VBool true) c default with VBool true => "True" | VBool false => "False" | _ => "" end)%string (flat_map (fun r => map fst (rd_cols r)) rs).
Proof. exact c22_lines. Qed.
Print Assumptions C22_generated_lines.

(** Using the generated file is the same as using none exactly when every column has a default. *)
Theorem C22_equivalent_iff : forall load path cols, path <> ""%string ->
  NoDup cols -> load path = Some (generated_config default_columns cols) ->
  (get_active_columns cols true (chain_config load (Some path) []) =
   get_active_columns cols true (chain_config load None []) <->
   forall c, In c cols -> In c (dkeys default_columns)).
Proof. exact c22_equiv. Qed.
Print Assumptions C22_equivalent_iff.

(** The columns of the reducer Common include waveform_max, which has no default: the generated file
    switches it on. *)
Theorem C22_equivalence_refuted : exists load path,
  load path = Some (generated_config default_columns (c_cols (cls_at repo_classes 2))) /\
  In "waveform_max" (get_active_columns (c_cols (cls_at repo_classes 2)) true (chain_config load (Some path) [])) /\
  ~ In "waveform_max" (get_active_columns (c_cols (cls_at repo_classes 2)) true (chain_config load None [])).
Proof.
  exists (fun _ => Some (generated_config default_columns (c_cols (cls_at repo_classes 2)))), "dl1.yml".
  split; [reflexivity|]. split.
  - vm_compute. tauto.
  - vm_compute. intuition discriminate.
Qed.
Print Assumptions C22_equivalence_refuted.

Definition ex_rs : list rdoc :=
  [RDoc "Common" (Some (nl ++ "    Two" ++ nl ++ "      lines" ++ nl ++ "    ")%string)
     [("t_event", Some (nl ++ "        Time" ++ nl ++ "        ")%string); ("waveform_max", None)];
   RDoc "Bare" None []].
Example C22_example :
  config_text default_columns false ex_rs =
  ("# Common" ++ nl ++ "#  Two" ++ nl ++ "#  lines" ++ nl ++ "t_event: False" ++ nl ++ "#    Time" ++ nl ++
   "waveform_max: True" ++ nl ++ nl ++ "# Bare" ++ nl ++ nl)%string /\
  filter significant (lines (config_text default_columns false ex_rs)) = ["t_event: False"; "waveform_max: True"] /\
  filter significant (lines (config_text default_columns true ex_rs)) = ["t_event: False"; "waveform_max: True"].
Proof. vmr. Qed.
