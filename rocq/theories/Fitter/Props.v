(** Properties C28-C31: parameter bookkeeping, configuration and normalisation of the spectrum fitters. *)
From Coq Require Import List ZArith QArith Qcanon String Bool Arith Lia.
From Verif.Base Require Import Py PyFacts Str Num.
From Verif.Fitter Require Import Model Proofs.
Import ListNotations.
Local Open Scope string_scope.
Local Open Scope list_scope.

Ltac vmr := repeat match goal with |- _ /\ _ => split; [vm_compute; reflexivity|] end; vm_compute; reflexivity.

(** ** C28. Let [value] be the vector the minimiser chooses, indexed by the names it was given. For
    every illumination [i] and parameter [p], the position stored in lookup[i] is the one of the value
    named [full_name p i]; shared parameters use one position for all illuminations, other positions
    belong to exactly one illumination and parameter, and every position is used. *)
Theorem C28_parameter_lookup : forall (V : Type) n (ps : list (param V)),
  NoDup (map p_name ps) -> NoDup (all_names n ps) ->
  let r := prepare_parameters n ps in
  parameter_names r = all_names n ps /\
  (forall i p (value : string -> V), (i < n)%nat -> In p ps -> exists k,
     dget (p_name p) (nth i (lookup r) []) = Some k /\
     nth_error (map value (parameter_names r)) k = Some (value (full_name p i))) /\
  (forall i p j q k, (i < n)%nat -> (j < n)%nat -> In p ps -> In q ps ->
     dget (p_name p) (nth i (lookup r) []) = Some k -> dget (p_name q) (nth j (lookup r) []) = Some k ->
     p = q /\ (p_multi p = true -> i = j)) /\
  (forall i j p, (i < n)%nat -> (j < n)%nat -> In p ps -> p_multi p = false ->
     dget (p_name p) (nth i (lookup r) []) = dget (p_name p) (nth j (lookup r) [])) /\
  ((0 < n)%nat -> forall k, (k < List.length (parameter_names r))%nat ->
     exists i p, (i < n)%nat /\ In p ps /\ dget (p_name p) (nth i (lookup r) []) = Some k).
Proof. intros V n ps H1 H2. exact (c28 n ps H1 H2). Qed.
Print Assumptions C28_parameter_lookup.

(** A lookup has no other keys than the parameter names, and there is one per illumination. *)
Theorem C28_lookup_keys : forall (V : Type) n (ps : list (param V)), NoDup (map p_name ps) ->
  let r := prepare_parameters n ps in
  List.length (lookup r) = n /\
  forall i c, (i < n)%nat -> (dget c (nth i (lookup r) []) <> None <-> In c (map p_name ps)).
Proof.
  intros V n ps ND r. destruct (prepare_spec n ps ND) as (_ & _ & L & N & I). split; [exact L|].
  intros i c Hi. split.
  - intros H. destruct (in_dec string_dec c (map p_name ps)) as [X|X]; auto. exfalso. apply H. apply N; auto.
  - intros H. apply in_map_iff in H. destruct H as (p & <- & Hp). destruct (I i p Hi Hp) as (k & E & _).
    fold r in E. rewrite E. discriminate.
Qed.
Print Assumptions C28_lookup_keys.

Definition demo_params : list (param Z) :=
  [Par "eped" 0 [-10; 10] 0 false; Par "lambda_" 1 [0; 4] 0 true; Par "spe" 25 [1; 40] 0 false]%Z.
Example C28_example :
  parameter_names (prepare_parameters 2 demo_params) = ["eped"; "lambda_0"; "lambda_1"; "spe"] /\
  lookup (prepare_parameters 2 demo_params) =
    [[("eped", 0); ("lambda_", 1); ("spe", 3)]; [("eped", 0); ("lambda_", 2); ("spe", 3)]]%nat.
Proof. vmr. Qed.
(** The hypotheses are satisfied by the parameters of the Gentile fitter with two illuminations. *)
Example C28_hypotheses : NoDup (map p_name demo_params) /\ NoDup (all_names 2 demo_params).
Proof. split; vm_compute; repeat constructor; cbn; intuition discriminate. Qed.
(** Without distinct expanded names the lookup can be ambiguous: names a0 (shared) and a (multi). *)
Example C28_clash : parameter_names (prepare_parameters 1 [Par "a" 1%Z [] 0%Z true; Par "a0" 2%Z [] 0%Z false]) = ["a0"; "a0"].
Proof. reflexivity. Qed.

(** ** C29. After construction, and after an update that returns, the keyword arguments handed to the
    minimiser are the current settings of every parameter. *)
Theorem C29_construction_and_update : forall (V : Type),
  (forall n (ps : list (param V)) b r, clean n ps -> reflects (new_fitter n ps b r)) /\
  (forall qs (f f' : fitter V), update qs f = (f', None) -> clean (f_n f') (f_params f') -> reflects f').
Proof. intros V. split; [exact new_reflects|exact update_reflects]. Qed.
Print Assumptions C29_construction_and_update.

(** Before any fit the initial values cannot be taken from the result. *)
Theorem C29_before_fit : forall (V : Type) n (ps : list (param V)) b r ill, let f := new_fitter n ps b r in update_initial ill f = (f, Some ValueError).
Proof. reflexivity. Qed.
Print Assumptions C29_before_fit.

(** An update stores exactly the new settings of the parameters named; an unknown name is refused. *)
Theorem C29_update_stores : forall (V : Type) (q : param V) f f',
  NoDup (map p_name (f_params f)) ->
  (update [q] f = (f', None) ->
     In q (f_params f') /\
     (forall p, p_name p <> p_name q -> (In p (f_params f') <-> In p (f_params f))) /\
     map p_name (f_params f') = map p_name (f_params f)) /\
  (~ In (p_name q) (map p_name (f_params f)) -> update [q] f = (f, Some AttributeError)).
Proof.
  intros V q f f' ND. unfold update. cbn [update_loop]. split.
  - destruct (update_param q (f_params f)) as [ps|e] eqn:U; [|discriminate]. intros E. inversion E; subst. cbn [f_params].
    destruct (update_param_get q (f_params f) ps ND U) as (A & B & C). split; auto. split.
    + intros p N. split; intros I; [destruct (C p I) as [->|[I' _]]; [congruence|auto]|auto].
    + eapply (update_names [q]). cbn [update_loop]. now rewrite U.
  - intros NI. assert (update_param q (f_params f) = Raise AttributeError) as ->.
    { clear ND. induction (f_params f) as [|p ps IH]; auto. cbn [update_param].
      destruct (eqb_spec (p_name p) (p_name q)) as [E|N]; [exfalso; apply NI; left; auto|].
      rewrite IH; auto. intros X. apply NI. now right. }
    destruct f; reflexivity.
Qed.
Print Assumptions C29_update_stores.

(** update_initial takes the fitted values of one illumination as the new initial values and leaves
    limits and fixing alone; without a fit, or without a fitted value, it refuses. *)
Theorem C29_update_initial_stores : forall (V : Type) ill (f : fitter V),
  (f_result f = None -> update_initial ill f = (f, Some ValueError)) /\
  (forall r, f_result f = Some r ->
     let fitted p := dget (if p_multi p then (p_name p ++ dec (N.of_nat ill))%string else p_name p) r in
     ((forall p, In p (f_params f) -> fitted p <> None) ->
        exists f', update_initial ill f = (f', None) /\
          Forall2 (fun p p' => fitted p = Some (p_initial p') /\
            (p_name p', p_limits p', p_fixed p', p_multi p') = (p_name p, p_limits p, p_fixed p, p_multi p))
            (f_params f) (f_params f')) /\
     ((exists p, In p (f_params f) /\ fitted p = None) -> snd (update_initial ill f) = Some KeyError)).
Proof.
  intros V ill f. split.
  - intros E. unfold update_initial. now rewrite E.
  - intros r E. cbv zeta. unfold update_initial. rewrite E. split.
    + intros H.
      assert (exists ps, initial_loop r ill (f_params f) = (ps, None) /\
        Forall2 (fun p p' => dget (if p_multi p then (p_name p ++ dec (N.of_nat ill))%string else p_name p) r = Some (p_initial p') /\
            (p_name p', p_limits p', p_fixed p', p_multi p') = (p_name p, p_limits p, p_fixed p, p_multi p)) (f_params f) ps) as (ps & L & F).
      { clear E. induction (f_params f) as [|p ps IH]; [exists []; split; [reflexivity|constructor]|].
        destruct IH as (ps' & L & F); [intros q I; apply H; now right|].
        pose proof (H p (or_introl eq_refl)) as N. cbn [initial_loop]. rewrite L.
        destruct (dget (if p_multi p then (p_name p ++ dec (N.of_nat ill))%string else p_name p) r) as [v|] eqn:D; [|contradiction].
        eexists. split; [reflexivity|]. constructor; auto. }
      rewrite L. eexists. split; [reflexivity|]. exact F.
    + intros (p & I & N). destruct (initial_loop r ill (f_params f)) as [ps e] eqn:L. cbn [snd].
      clear E. revert ps e L I. induction (f_params f) as [|q qs IH]; intros ps e L I; [destruct I|].
      cbn [initial_loop] in L.
      destruct (dget (if p_multi q then (p_name q ++ dec (N.of_nat ill))%string else p_name q) r) as [v|] eqn:D; [|inversion L; auto].
      destruct (initial_loop r ill qs) as [t' e'] eqn:L'. inversion L; subst. destruct I as [->|I]; [congruence|]. eapply IH; eauto.
Qed.
Print Assumptions C29_update_initial_stores.

(** The other two ways of changing the settings never reach the minimiser: whatever sequence of
    load_config and update_initial follows, the keyword arguments stay what they were. *)
Inductive stale_op (V : Type) := OLoad (file : option (dict (yaml V))) | OInitial (illumination : nat).
Arguments OLoad {V}. Arguments OInitial {V}.
Definition run_op {V} (f : fitter V) (o : stale_op V) : fitter V :=
  match o with
  | OLoad file => match load_config file f with Ok (f', _) => f' | Raise _ => f end
  | OInitial ill => fst (update_initial ill f)
  end.
Theorem C29_load_and_initial_keep_kwargs : forall (V : Type) ops (f : fitter V),
  apply_kwargs (fold_left run_op ops f) = apply_kwargs f.
Proof.
  intros V ops. induction ops as [|o ops IH]; intros f; auto. cbn [fold_left]. rewrite IH.
  destruct o as [file|ill]; cbn [run_op]; [|apply initial_keeps_kwargs].
  destruct (load_config file f) as [[f' rest]|e] eqn:E; auto. eapply load_keeps_kwargs; eauto.
Qed.
Print Assumptions C29_load_and_initial_keep_kwargs.

(** ... so they are wrong as soon as a setting changes. *)
Theorem C29_load_config_refuted : exists (ps : list (param Z)) d f' rest,
  clean 1 ps /\ load_config (Some d) (new_fitter 1 ps 100%Z []) = Ok (f', rest) /\ rest = [] /\ ~ reflects f'.
Proof.
  exists [Par "eped" 0 [-10; 10] 0 false]%Z, [("initial", YMap [("eped", LVal 5%Z)])].
  do 2 eexists. split; [split; vm_compute; repeat constructor; cbn; intuition discriminate|].
  split; [vm_compute; reflexivity|]. split; [reflexivity|].
  intros R. destruct (R (Par "eped" 5 [-10; 10] 0 false)%Z 0%nat) as [E _]; [now left|cbn; lia|].
  vm_compute in E. discriminate.
Qed.
Print Assumptions C29_load_config_refuted.

Theorem C29_update_initial_refuted : exists (f f' : fitter Z),
  reflects f /\ clean (f_n f) (f_params f) /\ update_initial 0 f = (f', None) /\ ~ reflects f'.
Proof.
  exists (Fit 1 [Par "eped" 0 [-10; 10] 0 false] (prepare_parameters 1 [Par "eped" 0 [-10; 10] 0 false]) 100 [] (Some [("eped", 3)]))%Z.
  eexists. split; [intros p i [<-|[]] Hi; vm_compute; auto|].
  split; [split; vm_compute; repeat constructor; cbn; intuition discriminate|].
  split; [vm_compute; reflexivity|].
  intros R. destruct (R (Par "eped" 3 [-10; 10] 0 false)%Z 0%nat) as [E _]; [now left|cbn; lia|].
  vm_compute in E. discriminate.
Qed.
Print Assumptions C29_update_initial_refuted.

(** A following update repairs it, even one that changes nothing. *)
Theorem C29_update_repairs : forall (V : Type) ops (f : fitter V), let f' := fold_left run_op ops f in
  clean (f_n f') (f_params f') -> exists f'', update [] f' = (f'', None) /\ f_params f'' = f_params f' /\ reflects f''.
Proof.
  intros V ops f f' C. eexists. split; [reflexivity|]. split; [reflexivity|].
  apply (update_reflects [] f'); [reflexivity|exact C].
Qed.
Print Assumptions C29_update_repairs.

Example C29_example :
  let f := new_fitter 2 demo_params 100%Z [] in
  let f' := fst (update [Par "lambda_" 2 [1; 3] 1 true]%Z f) in
  dget "lambda_1" (apply_kwargs f') = Some (SVal 2%Z) /\ dget "limit_lambda_0" (apply_kwargs f') = Some (SLim [1; 3]%Z) /\
  dget "fix_eped" (apply_kwargs f') = Some (SVal 0%Z).
Proof. intros f f'. vmr. Qed.

(** ** C30. Saving and loading restores the settings in any fitter with the same parameters. *)
Theorem C30_round_trip : forall (V : Type) (f g : fitter V),
  NoDup (map p_name (f_params f)) -> NoDup (map p_name (f_params g)) ->
  (forall c, In c (map p_name (f_params f)) <-> In c (map p_name (f_params g))) ->
  exists g', load_config (Some (save_config f)) g = Ok (g', []) /\
    f_bins g' = f_bins f /\ f_range g' = f_range f /\
    map (fun q => (p_name q, p_multi q)) (f_params g') = map (fun q => (p_name q, p_multi q)) (f_params g) /\
    forall p q, In p (f_params f) -> In q (f_params g') -> p_name p = p_name q ->
      p_initial q = p_initial p /\ p_limits q = p_limits p /\ p_fixed q = p_fixed p.
Proof. intros V. exact c30_round_trip. Qed.
Print Assumptions C30_round_trip.

(** Loading any well typed file changes exactly the settings it mentions and reports exactly the
    entries it did not use. *)
Theorem C30_partial_file : forall (V : Type) (f : fitter V) d,
  NoDup (map p_name (f_params f)) -> file_ok (map p_name (f_params f)) d ->
  exists f' rest, load_config (Some d) f = Ok (f', rest) /\
    f_bins f' = (match dget "n_bins" d with Some (YLeaf (LVal v)) => v | _ => f_bins f end) /\
    f_range f' = (match dget "range" d with Some (YLeaf (LSeq v)) => v | _ => f_range f end) /\
    f_params f' = map (fun p => Par (p_name p)
        (match entry "initial" d (p_name p) with Some (LVal v) => v | _ => p_initial p end)
        (match entry "limits" d (p_name p) with Some (LSeq v) => v | _ => p_limits p end)
        (match entry "fixed" d (p_name p) with Some (LVal v) => v | _ => p_fixed p end) (p_multi p)) (f_params f) /\
    f_n f' = f_n f /\ f_result f' = f_result f /\
    forall k, dget k rest =
      if smem k ["n_bins"; "range"] then None
      else if smem k ["initial"; "limits"; "fixed"] then
        match dget k d with
        | Some (YMap m) =>
            match filter (fun kv => negb (smem (fst kv) (map p_name (f_params f)))) m with [] => None | l => Some (YMap l) end
        | x => x
        end
      else dget k d.
Proof.
  intros V f d ND OK. destruct (load_config_ok f d ND OK) as (rest & L & U). do 2 eexists. split; [exact L|].
  cbn [f_bins f_range f_params f_n f_result]. repeat split; auto.
Qed.
Print Assumptions C30_partial_file.

(** A file with a number where a pair or a section is expected is refused: the range, or the section of any kind (an empty section is read as no value). *)
Theorem C30_bad_file : forall (V : Type) (f : fitter V) d v, (forall x, dget "n_bins" d = Some x -> exists b, x = YLeaf (LVal b)) ->
  (dget "range" d = Some (YLeaf (LVal v)) -> load_config (Some d) f = Raise TypeError) /\
  (dget "range" d = None -> f_params f <> [] -> dget "initial" d = Some (YLeaf (LVal v)) -> load_config (Some d) f = Raise AttributeError) /\
  (dget "range" d = None -> f_params f <> [] -> dget "initial" d = None -> dget "limits" d = Some (YLeaf (LVal v)) -> load_config (Some d) f = Raise AttributeError) /\
  (dget "range" d = None -> f_params f <> [] -> dget "initial" d = None -> dget "limits" d = None -> dget "fixed" d = Some (YLeaf (LVal v)) -> load_config (Some d) f = Raise AttributeError).
Proof.
  intros V f d v NB.
  assert (forall k, k <> "n_bins" -> k <> "range" -> dget k (dpop "range" (dpop "n_bins" d)) = dget k d) as G.
  { intros k N1 N2. rewrite !dget_dpop. apply String.eqb_neq in N1, N2. now rewrite N1, N2. }
  assert (forall k, k <> "n_bins" -> dget k (dpop "n_bins" d) = dget k d) as G1. { intros k N1. rewrite dget_dpop. apply String.eqb_neq in N1. now rewrite N1. }
  assert (forall e, dget "range" d = None -> f_params f <> [] -> (forall p, load_param p (dpop "range" (dpop "n_bins" d)) = Raise e) -> load_config (Some d) f = Raise e) as L.
  { intros e R NE P. destruct f as [n ps pr bs rg rs]. cbn [f_params] in NE. destruct ps as [|p ps]; [congruence|]. unfold load_config. cbn [f_bins f_range f_params f_n f_prep f_result].
    rewrite (G1 "range"), R by discriminate. cbn [bind load_params]. rewrite P. cbn [bind].
    destruct (dget "n_bins" d) as [x|] eqn:E; [destruct (NB x eq_refl) as [b ->]|]; reflexivity. }
  repeat split.
  - intros R. unfold load_config. rewrite (G1 "range"), R by discriminate. cbn [as_tuple bind]. destruct (dget "n_bins" d) as [x|] eqn:E; [destruct (NB x eq_refl) as [b ->]|]; reflexivity.
  - intros R NE S. apply L; auto. intros p. unfold load_param, sect. rewrite G, S by discriminate. reflexivity.
  - intros R NE S1 S2. apply L; auto. intros p. unfold load_param, sect. rewrite !G, S1 by discriminate. cbn [bind]. rewrite G, S2 by discriminate. reflexivity.
  - intros R NE S1 S2 S3. apply L; auto. intros p. unfold load_param, sect. rewrite !G, S1 by discriminate. cbn [bind]. rewrite !G, S2 by discriminate. cbn [bind]. rewrite G, S3 by discriminate. reflexivity.
Qed.
Print Assumptions C30_bad_file.
Example C30_ex_bad : load_config (Some [("n_bins", YLeaf (LVal 50%Z)); ("limits", YLeaf (LVal 7%Z))]) (new_fitter 2 demo_params 100%Z [1; 2]%Z) = Raise AttributeError /\
  load_config (Some [("range", YLeaf (LVal 7%Z))]) (new_fitter 2 demo_params 100%Z [1; 2]%Z) = Raise TypeError.
Proof. split; reflexivity. Qed.

Example C30_example :
  let d := [("n_bins", YLeaf (LVal 50%Z)); ("initial", YMap [("spe", LVal 30%Z); ("typo", LVal 1%Z)]); ("extra", YLeaf (LVal 7%Z))] in
  match load_config (Some d) (new_fitter 2 demo_params 100%Z [1; 2]%Z) with
  | Ok (f', rest) => f_bins f' = 50%Z /\ f_range f' = [1; 2]%Z /\ map p_initial (f_params f') = [0; 1; 30]%Z /\
      rest = [("initial", YMap [("typo", LVal 1%Z)]); ("extra", YLeaf (LVal 7%Z))]
  | Raise _ => False
  end.
Proof. intros d. cbv. auto. Qed.
Example C30_file_ok : file_ok ["spe"] [("limits", YMap [("spe", LSeq [1; 2]%Z)])].
Proof.
  split; [now left|]. split; [now left|]. split; [|split].
  - intros s [<-|[<-|[<-|[]]]]; [now left| |now left]. right. eexists. reflexivity.
  - intros s m c [<-|[<-|[]]] _; discriminate.
  - intros m c [<-|[]] E. vm_compute in E. inversion E. right. eexists. reflexivity.
Qed.

(** ** C31. Whatever shape the spectrum function returns, each fitted curve has the area of its
    histogram, and is the spectrum up to one factor. *)
Theorem C31_curve_area : forall lo hi n_bins get_spectra hist_x hist_y,
  let fit_x := fst (fit_result_curve lo hi n_bins get_spectra hist_x hist_y) in
  let fit_y := snd (fit_result_curve lo hi n_bins get_spectra hist_x hist_y) in
  List.length fit_x = (n_bins * 10)%nat /\
  forall i s h, nth_error (get_spectra fit_x) i = Some s -> nth_error hist_y i = Some h -> trapz s fit_x <> 0%Qc ->
    exists y c, nth_error fit_y i = Some y /\ trapz y fit_x = trapz h hist_x /\ y = map (fun v => (v * c)%Qc) s.
Proof.
  intros lo hi n_bins gs hx hy fx fy. subst fx fy. unfold fit_result_curve. cbn [fst snd]. split; [apply linspace_length|].
  intros i s h Es Eh NZ. exists (normalise s (linspace lo hi (n_bins * 10)) h hx).
  destruct (normalise_prop s (linspace lo hi (n_bins * 10)) h hx) as (c & Ec). exists c. split; [|split; auto].
  - rewrite nth_error_map.
    assert (forall (A B : Type) (l : list A) (m : list B) i a b, nth_error l i = Some a -> nth_error m i = Some b ->
              nth_error (combine l m) i = Some (a, b)) as NC.
    { induction l as [|a l IH]; intros m [|j] a' b Ha Hb; try discriminate; destruct m; try discriminate; cbn in *.
      - congruence. - now apply IH. }
    rewrite (NC _ _ _ _ _ _ _ Es Eh). reflexivity.
  - now apply normalise_area.
Qed.
Print Assumptions C31_curve_area.

(** The same for the spectra compared with the data in the likelihood. *)
Theorem C31_likelihood_area : forall spectrum x hist,
  trapz spectrum x <> 0%Qc -> trapz (normalise spectrum x hist x) x = trapz hist x.
Proof. intros. now apply normalise_area. Qed.
Print Assumptions C31_likelihood_area.

(** The first and last abscissa are the ends of the range. *)
Theorem C31_abscissae : forall lo hi n, (1 < n)%nat ->
  nth 0 (linspace lo hi n) 0%Qc = lo /\ nth (n - 1) (linspace lo hi n) 0%Qc = hi.
Proof.
  intros lo hi n Hn. rewrite !linspace_nth by lia. split.
  - rewrite qn_0. ring.
  - field. intros E. pose proof (qn_pos (n - 1) ltac:(lia)) as P. rewrite E in P. now apply Qclt_not_eq in P.
Qed.
Print Assumptions C31_abscissae.

(** The area is the one of the polygon through the points: exact for a straight line, and additive over adjacent ranges. *)
Theorem C31_area_line : forall a b x0 x,
  let hi := last (x0 :: x) x0 in
  trapz (map (fun t => a * t + b)%Qc (x0 :: x)) (x0 :: x) = ((hi - x0) * (a * (hi + x0) / qz 2 + b))%Qc.
Proof. exact trapz_line. Qed.
Print Assumptions C31_area_line.
Theorem C31_area_split : forall x1 y1 x y x2 y2, List.length x1 = List.length y1 ->
  trapz (y1 ++ y :: y2) (x1 ++ x :: x2) = (trapz (y1 ++ [y]) (x1 ++ [x]) + trapz (y :: y2) (x :: x2))%Qc.
Proof. exact trapz_split. Qed.
Print Assumptions C31_area_split.

Example C31_example :
  map this (normalise [qz 1; qz 2; qz 1] [qz 0; qz 1; qz 2] [qz 10; qz 20] [qz 0; qz 4]) = map this [qz 20; qz 40; qz 20] /\
  this (trapz [qz 20; qz 40; qz 20] [qz 0; qz 1; qz 2]) = this (qz 60) /\ this (trapz [qz 10; qz 20] [qz 0; qz 4]) = this (qz 60).
Proof. vmr. Qed.
