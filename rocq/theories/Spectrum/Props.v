(** Properties C78-C80: charge histograms, spectra of the illuminations, stored initial values. *)
From Coq Require Import List ZArith QArith Qcanon String Bool Arith Lia Reals.
From Flocq Require Import Core.
From Verif.Base Require Import Py PyFacts Str Num Lst.
From Verif.Fitter Require Import Model Proofs.
From Verif.Stats Require Model.
From Verif.Spectrum Require Import Model Spec Proofs Proofs2.
Import ListNotations.
Local Open Scope string_scope.
Local Open Scope list_scope.

Ltac vmr := repeat match goal with |- _ /\ _ => split; [vm_compute; reflexivity|] end; vm_compute; reflexivity.

(** ** C78. [faithful] (Spec.v) is what is asked of the rounding: increasing edges and a guessed bin that is at most one off.
    Bin k of illumination i then holds exactly the number of its charges between its edges. *)
Theorem C78_histograms : forall ar n_illuminations n lo hi charges st, List.length charges = n_illuminations -> (0 < n_illuminations)%nat -> (0 < n)%nat -> (lo <= hi)%Qc ->
  faithful ar (first_edge lo hi) (last_edge lo hi) n ->
  let e := f_edges ar (first_edge lo hi) (last_edge lo hi) (Z.of_nat n) in
  exists x y edges, apply_histograms ar n_illuminations (Z.of_nat n) lo hi charges st = (Hists (Some x) (Some y) (Some edges), None) /\
  List.length x = n /\ (forall k, (k < n)%nat -> nth k x 0%Qc = f32 ar ((edge e k + edge e (S k)) / qz 2)%Qc) /\
  edges = map (f32 ar) e /\ List.length y = n_illuminations /\
  forall i a, nth_error charges i = Some a -> exists h, nth_error y i = Some h /\ List.length h = n /\
    forall k, (k < n)%nat -> nth k h 0%Qc = f32 ar (qn (content e n k a)).
Proof.
  intros ar ni n lo hi charges st L NI N LH F e. pose proof F as [(LE & _) _]. fold e in LE. unfold apply_histograms. rewrite L, Nat.eqb_refl. cbn [negb].
  rewrite apply_loop_ok by auto. fold e. destruct charges as [|c charges]; [cbn in L; lia|]. set (cs := c :: charges) in *. cbn [app].
  do 3 eexists. split; [reflexivity|]. split; [rewrite map_length, between_length, LE; reflexivity|]. split.
  - intros k K. rewrite (nth_indep _ _ (f32 ar 0%Qc)) by (rewrite map_length, between_length; lia). rewrite map_nth, between_nth by lia. reflexivity.
  - split; auto. split; [rewrite map_length; auto|]. intros i a A. eexists. split; [rewrite nth_error_map, A; reflexivity|]. split; [rewrite map_length; apply seq_length|].
    intros k K. rewrite (nth_indep _ _ (f32 ar (qn (content e n 0 a)))) by (rewrite map_length, seq_length; lia).
    rewrite (map_nth (fun k => f32 ar (qn (content e n k a)))). now rewrite seq_nth by lia.
Qed.
Print Assumptions C78_histograms.
(** Every charge within the range is in exactly one bin, every other charge in none; so the bins add up to the number of
    charges within the range. *)
Theorem C78_one_bin : forall e n first last, proper_edges e n first last -> (0 < n)%nat ->
  (forall x, (first <= x <= last)%Qc -> exists k, (k < n)%nat /\ in_bin e n k x = true /\ forall j, (j < n)%nat -> in_bin e n j x = true -> j = k) /\
  (forall x k, (k < n)%nat -> in_bin e n k x = true -> (first <= x <= last)%Qc) /\
  forall charges, fold_right plus 0%nat (map (fun k => content e n k charges) (seq 0 n)) = n_in_range first last charges.
Proof.
  intros e n f l P N. split; [|split].
  - intros x X. destruct (in_bin_exists e n f l x P N X) as (k & K & B). exists k. split; auto. split; auto. intros j J C. now apply (in_bin_unique e n f l x).
  - intros x k. now apply in_bin_range.
  - intros c. now apply content_total.
Qed.
Print Assumptions C78_one_bin.
(** Without rounding the requirement holds, and the bins have equal widths; a range of no width is widened by 1/2 on both sides. *)
Theorem C78_exact : forall lo hi n, (lo <= hi)%Qc -> (0 < n)%nat ->
  let first := first_edge lo hi in let last := last_edge lo hi in
  faithful exact first last n /\
  (forall k, (k <= n)%nat -> edge (f_edges exact first last (Z.of_nat n)) k = (first + qn k * ((last - first) / qn n))%Qc) /\
  ((lo < hi)%Qc -> first = lo /\ last = hi) /\ (lo = hi -> first = (lo - Q2Qc (1 # 2))%Qc /\ last = (lo + Q2Qc (1 # 2))%Qc).
Proof.
  intros lo hi n L N first last. assert ((lo < hi)%Qc -> first = lo /\ last = hi) as A.
  { intros H. subst first last. unfold first_edge, last_edge, outer_edges. destruct (qeqb_spec lo hi) as [->|]; [exfalso; qlra|auto]. }
  assert (lo = hi -> first = (lo - Q2Qc (1 # 2))%Qc /\ last = (lo + Q2Qc (1 # 2))%Qc) as B.
  { intros ->. subst first last. unfold first_edge, last_edge, outer_edges. destruct (qeqb_spec hi hi); [auto|congruence]. }
  assert (first < last)%Qc as W. { destruct (Qc_dec lo hi) as [[H|H]|H]; [destruct (A H) as [-> ->]; auto|exfalso; qlra|destruct (B H) as [-> ->]; qlra]. }
  split; [now apply exact_faithful|]. split; [intros k K; now apply exact_edges|]. auto.
Qed.
Print Assumptions C78_exact.
(** What is refused: another number of charge arrays (nothing changes), no bins or a reversed range (ValueError; the
    previous histogram contents are gone, the previous abscissae stay). *)
Theorem C78_refused : forall ar n_illuminations n lo hi charges st,
  (List.length charges <> n_illuminations -> apply_histograms ar n_illuminations n lo hi charges st = (st, Some AssertionError)) /\
  (List.length charges = n_illuminations -> (0 < n_illuminations)%nat -> (n < 1)%Z \/ (hi < lo)%Qc ->
   apply_histograms ar n_illuminations n lo hi charges st = (Hists (hist_x st) (Some []) (hist_edges st), Some ValueError)).
Proof.
  intros ar ni n lo hi charges st. unfold apply_histograms. split.
  - intros H. now rewrite (proj2 (Nat.eqb_neq _ _) H).
  - intros L NI H. rewrite L, Nat.eqb_refl. cbn [negb]. destruct charges as [|a charges]; [cbn in L; lia|]. cbn [apply_loop]. unfold np_histogram.
    destruct (Z.ltb_spec n 1) as [|N]; auto. destruct H as [H|H]; [lia|]. destruct (qltb_spec hi lo); [auto|contradiction].
Qed.
Print Assumptions C78_refused.
(** The float32 conversion of the bin contents is exact up to 2^24 charges per bin (round to nearest even in binary32). *)
Theorem C78_float32_counts : forall k : Z, (0 <= k <= 2 ^ 24)%Z -> round radix2 (FLT_exp (-149) 24) ZnearestE (IZR k) = IZR k.
Proof.
  intros k [K0 K]. apply round_generic; [apply valid_rnd_N|]. destruct (Z.eq_dec k (2 ^ 24)) as [->|NE].
  - change (IZR (2 ^ 24)) with (IZR (Zpower radix2 24)). rewrite IZR_Zpower by lia. apply generic_format_bpow. unfold FLT_exp. lia.
  - apply generic_format_FLT. exists (Float radix2 k 0); [unfold F2R; cbn; ring|cbn [Fnum]; change (radix2 ^ 24)%Z with (2 ^ 24)%Z; lia|cbn; lia].
Qed.
Print Assumptions C78_float32_counts.
Definition some_charges : list (option Qc) := [Some (qz 0); Some (qz 1); None; Some (qz 4); Some (qz 5); Some (qz 10); Some (qz 11); Some (Q2Qc (19 # 2))].
Example C78_ex : apply_histograms exact 1 2 (qz 0) (qz 10) [some_charges] no_hists =
  (Hists (Some [Q2Qc (5 # 2); Q2Qc (15 # 2)]) (Some [[qz 3; qz 3]]) (Some [qz 0; qz 5; qz 10]), None).
Proof.
  destruct (apply_histograms exact 1 2 (qz 0) (qz 10) [some_charges] no_hists) as [[x y e] r] eqn:E. vm_compute in E. injection E as <- <- <- <-.
  unfold qz. repeat f_equal; apply Qc_is_canon; reflexivity.
Qed.
(** Guesses that are one off are corrected: here every guess is one too high (where a bin above exists). *)
Example C78_ex_rounding : match apply_histograms (Arith (fun f l n x => Z.min n (f_index exact f l n x + 1)) (f_edges exact) (fun x => x)) 1 2 (qz 0) (qz 10) [some_charges] no_hists with
  | (Hists _ (Some y) _, None) => map (map this) y = [[3; 3]]%Q | _ => False end.
Proof. vm_compute. reflexivity. Qed.

(** ** C79. [value] are the values the minimiser tries (or the result), by parameter name; [named] says that the parameters
    have the names of the fitter, with whatever settings. Spectrum i uses the shared values and its own lambda. *)
Theorem C79_gentile : forall (ps : list (param R)) n (value : string -> R) data_x, named ps gentile_parameters ->
  let r := prepare_parameters n ps in
  get_spectra gentile_calculate_spectrum n data_x (lookup r) (map value (parameter_names r)) =
  Ok (map (fun i => map (fun x => Stats.Model.sipm_gentile_spe x (value "eped") (value "eped_sigma") (value "spe") (value "spe_sigma") (value "opct")
                                    (value ("lambda_" ++ dec (N.of_nat i)))%string) data_x) (seq 0 n)).
Proof.
  intros ps n value data_x N r. pose proof (get_spectra_ok gentile_calculate_spectrum (gentile_at value) ps gentile_parameters n value data_x N gentile_nodup) as G. fold r in G. rewrite G; [unfold gentile_at; exact eq_refl|].
  intros i lk L E. apply gentile_calculate; assumption.
Qed.
Print Assumptions C79_gentile.
Theorem C79_mapm : forall (ps : list (param R)) n (value : string -> R) data_x, named ps mapm_parameters ->
  let r := prepare_parameters n ps in
  get_spectra mapm_calculate_spectrum n data_x (lookup r) (map value (parameter_names r)) =
  Ok (map (fun i => map (fun x => Stats.Model.mapm_spe x (value "eped") (value "eped_sigma") (value "spe") (value "spe_sigma")
                                    (value ("lambda_" ++ dec (N.of_nat i)))%string) data_x) (seq 0 n)).
Proof.
  intros ps n value data_x N r. pose proof (get_spectra_ok mapm_calculate_spectrum (mapm_at value) ps mapm_parameters n value data_x N mapm_nodup) as G. fold r in G. rewrite G; [unfold mapm_at; exact eq_refl|].
  intros i lk L E. apply mapm_calculate; assumption.
Qed.
Print Assumptions C79_mapm.
(** So the illumination of one file does not enter the spectrum of another. *)
Theorem C79_independent : forall (ps : list (param R)) n (value value' : string -> R) data_x i, named ps gentile_parameters -> (i < n)%nat ->
  (forall c, In c ["eped"; "eped_sigma"; "spe"; "spe_sigma"; "opct"; "lambda_" ++ dec (N.of_nat i)]%string -> value c = value' c) ->
  let r := prepare_parameters n ps in
  exists s s', get_spectra gentile_calculate_spectrum n data_x (lookup r) (map value (parameter_names r)) = Ok s /\
  get_spectra gentile_calculate_spectrum n data_x (lookup r) (map value' (parameter_names r)) = Ok s' /\ nth_error s i = nth_error s' i.
Proof.
  intros ps n value value' data_x i N I E r. do 2 eexists. split; [apply C79_gentile; assumption|]. split; [apply C79_gentile; assumption|].
  rewrite !nth_error_map. rewrite nth_error_seq. destruct (i <? n)%nat; auto. cbn [option_map]. f_equal. cbn [plus]. apply map_ext. intro x.
  rewrite !E by (cbn [In]; auto 10). exact eq_refl.
Qed.
Print Assumptions C79_independent.
(** The likelihood that is minimised compares histogram i with spectrum i, and adds up (C74 says what each term is). *)
Theorem C79_likelihood : forall (ps : list (param R)) n (value : string -> R) data_x data_y, List.length data_y = n ->
  let r := prepare_parameters n ps in
  (named ps gentile_parameters -> get_likelihood gentile_calculate_spectrum n data_x data_y (lookup r) (map value (parameter_names r)) =
     Ok (Stats.Model.get_likelihood data_x data_y (map (fun i => map (gentile_at value i) data_x) (seq 0 n)))) /\
  (named ps mapm_parameters -> get_likelihood mapm_calculate_spectrum n data_x data_y (lookup r) (map value (parameter_names r)) =
     Ok (Stats.Model.get_likelihood data_x data_y (map (fun i => map (mapm_at value i) data_x) (seq 0 n)))).
Proof.
  intros ps n value data_x data_y L r. split; intro N.
  - apply (get_likelihood_ok _ (gentile_at value) ps _ n value data_x data_y N gentile_nodup L). intros i lk I E. apply gentile_calculate; assumption.
  - apply (get_likelihood_ok _ (mapm_at value) ps _ n value data_x data_y N mapm_nodup L). intros i lk I E. apply mapm_calculate; assumption.
Qed.
Print Assumptions C79_likelihood.
Definition mapm_demo (shift : R) : list (param R) :=
  [Par "eped" shift [] 0 false; Par "eped_sigma" 9 [] 0 false; Par "spe" 25 [] 0 false; Par "spe_sigma" 2 [] 0 false; Par "lambda_" (7 / 10) [] 0 true]%R.
Example C79_ex : forall shift, named (mapm_demo shift) mapm_parameters /\ parameter_names (prepare_parameters 2 (mapm_demo shift)) = ["eped"; "eped_sigma"; "spe"; "spe_sigma"; "lambda_0"; "lambda_1"]%string.
Proof. intro. split; reflexivity. Qed.

(** ** C80. The values under "initial" in the output of extract_spe: exactly one for each name of the fit result, the
    initial value of its parameter. *)
Theorem C80_names : forall V n (ps : list (param V)), named ps gentile_parameters \/ named ps mapm_parameters ->
  exists d, spe_initial n ps = Ok d /\
  (forall name, dget name d <> None <-> In name (parameter_names (prepare_parameters n ps))) /\
  (forall p i, In p ps -> (i < n)%nat -> dget (full_name p i) d = Some (p_initial p)).
Proof. intros V n ps [N|N]; eapply spe_initial_spec; eauto; [apply gentile_lambda|apply mapm_lambda]. Qed.
Print Assumptions C80_names.
(** Without a configuration file they are the values that the fit starts from. *)
Theorem C80_unconfigured : forall V n (ps : list (param V)) bins range, named ps gentile_parameters \/ named ps mapm_parameters ->
  let f := new_fitter n ps bins range in
  exists d, spe_initial n (f_params f) = Ok d /\
  forall name, (0 < n)%nat -> In name (parameter_names (f_prep f)) -> exists v, dget name d = Some v /\ dget name (apply_kwargs f) = Some (SVal v).
Proof.
  intros V n ps bins range N f. destruct (C80_names V n ps N) as (d & E & _ & D). exists d. split; auto. intros name NP I. cbn [f_prep new_fitter f] in I.
  assert (clean n ps) as CL by (destruct N; [now apply gentile_clean|now apply mapm_clean]).
  destruct (prepare_spec n ps (proj1 CL)) as (PN & _). rewrite PN in I. unfold all_names in I. apply in_flat_map in I as (p & P & I).
  assert (exists i, (i < n)%nat /\ name = full_name p i) as (i & II & ->).
  { unfold expand in I. destruct (p_multi p) eqn:M.
    - apply in_map_iff in I as (i & <- & I). apply in_seq in I. exists i. split; [lia|auto].
    - destruct I as [<-|[]]. exists 0%nat. split; auto. unfold full_name. now rewrite M. }
  exists (p_initial p). split; auto. now destruct (kwargs_reflect n ps p i CL P II) as (K & _).
Qed.
Print Assumptions C80_unconfigured.
(** With one they are not: the file's values are stored, while the fit starts from the built-in ones (see C29). *)
Theorem C80_configured_refuted : exists (ps : list (param Z)) file f d, named ps mapm_parameters /\
  load_config (Some file) (new_fitter 1 ps 100%Z []) = Ok (f, []) /\ spe_initial 1 (f_params f) = Ok d /\
  dget "eped" d = Some 5%Z /\ dget "eped" (apply_kwargs f) = Some (SVal 0%Z).
Proof.
  exists [Par "eped" 0 [] 0 false; Par "eped_sigma" 9 [] 0 false; Par "spe" 25 [] 0 false; Par "spe_sigma" 2 [] 0 false; Par "lambda_" 1 [] 0 true]%Z%string,
    [("initial", YMap [("eped", LVal 5%Z)])]%string. do 2 eexists. split; [reflexivity|]. split; [vm_compute; reflexivity|]. split; [vm_compute; reflexivity|]. split; reflexivity.
Qed.
Print Assumptions C80_configured_refuted.
Example C80_ex : spe_initial 2 [Par "eped" 0 [] 0 false; Par "lambda_" 7 [] 0 true; Par "spe" 25 [] 0 false]%Z%string = Ok [("eped", 0); ("spe", 25); ("lambda_0", 7); ("lambda_1", 7)]%Z%string.
Proof. reflexivity. Qed.
