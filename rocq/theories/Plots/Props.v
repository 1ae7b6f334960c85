(** Properties C87-C90: pictures of the fitted parameters, colour limits, pages of waveforms. *)
From Coq Require Import List ZArith QArith Qcanon Bool Lia Permutation.
From Verif.Base Require Import Py PyFacts Num Lst.
From Verif.Camera Require Import Model Proofs2 Props.
From Verif.Spe Require Import Model Proofs Props.
From Verif.Plots Require Import Model Proofs.
Import ListNotations.
Local Open Scope list_scope.
Ltac vmr := repeat match goal with |- _ /\ _ => split; [vm_compute; reflexivity|] end; vm_compute; reflexivity.

(** C87. plot_spe on the tables of extract_spe. *)
Lemma rows_fst : forall ch oc X (fit : ch -> oc) pc (g : oc -> X) l, map fst (rows fit pc g l) = l.
Proof. intros. unfold rows. rewrite map_map. cbn [fst]. apply map_id. Qed.
Lemma rows_loc : forall ch oc X (fit : ch -> oc) pc (g : oc -> X) n t p, Permutation t (rows fit pc g (seq 0 n)) -> (p < n)%nat -> loc p t = Ok (g (fit (pc p))).
Proof.
  intros ch oc X fit pc g n t p P L. apply loc_in.
  - eapply Permutation_NoDup; [apply Permutation_map, Permutation_sym, P|]. rewrite rows_fst. apply seq_NoDup.
  - eapply Permutation_in; [apply Permutation_sym, P|]. unfold rows. apply in_map_iff. exists p. split; [reflexivity|]. apply in_seq. lia.
Qed.
Lemma rows_show : forall ch oc X (fit : ch -> oc) pc (g : oc -> X) n t, Permutation t (rows fit pc g (seq 0 n)) -> show n t = Ok (map snd t).
Proof. intros ch oc X fit pc g n t P. unfold show. rewrite (Permutation_length P). unfold rows. rewrite map_length, seq_length, Nat.eqb_refl. reflexivity. Qed.
(** The spectrum of a pixel is drawn from that pixel's own fit, whatever the processes and their schedule; a pixel the camera
    does not have is refused. *)
Theorem C87_spectrum : forall charges outcome V E A (fit : charges -> outcome) (fv : outcome -> V) (fe : outcome -> E) (fa : outcome -> A) pixel_charges n_pixels ds trace,
  distribution n_pixels ds -> interleaving (map program ds) trace ->
  let s := run fit fv fe fa pixel_charges trace in
  forall p, spe_pixel (pixel_values s) (pixel_errors s) (pixel_arrays s) p =
    if (p <? n_pixels)%nat then Ok (fv (fit (pixel_charges p)), fe (fit (pixel_charges p)), fa (fit (pixel_charges p))) else Raise KeyError.
Proof.
  intros ch oc V E A fit fv fe fa pc n ds trace D I s p. destruct (C67_results ch oc V E A fit fv fe fa pc n ds trace D I) as (P1 & P2 & P3). fold s in P1, P2, P3. unfold spe_pixel.
  destruct (Nat.ltb_spec p n) as [L|L].
  - rewrite (rows_loc _ _ _ _ _ _ _ _ _ P1 L), (rows_loc _ _ _ _ _ _ _ _ _ P2 L), (rows_loc _ _ _ _ _ _ _ _ _ P3 L). reflexivity.
  - rewrite loc_out; [reflexivity|]. intro K. eapply Permutation_in in K; [|apply Permutation_map, P1]. rewrite rows_fst in K. apply in_seq in K. lia.
Qed.
Print Assumptions C87_spectrum.
(** Tables made by one process: each patch of the two images shows the value and the error of its own pixel. *)
Theorem C87_one_process : forall charges outcome V E A (fit : charges -> outcome) (fv : outcome -> V) (fe : outcome -> E) (fa : outcome -> A) pixel_charges n_pixels,
  let s := run fit fv fe fa pixel_charges (process n_pixels) in
  exists v e, spe_camera n_pixels (pixel_values s) (pixel_errors s) = Ok (v, e) /\
  forall p, (p < n_pixels)%nat -> nth_error v p = Some (fv (fit (pixel_charges p))) /\ nth_error e p = Some (fe (fit (pixel_charges p))).
Proof.
  intros ch oc V E A fit fv fe fa pc n s. pose proof (C67_sequential ch oc V E A fit fv fe fa pc n) as T. fold s in T. unfold tables in T. injection T as TV TE TA.
  unfold spe_camera. rewrite (rows_show ch oc V fit pc fv n), (rows_show ch oc E fit pc fe n) by (rewrite ?TV, ?TE; apply Permutation_refl). cbn [bind].
  eexists. eexists. split; [reflexivity|]. intros p L. rewrite TV, TE. unfold rows. rewrite !map_map. cbn [snd].
  rewrite !nth_error_map.
  assert (nth_error (seq 0 n) p = Some p) as -> by now apply seq_at.
  split; reflexivity.
Qed.
Print Assumptions C87_one_process.
(** A mapping of another size than the tables is refused. *)
Theorem C87_size : forall V E n_pixels (values : list (nat * V)) (errors : list (nat * E)),
  spe_camera n_pixels values errors = if (List.length values =? n_pixels)%nat && (List.length errors =? n_pixels)%nat then Ok (map snd values, map snd errors) else Raise AssertionError.
Proof. intros V E n values errors. unfold spe_camera, show. destruct (Nat.eqb_spec (List.length values) n); [|reflexivity]. cbn [bind andb]. destruct (Nat.eqb_spec (List.length errors) n); reflexivity. Qed.
Print Assumptions C87_size.
(** Any schedule: nothing is lost or invented, patch j shows the row stored j-th; if no two pixels share a value, the picture is
    right exactly when the rows happen to be in pixel order. *)
Theorem C87_camera : forall charges outcome V E A (fit : charges -> outcome) (fv : outcome -> V) (fe : outcome -> E) (fa : outcome -> A) pixel_charges n_pixels ds trace,
  distribution n_pixels ds -> interleaving (map program ds) trace ->
  let s := run fit fv fe fa pixel_charges trace in
  exists v e, spe_camera n_pixels (pixel_values s) (pixel_errors s) = Ok (v, e) /\
  Permutation v (map (fun p => fv (fit (pixel_charges p))) (seq 0 n_pixels)) /\
  Permutation e (map (fun p => fe (fit (pixel_charges p))) (seq 0 n_pixels)) /\
  ((forall p q, (p < n_pixels)%nat -> (q < n_pixels)%nat -> fv (fit (pixel_charges p)) = fv (fit (pixel_charges q)) -> p = q) ->
   ((forall p, (p < n_pixels)%nat -> nth_error v p = Some (fv (fit (pixel_charges p)))) <-> map fst (pixel_values s) = seq 0 n_pixels)).
Proof.
  intros ch oc V E A fit fv fe fa pc n ds trace D I s. destruct (C67_results ch oc V E A fit fv fe fa pc n ds trace D I) as (P1 & P2 & _). fold s in P1, P2.
  unfold spe_camera. rewrite (rows_show _ _ _ _ _ _ _ _ P1), (rows_show _ _ _ _ _ _ _ _ P2). cbn [bind]. eexists. eexists. split; [reflexivity|].
  assert (RS : forall X (g : oc -> X), map snd (rows fit pc g (seq 0 n)) = map (fun p => g (fit (pc p))) (seq 0 n)) by (intros; unfold rows; now rewrite map_map).
  split; [rewrite <- RS; now apply Permutation_map|]. split; [rewrite <- RS; now apply Permutation_map|]. intros INJ.
  assert (LEN : List.length (pixel_values s) = n) by (rewrite (Permutation_length P1); unfold rows; now rewrite map_length, seq_length).
  assert (EACH : forall j k w, nth_error (pixel_values s) j = Some (k, w) -> (k < n)%nat /\ w = fv (fit (pc k))).
  { intros j k w N. apply nth_error_In in N. eapply Permutation_in in N; [|exact P1]. unfold rows in N. apply in_map_iff in N as (q & Q & J). injection Q as <- <-. apply in_seq in J. split; [lia|reflexivity]. }
  split.
  - intros H. apply list_ext. intros j. rewrite nth_error_map. destruct (nth_error (pixel_values s) j) as [[k w]|] eqn:N; cbn [option_map fst].
    + assert (J : (j < n)%nat). { rewrite <- LEN. apply nth_error_Some. congruence. } destruct (EACH _ _ _ N) as [K ->].
      rewrite seq_at by exact J. f_equal.
      specialize (H j J). rewrite nth_error_map, N in H. cbn [option_map snd] in H. injection H as H. now apply INJ.
    + symmetry. apply nth_error_None. rewrite seq_length. apply nth_error_None in N. lia.
  - intros H p L. rewrite nth_error_map. assert (F : nth_error (map fst (pixel_values s)) p = Some p). { rewrite H. now apply seq_at. }
    rewrite nth_error_map in F. destruct (nth_error (pixel_values s) p) as [[k w]|] eqn:N; [|discriminate]. injection F as ->. destruct (EACH _ _ _ N) as [_ ->]. reflexivity.
Qed.
Print Assumptions C87_camera.
(** Two processes, two pixels: the value of pixel 1 can be painted on pixel 0 and the reverse, while the picture of the errors is right. *)
Theorem C87_order_refuted : exists ds trace, distribution 2 ds /\ interleaving (map program ds) trace /\
  spe_camera 2 (pixel_values (ex_run trace)) (pixel_errors (ex_run trace)) = Ok ([10%Z; 0%Z], [0%Z; 10%Z]) /\
  spe_pixel (pixel_values (ex_run trace)) (pixel_errors (ex_run trace)) (pixel_arrays (ex_run trace)) 0 = Ok (0%Z, 0%Z, 0%Z).
Proof.
  exists [[0%nat]; [1%nat]], late. split; [|split; [apply late_interleaving|split; reflexivity]].
  split; [repeat constructor; cbn; intuition lia|]. intros p. cbn [List.concat app In]. lia.
Qed.
Print Assumptions C87_order_refuted.
Example C87_ex : spe_camera 3 (pixel_values (ex_run (process 3))) (pixel_errors (ex_run (process 3))) = Ok ([0%Z; 10%Z; 20%Z], [0%Z; 10%Z; 20%Z]) /\
  spe_camera 4 (pixel_values (ex_run (process 3))) (pixel_errors (ex_run (process 3))) = Raise AssertionError.
Proof. vmr. Qed.

(** C88. Limits of the colour scale after any sequence of calls. *)
(** Limits set by hand stay through any images that follow. *)
Theorem C88_fixed : forall n_pixels before a b images s,
  (forall c, In c images -> exists v, c = SetImage v) ->
  do_calls n_pixels (before ++ SetLimitsMinmax a b :: images) = Ok s -> limits s = Some (a, b).
Proof.
  intros n before a b images s P H. rewrite calls_app in H. destruct (do_calls n before) as [s0|]; [|discriminate]. cbn [bind foldM do_call] in H.
  apply images_keep in H; [|exact P|reflexivity]. destruct H as [ -> _]. reflexivity.
Qed.
Print Assumptions C88_fixed.
(** Otherwise (nothing set by hand, or released again) they are the smallest and the largest finite value of the image on
    display; on a logarithmic scale, of its positive values. *)
Definition automatic (cs : list call) : Prop :=
  exists before after, cs = before ++ after /\ (forall a b, ~ In (SetLimitsMinmax a b) after) /\
  (before = [] /\ after <> [] \/ exists l, before = l ++ [ResetLimits]).
Definition is_log (cs : list call) : Prop := In SetZLog cs.
Theorem C88_automatic : forall n_pixels cs s, automatic cs -> do_calls n_pixels cs = Ok s ->
  exists values, is_range (limits s) values /\
  forall x, In x values <-> In (Some x) (last_image n_pixels cs) /\ (is_log cs -> (0 < x)%Qc).
Proof.
  intros n cs s (before & after & -> & P & B) H.
  destruct (calls_shown n (before ++ after) (new_image n) s H) as [SH LG].
  assert (F : fitted s).
  { rewrite calls_app in H. destruct (do_calls n before) as [s0|] eqn:E; [|discriminate]. cbn [bind] in H. destruct B as [[ -> NE]|[l ->]].
    - cbn in E. injection E as <-. apply (calls_fitted n after (new_image n)); auto.
    - rewrite calls_app in E. destruct (do_calls n l) as [s1|]; [|discriminate]. cbn [bind foldM do_call] in E. injection E as <-.
      refine (calls_fitted n after _ s P _ (or_introl _) H); reflexivity. }
  unfold fitted, rescale in F. cbn [limits] in F. rewrite F.
  eexists. split; [apply span_range|]. intros x.
  assert (V : In x (valid (shown s)) <-> In (Some x) (last_image n (before ++ after))).
  { unfold last_image. cbn [new_image shown] in SH. rewrite <- SH. unfold valid. rewrite in_flat_map. split.
    - intros ([y|] & I & J); [|destruct J]. destruct J as [ ->|[]]. exact I.
    - intros I. exists (Some x). split; [exact I|now left]. }
  assert (LI : logarithmic s = true <-> is_log (before ++ after)).
  { rewrite LG. cbn [new_image logarithmic]. rewrite orb_false_r, existsb_exists. unfold is_log. split; [intros (c & I & C); destruct c; try discriminate; exact I|intros I; now exists SetZLog]. }
  destruct (logarithmic s).
  - rewrite filter_In, V. split; intros [I J]; (split; [exact I|]).
    + intros _. destruct (qltb_spec 0 x); [assumption|discriminate].
    + destruct (qltb_spec 0 x) as [K|K]; [reflexivity|]. elim K. apply J, LI. reflexivity.
  - rewrite V. split; [intros I; split; [exact I|]|tauto]. intros L. apply LI in L. discriminate.
Qed.
Print Assumptions C88_automatic.
(** An image of another size is refused. *)
Theorem C88_size : forall n_pixels cs v, List.length v <> n_pixels -> (exists s, do_calls n_pixels cs = Ok s) -> do_calls n_pixels (cs ++ [SetImage v]) = Raise AssertionError.
Proof.
  intros n cs v L [s H]. rewrite calls_app, H. cbn [bind foldM do_call]. destruct (Nat.eqb_spec (List.length v) n); [easy|reflexivity].
Qed.
Print Assumptions C88_size.
(** set_z_log throws limits set by hand away, and the ones it computes instead are then kept for every later image. *)
Theorem C88_log_refuted : exists n_pixels cs s, do_calls n_pixels cs = Ok s /\
  cs = [SetImage [Some (qz 1); Some (qz 2)]; SetLimitsMinmax (qz 1) (qz 100); SetZLog; SetImage [Some (qz 5); Some (qz 7)]] /\
  limits s = Some (qz 1, qz 2) /\ shown s = [Some (qz 5); Some (qz 7)].
Proof. exists 2%nat. eexists. eexists. split; [|split; [reflexivity|]]; [cbn; reflexivity|]. split; vm_compute; reflexivity. Qed.
Print Assumptions C88_log_refuted.
Theorem C88_log_frozen : forall n_pixels before a b images more s,
  (forall c, In c images -> exists v, c = SetImage v) -> (forall c, In c more -> exists v, c = SetImage v) ->
  do_calls n_pixels (before ++ SetLimitsMinmax a b :: images ++ SetZLog :: more) = Ok s ->
  exists values, is_range (limits s) values /\ forall x, In x values <-> In (Some x) (last_image n_pixels (before ++ SetLimitsMinmax a b :: images)) /\ (0 < x)%Qc.
Proof.
  intros n before a b images more s PI PM H.
  replace (before ++ SetLimitsMinmax a b :: images ++ SetZLog :: more) with ((before ++ SetLimitsMinmax a b :: images) ++ SetZLog :: more) in H by (rewrite <- app_assoc; reflexivity).
  rewrite calls_app in H. destruct (do_calls n (before ++ SetLimitsMinmax a b :: images)) as [s1|] eqn:E; [|discriminate]. cbn [bind foldM do_call] in H.
  pose proof (calls_shown _ _ _ _ E) as [SH _]. cbn [new_image shown] in SH.
  assert (AF : autoscale s1 = false). { rewrite calls_app in E. destruct (do_calls n before); [|discriminate]. cbn [bind foldM do_call] in E. apply images_keep in E; [tauto|exact PI|reflexivity]. }
  apply images_keep in H; [|exact PM|exact AF]. destruct H as [ -> _]. cbn [rescale limits logarithmic shown]. eexists. split; [apply span_range|]. intros x. rewrite filter_In. unfold last_image. rewrite <- SH.
  unfold valid. rewrite in_flat_map. destruct (qltb_spec 0 x) as [K|K]; split.
  - intros [([y|] & I & J) _]; [|destruct J]. destruct J as [ ->|[]]. auto.
  - intros [I _]. split; [|reflexivity]. exists (Some x). split; [exact I|now left].
  - intros [_ X]. discriminate.
  - intros [_ X]. contradiction.
Qed.
Print Assumptions C88_log_frozen.
(** The imshow version: right when every unmasked cell of the grid has a pixel ... *)
Theorem C88_imshow : forall nr nc pixels values,
  (forall c, In c pixels -> in_range nr nc c) -> NoDup pixels -> List.length values = List.length pixels ->
  (forall r c, (r < nr)%nat -> (c < nc)%nat -> corner nr nc r c = false -> In (Z.of_nat r, Z.of_nat c) pixels) ->
  exists lim, imshow_limits nr nc pixels values = Ok lim /\ is_range lim values.
Proof.
  intros nr nc pixels values R N L COV. destruct (C66_image nr nc pixels values R N L) as (g & G & PX & OUT & IN). unfold imshow_limits. rewrite G. cbn [bind]. eexists. split; [reflexivity|].
  assert (EQ : forall x, In x (grid_values g) <-> In x values).
  { intros x. rewrite grid_values_in. split.
    - intros (r & c & C). destruct (IN _ _ _ C) as [LR LC]. assert (DEC : forall a b : Z * Z, {a = b} + {a <> b}) by (decide equality; apply Z.eq_dec). destruct (in_dec DEC (Z.of_nat r, Z.of_nat c) pixels) as [I|I].
      + apply In_nth_error in I as [p I]. destruct (nth_error values p) as [v|] eqn:V.
        * rewrite (PX p r c v I V) in C. injection C as <-. eapply nth_error_In; eauto.
        * apply nth_error_None in V. assert (p < List.length pixels)%nat by (apply nth_error_Some; congruence). lia.
      + rewrite (OUT r c LR LC I) in C. destruct (corner nr nc r c) eqn:K; [discriminate|]. elim I. now apply COV.
    - intros I. apply In_nth_error in I as [p V]. destruct (nth_error pixels p) as [[zr zc]|] eqn:P.
      + destruct (R (zr, zc)) as [RR RC]; [eapply nth_error_In; eauto|]. cbn [fst snd] in RR, RC. exists (Z.to_nat zr), (Z.to_nat zc). apply (PX p); [|exact V]. rewrite P, !Z2Nat.id by lia. reflexivity.
      + apply nth_error_None in P. assert (p < List.length values)%nat by (apply nth_error_Some; congruence). lia. }
  pose proof (span_range (grid_values g)) as S. destruct (span (grid_values g)) as [[a b]|]; cbn [is_range] in *.
  - destruct S as (A & B & C). rewrite !EQ in *. split; [exact A|]. split; [exact B|]. intros x X. apply C, EQ, X.
  - destruct values as [|v values]; [reflexivity|]. exfalso. assert (X : In v (grid_values g)) by (apply EQ; now left). rewrite S in X. destruct X.
Qed.
Print Assumptions C88_imshow.
(** ... and wrong otherwise: cells without a pixel count as zeros. *)
Theorem C88_imshow_refuted : exists nr nc pixels values, (forall c, In c pixels -> in_range nr nc c) /\ NoDup pixels /\ List.length values = List.length pixels /\
  imshow_limits nr nc pixels values = Ok (Some (qz 0, qz 7)) /\ values = [qz 5; qz 6; qz 7].
Proof.
  exists 2%nat, 2%nat, [(0, 0); (0, 1); (1, 0)]%Z, [qz 5; qz 6; qz 7]. split; [intros c [<-|[<-|[<-|[]]]]; unfold in_range; cbn; lia|].
  split; [repeat constructor; cbn; intuition discriminate|]. vmr.
Qed.
Print Assumptions C88_imshow_refuted.
Example C88_ex : match do_calls 3 [SetImage [Some (qz 4); None; Some (qz (-2))]] with Ok s => limits s | Raise _ => None end = Some (qz (-2), qz 4) /\
  match do_calls 3 [SetLimitsMinmax (qz 0) (qz 9); SetImage [Some (qz 4); None; Some (qz (-2))]; ResetLimits; SetZLog] with Ok s => limits s | Raise _ => None end = Some (qz 4, qz 4).
Proof. vmr. Qed.

(** C89. Outlines of the modules on the page of pixel waveforms. *)
(** The module a position belongs to, for modules of h rows and w columns. *)
Definition module_at (h w : nat) (row col : Z) : Z * Z := ((row / Z.of_nat h)%Z, (col / Z.of_nat w)%Z).
Lemma edge_low : forall n c, (0 < n)%nat -> (Nat.modulo c n = 0)%nat <-> ((Z.of_nat c - 1) / Z.of_nat n <> Z.of_nat c / Z.of_nat n)%Z.
Proof.
  intros n c N. pose proof (Nat.div_mod c n ltac:(lia)) as D. pose proof (Nat.mod_upper_bound c n ltac:(lia)) as B.
  assert (Q : (Z.of_nat c / Z.of_nat n)%Z = Z.of_nat (Nat.div c n)) by now rewrite <- Nat2Z.inj_div. rewrite Q. split.
  - intros M. assert ((Z.of_nat c - 1) / Z.of_nat n = Z.of_nat (Nat.div c n) - 1)%Z; [|lia].
    symmetry. apply Z.div_unique with (Z.of_nat n - 1)%Z; [lia|]. nia.
  - intros H. destruct (Nat.eq_dec (Nat.modulo c n) 0) as [E|E]; [exact E|]. elim H. symmetry. apply Z.div_unique with (Z.of_nat (Nat.modulo c n) - 1)%Z; [lia|]. nia.
Qed.
Lemma edge_high : forall n c, (0 < n)%nat -> (Nat.modulo c n = n - 1)%nat <-> ((Z.of_nat c + 1) / Z.of_nat n <> Z.of_nat c / Z.of_nat n)%Z.
Proof.
  intros n c N. pose proof (Nat.div_mod c n ltac:(lia)) as D. pose proof (Nat.mod_upper_bound c n ltac:(lia)) as B.
  assert (Q : (Z.of_nat c / Z.of_nat n)%Z = Z.of_nat (Nat.div c n)) by now rewrite <- Nat2Z.inj_div. rewrite Q. split.
  - intros M. assert ((Z.of_nat c + 1) / Z.of_nat n = Z.of_nat (Nat.div c n) + 1)%Z; [|lia].
    symmetry. apply Z.div_unique with 0%Z; [lia|]. nia.
  - intros H. destruct (Nat.eq_dec (Nat.modulo c n) (n - 1)) as [E|E]; [exact E|]. elim H. symmetry. apply Z.div_unique with (Z.of_nat (Nat.modulo c n) + 1)%Z; [lia|]. nia.
Qed.
Definition plain (s : spine) : Prop := colour s = black /\ linewidth s = Q2Qc (1 # 10).
(** A camera of six by six modules: a side of a pixel is drawn exactly when the neighbour on that side is in another module. *)
Theorem C89_outlines : forall h w mapping, (0 < h)%nat -> (0 < w)%nat ->
  exists page, pixel_page (6 * h) (6 * w) mapping = Ok page /\ List.length page = List.length mapping /\
  forall p row col, nth_error mapping p = Some (row, col) -> exists a, nth_error page p = Some a /\
    let r := Z.of_nat row in let c := Z.of_nat col in let here := module_at h w r c in
    (visible (left a) = true <-> module_at h w r (c - 1) <> here) /\ (visible (right a) = true <-> module_at h w r (c + 1) <> here) /\
    (visible (bottom a) = true <-> module_at h w (r - 1) c <> here) /\ (visible (top a) = true <-> module_at h w (r + 1) c <> here) /\
    plain (left a) /\ plain (right a) /\ plain (bottom a) /\ plain (top a).
Proof.
  intros h w mapping H W.
  assert (DH : Nat.div (6 * h) 6 = h) by (rewrite Nat.mul_comm; now apply Nat.div_mul). assert (DW : Nat.div (6 * w) 6 = w) by (rewrite Nat.mul_comm; now apply Nat.div_mul).
  unfold pixel_page, outline. cbv zeta. rewrite DH, DW. destruct (Nat.eqb_spec w 0); [lia|]. destruct (Nat.eqb_spec h 0); [lia|]. cbn [orb]. rewrite mapM_Ok_map.
  eexists. split; [reflexivity|]. split; [apply map_length|]. intros p row col M. rewrite nth_error_map, M. cbn [option_map]. eexists. split; [reflexivity|]. cbn [fst snd left right bottom top new_axes].
  assert (VH : forall b, visible (hide (negb b) new_spine) = true <-> b = true) by (intros []; cbn; tauto).
  assert (PL : forall b, plain (hide b new_spine)) by (intros []; split; reflexivity).
  unfold module_at. rewrite !VH, !Nat.eqb_eq, !edge_low, !edge_high by assumption.
  repeat match goal with |- _ /\ _ => split end; try apply PL; (split; [intros K E; injection E as E|intros K E; apply K; now rewrite E]); auto.
Qed.
Print Assumptions C89_outlines.
(** Highlighting marks exactly the pixels of the mask. *)
Theorem C89_highlight : forall mask c page page', highlight mask c page = Ok page' -> forall p a, nth_error page p = Some a ->
  exists a', nth_error page' p = Some a' /\
  if nth p mask false then forall s, In s [left a'; right a'; bottom a'; top a'] -> visible s = true /\ colour s = c /\ linewidth s = 1%Qc else a' = a.
Proof.
  intros mask c page page' H p a A. rewrite (highlight_nth _ _ _ _ H), A. eexists. split; [reflexivity|]. destruct (nth p mask false); [|reflexivity].
  intros s [<-|[<-|[<-|[<-|[]]]]]; cbn; auto.
Qed.
Print Assumptions C89_highlight.
(** A mask that fits is accepted, a longer one raises. *)
Theorem C89_mask_size : forall mask c page, (exists page', highlight mask c page = Ok page') <-> (List.length mask <= List.length page)%nat.
Proof.
  intros mask c page. split; [|apply highlight_ok]. intros [page' H]. destruct (Nat.le_gt_cases (List.length mask) (List.length page)) as [L|L]; [exact L|]. rewrite highlight_long in H by exact L. discriminate.
Qed.
Print Assumptions C89_mask_size.
(** After any number of highlights, reset_pixel_highlight brings back the page as it was made. *)
Theorem C89_reset : forall n_rows n_cols mapping page marks page',
  pixel_page n_rows n_cols mapping = Ok page ->
  foldM (fun pg m => highlight (fst m) (snd m) pg) marks page = Ok page' ->
  reset n_rows n_cols mapping page' = Ok page.
Proof.
  intros nr nc mapping page marks page' P H.
  assert (LP : List.length page = List.length mapping) by (apply mapM_Ok_iff in P; clear H; induction P as [|? ? ? ? ? ? IH]; cbn [List.length]; [reflexivity|now rewrite IH]).
  assert (L : forall marks p p', foldM (fun pg m => highlight (fst m) (snd m) pg) marks p = Ok p' -> List.length p' = List.length p).
  { clear. induction marks as [|m marks IH]; intros p p' H; cbn [foldM] in H; [now injection H as <-|]. destruct (highlight (fst m) (snd m) p) as [q|] eqn:E; [|discriminate]. rewrite (IH _ _ H). eapply highlight_length; eauto. }
  rewrite reset_page; [exact P|]. rewrite (L _ _ _ H). exact LP.
Qed.
Print Assumptions C89_reset.
(** The sixths are taken for any camera: on the page of a single module of eight by eight pixels, the side between two pixels
    of the module is drawn. *)
Theorem C89_single_refuted : exists page a, pixel_page 8 8 (list_prod (seq 0 8) (seq 0 8)) = Ok page /\ nth_error page 27 = Some a /\
  nth_error (list_prod (seq 0 8) (seq 0 8)) 27 = Some (3, 3)%nat /\ module_at 8 8 3 4 = module_at 8 8 3 3 /\ visible (right a) = true /\
  forall a', In a' page -> visible (left a') = true /\ visible (right a') = true /\ visible (bottom a') = true /\ visible (top a') = true.
Proof.
  eexists. eexists. split; [vm_compute; reflexivity|]. split; [reflexivity|]. split; [reflexivity|]. split; [reflexivity|]. split; [reflexivity|].
  intros a' I. cbn [In] in I. repeat (destruct I as [<-|I]; [repeat split|]). destruct I.
Qed.
Print Assumptions C89_single_refuted.
Example C89_ex : match pixel_page 48 48 [(8, 8); (9, 15)]%nat with
  | Ok page => map (fun a => map visible [left a; right a; bottom a; top a]) page = [[true; false; true; false]; [false; true; false; false]]
  | Raise _ => False end.
Proof. vmr. Qed.

(** C90. The page of module waveforms. *)
(** The largest value of the waveform averaged over the camera. *)
Definition is_peak (n_samples : nat) (w : list (list Qc)) (peak : Qc) : Prop :=
  let total s := qsum (map (fun wf => nth s wf 0%Qc) w) in
  (exists s, (s < n_samples)%nat /\ (peak * qn (List.length w) = total s)%Qc) /\ forall s, (s < n_samples)%nat -> (total s <= peak * qn (List.length w))%Qc.
Lemma mean_peak : forall n w m, (0 < List.length w)%nat -> qmax_list (mean_waveform n w) = Some m -> is_peak n w m.
Proof.
  intros n w m L H. apply qmax_list_spec in H as [I M]. assert (P : (0 < qn (List.length w))%Qc) by now apply qn_pos.
  assert (NZ : qn (List.length w) <> 0%Qc) by (intro K; rewrite K in P; now apply Qclt_not_eq in P). split.
  - unfold mean_waveform in I. apply in_map_iff in I as (s & E & S). apply in_seq in S. exists s. split; [lia|]. rewrite <- E. now field.
  - intros s S. assert (K : In (qsum (map (fun wf => nth s wf 0%Qc) w) / qn (List.length w))%Qc (mean_waveform n w)) by (unfold mean_waveform; apply in_map_iff; exists s; split; [reflexivity|apply in_seq; lia]).
    apply M in K. apply (Qcmult_le_compat_r _ _ (qn (List.length w))) in K; [|now apply Qclt_le_weak]. replace (qsum (map (fun wf => nth s wf 0%Qc) w)) with (qsum (map (fun wf => nth s wf 0%Qc) w) / qn (List.length w) * qn (List.length w))%Qc by now field. exact K.
Qed.
Theorem C90_page : forall n_rows n_samples mapping fraction w n_tm,
  List.length w = (64 * n_tm)%nat -> (0 < n_tm)%nat -> (0 < n_samples)%nat -> (forall wf, In wf w -> List.length wf = n_samples) ->
  (forall tm rc, In (tm, rc) mapping -> (tm < n_tm)%nat) ->
  exists page peak, module_page n_rows n_samples mapping fraction w = Ok page /\ is_peak n_samples w peak /\ map fst page = map fst mapping /\
  forall k tm row col, nth_error mapping k = Some (tm, (row, col)) -> exists a, nth_error page k = Some (tm, a) /\
    at_row a = (Z.of_nat n_rows - 1 - Z.of_nat row)%Z /\ at_col a = Z.of_nat col /\
    (forall t p, In (t, p) (text a) <-> (t < 64)%nat /\ p = (64 * tm + t)%nat /\ exists wf, nth_error w p = Some wf /\ forall x, In x wf -> (x < peak * fraction)%Qc) /\
    NoDup (text a) /\
    (y_axis a = true <-> forall tm' col', In (tm', (row, col')) mapping -> (col <= col')%nat) /\
    (x_axis a = true <-> forall tm' row', In (tm', (row', col)) mapping -> (row <= row')%nat).
Proof.
  intros n_rows ns mapping fr w n_tm LW TM NS EW SL. unfold module_page. rewrite LW, (Nat.mul_comm 64), Nat.div_mul by lia. rewrite Nat.eqb_refl. cbn [negb].
  destruct (qmax_list_some (mean_waveform ns w)) as [peak PK]. { unfold mean_waveform. destruct ns; [lia|discriminate]. } rewrite PK.
  assert (OK : forall tm rc, In (tm, rc) mapping -> exists o, outliers w (peak * fr) tm (seq 0 64) = Ok o).
  { intros tm rc I. apply outliers_ok. intros t T. apply in_seq in T. specialize (SL _ _ I). destruct (nth_error w (tm * 64 + t)) as [wf|] eqn:E; [|apply nth_error_None in E; lia].
    exists wf. split; [reflexivity|]. apply nth_error_In, EW in E. intros ->. cbn in E. lia. }
  match goal with |- context [mapM ?f mapping] => set (g := f) end.
  destruct (mapM_all _ _ g mapping) as [page RUN]. { intros [tm rc] I. unfold g. destruct (OK tm rc I) as [o ->]. eexists. reflexivity. }
  rewrite RUN. exists page, peak. split; [reflexivity|]. split; [apply mean_peak; [lia|exact PK]|]. split.
  { clear -RUN. apply mapM_Ok_iff in RUN. induction RUN as [|[tm rc] b l r F H IH]; [reflexivity|]. cbn [map fst]. rewrite IH. f_equal. unfold g in F. destruct (outliers _ _ _ _); [|discriminate]. now injection F as <-. }
  intros k tm row col K. destruct (mapM_nth _ _ _ _ _ RUN k _ K) as (b & B & G). unfold g in G. destruct (outliers w (peak * fr) tm (seq 0 64)) as [o|] eqn:O; [|discriminate]. cbn [bind] in G. injection G as <-.
  eexists. split; [exact B|]. cbn [at_row at_col text y_axis x_axis subplot fst snd]. split; [reflexivity|]. split; [reflexivity|]. apply outliers_spec in O. subst o.
  assert (SLt : (tm < n_tm)%nat) by (eapply SL, nth_error_In, K). split; [|split; [|split]].
  - intros t p. rewrite in_map_iff. split.
    + intros (t' & E & I). injection E as -> <-. apply filter_In in I as [I F]. apply in_seq in I. split; [lia|]. split; [lia|]. destruct (nth_error w (tm * 64 + t)) as [wf|] eqn:N; [|discriminate].
      exists wf. split; [reflexivity|]. destruct (qmax_list wf) as [m|] eqn:Q; [|discriminate]. destruct (qltb_spec m (peak * fr)) as [LT|]; [|discriminate]. intros x X. apply qmax_list_spec in Q as [_ Q]. eapply Qcle_lt_trans; [apply Q, X|exact LT].
    + intros (T & -> & wf & N & X). exists t. rewrite (Nat.mul_comm 64) in N |- *. split; [reflexivity|]. apply filter_In. split; [apply in_seq; lia|]. rewrite N. pose proof (EW _ (nth_error_In _ _ N)) as LN.
      destruct (qmax_list_some wf) as [m Q]; [intros ->; cbn in LN; lia|]. rewrite Q. apply qmax_list_spec in Q as [I _]. destruct (qltb_spec m (peak * fr)) as [|NL]; [reflexivity|]. elim NL. now apply X.
  - apply FinFun.Injective_map_NoDup; [intros x y E; now injection E|]. apply NoDup_filter, seq_NoDup.
  - unfold leftmost. rewrite forallb_forall. split.
    + intros F tm' col' I. specialize (F _ I). cbn [fst snd] in F. rewrite Nat.eqb_refl in F. cbn [negb orb] in F. now apply Nat.leb_le.
    + intros F [tm' [row' col']] I. cbn [fst snd]. destruct (Nat.eqb_spec row' row) as [ ->|]; [|reflexivity]. cbn [negb orb]. apply Nat.leb_le. eapply F, I.
  - unfold lowest. rewrite forallb_forall. split.
    + intros F tm' row' I. specialize (F _ I). cbn [fst snd] in F. rewrite Nat.eqb_refl in F. cbn [negb orb] in F. now apply Nat.leb_le.
    + intros F [tm' [row' col']] I. cbn [fst snd]. destruct (Nat.eqb_spec col' col) as [ ->|]; [|reflexivity]. cbn [negb orb]. apply Nat.leb_le. eapply F, I.
Qed.
Print Assumptions C90_page.
Lemma one_axis : forall mapping : list tm_row, NoDup (map snd mapping) ->
  (forall tm row col, In (tm, (row, col)) mapping -> exists! c, In (row, c) (map snd mapping) /\ leftmost mapping row c = true) /\
  (forall tm row col, In (tm, (row, col)) mapping -> exists! r, In (r, col) (map snd mapping) /\ lowest mapping r col = true).
Proof.
  intros mapping N.
  assert (MIN : forall l : list nat, l <> [] -> exists m, In m l /\ forall x, In x l -> (m <= x)%nat).
  { induction l as [|a l IH]; intros NE; [easy|]. destruct l as [|b l]; [exists a; split; [now left|intros x [<-|[]]; lia]|]. destruct IH as (m & I & M); [discriminate|].
    destruct (Nat.le_gt_cases a m); [exists a|exists m]; split; [now left| |now right|]; intros x [<-|X]; try lia; specialize (M _ X); lia. }
  split; intros tm row col I.
  - destruct (MIN (map snd (filter (fun rc => Nat.eqb (fst rc) row) (map snd mapping)))) as (m & IM & M).
    { intros E. assert (K : In col (map snd (filter (fun rc => Nat.eqb (fst rc) row) (map snd mapping)))). { apply in_map_iff. exists (row, col). split; [reflexivity|]. apply filter_In. split; [now apply (in_map snd) in I|apply Nat.eqb_refl]. } rewrite E in K. destruct K. }
    apply in_map_iff in IM as ([r c] & EC & F). cbn [snd] in EC. subst c. apply filter_In in F as [IN ER]. cbn [fst] in ER. apply Nat.eqb_eq in ER. subst r.
    assert (MM : forall c, In (row, c) (map snd mapping) -> (m <= c)%nat). { intros c C. apply M. apply in_map_iff. exists (row, c). split; [reflexivity|]. apply filter_In. split; [exact C|apply Nat.eqb_refl]. }
    exists m. split.
    + split; [exact IN|]. unfold leftmost. apply forallb_forall. intros [tm' [r c]] J. cbn [fst snd]. destruct (Nat.eqb_spec r row) as [ ->|]; [|reflexivity]. cbn [negb orb]. apply Nat.leb_le, MM. now apply (in_map snd) in J.
    + intros c [C LM]. unfold leftmost in LM. rewrite forallb_forall in LM. apply in_map_iff in IN as ([tm' rc] & ERC & J). cbn [snd] in ERC. subst rc. specialize (LM _ J). cbn [fst snd] in LM. rewrite Nat.eqb_refl in LM. cbn [negb orb] in LM. apply Nat.leb_le in LM. specialize (MM _ C). lia.
  - destruct (MIN (map fst (filter (fun rc => Nat.eqb (snd rc) col) (map snd mapping)))) as (m & IM & M).
    { intros E. assert (K : In row (map fst (filter (fun rc => Nat.eqb (snd rc) col) (map snd mapping)))). { apply in_map_iff. exists (row, col). split; [reflexivity|]. apply filter_In. split; [now apply (in_map snd) in I|apply Nat.eqb_refl]. } rewrite E in K. destruct K. }
    apply in_map_iff in IM as ([r c] & EC & F). cbn [fst] in EC. subst r. apply filter_In in F as [IN ER]. cbn [snd] in ER. apply Nat.eqb_eq in ER. subst c.
    assert (MM : forall r, In (r, col) (map snd mapping) -> (m <= r)%nat). { intros r C. apply M. apply in_map_iff. exists (r, col). split; [reflexivity|]. apply filter_In. split; [exact C|apply Nat.eqb_refl]. }
    exists m. split.
    + split; [exact IN|]. unfold lowest. apply forallb_forall. intros [tm' [r c]] J. cbn [fst snd]. destruct (Nat.eqb_spec c col) as [ ->|]; [|reflexivity]. cbn [negb orb]. apply Nat.leb_le, MM. now apply (in_map snd) in J.
    + intros r [C LM]. unfold lowest in LM. rewrite forallb_forall in LM. apply in_map_iff in IN as ([tm' rc] & ERC & J). cbn [snd] in ERC. subst rc. specialize (LM _ J). cbn [fst snd] in LM. rewrite Nat.eqb_refl in LM. cbn [negb orb] in LM. apply Nat.leb_le in LM. specialize (MM _ C). lia.
Qed.
(** Modules at different places: each row of modules has exactly one with a drawn y axis, each column one with a drawn x axis. *)
Theorem C90_axes : forall n_rows n_samples (mapping : list tm_row) fraction w page, NoDup (map snd mapping) -> module_page n_rows n_samples mapping fraction w = Ok page ->
  forall tm row col, In (tm, (row, col)) mapping ->
  (exists! k, exists tm' col' a, nth_error mapping k = Some (tm', (row, col')) /\ nth_error page k = Some (tm', a) /\ y_axis a = true) /\
  (exists! k, exists tm' row' a, nth_error mapping k = Some (tm', (row', col)) /\ nth_error page k = Some (tm', a) /\ x_axis a = true).
Proof.
  intros nr ns mapping fr w page N H tm row col I. destruct (one_axis mapping N) as [Y X]. specialize (Y tm row col I). specialize (X tm row col I).
  unfold module_page in H. destruct (negb _); [discriminate|]. destruct (qmax_list _) as [pk|]; [|discriminate].
  assert (AX : forall k tm' row' col', nth_error mapping k = Some (tm', (row', col')) -> exists a, nth_error page k = Some (tm', a) /\ y_axis a = leftmost mapping row' col' /\ x_axis a = lowest mapping row' col').
  { intros k tm' row' col' K. destruct (mapM_nth _ _ _ _ _ H k _ K) as (b & B & G). cbn beta iota in G. destruct (outliers _ _ tm' _); [|discriminate]. cbn [bind] in G. injection G as <-. eexists. split; [exact B|]. split; reflexivity. }
  assert (U : forall k k' r c t t', nth_error mapping k = Some (t, (r, c)) -> nth_error mapping k' = Some (t', (r, c)) -> k = k').
  { intros k k' r c t t' K K'. rewrite NoDup_nth_error in N. apply N; [rewrite map_length; apply nth_error_Some; intro Z; pose proof (eq_trans (eq_sym K) Z) as ZZ; discriminate|]. exact (eq_trans (map_nth_error snd _ _ K) (eq_sym (map_nth_error snd _ _ K'))). }
  split.
  - destruct Y as (c & [IC LC] & UC). apply in_map_iff in IC as ([t rc] & E & J). cbn [snd] in E. subst rc. apply In_nth_error in J as [k K]. exists k. split.
    + destruct (AX _ _ _ _ K) as (a & A & YA & _). exists t, c, a. rewrite YA. auto.
    + intros k' (t' & c' & a & K' & A & YA). destruct (AX _ _ _ _ K') as (a' & A' & YA' & _). rewrite A in A'. injection A' as <-. rewrite YA' in YA.
      assert (c = c') as <-. { apply UC. split; [|exact YA]. apply nth_error_In, (in_map snd) in K'. exact K'. } eapply U; eauto.
  - destruct X as (r & [IR LR] & UR). apply in_map_iff in IR as ([t rc] & E & J). cbn [snd] in E. subst rc. apply In_nth_error in J as [k K]. exists k. split.
    + destruct (AX _ _ _ _ K) as (a & A & _ & XA). exists t, r, a. rewrite XA. auto.
    + intros k' (t' & r' & a & K' & A & XA). destruct (AX _ _ _ _ K') as (a' & A' & _ & XA'). rewrite A in A'. injection A' as <-. rewrite XA' in XA.
      assert (r = r') as <-. { apply UR. split; [|exact XA]. apply nth_error_In, (in_map snd) in K'. exact K'. } eapply U; eauto.
Qed.
Print Assumptions C90_axes.
(** Refused: a number of pixels that does not fill whole modules; a module the waveforms do not have. *)
Theorem C90_errors : forall n_rows n_samples mapping fraction w,
  (forall n_tm, List.length w <> (64 * n_tm)%nat) -> module_page n_rows n_samples mapping fraction w = Raise ValueError.
Proof.
  intros nr ns mapping fr w H. unfold module_page. destruct (Nat.eqb_spec (Nat.div (List.length w) 64 * 64) (List.length w)) as [E|]; [|reflexivity]. elim (H (Nat.div (List.length w) 64)). lia.
Qed.
Print Assumptions C90_errors.
Theorem C90_missing_module : forall n_rows n_samples mapping fraction w n_tm tm rc,
  List.length w = (64 * n_tm)%nat -> (0 < n_samples)%nat -> (forall wf, In wf w -> List.length wf = n_samples) ->
  In (tm, rc) mapping -> (n_tm <= tm)%nat -> module_page n_rows n_samples mapping fraction w = Raise IndexError.
Proof.
  intros nr ns mapping fr w n_tm tm rc LW NS EW I T. unfold module_page. rewrite LW, (Nat.mul_comm 64), Nat.div_mul by lia. rewrite Nat.eqb_refl. cbn [negb].
  destruct (qmax_list_some (mean_waveform ns w)) as [peak PK]. { unfold mean_waveform. destruct ns; [lia|discriminate]. } rewrite PK.
  assert (OUT : forall tm, (n_tm <= tm)%nat -> outliers w (peak * fr) tm (seq 0 64) = Raise IndexError).
  { intros m M. change (seq 0 64) with (0%nat :: seq 1 63). cbn [outliers]. replace (nth_error w (m * 64 + 0)) with (@None (list Qc)); [reflexivity|]. symmetry. apply nth_error_None. lia. }
  apply (mapM_raise _ _ _ IndexError mapping (tm, rc) I).
  - intros [m q] J. destruct (Nat.le_gt_cases n_tm m) as [M|M]; [right; now rewrite (OUT m M)|]. left.
    destruct (outliers_ok w (peak * fr) m (seq 0 64)) as [o ->]; [|eexists; reflexivity]. intros t U. apply in_seq in U. destruct (nth_error w (m * 64 + t)) as [wf|] eqn:E; [|apply nth_error_None in E; lia].
    exists wf. split; [reflexivity|]. apply nth_error_In, EW in E. intros ->. cbn in E. lia.
  - now rewrite (OUT tm T).
Qed.
Print Assumptions C90_missing_module.
(** Two modules side by side; pixel 3 of the second is dead. *)
Definition ex_waveforms : list (list Qc) := map (fun p => if Nat.eqb p 67 then [qz 0; qz 1] else [qz 4; qz 8]) (seq 0 128).
Example C90_ex : match module_page 1 2 [(0, (0, 0)); (1, (0, 1))]%nat (Q2Qc (3 # 4)) ex_waveforms with
  | Ok page => map (fun ta => (fst ta, text (snd ta), at_row (snd ta), at_col (snd ta), y_axis (snd ta), x_axis (snd ta))) page = [(0%nat, [], 0%Z, 0%Z, true, true); (1%nat, [(3, 67)%nat], 0%Z, 1%Z, false, true)]
  | Raise _ => False end.
Proof. vmr. Qed.
