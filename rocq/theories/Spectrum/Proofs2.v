(** Proofs on the spectra of the illuminations and on the stored initial values. *)
From Coq Require Import List ZArith String Bool Arith Lia Reals.
From Verif.Base Require Import Py PyFacts Str.
From Verif.Fitter Require Import Model Proofs.
From Verif.Stats Require Model.
From Verif.Spectrum Require Import Model.
Import ListNotations.
Local Open Scope string_scope.
Local Open Scope list_scope.

(** The parameters have the names (and kinds) of a fitter, whatever their settings. *)
Definition named {V} (ps : list (param V)) (names : list (string * bool)) : Prop := map (fun p => (p_name p, p_multi p)) ps = names.

Lemma named_names : forall V (ps : list (param V)) l, named ps l -> map p_name ps = map fst l.
Proof. intros V ps l <-. rewrite map_map. reflexivity. Qed.
Lemma named_in : forall V (ps : list (param V)) l c m, named ps l -> In (c, m) l -> exists p, In p ps /\ p_name p = c /\ p_multi p = m.
Proof. intros V ps l c m <- I. apply in_map_iff in I as (p & E & I). injection E as <- <-. eauto. Qed.
Lemma gentile_nodup : NoDup (map fst gentile_parameters).
Proof. repeat constructor; cbn; intuition discriminate. Qed.
Lemma mapm_nodup : NoDup (map fst mapm_parameters).
Proof. repeat constructor; cbn; intuition discriminate. Qed.

(** The value of a parameter in an illumination. *)
Definition value_in (value : string -> R) (m : bool) (c : string) (i : nat) : R := value (if m then (c ++ dec (N.of_nat i))%string else c).

Lemma value_of_named : forall (ps : list (param R)) l n value c m i lk, named ps l -> NoDup (map fst l) -> In (c, m) l -> (i < n)%nat ->
  let r := prepare_parameters n ps in
  nth_error (lookup r) i = Some lk -> value_of lk (map value (parameter_names r)) c = Ok (value_in value m c i).
Proof.
  intros ps l n value c m i lk N ND I L r E. destruct (named_in _ ps l c m N I) as (p & P & PN & PM).
  assert (NoDup (map p_name ps)) as ND' by (rewrite (named_names _ _ _ N); auto).
  destruct (prepare_spec n ps ND') as (_ & _ & _ & _ & S). fold r in S. destruct (S i p L P) as (k & D & G).
  rewrite (nth_error_nth _ _ _ E) in D. unfold value_of, dlookup. rewrite <- PN, D. cbn [bind]. rewrite nth_error_map, G. cbn [option_map].
  unfold full_name, value_in. now rewrite PM.
Qed.
Lemma lookup_at : forall (ps : list (param R)) l n i, named ps l -> NoDup (map fst l) -> (i < n)%nat -> exists lk, nth_error (lookup (prepare_parameters n ps)) i = Some lk.
Proof.
  intros ps l n i N ND L. assert (NoDup (map p_name ps)) as ND' by (rewrite (named_names _ _ _ N); auto).
  destruct (prepare_spec n ps ND') as (_ & _ & S & _). destruct (nth_error (lookup (prepare_parameters n ps)) i) eqn:E; [eauto|]. apply nth_error_None in E. lia.
Qed.

Definition gentile_at (value : string -> R) (i : nat) (x : R) : R :=
  Stats.Model.sipm_gentile_spe x (value "eped") (value "eped_sigma") (value "spe") (value "spe_sigma") (value "opct") (value ("lambda_" ++ dec (N.of_nat i))%string).
Definition mapm_at (value : string -> R) (i : nat) (x : R) : R :=
  Stats.Model.mapm_spe x (value "eped") (value "eped_sigma") (value "spe") (value "spe_sigma") (value ("lambda_" ++ dec (N.of_nat i))%string).

Lemma gentile_calculate : forall (ps : list (param R)) n value data_x i lk, named ps gentile_parameters -> (i < n)%nat ->
  nth_error (lookup (prepare_parameters n ps)) i = Some lk ->
  gentile_calculate_spectrum data_x lk (map value (parameter_names (prepare_parameters n ps))) = Ok (map (gentile_at value i) data_x).
Proof.
  intros ps n value data_x i lk N L E. unfold gentile_calculate_spectrum.
  pose proof (fun c m I => value_of_named ps gentile_parameters n value c m i lk N gentile_nodup I L E) as V.
  rewrite (V "eped" false), (V "eped_sigma" false), (V "spe" false), (V "spe_sigma" false), (V "opct" false), (V "lambda_" true) by (cbn; auto 10). cbv beta iota zeta delta [bind value_in]. unfold gentile_at, mapm_at. exact eq_refl.
Qed.
Lemma mapm_calculate : forall (ps : list (param R)) n value data_x i lk, named ps mapm_parameters -> (i < n)%nat ->
  nth_error (lookup (prepare_parameters n ps)) i = Some lk ->
  mapm_calculate_spectrum data_x lk (map value (parameter_names (prepare_parameters n ps))) = Ok (map (mapm_at value i) data_x).
Proof.
  intros ps n value data_x i lk N L E. unfold mapm_calculate_spectrum.
  pose proof (fun c m I => value_of_named ps mapm_parameters n value c m i lk N mapm_nodup I L E) as V.
  rewrite (V "eped" false), (V "eped_sigma" false), (V "spe" false), (V "spe_sigma" false), (V "lambda_" true) by (cbn; auto 10). cbv beta iota zeta delta [bind value_in]. unfold gentile_at, mapm_at. exact eq_refl.
Qed.
Lemma get_spectra_ok : forall calc at_ (ps : list (param R)) l n value data_x, named ps l -> NoDup (map fst l) ->
  (forall i lk, (i < n)%nat -> nth_error (lookup (prepare_parameters n ps)) i = Some lk -> calc data_x lk (map value (parameter_names (prepare_parameters n ps))) = Ok (map (at_ i) data_x)) ->
  get_spectra calc n data_x (lookup (prepare_parameters n ps)) (map value (parameter_names (prepare_parameters n ps))) = Ok (map (fun i => map (at_ i) data_x) (seq 0 n)).
Proof.
  intros calc at_ ps l n value data_x N ND C. unfold get_spectra. rewrite <- mapM_Ok_map. apply mapM_ext. intros i I. apply in_seq in I.
  destruct (lookup_at ps l n i N ND ltac:(lia)) as (lk & E). rewrite E. apply C; auto. lia.
Qed.
Lemma get_likelihood_ok : forall calc at_ (ps : list (param R)) l n value data_x data_y, named ps l -> NoDup (map fst l) -> List.length data_y = n ->
  (forall i lk, (i < n)%nat -> nth_error (lookup (prepare_parameters n ps)) i = Some lk -> calc data_x lk (map value (parameter_names (prepare_parameters n ps))) = Ok (map (at_ i) data_x)) ->
  get_likelihood calc n data_x data_y (lookup (prepare_parameters n ps)) (map value (parameter_names (prepare_parameters n ps))) =
  Ok (Stats.Model.get_likelihood data_x data_y (map (fun i => map (at_ i) data_x) (seq 0 n))).
Proof.
  intros calc at_ ps l n value data_x data_y N ND LY C. unfold get_likelihood.
  set (F := fun (likelihood : R) (i : nat) => match nth_error (lookup (prepare_parameters n ps)) i, nth_error data_y i with Some lk, Some y => _ | _, _ => _ end).
  assert (forall m s acc, (s + m <= n)%nat -> foldM F (seq s m) acc = Ok (acc + Stats.Model.get_likelihood data_x (firstn m (skipn s data_y)) (map (fun i => map (at_ i) data_x) (seq s m)))%R) as G.
  { induction m as [|m IH]; intros s acc H; cbn [seq foldM].
    - unfold Stats.Model.get_likelihood. cbn. now rewrite Rplus_0_r.
    - unfold F at 1. destruct (lookup_at ps l n s N ND ltac:(lia)) as (lk & E). rewrite E. destruct (nth_error data_y s) as [y|] eqn:Y; [|apply nth_error_None in Y; lia].
      rewrite (C s lk ltac:(lia) E). cbn [bind]. rewrite IH by lia. f_equal.
      assert (skipn s data_y = y :: skipn (S s) data_y) as K.
      { clear - Y. revert data_y Y. induction s; intros [|z d] Y; try discriminate; cbn in *; [now injection Y as ->|]. now apply IHs. }
      rewrite K. cbn [firstn map]. unfold Stats.Model.get_likelihood. cbn [combine map Stats.Model.rsum fold_right fst snd]. fold (Stats.Model.rsum). unfold Stats.Model.rsum. ring. }
  rewrite G by lia. cbn [skipn]. rewrite firstn_all2 by lia. f_equal. ring.
Qed.

(** ** Initial values *)
Lemma dget_fold_initial : forall V (ps : list (param V)) d k, NoDup (map p_name ps) ->
  dget k (fold_left (fun d p => dset (p_name p) (p_initial p) d) ps d) =
  match find (fun p => String.eqb k (p_name p)) ps with Some p => Some (p_initial p) | None => dget k d end.
Proof.
  induction ps as [|p ps IH]; intros d k ND; auto. inversion ND as [|? ? NI ND']; subst. cbn [fold_left find]. rewrite IH by auto. rewrite dget_dset.
  destruct (eqb_spec k (p_name p)) as [->|NE].
  - destruct (find _ ps) as [q|] eqn:F; auto. apply find_some in F as [Q E]. apply String.eqb_eq in E. exfalso. apply NI. rewrite E. now apply in_map.
  - destruct (find _ ps); reflexivity.
Qed.
Lemma dget_fold_lambda : forall V (v : V) is d k,
  dget k (fold_left (fun d i => dset ("lambda_" ++ dec (N.of_nat i))%string v d) is d) =
  if existsb (fun i => String.eqb k ("lambda_" ++ dec (N.of_nat i))%string) is then Some v else dget k d.
Proof.
  induction is as [|i is IH]; intros d k; auto. cbn [fold_left existsb]. rewrite IH, dget_dset.
  destruct (String.eqb k _); cbn [orb]; destruct (existsb _ is); reflexivity.
Qed.
Lemma find_named : forall V (ps : list (param V)) p, NoDup (map p_name ps) -> In p ps -> find (fun q => String.eqb (p_name p) (p_name q)) ps = Some p.
Proof.
  induction ps as [|q ps IH]; intros p ND I; [contradiction|]. inversion ND as [|? ? NI ND']; subst. cbn [find]. destruct I as [->|I].
  - now rewrite eqb_refl.
  - rewrite eqb_neq; [now apply IH|]. intro E. apply NI. rewrite <- E. now apply in_map.
Qed.
(** Names other than lambda_ of which no expanded name of lambda_ is one. *)
Definition lambda_only (l : list (string * bool)) : Prop :=
  In ("lambda_", true) l /\ NoDup (map fst l) /\ forall c m, In (c, m) l -> c = "lambda_" /\ m = true \/ (m = false /\ prefix "lambda_" c = false).
Lemma prefix_lambda : forall s, prefix "lambda_" ("lambda_" ++ s)%string = true.
Proof. intro s. apply prefix_spec. eauto. Qed.

Lemma spe_initial_spec : forall V n (ps : list (param V)) l, named ps l -> lambda_only l ->
  exists d, spe_initial n ps = Ok d /\
  (forall name, dget name d <> None <-> In name (parameter_names (prepare_parameters n ps))) /\
  (forall p i, In p ps -> (i < n)%nat -> dget (full_name p i) d = Some (p_initial p)).
Proof.
  intros V n ps l N (LI & ND & LO). assert (NoDup (map p_name ps)) as ND' by (rewrite (named_names _ _ _ N); auto).
  destruct (named_in _ ps l _ _ N LI) as (pl & PI & PN & PM). unfold spe_initial. rewrite dget_fold_initial by auto.
  pose proof (find_named V ps pl ND' PI) as FL. rewrite PN in FL. rewrite FL. eexists. split; [reflexivity|].
  assert (forall q, In q ps -> p_name q = "lambda_" /\ p_multi q = true /\ q = pl \/ p_multi q = false /\ prefix "lambda_" (p_name q) = false) as K.
  { intros q Q. assert (In (p_name q, p_multi q) l) as IL by (rewrite <- N; apply in_map_iff; eauto). destruct (LO _ _ IL) as [[A B]|[A B]]; auto. left. split; auto. split; auto.
    pose proof (find_named V ps q ND' Q) as F1. pose proof (find_named V ps pl ND' PI) as F2. rewrite A in F1. rewrite PN in F2. congruence. }
  set (d0 := fold_left (fun (d : dict V) (p : param V) => dset (p_name p) (p_initial p) d) ps []).
  assert (forall k, dget k (dpop "lambda_" d0) = if String.eqb k "lambda_" then None else match find (fun p => String.eqb k (p_name p)) ps with Some p => Some (p_initial p) | None => None end) as D0.
  { intro k. rewrite dget_dpop. subst d0. rewrite dget_fold_initial by auto. reflexivity. }
  destruct (prepare_spec n ps ND') as (PNM & _ & _ & _ & _). rewrite PNM. split.
  - intros name. rewrite dget_fold_lambda. unfold all_names. rewrite in_flat_map. split.
    + destruct (existsb _ (seq 0 n)) eqn:E.
      * intros _. apply existsb_exists in E as (i & I & E). apply String.eqb_eq in E as ->. exists pl. split; auto. unfold expand. rewrite PM. apply in_map_iff. exists i.
        split; auto. unfold full_name. now rewrite PM, PN.
      * rewrite D0. destruct (String.eqb_spec name "lambda_") as [->|NE]; [congruence|]. destruct (find (fun p => String.eqb name (p_name p)) ps) as [q|] eqn:F; [|congruence].
        intros _. apply find_some in F as [Q E']. apply String.eqb_eq in E'. exists q. split; auto. destruct (K q Q) as [(A & _)|(A & _)]; [congruence|].
        unfold expand. rewrite A. left. auto.
    + intros (q & Q & I). destruct (K q Q) as [(A & B & ->)|(A & B)]; unfold expand in I.
      * rewrite PM in I. apply in_map_iff in I as (i & <- & I). replace (existsb _ (seq 0 n)) with true; [discriminate|]. symmetry. apply existsb_exists. exists i.
        split; auto. unfold full_name. rewrite PM, PN. apply eqb_refl.
      * rewrite A in I. destruct I as [<-|[]]. destruct (existsb _ (seq 0 n)); [discriminate|]. rewrite D0. rewrite find_named by auto.
        destruct (String.eqb_spec (p_name q) "lambda_") as [E|]; [|discriminate]. rewrite E in B. discriminate.
  - intros q i Q I. rewrite dget_fold_lambda. destruct (K q Q) as [(A & B & ->)|(A & B)]; unfold full_name.
    + rewrite PM, PN. replace (existsb _ (seq 0 n)) with true; auto. symmetry. apply existsb_exists. exists i. split; [apply in_seq; lia|]. apply eqb_refl.
    + rewrite A. replace (existsb _ (seq 0 n)) with false.
      * rewrite D0. rewrite find_named by auto. destruct (String.eqb_spec (p_name q) "lambda_") as [E|]; auto. rewrite E in B. discriminate.
      * symmetry. apply not_true_iff_false. intro E. apply existsb_exists in E as (j & _ & E). apply String.eqb_eq in E. rewrite E, prefix_lambda in B. discriminate.
Qed.
Lemma gentile_lambda : lambda_only gentile_parameters.
Proof. split; [cbn; auto 10|]. split; [exact gentile_nodup|]. intros c m I. cbn in I. repeat (destruct I as [I|I]; [injection I as <- <-; cbn; auto|]). destruct I. Qed.
Lemma mapm_lambda : lambda_only mapm_parameters.
Proof. split; [cbn; auto 10|]. split; [exact mapm_nodup|]. intros c m I. cbn in I. repeat (destruct I as [I|I]; [injection I as <- <-; cbn; auto|]). destruct I. Qed.

(** No two settings of these fitters share a keyword. *)
Lemma map_injective_nodup : forall A B (f : A -> B) l, (forall x y, f x = f y -> x = y) -> NoDup l -> NoDup (map f l).
Proof. intros A B f l I. induction 1; cbn; constructor; auto. rewrite in_map_iff. intros (y & E & Y). apply I in E. congruence. Qed.
Lemma append_cancel : forall a b c : string, (a ++ b)%string = (a ++ c)%string -> b = c.
Proof. induction a; cbn; intros b c E; auto. injection E. auto. Qed.
Lemma kw_nodup : forall names, NoDup names -> (forall nm, In nm names -> prefix "limit_" nm = false /\ prefix "fix_" nm = false) -> NoDup (flat_map kw_keys names).
Proof.
  assert (forall a b, prefix a b = false -> forall c, b <> (a ++ c)%string) as PF by (intros a b P c ->; assert (prefix a (a ++ c) = true) by (apply prefix_spec; eauto); congruence).
  induction names as [|nm names IH]; intros ND P; [constructor|]. inversion ND as [|? ? NI ND']; subst. cbn [flat_map kw_keys app].
  destruct (P nm (or_introl eq_refl)) as [P1 P2].
  assert (NoDup (flat_map kw_keys names)) as R by (apply IH; auto; intros; apply P; now right).
  assert (forall k, In k (flat_map kw_keys names) -> exists nm', In nm' names /\ nm' <> nm /\ (k = nm' \/ k = ("limit_" ++ nm')%string \/ k = ("fix_" ++ nm')%string)) as D.
  { intros k K. apply in_flat_map in K as (nm' & I & K). exists nm'. split; auto. split; [congruence|]. cbn [kw_keys In] in K. intuition. }
  constructor; [|constructor; [|constructor; auto]].
  - intros [E|[E|K]]; [symmetry in E; now apply (PF _ _ P1) in E|symmetry in E; now apply (PF _ _ P2) in E|]. apply D in K as (nm' & I & NE & [E|[E|E]]); [congruence|now apply (PF _ _ P1) in E|now apply (PF _ _ P2) in E].
  - intros [E|K]; [discriminate|]. apply D in K as (nm' & I & NE & [E|[E|E]]).
    + destruct (P nm' (or_intror I)) as [Q _]. symmetry in E. now apply (PF _ _ Q) in E.
    + apply append_cancel in E. congruence.
    + discriminate.
  - intros K. apply D in K as (nm' & I & NE & [E|[E|E]]).
    + destruct (P nm' (or_intror I)) as [_ Q]. symmetry in E. now apply (PF _ _ Q) in E.
    + discriminate.
    + apply append_cancel in E. congruence.
Qed.
Lemma NoDup_app2 : forall A (l l' : list A), NoDup l -> NoDup l' -> (forall x, In x l -> ~ In x l') -> NoDup (l ++ l').
Proof.
  intros A l l' N. induction N as [|x l NI N IH]; intros N' D; auto. cbn. constructor.
  - rewrite in_app_iff. intros [I|I]; auto. now apply (D x (or_introl eq_refl)).
  - apply IH; auto. intros y Y. apply D. now right.
Qed.
(** The names of the shared parameters. *)
Lemma named_all_names : forall V n (ps : list (param V)) l, named ps l ->
  all_names n ps = flat_map (fun cm => if snd cm : bool then map (fun i => (fst cm ++ dec (N.of_nat i))%string) (seq 0 n) else [fst cm]) l.
Proof.
  intros V n ps l <-. unfold all_names. induction ps as [|p ps IH]; auto. cbn [flat_map map fst snd]. rewrite <- IH. f_equal. unfold expand, full_name. now destruct (p_multi p).
Qed.
Lemma lambda_nodup : forall n, NoDup (map (fun i => ("lambda_" ++ dec (N.of_nat i))%string) (seq 0 n)).
Proof. intro n. apply map_injective_nodup; [|apply seq_NoDup]. intros x y E. apply append_cancel, dec_inj in E. lia. Qed.
Lemma lambda_clean : forall V n (ps : list (param V)) l shared, named ps l -> l = map (fun c => (c, false)) shared ++ [("lambda_", true)] -> NoDup shared ->
  (forall c, In c shared -> prefix "lambda_" c = false /\ prefix "limit_" c = false /\ prefix "fix_" c = false) -> clean n ps.
Proof.
  intros V n ps l shared N -> ND P. split.
  - rewrite (named_names _ _ _ N), map_app, map_map. cbn [map fst]. rewrite map_id. apply NoDup_app2; auto; [repeat constructor; easy|]. intros x X [<-|[]]. apply P in X as [X _]. discriminate.
  - apply kw_nodup.
    + rewrite (named_all_names _ _ _ _ N). rewrite flat_map_app. cbn [flat_map snd fst]. rewrite app_nil_r. apply NoDup_app2.
      * replace (flat_map _ (map (fun c => (c, false)) shared)) with shared; auto. clear. induction shared as [|c s IH]; auto. cbn. now rewrite <- IH.
      * apply lambda_nodup.
      * intros x X Y. apply in_flat_map in X as ([c m] & I & X). apply in_map_iff in I as (c' & E & I). injection E as -> <-. destruct X as [<-|[]].
        apply in_map_iff in Y as (i & E & _). apply P in I as [I _]. cbn [fst] in E. rewrite <- E, prefix_lambda in I. discriminate.
    + intros nm I. rewrite (named_all_names _ _ _ _ N), flat_map_app, in_app_iff in I. cbn [flat_map snd fst] in I. rewrite app_nil_r in I. destruct I as [I|I].
      * apply in_flat_map in I as ([c m] & I & X). apply in_map_iff in I as (c' & E & I). injection E as -> <-. destruct X as [<-|[]]. now apply P in I as [_ I].
      * apply in_map_iff in I as (i & <- & _). split; reflexivity.
Qed.
Lemma gentile_clean : forall V n (ps : list (param V)), named ps gentile_parameters -> clean n ps.
Proof.
  intros V n ps N. apply (lambda_clean V n ps _ ["eped"; "eped_sigma"; "spe"; "spe_sigma"; "opct"] N eq_refl).
  - repeat constructor; cbn; intuition discriminate.
  - intros c I. cbn in I. repeat (destruct I as [<-|I]; [repeat split|]). destruct I.
Qed.
Lemma mapm_clean : forall V n (ps : list (param V)), named ps mapm_parameters -> clean n ps.
Proof.
  intros V n ps N. apply (lambda_clean V n ps _ ["eped"; "eped_sigma"; "spe"; "spe_sigma"] N eq_refl).
  - repeat constructor; cbn; intuition discriminate.
  - intros c I. cbn in I. repeat (destruct I as [<-|I]; [repeat split|]). destruct I.
Qed.
