(** Lemmas about spectrum parameters, configuration and curve normalisation. *)
From Coq Require Import List ZArith QArith Qcanon String Bool Arith Lia.
From Verif.Base Require Import Py PyFacts Str Num.
From Verif.Fitter Require Import Model.
Import ListNotations.
Local Open Scope string_scope.
Local Open Scope list_scope.

Section P.
  Context {V : Type}.
  Notation param := (param V).

  (** The name under which parameter [p] of illumination [i] is known to the minimiser. *)
  Definition full_name (p : param) (i : nat) : string :=
    if p_multi p then (p_name p ++ dec (N.of_nat i))%string else p_name p.
  Definition expand (n : nat) (p : param) : list string :=
    if p_multi p then map (full_name p) (seq 0 n) else [p_name p].
  Definition all_names (n : nat) (ps : list param) : list string := flat_map (expand n) ps.

  (** Keyword arguments for one name. *)
  Definition entries (p : param) (nm : string) : dict (setting V) :=
    [(nm, SVal (p_initial p)); (("limit_" ++ nm)%string, SLim (p_limits p)); (("fix_" ++ nm)%string, SVal (p_fixed p))].
  Definition kw_keys (nm : string) : list string := [nm; ("limit_" ++ nm)%string; ("fix_" ++ nm)%string].

  Lemma add_kwargs_update : forall kw nm p, add_kwargs kw nm p = dupdate kw (entries p nm).
  Proof. reflexivity. Qed.
  Lemma dupdate_app : forall A (d a b : dict A), dupdate d (a ++ b) = dupdate (dupdate d a) b.
  Proof. intros. unfold dupdate. apply fold_left_app. Qed.

  Lemma set_nth_length : forall A (l : list A) i f, List.length (set_nth l i f) = List.length l.
  Proof. induction l; intros [|i] f; cbn; auto. Qed.
  Lemma set_nth_eq : forall A (l : list A) i f d, (i < List.length l)%nat -> nth i (set_nth l i f) d = f (nth i l d).
  Proof. induction l; intros [|i] f d H; cbn in *; try lia; auto. apply IHl. lia. Qed.
  Lemma set_nth_neq : forall A (l : list A) i j f d, i <> j -> nth j (set_nth l i f) d = nth j l d.
  Proof. induction l; intros [|i] [|j] f d H; cbn in *; try lia; auto. Qed.

  Lemma shared_loop_spec : forall (p : param) m a k lk, (a + m <= List.length lk)%nat ->
    List.length (shared_loop p (seq a m) k lk) = List.length lk /\
    forall j, nth j (shared_loop p (seq a m) k lk) [] =
      if ((a <=? j) && (j <? a + m))%nat then dset (p_name p) k (nth j lk []) else nth j lk [].
  Proof.
    intros p. induction m as [|m IH]; intros a k lk H; cbn [seq shared_loop].
    - split; auto. intros j. destruct (Nat.leb_spec a j), (Nat.ltb_spec j (a + 0)); try lia; auto.
    - destruct (IH (S a) k (set_nth lk a (dset (p_name p) k))) as [L N]; [rewrite set_nth_length; lia|].
      rewrite set_nth_length in L. split; auto. intros j. rewrite N.
      destruct (Nat.eq_dec a j) as [->|NE].
      + rewrite set_nth_eq by lia.
        destruct (Nat.leb_spec (S j) j), (Nat.ltb_spec j (S j + m)), (Nat.leb_spec j j), (Nat.ltb_spec j (j + S m)); try lia; auto.
      + rewrite set_nth_neq by auto.
        destruct (Nat.leb_spec (S a) j), (Nat.ltb_spec j (S a + m)), (Nat.leb_spec a j), (Nat.ltb_spec j (a + S m)); try lia; auto.
  Qed.

  Lemma multi_loop_spec : forall (p : param) m a st k, p_multi p = true -> (a + m <= List.length (lookup st))%nat ->
    let r := multi_loop p (seq a m) (st, k) in
    parameter_names (fst r) = parameter_names st ++ map (full_name p) (seq a m) /\
    minuit_kwargs (fst r) = dupdate (minuit_kwargs st) (flat_map (entries p) (map (full_name p) (seq a m))) /\
    snd r = (k + m)%nat /\
    List.length (lookup (fst r)) = List.length (lookup st) /\
    forall j, nth j (lookup (fst r)) [] =
      if ((a <=? j) && (j <? a + m))%nat then dset (p_name p) (k + (j - a))%nat (nth j (lookup st) []) else nth j (lookup st) [].
  Proof.
    intros p. induction m as [|m IH]; intros a st k HM H r; subst r; cbn [seq multi_loop map flat_map].
    - rewrite app_nil_r. repeat split; auto; try lia. intros j.
      destruct (Nat.leb_spec a j), (Nat.ltb_spec j (a + 0)); try lia; auto.
    - assert ((p_name p ++ dec (N.of_nat a))%string = full_name p a) as -> by (unfold full_name; now rewrite HM).
      match goal with |- context [multi_loop p (seq (S a) m) (?s, ?k')] => destruct (IH (S a) s k' HM) as (I1 & I2 & I3 & I4 & I5) end.
      { cbn [lookup]. rewrite set_nth_length. lia. }
      cbn [parameter_names minuit_kwargs lookup] in *. rewrite set_nth_length in I4.
      split; [|split; [|split; [|split]]].
      + rewrite I1, <- app_assoc. reflexivity.
      + exact I2.
      + rewrite I3. lia.
      + exact I4.
      + intros j. rewrite I5. destruct (Nat.eq_dec a j) as [->|NE].
        * rewrite set_nth_eq by lia.
          destruct (Nat.leb_spec (S j) j), (Nat.ltb_spec j (S j + m)), (Nat.leb_spec j j), (Nat.ltb_spec j (j + S m)); try lia.
          cbn [andb]. f_equal. lia.
        * rewrite set_nth_neq by auto.
          destruct (Nat.leb_spec (S a) j), (Nat.ltb_spec j (S a + m)), (Nat.leb_spec a j), (Nat.ltb_spec j (a + S m)); try lia; auto.
          cbn [andb]. f_equal. lia.
  Qed.

  Lemma prepare_one_spec : forall n st k p, k = List.length (parameter_names st) -> List.length (lookup st) = n ->
    let r := prepare_one n (st, k) p in
    parameter_names (fst r) = parameter_names st ++ expand n p /\
    minuit_kwargs (fst r) = dupdate (minuit_kwargs st) (flat_map (entries p) (expand n p)) /\
    snd r = List.length (parameter_names (fst r)) /\
    List.length (lookup (fst r)) = n /\
    forall j, (j < n)%nat -> nth j (lookup (fst r)) [] =
      dset (p_name p) (k + if p_multi p then j else 0)%nat (nth j (lookup st) []).
  Proof.
    intros n st k p Hk Hn r. subst r. unfold prepare_one. destruct (p_multi p) eqn:M; cbn [negb].
    - destruct (multi_loop_spec p n 0 st k M) as (I1 & I2 & I3 & I4 & I5); [lia|].
      assert (expand n p = map (full_name p) (seq 0 n)) as EX by (unfold expand; now rewrite M).
      rewrite EX. split; [|split; [|split; [|split]]]; auto.
      + rewrite I3, I1, app_length, map_length, seq_length. lia.
      + lia.
      + intros j Hj. rewrite I5. destruct (Nat.leb_spec 0 j), (Nat.ltb_spec j (0 + n)); try lia. cbn [andb].
        f_equal. lia.
    - assert (expand n p = [p_name p]) as EX by (unfold expand; now rewrite M). rewrite EX.
      destruct (shared_loop_spec p n 0 k (lookup st)) as [L N]; [lia|].
      cbn [fst snd parameter_names minuit_kwargs lookup flat_map]. rewrite app_nil_r.
      split; [|split; [|split; [|split]]]; auto.
      + rewrite app_length. cbn. lia.
      + lia.
      + intros j Hj. rewrite N. destruct (Nat.leb_spec 0 j), (Nat.ltb_spec j (0 + n)); try lia. cbn [andb]. f_equal. lia.
  Qed.

  (** Everything [_prepare_parameters] computes. *)
  Lemma fold_spec : forall n ps st k, k = List.length (parameter_names st) -> List.length (lookup st) = n ->
    NoDup (map p_name ps) ->
    let r := fold_left (prepare_one n) ps (st, k) in
    parameter_names (fst r) = parameter_names st ++ all_names n ps /\
    minuit_kwargs (fst r) = dupdate (minuit_kwargs st) (flat_map (fun p => flat_map (entries p) (expand n p)) ps) /\
    List.length (lookup (fst r)) = n /\
    (forall j c, (j < n)%nat -> ~ In c (map p_name ps) -> dget c (nth j (lookup (fst r)) []) = dget c (nth j (lookup st) [])) /\
    (forall j p, (j < n)%nat -> In p ps -> exists i,
       dget (p_name p) (nth j (lookup (fst r)) []) = Some i /\
       nth_error (parameter_names (fst r)) i = Some (full_name p j)).
  Proof.
    intros n. induction ps as [|p ps IH]; intros st k Hk Hn ND r; subst r; cbn [fold_left].
    - cbn. rewrite app_nil_r. split; [|split; [|split; [|split]]]; auto. intros j p _ [].
    - inversion ND as [|? ? NI ND']; subst.
      destruct (prepare_one_spec (List.length (lookup st)) st _ p eq_refl eq_refl) as (O1 & O2 & O3 & O4 & O5).
      destruct (prepare_one (List.length (lookup st)) (st, List.length (parameter_names st)) p) as [st1 k1].
      cbn [fst snd] in *.
      destruct (IH st1 k1 O3 O4 ND') as (I1 & I2 & I3 & I4 & I5).
      set (r := fold_left (prepare_one (List.length (lookup st))) ps (st1, k1)) in *.
      split; [|split; [|split; [|split]]]; auto.
      + rewrite I1, O1, <- app_assoc. reflexivity.
      + rewrite I2, O2. cbn [flat_map]. now rewrite dupdate_app.
      + intros j c Hj NC. rewrite I4 by (auto; intros X; apply NC; now right). rewrite O5 by auto.
        apply dget_dset_neq. intros ->. apply NC. now left.
      + intros j q Hj [->|I].
        * eexists. split.
          -- rewrite I4 by auto. rewrite O5 by auto. apply dget_dset_eq.
          -- rewrite I1, O1, <- app_assoc. rewrite nth_error_app2 by lia.
             match goal with |- nth_error _ ?x = _ => replace x with (if p_multi q then j else 0)%nat by lia end.
             unfold expand, full_name. destruct (p_multi q) eqn:M.
             ++ rewrite nth_error_app1 by (rewrite map_length, seq_length; auto).
                rewrite nth_error_map, nth_error_nth' with (d := 0%nat) by (rewrite seq_length; auto).
                rewrite seq_nth by auto. cbn [option_map Nat.add]. unfold full_name. now rewrite ?M.
             ++ reflexivity.
        * apply I5; auto.
  Qed.

  Lemma prepare_spec : forall n ps, NoDup (map p_name ps) ->
    let r := prepare_parameters n ps in
    parameter_names r = all_names n ps /\
    minuit_kwargs r = dupdate [] (flat_map (fun p => flat_map (entries p) (expand n p)) ps) /\
    List.length (lookup r) = n /\
    (forall j c, (j < n)%nat -> ~ In c (map p_name ps) -> dget c (nth j (lookup r) []) = None) /\
    (forall j p, (j < n)%nat -> In p ps -> exists i,
       dget (p_name p) (nth j (lookup r) []) = Some i /\ nth_error (parameter_names r) i = Some (full_name p j)).
  Proof.
    intros n ps ND r. subst r. unfold prepare_parameters.
    destruct (fold_spec n ps (Prep [] [] (repeat [] n)) 0 eq_refl (repeat_length [] n) ND) as (I1 & I2 & I3 & I4 & I5).
    split; [|split; [|split; [|split]]]; auto.
    intros j c Hj NC. rewrite I4 by auto. cbn [lookup].
    transitivity (dget c ([] : dict nat)); [f_equal|reflexivity].
    destruct (nth_in_or_default j (repeat ([] : dict nat) n) []) as [I|E]; auto. now apply repeat_spec in I.
  Qed.

  (** The vector the minimiser passes: one value per name, in the order of the names. *)
  Lemma c28 : forall n ps, NoDup (map p_name ps) -> NoDup (all_names n ps) ->
    let r := prepare_parameters n ps in
    parameter_names r = all_names n ps /\
    (forall i p (value : string -> V), (i < n)%nat -> In p ps -> exists k,
       dget (p_name p) (nth i (lookup r) []) = Some k /\
       nth_error (map value (parameter_names r)) k = Some (value (full_name p i))) /\
    (forall i p j q k, (i < n)%nat -> (j < n)%nat -> In p ps -> In q ps ->
       dget (p_name p) (nth i (lookup r) []) = Some k -> dget (p_name q) (nth j (lookup r) []) = Some k ->
       p = q /\ (p_multi p = true -> i = j)) /\
    (forall i j p, (i < n)%nat -> (j < n)%nat -> In p ps -> p_multi p = false ->
       dget (p_name p) (nth i (lookup r) []) = dget (p_name p) (nth j (lookup r) [])) /\
    ((0 < n)%nat -> forall k, (k < List.length (parameter_names r))%nat ->
       exists i p, (i < n)%nat /\ In p ps /\ dget (p_name p) (nth i (lookup r) []) = Some k).
  Proof.
    intros n ps ND NA r. destruct (prepare_spec n ps ND) as (I1 & _ & I3 & _ & I5). fold r in I1, I3, I5.
    assert (forall i p k, (i < n)%nat -> In p ps -> dget (p_name p) (nth i (lookup r) []) = Some k ->
              nth_error (all_names n ps) k = Some (full_name p i)) as KEY.
    { intros i p k Hi Hp E. destruct (I5 i p Hi Hp) as (k' & E1 & E2). rewrite I1 in E2. congruence. }
    assert (forall i p, (i < n)%nat -> In p ps -> In (full_name p i) (expand n p)) as INX.
    { intros i p Hi Hp. unfold expand. destruct (p_multi p) eqn:M.
      - apply in_map. apply in_seq. lia.
      - unfold full_name. rewrite M. now left. }
    assert (forall (l : list param), NoDup (flat_map (expand n) l) -> forall p q x, In p l -> In q l ->
              In x (expand n p) -> In x (expand n q) -> p = q) as FM.
    { induction l as [|a l IH]; intros NL p q x Hp Hq Xp Xq; [destruct Hp|]. cbn [flat_map] in NL.
      assert (forall y b, In y (expand n a) -> In b l -> In y (expand n b) -> False) as DJ.
      { intros y b Ya Hb Yb. clear -NL Ya Hb Yb. induction (expand n a) as [|z t IHt]; [destruct Ya|].
        cbn [app] in NL. inversion NL; subst. destruct Ya as [->|Ya]; auto.
        apply H1. apply in_or_app. right. apply in_flat_map. eauto. }
      destruct Hp as [<-|Hp], Hq as [<-|Hq]; auto.
      - exfalso. eapply DJ; eauto.
      - exfalso. eapply DJ; eauto.
      - eapply IH; eauto. clear -NL. induction (expand n a); auto. cbn [app] in NL. inversion NL; auto. }
    split; auto. split; [|split; [|split]].
    - intros i p value Hi Hp. destruct (I5 i p Hi Hp) as (k & E1 & E2). exists k. split; auto.
      rewrite nth_error_map, E2. reflexivity.
    - intros i p j q k Hi Hj Hp Hq E1 E2. pose proof (KEY _ _ _ Hi Hp E1) as K1. pose proof (KEY _ _ _ Hj Hq E2) as K2.
      assert (full_name p i = full_name q j) as FE by congruence.
      assert (p = q) as PQ.
      { apply (FM ps NA p q (full_name p i)); auto. rewrite FE. auto. }
      split; auto. intros M. subst q. unfold full_name in FE. rewrite M in FE.
      assert (forall a b c, (a ++ b)%string = (a ++ c)%string -> b = c) as AI.
      { induction a; cbn; intros; auto. inversion H; auto. }
      apply AI in FE. apply dec_inj in FE. lia.
    - intros i j p Hi Hj Hp M. destruct (I5 i p Hi Hp) as (k & E1 & E2). destruct (I5 j p Hj Hp) as (k' & E1' & E2').
      assert (full_name p i = full_name p j) as FE by (unfold full_name; now rewrite M).
      rewrite FE in E2. rewrite I1 in *. rewrite E1, E1'. f_equal.
      eapply NoDup_nth_error; [exact NA| |congruence]. apply nth_error_Some. congruence.
    - intros Hn k Hk. rewrite I1 in *. destruct (nth_error (all_names n ps) k) as [x|] eqn:E.
      2:{ apply nth_error_None in E. lia. }
      pose proof (nth_error_In _ _ E) as I. apply in_flat_map in I. destruct I as (p & Hp & Hx).
      assert (exists i, (i < n)%nat /\ x = full_name p i) as (i & Hi & ->).
      { unfold expand in Hx. destruct (p_multi p) eqn:M.
        - apply in_map_iff in Hx. destruct Hx as (i & <- & Hi). apply in_seq in Hi. exists i. split; auto. lia.
        - destruct Hx as [<-|[]]. exists 0%nat. split; auto. unfold full_name. now rewrite M. }
      exists i, p. split; auto. split; auto. destruct (I5 i p Hi Hp) as (k' & E1 & E2). rewrite E1. f_equal.
      eapply NoDup_nth_error; [exact NA| |congruence]. apply nth_error_Some. congruence.
  Qed.

  (** ** Settings *)
  (** The keyword arguments describe the parameters. *)
  Definition reflects (f : fitter V) : Prop :=
    forall p i, In p (f_params f) -> (i < f_n f)%nat ->
      dget (full_name p i) (apply_kwargs f) = Some (SVal (p_initial p)) /\
      dget ("limit_" ++ full_name p i)%string (apply_kwargs f) = Some (SLim (p_limits p)) /\
      dget ("fix_" ++ full_name p i)%string (apply_kwargs f) = Some (SVal (p_fixed p)).
  (** No two settings share a keyword. *)
  Definition clean (n : nat) (ps : list param) : Prop :=
    NoDup (map p_name ps) /\ NoDup (flat_map kw_keys (all_names n ps)).

  Lemma kwargs_reflect : forall n ps p i, clean n ps -> In p ps -> (i < n)%nat ->
    let kw := minuit_kwargs (prepare_parameters n ps) in
    dget (full_name p i) kw = Some (SVal (p_initial p)) /\
    dget ("limit_" ++ full_name p i)%string kw = Some (SLim (p_limits p)) /\
    dget ("fix_" ++ full_name p i)%string kw = Some (SVal (p_fixed p)).
  Proof.
    intros n ps p i [ND NK] Hp Hi kw. destruct (prepare_spec n ps ND) as (_ & I2 & _). fold kw in I2.
    set (L := flat_map (fun p => flat_map (entries p) (expand n p)) ps) in *.
    assert (dkeys L = flat_map kw_keys (all_names n ps)) as KL.
    { unfold L, all_names, dkeys. clear. induction ps as [|q ps IH]; auto. cbn [flat_map].
      rewrite map_app, flat_map_app, IH. f_equal.
      induction (expand n q) as [|x l IHl]; auto. cbn [flat_map]. rewrite map_app, IHl. reflexivity. }
    assert (forall x v, In (x, v) (entries p (full_name p i)) -> dget x kw = Some v) as G.
    { intros x v I. rewrite I2. rewrite dget_dupdate by (rewrite KL; exact NK).
      assert (In (x, v) L) as IL.
      { unfold L. apply in_flat_map. exists p. split; auto. apply in_flat_map. exists (full_name p i). split; auto.
        unfold expand. destruct (p_multi p) eqn:M; [apply in_map; apply in_seq; lia|].
        unfold full_name. rewrite M. now left. }
      assert (dget x L = Some v) as E by (apply In_dget_nodup; [rewrite KL; exact NK|exact IL]).
      now rewrite E. }
    repeat split; apply G; cbn; auto.
  Qed.

  Lemma new_reflects : forall n ps b r, clean n ps -> reflects (new_fitter n ps b r).
  Proof. intros n ps b r C p i Hp Hi. now apply kwargs_reflect. Qed.

  Lemma update_names : forall (qs ps ps' : list param) e, update_loop qs ps = (ps', e) -> map p_name ps' = map p_name ps.
  Proof.
    assert (forall (q : param) ps ps', update_param q ps = Ok ps' -> map p_name ps' = map p_name ps) as ONE.
    { intros q. induction ps as [|p ps IH]; intros ps' E; [discriminate|]. cbn [update_param] in E.
      destruct (String.eqb (p_name p) (p_name q)); [inversion E; subst; reflexivity|].
      destruct (update_param q ps); [|discriminate]. inversion E; subst. cbn. f_equal. now apply IH. }
    induction qs as [|q qs IH]; intros ps ps' e E; cbn [update_loop] in E; [inversion E; subst; auto|].
    destruct (update_param q ps) as [ps1|x] eqn:U; [|inversion E; subst; auto].
    rewrite (IH _ _ _ E). eapply ONE; eauto.
  Qed.

  Lemma update_reflects : forall qs (f f' : fitter V), update qs f = (f', None) -> clean (f_n f') (f_params f') -> reflects f'.
  Proof.
    intros qs f f' E C. unfold update in E. destruct (update_loop qs (f_params f)) as [ps [e|]]; [discriminate|].
    inversion E; subst. intros p i Hp Hi. now apply kwargs_reflect.
  Qed.

  (** What update stores. *)
  Lemma update_param_get : forall (q : param) ps ps', NoDup (map p_name ps) -> update_param q ps = Ok ps' ->
    In q ps' /\ (forall p, In p ps -> p_name p <> p_name q -> In p ps') /\
    (forall p, In p ps' -> p = q \/ In p ps /\ p_name p <> p_name q).
  Proof.
    intros q. induction ps as [|p ps IH]; intros ps' ND E; [discriminate|]. cbn [update_param] in E.
    inversion ND as [|? ? NI ND']; subst.
    destruct (eqb_spec (p_name p) (p_name q)) as [EN|NE].
    - inversion E; subst. destruct q as [nq iq lq fq mq]. cbn [p_name p_initial p_limits p_fixed p_multi] in *. subst nq.
      split; [now left|]. split.
      + intros p' [->|I] N; [congruence|now right].
      + intros p' [<-|I]; [now left|]. right. split; [now right|]. intros X. apply NI. rewrite <- X. now apply in_map.
    - destruct (update_param q ps) as [ps1|] eqn:U; [|discriminate]. inversion E; subst.
      destruct (IH _ ND' eq_refl) as (A & B & C). split; [now right|]. split.
      + intros p' [->|I] N; [now left|]. right. now apply B.
      + intros p' [<-|I]; [right; split; auto; now left|]. destruct (C p' I) as [->|[I1 I2]]; [now left|]. right. split; auto. now right.
  Qed.

  Lemma load_keeps_kwargs : forall file (f f' : fitter V) rest, load_config file f = Ok (f', rest) -> apply_kwargs f' = apply_kwargs f.
  Proof.
    intros [d|] f f' rest E; cbn [load_config] in E; [|inversion E; subst; auto].
    destruct (match dget "n_bins" d with Some (YLeaf l) => as_val l | Some (YMap _) => Raise TypeError | None => Ok (f_bins f) end);
      [|discriminate]. cbn [bind] in E.
    match type of E with context [bind ?r _] => destruct r; [|discriminate] end. cbn [bind] in E.
    destruct (load_params (f_params f) _) as [[ps d3]|]; [|discriminate]. cbn [bind] in E. inversion E; subst. reflexivity.
  Qed.

  Lemma initial_keeps_kwargs : forall ill (f : fitter V), apply_kwargs (fst (update_initial ill f)) = apply_kwargs f.
  Proof.
    intros ill f. unfold update_initial. destruct (f_result f); auto.
    destruct (initial_loop d ill (f_params f)). reflexivity.
  Qed.

  (** ** Loading *)
  Lemma dget_dpop : forall A k k' (d : dict A), dget k (dpop k' d) = if String.eqb k k' then None else dget k d.
  Proof.
    intros A k k' d. unfold dpop. induction d as [|[x v] d IH]; cbn [filter dget fst].
    - destruct (String.eqb k k'); auto.
    - destruct (eqb_spec k' x) as [->|N]; cbn [negb].
      + rewrite IH. destruct (String.eqb k x); auto.
      + cbn [dget]. destruct (eqb_spec k x) as [->|N2]; [|exact IH].
        destruct (eqb_spec x k') as [->|]; [congruence|auto].
  Qed.

  Definition pops {A} (ks : list string) (d : dict A) : dict A := fold_left (fun d k => dpop k d) ks d.
  Lemma dget_pops : forall A ks k (d : dict A), dget k (pops ks d) = if smem k ks then None else dget k d.
  Proof.
    intros A ks k. induction ks as [|x ks IH]; intros d; auto. cbn [pops fold_left]. fold (pops ks (dpop x d)).
    rewrite IH. destruct (smem k ks) eqn:S; destruct (smem k (x :: ks)) eqn:S2; auto.
    - apply smem_In in S. apply smem_false in S2. exfalso. apply S2. now right.
    - rewrite dget_dpop. destruct (eqb_spec k x) as [->|N]; auto. apply smem_In in S2. apply smem_false in S.
      destruct S2 as [->|S2]; [congruence|contradiction].
    - rewrite dget_dpop. destruct (eqb_spec k x) as [->|N]; auto. apply smem_false in S2. exfalso. apply S2. now left.
  Qed.

  Definition sections : list string := ["initial"; "limits"; "fixed"].
  (** A configuration as the documentation shows it: scalars and sequences where expected. *)
  Definition well_typed (names : list string) (d : dict (yaml V)) : Prop :=
    (forall s, In s sections -> dget s d = None \/ exists m, dget s d = Some (YMap m)) /\
    (forall s m c, In s ["initial"; "fixed"] -> In c names -> dget s d = Some (YMap m) ->
       dget c m = None \/ exists v, dget c m = Some (LVal v)) /\
    (forall m c, In c names -> dget "limits" d = Some (YMap m) -> dget c m = None \/ exists v, dget c m = Some (LSeq v)).

  Definition entry (s : string) (d : dict (yaml V)) (c : string) : option (leaf V) :=
    match dget s d with Some (YMap m) => dget c m | _ => None end.
  Definition scalar (o : option (leaf V)) (dflt : V) : V := match o with Some (LVal v) => v | _ => dflt end.
  Definition tuple (o : option (leaf V)) (dflt : list V) : list V := match o with Some (LSeq v) => v | _ => dflt end.

  Definition loaded (d : dict (yaml V)) (p : param) : param :=
    Par (p_name p) (scalar (entry "initial" d (p_name p)) (p_initial p))
        (tuple (entry "limits" d (p_name p)) (p_limits p))
        (scalar (entry "fixed" d (p_name p)) (p_fixed p)) (p_multi p).

  Definition pop_section (k : string) (o : option (yaml V)) : option (yaml V) :=
    match o with Some (YMap m) => Some (YMap (dpop k m)) | x => x end.

  Lemma load_param_ok : forall (p : param) d, well_typed [p_name p] d -> exists d',
    load_param p d = Ok (loaded d p, d') /\
    (forall k, ~ In k sections -> dget k d' = dget k d) /\
    (forall s, In s sections -> dget s d' = pop_section (p_name p) (dget s d)).
  Proof.
    intros p d (W1 & W2 & W3). unfold load_param, loaded, entry.
    (* one section at a time *)
    destruct (W1 "initial" ltac:(cbn; auto)) as [E1|(m1 & E1)].
    - assert (sect "initial" d = Ok None) as -> by (unfold sect; now rewrite E1). cbn [bind].
      destruct (W1 "limits" ltac:(cbn; auto)) as [E2|(m2 & E2)].
      + assert (sect "limits" d = Ok None) as -> by (unfold sect; now rewrite E2). cbn [bind].
        destruct (W1 "fixed" ltac:(cbn; auto)) as [E3|(m3 & E3)].
        * assert (sect "fixed" d = Ok None) as -> by (unfold sect; now rewrite E3). cbn [bind].
          rewrite E1, E2, E3. eexists. split; [reflexivity|]. split; auto.
          intros s [<-|[<-|[<-|[]]]]; [rewrite E1|rewrite E2|rewrite E3]; reflexivity.
        * assert (sect "fixed" d = Ok (Some m3)) as -> by (unfold sect; now rewrite E3). cbn [bind].
          destruct (W2 "fixed" m3 (p_name p) ltac:(cbn; auto) ltac:(cbn; auto) E3) as [G3|(v3 & G3)]; rewrite G3; cbn [as_val bind];
          rewrite E1, E2, E3, ?G3; (eexists; split; [reflexivity|]; split;
          [intros k NI; apply dget_dset_neq; intros ->; apply NI; cbn; auto|
           intros s [<-|[<-|[<-|[]]]]; [rewrite dget_dset_neq, E1 by discriminate|rewrite dget_dset_neq, E2 by discriminate|
            rewrite dget_dset_eq, E3]; reflexivity]).
      + assert (sect "limits" d = Ok (Some m2)) as -> by (unfold sect; now rewrite E2). cbn [bind].
        destruct (W3 m2 (p_name p) ltac:(cbn; auto) E2) as [G2|(v2 & G2)]; rewrite G2; cbn [as_tuple bind];
        (destruct (W1 "fixed" ltac:(cbn; auto)) as [E3|(m3 & E3)];
         [ unfold sect; rewrite dget_dset_neq, E3 by discriminate; cbn [bind]; rewrite E1, E2, ?G2;
           (eexists; split; [reflexivity|]; split;
            [intros k NI; apply dget_dset_neq; intros ->; apply NI; cbn; auto|
             intros s [<-|[<-|[<-|[]]]]; [rewrite dget_dset_neq, E1 by discriminate|rewrite dget_dset_eq, E2|
               rewrite dget_dset_neq, E3 by discriminate]; reflexivity])
         | unfold sect; rewrite dget_dset_neq, E3 by discriminate; cbn [bind];
           (destruct (W2 "fixed" m3 (p_name p) ltac:(cbn; auto) ltac:(cbn; auto) E3) as [G3|(v3 & G3)]; rewrite G3; cbn [as_val bind];
            rewrite E1, E2, ?G2, ?G3;
            (eexists; split; [reflexivity|]; split;
             [intros k NI; rewrite !dget_dset_neq; auto; intros ->; apply NI; cbn; auto|
              intros s [<-|[<-|[<-|[]]]];
               [rewrite !dget_dset_neq, E1 by discriminate|rewrite dget_dset_neq, dget_dset_eq, E2 by discriminate|
                rewrite dget_dset_eq, E3]; reflexivity])) ]).
    - assert (sect "initial" d = Ok (Some m1)) as -> by (unfold sect; now rewrite E1). cbn [bind].
      destruct (W2 "initial" m1 (p_name p) ltac:(cbn; auto) ltac:(cbn; auto) E1) as [G1|(v1 & G1)]; rewrite G1; cbn [as_val bind];
      unfold sect; rewrite dget_dset_neq by discriminate;
      (destruct (W1 "limits" ltac:(cbn; auto)) as [E2|(m2 & E2)]; rewrite E2; cbn [bind];
       [ rewrite dget_dset_neq by discriminate;
         destruct (W1 "fixed" ltac:(cbn; auto)) as [E3|(m3 & E3)]; rewrite E3; cbn [bind];
         [ rewrite E1, ?G1; (eexists; split; [reflexivity|]; split;
            [intros k NI; apply dget_dset_neq; intros ->; apply NI; cbn; auto|
             intros s [<-|[<-|[<-|[]]]]; [rewrite dget_dset_eq, E1|rewrite dget_dset_neq, E2 by discriminate|
               rewrite dget_dset_neq, E3 by discriminate]; reflexivity])
         | destruct (W2 "fixed" m3 (p_name p) ltac:(cbn; auto) ltac:(cbn; auto) E3) as [G3|(v3 & G3)]; rewrite G3; cbn [as_val bind];
           rewrite E1, ?G1, ?G3; (eexists; split; [reflexivity|]; split;
             [intros k NI; rewrite !dget_dset_neq; auto; intros ->; apply NI; cbn; auto|
              intros s [<-|[<-|[<-|[]]]];
               [rewrite dget_dset_neq, dget_dset_eq, E1 by discriminate|rewrite !dget_dset_neq, E2 by discriminate|
                rewrite dget_dset_eq, E3]; reflexivity]) ]
       | destruct (W3 m2 (p_name p) ltac:(cbn; auto) E2) as [G2|(v2 & G2)]; rewrite G2; cbn [as_tuple bind];
         rewrite !dget_dset_neq by discriminate;
         (destruct (W1 "fixed" ltac:(cbn; auto)) as [E3|(m3 & E3)]; rewrite E3; cbn [bind];
         [ rewrite E1, ?G1, ?G2; (eexists; split; [reflexivity|]; split;
            [intros k NI; rewrite !dget_dset_neq; auto; intros ->; apply NI; cbn; auto|
             intros s [<-|[<-|[<-|[]]]]; [rewrite dget_dset_neq, dget_dset_eq, E1 by discriminate|rewrite dget_dset_eq, E2|
               rewrite !dget_dset_neq, E3 by discriminate]; reflexivity])
         | destruct (W2 "fixed" m3 (p_name p) ltac:(cbn; auto) ltac:(cbn; auto) E3) as [G3|(v3 & G3)]; rewrite G3; cbn [as_val bind];
           rewrite E1, ?G1, ?G2, ?G3; (eexists; split; [reflexivity|]; split;
             [intros k NI; rewrite !dget_dset_neq; auto; intros ->; apply NI; cbn; auto|
              intros s [<-|[<-|[<-|[]]]];
               [rewrite !dget_dset_neq, dget_dset_eq, E1 by discriminate|rewrite dget_dset_neq, dget_dset_eq, E2 by discriminate|
                rewrite dget_dset_eq, E3]; reflexivity]) ]) ]).
  Qed.

  (** Entries of a section that name no parameter. *)
  Definition others (names : list string) (m : dict (leaf V)) : dict (leaf V) :=
    filter (fun kv => negb (smem (fst kv) names)) m.
  Lemma others_cons : forall c names m, others names (dpop c m) = others (c :: names) m.
  Proof.
    intros c names m. unfold others, dpop. induction m as [|[x v] m IH]; auto. cbn [filter fst].
    destruct (eqb_spec c x) as [->|N]; cbn [negb filter fst].
    - rewrite IH. assert (smem x (x :: names) = true) as -> by (apply smem_In; now left). reflexivity.
    - rewrite IH. assert (smem x (c :: names) = smem x names) as ->; auto.
      destruct (smem x names) eqn:S; destruct (smem x (c :: names)) eqn:S2; auto.
      + apply smem_In in S. apply smem_false in S2. exfalso. apply S2. now right.
      + apply smem_In in S2. apply smem_false in S. destruct S2 as [->|]; [congruence|contradiction].
  Qed.

  Definition section_after (names : list string) (o : option (yaml V)) : option (yaml V) :=
    match o with Some (YMap m) => Some (YMap (others names m)) | x => x end.

  Lemma well_typed_sub : forall a b d, (forall c, In c a -> In c b) -> well_typed b d -> well_typed a d.
  Proof. intros a b d S (W1 & W2 & W3). split; auto. split; eauto. Qed.

  Lemma sections_cases : forall s, In s sections -> s = "limits" \/ In s ["initial"; "fixed"].
  Proof. intros s [<-|[<-|[<-|[]]]]; cbn; auto. Qed.

  Lemma load_params_ok : forall (ps : list param) d, NoDup (map p_name ps) -> well_typed (map p_name ps) d -> exists d',
    load_params ps d = Ok (map (loaded d) ps, d') /\
    (forall k, ~ In k sections -> dget k d' = dget k d) /\
    (forall s, In s sections -> dget s d' = section_after (map p_name ps) (dget s d)).
  Proof.
    induction ps as [|p ps IH]; intros d ND W.
    - exists d. split; [reflexivity|]. split; auto. intros s _. unfold section_after, others. cbn [map].
      destruct (dget s d) as [[l|m]|]; auto. do 2 f_equal.
      induction m as [|x m IHm]; auto. cbn in *. congruence.
    - cbn [map] in *. inversion ND as [|? ? NI ND']; subst.
      destruct (load_param_ok p d) as (d1 & L1 & O1 & S1).
      { eapply well_typed_sub; [|exact W]. intros c [<-|[]]. now left. }
      assert (forall s c, In s sections -> In c (map p_name ps) -> entry s d1 c = entry s d c) as EN.
      { intros s c Is Ic. unfold entry. rewrite (S1 s Is). unfold pop_section.
        destruct (dget s d) as [[l|m]|]; auto. rewrite dget_dpop.
        destruct (eqb_spec c (p_name p)) as [->|]; [contradiction|auto]. }
      assert (well_typed (map p_name ps) d1) as W'.
      { destruct W as (W1 & W2 & W3). split; [|split].
        - intros s Is. rewrite (S1 s Is). destruct (W1 s Is) as [->|(m & ->)]; cbn; eauto.
        - intros s m c Is Ic E.
          assert (In s sections) as Iss by (destruct Is as [<-|[<-|[]]]; cbn; auto).
          pose proof (EN s c Iss Ic) as EE. unfold entry in EE. rewrite E in EE. rewrite EE.
          destruct (dget s d) as [[l|m']|] eqn:E'; auto.
          apply (W2 s m' c); auto. now right.
        - intros m c Ic E.
          pose proof (EN "limits" c ltac:(cbn; auto) Ic) as EE. unfold entry in EE. rewrite E in EE. rewrite EE.
          destruct (dget "limits" d) as [[l|m']|] eqn:E'; auto.
          apply (W3 m' c); auto. now right. }
      destruct (IH d1 ND' W') as (d2 & L2 & O2 & S2).
      exists d2. split; [|split].
      + cbn [load_params]. rewrite L1. cbn [bind fst snd]. rewrite L2. cbn [bind fst snd]. do 3 f_equal.
        apply map_ext_in. intros q Iq. unfold loaded.
        assert (In (p_name q) (map p_name ps)) as Iq' by now apply in_map.
        rewrite !EN by (cbn; auto). reflexivity.
      + intros k Nk. rewrite O2, O1; auto.
      + intros s Is. rewrite (S2 s Is), (S1 s Is). unfold section_after, pop_section.
        destruct (dget s d) as [[l|m]|]; auto. now rewrite others_cons.
  Qed.

  Lemma dget_drop_empty : forall k s (d : dict (yaml V)),
    dget k (drop_empty s d) = if String.eqb k s then (match dget s d with Some (YMap []) => None | x => x end) else dget k d.
  Proof.
    intros k s d. unfold drop_empty. destruct (dget s d) as [[l|[|x m]]|] eqn:E;
      try (destruct (eqb_spec k s) as [->|]; auto; fail).
    rewrite dget_dpop. reflexivity.
  Qed.

  (** A file that gives scalars for n_bins and sequences for range, and well typed sections. *)
  Definition file_ok (names : list string) (d : dict (yaml V)) : Prop :=
    (dget "n_bins" d = None \/ exists v, dget "n_bins" d = Some (YLeaf (LVal v))) /\
    (dget "range" d = None \/ exists v, dget "range" d = Some (YLeaf (LSeq v))) /\
    well_typed names d.

  (** What is reported as unused under key [k]. *)
  Definition unused (names : list string) (d : dict (yaml V)) (k : string) : option (yaml V) :=
    if smem k ["n_bins"; "range"] then None
    else if smem k sections then
      match dget k d with
      | Some (YMap m) => match others names m with [] => None | l => Some (YMap l) end
      | x => x
      end
    else dget k d.

  Lemma load_config_ok : forall (f : fitter V) d, NoDup (map p_name (f_params f)) -> file_ok (map p_name (f_params f)) d ->
    exists rest,
      load_config (Some d) f =
        Ok (Fit (f_n f) (map (loaded d) (f_params f)) (f_prep f)
              (match dget "n_bins" d with Some (YLeaf (LVal v)) => v | _ => f_bins f end)
              (match dget "range" d with Some (YLeaf (LSeq v)) => v | _ => f_range f end) (f_result f), rest) /\
      forall k, dget k rest = unused (map p_name (f_params f)) d k.
  Proof.
    intros f d ND (B & R & W). unfold load_config.
    assert (forall k, dget k (dpop "range" (dpop "n_bins" d)) = if smem k ["n_bins"; "range"] then None else dget k d) as D2.
    { intros k. rewrite !dget_dpop. unfold smem. cbn [existsb]. rewrite orb_false_r.
      destruct (String.eqb k "range"); destruct (String.eqb k "n_bins"); reflexivity. }
    assert (dget "range" (dpop "n_bins" d) = dget "range" d) as R1 by (rewrite dget_dpop; reflexivity).
    assert (forall s, In s sections -> dget s (dpop "range" (dpop "n_bins" d)) = dget s d) as DS.
    { intros s [<-|[<-|[<-|[]]]]; rewrite D2; reflexivity. }
    set (d2 := dpop "range" (dpop "n_bins" d)) in *.
    assert (well_typed (map p_name (f_params f)) d2) as W2.
    { destruct W as (W1 & W2' & W3). split; [|split].
      - intros s Is. rewrite (DS s Is). auto.
      - intros s m c Is. rewrite DS; [apply W2'; auto|]. destruct Is as [<-|[<-|[]]]; cbn; auto.
      - intros m c. rewrite DS by (cbn; auto). apply W3. }
    destruct (load_params_ok (f_params f) d2 ND W2) as (d3 & L & O & S).
    assert (map (loaded d2) (f_params f) = map (loaded d) (f_params f)) as LE.
    { apply map_ext. intros p. unfold loaded, entry. rewrite !DS by (cbn; auto). reflexivity. }
    rewrite LE in L. rewrite R1.
    exists (drop_empty "fixed" (drop_empty "limits" (drop_empty "initial" d3))). split.
    - destruct B as [->|(v & ->)], R as [->|(w & ->)]; cbn [as_val as_tuple bind]; rewrite L; reflexivity.
    - intros k. rewrite !dget_drop_empty. unfold unused.
      assert (forall x, In x sections -> dget x d3 = section_after (map p_name (f_params f)) (dget x d)) as S'
        by (intros x Ix; rewrite (S x Ix), (DS x Ix); reflexivity).
      destruct (eqb_spec k "fixed") as [->|N1]; [|destruct (eqb_spec k "limits") as [->|N2];
        [|destruct (eqb_spec k "initial") as [->|N3]]].
      + cbn [String.eqb Ascii.eqb Bool.eqb smem sections]. rewrite S' by (cbn; auto). unfold section_after.
        change (smem "fixed" ["n_bins"; "range"]) with false. change (smem "fixed" sections) with true. cbn iota.
        destruct (dget "fixed" d) as [[l|m]|]; reflexivity.
      + cbn [String.eqb Ascii.eqb Bool.eqb]. rewrite S' by (cbn; auto). unfold section_after.
        change (smem "limits" ["n_bins"; "range"]) with false. change (smem "limits" sections) with true. cbn iota.
        destruct (dget "limits" d) as [[l|m]|]; reflexivity.
      + cbn [String.eqb Ascii.eqb Bool.eqb]. rewrite S' by (cbn; auto). unfold section_after.
        change (smem "initial" ["n_bins"; "range"]) with false. change (smem "initial" sections) with true. cbn iota.
        destruct (dget "initial" d) as [[l|m]|]; reflexivity.
      + assert (~ In k sections) as NS by (intros [<-|[<-|[<-|[]]]]; congruence).
        rewrite (O k NS), D2. apply smem_false in NS. rewrite NS. reflexivity.
  Qed.

  (** ** Round trip *)
  Lemma section_dict_get : forall g (ps : list param) d c, NoDup (map p_name ps) ->
    dget c (section_dict g ps d) =
      match find (fun p => String.eqb c (p_name p)) ps with Some p => Some (g p) | None => dget c d end.
  Proof.
    intros g. induction ps as [|p ps IH]; intros d c ND; auto. cbn [section_dict find map] in *.
    inversion ND as [|? ? NI ND']; subst. rewrite IH by auto.
    destruct (eqb_spec c (p_name p)) as [->|N].
    - destruct (find _ ps) as [q|] eqn:F.
      + apply find_some in F. destruct F as [Iq E]. apply String.eqb_eq in E. exfalso. apply NI. rewrite E. now apply in_map.
      + apply dget_dset_eq.
    - destruct (find _ ps); auto. now rewrite dget_dset_neq by auto.
  Qed.
  Lemma section_dict_keys : forall g (ps : list param) d k, In k (dkeys (section_dict g ps d)) -> In k (dkeys d) \/ In k (map p_name ps).
  Proof.
    intros g. induction ps as [|p ps IH]; intros d k I; auto. cbn [section_dict map] in *.
    destruct (IH _ _ I) as [I1|I1]; [|now right; right].
    apply in_map_iff in I1. destruct I1 as ([k' v] & <- & I1). cbn [fst] in *.
    assert (dmem k' (dset (p_name p) (g p) d) = true) as M by (apply dmem_In; unfold dkeys; apply in_map_iff; exists (k', v); auto).
    destruct (eqb_spec k' (p_name p)) as [->|N]; [now right; left|]. left.
    apply dmem_In. unfold dmem in *. now rewrite dget_dset_neq in M by auto.
  Qed.

  Lemma find_name : forall (ps : list param) p, NoDup (map p_name ps) -> In p ps ->
    find (fun q => String.eqb (p_name p) (p_name q)) ps = Some p.
  Proof.
    induction ps as [|q ps IH]; intros p ND I; [destruct I|]. cbn [find map] in *. inversion ND as [|? ? NI ND']; subst.
    destruct I as [->|I]; [now rewrite String.eqb_refl|].
    destruct (eqb_spec (p_name p) (p_name q)) as [E|N]; auto. exfalso. apply NI. rewrite <- E. now apply in_map.
  Qed.

  Lemma others_nil : forall names (m : dict (leaf V)), (forall k, In k (dkeys m) -> In k names) -> others names m = [].
  Proof.
    intros names m H. unfold others. induction m as [|[k v] m IH]; auto. cbn [filter fst].
    assert (smem k names = true) as -> by (apply smem_In, H; now left). cbn [negb]. apply IH. intros x I. apply H. now right.
  Qed.

  Lemma c30_round_trip : forall f g : fitter V,
    NoDup (map p_name (f_params f)) -> NoDup (map p_name (f_params g)) ->
    (forall c, In c (map p_name (f_params f)) <-> In c (map p_name (f_params g))) ->
    exists g', load_config (Some (save_config f)) g = Ok (g', []) /\
      f_bins g' = f_bins f /\ f_range g' = f_range f /\
      map (fun q => (p_name q, p_multi q)) (f_params g') = map (fun q => (p_name q, p_multi q)) (f_params g) /\
      forall p q, In p (f_params f) -> In q (f_params g') -> p_name p = p_name q ->
        p_initial q = p_initial p /\ p_limits q = p_limits p /\ p_fixed q = p_fixed p.
  Proof.
    intros f g NF NG SAME.
    assert (dget "initial" (save_config f) = Some (YMap (section_dict (fun p => LVal (p_initial p)) (f_params f) []))) as G1 by reflexivity.
    assert (dget "limits" (save_config f) = Some (YMap (section_dict (fun p => LSeq (p_limits p)) (f_params f) []))) as G2 by reflexivity.
    assert (dget "fixed" (save_config f) = Some (YMap (section_dict (fun p => LVal (p_fixed p)) (f_params f) []))) as G3 by reflexivity.
    assert (file_ok (map p_name (f_params g)) (save_config f)) as OK.
    { split; [right; eexists; reflexivity|]. split; [right; eexists; reflexivity|]. split; [|split].
      - intros s [<-|[<-|[<-|[]]]]; right; eexists; eassumption.
      - intros s m c Is _ E. assert (exists h, m = section_dict (fun p => LVal (h p)) (f_params f) []) as (h & ->).
        { destruct Is as [<-|[<-|[]]]; [rewrite G1 in E|rewrite G3 in E]; inversion E; eexists; reflexivity. }
        rewrite section_dict_get by auto. destruct (find _ _); eauto.
      - intros m c _ E. rewrite G2 in E. inversion E. rewrite section_dict_get by auto. destruct (find _ _); eauto. }
    destruct (load_config_ok g (save_config f) NG OK) as (rest & L & U).
    assert (rest = []) as ->.
    { destruct rest as [|[k v] rest]; auto. specialize (U k). cbn [dget] in U. rewrite String.eqb_refl in U.
      unfold unused in U. destruct (smem k ["n_bins"; "range"]) eqn:S1; [discriminate|].
      destruct (smem k sections) eqn:S2.
      - assert (exists h, dget k (save_config f) = Some (YMap (section_dict h (f_params f) []))) as (h & E).
        { apply smem_In in S2. destruct S2 as [<-|[<-|[<-|[]]]]; eexists; eassumption. }
        rewrite E, others_nil in U; [discriminate|]. intros x Ix. apply section_dict_keys in Ix.
        destruct Ix as [[]|Ix]. now apply SAME.
      - assert (dget k (save_config f) = None) as E; [|congruence].
        apply smem_false in S1. apply smem_false in S2. apply dget_None_iff. intros I. cbn in I.
        destruct I as [<-|[<-|[<-|[<-|[<-|[]]]]]]; cbn in S1, S2; tauto. }
    eexists. split; [exact L|]. cbn [f_bins f_range f_params]. split; [reflexivity|]. split; [reflexivity|]. split.
    - rewrite map_map. apply map_ext. reflexivity.
    - intros p q' Ip Iq E. apply in_map_iff in Iq. destruct Iq as (q & <- & Iq). cbn [loaded p_name p_initial p_limits p_fixed] in *.
      unfold entry. rewrite G1, G2, G3, <- E, !section_dict_get, find_name by auto. auto.
  Qed.
End P.

(** ** Curve *)
Local Open Scope Qc_scope.
Lemma trapz_scale : forall c y x, trapz (map (fun v => v * c) y) x = trapz y x * c.
Proof.
  intros c. induction y as [|y0 y IH]; intros x; [cbn; ring|].
  destruct y as [|y1 y]; [cbn; ring|]. destruct x as [|x0 [|x1 x]]; try (cbn; ring).
  specialize (IH (x1 :: x)). cbn [map trapz] in *. rewrite IH. unfold Qcdiv. ring.
Qed.

Lemma normalise_area : forall y x hy hx, trapz y x <> 0 -> trapz (normalise y x hy hx) x = trapz hy hx.
Proof. intros y x hy hx N. unfold normalise. rewrite trapz_scale. field. exact N. Qed.
Lemma normalise_length : forall y x hy hx, List.length (normalise y x hy hx) = List.length y.
Proof. intros. unfold normalise. now rewrite map_length. Qed.
(** Only the scale changes. *)
Lemma normalise_prop : forall y x hy hx, exists c, normalise y x hy hx = map (fun v => v * c) y.
Proof. intros. eexists. reflexivity. Qed.

Lemma linspace_length : forall a b n, List.length (linspace a b n) = n.
Proof. intros a b [|[|n]]; auto. unfold linspace. now rewrite map_length, seq_length. Qed.
Lemma linspace_nth : forall a b n k, (1 < n)%nat -> (k < n)%nat ->
  nth k (linspace a b n) 0 = a + qn k * ((b - a) / qn (n - 1)).
Proof.
  intros a b n k Hn Hk. destruct n as [|[|n]]; [lia|lia|]. unfold linspace.
  set (g := fun k0 => a + qn k0 * ((b - a) / qn (S (S n) - 1))).
  rewrite (nth_indep _ 0 (g 0%nat)) by (rewrite map_length, seq_length; lia).
  rewrite map_nth, seq_nth by lia. reflexivity.
Qed.

(** ** The trapezoid rule *)
Lemma trapz_cons : forall x0 x1 x y0 y1 y, trapz (y0 :: y1 :: y) (x0 :: x1 :: x) = (x1 - x0) * (y1 + y0) / qz 2 + trapz (y1 :: y) (x1 :: x).
Proof. reflexivity. Qed.
Lemma trapz_line : forall a b x0 x, let hi := last (x0 :: x) x0 in
  trapz (map (fun t => a * t + b) (x0 :: x)) (x0 :: x) = (hi - x0) * (a * (hi + x0) / qz 2 + b).
Proof.
  intros a b x0 x. revert x0. induction x as [|x1 x IH]; intros x0 hi; subst hi.
  - cbn. field. discriminate.
  - cbn [map] in *. rewrite trapz_cons, IH. replace (last (x0 :: x1 :: x) x0) with (last (x1 :: x) x1); [replace (qz 2) with (1 + 1) by (apply Qc_is_canon; reflexivity); field; discriminate|].
    change (last (x0 :: x1 :: x) x0) with (last (x1 :: x) x0). clear. revert x1. induction x as [|y x IH]; intros x1; auto.
    change (last (x1 :: y :: x) x1) with (last (y :: x) x1). change (last (x1 :: y :: x) x0) with (last (y :: x) x0). rewrite <- IH.
    clear. generalize (x1). revert y. induction x as [|z x IH]; intros y q; auto.
    change (last (y :: z :: x) q) with (last (z :: x) q). change (last (y :: z :: x) y) with (last (z :: x) y). rewrite IH. symmetry. apply IH.
Qed.
Lemma trapz_split : forall x1 y1 x y x2 y2, List.length x1 = List.length y1 ->
  trapz (y1 ++ y :: y2) (x1 ++ x :: x2) = trapz (y1 ++ [y]) (x1 ++ [x]) + trapz (y :: y2) (x :: x2).
Proof.
  induction x1 as [|u x1 IH]; intros [|v y1] x y x2 y2 L; try discriminate; cbn [app].
  - change (trapz [y] [x]) with 0. ring.
  - destruct x1 as [|u' x1], y1 as [|v' y1]; try discriminate; cbn [app] in *.
    + rewrite !trapz_cons. change (trapz [y] [x]) with 0. ring.
    + rewrite !trapz_cons. pose proof (IH (v' :: y1) x y x2 y2 ltac:(cbn in *; lia)) as E. cbn [app] in E. rewrite E. ring.
Qed.
