(** Invariants of interleaved pixel fits. *)
From Coq Require Import List ZArith Bool Lia Permutation.
From Verif.Base Require Import Lst.
From Verif.Spe Require Import Model.
Import ListNotations.

Lemma pset_new : forall V k (v : V) d, ~ In k (map fst d) -> pset k v d = d ++ [(k, v)].
Proof.
  intros V k v d. induction d as [|[k' v'] d IH]; intros N; [reflexivity|]. cbn [pset map fst In] in *. destruct (Nat.eqb_spec k k') as [E|]; [exfalso; apply N; now left|]. cbn [app]. f_equal. apply IH. intro I. apply N. now right.
Qed.

Section Spe.
  Context {charges outcome V E A : Type}.
  Variable fit : charges -> outcome.
  Variable fv : outcome -> V.
  Variable fe : outcome -> E.
  Variable fa : outcome -> A.
  Variable pc : nat -> charges.
  Notation state := (@state outcome V E A).
  Notation exec := (exec fit fv fe fa pc).
  (** The result belongs to the pixel whose result the remaining program stores next. *)
  Inductive ready : option outcome -> list step -> Prop :=
  | at_task : forall o ps, ready o (program ps)
  | at_values : forall p ps, ready (Some (fit (pc p))) (StoreValues p :: StoreErrors p :: StoreArrays p :: program ps)
  | at_errors : forall p ps, ready (Some (fit (pc p))) (StoreErrors p :: StoreArrays p :: program ps)
  | at_arrays : forall p ps, ready (Some (fit (pc p))) (StoreArrays p :: program ps).
  (** Pixels whose values (errors, arrays) are still to be stored. *)
  Definition to_v (l : list step) : list nat := flat_map (fun s => match s with StoreValues p => [p] | _ => [] end) l.
  Definition to_e (l : list step) : list nat := flat_map (fun s => match s with StoreErrors p => [p] | _ => [] end) l.
  Definition to_a (l : list step) : list nat := flat_map (fun s => match s with StoreArrays p => [p] | _ => [] end) l.
  (** A dictionary holding the right results of some pixels. *)
  Definition right {X} (g : outcome -> X) (d : list (nat * X)) : Prop := forall p x, In (p, x) d -> x = g (fit (pc p)).
  Record inv (all : list nat) (ps : list (list step)) (s : state) : Prop := {
    i_ready : forall w p, nth_error ps w = Some p -> ready (fitters s w) p;
    i_v : Permutation (map fst (pixel_values s) ++ flat_map to_v ps) all;
    i_e : Permutation (map fst (pixel_errors s) ++ flat_map to_e ps) all;
    i_a : Permutation (map fst (pixel_arrays s) ++ flat_map to_a ps) all;
    i_rv : right fv (pixel_values s); i_re : right fe (pixel_errors s); i_ra : right fa (pixel_arrays s) }.

  Lemma replaced : forall (X : Type) (ps : list X) w x y, nth_error ps w = Some x -> forall w', nth_error (firstn w ps ++ y :: skipn (S w) ps) w' = if Nat.eqb w' w then Some y else nth_error ps w'.
  Proof.
    intros X ps. induction ps as [|a ps IH]; intros [|w] x y H w'; try discriminate; cbn [firstn skipn app].
    - destruct w'; reflexivity.
    - destruct w' as [|w']; [reflexivity|]. cbn [nth_error Nat.eqb]. cbn [nth_error] in H. exact (IH w x y H w').
  Qed.
  Lemma split_at : forall (X : Type) (ps : list X) w x, nth_error ps w = Some x -> ps = firstn w ps ++ x :: skipn (S w) ps.
  Proof. intros X ps. induction ps as [|a ps IH]; intros [|w] x H; try discriminate; cbn [firstn skipn app]; [now injection H as ->|]. f_equal. now apply IH. Qed.
  Lemma flat_change : forall (f : list step -> list nat) ps w st rest, nth_error ps w = Some (st :: rest) ->
    Permutation (flat_map f ps) (f (st :: rest) ++ flat_map f (firstn w ps ++ skipn (S w) ps)) /\
    Permutation (flat_map f (firstn w ps ++ rest :: skipn (S w) ps)) (f rest ++ flat_map f (firstn w ps ++ skipn (S w) ps)).
  Proof.
    intros f ps w st rest H. rewrite (split_at _ _ _ _ H) at 1. rewrite !flat_map_app. cbn [flat_map]. split; apply Permutation_app_swap_app.
  Qed.
  Lemma flat_same : forall (f : list step -> list nat) ps w st rest, nth_error ps w = Some (st :: rest) -> f (st :: rest) = f rest -> Permutation (flat_map f (firstn w ps ++ rest :: skipn (S w) ps)) (flat_map f ps).
  Proof. intros f ps w st rest H E0. destruct (flat_change f ps w st rest H) as [P1 P2]. rewrite E0 in P1. now rewrite P1, P2. Qed.
  Lemma store_keys : forall X (f : list step -> list nat) ps w st rest p (x : X) d all, nth_error ps w = Some (st :: rest) -> f (st :: rest) = p :: f rest -> NoDup all ->
    Permutation (map fst d ++ flat_map f ps) all -> pset p x d = d ++ [(p, x)] /\ Permutation (map fst (d ++ [(p, x)]) ++ flat_map f (firstn w ps ++ rest :: skipn (S w) ps)) all.
  Proof.
    intros X f ps w st rest p x d all H F N P. destruct (flat_change f ps w st rest H) as [P1 P2]. rewrite F in P1. split.
    - apply pset_new. intro I. assert (NoDup (map fst d ++ flat_map f ps)) as N1 by (eapply Permutation_NoDup; [apply Permutation_sym; exact P|exact N]).
      assert (NoDup (map fst d ++ p :: (f rest ++ flat_map f (firstn w ps ++ skipn (S w) ps)))) as N2 by (eapply Permutation_NoDup; [apply Permutation_app_head; exact P1|exact N1]).
      apply NoDup_remove_2 in N2. apply N2. apply in_or_app. now left.
    - rewrite map_app. cbn [map fst]. rewrite P2. rewrite <- app_assoc. cbn [app]. rewrite <- P. apply Permutation_app_head. now rewrite P1.
  Qed.
  Lemma right_add : forall X (g : outcome -> X) d p, right g d -> right g (d ++ [(p, g (fit (pc p)))]).
  Proof. intros X g d p R q x I. apply in_app_or in I as [I|[I|[]]]; [now apply R|]. now injection I as <- <-. Qed.
  Lemma program_cons : forall ps st rest, program ps = st :: rest -> exists p ps', ps = p :: ps' /\ st = Apply p /\ rest = StoreValues p :: StoreErrors p :: StoreArrays p :: program ps'.
  Proof. intros [|p ps] st rest H; [discriminate|]. cbn in H. injection H as <- <-. exists p, ps. auto. Qed.

  Lemma inv_step : forall all ps s w st rest, NoDup all -> inv all ps s -> nth_error ps w = Some (st :: rest) -> inv all (firstn w ps ++ rest :: skipn (S w) ps) (exec s (w, st)).
  Proof.
    intros all ps s w st rest N [R PV PE PA RV RE RA] H. pose proof (R w _ H) as RW. inversion RW as [o qs EO EP|p qs EO EP|p qs EO EP|p qs EO EP].
    - apply program_cons in EP as (p & ps' & -> & -> & ->). cbn [exec Model.exec]. constructor; cbn [fitters pixel_values pixel_errors pixel_arrays]; auto.
      + intros w' q Q. rewrite (replaced _ _ _ _ _ H) in Q. destruct (Nat.eqb_spec w' w); [injection Q as <-; constructor|auto].
      + now rewrite (flat_same to_v _ _ _ _ H) by reflexivity.
      + now rewrite (flat_same to_e _ _ _ _ H) by reflexivity.
      + now rewrite (flat_same to_a _ _ _ _ H) by reflexivity.
    - subst. cbn [exec Model.exec]. rewrite <- EO.
      destruct (store_keys _ to_v _ _ _ _ p (fv (fit (pc p))) _ all H eq_refl N PV) as [-> Q]. constructor; cbn [fitters pixel_values pixel_errors pixel_arrays]; auto.
      + intros w' q Q'. rewrite (replaced _ _ _ _ _ H) in Q'. destruct (Nat.eqb_spec w' w) as [->|]; [|auto]. injection Q' as <-. rewrite <- EO. constructor.
      + now rewrite (flat_same to_e _ _ _ _ H) by reflexivity.
      + now rewrite (flat_same to_a _ _ _ _ H) by reflexivity.
      + now apply right_add.
    - subst. cbn [exec Model.exec]. rewrite <- EO.
      destruct (store_keys _ to_e _ _ _ _ p (fe (fit (pc p))) _ all H eq_refl N PE) as [-> Q]. constructor; cbn [fitters pixel_values pixel_errors pixel_arrays]; auto.
      + intros w' q Q'. rewrite (replaced _ _ _ _ _ H) in Q'. destruct (Nat.eqb_spec w' w) as [->|]; [|auto]. injection Q' as <-. rewrite <- EO. constructor.
      + now rewrite (flat_same to_v _ _ _ _ H) by reflexivity.
      + now rewrite (flat_same to_a _ _ _ _ H) by reflexivity.
      + now apply right_add.
    - subst. cbn [exec Model.exec]. rewrite <- EO.
      destruct (store_keys _ to_a _ _ _ _ p (fa (fit (pc p))) _ all H eq_refl N PA) as [-> Q]. constructor; cbn [fitters pixel_values pixel_errors pixel_arrays]; auto.
      + intros w' q Q'. rewrite (replaced _ _ _ _ _ H) in Q'. destruct (Nat.eqb_spec w' w) as [->|]; [|auto]. injection Q' as <-. rewrite <- EO. constructor.
      + now rewrite (flat_same to_v _ _ _ _ H) by reflexivity.
      + now rewrite (flat_same to_e _ _ _ _ H) by reflexivity.
      + now apply right_add.
  Qed.
  Lemma to_program : forall ds, flat_map to_v (map program ds) = List.concat ds /\ flat_map to_e (map program ds) = List.concat ds /\ flat_map to_a (map program ds) = List.concat ds.
  Proof.
    assert (O : forall ps, to_v (program ps) = ps /\ to_e (program ps) = ps /\ to_a (program ps) = ps).
    { induction ps as [|p ps (A1 & A2 & A3)]; [auto|]. unfold to_v, to_e, to_a in *. cbn [program flat_map apply_pixel app]. unfold program in *. rewrite A1, A2, A3. auto. }
    induction ds as [|d ds (A1 & A2 & A3)]; [auto|]. cbn [map flat_map List.concat]. destruct (O d) as (B1 & B2 & B3). rewrite A1, A2, A3, B1, B2, B3. auto.
  Qed.
  Lemma inv_run : forall all ps trace s, NoDup all -> interleaving ps trace -> inv all ps s ->
    Permutation (map fst (pixel_values (fold_left exec trace s))) all /\ Permutation (map fst (pixel_errors (fold_left exec trace s))) all /\ Permutation (map fst (pixel_arrays (fold_left exec trace s))) all /\
    right fv (pixel_values (fold_left exec trace s)) /\ right fe (pixel_errors (fold_left exec trace s)) /\ right fa (pixel_arrays (fold_left exec trace s)).
  Proof.
    intros all ps trace s N I. revert s. induction I as [ps F|ps w st rest trace H I IH]; intros s J.
    - cbn [fold_left]. destruct J as [R PV PE PA RV RE RA].
      assert (Z : forall f : list step -> list nat, f [] = [] -> flat_map f ps = []) by (intros f F0; clear - F F0; induction ps as [|p ps IH]; [reflexivity|]; cbn [flat_map]; rewrite (F p (or_introl eq_refl)), F0, IH by (intros; apply F; now right); reflexivity).
      rewrite (Z to_v eq_refl), app_nil_r in PV. rewrite (Z to_e eq_refl), app_nil_r in PE. rewrite (Z to_a eq_refl), app_nil_r in PA. repeat (split; [assumption|]). assumption.
    - cbn [fold_left]. apply IH. now apply inv_step.
  Qed.
  Lemma right_map : forall X (g : outcome -> X) d, right g d -> d = map (fun p => (p, g (fit (pc p)))) (map fst d).
  Proof. intros X g d R. rewrite map_map. rewrite <- (map_id d) at 1. apply map_ext_in. intros [p x] I. cbn [fst]. f_equal. now apply R. Qed.
  Lemma sequential : forall ps s, NoDup ps -> (forall p, In p ps -> ~ In p (map fst (pixel_values s)) /\ ~ In p (map fst (pixel_errors s)) /\ ~ In p (map fst (pixel_arrays s))) ->
    let s' := fold_left exec (map (fun st => (0, st)) (program ps)) s in
    pixel_values s' = pixel_values s ++ map (fun p => (p, fv (fit (pc p)))) ps /\ pixel_errors s' = pixel_errors s ++ map (fun p => (p, fe (fit (pc p)))) ps /\ pixel_arrays s' = pixel_arrays s ++ map (fun p => (p, fa (fit (pc p)))) ps.
  Proof.
    induction ps as [|p ps IH]; intros s N D; cbv zeta; [cbn; rewrite !app_nil_r; auto|].
    inversion N as [|? ? X N']; subst. destruct (D p (or_introl eq_refl)) as (D1 & D2 & D3).
    unfold program. cbn [flat_map apply_pixel app map fold_left exec Model.exec fitters pixel_values pixel_errors pixel_arrays Nat.eqb]. fold (program ps).
    rewrite !pset_new by assumption.
    destruct (IH {| fitters := fun w' => if w' =? 0 then Some (fit (pc p)) else fitters s w'; pixel_values := pixel_values s ++ [(p, fv (fit (pc p)))]; pixel_errors := pixel_errors s ++ [(p, fe (fit (pc p)))]; pixel_arrays := pixel_arrays s ++ [(p, fa (fit (pc p)))] |} N') as (H1 & H2 & H3).
    - intros q Q. cbn [pixel_values pixel_errors pixel_arrays]. rewrite !map_app. cbn [map fst]. destruct (D q (or_intror Q)) as (Q1 & Q2 & Q3). repeat split; intro I; apply in_app_or in I as [I|[I|[]]]; try contradiction; subst; contradiction.
    - cbn [pixel_values pixel_errors pixel_arrays] in H1, H2, H3. rewrite <- !app_assoc in H1, H2, H3. cbn [app] in H1, H2, H3. repeat (split; [assumption|]). assumption.
  Qed.
End Spe.
