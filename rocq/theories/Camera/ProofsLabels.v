(** Lemmas about the annotations of camera images. *)
From Coq Require Import List ZArith QArith Qcanon Bool String Lia Sorted.
From Verif.Base Require Import Py PyFacts Num Lst Str.
From Verif.Camera Require Import Model Proofs Proofs2 Proofs3 ModelLabels SpecLabels.
Import ListNotations.
Local Open Scope list_scope.

Definition better (up : bool) : Z -> Z -> bool := if up then (fun a b => (b <? a)%Z) else (fun a b => (a <? b)%Z).
Lemma better_spec : forall up a b, better up a b = true <-> less up b a.
Proof. intros [] a b; unfold better, less; rewrite Z.ltb_lt; reflexivity. Qed.
Lemma better_not : forall up a b, better up a b = false <-> at_most up a b.
Proof. intros [] a b; unfold better, at_most; rewrite Z.ltb_ge; reflexivity. Qed.
Lemma less_most : forall up a b, less up a b -> at_most up a b.
Proof. intros [] a b; unfold less, at_most; lia. Qed.
Lemma most_trans : forall up a b c, at_most up a b -> at_most up b c -> at_most up a c.
Proof. intros [] a b c; unfold at_most; lia. Qed.
Lemma less_trans : forall up a b c, less up a b -> at_most up b c -> less up a c.
Proof. intros [] a b c; unfold less, at_most; lia. Qed.
Lemma most_less : forall up a b c, at_most up a b -> less up b c -> less up a c.
Proof. intros [] a b c; unfold less, at_most; lia. Qed.
Lemma most_refl : forall up a, at_most up a a.
Proof. intros [] a; unfold at_most; lia. Qed.
Lemma most_total : forall up a b, at_most up a b \/ less up b a.
Proof. intros [] a b; unfold less, at_most; lia. Qed.
Lemma most_less_false : forall up a b, at_most up a b -> less up b a -> False.
Proof. intros [] a b; unfold less, at_most; lia. Qed.
Lemma most_anti : forall up a b, at_most up a b -> at_most up b a -> a = b.
Proof. intros [] a b; unfold at_most; lia. Qed.
Lemma most_div : forall up k a b, (0 < k)%Z -> at_most up a b -> at_most up (a / k) (b / k).
Proof. intros [] k a b K; unfold at_most; intros; now apply Z.div_le_mono. Qed.

(** The first of the best. *)
Definition firsts (up : bool) (l : list spot) (p : spot) : Prop :=
  exists a b, l = a ++ p :: b /\ (forall q, In q a -> less up (s_row q) (s_row p)) /\ (forall q, In q b -> at_most up (s_row q) (s_row p)).
Lemma first_best_is : forall up l c, firsts up (c :: l) (first_best (better up) c l).
Proof.
  intros up l. induction l as [|p l IH]; intros c; cbn [first_best]; [exists [], []; repeat split; intros ? []|].
  destruct (better up (s_row p) (s_row c)) eqn:E.
  - destruct (IH p) as (a & b & E2 & A & B). set (r := first_best (better up) p l) in *. clearbody r. exists (c :: a), b. cbn [app]. rewrite E2. repeat split; [|exact B].
    intros q [<-|Q]; [|now apply A]. apply better_spec in E. eapply less_trans; [exact E|].
    destruct a as [|a0 a]; injection E2 as E2 _; [rewrite <- E2; apply most_refl|]. subst a0. apply less_most, A. now left.
  - destruct (IH c) as (a & b & E2 & A & B). set (r := first_best (better up) c l) in *. clearbody r. apply better_not in E. destruct a as [|a0 a]; injection E2 as E2 E3.
    + exists [], (p :: b). cbn [app]. rewrite <- E2 in *. rewrite E3. repeat split; [intros ? []|]. intros q [<-|Q]; [exact E|now apply B].
    + subst a0. exists (c :: p :: a), b. cbn [app]. rewrite E3. repeat split; [|exact B]. intros q [<-|[<-|Q]]; [apply A; now left| |apply A; now right].
      eapply most_less; [exact E|]. apply A. now left.
Qed.
Lemma firsts_unique : forall up l p q, firsts up l p -> firsts up l q -> p = q.
Proof.
  intros up l p q (a & b & E & A & B) (a' & b' & E' & A' & B'). subst l. revert a' E' A'. induction a as [|x a IH]; intros a' E' A'.
  - destruct a' as [|y a']; injection E' as E1 E2; [auto|]. subst y. exfalso. eapply (most_less_false up (s_row q) (s_row p)); [apply B; subst b; apply in_or_app; right; now left|apply A'; now left].
  - destruct a' as [|y a']; injection E' as E1 E2.
    + subst x. exfalso. eapply (most_less_false up (s_row p) (s_row q)); [apply B'; rewrite <- E2; apply in_or_app; right; now left|apply A; now left].
    + apply (IH (fun z Z => A z (or_intror Z)) a' E2 (fun z Z => A' z (or_intror Z))).
Qed.
Lemma filter_split : forall (A : Type) (f : A -> bool) l a p b, filter f l = a ++ p :: b -> exists a' b', l = a' ++ p :: b' /\ filter f a' = a /\ filter f b' = b.
Proof.
  intros A f. induction l as [|x l IH]; intros a p b E; [destruct a; discriminate|]. cbn [filter] in E. destruct (f x) eqn:F.
  - destruct a as [|y a]; injection E as E1 E2.
    + subst x. exists [], l. auto.
    + subst y. destruct (IH _ _ _ E2) as (a' & b' & -> & <- & <-). exists (x :: a'), b'. cbn [filter app]. now rewrite F.
  - destruct (IH _ _ _ E) as (a' & b' & -> & <- & <-). exists (x :: a'), b'. cbn [filter app]. now rewrite F.
Qed.
Lemma leads_firsts : forall up l p, leads up l p <-> firsts up (filter (fun q => (s_col q =? s_col p)%Z) l) p.
Proof.
  intros up l p. split.
  - intros (a & b & -> & A & B). rewrite filter_app. cbn [filter]. rewrite Z.eqb_refl. eexists _, _. split; [reflexivity|].
    split; intros q Q; apply filter_In in Q as [Q C]; apply Z.eqb_eq in C; auto.
  - intros (a & b & E & A & B). apply filter_split in E as (a' & b' & -> & <- & <-). exists a', b'. split; [reflexivity|].
    split; intros q Q C; [apply A|apply B]; apply filter_In; split; auto; now apply Z.eqb_eq.
Qed.
Lemma edge_slots_in : forall up l t, In t (edge_slots (better up) l) <-> on_edge up l t.
Proof.
  intros up l t. unfold edge_slots, agg. rewrite in_flat_map. split.
  - intros (c & _ & I). destruct (filter (fun a => (s_col a =? c)%Z) l) as [|p g] eqn:E; [destruct I|]. destruct I as [<-|[]]. cbn [tl].
    pose proof (first_best_is up g p) as F. set (r := first_best (better up) p g) in *. rewrite <- E in F.
    assert (s_col r = c) as C. { destruct F as (a & b & F & _). assert (In r (filter (fun a => (s_col a =? c)%Z) l)) as R by (rewrite F; apply in_or_app; right; now left). apply filter_In in R as [_ R]. now apply Z.eqb_eq in R. }
    exists r. split; [|reflexivity]. apply leads_firsts. now rewrite C.
  - intros (p & L & <-). apply leads_firsts in L. exists (s_col p). destruct L as (a & b & E & A & B). split.
    + apply keys_in. apply in_map_iff. exists p. split; [reflexivity|]. apply (proj1 (filter_In (fun q => (s_col q =? s_col p)%Z) p l)). rewrite E. apply in_or_app. right. now left.
    + destruct (filter (fun a0 => (s_col a0 =? s_col p)%Z) l) as [|r g] eqn:E2; [destruct a; discriminate|]. left. cbn [tl]. f_equal.
      apply (firsts_unique up (r :: g)); [apply first_best_is|]. exists a, b. auto.
Qed.
Lemma tm_top_in : forall l t, In t (tm_top l) <-> on_edge true l t.
Proof. intros. unfold tm_top. rewrite keys_in. apply (edge_slots_in true). Qed.
Lemma tm_bottom_in : forall l t, In t (tm_bottom l) <-> on_edge false l t.
Proof. intros. unfold tm_bottom. rewrite keys_in. apply (edge_slots_in false). Qed.
Lemma sorted_nodup : forall l, StronglySorted Z.lt l -> NoDup l.
Proof. intros l S. induction S as [|a l S IH F]; constructor; [|exact IH]. intros I. apply (proj1 (Forall_forall _ _) F) in I. lia. Qed.
Lemma sorted_ext : forall l m, StronglySorted Z.lt l -> StronglySorted Z.lt m -> (forall x, In x l <-> In x m) -> l = m.
Proof.
  intros l m HS. revert m. induction HS as [|a l HS IH F]; intros m HM H.
  - destruct m as [|b m]; [reflexivity|]. destruct (proj2 (H b) (or_introl eq_refl)).
  - destruct HM as [|b m HM G]; [destruct (proj1 (H a) (or_introl eq_refl))|]. rewrite Forall_forall in F, G.
    assert (a = b) as ->.
    { destruct (proj1 (H a) (or_introl eq_refl)) as [E|E]; [auto|]. destruct (proj2 (H b) (or_introl eq_refl)) as [E'|E']; [auto|]. apply G in E. apply F in E'. lia. }
    f_equal. apply IH; [exact HM|]. intros x. split; intros X.
    + destruct (proj1 (H x) (or_intror X)) as [<-|Y]; [apply F in X; lia|exact Y].
    + destruct (proj2 (H x) (or_intror X)) as [<-|Y]; [apply G in X; lia|exact Y].
Qed.

(** Extremes. *)
Lemma leads_in : forall up l p, leads up l p -> In p l.
Proof. intros up l p (a & b & -> & _). apply in_or_app. right. now left. Qed.
Lemma leads_all : forall up l p q, leads up l p -> In q l -> s_col q = s_col p -> at_most up (s_row q) (s_row p).
Proof. intros up l p q (a & b & -> & A & B) I C. apply in_app_or in I as [I|[<-|I]]; [apply less_most; now apply A|apply most_refl|now apply B]. Qed.
Lemma of_slot_in : forall t l p, In p (of_slot t l) <-> In p l /\ s_slot p = t.
Proof. intros. unfold of_slot. now rewrite filter_In, Z.eqb_eq. Qed.
Lemma qmax_total : forall l, l <> [] -> exists m, In m l /\ forall x, In x l -> (x <= m)%Qc.
Proof.
  induction l as [|a l IH]; [easy|]. intros _. destruct l as [|b l]; [exists a; split; [now left|]; intros x [<-|[]]; apply Qcle_refl|].
  destruct IH as (m & I & M); [discriminate|]. destruct (qleb_spec m a) as [L|L].
  - exists a. split; [now left|]. intros x [<-|X]; [apply Qcle_refl|]. apply M in X. qlra.
  - exists m. split; [now right|]. intros x [<-|X]; [qlra|now apply M].
Qed.
Lemma qmin_total : forall l, l <> [] -> exists m, In m l /\ forall x, In x l -> (m <= x)%Qc.
Proof.
  intros l H. destruct (qmax_total (map Qcopp l)) as (m & I & M); [destruct l; [easy|discriminate]|]. apply in_map_iff in I as (y & <- & I). exists y. split; [exact I|].
  intros x X. pose proof (M (- x)%Qc (in_map Qcopp _ _ X)). qlra.
Qed.
Lemma highest_is : forall l t f, (exists p, In p l /\ s_slot p = t) -> extreme true l t f (highest f (of_slot t l)).
Proof.
  intros l t f (p & I & P). assert (map f (of_slot t l) <> []) as NE by (assert (In (f p) (map f (of_slot t l))) as X by (apply in_map; now apply of_slot_in); now destruct (map f (of_slot t l))).
  destruct (qmax_total _ NE) as (m & J & M). unfold highest. rewrite (qmax_is _ m J M). cbn [or0]. split.
  - apply in_map_iff in J as (q & <- & J). apply of_slot_in in J as [J1 J2]. now exists q.
  - intros q Q Q2. apply M. apply in_map. now apply of_slot_in.
Qed.
Lemma lowest_is : forall l t f, (exists p, In p l /\ s_slot p = t) -> extreme false l t f (lowest f (of_slot t l)).
Proof.
  intros l t f (p & I & P). assert (map f (of_slot t l) <> []) as NE by (assert (In (f p) (map f (of_slot t l))) as X by (apply in_map; now apply of_slot_in); now destruct (map f (of_slot t l))).
  destruct (qmin_total _ NE) as (m & J & M). unfold lowest. rewrite (qmin_is _ m J M). cbn [or0]. split.
  - apply in_map_iff in J as (q & <- & J). apply of_slot_in in J as [J1 J2]. now exists q.
  - intros q Q Q2. apply M. apply in_map. now apply of_slot_in.
Qed.
Lemma extreme_unique : forall up l t f m m', extreme up l t f m -> extreme up l t f m' -> m = m'.
Proof.
  intros up l t f m m' ((p & I & T & <-) & M) ((q & J & U & <-) & M'). pose proof (M _ J U). pose proof (M' _ I T). destruct up; apply Qcle_antisym; auto.
Qed.
Lemma on_edge_some : forall up l t, on_edge up l t -> exists p, In p l /\ s_slot p = t.
Proof. intros up l t (p & L & T). exists p. split; [eapply leads_in; exact L|exact T]. Qed.

(** Every column has an outermost pixel. *)
Lemma leads_exists : forall up l p, In p l -> exists r, leads up l r /\ s_col r = s_col p.
Proof.
  intros up l p I. destruct (filter (fun q => (s_col q =? s_col p)%Z) l) as [|c g] eqn:E.
  - exfalso. assert (In p (filter (fun q => (s_col q =? s_col p)%Z) l)) as X by (apply filter_In; split; [exact I|apply Z.eqb_refl]). now rewrite E in X.
  - pose proof (first_best_is up g c) as F. rewrite <- E in F. set (r := first_best (better up) c g) in *.
    assert (s_col r = s_col p) as C. { destruct F as (a & b & F & _). assert (In r (filter (fun a => (s_col a =? s_col p)%Z) l)) as R by (rewrite F; apply in_or_app; right; now left). apply filter_In in R as [_ R]. now apply Z.eqb_eq in R. }
    exists r. split; [|exact C]. apply leads_firsts. now rewrite C.
Qed.
(** With one pixel per cell the order of the mapping plays no part. *)
Lemma leads_weak : forall up l p, one_per_cell l -> In p l -> (forall q, In q l -> s_col q = s_col p -> at_most up (s_row q) (s_row p)) -> leads up l p.
Proof.
  intros up l p O I H. destruct (leads_exists up l p I) as (r & L & C). pose proof (leads_in _ _ _ L) as R.
  assert (s_row r = s_row p) as E. { apply (most_anti up); [now apply H|]. apply (leads_all up l); auto. }
  assert (r = p) as ->; [|exact L]. clear H L. unfold one_per_cell in O. induction l as [|x l IH]; [destruct I|]. cbn [map] in O. inversion O as [|? ? N O']; subst.
  destruct I as [->|I], R as [->|R]; auto; exfalso; apply N; apply in_map_iff; [exists r|exists p]; (split; [congruence|assumption]).
Qed.

Section Levels.
  Variable k : Z.
  Variables l m : list spot.
  Hypothesis K : (0 < k)%Z.
  Hypothesis OL : one_per_cell l.
  Hypothesis OM : one_per_cell m.
  Hypothesis down : forall p, In p l -> exists q, In q m /\ s_slot q = s_slot p /\ s_row q = (s_row p / k)%Z /\ s_col q = (s_col p / k)%Z.
  Hypothesis up_ : forall q, In q m -> exists p, In p l /\ s_slot p = s_slot q /\ (s_row p / k)%Z = s_row q /\ (s_col p / k)%Z = s_col q.
  Hypothesis full : forall q p, In q m -> In p l -> (s_col p / k)%Z = s_col q -> exists r, In r l /\ s_slot r = s_slot q /\ (s_row r / k)%Z = s_row q /\ s_col r = s_col p.
  Hypothesis one_slot : forall p q, In p l -> In q l -> (s_row p / k = s_row q / k)%Z -> (s_col p / k = s_col q / k)%Z -> s_slot p = s_slot q.
  Lemma levels_edge : forall up t, on_edge up l t <-> on_edge up m t.
  Proof.
    intros up t. split.
    - intros (p & L & <-). destruct (down p (leads_in _ _ _ L)) as (q & Q & S1 & R1 & C1). exists q. split; [|exact S1]. apply leads_weak; [exact OM|exact Q|].
      intros q' Q' C'. destruct (full q' p Q' (leads_in _ _ _ L)) as (r & Ir & Sr & Rr & Cr); [congruence|]. rewrite R1, <- Rr. apply most_div; [exact K|]. now apply (leads_all up l).
    - intros (q & L & <-). destruct (up_ q (leads_in _ _ _ L)) as (p0 & I0 & S0 & R0 & C0). destruct (leads_exists up l p0 I0) as (p & Lp & Cp).
      exists p. split; [exact Lp|]. rewrite <- S0. pose proof (leads_in _ _ _ Lp) as Ip. apply one_slot; auto; [|now rewrite Cp].
      pose proof (leads_all up l p p0 Lp I0 (eq_sym Cp)) as A. apply (most_div up k) in A; [|exact K].
      destruct (down p Ip) as (q' & Q' & S' & R' & C'). pose proof (leads_all up m q q' L Q') as B. rewrite R', C', Cp, C0 in B. rewrite <- R0 in B. apply (most_anti up); [apply B; reflexivity|exact A].
  Qed.
End Levels.
Lemma levels_lists : forall l m, (forall up t, on_edge up l t <-> on_edge up m t) -> tm_top l = tm_top m /\ tm_bottom l = tm_bottom m.
Proof.
  intros l m H. split; apply sorted_ext; try apply keys_sorted; intros x.
  - fold (tm_top l) (tm_top m). rewrite !tm_top_in. apply H.
  - fold (tm_bottom l) (tm_bottom m). rewrite !tm_bottom_in. apply H.
Qed.
