(** Every row of the tables in double precision is a sum over exactly its entries, in some order of additions. *)
From Coq Require Import List ZArith QArith Qcanon Bool Lia Permutation Sorted.
From Verif.Base Require Import Py PyFacts Num Lst Fl FlSum FlSumFacts.
From Verif.Reducers Require Import Model Proofs2.
From Verif.Resol Require Import Model Proofs Proofs2 ModelFloat.
Import ListNotations.
Local Open Scope list_scope.

(** ** Sums of sums *)
Fixpoint tbind (t : tree (Qc * list Qc)) (F : Qc * list Qc -> tree Qc) : tree Qc := match t with Leaf a => F a | Node l r => Node (tbind l F) (tbind r F) end.
Lemma sums_to_perm : forall rnd l m v, Permutation l m -> sums_to rnd l v -> sums_to rnd m v.
Proof. intros rnd l m v PM [[ -> ->]|(t & T & ->)]; [left; apply Permutation_nil in PM; auto|right]. exists t. split; [etransitivity; eassumption|reflexivity]. Qed.
Lemma sums_to_tree : forall rnd l v, l <> [] -> sums_to rnd l v -> exists t, Permutation (leaves t) l /\ v = tree_sum rnd t.
Proof. intros rnd l v N [[ -> _]|H]; [contradiction|exact H]. Qed.
Lemma tree_compose : forall rnd (t : tree (Qc * list Qc)), (forall v l, In (v, l) (leaves t) -> l <> [] /\ sums_to rnd l v) ->
  exists u, Permutation (leaves u) (flat_map snd (leaves t)) /\ tree_sum rnd (tmap fst t) = tree_sum rnd u.
Proof.
  intros rnd t. induction t as [[v l]|a IHa b IHb]; intros H; cbn [leaves tmap tree_sum flat_map fst snd].
  - destruct (H v l (or_introl eq_refl)) as [N S]. destruct (sums_to_tree _ _ _ N S) as (u & U & E). exists u. rewrite app_nil_r. auto.
  - destruct IHa as (ua & UA & EA); [intros v l I; apply H; cbn [leaves]; apply in_or_app; auto|].
    destruct IHb as (ub & UB & EB); [intros v l I; apply H; cbn [leaves]; apply in_or_app; auto|].
    exists (Node ua ub). cbn [leaves tree_sum]. rewrite flat_map_app. split; [now apply Permutation_app|]. now rewrite EA, EB.
Qed.
Lemma sums_compose : forall rnd (ps : list (Qc * list Qc)) w, (forall v l, In (v, l) ps -> l <> [] /\ sums_to rnd l v) ->
  sums_to rnd (map fst ps) w -> sums_to rnd (flat_map snd ps) w.
Proof.
  intros rnd ps w H [[E ->]|(t & T & ->)].
  - destruct ps; [left; auto|discriminate].
  - destruct (Permutation_map_inv _ _ T) as (qs & E & Q). destruct (tree_lift _ _ fst t qs E) as (t' & <- & L).
    destruct (tree_compose rnd t') as (u & U & EQ). { intros v l I. apply H. rewrite L in I. eapply Permutation_in; [apply Permutation_sym; exact Q|exact I]. }
    right. exists u. split; [|exact EQ]. rewrite U, L. apply Permutation_flat_map, Permutation_sym, Q.
Qed.

(** ** Lists by key *)
Lemma key_eqb_refl : forall k, key_eqb k k = true.
Proof. intros k. destruct (key_eqb_spec k k); auto. Qed.
Lemma filter_part : forall A (f : A -> bool) l, Permutation (filter f l ++ filter (fun a => negb (f a)) l) l.
Proof.
  intros A f l. induction l as [|a l IH]; [constructor|]. cbn [filter]. destruct (f a); cbn [negb app].
  - now constructor.
  - etransitivity; [apply Permutation_sym, Permutation_middle|]. now constructor.
Qed.
Lemma split_keys : forall A (g : A -> key) ks l, NoDup ks -> (forall a, In a l -> In (g a) ks) -> Permutation (flat_map (fun k => filter (fun a => key_eqb (g a) k) l) ks) l.
Proof.
  intros A g ks. induction ks as [|k ks IH]; intros l N H.
  - destruct l as [|a l]; [constructor|]. destruct (H a (or_introl eq_refl)).
  - inversion N as [|? ? NI N']; subst. cbn [flat_map].
    assert (E : flat_map (fun k0 => filter (fun a => key_eqb (g a) k0) l) ks = flat_map (fun k0 => filter (fun a => key_eqb (g a) k0) (filter (fun a => negb (key_eqb (g a) k)) l)) ks).
    { clear - NI. assert (forall k0, In k0 ks -> filter (fun a => key_eqb (g a) k0) l = filter (fun a => key_eqb (g a) k0) (filter (fun a => negb (key_eqb (g a) k)) l)) as E.
      { intros k0 I. assert (k0 <> k) by (intros ->; contradiction). induction l as [|a l IH]; [reflexivity|]. cbn [filter]. destruct (key_eqb_spec (g a) k) as [->|]; cbn [negb filter].
        - destruct (key_eqb_spec k k0); [congruence|]. exact IH.
        - destruct (key_eqb (g a) k0); [f_equal|]; exact IH. }
      clear NI. induction ks as [|k0 ks IH]; [reflexivity|]. cbn [flat_map]. rewrite E by (left; auto). f_equal. apply IH. intros; apply E; right; auto. }
    rewrite E. etransitivity; [|apply (filter_part A (fun a => key_eqb (g a) k) l)]. apply Permutation_app_head. apply IH; [exact N'|].
    intros a I. apply filter_In in I as [I K]. destruct (H a I) as [->|]; [|auto]. rewrite key_eqb_refl in K. discriminate.
Qed.
Lemma sorted_NoDup : forall l, StronglySorted (fun a b => key_ltb a b = true) l -> NoDup l.
Proof.
  induction 1 as [|a l S IH F]; constructor; [|exact IH]. intros I. rewrite Forall_forall in F. specialize (F a I). destruct (key_ltb_spec a a) as [L|]; [|discriminate]. exact (key_lt_irrefl _ L).
Qed.
Lemma flat_map_flat : forall A B C (f : A -> list B) (g : B -> list C) l, flat_map g (flat_map f l) = flat_map (fun a => flat_map g (f a)) l.
Proof. intros A B C f g l. induction l as [|a l IH]; [reflexivity|]. cbn [flat_map]. now rewrite flat_map_app, IH. Qed.
Lemma flat_map_map' : forall A B C (f : A -> B) (g : B -> list C) l, flat_map g (map f l) = flat_map (fun a => g (f a)) l.
Proof. intros A B C f g l. induction l as [|a l IH]; [reflexivity|]. cbn [map flat_map]. now rewrite IH. Qed.

(** ** Rows that stand for entries *)
Section Covers.
  Variable m : nat.
  Variable val : nat -> entry -> Qc.
  Definition part_ok (kf : entry -> key) (p : frow * list entry) : Prop :=
    snd p <> [] /\ (forall e, In e (snd p) -> kf e = fkey (fst p)) /\ List.length (fcols (fst p)) = m /\
    (forall j, (j < m)%nat -> sums_to fl64 (map (val j) (snd p)) (nth j (fcols (fst p)) 0%Qc)) /\ fnum (fst p) = List.length (snd p).
  Definition covers (kf : entry -> key) (rows : list frow) (E : list entry) : Prop :=
    exists parts, map fst parts = rows /\ Permutation (flat_map snd parts) E /\ forall p, In p parts -> part_ok kf p.
  Lemma covers_app : forall kf r1 E1 r2 E2, covers kf r1 E1 -> covers kf r2 E2 -> covers kf (r1 ++ r2) (E1 ++ E2).
  Proof.
    intros kf r1 E1 r2 E2 (p1 & M1 & P1 & K1) (p2 & M2 & P2 & K2). exists (p1 ++ p2). rewrite map_app, flat_map_app, M1, M2. split; [reflexivity|]. split; [now apply Permutation_app|].
    intros p I. apply in_app_or in I as [I|I]; auto.
  Qed.
  Lemma covers_filter : forall kf (keep : key -> bool) rows E, covers kf rows E -> covers kf (filter (fun r => keep (fkey r)) rows) (filter (fun e => keep (kf e)) E).
  Proof.
    intros kf keep rows E (parts & <- & P & K). exists (filter (fun p => keep (fkey (fst p))) parts). split; [|split].
    - clear P K. induction parts as [|p l IH]; [reflexivity|]. cbn [map filter]. destruct (keep (fkey (fst p))); cbn [map]; [f_equal|]; exact IH.
    - etransitivity; [|apply filter_perm; exact P]. clear P. induction parts as [|p l IH]; [constructor|]. cbn [flat_map filter]. rewrite filter_app.
      destruct (K p (or_introl eq_refl)) as (_ & KK & _).
      assert (filter (fun e => keep (kf e)) (snd p) = if keep (fkey (fst p)) then snd p else []) as ->.
      { clear - KK. revert KK. generalize (snd p). intros es KK. induction es as [|e es IH]; [now destruct keep|]. cbn [filter]. rewrite (KK e) by (left; auto). rewrite IH by (intros; apply KK; right; auto). now destruct (keep (fkey (fst p))). }
      specialize (IH (fun q I => K q (or_intror I))). destruct (keep (fkey (fst p))); cbn [flat_map app]; [now apply Permutation_app_head|exact IH].
    - intros p I. apply filter_In in I as [I _]. auto.
  Qed.
  Lemma covers_group : forall kf rows out E, covers kf rows E -> fl_groupby m rows out -> covers kf out E.
  Proof.
    intros kf rows out E (parts & <- & P & K) (S & KEYS & G).
    set (mine := fun k => filter (fun p : frow * list entry => key_eqb (fkey (fst p)) k) parts).
    exists (map (fun r => (r, flat_map snd (mine (fkey r)))) out). split; [|split].
    - rewrite map_map. cbn [fst]. apply map_id.
    - rewrite flat_map_map'. cbn [snd]. etransitivity; [|exact P].
      replace (flat_map (fun a => flat_map snd (mine (fkey a))) out) with (flat_map snd (flat_map mine (map fkey out))) by (rewrite flat_map_flat; apply flat_map_map').
      apply Permutation_flat_map. unfold mine. apply (split_keys _ (fun p => fkey (fst p))); [now apply sorted_NoDup|].
      intros p I. apply KEYS. apply in_map_iff. exists (fst p). split; [reflexivity|now apply in_map].
    - intros p I. apply in_map_iff in I as (r & <- & R). destruct (G r R) as (L & SU & NU). unfold part_ok. cbn [fst snd].
      assert (F : filter (fun x => key_eqb (fkey x) (fkey r)) (map fst parts) = map fst (mine (fkey r))).
      { unfold mine. clear. induction parts as [|q l IH]; [reflexivity|]. cbn [map filter]. destruct (key_eqb (fkey (fst q)) (fkey r)); cbn [map]; [f_equal|]; exact IH. }
      rewrite F in SU, NU. rewrite map_map in NU.
      assert (IM : forall q, In q (mine (fkey r)) -> In q parts /\ fkey (fst q) = fkey r).
      { intros q Q. apply filter_In in Q as [Q1 Q2]. split; [exact Q1|]. destruct (key_eqb_spec (fkey (fst q)) (fkey r)); [auto|discriminate]. }
      split; [|split; [|split; [exact L|split]]].
      + assert (In (fkey r) (map fkey (map fst parts))) as I by (apply KEYS; now apply in_map). rewrite map_map in I. apply in_map_iff in I as (q & QK & Q).
        assert (In q (mine (fkey r))) as QM by (apply filter_In; rewrite QK, key_eqb_refl; auto). destruct (K q Q) as (NE & _). intros N. apply NE.
        destruct (snd q) as [|e es] eqn:ES; [reflexivity|]. exfalso. assert (In e (flat_map snd (mine (fkey r)))) as IE by (apply in_flat_map; exists q; rewrite ES; split; [exact QM|left; auto]). rewrite N in IE. exact IE.
      + intros e I. apply in_flat_map in I as (q & Q & I). destruct (IM q Q) as [Q1 <-]. now apply (K q Q1).
      + intros j J. specialize (SU j J). rewrite map_map in SU.
        replace (map (val j) (flat_map snd (mine (fkey r)))) with (flat_map snd (map (fun q => (nth j (fcols (fst q)) 0%Qc, map (val j) (snd q))) (mine (fkey r)))).
        2:{ rewrite flat_map_map'. cbn [snd]. clear. induction (mine (fkey r)) as [|q l IH]; [reflexivity|]. cbn [flat_map]. now rewrite map_app, IH. }
        apply sums_compose; [|rewrite map_map; exact SU]. intros v l I. apply in_map_iff in I as (q & E' & Q). injection E' as <- <-. destruct (IM q Q) as [Q1 _]. destruct (K q Q1) as (NE & _ & _ & SQ & _).
        split; [|now apply SQ]. destruct (snd q); [contradiction|discriminate].
      + rewrite NU. clear - K IM. assert (forall q, In q (mine (fkey r)) -> fnum (fst q) = List.length (snd q)) as N by (intros q Q; now apply (K q (proj1 (IM q Q)))). clear IM. induction (mine (fkey r)) as [|q l IH]; [reflexivity|].
        cbn [map list_sum fold_right flat_map]. change (fold_right Nat.add 0%nat (map (fun x => fnum (fst x)) l)) with (list_sum (map (fun x => fnum (fst x)) l)). rewrite app_length, IH by (intros; apply N; right; auto). now rewrite N by (left; auto).
  Qed.
  Lemma covers_row : forall kf rows E r, covers kf rows E -> NoDup (map fkey rows) -> In r rows -> part_ok kf (r, filter (fun e => key_eqb (kf e) (fkey r)) E).
  Proof.
    intros kf rows E r (parts & <- & P & K) N R. apply in_map_iff in R as ([r' es] & <- & I). cbn [fst].
    assert (F : filter (fun e => key_eqb (kf e) (fkey r')) (flat_map snd parts) = es).
    { clear P. rewrite map_map in N. induction parts as [|q l IH]; [destruct I|]. cbn [map] in N. inversion N as [|? ? NI N']; subst. cbn [flat_map]. rewrite filter_app.
      assert (ALL : forall q' k, part_ok kf q' -> filter (fun e => key_eqb (kf e) k) (snd q') = if key_eqb (fkey (fst q')) k then snd q' else []).
      { intros q' k (_ & KK & _). revert KK. generalize (snd q'). intros l0 KK. induction l0 as [|e l0 IH0]; [now destruct key_eqb|]. cbn [filter]. rewrite (KK e) by (left; auto). rewrite IH0 by (intros; apply KK; right; auto). now destruct key_eqb. }
      rewrite (ALL q) by (apply K; left; auto). destruct I as [->|I].
      - cbn [fst snd] in *. rewrite key_eqb_refl. enough (filter (fun e => key_eqb (kf e) (fkey r')) (flat_map snd l) = []) as -> by apply app_nil_r.
        assert (forall q, In q l -> fkey (fst q) <> fkey r') as NE by (intros q Q E'; apply NI; apply in_map_iff; exists q; auto).
        clear - ALL NE K. induction l as [|q l IH]; [reflexivity|]. cbn [flat_map]. rewrite filter_app, ALL by (apply K; right; left; auto). destruct (key_eqb_spec (fkey (fst q)) (fkey r')) as [E'|]; [exfalso; apply (NE q); [left; auto|exact E']|]. cbn [app].
        apply IH; [intros p [<-|Q]; apply K; [now left|right; now right]|intros; apply NE; right; auto].
      - destruct (key_eqb_spec (fkey (fst q)) (fkey r')) as [E'|].
        + exfalso. apply NI. apply in_map_iff. exists (r', es). auto.
        + cbn [app]. apply IH; auto. intros p Q. apply K. now right. }
    destruct (K (r', es) I) as (NE & KK & L & SU & NU). cbn [fst snd] in *.
    assert (PE : Permutation es (filter (fun e => key_eqb (kf e) (fkey r')) E)) by (rewrite <- F at 1; now apply filter_perm).
    unfold part_ok. cbn [fst snd]. split; [|split; [|split; [exact L|split]]].
    - intros Z. rewrite Z in PE. apply Permutation_sym, Permutation_nil in PE. contradiction.
    - intros e IE. apply filter_In in IE as [_ IE]. destruct (key_eqb_spec (kf e) (fkey r')); [auto|discriminate].
    - intros j J. eapply sums_to_perm; [apply Permutation_map; exact PE|]. now apply SU.
    - rewrite NU. now apply Permutation_length.
  Qed.
  Lemma covers_keys : forall kf rows E e, covers kf rows E -> In e E -> In (kf e) (map fkey rows).
  Proof.
    intros kf rows E e (parts & <- & P & K) I. apply (Permutation_in _ (Permutation_sym P)) in I. apply in_flat_map in I as (q & Q & I). rewrite map_map. apply in_map_iff. exists q. split; [|exact Q]. symmetry. now apply (K q Q).
  Qed.
  Lemma covers_forget : forall kf rows E, covers kf rows E -> covers (fun e => (0%Z, snd (kf e))) (map fl_forget rows) E.
  Proof.
    intros kf rows E (parts & <- & P & K). exists (map (fun p => (fl_forget (fst p), snd p)) parts). split; [now rewrite !map_map|]. split.
    - rewrite flat_map_map'. exact P.
    - intros p I. apply in_map_iff in I as (q & <- & Q). destruct (K q Q) as (A & B & C & D & F). repeat split; auto. intros e IE. cbn [fst snd fl_forget fkey]. now rewrite (B e IE).
  Qed.
  Lemma group_filter : forall (keep : key -> bool) rows out, fl_groupby m rows out -> fl_groupby m (filter (fun r => keep (fkey r)) rows) (filter (fun r => keep (fkey r)) out).
  Proof.
    intros keep rows out (S & KEYS & G).
    assert (MF : forall l, map fkey (filter (fun r => keep (fkey r)) l) = filter keep (map fkey l)).
    { clear. induction l as [|r l IH]; [reflexivity|]. cbn [map filter]. destruct (keep (fkey r)); cbn [map]; [f_equal|]; exact IH. }
    split; [|split].
    - rewrite MF. clear - S. induction S as [|a l S IH F]; [constructor|]. cbn [filter]. destruct (keep a); [|exact IH]. constructor; [exact IH|]. rewrite Forall_forall in *. intros x I. apply filter_In in I as [I _]. auto.
    - intros k. rewrite !MF, !filter_In, KEYS. reflexivity.
    - intros r R. apply filter_In in R as [R KR]. destruct (G r R) as (L & SU & NU).
      assert (F : filter (fun x => key_eqb (fkey x) (fkey r)) (filter (fun r0 => keep (fkey r0)) rows) = filter (fun x => key_eqb (fkey x) (fkey r)) rows).
      { clear - KR. induction rows as [|x l IH]; [reflexivity|]. cbn [filter]. destruct (key_eqb_spec (fkey x) (fkey r)) as [E|N].
        - rewrite E, KR. cbn [filter]. rewrite E, key_eqb_refl. now f_equal.
        - destruct (keep (fkey x)); [|exact IH]. cbn [filter]. destruct (key_eqb_spec (fkey x) (fkey r)); [contradiction|exact IH]. }
      cbv zeta. rewrite F. auto.
  Qed.
End Covers.

Lemma filter_concat' : forall A (f : A -> bool) l, filter f (List.concat l) = List.concat (map (filter f) l).
Proof. intros A f l. induction l as [|a l IH]; [reflexivity|]. cbn [List.concat map]. now rewrite filter_app, IH. Qed.

(** ** Sessions *)
Section Session.
  Variable m : nat.
  Variable to_row : entry -> frow.
  Variable keep : Qc -> bool.
  Definition kf (e : entry) : key := (e_pixel e, e_true e).
  Definition val (j : nat) (e : entry) : Qc := nth j (fcols (to_row e)) 0%Qc.
  Hypothesis ROW : forall e, fkey (to_row e) = kf e /\ List.length (fcols (to_row e)) = m /\ fnum (to_row e) = 1%nat.
  Definition kept_rows (l : list frow) : list frow := filter (fun r => keep (snd (fkey r))) l.
  Definition kept (l : list entry) : list entry := filter (fun e => keep (e_true e)) l.
  Definition inv (s : fobj) (E : list entry) : Prop := covers m val kf (kept_rows (fl_held s)) (kept E).

  Lemma covers_entries : forall l, covers m val kf (map to_row l) l.
  Proof.
    intros l. exists (map (fun e => (to_row e, [e])) l). split; [now rewrite map_map|]. split.
    - rewrite flat_map_map'. cbn [snd]. enough (flat_map (fun a : entry => [a]) l = l) as -> by reflexivity. induction l; cbn; congruence.
    - intros p I. apply in_map_iff in I as (e & <- & I). destruct (ROW e) as (A & B & C). unfold part_ok. cbn [fst snd]. split; [discriminate|]. split; [intros x [<-|[]]; auto|]. split; [exact B|]. split; [|exact C].
      intros j J. right. exists (Leaf (val j e)). split; [apply Permutation_refl|reflexivity].
  Qed.
  Lemma append_held : forall s rows, fl_held (fl_append s rows) = fl_held s ++ rows.
  Proof. intros s rows. unfold fl_held, fl_append. cbn [fdf fdf_list]. rewrite List.concat_app. cbn [List.concat]. now rewrite app_nil_r, app_assoc. Qed.
  Lemma inv_append : forall s E batch, inv s E -> inv (fl_append s (map to_row batch)) (E ++ batch).
  Proof.
    intros s E batch I. unfold inv, kept_rows, kept. rewrite append_held, !filter_app. apply covers_app; [exact I|].
    apply (covers_filter m val kf (fun k => keep (snd k)) (map to_row batch) batch). apply covers_entries.
  Qed.
  Lemma inv_amalgamate : forall s s' E, inv s E -> fl_amalgamate m s s' -> inv s' E.
  Proof.
    intros s s' E I (_ & t & G & ->). unfold inv. unfold fl_held at 1. cbn [fdf fdf_list List.concat]. rewrite app_nil_r.
    eapply covers_group; [exact I|]. exact (group_filter m (fun k => keep (snd k)) _ _ G).
  Qed.
  Lemma amalgamate_held : forall s s', fl_amalgamate m s s' -> fdf s' = Some (fl_held s') /\ fdf_list s' = [].
  Proof. intros s s' (_ & t & _ & ->). unfold fl_held. cbn. now rewrite app_nil_r. Qed.
  Lemma filter_twice : forall A (f : A -> bool) l, filter f (filter f l) = filter f l.
  Proof. intros A f l. induction l as [|a l IH]; [reflexivity|]. cbn [filter]. destruct (f a) eqn:F; [|exact IH]. cbn [filter]. rewrite F. now f_equal. Qed.
  Lemma inv_select : forall s s' E, fl_amalgamate m s s' -> inv s' E -> inv (fl_select keep s') E.
  Proof.
    intros s s' E A I. destruct (amalgamate_held s s' A) as [D L]. unfold inv, kept_rows. unfold fl_held at 1. unfold fl_select. cbn [fdf fdf_list]. rewrite D, L. cbn [option_map List.concat]. rewrite app_nil_r, filter_twice. exact I.
  Qed.
  Lemma inv_run : forall s calls s', fl_run m to_row keep s calls s' -> forall E, inv s E -> inv s' (E ++ entries calls).
  Proof.
    induction 1 as [s|s c s1 cs s2 ST R IH]; intros E I; [unfold entries; cbn [flat_map]; now rewrite app_nil_r|].
    unfold entries. cbn [flat_map]. fold (entries cs). inversion ST as [? batch|? batch s1' A|? s1' A]; subst.
    - rewrite app_assoc. apply IH. now apply inv_append.
    - rewrite app_assoc. apply IH. eapply inv_amalgamate; [|exact A]. now apply inv_append.
    - cbn [app]. apply IH. eapply inv_select; [exact A|]. eapply inv_amalgamate; eassumption.
  Qed.

  Definition row_ok (of : list entry) (r : frow) : Prop :=
    of <> [] /\ List.length (fcols r) = m /\ (forall j, (j < m)%nat -> sums_to fl64 (map (val j) of) (nth j (fcols r) 0%Qc)) /\ fnum r = List.length of.
  Lemma of_kept : forall (f : entry -> bool) t l, (forall e, f e = true -> e_true e = t) -> keep t = true -> filter f (kept l) = filter f l.
  Proof.
    intros f t l F K. unfold kept. induction l as [|e l IH]; [reflexivity|]. cbn [filter]. destruct (keep (e_true e)) eqn:KE; cbn [filter]; destruct (f e) eqn:FE; auto.
    - now f_equal.
    - rewrite (F e FE), K in KE. discriminate.
  Qed.
  Theorem session_rows : forall calls df_p df_c, fl_session m to_row keep calls df_p df_c ->
    let l := entries calls in
    StronglySorted (fun a b => key_ltb a b = true) (map fkey df_p) /\
    (forall r, In r df_p -> keep (snd (fkey r)) = true /\ row_ok (of_pixel (fst (fkey r)) (snd (fkey r)) l) r) /\
    (forall e, In e l -> keep (e_true e) = true -> exists r, In r df_p /\ fkey r = (e_pixel e, e_true e)) /\
    StronglySorted (fun a b => key_ltb a b = true) (map fkey df_c) /\
    (forall r, In r df_c -> fst (fkey r) = 0%Z /\ keep (snd (fkey r)) = true /\ row_ok (of_true (snd (fkey r)) l) r) /\
    (forall e, In e l -> keep (e_true e) = true -> exists r, In r df_c /\ fkey r = (0%Z, e_true e)).
  Proof.
    intros calls df_p df_c (s & s' & RUN & A & D & G) l.
    assert (I0 : inv fl_new []) by (exists []; split; [reflexivity|]; split; [constructor|]; intros p []).
    pose proof (inv_run _ _ _ RUN [] I0) as I1. cbn [app] in I1. fold l in I1. pose proof (inv_amalgamate _ _ _ I1 A) as I2.
    destruct A as (_ & t & GT & ->). unfold fl_select in D. cbn [fdf option_map] in D. injection D as <-.
    unfold inv, fl_held in I2. cbn [fdf fdf_list List.concat] in I2. rewrite app_nil_r in I2.
    pose proof (group_filter m (fun k => keep (snd k)) _ _ GT) as (S & _ & _). change (filter (fun r => keep (snd (fkey r))) t) with (kept_rows t) in *.
    pose proof (covers_group m val _ _ _ _ (covers_forget m val _ _ _ I2) G) as I3. destruct G as (S3 & K3 & _).
    assert (IK : forall e, In e l -> keep (e_true e) = true -> In e (kept l)) by (intros e IE KE; apply filter_In; auto).
    split; [exact S|]. split; [|split; [|split; [exact S3|split]]].
    - intros r R. assert (KR : keep (snd (fkey r)) = true) by (apply filter_In in R; tauto). split; [exact KR|].
      destruct (covers_row m val kf _ _ r I2 (sorted_NoDup _ S) R) as (NE & _ & L & SU & NU). cbn [fst snd] in *.
      rewrite (of_kept _ (snd (fkey r))) in NE, SU, NU; auto; [split; [exact NE|split; [exact L|split; [exact SU|exact NU]]]| | |];
        intros e FE; unfold kf in FE; destruct (key_eqb_spec (e_pixel e, e_true e) (fkey r)) as [<-|]; try discriminate; reflexivity.
    - intros e IE KE. pose proof (covers_keys m val kf _ _ e I2 (IK e IE KE)) as H. apply in_map_iff in H as (r & E & R). exists r. auto.
    - intros r R. assert (In (fkey r) (map fkey (map fl_forget (kept_rows t)))) as H by (apply K3; now apply in_map). rewrite map_map in H. apply in_map_iff in H as (x & EX & X).
      assert (KR : keep (snd (fkey r)) = true) by (rewrite <- EX; cbn [fl_forget fkey snd]; apply filter_In in X; tauto). assert (Z0 : fst (fkey r) = 0%Z) by (rewrite <- EX; reflexivity). split; [exact Z0|]. split; [exact KR|].
      destruct (covers_row m val _ _ _ r I3 (sorted_NoDup _ S3) R) as (NE & _ & L & SU & NU). cbn [fst snd] in *.
      assert (FF : forall l0, filter (fun e : entry => key_eqb (0%Z, snd (kf e)) (fkey r)) l0 = of_true (snd (fkey r)) l0).
      { intros l0. unfold of_true. apply filter_ext. intros e. unfold key_eqb. cbn [fst snd kf]. rewrite Z0. reflexivity. }
      rewrite FF in NE, SU, NU. unfold of_true in NE, SU, NU. rewrite (of_kept _ (snd (fkey r))) in NE, SU, NU; auto; [split; [exact NE|split; [exact L|split; [exact SU|exact NU]]]| | |];
        intros e FE; destruct (qeqb_spec (e_true e) (snd (fkey r))); congruence.
    - intros e IE KE. pose proof (covers_keys m val _ _ _ e I3 (IK e IE KE)) as H. apply in_map_iff in H as (r & E & R). exists r. auto.
  Qed.

  (** Every sequence of calls that begins with an add has a result. *)
  Lemma group_exists : forall rows, exists out, fl_groupby m rows out.
  Proof.
    intros rows. pose (ks := map rkey (groupby (map (fun r => {| rkey := fkey r; cols := [] |}) rows))).
    assert (S : StronglySorted (fun a b => key_ltb a b = true) ks).
    { unfold ks. pose proof (groupby_ordered (map (fun r => {| rkey := fkey r; cols := [] |}) rows)) as O. unfold ordered, row_lt in O. clear - O. induction O as [|a l O IH F]; [constructor|]. cbn [map]. constructor; [exact IH|].
      apply Forall_forall. intros k I. apply in_map_iff in I as (r & <- & I). rewrite Forall_forall in F. specialize (F r I). destruct (key_ltb_spec (rkey a) (rkey r)); [auto|contradiction]. }
    assert (K : forall k, In k ks <-> In k (map fkey rows)).
    { intros k. unfold ks. set (rs := map _ rows). pose proof (groupby_ordered rs) as O. pose proof (groupby_get rs k) as GG.
      assert (In k (map fkey rows) <-> of_key k rs <> []) as ->.
      { rewrite of_key_nil. unfold rs. rewrite in_map_iff. split.
        - intros (r & <- & I). eexists. split; [apply in_map; exact I|reflexivity].
        - intros (x & I & <-). apply in_map_iff in I as (r & <- & I). exists r. auto. }
      split; intros H.
      - apply in_map_iff in H as (r & <- & I). rewrite (get_in _ _ O I) in GG. intros N. rewrite N in GG. discriminate.
      - destruct (of_key k rs) as [|a l] eqn:E; [contradiction|]. cbn [fold_left] in GG.
        assert (exists p, fold_left plus l (plus None a) = Some p) as [p EP].
        { clear. generalize a. induction l as [|b l IH]; intros a0; [eexists; reflexivity|]. cbn [fold_left plus]. apply IH. }
        rewrite EP in GG. apply get_some_in in GG as (r & I & <- & _). now apply in_map. }
    pose (of := fun k => filter (fun x => key_eqb (fkey x) k) rows).
    assert (X : forall k, exists r, fkey r = k /\ List.length (fcols r) = m /\ (forall j, (j < m)%nat -> sums_to fl64 (map (fun x => nth j (fcols x) 0%Qc) (of k)) (nth j (fcols r) 0%Qc)) /\ fnum r = list_sum (map fnum (of k))).
    { intros k. assert (exists c, List.length c = m /\ forall j, (j < m)%nat -> sums_to fl64 (map (fun x => nth j (fcols x) 0%Qc) (of k)) (nth j c 0%Qc)) as (c & LC & SC).
      { clear. induction m as [|n IH]; [exists []; split; [reflexivity|lia]|]. destruct IH as (c & L & S). destruct (sums_to_exists fl64 (map (fun x => nth n (fcols x) 0%Qc) (of k))) as [v V]. exists (c ++ [v]). split; [rewrite app_length; cbn; lia|].
        intros j J. destruct (Nat.eq_dec j n) as [->|].
        - rewrite app_nth2 by lia. rewrite L, Nat.sub_diag. exact V.
        - rewrite app_nth1 by lia. apply S. lia. }
      exists {| fkey := k; fcols := c; fnum := list_sum (map fnum (of k)) |}. cbn. auto. }
    assert (EX : exists out, map fkey out = ks /\ forall r, In r out -> List.length (fcols r) = m /\ (forall j, (j < m)%nat -> sums_to fl64 (map (fun x => nth j (fcols x) 0%Qc) (of (fkey r))) (nth j (fcols r) 0%Qc)) /\ fnum r = list_sum (map fnum (of (fkey r)))).
    { clear K S. induction ks as [|k l IH]; [exists []; split; [reflexivity|intros r []]|]. destruct IH as (out & M & H). destruct (X k) as (r & KR & HR). exists (r :: out). split; [cbn [map]; congruence|].
      intros x [<-|I]; [rewrite KR; exact HR|auto]. }
    destruct EX as (out & M & H). exists out. split; [now rewrite M|]. split; [intros k; rewrite M; apply K|]. exact H.
  Qed.
  Definition begun (s : fobj) : Prop := fdf s <> None \/ fdf_list s <> [].
  Lemma amalgamate_exists : forall s, begun s -> exists s', fl_amalgamate m s s' /\ begun s'.
  Proof. intros s B. destruct (group_exists (fl_held s)) as [t T]. exists {| fdf := Some t; fdf_list := [] |}. split; [split; [exact B|eauto]|left; discriminate]. Qed.
  Lemma run_exists : forall calls s, begun s -> exists s', fl_run m to_row keep s calls s' /\ begun s'.
  Proof.
    induction calls as [|c cs IH]; intros s B; [exists s; split; [constructor|auto]|].
    assert (exists s1, fl_step m to_row keep s c s1 /\ begun s1) as (s1 & ST & B1).
    { destruct c as [batch|].
      - eexists. split; [apply step_add|]. right. cbn. intros E. now apply app_eq_nil in E as [_ ?].
      - destruct (amalgamate_exists s B) as (s' & A & B'). eexists. split; [apply step_finish; exact A|]. destruct A as (_ & t & _ & ->). left. discriminate. }
    destruct (IH s1 B1) as (s2 & R & B2). exists s2. split; [econstructor; eassumption|exact B2].
  Qed.
  Theorem session_exists : forall batch calls, exists df_p df_c, fl_session m to_row keep (Add batch :: calls) df_p df_c.
  Proof.
    intros batch calls. destruct (run_exists calls (fl_append fl_new (map to_row batch))) as (s & R & B); [right; discriminate|].
    destruct (amalgamate_exists s B) as (s' & A & _). destruct (amalgamate_held s s' A) as [D _]. destruct (group_exists (map fl_forget (kept_rows (fl_held s')))) as [c C].
    exists (kept_rows (fl_held s')), c, s, s'. split; [econstructor; [apply step_add|exact R]|]. split; [exact A|]. split; [|exact C]. unfold fl_select. cbn [fdf]. now rewrite D.
  Qed.
End Session.
