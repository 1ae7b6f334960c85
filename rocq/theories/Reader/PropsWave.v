(** Property C96: what an event knows about itself.

    [first_event e]: the first operand of the calculation [e], read from left to right, that is an event and not hidden in a
    compiled function. *)
From Coq Require Import List ZArith QArith Qcanon String Bool Lia.
From Verif.Base Require Import Py PyFacts.
From Verif.Reader Require Import Model ModelWave.
Import ListNotations.
Local Open Scope list_scope.
Local Open Scope string_scope.

Definition names : list string := ["iev"; "is_r1"; "first_cell_id"; "stale"; "missing_packets"; "t_tack"; "_t_cpu_container"; "mc_true"].
(** Made by a reader: an instance with the eight attributes *)
Definition is_event (a : arr) : Prop := a_cls a <> Nd /\ forall n, In n names -> exists v, attr a n = Ok v.
Fixpoint first_event (e : expr) : option arr :=
  match e with
  | Leaf a => match a_cls a with Nd => None | _ => Some a end
  | Op1 e => first_event e
  | Op2 e f => match first_event e with Some a => Some a | None => first_event f end
  | Compiled _ => None
  | Calibrated e => first_event e
  end.
Fixpoint leaves (e : expr) : list arr :=
  match e with Leaf a => [a] | Op1 e | Compiled e | Calibrated e => leaves e | Op2 e f => leaves e ++ leaves f end.

Lemma finalize_attr : forall c a n, c <> Nd -> In n names -> attr (finalize c a) n = Ok (getattr a n).
Proof. intros c a n C I. destruct c; [congruence| |]; cbn in I; repeat (destruct I as [<-|I]; [reflexivity|]); destruct I. Qed.
Lemma getattr_ok : forall a n v, attr a n = Ok v -> getattr a n = v.
Proof. intros a n v H. unfold attr, getattr in *. destruct (dget n (a_attrs a)); congruence. Qed.
Lemma finalize_cls : forall c a, a_cls (finalize c a) = c. Proof. intros [] a; reflexivity. Qed.

(** Same class and same eight attributes *)
Definition same (r a : arr) : Prop := a_cls r = a_cls a /\ forall n, In n names -> attr r n = attr a n.
Lemma same_finalize : forall a b, is_event a -> same b a -> same (finalize (a_cls b) b) a.
Proof.
  intros a b [N E] [C S]. split; [now rewrite finalize_cls|]. intros n I. rewrite finalize_attr; [|congruence|exact I]. destruct (E n I) as [v V]. rewrite V. f_equal. apply getattr_ok. now rewrite S.
Qed.
Lemma attr_dset_other : forall a c n m v, n <> m -> attr {| a_cls := c; a_attrs := dset m v (a_attrs a) |} n = attr a n.
Proof. intros. unfold attr. cbn [a_attrs]. now rewrite dget_dset_neq. Qed.

Lemma eval_same : forall e r, (forall a, In a (leaves e) -> a = plain \/ is_event a) -> eval e = Ok r ->
  match first_event e with Some a => is_event a /\ same r a | None => r = plain end.
Proof.
  induction e as [a|e IH|e IHe f IHf|e IH|e IH]; intros r L E; cbn [eval first_event leaves] in *.
  - injection E as <-. destruct (L a (or_introl eq_refl)) as [->|V]; [reflexivity|]. destruct (a_cls a) eqn:C; [now destruct V|split; [exact V|now split]|split; [exact V|now split]].
  - destruct (eval e) as [b|] eqn:B; [|discriminate]. injection E as <-. specialize (IH b L eq_refl). destruct (first_event e) as [a|]; [|now subst]. destruct IH as [V S]. split; [exact V|]. now apply same_finalize.
  - destruct (eval e) as [b|] eqn:B; [|discriminate]. cbn [bind] in E. destruct (eval f) as [c|] eqn:C; [|discriminate]. cbn [bind] in E. injection E as <-.
    specialize (IHe b (fun a H => L a (in_or_app _ _ _ (or_introl H))) eq_refl). specialize (IHf c (fun a H => L a (in_or_app _ _ _ (or_intror H))) eq_refl). cbn [opn].
    destruct (first_event e) as [a|].
    + destruct IHe as [V S]. split; [exact V|]. assert (N : a_cls b <> Nd) by (destruct S as [-> _]; apply V). pose proof (same_finalize a b V S) as Q. destruct (a_cls b); [congruence|exact Q|exact Q].
    + subst b. cbn [a_cls plain]. destruct (first_event f) as [a|]; [|now subst]. destruct IHf as [V S]. split; [exact V|]. assert (N : a_cls c <> Nd) by (destruct S as [-> _]; apply V). pose proof (same_finalize a c V S) as Q. destruct (a_cls c); [congruence|exact Q|exact Q].
  - destruct (eval e); [|discriminate]. now injection E as <-.
  - destruct (eval e) as [b|] eqn:B; [|discriminate]. cbn [bind] in E. specialize (IH b L eq_refl). unfold calibrate, set_attr, op1 in E. rewrite finalize_cls in E. destruct (first_event e) as [a|].
    + destruct IH as [V S]. split; [exact V|]. pose proof (same_finalize a b V S) as [Q1 Q2]. rewrite finalize_cls in Q1. assert (N : a_cls b <> Nd) by (rewrite Q1; apply V).
      assert (X : r = {| a_cls := a_cls b; a_attrs := dset "r1" (VBool true) (a_attrs (finalize (a_cls b) b)) |}) by (destruct (a_cls b); [congruence|now injection E|now injection E]). subst r.
      split; [exact Q1|]. intros n I. rewrite attr_dset_other; [now apply Q2|]. intros ->. cbn in I. repeat (destruct I as [I|I]; [discriminate|]). destruct I.
    + subst b. discriminate.
Qed.

(** A calculation with events and plain arrays yields the attributes and the time of its first event; without an event it is a plain array. *)
Theorem C96_attributes : forall e r, (forall a, In a (leaves e) -> a = plain \/ is_event a) -> eval e = Ok r ->
  match first_event e with
  | Some a => a_cls r = a_cls a /\ (forall n, In n names -> attr r n = attr a n) /\ t_cpu r = t_cpu a
  | None => a_cls r = Nd /\ (forall n, attr r n = Raise AttributeError) /\ t_cpu r = Raise AttributeError
  end.
Proof.
  intros e r L E. pose proof (eval_same e r L E) as H. destruct (first_event e) as [a|].
  - destruct H as [V [C S]]. split; [exact C|]. split; [exact S|]. unfold t_cpu. rewrite C. rewrite (S "_t_cpu_container") by (cbn; tauto). reflexivity.
  - subst r. now repeat split.
Qed.
Print Assumptions C96_attributes.

(** An array of any kind turned into an event keeps the attributes it has; the others are None, and it has no time if the file has given it none. *)
Theorem C96_view : forall c a n, c <> Nd -> In n names -> attr (finalize c a) n = match attr a n with Ok v => Ok v | Raise _ => Ok VNone end.
Proof. intros c a n C I. unfold attr. destruct c; [congruence| |]; cbn in I; repeat (destruct I as [<-|I]; [cbn; unfold getattr; now destruct (dget _ (a_attrs a))|]); destruct I. Qed.
Print Assumptions C96_view.
Theorem C96_view_time : t_cpu (finalize Wf plain) = Raise TypeError /\ t_cpu (finalize SimWf plain) = Ok VNone.
Proof. now split. Qed.
Print Assumptions C96_view_time.

(** Only the calibration can fail, and it does for plain arrays. *)
Fixpoint no_calibration (e : expr) : Prop := match e with Leaf _ => True | Op1 e | Compiled e => no_calibration e | Op2 e f => no_calibration e /\ no_calibration f | Calibrated _ => False end.
Theorem C96_defined : forall e, (forall a, In a (leaves e) -> a = plain \/ is_event a) ->
  (no_calibration e -> exists r, eval e = Ok r) /\ (forall r, eval e = Ok r -> (exists s, eval (Calibrated e) = Ok s) <-> first_event e <> None) /\ (forall x, eval e = Raise x -> x = AttributeError).
Proof.
  intros e L. split; [|split].
  - clear L. induction e as [a|e IH|e IHe f IHf|e IH|e IH]; cbn; intros N; [eauto|destruct (IH N) as [r ->]; cbn; eauto|destruct N as [N1 N2]; destruct (IHe N1) as [r ->], (IHf N2) as [s ->]; cbn; eauto|destruct (IH N) as [r ->]; cbn; eauto|destruct N].
  - intros r E. pose proof (eval_same e r L E) as H. cbn [eval]. rewrite E. cbn [bind]. unfold calibrate, set_attr, op1. rewrite finalize_cls. destruct (first_event e) as [a|].
    + destruct H as [[N _] [C _]]. split; [congruence|]. intros _. rewrite C. destruct (a_cls a); [congruence|eauto|eauto].
    + subst r. split; [|congruence]. intros [s S]. discriminate.
  - clear L. induction e as [a|e IH|e IHe f IHf|e IH|e IH]; cbn; intros x E; [discriminate|destruct (eval e); [discriminate|injection E as <-; auto]| |destruct (eval e); [discriminate|injection E as <-; auto]|].
    + destruct (eval e); cbn in E; [|injection E as <-; auto]. destruct (eval f); cbn in E; [discriminate|injection E as <-; auto].
    + destruct (eval e); cbn in E; [|injection E as <-; auto]. unfold calibrate, set_attr in E. destruct (a_cls (op1 a)); congruence.
Qed.
Print Assumptions C96_defined.

(** ** Events of a tio file *)
Lemma tio_is_event : forall r i, is_event (tio_event r i).
Proof. intros r i. split; [discriminate|]. intros n I. cbn in I. repeat (destruct I as [<-|I]; [eexists; reflexivity|]). destruct I. Qed.
(** A calculation that starts from event [i] has the number, the flags and the times of event [i]. *)
Theorem C96_tio : forall r n i ev f s, (0 <= i < n)%Z -> tio_getitem r n (IInt i) = Ok ev -> (forall a, In a (leaves f) -> a = plain \/ is_event a) -> eval (Op2 (Leaf ev) f) = Ok s ->
  let h := t_headers r i in attr s "iev" = Ok (VInt i) /\ attr s "is_r1" = Ok (VBool (t_r1 r)) /\ attr s "first_cell_id" = Ok (VInt (h_first_cell_id h)) /\ attr s "stale" = Ok (VBool (h_stale h)) /\
  attr s "missing_packets" = Ok (VBool (h_missing h)) /\ attr s "t_tack" = Ok (VInt (h_t_tack h)) /\ t_cpu s = Ok (VPair (h_cpu_s h) (h_cpu_ns h)) /\ attr s "mc_true" = Ok VNone.
Proof.
  intros r n i ev f s I G L E h. assert (V : ev = tio_event r i).
  { unfold tio_getitem in G. cbn [getitem] in G. unfold get_int, len in G. rewrite (proj2 (Z.ltb_ge i 0)) in G by lia. rewrite (proj2 (Z.ltb_ge i 0)) in G by lia. rewrite (proj2 (Z.ltb_ge n 0)) in G by lia. cbn [bind] in G. rewrite (proj2 (Z.leb_gt n i)) in G by lia. cbn in G. now injection G as <-. }
  subst ev. pose proof (C96_attributes (Op2 (Leaf (tio_event r i)) f) s) as H. cbn [leaves first_event a_cls tio_event new] in H. destruct H as (_ & S & T); [|exact E|].
  - intros a [<-|A]; [right; apply tio_is_event|]. now apply L.
  - assert (X : forall m, In m names -> attr s m = attr (tio_event r i) m) by exact S. unfold h. repeat split; try (rewrite X by (cbn; tauto); reflexivity). rewrite T. reflexivity.
Qed.
Print Assumptions C96_tio.

(** Several events at once, by a slice or a list, know nothing of themselves. *)
Theorem C96_several : forall r n i ev m, match i with ISlice _ _ _ | IList _ => True | _ => False end -> tio_getitem r n i = Ok ev -> attr ev m = Raise AttributeError /\ t_cpu ev = Raise AttributeError.
Proof.
  intros r n i ev m I G. assert (E : ev = plain); [|subst; now split]. unfold tio_getitem in G. destruct (getitem (tio_event r) n i) as [x|] eqn:X; [|discriminate]. cbn in G. destruct x; [|now injection G as <-].
  exfalso. destruct i; try contradiction; cbn [getitem] in X.
  - destruct (n <? 0)%Z; [discriminate|]. destruct (slice_indices a b c n) as [[[? ?] ?]|]; [|discriminate]. cbn [bind] in X. destruct (mapM _ _); discriminate.
  - set (g := (fix go (l : list index) : res (list (item arr)) := match l with [] => Ok [] | i :: t => bind (getitem (tio_event r) n i) (fun x => bind (go t) (fun xs => Ok (x :: xs))) end) l) in X. destruct g; discriminate.
Qed.
Print Assumptions C96_several.

(** The claim that a calibrated raw event is marked as calibrated is refuted: is_r1 stays False, the mark is an attribute r1, and that is lost in
    the next operation. *)
Theorem C96_calibrated_refuted : forall r i, t_r1 r = false -> exists c, eval (Calibrated (Leaf (tio_event r i))) = Ok c /\ attr c "is_r1" = Ok (VBool false) /\ attr c "r1" = Ok (VBool true) /\
  attr (op1 c) "is_r1" = Ok (VBool false) /\ attr (op1 c) "r1" = Raise AttributeError.
Proof. intros r i R. eexists. split; [reflexivity|]. cbn. rewrite R. now repeat split. Qed.
Print Assumptions C96_calibrated_refuted.

(** The mark is there exactly directly after the calibration. *)
Theorem C96_mark : forall e r, (forall a, In a (leaves e) -> a = plain \/ (is_event a /\ attr a "r1" = Raise AttributeError)) -> eval e = Ok r ->
  (attr r "r1" = Ok (VBool true) /\ exists f, e = Calibrated f) \/ (attr r "r1" = Raise AttributeError /\ forall f, e <> Calibrated f).
Proof.
  intros e r L E. assert (O : forall c a, attr (finalize c a) "r1" = Raise AttributeError) by (intros [] a; reflexivity). destruct e as [a|e|e f|e|e]; cbn [eval leaves] in *.
  - right. split; [|discriminate]. injection E as <-. destruct (L a (or_introl eq_refl)) as [->|[_ H]]; [reflexivity|exact H].
  - right. split; [|discriminate]. destruct (eval e); [|discriminate]. injection E as <-. apply O.
  - right. split; [|discriminate]. destruct (eval e) as [a|]; [|discriminate]. destruct (eval f) as [b|]; [|discriminate]. injection E as <-. cbn [opn]. destruct (a_cls a); [destruct (a_cls b)| |]; apply O || reflexivity.
  - right. split; [|discriminate]. destruct (eval e); [|discriminate]. now injection E as <-.
  - left. split; [|eauto]. destruct (eval e) as [a|]; [|discriminate]. cbn [bind] in E. unfold calibrate, set_attr in E. destruct (a_cls (op1 a)); [discriminate| |]; injection E as <-; unfold attr; cbn [a_attrs]; now rewrite dget_dset_eq.
Qed.
Print Assumptions C96_mark.

(** ** Slow control of a tio file *)
Lemma sn_list_spec : forall r, sn_list r = Ok (map (fun k => t_sn r (Z.of_nat k)) (seq 0 (Z.to_nat (t_modules r)))).
Proof.
  intros r. unfold sn_list, py_range, range_len. change (0 <? 1)%Z with true. cbv iota. assert (L : Z.to_nat (if (0 <? t_modules r)%Z then (t_modules r - 0 - 1) / 1 + 1 else 0)%Z = Z.to_nat (t_modules r)).
  { destruct (Z.ltb_spec 0 (t_modules r)); [rewrite Z.sub_0_r, Z.div_1_r; f_equal; lia|lia]. }
  rewrite L. assert (X : forall l, (forall k, In k l -> (k < Z.to_nat (t_modules r))%nat) -> mapM (get_sn r) (map (fun k => (0 + Z.of_nat k * 1)%Z) l) = Ok (map (fun k => t_sn r (Z.of_nat k)) l)); [|apply X; intros k K; apply in_seq in K; lia].
  induction l as [|k l IH]; intros K; [reflexivity|]. cbn [map mapM]. rewrite IH by (intros; apply K; now right). replace (0 + Z.of_nat k * 1)%Z with (Z.of_nat k) by lia. unfold get_sn at 1. specialize (K k (or_introl eq_refl)). rewrite (proj2 (Z.leb_gt _ _)) by lia. reflexivity.
Qed.
Theorem C96_slow_control : forall r tm sp,
  ((exists v, get_sn r tm = Ok v) <-> (tm < t_modules r)%Z) /\ ((exists v, get_sp_dac r tm sp = Ok v) <-> (tm < t_modules r)%Z /\ (sp < t_superpixels r)%Z) /\
  (forall v, get_sn r tm = Ok v -> v = t_sn r tm) /\ (forall v, get_sp_dac r tm sp = Ok v -> v = t_dac r tm sp) /\
  (forall e, get_sn r tm = Raise e \/ get_sp_dac r tm sp = Raise e -> e = IndexError) /\
  (exists l, sn_list r = Ok l /\ l = map (fun k => t_sn r (Z.of_nat k)) (seq 0 (Z.to_nat (t_modules r)))).
Proof.
  intros r tm sp. unfold get_sn, get_sp_dac. destruct (Z.leb_spec (t_modules r) tm) as [H|H], (Z.leb_spec (t_superpixels r) sp) as [G|G].
  1-4: split; [split; [intros [v V]; (discriminate || lia)|intros; try lia; eauto]|]; split; [split; [intros [v V]; (discriminate || lia)|intros; try lia; eauto]|]; split; [intros v V; congruence|]; split; [intros v V; congruence|]; split; [intros e [V|V]; congruence|].
  1-4: eexists; split; [apply sn_list_spec|reflexivity].
Qed.
Print Assumptions C96_slow_control.
(** Exactly one of the two special readers accepts a file. *)
Theorem C96_kinds : forall r, (reader_r1 r = Ok r /\ reader_r0 r = Raise IOError /\ t_r1 r = true) \/ (reader_r0 r = Ok r /\ reader_r1 r = Raise IOError /\ t_r1 r = false).
Proof. intros r. unfold reader_r1, reader_r0. destruct (t_r1 r); [left|right]; now repeat split. Qed.
Print Assumptions C96_kinds.

(** ** Events of a simulation *)
Section Sim.
Context {C P H : Type}.
Implicit Types (l before : list (event C P H)) (e : event C P H) (s : sim C P H).
Lemma accesses_app : forall l s k e, nth_error l k = Some e -> nth_error (accesses s l) k = Some (build (after s (firstn k l)) e).
Proof. induction l as [|x l IH]; intros s [|k] e E; cbn in E; [discriminate|discriminate|injection E as ->; reflexivity|]. cbn [accesses nth_error firstn]. rewrite (IH _ _ _ E). reflexivity. Qed.
Lemma accesses_length : forall l s, List.length (accesses s l) = List.length l. Proof. induction l as [|x l IH]; intros s; cbn; [reflexivity|]. now rewrite IH. Qed.
Lemma after_header : forall l s, s_mcheader (after s l) = match s_mcheader s with Some h => Some h | None => match l with [] => None | e :: _ => Some (e_obs e, e_header e) end end.
Proof. induction l as [|x l IH]; intros s; cbn; [now destruct (s_mcheader s)|]. unfold after in IH. rewrite IH. cbn. now destruct (s_mcheader s). Qed.
Definition run_of (d : Z) l : Z := last (map (@e_obs C P H) l) d.
Lemma after_last : forall l s e, after s (l ++ [e]) = fill (after s l) e. Proof. intros. unfold after. rewrite fold_left_app. reflexivity. Qed.

(** After any accesses the containers and the run number are those of the event read last, the header is that of the first event ever read, and each
    event has its own number, image and time; the containers are empty before. *)
Theorem C96_containers : forall l k e first, nth_error l k = Some e -> nth_error l 0 = Some first -> exists r w, nth_error (accesses sim_init l) k = Some (r, w) /\
  s_run_id r = e_obs e /\ s_mc r = Some (e_count e, e_time e, e_mc e) /\ s_pointing r = Some (e_count e, e_time e, e_pointing e) /\ s_mcheader r = Some (e_obs first, e_header first) /\
  attr w "iev" = Ok (VInt (e_count e)) /\ attr w "mc_true" = Ok (VImage (e_image e)) /\ t_cpu w = Ok (VTime (e_time e)) /\ attr w "is_r1" = Ok (VBool true) /\ attr w "stale" = Ok (VBool false) /\ attr w "missing_packets" = Ok (VBool false) /\ is_event w.
Proof.
  intros l k e first E F. rewrite (accesses_app l sim_init k e E). do 2 eexists. split; [reflexivity|]. cbn [build fill s_run_id s_mc s_pointing s_mcheader]. repeat split; try reflexivity.
  - rewrite after_header. cbn [sim_init s_mcheader]. destruct l as [|x l]; [discriminate|]. cbn in F. injection F as ->. destruct k as [|k]; [cbn in E; injection E as ->; reflexivity|]. reflexivity.
  - discriminate.
  - intros n I. cbn in I. repeat (destruct I as [<-|I]; [eexists; reflexivity|]). destruct I.
Qed.
(** Each row of the tables mc and pointing belongs to the event of its row, whatever was read before. *)
Theorem C96_tables : forall before l, List.length (tables before l) = List.length l /\ forall k e, nth_error l k = Some e -> exists w,
  nth_error (tables before l) k = Some (w, Some (e_count e, e_time e, e_mc e), Some (e_count e, e_time e, e_pointing e)) /\ attr w "iev" = Ok (VInt (e_count e)) /\ attr w "mc_true" = Ok (VImage (e_image e)).
Proof.
  intros before l. unfold tables. split; [now rewrite map_length, accesses_length|]. intros k e E. rewrite nth_error_map, (accesses_app _ _ _ _ E). cbn [option_map build fst snd fill s_mc s_pointing]. eexists. split; [reflexivity|]. now split.
Qed.
(** The run number of the reader is that of its header if the file has one run. *)
Theorem C96_one_run : forall l run, l <> [] -> (forall e, In e l -> e_obs e = run) -> exists h, s_mcheader (after sim_init l) = Some (run, h) /\ s_run_id (after sim_init l) = run.
Proof.
  intros l run N A. destruct (exists_last N) as (l' & e & ->). rewrite after_header. cbn [sim_init s_mcheader]. rewrite after_last. cbn [fill s_run_id]. rewrite (A e) by (apply in_or_app; right; now left).
  destruct l' as [|x l']; cbn [app]; [rewrite (A e) by now left|rewrite (A x) by now left]; eauto.
Qed.
End Sim.
Print Assumptions C96_containers.
Print Assumptions C96_tables.
Print Assumptions C96_one_run.

(** The claim that the header and the metadata written to the dl1 file name the same run is refuted for files with several runs. *)
Definition ev (n obs : Z) : event Z Z Z := {| e_count := n; e_time := 0%Qc; e_obs := obs; e_mc := n; e_pointing := n; e_header := obs; e_image := [] |}.
Theorem C96_run_refuted : s_run_id (after sim_init [ev 0 7; ev 1 8]) = 8%Z /\ s_mcheader (after sim_init [ev 0 7; ev 1 8]) = Some (7, 7)%Z /\ s_run_id (@sim_init Z Z Z) = 0%Z.
Proof. now repeat split. Qed.
Print Assumptions C96_run_refuted.

Definition file : tio := {| t_r1 := false; t_modules := 2; t_superpixels := 16; t_headers := fun i => {| h_first_cell_id := 10 * i; h_stale := (i =? 1)%Z; h_missing := false; h_t_tack := 1000 + i; h_cpu_s := 5; h_cpu_ns := i |};
  t_sn := fun tm => (100 + tm)%Z; t_dac := fun tm sp => (tm * 16 + sp)%Z |}.
Example C96_ex : exists r, eval (Op1 (Op2 (Op1 (Leaf plain)) (Op2 (Calibrated (Leaf (tio_event file 3))) (Leaf (tio_event file 1))))) = Ok r /\ attr r "iev" = Ok (VInt 3) /\ attr r "stale" = Ok (VBool false) /\ t_cpu r = Ok (VPair 5 3).
Proof. eexists. now repeat split. Qed.
Example C96_ex_neg : get_sn file (-1) = Ok 99%Z /\ get_sn file 2 = Raise IndexError /\ sn_list file = Ok [100; 101]%Z.
Proof. now repeat split. Qed.
Example C96_ex_t_cpu : t_cpu (new Wf (VInt 0) (VBool false) (VInt 0) (VBool false) (VBool false) (VInt 0) (VInt 0) VNone) = Raise TypeError.
Proof. reflexivity. Qed.
