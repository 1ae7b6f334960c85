(** Property C108: which pulses fall into the windows of AverageWF and Timing, for readouts of every length (default window sizes). *)
From Coq Require Import List ZArith QArith Qcanon Qround Bool Arith Lia.
From Verif.Base Require Import Py PyFacts Num Lst.
From Verif.WfUtils Require Import Model Proofs.
From Verif.Reducers Require Import Model Proofs Proofs2 Proofs3 Props.
Import ListNotations.
Local Open Scope list_scope.

Definition peak (w : event) (n : nat) : nat := argmax (mean0 w n).
Lemma peak_lt : forall w n, (0 < n)%nat -> (peak w n < n)%nat.
Proof. intros w n N. unfold peak. destruct (argmax_spec (mean0 w n)) as (A & _); [intro Z; apply (f_equal (@List.length _)) in Z; rewrite mean0_length in Z; cbn in Z; lia|]. now rewrite mean0_length in A. Qed.

(** ** AverageWF, 20 samples or more: the peak of the average waveform is inside the window if and only if it is not among the first or last seven samples. *)
Theorem C108_peak_inside : forall w n, (20 <= n)%nat -> let t := extraction_time None w n in
  (t - 3 <= Z.of_nat (peak w n) < t - 3 + 6)%Z <-> (7 <= peak w n /\ peak w n + 8 <= n)%nat.
Proof.
  intros w n N t. unfold t. cbn [extraction_time]. destruct (event_time_range w n N) as [A B]. cbv zeta in B. fold (peak w n) in B. rewrite B. lia.
Qed.
Print Assumptions C108_peak_inside.
(** ** Timing: the same with six samples. *)
Theorem C108_peak_timing : forall w n, (20 <= n)%nat -> let t := extraction_time None w n in
  (t - 4 <= Z.of_nat (peak w n) < t - 4 + 8)%Z <-> (6 <= peak w n /\ peak w n + 7 <= n)%nat.
Proof.
  intros w n N t. unfold t. cbn [extraction_time]. destruct (event_time_range w n N) as [A B]. cbv zeta in B. fold (peak w n) in B. rewrite B. lia.
Qed.
Print Assumptions C108_peak_timing.

(** ** Shorter readouts *)
Lemma pyslice_nil : forall A (l : list A) a b, (slice_bound (List.length l) (List.length l) b <= slice_bound (List.length l) 0 a)%nat -> pyslice l a b = [].
Proof. intros A l a b H. pose proof (pyslice_length A l a b) as L. destruct (pyslice l a b); [reflexivity|]. cbn in L. lia. Qed.
Definition no_window (n p : nat) : Prop := (n <= 7 \/ (10 <= n <= 12 /\ 10 <= p))%nat.
Theorem C108_zero_refuted : forall w n, (0 < n)%nat -> Forall (fun row => List.length row = n) w -> no_window n (peak w n) -> charge_averagewf None 6 3 w n = map (fun _ => 0%Qc) w.
Proof.
  intros w n N F H. unfold charge_averagewf. pose proof (peak_lt w n N) as PL. unfold no_window in H. apply map_ext_in. intros row R. rewrite Forall_forall in F. pose proof (F row R) as L.
  rewrite pyslice_nil; [reflexivity|]. rewrite L. unfold extraction_time, event_time. cbv zeta. fold (peak w n). unfold slice_bound.
  destruct (Z.ltb_spec (Z.of_nat (peak w n)) 10); [|destruct (Z.ltb_spec (Z.of_nat n - 10) (Z.of_nat (peak w n))); [|lia]];
  repeat match goal with |- context [(?a <? 0)%Z] => destruct (Z.ltb_spec a 0) end; lia.
Qed.
Print Assumptions C108_zero_refuted.
(** Between 13 and 17 samples a peak at sample 10 or later is never in the window, although the window is not empty. *)
Theorem C108_late_refuted : forall w n, (13 <= n <= 17)%nat -> Forall (fun row => List.length row = n) w -> (10 <= peak w n)%nat ->
  charge_averagewf None 6 3 w n = map (fun row => window_sum row (n - 13) 6) w /\ (n - 13 + 6 <= peak w n)%nat.
Proof.
  intros w n N F H. split; [|lia]. assert (extraction_time None w n = Z.of_nat n - 10)%Z as E.
  { unfold extraction_time, event_time. cbv zeta. fold (peak w n). destruct (Z.ltb_spec (Z.of_nat (peak w n)) 10); [lia|]. destruct (Z.ltb_spec (Z.of_nat n - 10) (Z.of_nat (peak w n))); lia. }
  rewrite (charge_window None 6 3 w n F); rewrite ?E; [|lia|lia|lia]. replace (Z.to_nat (Z.of_nat n - 10 - 3)) with (n - 13)%nat by lia. reflexivity.
Qed.
Print Assumptions C108_late_refuted.

(** ** Timing raises ValueError exactly when the search window is empty. *)
Lemma cross_exn : forall rd l a b e, cross rd l a b = Raise e -> e = ZeroDivisionError.
Proof. intros rd l a b e H. unfold cross in H. destruct (qeqb _ _); [now injection H|discriminate]. Qed.
Lemma forward_exn : forall rd l k xi e, forward rd l k xi = Raise e -> e = ZeroDivisionError.
Proof. induction k as [|k IH]; intros xi e H; cbn in H; [discriminate|]. destruct (crosses _ _ _ _); [now apply cross_exn in H|now apply IH in H]. Qed.
Lemma set_first_exn : forall rd l xi c e, set_first rd l xi c = Raise e -> e = ZeroDivisionError.
Proof. intros rd l xi c e H. unfold set_first in H. destruct (_ && _)%bool; [now apply cross_exn in H|discriminate]. Qed.
Lemma backward_exn : forall rd a b c k s e, backward rd a b c k s = Raise e -> e = ZeroDivisionError.
Proof.
  induction k as [|k IH]; intros [[x y] z] e H; cbn [backward] in H; [discriminate|].
  destruct (set_first rd a _ x) as [x'|e'] eqn:E1; cbn [bind] in H; [|injection H as <-; now apply set_first_exn in E1].
  destruct (set_first rd b _ y) as [y'|e'] eqn:E2; cbn [bind] in H; [|injection H as <-; now apply set_first_exn in E2].
  destruct (set_first rd c _ z) as [z'|e'] eqn:E3; cbn [bind] in H; [|injection H as <-; now apply set_first_exn in E3].
  destruct (_ && _)%bool; [discriminate|]. now apply IH in H.
Qed.
Lemma bind_exn : forall A B (x : res A) (f : A -> res B) e, bind x f = Raise e -> x = Raise e \/ exists a, x = Ok a /\ f a = Raise e.
Proof. intros A B [a|y] f e H; cbn [bind] in H; [right; now exists a|left; now injection H as <-]. Qed.
Lemma tail_exn : forall rd base n t h x, timing_tail rd base n t h = Raise x -> x = ZeroDivisionError.
Proof.
  intros rd base n t h x H. unfold timing_tail in H. destruct (negb _); [discriminate|]. cbv zeta in H.
  revert H. generalize (base + h / qz 2)%Qc, (base + qz 9 / qz 10 * h)%Qc, (base + h / qz 10)%Qc. intros a b c H.
  apply bind_exn in H as [H|(r & _ & H)]; [now apply forward_exn in H|]. apply bind_exn in H as [H|([[p q] r'] & _ & H)]; [now apply backward_exn in H|discriminate].
Qed.
Lemma at_exn : forall junk w p x, timing_at junk w p = Raise x -> x = ZeroDivisionError.
Proof. intros junk w p x H. unfold timing_at in H. cbv zeta in H. revert H. match goal with |- (if ?c then _ else _) = _ -> _ => destruct c end; intro H; [discriminate|]. exact (tail_exn _ _ _ _ _ _ H). Qed.
Lemma pulse_timing_exn : forall junk w s e x, pulse_timing junk w s e = Raise x -> (pyslice w (Some s) (Some e) = [] /\ x = ValueError) \/ (pyslice w (Some s) (Some e) <> [] /\ x = ZeroDivisionError).
Proof.
  intros junk w s e x H. rewrite pulse_timing_at in H. destruct (pyslice w (Some s) (Some e)) as [|a l]; [left; split; [reflexivity|now injection H]|]. right. split; [discriminate|]. exact (at_exn _ _ _ _ H).
Qed.
Theorem C108_timing_raises : forall junk w n, (0 < n)%nat -> w <> [] -> Forall (fun row => List.length row = n) w ->
  (timing junk None 8 4 w n = Raise ValueError <-> (n <= 6 \/ (10 <= n <= 13 /\ 10 <= peak w n))%nat) /\
  (forall e, timing junk None 8 4 w n = Raise e -> e = ValueError \/ e = ZeroDivisionError).
Proof.
  intros junk w n N NE F. pose proof (peak_lt w n N) as PL. unfold timing. set (s := (extraction_time None w n - 4)%Z).
  assert (forall row, In row w -> pyslice row (Some s) (Some (s + 8)%Z) = [] <-> (n <= 6 \/ (10 <= n <= 13 /\ 10 <= peak w n))%nat) as E.
  { intros row R. rewrite Forall_forall in F. pose proof (F row R) as L. pose proof (pyslice_length _ row (Some s) (Some (s + 8)%Z)) as PLn. rewrite L in PLn.
    assert (pyslice row (Some s) (Some (s + 8)%Z) = [] <-> List.length (pyslice row (Some s) (Some (s + 8)%Z)) = 0%nat) as X by (destruct (pyslice row _ _); cbn; split; intros; try reflexivity; discriminate).
    rewrite X, PLn. unfold s, extraction_time, event_time. cbv zeta. fold (peak w n). unfold slice_bound.
    destruct (Z.ltb_spec (Z.of_nat (peak w n)) 10); [|destruct (Z.ltb_spec (Z.of_nat n - 10) (Z.of_nat (peak w n)))];
    repeat match goal with |- context [(?a <? 0)%Z] => destruct (Z.ltb_spec a 0) end; lia. }
  assert (forall l e, (forall row, In row l -> In row w) -> mapM (fun row => pulse_timing junk row s (s + 8)%Z) l = Raise e -> (e = ValueError /\ (n <= 6 \/ (10 <= n <= 13 /\ 10 <= peak w n))%nat) \/ e = ZeroDivisionError) as M.
  { induction l as [|row l IH]; intros e I H; cbn [mapM] in H; [discriminate|]. destruct (pulse_timing junk row s (s + 8)%Z) as [p|x] eqn:P; cbn [bind] in H.
    - destruct (mapM _ l) as [ps|x] eqn:Q; cbn [bind] in H; [discriminate|]. injection H as <-. apply (IH x); auto. intros; apply I; now right.
    - injection H as <-. apply pulse_timing_exn in P as [[Z ->]|[_ ->]]; [|auto]. left. split; [reflexivity|]. apply (E row); auto. apply I. now left. }
  split.
  - split.
    + intros H. destruct (M w ValueError (fun _ r => r) H) as [[_ X]|X]; [exact X|discriminate].
    + intros H. destruct w as [|row w']; [contradiction|]. cbn [mapM]. rewrite pulse_timing_at. rewrite (proj2 (E row (or_introl eq_refl)) H). reflexivity.
  - intros e H. destruct (M w e (fun _ r => r) H) as [[X _]|X]; auto.
Qed.
Print Assumptions C108_timing_raises.

(** ** With a search window inside the readout the result does not depend on the memory behind the waveform, provided that the interpolated
       time is before the middle of the last sample. *)
Lemma samples_in : forall j1 j2 w i, (0 <= i < Z.of_nat (List.length w))%Z -> samples j1 w i = samples j2 w i.
Proof. intros j1 j2 w i B. unfold samples, read. destruct (Z.ltb_spec i 0); [lia|]. rewrite (proj2 (Z.leb_le 0 i)), (proj2 (Z.ltb_lt i _)) by lia. reflexivity. Qed.
Lemma forward_ext : forall rd rd' l k xi n, (forall i, (0 <= i < n)%Z -> rd i = rd' i) -> (0 <= xi)%Z -> (xi + Z.of_nat k < n)%Z -> forward rd l k xi = forward rd' l k xi.
Proof.
  intros rd rd' l k xi n H. revert xi. induction k as [|k IH]; intros xi A B; [reflexivity|]. cbn [forward]. unfold crosses, cross. rewrite (H xi), (H (xi + 1)%Z) by lia. rewrite IH by lia. reflexivity.
Qed.
Lemma backward_ext : forall rd rd' a b c k s n, (forall i, (0 <= i < n)%Z -> rd i = rd' i) -> (Z.of_nat k < n)%Z -> backward rd a b c k s = backward rd' a b c k s.
Proof.
  intros rd rd' a b c k s n H. revert s. induction k as [|k IH]; intros [[x y] z] B; [reflexivity|]. cbn [backward].
  assert (forall l v, set_first rd l (Z.of_nat (S k)) v = set_first rd' l (Z.of_nat (S k)) v) as E by (intros l v; unfold set_first, crosses, cross; now rewrite (H (Z.of_nat (S k))), (H (Z.of_nat (S k) - 1)%Z) by lia).
  rewrite !E. destruct (set_first rd' a _ x) as [x'|]; [|reflexivity]. cbn [bind]. rewrite ?E. destruct (set_first rd' b _ y) as [y'|]; [|reflexivity]. cbn [bind]. rewrite ?E. destruct (set_first rd' c _ z) as [z'|]; [|reflexivity]. cbn [bind].
  destruct (_ && _)%bool; [reflexivity|]. apply IH. lia.
Qed.
Lemma qround_le : forall x m, (x < qz m + half)%Qc -> (qround x <= m)%Z.
Proof.
  intros x m H. unfold qround. change (Qfloor (this x)) with (Calib.Model.qfloor x). destruct (Calib.Proofs.qfloor_spec x) as [A B]. set (f := Calib.Model.qfloor x) in *.
  assert (0 < half)%Qc as HP by reflexivity. assert (half + half = 1)%Qc as HH by (apply Qc_is_canon; reflexivity).
  assert (forall a b : Z, (qz a < qz b + 1)%Qc -> (a <= b)%Z) as D. { intros a b X. assert (qz a < qz (b + 1))%Qc as Y by (rewrite qz_plus; exact X). apply qz_lt in Y. lia. }
  destruct (qltb_spec (x - qz f) half) as [X|X]; [apply D; qlra|]. assert (f + 1 <= m)%Z. { assert (qz f < qz m)%Qc as Y by qlra. apply qz_lt in Y. lia. }
  destruct (qltb half _); [lia|]. destruct (Z.even f); lia.
Qed.
Lemma tail_ext : forall rd rd' base n t h r, (forall i, (0 <= i < Z.of_nat n)%Z -> rd i = rd' i) -> timing_tail rd base n t h = Ok r -> (p_t r < qn n - half)%Qc -> timing_tail rd' base n t h = Ok r.
Proof.
  intros rd rd' base n t h r E H T. unfold timing_tail in *. destruct (negb _) eqn:G; [exact H|]. apply negb_false_iff, andb_prop in G as [G0 G1]. cbv zeta in *.
  revert H. generalize (base + h / qz 2)%Qc, (base + qz 9 / qz 10 * h)%Qc, (base + h / qz 10)%Qc. intros a b c H.
  assert (p_t r = t) as PT. { destruct (forward _ _ _ _) as [x|]; cbn [bind] in H; [|discriminate]. destruct (backward _ _ _ _ _ _) as [[[y z] d]|]; cbn [bind] in H; [|discriminate]. now injection H as <-. }
  rewrite PT in T. assert (qround t <= Z.of_nat n - 1)%Z as QR. { apply qround_le. replace (qz (Z.of_nat n - 1) + half)%Qc with (qn n - half)%Qc; [exact T|]. unfold qn. rewrite qz_minus. change (qz 1) with (half + half)%Qc || replace (qz 1) with (half + half)%Qc by (apply Qc_is_canon; reflexivity). ring. }
  assert (0 <= qround t)%Z as Q0 by (apply qround_nonneg; now destruct (qleb_spec 0 t)).
  rewrite <- (forward_ext rd rd' _ _ _ (Z.of_nat n)); [|exact E|lia|lia].
  rewrite <- (backward_ext rd rd' _ _ _ _ _ (Z.of_nat n)); [exact H|exact E|lia].
Qed.
Theorem C108_no_junk : forall j1 j2 w s e r, (1 <= s)%Z -> (s < e)%Z -> (e < Z.of_nat (List.length w))%Z -> pulse_timing j1 w s e = Ok r -> (p_t r < qn (List.length w) - half)%Qc ->
  pulse_timing j2 w s e = Ok r.
Proof.
  intros j1 j2 w s e r S1 SE EN H T. rewrite pulse_timing_at in *. destruct (pyslice w (Some s) (Some e)) as [|x l] eqn:P; [discriminate|].
  assert (Z.of_nat (argmax (x :: l)) + s < e)%Z as PB. { destruct (argmax_spec (x :: l)) as (A & _); [discriminate|]. pose proof (pyslice_length _ w (Some s) (Some e)) as L. rewrite P in L. rewrite L in A. unfold slice_bound in A. destruct (Z.ltb_spec s 0); [lia|]. destruct (Z.ltb_spec e 0); lia. }
  set (p := (Z.of_nat (argmax (x :: l)) + s)%Z) in *. assert (1 <= p)%Z as P1 by (unfold p; lia). clearbody p. unfold timing_at in *.
  rewrite !(samples_in j2 j1 w) by lia. cbv zeta in *. revert H. match goal with |- (if ?c then _ else _) = _ -> _ => destruct c end; intro H; [exact H|].
  revert H T. apply tail_ext. intros i I. now apply samples_in.
Qed.
Print Assumptions C108_no_junk.

(** ** Otherwise it is read: a pixel that still rises at the end of the window, with an interpolated time in the last half sample. The value found there is
       the first sample of the next pixel. *)
Definition rising : list Qc := map qz [0; 0; 0; 0; 0; 0; 0; 0; 0; 0; 0; 0; 0; 142; 264; 0; 0; 0; 0; 0]%Z.
Definition bright : list Qc := map qz [0; 0; 0; 0; 0; 0; 0; 0; 0; 0; 9999; 0; 0; 0; 0; 0; 0; 0; 0; 0]%Z.
Theorem C108_junk_refuted : exists w, Forall (fun row => List.length row = 20%nat) w /\ extraction_time None w 20 = 10%Z /\
  exists p q l m, timing 0 None 8 4 w 20 = Ok (p :: l) /\ timing (qz 600) None 8 4 w 20 = Ok (q :: m) /\ p_t p = p_t q /\ p_rise p = None /\ (exists v, p_rise q = Some v).
Proof.
  exists [rising; bright]. split; [repeat constructor|]. split; [vm_compute; reflexivity|].
  do 4 eexists. split; [vm_compute; reflexivity|]. split; [vm_compute; reflexivity|]. split; [reflexivity|]. split; [reflexivity|]. eexists. reflexivity.
Qed.
Print Assumptions C108_junk_refuted.

(** ** Examples: 11 samples with a pulse at sample 10 give charge 0 and no timing; with the pulse at sample 8 the charge is found. *)
Definition short_row (p : nat) : list Qc := map (fun j => if Nat.eqb j p then qz 7 else 0%Qc) (seq 0 11).
Example C108_ex : charge_averagewf None 6 3 [short_row 10] 11 = [0%Qc] /\ charge_averagewf None 6 3 [short_row 8] 11 = [qz 7] /\ timing 0 None 8 4 [short_row 10] 11 = Raise ValueError /\
  (exists r, timing 0 None 8 4 [short_row 8] 11 = Ok [r] /\ p_t r = qz 8).
Proof.
  repeat split; try (vm_compute; reflexivity); try (vm_compute; f_equal; apply Qc_is_canon; reflexivity).
  eexists. split; [vm_compute; reflexivity|]. apply Qc_is_canon. reflexivity.
Qed.
