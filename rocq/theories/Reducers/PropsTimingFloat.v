(** Property C103: pulse timing in double precision. *)
From Coq Require Import List ZArith QArith Qcanon Qround Bool Arith Lia.
From Verif.Base Require Import Py PyFacts Num Lst Fl.
From Verif.WfUtils Require Import Model Proofs.
From Verif.Reducers Require Import Model Proofs Proofs3 ModelTimingFloat ProofsTimingFloat ProofsTimingFloat3.
Import ListNotations.
Local Open Scope list_scope.
Local Open Scope Qc_scope.

(** Without rounding the function is that of C59. *)
Theorem C103_exact : forall junk w s e, f_timing (fun x => x) junk w s e = pulse_timing junk w s e.
Proof. exact exact_timing. Qed.
Print Assumptions C103_exact.

(** Whatever the waveform, a width is never negative. *)
Theorem C103_fwhm : forall junk w s e r f, f_timing fl64 junk w s e = Ok r -> p_fwhm r = Some f -> 0 <= f.
Proof.
  intros junk w s e r f E W. rewrite timing64_at in E. destruct (pyslice w (Some s) (Some e)) as [|x l]; [discriminate|].
  destruct (at64_cases _ _ _ _ E) as [->|[_ T]]; [injection W as <-; apply Qcle_refl|]. exact (tail64_fwhm _ _ _ _ _ _ _ T W).
Qed.
Print Assumptions C103_fwhm.

(** Every position reported lies in the readout. *)
Theorem C103_range : forall junk w s e r, (Z.of_nat (List.length w) < 2 ^ 53)%Z -> f_timing fl64 junk w s e = Ok r ->
  r = no_pulse \/ (0 <= p_t r /\ p_t r < qn (List.length w) /\ forall x, In x [p_l r; p_r r; p_10 r; p_90 r] -> 0 <= x /\ x <= qn (List.length w)).
Proof.
  intros junk w s e r N E. rewrite timing64_at in E. destruct (pyslice w (Some s) (Some e)) as [|y l]; [discriminate|].
  destruct (at64_cases _ _ _ _ E) as [->|[_ T]]; [now left|]. destruct (tail64_cases _ _ _ _ _ _ T) as [->|(T0 & T1 & -> & _)]; [now left|]. right. split; auto. split; auto.
  destruct (tail64_range _ _ _ _ _ _ N T) as (A & B & C & D). intros x [<-|[<-|[<-|[<-|[]]]]]; auto.
Qed.
Print Assumptions C103_range.

(** A rise time is not negative when the pulse is not below the baseline and the sample nearest to its time reaches the level of 90 percent as computed. *)
Theorem C103_rise : forall junk w s e r v, f_timing fl64 junk w s e = Ok r -> p_rise r = Some v -> 0 <= p_h r ->
  fl64 (base64 w + fl64 (fl64 (qz 9 / qz 10) * p_h r)) <= samples junk w (qround (p_t r)) -> 0 <= v.
Proof.
  intros junk w s e r v E W H L. rewrite timing64_at in E. destruct (pyslice w (Some s) (Some e)) as [|x l]; [discriminate|].
  destruct (at64_cases _ _ _ _ E) as [->|[_ T]]; [injection W as <-; apply Qcle_refl|]. exact (tail64_rise _ _ _ _ _ _ _ T W H L).
Qed.
Print Assumptions C103_rise.

(** The search window lies inside the readout, from the fifth sample on; the samples are doubles that are zero or not tiny ([usual]).
    The peak is the first largest sample [p] of the window.  If the sample after it is smaller, the time is within half a sample of [p], on the side
    of the larger neighbour, and the height is at least that of the sample itself above the baseline as computed. *)
Lemma peak64 : forall junk w s e, (1 <= s)%Z -> (s < e)%Z -> (e < Z.of_nat (List.length w))%Z ->
  exists p, (Z.to_nat s <= p < Z.to_nat e)%nat /\ (forall j, (Z.to_nat s <= j < Z.to_nat e)%nat -> nth j w 0 <= nth p w 0) /\ (forall j, (Z.to_nat s <= j < p)%nat -> nth j w 0 < nth p w 0) /\
  f_timing fl64 junk w s e = at64 junk w (Z.of_nat p) /\ pulse_timing junk w s e = timing_at junk w (Z.of_nat p).
Proof.
  intros junk w s e A B C. destruct (pyslice_argmax w s e) as (NE & P & Q & R); try lia. cbv zeta in P, Q, R.
  exists (argmax (pyslice w (Some s) (Some e)) + Z.to_nat s)%nat. repeat split; auto; try tauto.
  - rewrite timing64_at. destruct (pyslice w (Some s) (Some e)) as [|x win]; [congruence|]. apply (f_equal (at64 junk w)). lia.
  - rewrite pulse_timing_at. destruct (pyslice w (Some s) (Some e)) as [|x win]; [congruence|]. apply (f_equal (timing_at junk w)). lia.
Qed.
Lemma samples_nth : forall junk w i, (i < List.length w)%nat -> samples junk w (Z.of_nat i) = nth i w 0.
Proof. intros junk w i I. unfold samples. rewrite read_in by lia. now rewrite Nat2Z.id. Qed.
Lemma at64_nth : forall junk w p, (1 <= p)%nat -> (S p < List.length w)%nat -> let y0 := nth (p - 1) w 0 in let y1 := nth p w 0 in let y2 := nth (p + 1) w 0 in
  at64 junk w (Z.of_nat p) = if qeqb (f_b fl64 y0 y1 y2) 0 then Ok no_pulse
    else tail64 (samples junk w) (base64 w) (List.length w) (fl64 (f_t fl64 y0 y1 y2 + qz (Z.of_nat p))) (fl64 (f_h fl64 y0 y1 y2 - base64 w)).
Proof.
  intros junk w p P L. cbv zeta. unfold at64. cbv zeta. replace (Z.of_nat p - 1)%Z with (Z.of_nat (p - 1)) by lia. replace (Z.of_nat p + 1)%Z with (Z.of_nat (p + 1)) by lia.
  rewrite !samples_nth by lia. reflexivity.
Qed.
Lemma usual_nth : forall w i, Forall usual w -> usual (nth i w 0).
Proof. intros w i U. destruct (le_lt_dec (List.length w) i) as [L|L]; [rewrite nth_overflow by auto; split; [reflexivity|now left]|]. rewrite Forall_forall in U. apply U. now apply nth_In. Qed.

Theorem C103_peak : forall junk w s e, (4 <= s)%Z -> (s < e)%Z -> (e < Z.of_nat (List.length w))%Z -> (Z.of_nat (List.length w) < 2 ^ 51)%Z -> Forall usual w ->
  exists p, (Z.to_nat s <= p < Z.to_nat e)%nat /\ (forall j, (Z.to_nat s <= j < Z.to_nat e)%nat -> nth j w 0 <= nth p w 0) /\ (forall j, (Z.to_nat s <= j < p)%nat -> nth j w 0 < nth p w 0) /\
  let y0 := nth (p - 1) w 0 in let y1 := nth p w 0 in let y2 := nth (p + 1) w 0 in
  (y0 <= y1 -> y2 < y1 -> forall r, f_timing fl64 junk w s e = Ok r ->
   qn p - half <= p_t r /\ p_t r <= qn p + half /\ (y2 <= y0 -> p_t r <= qn p) /\ (y0 <= y2 -> qn p <= p_t r) /\ fl64 (y1 - base64 w) <= p_h r).
Proof.
  intros junk w s e A B C D U. destruct (peak64 junk w s e) as (p & P & Q & V & E & _); try lia. exists p. split; auto. split; auto. split; auto.
  cbv zeta. intros L0 L2 r. rewrite E, at64_nth by lia. cbv zeta. pose proof (usual_nth w (p - 1) U) as U0. pose proof (usual_nth w p U) as U1. pose proof (usual_nth w (p + 1) U) as U2.
  set (y0 := nth (p - 1) w 0) in *. set (y1 := nth p w 0) in *. set (y2 := nth (p + 1) w 0) in *. clearbody y0 y1 y2.
  pose proof (curved y0 y1 y2 U0 U1 U2 L0 L2) as N. destruct (half_sample y0 y1 y2 U0 U1 U2 L0 (Z.of_nat p) ltac:(lia) L2) as (H1 & H2 & H3 & H4). pose proof (high y0 y1 y2 U0 U1 U2 L0 (base64 w) L2) as H5.
  change (qz (Z.of_nat p)) with (qn p) in *. revert N H1 H2 H3 H4 H5. generalize (f_b fl64 y0 y1 y2) (fl64 (f_t fl64 y0 y1 y2 + qn p)) (fl64 (f_h fl64 y0 y1 y2 - base64 w)). intros b t h N H1 H2 H3 H4 H5.
  destruct (qeqb_spec b 0) as [|_]; [contradiction|]. intros T. destruct (tail64_cases _ _ _ _ _ _ T) as [->|(_ & _ & -> & -> & _)]; [|auto].
  exfalso. unfold tail64 in T. cbv zeta in T. pose proof half2. pose proof half_pos. assert (1 <= qn p) by (apply (proj1 (qz_le 1 _)); lia). assert (qn p + 1 < qn (List.length w)) by (rewrite <- qn_S; apply (proj1 (qz_lt _ _)); lia).
  destruct (qleb_spec 0 t) as [X|X]; [|apply X; qlra]. destruct (qltb_spec t (qn (List.length w))) as [Y|Y]; [|apply Y; qlra]. cbn [andb negb] in T.
  destruct (f_forward _ _ _ _ _); cbn [bind] in T; [|discriminate]. destruct (f_backward _ _ _ _ _ _ _) as [[[fl r90] r10]|]; cbn [bind] in T; [|discriminate].
  injection T as T1 _. unfold no_pulse in T1. cbn in T1. subst t. qlra.
Qed.
Print Assumptions C103_peak.

(** It returns (no division by zero) when moreover the height is not negative and the 90 percent level as computed lies below the sample nearest to the time. *)
Theorem C103_returns : forall junk w s e, (1 <= s)%Z -> (s < e)%Z -> (e < Z.of_nat (List.length w))%Z -> fl64 junk = junk -> Forall (fun x => fl64 x = x) w ->
  exists p, (Z.to_nat s <= p < Z.to_nat e)%nat /\ (forall j, (Z.to_nat s <= j < Z.to_nat e)%nat -> nth j w 0 <= nth p w 0) /\ (forall j, (Z.to_nat s <= j < p)%nat -> nth j w 0 < nth p w 0) /\
  let y0 := nth (p - 1) w 0 in let y1 := nth p w 0 in let y2 := nth (p + 1) w 0 in
  let t := fl64 (f_t fl64 y0 y1 y2 + qn p) in let h := fl64 (f_h fl64 y0 y1 y2 - base64 w) in
  (0 <= h -> fl64 (base64 w + fl64 (fl64 (qz 9 / qz 10) * h)) < samples junk w (qround t) -> exists r, f_timing fl64 junk w s e = Ok r).
Proof.
  intros junk w s e A B C J U. destruct (peak64 junk w s e) as (p & P & Q & V & E & _); try lia. exists p. split; auto. split; auto. split; auto.
  cbv zeta. rewrite E, at64_nth by lia. cbv zeta. change (qz (Z.of_nat p)) with (qn p).
  set (y0 := nth (p - 1) w 0) in *. set (y1 := nth p w 0) in *. set (y2 := nth (p + 1) w 0) in *. clearbody y0 y1 y2. generalize (f_b fl64 y0 y1 y2) (fl64 (f_t fl64 y0 y1 y2 + qn p)) (fl64 (f_h fl64 y0 y1 y2 - base64 w)). intros b t h H L.
  destruct (qeqb b 0); [eauto|]. apply tail64_ok; auto. intros i j. apply fl64_sub0; now apply samples_double.
Qed.
Print Assumptions C103_returns.

(** Distance of the time to the vertex of the parabola through the three samples: in double precision the error is a few units in the last place of the
    samples' size, divided by the curvature, plus that of the final sum. *)
Theorem C103_error : forall junk w s e, (4 <= s)%Z -> (s < e)%Z -> (e < Z.of_nat (List.length w))%Z -> (Z.of_nat (List.length w) < 2 ^ 51)%Z -> Forall usual w ->
  exists p, (Z.to_nat s <= p < Z.to_nat e)%nat /\ (forall j, (Z.to_nat s <= j < Z.to_nat e)%nat -> nth j w 0 <= nth p w 0) /\ (forall j, (Z.to_nat s <= j < p)%nat -> nth j w 0 < nth p w 0) /\
  let y0 := nth (p - 1) w 0 in let y1 := nth p w 0 in let y2 := nth (p + 1) w 0 in let b := y0 - qz 2 * y1 + y2 in
  forall M r v, y0 <= y1 -> y2 < y1 -> 0 < M -> (forall y, In y [y0; y1; y2] -> - M <= y /\ y <= M) -> two (-48) * M <= - b -> vertex (qn p) y0 y1 y2 v ->
    f_timing fl64 junk w s e = Ok r -> let d := two (-49) * (M / - b) + two (-52) * qn p in v - d <= p_t r /\ p_t r <= v + d.
Proof.
  intros junk w s e A B C D U. destruct (peak64 junk w s e) as (p & P & Q & V & E & _); try lia. exists p. split; auto. split; auto. split; auto.
  cbv zeta. intros M r v L0 L2 MP MB KB VX. rewrite E, at64_nth by lia. cbv zeta. pose proof (usual_nth w (p - 1) U) as U0. pose proof (usual_nth w p U) as U1. pose proof (usual_nth w (p + 1) U) as U2.
  set (y0 := nth (p - 1) w 0) in *. set (y1 := nth p w 0) in *. set (y2 := nth (p + 1) w 0) in *. clearbody y0 y1 y2.
  destruct (MB y0) as [M0 M0']; [now left|]. destruct (MB y1) as [M1 M1']; [now right; left|]. destruct (MB y2) as [M2 M2']; [now right; right; left|].
  pose proof (curved y0 y1 y2 U0 U1 U2 L0 L2) as N. pose proof (near y0 y1 y2 U0 U1 U2 L0 (Z.of_nat p) M ltac:(lia) L2 MP M0 M0' M1 M1' M2 M2') as X. cbv zeta in X. specialize (X KB).
  destruct (half_sample y0 y1 y2 U0 U1 U2 L0 (Z.of_nat p) ltac:(lia) L2) as (H1 & H2 & _).
  pose proof (vertex_eq _ _ _ _ _ VX) as EV.
  change (qz (Z.of_nat p)) with (qn p) in *. rewrite EV. revert N X H1 H2. generalize (f_b fl64 y0 y1 y2) (fl64 (f_t fl64 y0 y1 y2 + qn p)) (fl64 (f_h fl64 y0 y1 y2 - base64 w)). intros b t h N X H1 H2.
  destruct (qeqb_spec b 0) as [|_]; [contradiction|]. intros T. destruct (tail64_cases _ _ _ _ _ _ T) as [->|(_ & _ & -> & _)]; [|exact X].
  exfalso. unfold tail64 in T. cbv zeta in T. pose proof half2. pose proof half_pos. assert (1 <= qn p) by (apply (proj1 (qz_le 1 _)); lia). assert (qn p + 1 < qn (List.length w)) by (rewrite <- qn_S; apply (proj1 (qz_lt _ _)); lia).
  destruct (qleb_spec 0 t) as [X1|X1]; [|apply X1; qlra]. destruct (qltb_spec t (qn (List.length w))) as [Y|Y]; [|apply Y; qlra]. cbn [andb negb] in T.
  destruct (f_forward _ _ _ _ _); cbn [bind] in T; [|discriminate]. destruct (f_backward _ _ _ _ _ _ _) as [[[fl r90] r10]|]; cbn [bind] in T; [|discriminate].
  injection T as T1 _. unfold no_pulse in T1. cbn in T1. subst t. qlra.
Qed.
Print Assumptions C103_error.

(** Refuted for a flat top: at every scale there are peaks of two equal samples, the one before just below them, whose timing is lost
    (all results zero) in double precision, where the function without rounding gives the middle of the two samples. *)
Theorem C103_flat_refuted : forall junk w s e k, (1 <= s)%Z -> (s < e)%Z -> (e < Z.of_nat (List.length w))%Z -> (-900 <= k)%Z ->
  exists p, (Z.to_nat s <= p < Z.to_nat e)%nat /\ (forall j, (Z.to_nat s <= j < Z.to_nat e)%nat -> nth j w 0 <= nth p w 0) /\ (forall j, (Z.to_nat s <= j < p)%nat -> nth j w 0 < nth p w 0) /\
  (nth (p - 1) w 0 = two k - two (k - 53) -> nth p w 0 = two k -> nth (p + 1) w 0 = two k ->
    f_timing fl64 junk w s e = Ok no_pulse /\ (forall r, pulse_timing junk w s e = Ok r -> p_t r = qn p + half)).
Proof.
  intros junk w s e k A B C K. destruct (peak64 junk w s e) as (p & P & Q & V & E & E'); try lia. exists p. split; auto. split; auto. split; auto.
  intros E0 E1 E2. split.
  - rewrite E, at64_nth by lia. cbv zeta. rewrite E0, E1, E2, top by lia. reflexivity.
  - intros r. rewrite E'. unfold timing_at. cbv zeta. replace (Z.of_nat p - 1)%Z with (Z.of_nat (p - 1)) by lia. replace (Z.of_nat p + 1)%Z with (Z.of_nat (p + 1)) by lia.
    rewrite !samples_nth by lia. rewrite E0, E1, E2. set (d := two (k - 53)). assert (0 < d) as D by apply two_pos. replace (two k - d - qz 2 * two k + two k) with (- d) by (replace (qz 2) with (1 + 1) by (apply Qc_is_canon; reflexivity); ring).
    destruct (qeqb_spec (- d) 0) as [Z|_]; [exfalso; qlra|]. replace (two k - d - two k) with (- d) by ring. replace (half * - d / - d) with half by (field; apply qopp_nz; intro Z; rewrite Z in D; discriminate D).
    change (qz (Z.of_nat p)) with (qn p). unfold timing_tail. cbv zeta. pose proof half2. pose proof half_pos. assert (1 <= qn p) by (apply (proj1 (qz_le 1 _)); lia). assert (qn p + 1 < qn (List.length w)) by (rewrite <- qn_S; apply (proj1 (qz_lt _ _)); lia).
    destruct (qleb_spec 0 (half + qn p)) as [X|X]; [|exfalso; apply X; qlra]. destruct (qltb_spec (half + qn p) (qn (List.length w))) as [Y|Y]; [|exfalso; apply Y; qlra]. cbn [andb negb].
    destruct (forward _ _ _ _) as [fr|]; cbn [bind]; [|discriminate]. destruct (backward _ _ _ _ _ _) as [[[fl r90] r10]|]; cbn [bind]; [|discriminate]. intros T. injection T as <-. cbn [p_t]. ring.
Qed.
Print Assumptions C103_flat_refuted.

Definition show (r : res pulse) : option (Q * Q * option Q * option Q) :=
  match r with Ok r => Some (this (p_t r), this (p_h r), option_map this (p_fwhm r), option_map this (p_rise r)) | Raise _ => None end.
Definition wf0 : list Qc := map qz [0; 0; 0; 0; 0; 0; 0; 0; 0; 0; 0; 2; 8; 16; 10; 4; 0; 0; 0; 0]%Z.
(** C59's example: 183/14, 449/28, 149/64 and 897/448 up to rounding. *)
Example C103_ex : match show (f_timing fl64 0 wf0 9 17), show (pulse_timing 0 wf0 9 17) with
  | Some (t, h, Some f, Some r), Some (t', h', Some f', Some r') =>
      Forall (fun ab => (fst ab == snd ab)%Q) [(f, f')] /\ Forall (fun ab => ~ (fst ab == snd ab)%Q /\ (fst ab - snd ab <= 1 # 10 ^ 14)%Q /\ (snd ab - fst ab <= 1 # 10 ^ 14)%Q) [(t, t'); (h, h'); (r, r')]
  | _, _ => False end.
Proof. vm_compute. repeat (first [split|constructor]); try reflexivity; try discriminate; intros H; discriminate H. Qed.
Definition flat : list Qc := map qz [0; 0; 0; 0; 0; 0; 0; 0; 0; 0; 0]%Z ++ [two 9; two 10 - two (-43); two 10; two 10; two 9] ++ map qz [0; 0; 0; 0]%Z.
Example C103_ex_flat : f_timing fl64 0 flat 9 17 = Ok no_pulse /\ option_map (fun x => fst (fst (fst x))) (show (pulse_timing 0 flat 9 17)) = Some (27 # 2)%Q /\
  option_map (fun x => fst (fst (fst x))) (show (f_timing fl64 0 (rev flat) 3 11)) = Some (11 # 2)%Q.
Proof. split; [vm_compute; reflexivity|]. split; vm_compute; reflexivity. Qed.
Lemma usual_check : forall w, forallb (fun x => qeqb (fl64 x) x && (qeqb x 0 || qleb (two (-900)) x || qleb x (- two (-900)))) w = true -> Forall usual w.
Proof.
  intros w H. apply Forall_forall. intros x I. rewrite forallb_forall in H. specialize (H x I). apply andb_prop in H as [A B]. split; [destruct (qeqb_spec (fl64 x) x); [assumption|discriminate]|].
  destruct (qeqb_spec x 0) as [Z|_]; [now left|right]. destruct (qleb_spec (two (-900)) x) as [L|_]; [now left|right]. destruct (qleb_spec x (- two (-900))) as [L|_]; [assumption|discriminate].
Qed.
Example C103_ex_usual : Forall usual flat /\ Forall usual wf0.
Proof. split; apply usual_check; vm_compute; reflexivity. Qed.
