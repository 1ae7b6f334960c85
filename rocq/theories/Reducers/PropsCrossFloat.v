(** Property C105: times of the cross correlation in double precision. *)
From Coq Require Import List ZArith QArith Qcanon Qround Bool Arith Lia.
From Verif.Base Require Import Py PyFacts Num Lst Fl FlFacts.
From Verif.WfUtils Require Import Model Proofs.
From Verif.Reducers Require Import Model Proofs Proofs3 ModelTimingFloat ProofsTimingFloat ProofsTimingFloat3 ModelCrossFloat.
Import ListNotations.
Local Open Scope list_scope.
Local Open Scope Qc_scope.

(** Without rounding it is the function of C54. *)
Theorem C105_exact : forall w junk p, f_pulse_time (fun x => x) w junk p = extract_pulse_time w junk p.
Proof.
  intros w junk p. unfold f_pulse_time, extract_pulse_time. destruct (read w junk (p - 1)), (read w junk p), (read w junk (p + 1)); reflexivity.
Qed.
Print Assumptions C105_exact.

(** Every time lies in the readout, whatever is read past its end. *)
Theorem C105_range : forall w junk p, (0 <= p < Z.of_nat (List.length w))%Z -> 0 <= f_pulse_time fl64 w junk p /\ f_pulse_time fl64 w junk p < qn (List.length w).
Proof.
  intros w junk p P. assert (0 <= qz p /\ qz p < qn (List.length w)) as D by (split; [apply (proj1 (qz_le 0 _)); lia|apply (proj1 (qz_lt _ _)); lia]).
  unfold f_pulse_time. destruct (read w junk (p - 1)) as [y0|]; [|exact D]. destruct (read w junk p) as [y1|]; [|exact D]. destruct (read w junk (p + 1)) as [y2|]; [|exact D].
  generalize (f_b fl64 y0 y1 y2) (fl64 (f_t fl64 y0 y1 y2 + qz p)). intros b t. destruct (qeqb b 0); [exact D|]. destruct (qleb_spec 0 t) as [A|A]; [|exact D]. destruct (qltb_spec t (qn (List.length w))) as [B|B]; [|exact D]. cbn [andb negb]. auto.
Qed.
Print Assumptions C105_range.

(** ** A sample that is larger than its successor and not smaller than its predecessor *)
Lemma inside : forall w junk p, (1 <= p)%nat -> (S p < List.length w)%nat -> let y0 := nth (p - 1) w 0 in let y1 := nth p w 0 in let y2 := nth (p + 1) w 0 in
  f_pulse_time fl64 w junk (Z.of_nat p) = if qeqb (f_b fl64 y0 y1 y2) 0 then qn p
    else let t := fl64 (f_t fl64 y0 y1 y2 + qn p) in if negb (qleb 0 t && qltb t (qn (List.length w))) then qn p else t.
Proof.
  intros w junk p P L. cbv zeta. unfold f_pulse_time. replace (Z.of_nat p - 1)%Z with (Z.of_nat (p - 1)) by lia. replace (Z.of_nat p + 1)%Z with (Z.of_nat (p + 1)) by lia.
  rewrite !read_in by lia. rewrite !Nat2Z.id. reflexivity.
Qed.
Lemma usual_nth : forall w i, Forall usual w -> usual (nth i w 0).
Proof. intros w i U. destruct (le_lt_dec (List.length w) i) as [L|L]; [rewrite nth_overflow by auto; split; [reflexivity|now left]|]. rewrite Forall_forall in U. apply U. now apply nth_In. Qed.
Lemma timed : forall w junk p, (4 <= p)%nat -> (S p < List.length w)%nat -> (Z.of_nat (List.length w) < 2 ^ 51)%Z -> Forall usual w ->
  let y0 := nth (p - 1) w 0 in let y1 := nth p w 0 in let y2 := nth (p + 1) w 0 in y0 <= y1 -> y2 < y1 ->
  f_pulse_time fl64 w junk (Z.of_nat p) = fl64 (f_t fl64 y0 y1 y2 + qn p).
Proof.
  intros w junk p P L B U y0 y1 y2 L0 L2. rewrite inside by lia. fold y0 y1 y2. pose proof (usual_nth w (p - 1) U) as U0. pose proof (usual_nth w p U) as U1. pose proof (usual_nth w (p + 1) U) as U2. fold y0 in U0. fold y1 in U1. fold y2 in U2.
  clearbody y0 y1 y2. pose proof (curved y0 y1 y2 U0 U1 U2 L0 L2) as N. destruct (half_sample y0 y1 y2 U0 U1 U2 L0 (Z.of_nat p) ltac:(lia) L2) as (H1 & H2 & _). change (qz (Z.of_nat p)) with (qn p) in *.
  revert N H1 H2. generalize (f_b fl64 y0 y1 y2) (fl64 (f_t fl64 y0 y1 y2 + qn p)). intros b t N H1 H2. destruct (qeqb_spec b 0) as [|_]; [contradiction|]. cbv zeta.
  pose proof half2. pose proof half_pos. assert (1 <= qn p) by (apply (proj1 (qz_le 1 _)); lia). assert (qn p + 1 < qn (List.length w)) by (rewrite <- qn_S; apply (proj1 (qz_lt _ _)); lia).
  destruct (qleb_spec 0 t) as [X|X]; [|exfalso; apply X; qlra]. destruct (qltb_spec t (qn (List.length w))) as [Y|Y]; [reflexivity|exfalso; apply Y; qlra].
Qed.
Theorem C105_peak : forall w junk p, (4 <= p)%nat -> (S p < List.length w)%nat -> (Z.of_nat (List.length w) < 2 ^ 51)%Z -> Forall usual w ->
  let y0 := nth (p - 1) w 0 in let y1 := nth p w 0 in let y2 := nth (p + 1) w 0 in y0 <= y1 -> y2 < y1 ->
  let t := f_pulse_time fl64 w junk (Z.of_nat p) in
  qn p - half <= t /\ t <= qn p + half /\ (y2 <= y0 -> t <= qn p) /\ (y0 <= y2 -> qn p <= t).
Proof.
  intros w junk p P L B U y0 y1 y2 L0 L2 t. unfold t. rewrite (timed w junk p) by auto. fold y0 y1 y2.
  exact (half_sample y0 y1 y2 (usual_nth w (p - 1) U) (usual_nth w p U) (usual_nth w (p + 1) U) L0 (Z.of_nat p) ltac:(lia) L2).
Qed.
Print Assumptions C105_peak.
(** Distance to the vertex of the parabola through the three samples *)
Theorem C105_error : forall w junk p, (4 <= p)%nat -> (S p < List.length w)%nat -> (Z.of_nat (List.length w) < 2 ^ 51)%Z -> Forall usual w ->
  let y0 := nth (p - 1) w 0 in let y1 := nth p w 0 in let y2 := nth (p + 1) w 0 in let b := y0 - qz 2 * y1 + y2 in
  forall M v, y0 <= y1 -> y2 < y1 -> 0 < M -> (forall y, In y [y0; y1; y2] -> - M <= y /\ y <= M) -> two (-48) * M <= - b -> vertex (qn p) y0 y1 y2 v ->
  let t := f_pulse_time fl64 w junk (Z.of_nat p) in let d := two (-49) * (M / - b) + two (-52) * qn p in v - d <= t /\ t <= v + d.
Proof.
  intros w junk p P L B U y0 y1 y2 b M v L0 L2 MP MB KB VX t. unfold t. rewrite (timed w junk p) by auto. fold y0 y1 y2. rewrite (vertex_eq _ _ _ _ _ VX).
  destruct (MB y0) as [M0 M0']; [now left|]. destruct (MB y1) as [M1 M1']; [now right; left|]. destruct (MB y2) as [M2 M2']; [now right; right; left|].
  exact (near y0 y1 y2 (usual_nth w (p - 1) U) (usual_nth w p U) (usual_nth w (p + 1) U) L0 (Z.of_nat p) M ltac:(lia) L2 MP M0 M0' M1 M1' M2 M2' KB).
Qed.
Print Assumptions C105_error.
(** The maximum of each pixel: its time is within half a sample of the first largest sample, unless that is followed by an equal one. *)
Theorem C105_local : forall junk cc i row, nth_error cc i = Some row -> Forall usual row -> (Z.of_nat (List.length row) < 2 ^ 51)%Z ->
  exists t, nth_error (f_t_cc_local fl64 junk cc) i = Some t /\
  forall p, (4 <= p)%nat -> (S p < List.length row)%nat -> (forall j, (j < List.length row)%nat -> nth j row 0 <= nth p row 0) -> (forall j, (j < p)%nat -> nth j row 0 < nth p row 0) -> nth (p + 1) row 0 < nth p row 0 ->
    qn p - half <= t /\ t <= qn p + half.
Proof.
  intros junk cc i row E U B. exists (f_pulse_time fl64 row junk (Z.of_nat (argmax row))). split; [unfold f_t_cc_local; now rewrite nth_error_map, E|].
  intros p P L MX FI NX. assert (argmax row = p) as ->.
  { destruct (argmax_spec row) as (A1 & A2 & A3); [intro X; apply (f_equal (@List.length Qc)) in X; change (List.length row = 0%nat) in X; lia|]. destruct (Nat.lt_trichotomy (argmax row) p) as [K|[K|K]]; auto.
    - specialize (FI _ K). specialize (A2 p ltac:(lia)). exfalso. apply Qclt_not_le in FI. now apply FI.
    - specialize (A3 _ K). specialize (MX (argmax row) A1). exfalso. apply Qclt_not_le in A3. now apply A3. }
  destruct (C105_peak row junk p P L B U) as (H1 & H2 & _); auto. apply MX. lia.
Qed.
Print Assumptions C105_local.
(** CrossCorrelation: every pixel is timed at the same index, whatever its own maximum: within half a sample of it if the correlation of the pixel has a peak there. *)
Theorem C105_common : forall junk cc p i row, nth_error cc i = Some row -> Forall usual row -> (Z.of_nat (List.length row) < 2 ^ 51)%Z -> (4 <= p)%nat -> (S p < List.length row)%nat ->
  exists t, nth_error (f_t_cc fl64 junk cc (Z.of_nat p)) i = Some t /\ 0 <= t /\ t < qn (List.length row) /\
  (nth (p - 1) row 0 <= nth p row 0 -> nth (p + 1) row 0 < nth p row 0 -> qn p - half <= t /\ t <= qn p + half).
Proof.
  intros junk cc p i row E U B P L. exists (f_pulse_time fl64 row junk (Z.of_nat p)). split; [unfold f_t_cc; now rewrite nth_error_map, E|]. destruct (C105_range row junk (Z.of_nat p) ltac:(lia)) as [R1 R2]. split; [exact R1|]. split; [exact R2|].
  intros L0 L2. destruct (C105_peak row junk p P L B U L0 L2) as (A & C & _). now split.
Qed.
Print Assumptions C105_common.

(** ** Flat tops: the vertex is lost and the time is that of the first of the two equal samples, half a sample away from the vertex of C54, at every scale. *)
Theorem C105_flat_refuted : forall w junk p k, (1 <= p)%nat -> (S p < List.length w)%nat -> (-900 <= k)%Z ->
  nth (p - 1) w 0 = two k - two (k - 53) -> nth p w 0 = two k -> nth (p + 1) w 0 = two k ->
  f_pulse_time fl64 w junk (Z.of_nat p) = qn p /\ vertex (qn p) (nth (p - 1) w 0) (nth p w 0) (nth (p + 1) w 0) (qn p + half).
Proof.
  intros w junk p k P L K E0 E1 E2. split; [rewrite inside by lia; cbv zeta; now rewrite E0, E1, E2, top|]. rewrite E0, E1, E2. set (d := two (k - 53)). assert (0 < d) as D by apply two_pos.
  assert (two k - d - qz 2 * two k + two k = - d) as EB by (replace (qz 2) with (1 + 1) by (apply Qc_is_canon; reflexivity); ring).
  assert (- d <> 0) as N by (apply qopp_nz; intro Z; rewrite Z in D; discriminate D).
  pose proof (vertex_formula (qn p) (two k - d) (two k) (two k)) as V. rewrite EB in V. specialize (V N). replace (qn p + half) with (half * (two k - d - two k) / - d + qn p); [exact V|]. replace (two k - d - two k) with (- d) by ring. field. exact N.
Qed.
Print Assumptions C105_flat_refuted.
(** A common index may be no maximum of a pixel (first pixel: maximum 2, time 1/2); for the local maxima: a usual pulse, a maximum at the first sample and a maximum at the last one, with 7 read past the end. *)
Example C105_ex : map this (f_t_cc fl64 None [map qz [0; 1; 5; 3; 0; 0]%Z; map qz [0; 3; 2; 4; 1; 1]%Z; map qz [0; 10; 23; 37; 51; 60]%Z] 3) = [1 # 2; 6530219459687219 # 2251799813685248; 3]%Q /\
  map this (f_t_cc_local fl64 (Some (qz 7)) [map qz [0; 1; 5; 3; 0]%Z; map qz [9; 1; 5; 3; 7]%Z; map qz [1; 1; 5; 3; 6]%Z]) = [4878899596318037 # 2251799813685248; 0; 4]%Q.
Proof. vm_compute. split; reflexivity. Qed.
