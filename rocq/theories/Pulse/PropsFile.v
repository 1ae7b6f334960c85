(** Property C102: the reference pulse extracted from an R1 file, the text file it is kept in, and the pulse that is loaded
    from that file. *)
From Coq Require Import List ZArith NArith QArith Qcanon Bool Arith Reals String Ascii Lia Psatz.
From Flocq Require Import Core BinarySingleNaN.
From Verif.Base Require Import Py PyFacts Lst Num Fl FlFacts Str F64.
From Verif.Files Require Import Model.
From Verif.WfUtils Require Import Model Proofs.
From Verif.Fitter Require Model.
From Verif.Pulse Require Import Model Props.
From Verif.Pulse Require Import ModelFile ProofsFile ProofsFile2 ProofsFile3 ProofsFile4.
From Coq Require Import Lra.
Import ListNotations.
Local Open Scope list_scope.
Local Open Scope R_scope.

(** Every number is written with six significant digits, as Python does it: correctly rounded, ties to even.  Read back it is
    the double next to the decimal number [v] in the text, which is at most five millionths off, and no other number with six
    digits is nearer. *)
Theorem C102_number : forall q, exists v, py_float (fmt5e q) = Ok (fl64 v) /\
  q2r v = round radix10 (FLX_exp 6) ZnearestE (q2r q) /\
  (exists m e, (Z.abs m < 1000000)%Z /\ q2r v = IZR m * bpow radix10 e) /\
  (forall m e, (Z.abs m < 1000000)%Z -> Rabs (q2r v - q2r q) <= Rabs (IZR m * bpow radix10 e - q2r q)) /\
  Rabs (q2r v - q2r q) <= 5 / 1000000 * Rabs (q2r q).
Proof.
  intros q. exists (decimal q). split; [apply read_number|]. split; [apply decimal_round|]. split.
  - unfold decimal. pose proof (sci_any q) as H. destruct (sci q) as [[neg m] e]. exists (if neg then - m else m)%Z, (e - 5)%Z. split; [destruct neg; lia|]. now rewrite q2r_mult, q2r_qz, q2r_ten.
  - rewrite decimal_round. split; [intros m e M; exact (dround_nearest _ m e M)|apply dround_error].
Qed.
Print Assumptions C102_number.
(** The form of the text: a minus sign or nothing, one digit, a point, five digits, e, the sign of the exponent and its digits,
    two at least. The first digit is not 0, except for the number 0. *)
Definition two_or_more (t : text) : Prop := (2 <= List.length t)%nat /\ forallb is_d t = true.
Theorem C102_form : forall q, exists sign d0 ds s ex, fmt5e q = sign ++ [d0; "."%char] ++ ds ++ ["e"%char; s] ++ ex /\
  sign = (if qltb q 0 then ["-"%char] else []) /\ is_d d0 = true /\ (d0 = "0"%char <-> q = 0%Qc) /\ List.length ds = 5%nat /\ forallb is_d ds = true /\
  In s ["+"; "-"]%char /\ two_or_more ex.
Proof.
  intros q. unfold fmt5e.
  assert (SG : let '(neg, m, e) := sci q in neg = qltb q 0 /\ (m / 10 ^ 5 = 0 <-> q = 0%Qc)%Z).
  { destruct (Qc_eq_dec q 0) as [->|N]; [rewrite sci_0; split; [reflexivity|]; split; intros _; reflexivity|]. pose proof (sci_range q N) as H. destruct (sci q) as [[neg m] e]. destruct H as [H1 H2]. split; [exact H1|].
    split; [|contradiction]. intro K. change (10 ^ 5)%Z with 100000%Z in K. exfalso. Z.div_mod_to_equations. lia. }
  pose proof (sci_any q) as M. destruct (sci q) as [[neg m] e]. destruct SG as [SG SZ]. pose proof (first_digit m M) as D0. destruct (digit_spec _ D0) as [DD DV].
  exists (if neg then ["-"%char] else []), (digit (m / 10 ^ 5)), (map (fun k => digit ((m / 10 ^ k) mod 10)) [4; 3; 2; 1; 0]%Z), (if (e <? 0)%Z then "-"%char else "+"%char), (T (pad02 (Z.abs e))).
  split; [reflexivity|]. split; [now rewrite SG|]. split; [exact DD|]. split.
  { rewrite <- SZ. split; intro K; [rewrite K in DV; rewrite <- DV; reflexivity|rewrite K; reflexivity]. }
  split; [reflexivity|]. split; [cbn [map forallb]; now rewrite !(proj1 (digit_spec _ (next_digit _)))|]. split; [destruct (e <? 0)%Z; cbn; auto|].
  destruct (pad02_text (Z.abs e) ltac:(lia)) as (A & B & _). split; [|exact A]. rewrite T_length. unfold pad02. replace (Z.abs e <? 0)%Z with false by (symmetry; apply Z.ltb_ge; lia). cbv zeta.
  destruct (Nat.ltb_spec (String.length (dec (Z.to_N (Z.abs e)))) 2) as [K|K]; [|exact K]. cbn [String.append String.length]. apply le_n_S.
  destruct (dec (Z.to_N (Z.abs e))) eqn:DE; [|cbn; lia]. exfalso. pose proof (undec_dec (Z.to_N (Z.abs e))) as U. rewrite DE in U. cbn in U. injection U as U.
  rewrite <- U in DE. vm_compute in DE. discriminate.
Qed.
Print Assumptions C102_form.

(** ** From the events to the loaded file *)
(** The average waveform, moved to sample 60: see C43. *)
Definition average junk n_pixels n_samples source : list Qc := get_average_wf junk n_pixels n_samples source 60.
Definition well_formed (n_pixels n_samples : nat) (source : list event) (junk : nat -> event) : Prop :=
  (0 < n_pixels)%nat /\ Forall (rect n_pixels n_samples) source /\ forall i, rect n_pixels n_samples (junk i).

(** There is a file of finite numbers just in case the area of the average is not 0. *)
Theorem C102_written : forall junk np n src, pulse_file junk np n src <> None <-> trapz (average junk np n src) <> 0%Qc.
Proof.
  intros. unfold pulse_file, reference_pulse. fold (average junk np n src). destruct (qeqb_spec (trapz (average junk np n src)) 0%Qc) as [E|E]; cbn [option_map]; split; intro H; congruence.
Qed.
Print Assumptions C102_written.

Lemma nth_combine_seq : forall (l : list Qc) f, map (fun r : Qc * Qc => back (fst r)) (combine (map f (seq 0 (List.length l))) l) = map (fun k => back (f k)) (seq 0 (List.length l)) /\
  map (fun r : Qc * Qc => back (snd r)) (combine (map f (seq 0 (List.length l))) l) = map back l.
Proof.
  intros l f. generalize 0%nat as s. induction l as [|x l IH]; intro s; [split; reflexivity|]. cbn [List.length seq map combine fst snd]. destruct (IH (S s)) as [A B]. split; f_equal; assumption.
Qed.
Lemma pulse_file_load : forall junk np n src t, well_formed np n src junk -> pulse_file junk np n src = Some t ->
  let a := trapz (average junk np n src) in a <> 0%Qc /\ (30 < n)%nat /\
  load_columns t = Ok (map (fun k => back (fl64 (qn k * fl64 ns))) (seq 0 n), map (fun v => back (fl64 (v / a)%Qc)) (average junk np n src)).
Proof.
  intros junk np n src t (P & S & J) E a. unfold pulse_file, reference_pulse in E. fold (average junk np n src) in E. fold a in E. destruct (qeqb_spec a 0%Qc) as [Z|Z]; [discriminate|]. cbn [option_map] in E. injection E as <-.
  assert (L : List.length (average junk np n src) = n) by (apply average_length; assumption).
  assert (N : (30 < n)%nat). { destruct (le_lt_dec n 30) as [K|K]; [|exact K]. exfalso. apply Z. apply trapz_zero. intros v V. exact (average_short np n src junk S J P v K V). }
  split; [exact Z|]. split; [exact N|]. set (y := map (fun v => fl64 (v / a)%Qc) (average junk np n src)).
  assert (LY : List.length y = n) by (unfold y; now rewrite map_length).
  rewrite load_savetxt.
  - unfold x_ref_pulse. destruct (nth_combine_seq y (fun k => fl64 (qn k * fl64 ns))) as [A B]. rewrite LY in *. fold ns. rewrite A, B. unfold y. now rewrite map_map.
  - rewrite combine_length. unfold x_ref_pulse. rewrite map_length, seq_length, LY. lia.
Qed.

(** The file is read without an error and has one row per sample; the times are the doubles next to 0, 1, 2, ... ns (up to a
    million samples); the values are those of the normalised average up to six millionths. *)
Theorem C102_file : forall junk np n src t, well_formed np n src junk -> pulse_file junk np n src = Some t ->
  exists xs ys, load_columns t = Ok (xs, ys) /\ List.length xs = n /\ List.length ys = n /\
  (forall k, (k < n)%nat -> (Z.of_nat k < 1000000)%Z -> nth k xs 0%Qc = fl64 (qn k * Q2Qc (1 # 1000000000))) /\
  (forall k, (k < n)%nat -> let v := (nth k (average junk np n src) 0 / trapz (average junk np n src))%Qc in
    Rabs (q2r (nth k ys 0%Qc) - q2r v) <= 6 / 1000000 * Rabs (q2r v) + bpow radix2 (-1070)).
Proof.
  intros junk np n src t W E. destruct (pulse_file_load _ _ _ _ _ W E) as (A & N & L). destruct W as (P & S & J).
  assert (LA : List.length (average junk np n src) = n) by (apply average_length; assumption).
  eexists _, _. split; [exact L|]. split; [now rewrite map_length, seq_length|]. split; [now rewrite map_length|]. split.
  - intros k K M. rewrite nth_map_seq by exact K. now apply time_back.
  - intros k K v. set (a := trapz (average junk np n src)) in *. rewrite nth_of_error, nth_error_map, nth_error_nth' with (d := 0%Qc) by lia. cbn [option_map]. apply back_error.
Qed.
Print Assumptions C102_file.
(** The order of the samples is kept, or reversed if the area is negative. *)
Theorem C102_order : forall junk np n src t xs ys j k, well_formed np n src junk -> pulse_file junk np n src = Some t -> load_columns t = Ok (xs, ys) ->
  (j < n)%nat -> (k < n)%nat -> (nth j (average junk np n src) 0 <= nth k (average junk np n src) 0)%Qc ->
  ((0 < trapz (average junk np n src))%Qc -> (nth j ys 0 <= nth k ys 0)%Qc) /\ ((trapz (average junk np n src) < 0)%Qc -> (nth k ys 0 <= nth j ys 0)%Qc).
Proof.
  intros junk np n src t xs ys j k W E L J K H. destruct (pulse_file_load _ _ _ _ _ W E) as (A & N & L'). rewrite L in L'. injection L' as _ ->. destruct W as (P & S & JJ).
  assert (LA : List.length (average junk np n src) = n) by (apply average_length; assumption). set (l := average junk np n src) in *. set (a := trapz l) in *.
  assert (V : forall i, (i < n)%nat -> nth i (map (fun v => back (fl64 (v / a)%Qc)) l) 0%Qc = back (fl64 (nth i l 0 / a)%Qc)).
  { intros i I. rewrite nth_of_error, nth_error_map, nth_error_nth' with (d := 0%Qc) by lia. reflexivity. }
  rewrite !V by assumption. apply q2r_le in H. split; intro G; apply q2r_lt in G; rewrite q2r_0 in G; apply back_le, q2r_le; rewrite !q2r_div by exact A; unfold Rdiv.
  - apply Rmult_le_compat_r; [apply Rlt_le, Rinv_0_lt_compat, G|exact H].
  - pose proof (Rinv_lt_0_compat _ G). nra.
Qed.
Print Assumptions C102_order.
(** The area of the loaded pulse is 1 up to the rounding of its values. *)
Theorem C102_area : forall junk np n src t xs ys, well_formed np n src junk -> pulse_file junk np n src = Some t -> load_columns t = Ok (xs, ys) ->
  let v := map (fun x => x / trapz (average junk np n src))%Qc (average junk np n src) in
  Rabs (q2r (trapz ys) - 1) <= 6 / 1000000 * q2r (trapz (map qabs v)) + INR n * bpow radix2 (-1070) /\
  ((forall x, In x (average junk np n src) -> (0 <= x)%Qc) -> Rabs (q2r (trapz ys) - 1) <= 6 / 1000000 + INR n * bpow radix2 (-1070)).
Proof.
  intros junk np n src t xs ys W E L v. destruct (pulse_file_load _ _ _ _ _ W E) as (A & N & L'). rewrite L in L'. injection L' as _ ->. destruct W as (P & S & JJ).
  assert (LA : List.length (average junk np n src) = n) by (apply average_length; assumption). set (l := average junk np n src) in *. set (a := trapz l) in *.
  assert (O : q2r (trapz v) = 1). { unfold v. rewrite trapz_div by exact A. fold a. rewrite q2r_div by exact A. field. intro Z. apply A, q2r_eq. now rewrite q2r_0. }
  assert (B : Rabs (q2r (trapz (map (fun v => back (fl64 (v / a)%Qc)) l)) - 1) <= 6 / 1000000 * q2r (trapz (map qabs v)) + INR n * bpow radix2 (-1070)).
  { rewrite <- O. eapply Rle_trans; [apply (trapz_close (6 / 1000000) small); [apply Rlt_le, small_pos|]|].
    - unfold v. clear. generalize a. clear a. intro a. induction l as [|x l' IH]; cbn [map]; constructor; [apply back_error|exact IH].
    - apply Rplus_le_compat_l. rewrite Rmult_comm. apply Rmult_le_compat_r; [apply Rlt_le, small_pos|]. apply le_INR. unfold v. rewrite map_length. lia. }
  split; [exact B|]. intro H. rewrite (map_qabs v), O, Rmult_1_r in B; [exact B|].
  assert (GA : 0 <= q2r a). { unfold a. clear - H. clearbody l. induction l as [|x l IH]; [cbn; rewrite q2r_0; lra|]. destruct l as [|y l]; [cbn; rewrite q2r_0; lra|]. rewrite trapz_cons.
    assert (0 <= q2r x) by (rewrite <- q2r_0; apply q2r_le, H; now left). assert (0 <= q2r y) by (rewrite <- q2r_0; apply q2r_le, H; cbn; auto). assert (0 <= q2r (trapz (y :: l))) by (apply IH; intros z I; apply H; now right). lra. }
  assert (GA' : 0 < q2r a). { destruct GA as [G|G]; [exact G|]. exfalso. apply A, q2r_eq. now rewrite q2r_0. }
  intros x I. unfold v in I. apply in_map_iff in I as (w & <- & I). apply q2r_le. rewrite q2r_0, q2r_div by exact A. pose proof (H w I) as G. apply q2r_le in G. rewrite q2r_0 in G. apply Rmult_le_pos; [exact G|apply Rlt_le, Rinv_0_lt_compat, GA'].
Qed.
Print Assumptions C102_area.
(** The maximum is at sample 60, provided the area is positive, the waveforms are longer than 60 samples, and the average of
    every event reaches its baseline somewhere ([spec_mean] is the average of the pixels minus their baselines, see C43). *)
Theorem C102_peak : forall junk np n src t xs ys k, well_formed np n src junk -> pulse_file junk np n src = Some t -> load_columns t = Ok (xs, ys) ->
  (60 < n)%nat -> (k < n)%nat -> (forall i, (i < List.length src)%nat -> exists j, (j < n)%nat /\ 0 <= nth j (spec_mean np n src i) 0)%Qc ->
  ((0 < trapz (average junk np n src))%Qc -> (nth k ys 0 <= nth 60 ys 0)%Qc) /\ ((trapz (average junk np n src) < 0)%Qc -> (nth 60 ys 0 <= nth k ys 0)%Qc).
Proof.
  intros junk np n src t xs ys k W E L N K H. apply (C102_order junk np n src t xs ys k 60 W E L K N). destruct W as (P & S & J).
  apply average_peak; auto. intros ->. destruct (pulse_file_load junk np n [] t (conj P (conj S J)) E) as (A & _). apply A. apply trapz_zero. intros v I. unfold average in I.
  apply (In_nth _ _ 0%Qc) in I as (j & JL & <-). rewrite average_length in JL by assumption. rewrite (c43_avg np n [] 60 junk S J j JL). cbn. reflexivity.
Qed.
Print Assumptions C102_peak.
(** Waveforms of 30 samples or less are moved out of the window altogether: no pulse. *)
Theorem C102_short_refuted : forall junk np n src, well_formed np n src junk -> (n <= 30)%nat -> pulse_file junk np n src = None.
Proof.
  intros junk np n src W N. destruct (pulse_file junk np n src) as [t|] eqn:E; [|reflexivity]. exfalso. destruct (pulse_file_load _ _ _ _ _ W E) as (_ & K & _). lia.
Qed.
Print Assumptions C102_short_refuted.

(** ** What CrossCorrelation makes of the file.  [holds b q]: the double [b] is the number [q]. *)
Lemma loaded_times : forall junk np n src t xs ys refx, well_formed np n src junk -> pulse_file junk np n src = Some t -> load_columns t = Ok (xs, ys) -> (Z.of_nat n <= 1000000)%Z ->
  Forall2 holds refx xs -> refx = whole_table (n - 1).
Proof.
  intros junk np n src t xs ys refx W E L N H. destruct (pulse_file_load _ _ _ _ _ W E) as (_ & K & L'). rewrite L in L'. injection L' as -> _.
  unfold whole_table. replace (S (n - 1)) with n by lia. assert (B : forall k, In k (seq 0 n) -> (Z.of_nat k < 1000000)%Z) by (intros k I; apply in_seq in I; lia).
  revert refx H B. generalize (seq 0 n). induction l as [|k l IH]; intros refx H B; inversion H; subst; [reflexivity|]. cbn [map]. f_equal; [|apply IH; [assumption|intros; apply B; now right]].
  apply holds_whole; [pose proof (B k (or_introl eq_refl)); lia|]. rewrite <- time_back by (apply B; now left). assumption.
Qed.
(** Pulses of 128 samples, the usual length, are sampled at all of them. *)
Theorem C102_usual : forall junk np src t xs ys refx, well_formed np 128 src junk -> pulse_file junk np 128 src = Some t -> load_columns t = Ok (xs, ys) -> Forall2 holds refx xs ->
  exists ts, sample_times refx = Ok ts /\ List.length ts = 128%nat.
Proof.
  intros junk np src t xs ys refx W E L H. rewrite (loaded_times junk np 128 src t xs ys refx W E L ltac:(lia) H). apply has_length. vm_compute. reflexivity.
Qed.
Print Assumptions C102_usual.
(** Other lengths may not be loaded, whatever the pulse: 97 samples are refused, of 101 the last one is lost. *)
Theorem C102_load_refuted :
  (forall junk np src t xs ys refx, well_formed np 97 src junk -> pulse_file junk np 97 src = Some t -> load_columns t = Ok (xs, ys) -> Forall2 holds refx xs -> sample_times refx = Raise ValueError) /\
  (forall junk np src t xs ys refx, well_formed np 101 src junk -> pulse_file junk np 101 src = Some t -> load_columns t = Ok (xs, ys) -> Forall2 holds refx xs -> exists ts, sample_times refx = Ok ts /\ List.length ts = 100%nat).
Proof.
  split; intros junk np src t xs ys refx W E L H.
  - rewrite (loaded_times junk np 97 src t xs ys refx W E L ltac:(lia) H). apply has_raised. vm_compute. reflexivity.
  - rewrite (loaded_times junk np 101 src t xs ys refx W E L ltac:(lia) H). apply has_length. vm_compute. reflexivity.
Qed.
Print Assumptions C102_load_refuted.

(** ** Examples *)
Example C102_numbers : map (fun q => string_of_list_ascii (fmt5e (Q2Qc q))) [0; 1; 999999.5; 999998.5; 0.00000999999999; -123.45678; 12345650000; 1 / 10 ^ 120]%Q =
  ["0.00000e+00"; "1.00000e+00"; "1.00000e+06"; "9.99998e+05"; "1.00000e-05"; "-1.23457e+02"; "1.23456e+10"; "1.00000e-120"]%string.
Proof. vm_compute. reflexivity. Qed.
(** One event of one pixel: a triangle at samples 20-22, and the same with a long undershoot behind it. *)
Definition triangle (n : nat) (tail : Z) : event := [map (fun i => if (i =? 21)%nat then qz 2 else if (i =? 20)%nat || (i =? 22)%nat then 1%Qc else if (22 <? i)%nat then qz tail else 0%Qc) (seq 0 n)].
Definition no_junk (n : nat) (_ : nat) : event := [repeat 0%Qc n].
Definition columns (n : nat) (tail : Z) : list (Q * Q) := match pulse_file (no_junk n) 1 n [triangle n tail] with
  | Some t => match load_columns t with Ok (xs, ys) => combine (map this xs) (map this ys) | Raise _ => [] end
  | None => [] end.
Definition lines (n : nat) (tail : Z) (k : nat) : list string := match pulse_file (no_junk n) 1 n [triangle n tail] with
  | Some t => map string_of_list_ascii (firstn 3 (skipn k (fields (fun c => Ascii.eqb c newline) [] t))) | None => [] end.
Example C102_example : lines 128 0 59 = ["5.90000e-08 2.50000e-01"; "6.00000e-08 5.00000e-01"; "6.10000e-08 2.50000e-01"]%string /\ List.length (columns 128 0) = 128%nat.
Proof. vm_compute. split; reflexivity. Qed.
(** With the undershoot the area is negative, and the pulse upside down. *)
Theorem C102_inverted_refuted : exists junk np src t xs ys, well_formed np 128 src junk /\ pulse_file junk np 128 src = Some t /\ load_columns t = Ok (xs, ys) /\
  (forall i, (i < List.length src)%nat -> (0 < nth 21 (spec_mean np 128 src i) 0)%Qc) /\ (nth 60 ys 0 < 0)%Qc /\ (forall k, (k < 128)%nat -> (nth 60 ys 0 <= nth k ys 0)%Qc).
Proof.
  assert (W : well_formed 1 128 [triangle 128 (-1)] (no_junk 128)).
  { split; [lia|]. split; [|intro i; split; [reflexivity|]; repeat constructor]. constructor; [|constructor]. split; [reflexivity|]. repeat constructor. }
  destruct (pulse_file (no_junk 128) 1 128 [triangle 128 (-1)]) as [t|] eqn:E.
  - destruct (C102_file _ _ _ _ _ W E) as (xs & ys & L & _ & LY & _ & V). exists (no_junk 128), 1%nat, [triangle 128 (-1)], t, xs, ys.
    assert (PK : forall i, (i < 1)%nat -> (0 < nth 21 (spec_mean 1 128 [triangle 128 (-1)] i) 0)%Qc).
    { intros [|i] I; [|lia]. vm_compute. reflexivity. }
    assert (AR : (trapz (average (no_junk 128) 1 128 [triangle 128 (-1)]) < 0)%Qc) by (vm_compute; reflexivity).
    split; [exact W|]. split; [exact E|]. split; [exact L|]. split; [exact PK|]. split.
    + specialize (V 60%nat ltac:(lia)). cbv zeta in V. set (q := (nth 60 _ 0 / _)%Qc) in V. assert (Q : q = Q2Qc (-4 # 123)) by (apply Qc_is_canon; vm_compute; reflexivity).
      rewrite Q in V. rewrite q2r_Q2Qc in V. assert (Q' : Q2R (-4 # 123) = -4 / 123) by (unfold Q2R; cbn; lra). rewrite Q' in V. apply q2r_lt. rewrite q2r_0. fold small in V. pose proof small_ns. rewrite (Rabs_left (-4 / 123)) in V by lra. apply Rabs_le_inv in V. lra.
    + intros k K. apply (C102_peak (no_junk 128) 1 128 [triangle 128 (-1)] t xs ys k W E L); [lia|exact K| |exact AR].
      intros i I. exists 21%nat. split; [lia|]. apply Qclt_le_weak, PK. exact I.
  - exfalso. vm_compute in E. discriminate E.
Qed.
Print Assumptions C102_inverted_refuted.
Example C102_example_inverted : lines 128 (-1) 59 = ["5.90000e-08 -1.62602e-02"; "6.00000e-08 -3.25203e-02"; "6.10000e-08 -1.62602e-02"]%string.
Proof. vm_compute. reflexivity. Qed.
(** 40 samples are not enough for sample 60: of the triangle only the first sample of the waveform remains, which is 0. *)
Example C102_example_short : pulse_file (no_junk 40) 1 40 [triangle 40 0] = None /\ pulse_file (no_junk 25) 1 25 [triangle 25 0] = None.
Proof. vm_compute. split; reflexivity. Qed.
