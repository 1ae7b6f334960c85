(** Lemmas about saturation_sum. *)
From Coq Require Import List ZArith QArith Qcanon String Bool Arith Lia.
From Verif.Base Require Import Py PyFacts Num.
From Verif.Chain Require Import Model Spec Proofs Saturation.
Import ListNotations.
Local Open Scope string_scope.
Local Open Scope list_scope.

(** Position of the first maximum of the sum over pixels, clamped into [10, n-10]. *)
Definition is_pulse_start (wfs : list (list Qc)) (n t : nat) : Prop :=
  exists m, (m < n)%nat /\
    (forall k, (k < n)%nat -> (qsum (map (fun w => nth k w 0) wfs) <= qsum (map (fun w => nth m w 0) wfs))%Qc) /\
    (forall k, (k < m)%nat -> (qsum (map (fun w => nth k w 0) wfs) < qsum (map (fun w => nth m w 0) wfs))%Qc) /\
    ((m < 10 /\ t = 10) \/ (10 <= m <= n - 10 /\ t = m) \/ (n - 10 < m /\ t = n - 10))%nat.

Lemma mean_axis0_nth : forall wfs n k, (k < n)%nat ->
  nth k (mean_axis0 wfs n) 0%Qc = (qsum (map (fun w => nth k w 0) wfs) / qn (List.length wfs))%Qc.
Proof.
  intros wfs n k H. unfold mean_axis0. rewrite nth_indep with (d' := qmean (map (fun w => nth 0%nat w 0%Qc) wfs))
    by (rewrite map_length, seq_length; auto).
  rewrite (map_nth (fun j => qmean (map (fun w => nth j w 0%Qc) wfs)) (seq 0 n) 0%nat k).
  rewrite seq_nth by auto. unfold qmean. now rewrite map_length.
Qed.

Lemma clamped_peak_spec : forall wfs n, wfs <> [] -> (20 <= n)%nat ->
  exists t, clamped_peak wfs n = Z.of_nat t /\ is_pulse_start wfs n t /\ (10 <= t <= n - 10)%nat.
Proof.
  intros wfs n NE Hn. unfold clamped_peak.
  assert (List.length (mean_axis0 wfs n) = n) as HL by (unfold mean_axis0; now rewrite map_length, seq_length).
  destruct (argmax_spec (mean_axis0 wfs n)) as (A1 & A2 & A3).
  { intros E. rewrite E in HL. cbn in HL. lia. }
  rewrite HL in *. set (m := argmax (mean_axis0 wfs n)) in *.
  assert (0 < qn (List.length wfs))%Qc as P by (apply qn_pos; destruct wfs; [congruence|cbn; lia]).
  assert (forall t, ((m < 10 /\ t = 10) \/ (10 <= m <= n - 10 /\ t = m) \/ (n - 10 < m /\ t = n - 10))%nat ->
           is_pulse_start wfs n t) as IP.
  { intros t Ht. exists m. split; auto. split; [|split]; auto.
    - intros k Hk. specialize (A2 k Hk). rewrite !mean_axis0_nth in A2 by auto. now apply qdiv_le in A2.
    - intros k Hk. specialize (A3 k Hk). rewrite !mean_axis0_nth in A3 by lia. now apply qdiv_lt in A3. }
  destruct (Z.ltb_spec (Z.of_nat m) 10).
  - exists 10%nat. split; [reflexivity|]. split; [apply IP; lia|lia].
  - destruct (Z.ltb_spec (Z.of_nat n - 10) (Z.of_nat m)).
    + exists (n - 10)%nat. split; [lia|]. split; [apply IP; lia|lia].
    + exists m. split; auto. split; [apply IP; lia|lia].
Qed.

Lemma c21_without : forall kwargs wfs n shift, dget "t_event" kwargs = None ->
  dgetd (VInt 4) "window_shift" kwargs = VInt (Z.of_nat shift) -> (shift <= 10)%nat ->
  wfs <> [] -> (20 <= n)%nat -> (forall w, In w wfs -> List.length w = n) ->
  exists t, is_pulse_start wfs n t /\
    saturation_sum kwargs wfs n = Ok (map (fun w => qsum (skipn (t - shift) w)) wfs).
Proof.
  intros kwargs wfs n shift HT HW HS NE Hn HL. unfold saturation_sum. rewrite HT, HW. cbn [as_int bind].
  destruct (clamped_peak_spec wfs n NE Hn) as (t & -> & IP & R). exists t. split; auto. f_equal.
  apply map_ext_in. intros w I. replace (Z.of_nat t - Z.of_nat shift)%Z with (Z.of_nat (t - shift)) by lia.
  rewrite pyslice_from by (rewrite (HL w I); lia). reflexivity.
Qed.

Lemma c21_with : forall kwargs wfs n v, dget "t_event" kwargs = Some (VBool v) ->
  dget "window_shift" kwargs = None -> (4 <= n)%nat -> (forall w, In w wfs -> List.length w = n) ->
  saturation_sum kwargs wfs n = Ok (map (fun w => qsum (skipn (n - if v then 3 else 4) w)) wfs).
Proof.
  intros kwargs wfs n v HT HW Hn HL. unfold saturation_sum. rewrite HT. unfold dgetd. rewrite HW. cbn [as_int bind].
  f_equal. apply map_ext_in. intros w I.
  replace ((if v then 1 else 0) - 4)%Z with (- Z.of_nat (if v then 3 else 4))%Z by (destruct v; reflexivity).
  rewrite pyslice_neg_from by (rewrite (HL w I); destruct v; lia). now rewrite (HL w I).
Qed.

(** The default configuration mentions t_event, so every chain built without a file is affected. *)
Lemma default_has_t_event : forall load kwargs, dict_ok kwargs -> dget "t_event" kwargs = None ->
  dget "t_event" (chain_config load None kwargs) = Some (VBool false).
Proof.
  intros. rewrite chain_config_get; auto.
  - rewrite H0. reflexivity.
  - intros d E. discriminate.
Qed.

Lemma default_no_shift : forall load kwargs, dict_ok kwargs -> dget "window_shift" kwargs = None ->
  dget "window_shift" (chain_config load None kwargs) = None.
Proof.
  intros. rewrite chain_config_get; auto.
  - rewrite H0. reflexivity.
  - intros d E. discriminate.
Qed.
