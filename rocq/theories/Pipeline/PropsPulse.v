(** Property C114: a light pulse from the digitised waveform to the number in the DL1 file. *)
From Coq Require Import List ZArith QArith Qcanon String Bool Arith Lia Lqa.
From Verif.Base Require Import Py PyFacts Lst Num.
From Verif.Hdf5 Require Import Model Spec.
From Verif.Dl1 Require Import Model Spec.
From Verif.WfUtils Require Import Model Proofs.
From Verif.Reducers Require Import Model Proofs2.
From Verif.Reducers Require Props.
From Verif.Pipeline Require Import Model Proofs Props.
Import ListNotations.
Local Open Scope nat_scope.
Local Open Scope list_scope.

(** [near d x y]: the two numbers differ by at most [d]. *)
Definition near (d x y : Qc) : Prop := (x - d <= y)%Qc /\ (y <= x + d)%Qc.
(** The sum of the absolute values of the weights of the cross correlation. *)
Definition absolute (x : Qc) : Qc := if qleb 0 x then x else (- x)%Qc.
Definition gain (y : list Qc) : Qc := qsum (map absolute (fst (normalise_pulse y))).
(** A waveform of [n] samples: the pedestal [b] and a pulse of [A] photoelectrons with its maximum at sample [t], each
    sample up to [d]. *)
Definition pulse_on (y : list Qc) (b A d : Qc) (t n : nat) (row : list Qc) : Prop :=
  List.length row = n /\ forall k, k < n -> near d (b + A * get0 (snd (normalise_pulse y)) (Z.of_nat k - Z.of_nat t + Z.of_nat (argmax y)))%Qc (nth k row 0%Qc).
(** The first 16 samples of pixel [p] are the pedestal up to [d]. *)
Definition quiet (p : nat) (b d : Qc) (e : event) : Prop := 16 <= List.length (nth p e []) /\ forall j, j < 16 -> near d b (nth j (nth p e []) 0%Qc).

Lemma absolute_le : forall x, (x <= absolute x)%Qc /\ (- x <= absolute x)%Qc /\ (0 <= absolute x)%Qc.
Proof. intros x. unfold absolute. destruct (qleb_spec 0 x); repeat split; qlra. Qed.
Lemma product_near : forall w x y d, near d x y -> near (absolute w * d)%Qc (w * x)%Qc (w * y)%Qc.
Proof.
  intros w x y d [H1 H2]. unfold near, absolute. destruct (qleb_spec 0 w); split; qnra.
Qed.
Lemma sum_near : forall A (f g c : A -> Qc) l, (forall x, In x l -> near (c x) (f x) (g x)) -> near (qsum (map c l)) (qsum (map f l)) (qsum (map g l)).
Proof.
  intros A f g c l H. induction l as [|a l IH]; [split; apply Qcle_refl|]. cbn [map]. rewrite !qsum_cons.
  destruct (H a (or_introl eq_refl)) as [A1 A2]. destruct IH as [I1 I2]; [intros; apply H; now right|].
  split; [revert A1 I1|revert A2 I2]; generalize (c a), (f a), (g a), (qsum (map c l)), (qsum (map f l)), (qsum (map g l)); intros; qlra.
Qed.
Lemma near_0 : forall x d, (0 <= d)%Qc -> near d x x.
Proof. intros. split; qlra. Qed.
Lemma get0_near : forall r r' d i, List.length r = List.length r' -> (0 <= d)%Qc -> (forall k, k < List.length r -> near d (nth k r 0%Qc) (nth k r' 0%Qc)) -> near d (get0 r i) (get0 r' i).
Proof.
  intros r r' d i L D H. unfold get0. rewrite L. destruct ((0 <=? i)%Z && (i <? Z.of_nat (List.length r'))%Z)%bool eqn:E; [|now apply near_0].
  apply andb_prop in E as [E1 E2]. apply Z.leb_le in E1. apply Z.ltb_lt in E2. apply H. lia.
Qed.
Lemma all_weights : forall (f : Qc -> Qc) l, map f l = map (fun j => f (nth j l 0%Qc)) (seq 0 (List.length l)).
Proof.
  intros f l. induction l as [|a l IH]; [reflexivity|]. cbn [map List.length seq nth]. f_equal. rewrite <- seq_shift, map_map. exact IH.
Qed.
Lemma correlate_near : forall r r' ws o d k, List.length r = List.length r' -> (0 <= d)%Qc -> (forall k, k < List.length r -> near d (nth k r 0%Qc) (nth k r' 0%Qc)) ->
  k < List.length r -> near (qsum (map absolute ws) * d)%Qc (nth k (correlate1d r ws o) 0%Qc) (nth k (correlate1d r' ws o) 0%Qc).
Proof.
  intros r r' ws o d k L D H K. unfold correlate1d. rewrite !nth_map_seq by congruence.
  rewrite (all_weights absolute ws), (Qcmult_comm (qsum _) d), <- qsum_map_scale.
  apply sum_near. intros j _. rewrite (Qcmult_comm d). apply product_near. now apply get0_near.
Qed.

(** ** C114. The charge of CrossCorrelationLocal is stable: if every sample moves by at most [d], the charge moves by at
    most [d] times the sum of the absolute weights. *)
Theorem C114_stable : forall y (w w' : event) i r r' d, nth_error w i = Some r -> nth_error w' i = Some r' ->
  List.length r = List.length r' -> r <> [] -> (0 <= d)%Qc -> (forall k, k < List.length r -> near d (nth k r 0%Qc) (nth k r' 0%Qc)) ->
  exists c c', nth_error (charge_cc_local y w) i = Some c /\ nth_error (charge_cc_local y w') i = Some c' /\ near (gain y * d)%Qc c c'.
Proof.
  intros y w w' i r r' d R R' L N D H. unfold charge_cc_local, cc. rewrite !nth_error_map, R, R'. cbn [option_map].
  do 2 eexists. split; [reflexivity|]. split; [reflexivity|].
  set (ws := fst (normalise_pulse y)). set (a := correlate1d r ws (cc_origin ws)). set (a' := correlate1d r' ws (cc_origin ws)).
  assert (LA : List.length a = List.length r) by (unfold a, correlate1d; now rewrite map_length, seq_length).
  assert (LA' : List.length a' = List.length r) by (unfold a', correlate1d; now rewrite map_length, seq_length).
  assert (P : 0 < List.length r) by (destruct r; [congruence|cbn; lia]).
  assert (C : forall k, k < List.length r -> near (gain y * d)%Qc (nth k a 0%Qc) (nth k a' 0%Qc)) by (intros k K; now apply correlate_near).
  destruct (argmax_spec a) as (M1 & M2 & _); [destruct a; [cbn in LA; lia|discriminate]|].
  destruct (argmax_spec a') as (M1' & M2' & _); [destruct a'; [cbn in LA'; lia|discriminate]|].
  rewrite LA in *. rewrite LA' in *. destruct (C _ M1) as [C1 _]. destruct (C _ M1') as [_ C2'].
  specialize (M2 _ M1'). specialize (M2' _ M1). revert C1 C2' M2 M2'.
  generalize (gain y * d)%Qc, (nth (argmax a) a 0%Qc), (nth (argmax a') a' 0%Qc), (nth (argmax a) a' 0%Qc), (nth (argmax a') a 0%Qc).
  intros. split; qlra.
Qed.
Print Assumptions C114_stable.

Lemma start_near : forall p b d e, quiet p b d e -> near (qn 16 * d)%Qc (qn 16 * b)%Qc (start_sum p e).
Proof.
  intros p b d e [L Q]. unfold start_sum. set (row := nth p e []) in *.
  assert (E : firstn 16 row = map (fun j => nth j row 0%Qc) (seq 0 16)).
  { clear Q. do 16 (destruct row as [|? row]; [cbn in L; lia|]). reflexivity. }
  rewrite E. rewrite <- (seq_length 16 0) at 1. rewrite <- (seq_length 16 0) at 2. rewrite <- !qsum_const.
  apply sum_near. intros j J. apply in_seq in J. apply Q. lia.
Qed.
Lemma start_sums : forall p b d es, (forall e, In e es -> quiet p b d e) -> near (qn (List.length es) * (qn 16 * d))%Qc (qn (List.length es) * (qn 16 * b))%Qc (qsum (map (start_sum p) es)).
Proof. intros p b d es H. rewrite <- !qsum_const. apply sum_near. intros e E. now apply start_near, H. Qed.
Lemma mean_near : forall b d s, near (qn 50 * (qn 16 * d))%Qc (qn 50 * (qn 16 * b))%Qc s -> near d b (s / qn 800)%Qc.
Proof.
  intros b d s [H1 H2]. assert (P : (0 < qn 800)%Qc) by reflexivity. assert (N : qn 800 <> 0%Qc) by discriminate.
  assert (E : (qn 50 * qn 16)%Qc = qn 800) by (apply Qc_is_canon; vm_compute; reflexivity).
  split.
  - replace (b - d)%Qc with (qn 800 * (b - d) / qn 800)%Qc by (field; exact N). apply (proj1 (qdiv_le _ _ _ P)). rewrite <- E.
    replace (qn 50 * qn 16 * (b - d))%Qc with (qn 50 * (qn 16 * b) - qn 50 * (qn 16 * d))%Qc by ring. exact H1.
  - replace (b + d)%Qc with (qn 800 * (b + d) / qn 800)%Qc by (field; exact N). apply (proj1 (qdiv_le _ _ _ P)). rewrite <- E.
    replace (qn 50 * qn 16 * (b + d))%Qc with (qn 50 * (qn 16 * b) + qn 50 * (qn 16 * d))%Qc by ring. exact H2.
Qed.
Lemma near_nonneg : forall d x y, near d x y -> (0 <= d)%Qc.
Proof. intros d x y [H1 H2]. qlra. Qed.

Lemma corrected_source : forall t_cor ws es ev, corrected t_cor ws es -> In ev es -> exists v, In v ws /\ calibrated t_cor v = Ok ev.
Proof.
  intros t_cor ws es ev F I. induction F as [|v x ws es X F IH]; [destruct I|]. destruct I as [<-|I]; [exists v; split; [now left|exact X]|].
  destruct (IH I) as (v' & I' & X'). exists v'. split; [now right|exact X'].
Qed.
(** The charge, once the baseline [bl] of the pixel is known to be the pedestal up to [d0]. *)
Lemma charge_near : forall y n_pixels n e bs p b bl A d d0 t c, (0 < trapz y)%Qc -> (0 < A)%Qc -> argmax y <= t -> t + List.length y <= n + argmax y -> 0 < n ->
  rect n_pixels n bs -> p < n_pixels -> (forall j, j < n -> nth j (nth p bs []) 0%Qc = (nth j (nth p e []) 0 - bl)%Qc) ->
  pulse_on y b A d t n (nth p e []) -> near d0 b bl -> nth_error (charge_cc_local y bs) p = Some c -> near (gain y * (d + d0))%Qc A c.
Proof.
  intros y np n e bs p b bl A d d0 t c T PA P1 P2 N [LB FB] P V [LR PO] NB C.
  set (row := map (fun k => (A * get0 (snd (normalise_pulse y)) (Z.of_nat k - Z.of_nat t + Z.of_nat (argmax y)))%Qc) (seq 0 n)).
  assert (LROW : List.length row = n) by (unfold row; now rewrite map_length, seq_length).
  assert (PL : placed (snd (normalise_pulse y)) (argmax y) A t n row) by (split; [exact LROW|]; intros k K; unfold row; now rewrite nth_map_seq).
  destruct (Reducers.Props.C55_local y [row] n T 0 A t row eq_refl PA P1 P2 PL) as (CA & _ & _).
  assert (NB' : nth_error bs p = Some (nth p bs [])) by (apply nth_error_nth'; lia).
  assert (LBS : List.length (nth p bs []) = n) by (rewrite Forall_forall in FB; apply FB; now apply nth_error_In in NB').
  assert (D : (0 <= d + d0)%Qc).
  { pose proof (near_nonneg _ _ _ NB). pose proof (near_nonneg _ _ _ (PO 0 N)). qlra. }
  assert (H : forall k, k < n -> near (d + d0)%Qc (nth k row 0%Qc) (nth k (nth p bs []) 0%Qc)).
  { intros k K. rewrite V by exact K. unfold row. rewrite nth_map_seq by exact K. specialize (PO k K). destruct PO as [O1 O2], NB as [B1 B2]. revert O1 O2 B1 B2.
    generalize (A * get0 (snd (normalise_pulse y)) (Z.of_nat k - Z.of_nat t + Z.of_nat (argmax y)))%Qc, (nth k (nth p e []) 0%Qc). intros. split; qlra. }
  assert (ST : exists c0 c1, nth_error (charge_cc_local y [row]) 0 = Some c0 /\ nth_error (charge_cc_local y [nth p bs []]) 0 = Some c1 /\ near (gain y * (d + d0))%Qc c0 c1).
  { apply (C114_stable y [row] [nth p bs []] 0 row (nth p bs [])); auto; [now rewrite LROW|destruct row; [cbn in LROW; lia|discriminate]|]. intros k K. apply H. now rewrite <- LROW. }
  destruct ST as (c0 & c1 & E0 & E1 & NE). rewrite CA in E0. injection E0 as <-.
  assert (c1 = c) as <-; [|exact NE]. unfold charge_cc_local, cc in *. rewrite !nth_error_map, NB' in C. cbn [map nth_error option_map] in *. congruence.
Qed.

(** From the 50th kept event on. Let the first 16 samples of the pixel be its pedestal [b] up to [d0] in this and the 49
    kept events before it (after the time correction), and let this event contain a pulse of [A] photoelectrons on the
    pedestal, up to [d] in every sample. Then the stored baseline is [b] up to [d0] and the stored charge is [A] up to
    [d + d0] times the sum of the absolute weights; with quiet samples and an undisturbed pulse both are exact. *)
Theorem C114_pulse : forall y t_cor n_pixels n wfs out k w vals p fci bl c e b A d d0 t,
  extract (charge_cc_local y) t_cor n_pixels wfs = Ok out -> (forall v ev, In v (kept wfs) -> calibrated t_cor v = Ok ev -> rect n_pixels n ev) ->
  (0 < trapz y)%Qc -> 49 <= k -> nth_error out k = Some (w, vals) -> p < n_pixels -> nth_error vals p = Some (fci, (bl, c)) ->
  (forall v ev, In v (last50 k wfs) -> calibrated t_cor v = Ok ev -> quiet p b d0 ev) ->
  calibrated t_cor w = Ok e -> (0 < A)%Qc -> argmax y <= t -> t + List.length y <= n + argmax y -> pulse_on y b A d t n (nth p e []) ->
  near d0 b bl /\ near (gain y * (d + d0))%Qc A c.
Proof.
  intros y t_cor np n wfs out k w vals p fci bl c e b A d d0 t H R T K N P V Q CE PA P1 P2 PO.
  destruct (C81_values _ _ _ _ n _ _ H R) as (M & W). destruct (W _ _ _ N) as (e' & bs & CE' & RB & X). rewrite CE in CE'. injection CE' as <-.
  destruct (X _ _ _ _ V P) as (_ & C & S & L & _). destruct (L K) as (es & F & EB). clear L X W.
  assert (KL : k < List.length (kept wfs)) by (rewrite <- M, map_length; apply nth_error_Some; congruence).
  assert (L50 : List.length es = 50).
  { assert (List.length es = List.length (last50 k wfs)) as -> by (clear - F; induction F; cbn; auto). unfold last50. rewrite skipn_length, firstn_length_le; lia. }
  assert (QE : forall ev, In ev es -> quiet p b d0 ev).
  { intros ev I. destruct (corrected_source _ _ _ _ F I) as (v & I' & CV). now apply (Q v). }
  assert (NB : near d0 b bl) by (rewrite EB; apply mean_near; rewrite <- L50 at 1 2; now apply start_sums).
  split; [exact NB|]. apply (charge_near y np n e bs p b bl A d d0 t c); auto. destruct QE with (ev := nth 0 es []) as [L16 _]; [apply nth_In; lia|].
  assert (0 < List.length y) by (destruct y; [discriminate T|cbn; lia]). lia.
Qed.
Print Assumptions C114_pulse.

(** The same for the first 50 events, which are not calibrated with events before them but with those to come: the
    following waveforms of the file, uncorrected, stale and incomplete ones included, stand in for them. *)
Theorem C114_first_events : forall y t_cor n_pixels n wfs out k w vals p fci bl c e b A d d0 t,
  extract (charge_cc_local y) t_cor n_pixels wfs = Ok out -> (forall v ev, In v (kept wfs) -> calibrated t_cor v = Ok ev -> rect n_pixels n ev) ->
  (0 < trapz y)%Qc -> k < 50 -> 50 <= List.length wfs -> nth_error out k = Some (w, vals) -> p < n_pixels -> nth_error vals p = Some (fci, (bl, c)) ->
  (forall v ev, In v (firstn (S k) (kept wfs)) -> calibrated t_cor v = Ok ev -> quiet p b d0 ev) ->
  (forall v, In v (skipn (S k) (firstn 50 wfs)) -> quiet p b d0 (fst (wf_body v))) ->
  calibrated t_cor w = Ok e -> (0 < A)%Qc -> argmax y <= t -> t + List.length y <= n + argmax y -> pulse_on y b A d t n (nth p e []) ->
  near d0 b bl /\ near (gain y * (d + d0))%Qc A c.
Proof.
  intros y t_cor np n wfs out k w vals p fci bl c e b A d d0 t H R T K L N P V Q Q' CE PA P1 P2 PO.
  destruct (C81_values _ _ _ _ n _ _ H R) as (M & W). destruct (W _ _ _ N) as (e' & bs & CE' & RB & X). rewrite CE in CE'. injection CE' as <-.
  destruct (X _ _ _ _ V P) as (_ & C & S & _ & Y). destruct (Y K) as (es & F & EB). clear Y X W.
  assert (KL : k < List.length (kept wfs)) by (rewrite <- M, map_length; apply nth_error_Some; congruence).
  set (raw := map (fun v : wf body => fst (wf_body v)) (skipn (Datatypes.S k) (firstn 50 wfs))).
  assert (LE : List.length es = Datatypes.S k).
  { assert (List.length es = List.length (firstn (Datatypes.S k) (kept wfs))) as -> by (clear - F; induction F; cbn; auto). apply firstn_length_le. lia. }
  assert (L50 : List.length (raw ++ es) = 50) by (unfold raw; rewrite app_length, map_length, skipn_length, firstn_length_le by lia; lia).
  assert (QE : forall ev, In ev (raw ++ es) -> quiet p b d0 ev).
  { intros ev I. apply in_app_or in I as [I|I].
    - unfold raw in I. apply in_map_iff in I as (v & <- & I). now apply Q'.
    - destruct (corrected_source _ _ _ _ F I) as (v & I' & CV). now apply (Q v). }
  assert (NB : near d0 b bl).
  { rewrite EB, <- (map_map (fun v : wf body => fst (wf_body v)) (start_sum p)). fold raw. rewrite <- qsum_app, <- map_app. apply mean_near. rewrite <- L50 at 1 2. now apply start_sums. }
  split; [exact NB|]. apply (charge_near y np n e bs p b bl A d d0 t c); auto.
  assert (0 < List.length y) by (destruct y; [discriminate T|cbn; lia]). assert (A1 : argmax y < List.length y) by (apply argmax_spec; destruct y; [discriminate T|discriminate]). lia.
Qed.
Print Assumptions C114_first_events.

(** Reading the file back gives these numbers: the row of pixel [p] of the event that [DL1Reader] returns for its number. *)
Theorem C114_file : forall y t_cor dummy n_pixels wfs out mem down src ms r k w vals p fci bl c,
  extract (charge_cc_local y) t_cor n_pixels wfs = Ok out -> (forall w vals, In (w, vals) out -> List.length vals = n_pixels) ->
  0 < n_pixels -> (Z.of_nat n_pixels < 2 ^ 32)%Z -> (forall w, In w (kept wfs) -> (0 <= wf_iev w < 2 ^ 32)%Z) ->
  Sorted.StronglySorted Z.lt (map wf_iev (kept wfs)) -> NoDup (dkeys (s_base src)) -> NoDup (dkeys (s_config src)) -> NoDup (dkeys (s_mcheader src)) ->
  dl1_round_trip mem down (total_call (charge_cc_local y) t_cor dummy n_pixels) src ms n_pixels (first_baseline n_pixels wfs) wfs r ->
  nth_error out k = Some (w, vals) -> nth_error vals p = Some (fci, (bl, c)) ->
  exists rows x, dl1_getitem r (wf_iev w) = Ok rows /\ nth_error rows p = Some (RData x) /\
    d_iev x = wf_iev w /\ d_pixel x = Z.of_nat p /\ d_pay x = down (bl, c).
Proof.
  intros y t_cor dummy np wfs out mem down src ms r k w vals p fci bl c H L P1 P2 I SO N1 N2 N3 RT N V.
  assert (IO : In (w, vals) out) by now apply nth_error_In in N.
  assert (NE : kept wfs <> []).
  { destruct (loop_out _ _ _ _ _ H) as (tcs & _ & M & _). rewrite <- M. intro Z. destruct out; [destruct IO|discriminate]. }
  destruct (C81_file _ _ _ dummy _ _ _ mem down src ms r H L P1 P2 NE I SO N1 N2 N3 RT) as (G & _). specialize (G _ IO). cbn [fst snd] in G.
  exists (stored_event down (w, vals)). unfold stored_event at 2. cbn [fst snd]. rewrite nth_error_map, nth_error_combine, V.
  assert (PL : p < List.length vals) by (apply nth_error_Some; congruence).
  rewrite nth_error_seq. destruct (Nat.ltb_spec p (List.length vals)); [|lia]. cbn [option_map]. eexists. split; [exact G|]. split; [reflexivity|]. cbn. auto.
Qed.
Print Assumptions C114_file.

(** 60 events of one pixel with the pedestal 10; the 56th has a pulse of 7 photoelectrons with its maximum at sample [t]. *)
Definition pulse6 : list Qc := map qz [0; 2; 5; 3; -1; 0]%Z.
Definition samples_of (A t : nat) : list Qc :=
  map (fun k => (qz 10 + qn A * get0 (snd (normalise_pulse pulse6)) (Z.of_nat k - Z.of_nat t + Z.of_nat (argmax pulse6)))%Qc) (seq 0 24).
Definition pulse_run (t : nat) : list (wf body) :=
  map (fun i => WF (Z.of_nat i) false false 0 0 None ([samples_of (if i =? 55 then 7 else 0) t], [3%Z])) (seq 0 60).
Definition charges_in (run : list (wf body)) : res (list (Z * (Q * Q))) :=
  (do out <- extract (charge_cc_local pulse6) None 1 run;
   Ok (map (fun v => (fst v, (this (fst (snd v)), this (snd (snd v))))) (snd (nth 55 out (WF 0 false false 0 0 None ([], []), [])))))%py.
Example C114_ex : charges_in (pulse_run 18) = Ok [(3%Z, (10 # 1, 7 # 1))]%Q /\ this (gain pulse6) = (33 # 13)%Q /\ this (trapz pulse6) = (9 # 1)%Q.
Proof. vmr. Qed.
Example C114_ex_pulse : pulse_on pulse6 (qz 10) (qz 7) 0 18 24 (samples_of 7 18) /\ quiet 0 (qz 10) 0 [samples_of 7 18].
Proof.
  split; (split; [vm_compute; try reflexivity; lia|]); intros k K; (do 24 (destruct k as [|k]; [first [exfalso; lia|split; unfold Qcle; vm_compute; discriminate]|])); lia.
Qed.

(** A pulse that reaches into the first 16 samples raises its own baseline: the stored charge is not that of the pulse,
    although nothing disturbs it. *)
Lemma filter_all : forall A (f : A -> bool) l, (forall x, In x l -> f x = true) -> filter f l = l.
Proof. intros A f l H. induction l as [|x l IH]; [reflexivity|]. cbn [filter]. rewrite (H x) by now left. f_equal. apply IH. intros. apply H. now right. Qed.
Lemma early_kept : nth_error (kept (pulse_run 8)) 55 = Some (WF 55 false false 0 0 None ([samples_of 7 8], [3%Z])).
Proof. unfold kept, pulse_run. rewrite filter_all by (intros x I; apply in_map_iff in I as (i & <- & _); reflexivity). rewrite nth_error_map. reflexivity. Qed.
Lemma early_pulse : pulse_on pulse6 (qz 10) (qz 7) 0 8 24 (samples_of 7 8).
Proof. split; [unfold samples_of; now rewrite map_length, seq_length|]. intros k K. do 24 (destruct k as [|k]; [split; unfold Qcle; vm_compute; discriminate|]). exfalso. lia. Qed.
Lemma early_quiet : quiet 0 (qz 10) 0 [samples_of 0 8].
Proof.
  split; [cbn [nth]; unfold samples_of; rewrite map_length, seq_length; lia|]. intros j J. cbn [nth].
  do 16 (destruct j as [|j]; [split; unfold Qcle; vm_compute; discriminate|]). exfalso. lia.
Qed.
Lemma early_values : charges_in (pulse_run 8) = Ok [(3%Z, (8007 # 800, 72611 # 10400))]%Q.
Proof. vm_compute. reflexivity. Qed.
Lemma read_charges : forall run x, charges_in run = Ok [x] -> exists out w fci bl c, extract (charge_cc_local pulse6) None 1 run = Ok out /\
  nth_error (kept run) 55 = Some w /\ nth_error out 55 = Some (w, [(fci, (bl, c))]) /\ x = (fci, (this bl, this c)).
Proof.
  intros run x E. unfold charges_in, bind in E.
  destruct (extract (charge_cc_local pulse6) None 1 run) as [out|] eqn:X; [|discriminate E]. injection E as E.
  assert (M : map fst out = kept run) by (destruct (loop_out _ _ _ _ _ X) as (_ & _ & M & _); exact M).
  destruct (nth_error out 55) as [[w vals]|] eqn:N; [|rewrite nth_overflow in E by (now apply nth_error_None); discriminate E].
  rewrite (nth_error_nth _ _ _ N) in E. cbn [snd] in E. destruct vals as [|[fci [bl c]] [|v vals]]; try discriminate E. cbn [map fst snd] in E. injection E as <-.
  exists out, w, fci, bl, c. split; [reflexivity|]. split; [rewrite <- M, nth_error_map, N; reflexivity|]. split; [exact N|reflexivity].
Qed.
Theorem C114_early_pulse_refuted : exists y n wfs out w vals fci bl c b A t, extract (charge_cc_local y) None 1 wfs = Ok out /\ nth_error out 55 = Some (w, vals) /\
  nth_error vals 0 = Some (fci, (bl, c)) /\ (0 < trapz y)%Qc /\ (0 < A)%Qc /\ argmax y <= t /\ t + List.length y <= n + argmax y /\
  pulse_on y b A 0 t n (nth 0 (fst (wf_body w)) []) /\ (forall v, In v wfs -> v <> w -> quiet 0 b 0 (fst (wf_body v))) /\ bl <> b /\ c <> A.
Proof.
  destruct (read_charges _ _ early_values) as (out & w & fci & bl & c & X & K & N & V).
  rewrite early_kept in K. injection K as <-.
  exists pulse6, 24, (pulse_run 8), out. eexists. eexists. exists fci, bl, c, (qz 10), (qz 7), 8.
  split; [exact X|]. split; [exact N|]. clear X N. split; [reflexivity|]. split; [vm_compute; reflexivity|]. split; [vm_compute; reflexivity|]. split; [vm_compute; lia|]. split; [vm_compute; lia|].
  split; [exact early_pulse|]. split; [|split].
  - intros v I W. unfold pulse_run in I. apply in_map_iff in I as (i & <- & I). apply in_seq in I. destruct (Nat.eqb_spec i 55) as [->|NI]; [exfalso; apply W; reflexivity|exact early_quiet].
  - intros ->. apply (f_equal (fun x => fst (snd x))) in V. discriminate V.
  - intros ->. apply (f_equal (fun x => snd (snd x))) in V. discriminate V.
Qed.
Print Assumptions C114_early_pulse_refuted.
