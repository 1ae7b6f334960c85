(** Property C92: the extracted charges in double precision.

    [g64 k] is (1 + 2^-53)^k, [c64] is 2^-1022, [l1 l] the sum of the absolute values of [l]; [cc_err weights B] is
    (g64 m - 1) (l1 weights * B + m c64) with m the number of weights.  The exact columns ([charge_cc_local], ...) are those of C53-C56. *)
From Coq Require Import List ZArith QArith Qcanon Bool Arith Lia Reals Permutation.
From Flocq Require Import Core.
From Verif.Base Require Import Py Num Lst Fl FlFacts FlSum FlSumFacts.
From Verif.WfUtils Require Import Model.
From Verif.Reducers Require Import Model Proofs Proofs2 ModelFloat ProofsFloat.
From Coq Require Import Lra.
Import ListNotations.
Local Open Scope list_scope.
Local Open Scope R_scope.

Lemma Forall2_nth : forall A B (P : A -> B -> Prop) l l', Forall2 P l l' -> forall i a, nth_error l i = Some a -> exists b, nth_error l' i = Some b /\ P a b.
Proof. induction 1 as [|a b l l' H F IH]; intros [|i] x E; try discriminate; cbn in *; [injection E as <-; eauto|now apply IH]. Qed.

(** ** Peak found in each pixel *)
Theorem C92_local : forall reference w charge B i row, 0 <= B -> nth_error w i = Some row -> row <> [] -> (forall x, In x row -> rabs x <= B) ->
  fl_charge_cc_local reference w charge ->
  exists v, nth_error charge i = Some v /\ Rabs (q2r v - q2r (qmax (correlate1d row reference (cc_origin reference)))) <= cc_err reference B.
Proof.
  intros ref w q B i row B0 R N HB (c & C & ->). destruct (Forall2_nth _ _ _ _ _ C i row R) as (cr & CR & F).
  exists (nth (argmax cr) cr 0%Qc). split; [now rewrite nth_error_map, CR|]. change (nth (argmax cr) cr 0%Qc) with (qmax cr). destruct F as [L D].
  apply max_close; [intros ->; destruct row; [easy|discriminate]|now rewrite correlate1d_length|].
  intros k K. rewrite L in K. apply (correlate_error row ref _ cr B k); auto. split; auto.
Qed.
Print Assumptions C92_local.

(** A pulse of amplitude [A] at [t] with disturbances up to [noise] in each sample, and a reference pulse known up to [eps] in each
    sample: the extracted charge is [A] within the errors of the three. *)
Theorem C92_noisy_pulse : forall y reference w charge B noise eps i row pulse A t n,
  (0 < trapz y)%Qc -> (0 < A)%Qc -> (argmax y <= t)%nat -> (t + List.length y <= n + argmax y)%nat -> placed (snd (normalise_pulse y)) (argmax y) A t n pulse ->
  nth_error w i = Some row -> List.length row = n -> 0 <= B -> (forall x, In x row -> rabs x <= B) ->
  0 <= noise -> (forall k, (k < n)%nat -> Rabs (q2r (nth k row 0%Qc) - q2r (nth k pulse 0%Qc)) <= noise) ->
  let exact_reference := fst (normalise_pulse y) in
  List.length reference = List.length y -> cc_origin reference = cc_origin exact_reference ->
  0 <= eps -> (forall j, (j < List.length y)%nat -> Rabs (q2r (nth j reference 0%Qc) - q2r (nth j exact_reference 0%Qc)) <= eps) ->
  fl_charge_cc_local reference w charge ->
  exists v, nth_error charge i = Some v /\ Rabs (q2r v - q2r A) <= cc_err reference B + l1 exact_reference * noise + INR (List.length y) * eps * B.
Proof.
  intros y ref w q B noise eps i row pulse A t n T PA P1 P2 PL R LR B0 HB N0 HN er LREF OR E0 HE F.
  destruct (cc_row_bound y A t n pulse T P1 P2) as (LC & TN & ET & BT); [now apply Qclt_le_weak|exact PL|]. cbv zeta in *. fold er in LC, ET, BT.
  assert (NE : row <> []) by (intros ->; cbn in LR; lia).
  destruct (C92_local ref w q B i row B0 R NE HB F) as (v & V & HV). exists v. split; [exact V|].
  set (c0 := correlate1d pulse er (cc_origin er)) in *. rewrite OR in HV. set (c1 := correlate1d row ref (cc_origin er)) in *.
  assert (M0 : qmax c0 = A).
  { unfold qmax. assert (NC : c0 <> []) by (intros K; rewrite K in LC; cbn in LC; lia). destruct (argmax_spec c0 NC) as (A1 & A2 & _). rewrite LC in *. apply Qcle_antisym; [now apply BT|]. rewrite <- ET. now apply A2. }
  assert (LER : List.length er = List.length y) by (unfold er, normalise_pulse; cbn [fst]; now rewrite map_length).
  assert (LP : List.length pulse = n) by apply PL.
  assert (D : Rabs (q2r (qmax c1) - q2r (qmax c0)) <= l1 er * noise + INR (List.length y) * eps * B).
  { apply max_close.
    - intros K. assert (LL : List.length c1 = n) by (unfold c1; now rewrite correlate1d_length). rewrite K in LL. cbn in LL. lia.
    - unfold c1, c0. rewrite !correlate1d_length. congruence.
    - intros k K. unfold c1 in K. rewrite correlate1d_length, LR in K. unfold c1, c0. rewrite !taps_sum by (congruence || lia). unfold taps. rewrite LREF, LER, !map_map. cbn [fst snd].
      rewrite !q2r_qsum, !map_map.
      set (s := fun j => (Z.of_nat k + Z.of_nat j - Z.of_nat (List.length y / 2) - cc_origin er)%Z).
      rewrite rsum_minus. eapply Rle_trans; [apply rsum_abs|]. rewrite map_map.
      apply Rle_trans with (rsum (map (fun j => rabs (nth j er 0%Qc) * noise + eps * B) (seq 0 (List.length y)))).
      + apply rsum_le. intros j J. apply in_seq in J. rewrite !q2r_mult. change (Z.of_nat k + Z.of_nat j - Z.of_nat (List.length y / 2) - cc_origin er)%Z with (s j).
        replace (q2r (nth j ref 0%Qc) * q2r (get0 row (s j)) - q2r (nth j er 0%Qc) * q2r (get0 pulse (s j)))
          with (q2r (nth j er 0%Qc) * (q2r (get0 row (s j)) - q2r (get0 pulse (s j))) + (q2r (nth j ref 0%Qc) - q2r (nth j er 0%Qc)) * q2r (get0 row (s j))) by ring.
        eapply Rle_trans; [apply Rabs_triang|]. rewrite !Rabs_mult. apply Rplus_le_compat.
        * apply Rmult_le_compat_l; [apply Rabs_pos|]. unfold get0. rewrite LR, LP. destruct (_ && _)%bool eqn:E; [|rewrite Rminus_diag_eq by reflexivity; rewrite Rabs_R0; exact N0].
          apply andb_true_iff in E as [E1 E2]. apply Z.leb_le in E1. apply Z.ltb_lt in E2. apply HN. lia.
        * apply Rmult_le_compat; [apply Rabs_pos|apply Rabs_pos|apply HE; lia|]. now apply get0_bound.
      + rewrite rsum_plus, rsum_const, seq_length, rsum_scale. rewrite <- LER at 1. rewrite (map_nth_seq _ _ rabs er 0%Qc). unfold l1. lra. }
  rewrite M0 in D. replace (q2r v - q2r A) with ((q2r v - q2r (qmax c1)) + (q2r (qmax c1) - q2r A)) by lra. eapply Rle_trans; [apply Rabs_triang|]. lra.
Qed.
Print Assumptions C92_noisy_pulse.

Theorem C92_sliding_local : forall size w charge B i row, 0 <= B -> nth_error w i = Some row -> row <> [] -> (forall x, In x row -> rabs x <= B) ->
  fl_charge_sliding_local size w charge ->
  exists v e, nth_error charge i = Some v /\ nth_error (charge_sliding_local size w) i = Some e /\ Rabs (q2r v - q2r e) <= (g64 size - 1) * (INR size * (B + c64)).
Proof.
  intros size w q B i row B0 R N HB (c & C & ->). destruct (Forall2_nth _ _ _ _ _ C i row R) as (cr & CR & F). destruct F as [L D].
  exists (qmax cr), (qmax (window_sums size row)). split; [now rewrite nth_error_map, CR|]. split; [unfold charge_sliding_local; now rewrite nth_error_map, R|].
  assert (W : l1 (repeat 1%Qc size) = INR size).
  { unfold l1. replace (INR size) with (INR (List.length (repeat 1%Qc size)) * 1) by (rewrite repeat_length; lra). rewrite <- rsum_const. f_equal. apply map_ext_in. intros x X. apply repeat_spec in X as ->. unfold rabs. now rewrite q2r_1, Rabs_R1. }
  replace ((g64 size - 1) * (INR size * (B + c64))) with (cc_err (repeat 1%Qc size) B) by (unfold cc_err; rewrite W, repeat_length; ring).
  apply max_close; [intros ->; destruct row; [easy|discriminate]|unfold window_sums; now rewrite correlate1d_length|].
  intros k K. rewrite L in K. apply (correlate_error row _ _ cr B k); auto. split; auto.
Qed.
Print Assumptions C92_sliding_local.

(** ** Peak of the average over the pixels.  [mean_err] is the error of that average. *)
Definition mean_err (reference : list Qc) (B : R) (n_pixels : nat) : R :=
  (g64 n_pixels - 1) * (l1 reference * B + cc_err reference B + c64) + cc_err reference B.
Definition exact_cc (reference : list Qc) (w : event) : event := map (fun row => correlate1d row reference (cc_origin reference)) w.
Theorem C92_common : forall reference w n B k charge, 0 <= B -> w <> [] -> (0 < n)%nat -> Forall (fun row => List.length row = n) w -> (forall row x, In row w -> In x row -> rabs x <= B) ->
  fl_charge_cc reference w n k charge ->
  let avg := mean0 (exact_cc reference w) n in let E := mean_err reference B (List.length w) in
  (k < n)%nat /\
  (forall i row, nth_error w i = Some row -> exists v, nth_error charge i = Some v /\ Rabs (q2r v - q2r (nth k (correlate1d row reference (cc_origin reference)) 0%Qc)) <= cc_err reference B) /\
  (forall j, (j < n)%nat -> q2r (nth j avg 0%Qc) <= q2r (nth k avg 0%Qc) + 2 * E) /\
  (forall k', (k' < n)%nat -> (forall j, (j < n)%nat -> j <> k' -> q2r (nth j avg 0%Qc) + 2 * E < q2r (nth k' avg 0%Qc)) -> k = k').
Proof.
  intros ref w n B k q B0 NE N R HB (c & m & C & (LM & M) & K & Q) avg E. rewrite Forall_forall in R.
  assert (LA : List.length avg = n) by (unfold avg, mean0; now rewrite map_length, seq_length).
  assert (LCW : List.length c = List.length w) by (clear -C; unfold fl_cc in C; induction C; cbn; congruence).
  assert (CLOSE : forall i j, (i < List.length w)%nat -> (j < n)%nat -> Rabs (q2r (nth j (nth i c []) 0%Qc) - q2r (nth j (correlate1d (nth i w []) ref (cc_origin ref)) 0%Qc)) <= cc_err ref B).
  { intros i j I J. destruct (Forall2_nth _ _ _ _ _ C i (nth i w [])) as (cr & CR & F); [now apply nth_error_nth'|]. rewrite (nth_error_nth c i [] CR).
    assert (IW : In (nth i w []) w) by now apply nth_In. apply (correlate_error (nth i w []) ref _ cr B j); auto; [intros x X; exact (HB _ x IW X)|]. rewrite (R _ IW). exact J. }
  assert (MC : forall j, (j < List.length m)%nat -> Rabs (q2r (nth j m 0%Qc) - q2r (nth j avg 0%Qc)) <= E).
  { intros j J. rewrite LM in J. assert (AV : nth j avg 0%Qc = qmean (map (fun row => nth j row 0%Qc) (exact_cc ref w))) by (unfold avg, mean0, qmean; rewrite nth_map_seq by exact J; now rewrite map_length).
    rewrite AV. unfold E, mean_err. rewrite <- LCW, <- (map_length (fun row => nth j row 0%Qc) c). apply mean_close.
    - intros Z. apply map_eq_nil in Z. subst c. destruct w; [easy|discriminate].
    - unfold exact_cc. now rewrite !map_length.
    - intros i I. rewrite map_length, LCW in I. rewrite (nth_indep _ 0%Qc (nth j [] 0%Qc)) by (now rewrite map_length, LCW). rewrite (map_nth (fun row => nth j row 0%Qc)).
      rewrite (nth_indep (map (fun row => nth j row 0%Qc) (exact_cc ref w)) 0%Qc (nth j [] 0%Qc)) by (unfold exact_cc; now rewrite !map_length). rewrite (map_nth (fun row => nth j row 0%Qc)).
      unfold exact_cc. rewrite (nth_indep (map (fun row => correlate1d row ref (cc_origin ref)) w) [] (correlate1d [] ref (cc_origin ref))) by (now rewrite map_length). rewrite (map_nth (fun row => correlate1d row ref (cc_origin ref))). now apply CLOSE.
    - intros x X. apply in_map_iff in X as (cr & <- & CR). destruct (In_nth c cr [] CR) as (i & I & <-). rewrite LCW in I. pose proof (CLOSE i j I J) as H.
      assert (IW : In (nth i w []) w) by now apply nth_In. pose proof (correlate_bound (nth i w []) ref (cc_origin ref) B j B0 (fun x X => HB _ x IW X)) as H2. rewrite (R _ IW) in H2. specialize (H2 J).
      unfold rabs in *. apply Rabs_le. apply Rabs_le_inv in H, H2. lra.
    - exact (M j J). }
  assert (NM : m <> []) by (intros ->; cbn in LM; lia). destruct (peak_close m avg E NM) as (P1 & P2 & P3); [congruence|exact MC|]. rewrite <- K, LA in *.
  split; [exact P1|]. split; [|split; [exact P2|exact P3]].
  intros i row RI. assert (I : (i < List.length w)%nat) by (apply nth_error_Some; congruence). exists (nth k (nth i c []) 0%Qc). split.
  - rewrite Q, nth_error_map, (nth_error_nth' c []) by lia. reflexivity.
  - rewrite <- (nth_error_nth w i [] RI). now apply CLOSE.
Qed.
Print Assumptions C92_common.

(** ** Window about the peak of the average waveform *)
Theorem C92_averagewf : forall size shift w n B t charge, 0 <= B -> w <> [] -> (20 <= n)%nat -> Forall (fun row => List.length row = n) w -> (forall row x, In row w -> In x row -> rabs x <= B) ->
  (0 <= size)%Z -> (shift <= 10)%Z -> (size - shift <= 10)%Z ->
  fl_charge_averagewf size shift w n t charge ->
  let avg := mean0 w n in let E := (g64 (List.length w) - 1) * (B + c64) in
  (10 <= t <= Z.of_nat n - 10)%Z /\
  (forall i row, nth_error w i = Some row -> exists v, nth_error charge i = Some v /\
    Rabs (q2r v - q2r (window_sum row (Z.to_nat (t - shift)) (Z.to_nat size))) <= (g64 (Z.to_nat size - 1) - 1) * (INR (Z.to_nat size) * (B + c64))) /\
  (forall k, (k < n)%nat -> (forall j, (j < n)%nat -> j <> k -> q2r (nth j avg 0%Qc) + 2 * E < q2r (nth k avg 0%Qc)) -> t = extraction_time None w n).
Proof.
  intros size shift w n B t q B0 NE N R HB S1 S2 S3 ((m & (LM & M) & T) & CH) avg E. rewrite Forall_forall in R.
  assert (LA : List.length avg = n) by (unfold avg, mean0; now rewrite map_length, seq_length).
  assert (MC : forall j, (j < List.length m)%nat -> Rabs (q2r (nth j m 0%Qc) - q2r (nth j avg 0%Qc)) <= E).
  { intros j J. rewrite LM in J. assert (AV : nth j avg 0%Qc = qmean (map (fun row => nth j row 0%Qc) w)) by (unfold avg, mean0, qmean; rewrite nth_map_seq by exact J; now rewrite map_length).
    rewrite AV. replace E with (E + 0) by lra. unfold E. rewrite <- (map_length (fun row => nth j row 0%Qc) w). apply mean_close.
    - intros Z. apply map_eq_nil in Z. easy.
    - reflexivity.
    - intros i _. rewrite Rminus_diag_eq by reflexivity. rewrite Rabs_R0. lra.
    - intros x X. apply in_map_iff in X as (row & <- & RW). apply (HB row); [exact RW|]. apply nth_In. now rewrite (R _ RW).
    - exact (M j J). }
  assert (NM : m <> []) by (intros ->; cbn in LM; lia). destruct (argmax_spec m NM) as (AM & _). rewrite LM in AM.
  assert (TR : (10 <= t <= Z.of_nat n - 10)%Z). { rewrite T. cbv zeta. destruct (Z.ltb_spec (Z.of_nat (argmax m)) 10); [lia|]. destruct (Z.ltb_spec (Z.of_nat n - 10) (Z.of_nat (argmax m))); lia. }
  split; [exact TR|]. split.
  - intros i row RI. destruct (Forall2_nth _ _ _ _ _ CH i row RI) as (v & V & SV). exists v. split; [exact V|].
    assert (IW : In row w) by (eapply nth_error_In; eauto). pose proof (R _ IW) as LR.
    assert (CW := charge_window (Some t) size shift [row] n). cbn [extraction_time] in CW. specialize (CW (Forall_cons _ LR (Forall_nil _))). cbv zeta in CW.
    unfold charge_averagewf, extraction_time in CW. cbn [map] in CW. specialize (CW (ltac:(lia)) S1 (ltac:(lia))). injection CW as CW. rewrite <- CW.
    assert (LS : List.length (pyslice row (Some (t - shift)%Z) (Some (t - shift + size)%Z)) = Z.to_nat size).
    { unfold pyslice, slice_bound. rewrite firstn_length, skipn_length, LR. destruct (Z.ltb_spec (t - shift) 0); [lia|]. destruct (Z.ltb_spec (t - shift + size) 0); lia. }
    rewrite <- LS. apply sum_close; [|exact SV]. intros x X. apply (HB row x IW). now apply pyslice_In in X.
  - intros k K ISO. destruct (peak_close m avg E NM) as (_ & _ & P3); [congruence|exact MC|]. rewrite LA in P3. pose proof (P3 k K ISO) as AK.
    assert (AE : argmax avg = k).
    { assert (NA : avg <> []) by (intros Z; rewrite Z in LA; cbn in LA; lia). destruct (peak_close avg avg 0 NA eq_refl) as (_ & _ & Q3); [intros; rewrite Rminus_diag_eq by reflexivity; rewrite Rabs_R0; lra|]. rewrite LA in Q3.
      apply Q3; [exact K|]. intros j J JK. specialize (ISO j J JK). assert (0 <= E); [|lra]. unfold E. pose proof c64_pos. pose proof (growth_1 53 (List.length w)). apply Rmult_le_pos; lra. }
    rewrite T, AK. unfold extraction_time, event_time. fold avg. now rewrite AE.
Qed.
Print Assumptions C92_averagewf.

(** ** Means of the Common reducer: bounds [a], [b] are (0, 20), (-20, end) and (start, end). *)
Theorem C92_means : forall a b w col B i row, 0 <= B -> nth_error w i = Some row -> pyslice row a b <> [] -> (forall x, In x row -> rabs x <= B) -> fl_mean_column a b w col ->
  exists v, nth_error col i = Some v /\ Rabs (q2r v - q2r (qmean (pyslice row a b))) <= (g64 (List.length row) - 1) * (B + c64).
Proof.
  intros a b w col B i row B0 R N HB F. destruct (Forall2_nth _ _ _ _ _ F i row R) as (v & V & M). exists v. split; [exact V|].
  assert (SUB : forall x, In x (pyslice row a b) -> In x row) by (intros x; apply pyslice_In).
  eapply Rle_trans; [apply (mean_close (pyslice row a b) (pyslice row a b) v 0 B N eq_refl)|].
  - intros. rewrite Rminus_diag_eq by reflexivity. rewrite Rabs_R0. lra.
  - intros x X. apply HB, SUB, X.
  - exact M.
  - rewrite Rplus_0_r. apply Rmult_le_compat_r; [pose proof c64_pos; lra|]. apply Rplus_le_compat_r. apply growth_le. unfold pyslice. rewrite firstn_length, skipn_length. lia.
Qed.
Print Assumptions C92_means.

(** A kernel of 60 samples with absolute sum at most 10 and samples up to 4000 mV: below 1e-9. *)
Theorem C92_numbers : forall reference, (List.length reference <= 60)%nat -> l1 reference <= 10 -> cc_err reference 4000 <= / 10 ^ 9.
Proof.
  intros ref L W. unfold cc_err. assert (U : ulp1 53 = / 9007199254740992) by (unfold ulp1; cbn; lra).
  assert (N60 : INR 60 = 60) by (rewrite INR_IZR_INZ; reflexivity). assert (G : g64 60 - 1 <= 2 * (INR 60 * ulp1 53)) by (apply growth_small; rewrite U, N60; lra). rewrite U, N60 in G.
  assert (GL : g64 (List.length ref) <= g64 60) by now apply growth_le. assert (G1 := growth_1 53 (List.length ref)). assert (LI : INR (List.length ref) <= 60) by (rewrite <- N60; now apply le_INR).
  assert (C1 : c64 <= 1) by (unfold normal_min; change 1 with (bpow radix2 0); apply bpow_le; lia). pose proof c64_pos. pose proof (pos_INR (List.length ref)). pose proof (l1_nonneg ref).
  apply Rle_trans with (2 * (60 * / 9007199254740992) * (10 * 4000 + 60 * 1)); [|lra]. apply Rmult_le_compat; try lra.
  - apply Rplus_le_le_0_compat; apply Rmult_le_pos; lra.
  - apply Rplus_le_compat; [apply Rmult_le_compat; lra|apply Rmult_le_compat; lra].
Qed.
Print Assumptions C92_numbers.

(** 0.1 + 0.2 + 0.3 in a window of three: the two possible orders give two charges, 2^-53 apart. *)
Definition tenths : list Qc := map (fun k => fl64 (qz k / qz 10)%Qc) [1; 2; 3]%Z.
Example C92_ex_orders : exists a b, sums_to fl64 tenths a /\ sums_to fl64 tenths b /\ (a - b = two (-53))%Qc.
Proof.
  exists (tree_sum fl64 (Node (Node (Leaf (nth 0 tenths 0%Qc)) (Leaf (nth 1 tenths 0%Qc))) (Leaf (nth 2 tenths 0%Qc)))), (tree_sum fl64 (Node (Leaf (nth 0 tenths 0%Qc)) (Node (Leaf (nth 1 tenths 0%Qc)) (Leaf (nth 2 tenths 0%Qc))))).
  split; [right; eexists; split; [|reflexivity]; apply Permutation_refl|]. split; [right; eexists; split; [|reflexivity]; apply Permutation_refl|]. apply Qc_is_canon, Qeq_bool_iff. vm_compute. reflexivity.
Qed.
(** Reference pulse 1, 2, 1 and a pulse of 1, 3, 1 at sample 2: charge 8 at the peak. *)
Lemma sums_in_order : forall rnd a l v, v = tree_sum rnd (in_order (Leaf a) l) -> sums_to rnd (a :: l) v.
Proof. intros rnd a l v ->. right. eexists. split; [|reflexivity]. rewrite in_order_leaves. apply Permutation_refl. Qed.
Example C92_ex_charge : fl_charge_cc_local (map qz [1; 2; 1]%Z) [map qz [0; 1; 3; 1; 0]%Z] [qz 8].
Proof.
  exists [map qz [1; 5; 8; 5; 1]%Z]. split; [|reflexivity]. constructor; [|constructor]. split; [reflexivity|]. intros i I. cbn in I.
  do 5 (destruct i as [|i]; [apply sums_in_order; apply Qc_is_canon, Qeq_bool_iff; vm_compute; reflexivity|]). lia.
Qed.
