(** Property C97: charge resolution and charge statistics in double precision.

    [fl64]: rounding to the nearest double (Base/Fl.v); [q2r]: the real number of a rational; [sums_to fl64 l v]: [v] is the value
    of some order of rounded additions of the numbers [l] (Base/FlSum.v); [g64 k] = (1 + 2^-53)^k, so [g64 k - 1] is about
    k 2^-53; [c64] = 2^-1022, the smallest normal number; [rsum]: a sum of real numbers. *)
From Coq Require Import List ZArith QArith Qcanon Bool Lia Permutation Sorted Reals.
From Flocq Require Import Core.
From Verif.Base Require Import Py PyFacts Num Lst Fl FlFacts FlSum FlSumFacts.
From Verif.Reducers Require Import Model Proofs2.
From Verif.Resol Require Import Model Proofs Proofs2 Props ModelFloat ProofsFloat ProofsFloat2.
From Coq Require Import Lra.
Import ListNotations.
Local Open Scope list_scope.

(** What an entry contributes: the rounded square of the rounded difference. *)
Definition contribution (e : entry) : Qc := (let d := fl64 (e_value e - e_true e) in fl64 (d * d))%Qc.
Definition rounded_square (e : entry) : Qc := fl64 (e_value e * e_value e)%Qc.
Definition sum_of (r : frow) : Qc := nth 0 (fcols r) 0%Qc.
Definition sum2_of (r : frow) : Qc := nth 1 (fcols r) 0%Qc.
Definition pixel_of (r : frow) : Z := fst (fkey r).
Definition true_of (r : frow) : Qc := snd (fkey r).
Definition key_order (a b : frow) : Prop := (pixel_of a < pixel_of b)%Z \/ (pixel_of a = pixel_of b /\ (true_of a < true_of b)%Qc).
(** Row [r] holds the entries [of] of a resolution, of a statistics. *)
Definition holds_resolution (of : list entry) (r : frow) : Prop := of <> [] /\ sums_to fl64 (map contribution of) (sum_of r) /\ fnum r = List.length of.
Definition holds_statistics (of : list entry) (r : frow) : Prop :=
  of <> [] /\ sums_to fl64 (map e_value of) (sum_of r) /\ sums_to fl64 (map rounded_square of) (sum2_of r) /\ fnum r = List.length of.

Lemma sorted_rows : forall l, StronglySorted (fun a b => key_ltb a b = true) (map fkey l) -> StronglySorted key_order l.
Proof.
  induction l as [|r l IH]; intros S; [constructor|]. cbn [map] in S. inversion S as [|? ? S' F]; subst. constructor; [now apply IH|]. rewrite Forall_forall in *. intros x I. specialize (F (fkey x) (in_map _ _ _ I)).
  destruct (key_ltb_spec (fkey r) (fkey x)) as [K|]; [exact K|discriminate].
Qed.
Lemma sorted_camera : forall l, (forall r, In r l -> fst (fkey r) = 0%Z) -> StronglySorted key_order l -> StronglySorted (fun a b => true_of a < true_of b)%Qc l.
Proof.
  intros l Z S. induction S as [|r l S IH F]; constructor; [apply IH; intros; apply Z; now right|]. rewrite Forall_forall in *. intros x I. specialize (F x I). unfold key_order, pixel_of in F. rewrite (Z r), (Z x) in F by (try (now left); now right). destruct F as [F|[_ F]]; [lia|exact F].
Qed.
Lemma res_row_ok : forall e, fkey (fl_resolution_row e) = kf e /\ List.length (fcols (fl_resolution_row e)) = 1%nat /\ fnum (fl_resolution_row e) = 1%nat.
Proof. intros [[p t] m]. repeat split. Qed.
Lemma stat_row_ok : forall e, fkey (fl_statistics_row e) = kf e /\ List.length (fcols (fl_statistics_row e)) = 2%nat /\ fnum (fl_statistics_row e) = 1%nat.
Proof. intros [[p t] m]. repeat split. Qed.
Lemma holds_res : forall of r, row_ok 1 fl_resolution_row of r -> holds_resolution of r.
Proof.
  intros of r (A & _ & B & C). split; [exact A|]. split; [|exact C]. specialize (B 0%nat (Nat.lt_0_succ 0)). erewrite map_ext; [exact B|]. intros [[p t] m]. reflexivity.
Qed.
Lemma holds_stat : forall of r, row_ok 2 fl_statistics_row of r -> holds_statistics of r.
Proof.
  intros of r (A & _ & B & C). split; [exact A|]. split; [|split; [|exact C]].
  - specialize (B 0%nat ltac:(lia)). erewrite map_ext; [exact B|]. intros [[p t] m]. reflexivity.
  - specialize (B 1%nat ltac:(lia)). erewrite map_ext; [exact B|]. intros [[p t] m]. reflexivity.
Qed.
Lemma keep_nonzero : forall t, keep_resolution t = true <-> t <> 0%Qc.
Proof. intros t. unfold keep_resolution. destruct (qeqb_spec t 0%Qc); cbn; split; intros; congruence. Qed.

(** C97. Whatever the calls of add and finish, wherever the memory threshold makes the object amalgamate, and in whatever order
    the groups are added up: each row of the result is a sum, in some order, of the contributions of exactly the entries of its
    pixel and true charge (of its true charge in the table of the camera), with their number. *)
Theorem C97_resolution_rows : forall calls df_p df_c, fl_resolution calls df_p df_c ->
  let l := entries calls in
  StronglySorted key_order df_p /\
  (forall r, In r df_p -> true_of r <> 0%Qc /\ holds_resolution (of_pixel (pixel_of r) (true_of r) l) r) /\
  (forall e, In e l -> e_true e <> 0%Qc -> exists r, In r df_p /\ pixel_of r = e_pixel e /\ true_of r = e_true e) /\
  StronglySorted (fun a b => true_of a < true_of b)%Qc df_c /\
  (forall r, In r df_c -> true_of r <> 0%Qc /\ holds_resolution (of_true (true_of r) l) r) /\
  (forall e, In e l -> e_true e <> 0%Qc -> exists r, In r df_c /\ true_of r = e_true e).
Proof.
  intros calls df_p df_c H l. destruct (session_rows 1 fl_resolution_row keep_resolution res_row_ok calls df_p df_c H) as (A & B & C & D & E & F). fold l in B, C, E, F.
  split; [now apply sorted_rows|]. split; [|split; [|split; [|split]]].
  - intros r R. destruct (B r R) as [K O]. split; [now apply keep_nonzero|]. now apply holds_res.
  - intros e I N. destruct (C e I) as (r & R & K); [now apply keep_nonzero|]. exists r. unfold pixel_of, true_of. now rewrite K.
  - apply sorted_camera; [intros r R; now apply E|now apply sorted_rows].
  - intros r R. destruct (E r R) as (_ & K & O). split; [now apply keep_nonzero|]. now apply holds_res.
  - intros e I N. destruct (F e I) as (r & R & K); [now apply keep_nonzero|]. exists r. unfold true_of. now rewrite K.
Qed.
Print Assumptions C97_resolution_rows.

Theorem C97_statistics_rows : forall calls df_p df_c, fl_statistics calls df_p df_c ->
  let l := entries calls in
  StronglySorted key_order df_p /\
  (forall r, In r df_p -> holds_statistics (of_pixel (pixel_of r) (true_of r) l) r) /\
  (forall e, In e l -> exists r, In r df_p /\ pixel_of r = e_pixel e /\ true_of r = e_true e) /\
  StronglySorted (fun a b => true_of a < true_of b)%Qc df_c /\
  (forall r, In r df_c -> holds_statistics (of_true (true_of r) l) r) /\
  (forall e, In e l -> exists r, In r df_c /\ true_of r = e_true e).
Proof.
  intros calls df_p df_c H l. destruct (session_rows 2 fl_statistics_row keep_statistics stat_row_ok calls df_p df_c H) as (A & B & C & D & E & F). fold l in B, C, E, F.
  split; [now apply sorted_rows|]. split; [|split; [|split; [|split]]].
  - intros r R. destruct (B r R) as [K O]. now apply holds_stat.
  - intros e I. destruct (C e I eq_refl) as (r & R & K). exists r. unfold pixel_of, true_of. now rewrite K.
  - apply sorted_camera; [intros r R; now apply E|now apply sorted_rows].
  - intros r R. destruct (E r R) as (_ & K & O). now apply holds_stat.
  - intros e I. destruct (F e I eq_refl) as (r & R & K). exists r. unfold true_of. now rewrite K.
Qed.
Print Assumptions C97_statistics_rows.

(** Every sequence of calls that begins with an add has a result. *)
Theorem C97_result : forall batch calls,
  (exists df_p df_c, fl_resolution (Add batch :: calls) df_p df_c) /\ (exists df_p df_c, fl_statistics (Add batch :: calls) df_p df_c).
Proof. intros batch calls. split; apply session_exists. Qed.
Print Assumptions C97_result.

(** ** Two ways to add the same entries *)
Lemma sorted_same : forall l m : list key, StronglySorted (fun a b => key_ltb a b = true) l -> StronglySorted (fun a b => key_ltb a b = true) m -> (forall k, In k l <-> In k m) -> l = m.
Proof.
  assert (LT : forall a b, key_ltb a b = true -> key_lt a b) by (intros a b K; destruct (key_ltb_spec a b); [auto|discriminate]).
  induction l as [|a l IH]; intros m SL SM E.
  - destruct m as [|b m]; [reflexivity|]. destruct (proj2 (E b) (or_introl eq_refl)).
  - destruct m as [|b m]; [destruct (proj1 (E a) (or_introl eq_refl))|]. inversion SL as [|? ? SL' FL]; subst. inversion SM as [|? ? SM' FM]; subst. rewrite Forall_forall in *.
    assert (a = b) as <-.
    { destruct (proj1 (E a) (or_introl eq_refl)) as [|IA]; [auto|]. destruct (proj2 (E b) (or_introl eq_refl)) as [|IB]; [auto|]. exfalso. apply (key_lt_irrefl a). eapply key_lt_trans; [apply LT, FL, IB|apply LT, FM, IA]. }
    f_equal. apply IH; auto. intros k. split; intros I.
    + destruct (proj1 (E k) (or_intror I)) as [<-|]; [|auto]. exfalso. apply (key_lt_irrefl a). apply LT, FL, I.
    + destruct (proj2 (E k) (or_intror I)) as [<-|]; [|auto]. exfalso. apply (key_lt_irrefl a). apply LT, FM, I.
Qed.
Lemma same_sum_near : forall l l' v v', Permutation l l' -> l <> [] -> sums_to fl64 l v -> sums_to fl64 l' v' ->
  (Rabs (q2r v - q2r v') <= 2 * ((g64 (List.length l - 1) - 1) * (rsum (map (fun x => Rabs (q2r x)) l) + INR (List.length l) * c64)))%R.
Proof.
  intros l l' v v' PM NE S S'. apply (sums_to_perm _ _ _ _ (Permutation_sym PM)) in S'. pose proof (sum_error 53 (-1074) P53 l v S) as E. pose proof (sum_error 53 (-1074) P53 l v' S') as E'.
  replace (q2r v - q2r v')%R with ((q2r v - q2r (qsum l)) - (q2r v' - q2r (qsum l)))%R by ring. eapply Rle_trans; [unfold Rminus at 1; apply Rabs_triang|]. rewrite Rabs_Ropp. lra.
Qed.
(** The same entries in whatever batches and order: the same pixels, true charges and numbers; the sums differ by rounding only. *)
Definition up_to_rounding (of : list Qc) (a b : Qc) : Prop :=
  (Rabs (q2r a - q2r b) <= 2 * ((g64 (List.length of - 1) - 1) * (rsum (map (fun x => Rabs (q2r x)) of) + INR (List.length of) * c64)))%R.
Lemma of_pixel_perm : forall p t l l', Permutation l l' -> Permutation (of_pixel p t l) (of_pixel p t l').
Proof. intros. now apply filter_perm. Qed.
Lemma of_true_perm : forall t l l', Permutation l l' -> Permutation (of_true t l) (of_true t l').
Proof. intros. now apply filter_perm. Qed.
Lemma paired : forall (l m : list frow), map fkey l = map fkey m -> forall (Q : frow -> frow -> Prop), (forall a b, In a l -> In b m -> fkey a = fkey b -> Q a b) -> Forall2 Q l m.
Proof.
  induction l as [|a l IH]; intros [|b m] E Q H; try discriminate; constructor.
  - apply H; [now left|now left|]. cbn in E. congruence.
  - apply IH; [cbn in E; congruence|]. intros; apply H; auto; now right.
Qed.
Theorem C97_resolution_batches : forall calls df_p df_c calls' df_p' df_c', fl_resolution calls df_p df_c -> fl_resolution calls' df_p' df_c' ->
  Permutation (entries calls) (entries calls') ->
  Forall2 (fun r r' => pixel_of r = pixel_of r' /\ true_of r = true_of r' /\ fnum r = fnum r' /\
             up_to_rounding (map contribution (of_pixel (pixel_of r) (true_of r) (entries calls))) (sum_of r) (sum_of r')) df_p df_p' /\
  Forall2 (fun r r' => true_of r = true_of r' /\ fnum r = fnum r' /\
             up_to_rounding (map contribution (of_true (true_of r) (entries calls))) (sum_of r) (sum_of r')) df_c df_c'.
Proof.
  intros calls df_p df_c calls' df_p' df_c' H H' PM.
  destruct (session_rows 1 fl_resolution_row keep_resolution res_row_ok calls df_p df_c H) as (A & B & C & D & E & F). destruct (session_rows 1 fl_resolution_row keep_resolution res_row_ok calls' df_p' df_c' H') as (A' & B' & C' & D' & E' & F').
  set (l := entries calls) in *. set (l' := entries calls') in *.
  assert (KP : map fkey df_p = map fkey df_p').
  { apply sorted_same; auto. intros k. assert (forall l1 l2 d1 d2, Permutation l1 l2 -> (forall r, In r d1 -> keep_resolution (snd (fkey r)) = true /\ row_ok 1 fl_resolution_row (of_pixel (fst (fkey r)) (snd (fkey r)) l1) r) ->
      (forall e, In e l2 -> keep_resolution (e_true e) = true -> exists r, In r d2 /\ fkey r = (e_pixel e, e_true e)) -> In k (map fkey d1) -> In k (map fkey d2)) as S.
    { clear. intros l1 l2 d1 d2 PM B C I. apply in_map_iff in I as (r & <- & I). destruct (B r I) as (K & N & _). destruct (of_pixel (fst (fkey r)) (snd (fkey r)) l1) as [|e m] eqn:O; [contradiction|].
      assert (In e (e :: m)) as IE by now left. rewrite <- O in IE. apply filter_In in IE as [IE Q]. apply andb_prop in Q as [Q1 Q2]. apply Z.eqb_eq in Q1. destruct (qeqb_spec (e_true e) (snd (fkey r))) as [Q3|]; [|discriminate].
      destruct (C e) as (x & X & KX); [eapply Permutation_in; eassumption|now rewrite Q3|]. apply in_map_iff. exists x. split; [|exact X]. rewrite KX, Q1, Q3. symmetry. apply surjective_pairing. }
    split; intros I; [eapply S; [exact PM| | |exact I]; auto|eapply S; [apply Permutation_sym; exact PM| | |exact I]; auto]. }
  assert (KC : map fkey df_c = map fkey df_c').
  { apply sorted_same; auto. intros k. assert (forall l1 l2 d1 d2, Permutation l1 l2 -> (forall r, In r d1 -> fst (fkey r) = 0%Z /\ keep_resolution (snd (fkey r)) = true /\ row_ok 1 fl_resolution_row (of_true (snd (fkey r)) l1) r) ->
      (forall e, In e l2 -> keep_resolution (e_true e) = true -> exists r, In r d2 /\ fkey r = (0%Z, e_true e)) -> In k (map fkey d1) -> In k (map fkey d2)) as S.
    { clear. intros l1 l2 d1 d2 PM B C I. apply in_map_iff in I as (r & <- & I). destruct (B r I) as (Z & K & N & _). destruct (of_true (snd (fkey r)) l1) as [|e m] eqn:O; [contradiction|].
      assert (In e (e :: m)) as IE by now left. rewrite <- O in IE. apply filter_In in IE as [IE Q]. destruct (qeqb_spec (e_true e) (snd (fkey r))) as [Q3|]; [|discriminate].
      destruct (C e) as (x & X & KX); [eapply Permutation_in; eassumption|now rewrite Q3|]. apply in_map_iff. exists x. split; [|exact X]. rewrite KX, Q3, <- Z. symmetry. apply surjective_pairing. }
    split; intros I; [eapply S; [exact PM| | |exact I]; auto|eapply S; [apply Permutation_sym; exact PM| | |exact I]; auto]. }
  split.
  - apply paired; [exact KP|]. intros a b IA IB K. unfold pixel_of, true_of. rewrite <- K. split; [reflexivity|]. split; [reflexivity|].
    destruct (holds_res _ _ (proj2 (B a IA))) as (N & S & NU). destruct (holds_res _ _ (proj2 (B' b IB))) as (N' & S' & NU'). rewrite <- K in S', NU'.
    pose proof (of_pixel_perm (fst (fkey a)) (snd (fkey a)) _ _ PM) as Q. fold l l' in Q. split; [rewrite NU, NU'; now apply Permutation_length|].
    unfold up_to_rounding. eapply same_sum_near; [apply Permutation_map; exact Q| |exact S|exact S']. intros X. apply map_eq_nil in X. contradiction.
  - apply paired; [exact KC|]. intros a b IA IB K. unfold true_of. rewrite <- K. split; [reflexivity|].
    destruct (E a IA) as (_ & _ & O). destruct (E' b IB) as (_ & _ & O'). destruct (holds_res _ _ O) as (N & S & NU). destruct (holds_res _ _ O') as (N' & S' & NU'). rewrite <- K in S', NU'.
    pose proof (of_true_perm (snd (fkey a)) _ _ PM) as Q. fold l l' in Q. split; [rewrite NU, NU'; now apply Permutation_length|].
    unfold up_to_rounding. eapply same_sum_near; [apply Permutation_map; exact Q| |exact S|exact S']. intros X. apply map_eq_nil in X. contradiction.
Qed.
Print Assumptions C97_resolution_batches.

(** ** The columns *)
(** Squared resolution without rounding. *)
Definition exact_square (mc : bool) (t : Qc) (of : list entry) : Qc := (residuals of / qn (List.length of) + if mc then t else 0)%Qc.
Definition double (x : Qc) : Prop := fl64 x = x.
Definition doubles (l : list entry) : Prop := forall e, In e l -> double (e_true e) /\ double (e_value e).

Lemma residuals_mean : forall of, of <> [] -> q2r (residuals of / qn (List.length of))%Qc = (rsum (map (fun e => q2r (square (e_value e - e_true e))) of) / INR (List.length of))%R.
Proof.
  intros of N. assert (0 < INR (List.length of))%R by (apply lt_0_INR; destruct of; [contradiction|cbn; lia]). 
  unfold residuals. rewrite q2r_div, q2r_qn, q2r_qsum, map_map; [reflexivity|]. intros K. pose proof (q2r_qn (List.length of)) as Q. rewrite K, q2r_0 in Q. lra.
Qed.
Lemma square_nonneg : forall x, (0 <= q2r (square x))%R.
Proof. intros x. unfold square. rewrite q2r_mult. apply Rle_0_sqr. Qed.
Lemma mean_residual_near : forall of r, (forall e, In e of -> double (e_true e) /\ double (e_value e)) -> holds_resolution of r ->
  let y := q2r (residuals of / qn (List.length of))%Qc in
  (0 <= y)%R /\ (Rabs (q2r (fl64 (sum_of r / qn (fnum r))%Qc) - y) <= (g64 (List.length of + 3) - 1) * (y + c64))%R.
Proof.
  intros of r D (NE & S & NU) y. assert (N0 : (0 < INR (List.length of))%R) by (apply lt_0_INR; destruct of; [contradiction|cbn; lia]).
  assert (SP : (0 <= rsum (map (fun e => q2r (square (e_value e - e_true e))) of))%R) by (apply rsum_nonneg; intros; apply square_nonneg).
  unfold y. rewrite residuals_mean by exact NE. split; [apply Rmult_le_pos; [exact SP|left; now apply Rinv_0_lt_compat]|].
  pose proof (mean_near 3 (map (fun e => (contribution e, square (e_value e - e_true e))) of) (sum_of r)) as M. rewrite !map_map, map_length in M. cbn [fst snd] in M. rewrite NU. replace (List.length of + 3)%nat with (3 + List.length of)%nat by lia.
  rewrite (map_ext (fun e => Rabs (q2r (square (e_value e - e_true e)))) (fun e => q2r (square (e_value e - e_true e)))) in M by (intros; apply Rabs_pos_eq, square_nonneg).
  apply M; [intros X; apply map_eq_nil in X; contradiction| |exact S]. intros a x I. apply in_map_iff in I as (e & E & I). injection E as <- <-. destruct (D e I) as [D1 D2]. unfold contribution, square. now apply square_err.
Qed.
Lemma square_error : forall mc of r, doubles of -> holds_resolution of r ->
  (Rabs (q2r (fl_res_square mc r) - q2r (exact_square mc (true_of r) of)) <=
   (g64 (List.length of + 4) - 1) * (q2r (residuals of / qn (List.length of))%Qc + (if mc then Rabs (q2r (true_of r)) else 0) + c64))%R.
Proof.
  intros mc of r D H. destruct (mean_residual_near of r D H) as [Y0 E]. unfold fl_res_square, exact_square. fold (sum_of r) (true_of r). set (q := fl64 (sum_of r / qn (fnum r))%Qc) in *. set (y := (residuals of / qn (List.length of))%Qc) in *.
  replace (List.length of + 4)%nat with (S (List.length of + 3)) by lia. rewrite gS. set (g := g64 (List.length of + 3)) in *. assert (G : (1 <= g)%R) by apply g1. pose proof u0. pose proof c0. set (t := true_of r) in *. destruct mc.
  - rewrite q2r_plus. pose proof (err (q + t)%Qc) as F. rewrite q2r_plus in F. set (T := q2r t) in *. set (u := u64) in *. set (c := c64) in *. set (Y := q2r y) in *. set (Q := q2r q) in *.
    assert (QB : (Rabs (Q + T) <= g * (Y + Rabs T + c) - c)%R).
    { replace (Q + T)%R with ((Q - Y) + (Y + T))%R by ring. eapply Rle_trans; [apply Rabs_triang|]. assert (Rabs (Y + T) <= Y + Rabs T)%R by (eapply Rle_trans; [apply Rabs_triang|]; rewrite (Rabs_pos_eq Y) by exact Y0; lra).
      assert (0 <= (g - 1) * Rabs T)%R by (apply Rmult_le_pos; [lra|apply Rabs_pos]). lra. }
    assert (F2 : (u * (Rabs (Q + T) + c) <= u * (g * (Y + Rabs T + c)))%R) by (apply Rmult_le_compat_l; lra). assert (0 <= (g - 1) * Rabs T)%R by (apply Rmult_le_pos; [lra|apply Rabs_pos]).
    replace (q2r (fl64 (q + t)%Qc) - (Y + T))%R with ((q2r (fl64 (q + t)%Qc) - (Q + T)) + (Q - Y))%R by ring. eapply Rle_trans; [apply Rabs_triang|]. 
    replace (((1 + u) * g - 1) * (Y + Rabs T + c))%R with (u * (g * (Y + Rabs T + c)) + (g - 1) * (Y + c) + (g - 1) * Rabs T)%R by ring. lra.
  - rewrite Qcplus_0_r, Rplus_0_r. eapply Rle_trans; [exact E|]. apply Rmult_le_compat_r; [lra|]. assert (0 <= u64 * g)%R by (apply Rmult_le_pos; lra). lra.
Qed.
Lemma tree_nonneg : forall t, (forall x, In x (leaves t) -> (0 <= q2r x)%R) -> (0 <= q2r (tree_sum fl64 t))%R.
Proof.
  induction t as [a|l IHl r IHr]; intros H; cbn [tree_sum leaves] in *; [apply H; now left|]. apply (fl_nonneg 53 (-1074) P53). rewrite q2r_plus. apply Rplus_le_le_0_compat; [apply IHl|apply IHr]; intros; apply H; apply in_or_app; auto.
Qed.
Lemma sum_nonneg : forall l v, (forall x, In x l -> (0 <= q2r x)%R) -> sums_to fl64 l v -> (0 <= q2r v)%R.
Proof.
  intros l v H [[ -> ->]|(t & PM & ->)]; [rewrite q2r_0; lra|]. apply tree_nonneg. intros x I. apply H. eapply Permutation_in; eassumption.
Qed.
Lemma res_square_nonneg : forall (mc : bool) of r, holds_resolution of r -> (if mc then 0 <= true_of r else True)%Qc -> (0 <= q2r (fl_res_square mc r))%R.
Proof.
  intros mc of r (NE & S & NU) T. assert (S0 : (0 <= q2r (sum_of r))%R).
  { eapply sum_nonneg; [|exact S]. intros x I. apply in_map_iff in I as (e & <- & _). unfold contribution. apply (fl_nonneg 53 (-1074) P53). rewrite q2r_mult. apply Rle_0_sqr. }
  assert (N0 : (0 < INR (fnum r))%R) by (rewrite NU; apply lt_0_INR; destruct of; [contradiction|cbn; lia]).
  assert (Q0 : (0 <= q2r (fl64 (sum_of r / qn (fnum r))%Qc))%R).
  { apply (fl_nonneg 53 (-1074) P53). rewrite q2r_div, q2r_qn. { apply Rmult_le_pos; [exact S0|left; now apply Rinv_0_lt_compat]. } intros K. pose proof (q2r_qn (fnum r)) as Q. rewrite K, q2r_0 in Q. lra. }
  unfold fl_res_square. fold (sum_of r) (true_of r). destruct mc; [|exact Q0]. apply (fl_nonneg 53 (-1074) P53). rewrite q2r_plus. apply q2r_le in T. rewrite q2r_0 in T. lra.
Qed.
Lemma fl_sqrt_defined : forall x, (0 <= q2r x)%R -> fl_sqrt x = Some (rnd64 (sqrt (q2r x))).
Proof. intros x H. unfold fl_sqrt. destruct (qltb_spec x 0%Qc) as [L|]; [|reflexivity]. apply q2r_lt in L. rewrite q2r_0 in L. lra. Qed.

(** The columns of a row that holds the entries [of]: the argument of the root is that of exact numbers up to rounding; unless a
    true charge is negative the root is defined; and then, unless the argument is below the normal numbers, the two columns are
    those of exact numbers up to rounding. *)
Definition resolution_near (mc : bool) (of : list entry) (r : frow) : Prop :=
  let n := List.length of in
  let y := q2r (residuals of / qn n)%Qc in
  let t := Rabs (q2r (true_of r)) in
  let y2 := q2r (exact_square mc (true_of r) of) in
  (Rabs (q2r (fl_res_square mc r) - y2) <= (g64 (n + 4) - 1) * (y + (if mc then t else 0) + c64))%R /\
  ((if mc then 0 <= true_of r else True)%Qc ->
   (fl_res_abs mc r <> None /\ fl_res_rel mc r <> None) /\
   ((c64 <= y2)%R -> exists a b, fl_res_abs mc r = Some a /\ fl_res_rel mc r = Some b /\
      (Rabs (a - sqrt y2) <= 2 * (g64 (n + 5) - 1) * sqrt y2)%R /\
      (Rabs (b - sqrt y2 / t) <= 2 * (g64 (n + 6) - 1) * (sqrt y2 / t + c64))%R)).
Lemma resolution_near_row : forall mc of r, doubles of -> true_of r <> 0%Qc -> holds_resolution of r -> resolution_near mc of r.
Proof.
  intros mc of r D TN H. pose proof (square_error mc of r D H) as E. unfold resolution_near. cbv zeta. split; [exact E|]. intros T.
  pose proof (res_square_nonneg mc of r H T) as X0. assert (A : fl_res_abs mc r = Some (rnd64 (sqrt (q2r (fl_res_square mc r))))) by (apply fl_sqrt_defined; exact X0).
  unfold fl_res_rel. rewrite A. cbn [option_map]. split; [split; discriminate|]. intros Y. eexists _, _. split; [reflexivity|]. split; [reflexivity|].
  set (y2 := q2r (exact_square mc (true_of r) of)) in *.
  assert (YE : (q2r (residuals of / qn (List.length of))%Qc + (if mc then Rabs (q2r (true_of r)) else 0) = y2)%R).
  { unfold y2, exact_square. rewrite q2r_plus. destruct mc; [|now rewrite q2r_0]. apply q2r_le in T. rewrite q2r_0 in T. now rewrite Rabs_pos_eq. }
  rewrite YE in E. replace (List.length of + 5)%nat with (S (List.length of + 4)) by lia. replace (List.length of + 6)%nat with (S (S (List.length of + 4))) by lia. rewrite !gS.
  assert (RT : (Rabs (rnd64 (sqrt (q2r (fl_res_square mc r))) - sqrt y2) <= 2 * ((1 + u64) * g64 (List.length of + 4) - 1) * sqrt y2)%R) by (apply root_near; [exact X0|apply g1|exact Y|exact E]).
  split; [exact RT|]. apply quotient_near; [|rewrite <- gS; apply g1|apply sqrt_pos|exact RT]. apply Rabs_pos_lt. intros Z. apply TN. apply q2r_eq. now rewrite q2r_0.
Qed.
Theorem C97_resolution_error : forall mc calls df_p df_c, fl_resolution calls df_p df_c -> doubles (entries calls) ->
  (forall r, In r df_p -> resolution_near mc (of_pixel (pixel_of r) (true_of r) (entries calls)) r) /\
  (forall r, In r df_c -> resolution_near mc (of_true (true_of r) (entries calls)) r).
Proof.
  intros mc calls df_p df_c H D. destruct (C97_resolution_rows calls df_p df_c H) as (_ & B & _ & _ & E & _).
  split; intros r R; [destruct (B r R) as [N O]|destruct (E r R) as [N O]]; (apply resolution_near_row; [|exact N|exact O]); intros e I; apply D; apply filter_In in I; tauto.
Qed.
Print Assumptions C97_resolution_error.

(** ** Statistics *)
Definition mean_value (of : list entry) : Qc := (qsum (map e_value of) / qn (List.length of))%Qc.
Definition mean_square (of : list entry) : Qc := (qsum (map (fun e => square (e_value e)) of) / qn (List.length of))%Qc.
Definition mean_abs (of : list entry) : R := (rsum (map (fun e => Rabs (q2r (e_value e))) of) / INR (List.length of))%R.
(** mean, and the argument of the root of std, up to rounding. The error of the latter is relative to the mean of the squares,
    not to the variance. *)
Definition statistics_near (of : list entry) (r : frow) : Prop :=
  let n := List.length of in
  (Rabs (q2r (fl_stat_mean r) - q2r (mean_value of)) <= (g64 n - 1) * (mean_abs of + c64))%R /\
  (Rabs (q2r (fl_stat_square r) - q2r (mean_square of - square (mean_value of))%Qc) <=
   (g64 (2 * n + 3) - 1) * (q2r (mean_square of) + (mean_abs of + c64) * (mean_abs of + c64) + 3 * c64))%R.
Lemma statistics_near_row : forall of r, holds_statistics of r -> statistics_near of r.
Proof.
  intros of r (NE & SA & S2 & NU). assert (N0 : (0 < INR (List.length of))%R) by (apply lt_0_INR; destruct of; [contradiction|cbn; lia]). set (n := List.length of) in *.
  assert (QN : qn n <> 0%Qc) by (intros K; pose proof (q2r_qn n) as Q; rewrite K, q2r_0 in Q; lra).
  assert (M : (Rabs (q2r (fl_stat_mean r) - q2r (mean_value of)) <= (g64 n - 1) * (mean_abs of + c64))%R).
  { pose proof (mean_error 53 (-1074) P53 (map e_value of) (fl_stat_mean r)) as E. rewrite map_length, map_map in E. fold n in E. apply E; [intros X; apply map_eq_nil in X; contradiction|]. exists (sum_of r). split; [exact SA|]. rewrite map_length. unfold fl_stat_mean. now rewrite NU. }
  assert (A : (Rabs (q2r (fl64 (sum2_of r / qn n)%Qc) - q2r (mean_square of)) <= (g64 (1 + n) - 1) * (q2r (mean_square of) + c64))%R).
  { pose proof (mean_near 1 (map (fun e => (rounded_square e, square (e_value e))) of) (sum2_of r)) as E. rewrite !map_map, map_length in E. cbn [fst snd] in E. fold n in E.
    rewrite (map_ext (fun e => Rabs (q2r (square (e_value e)))) (fun e => q2r (square (e_value e)))) in E by (intros; apply Rabs_pos_eq, square_nonneg).
    unfold mean_square. fold n. rewrite q2r_div, q2r_qn, q2r_qsum, map_map by exact QN. apply E; [intros X; apply map_eq_nil in X; contradiction| |exact S2].
    intros a x I. apply in_map_iff in I as (e & K & _). injection K as <- <-. unfold rounded_square, square. eapply Rle_trans; [apply err|]. unfold growth, ulp1. cbn [pow]. apply Req_le. change (bpow radix2 (Z.opp 53)) with u64. ring. }
  split; [exact M|]. unfold fl_stat_square. fold (sum2_of r). rewrite NU. fold n. rewrite q2r_minus. unfold square at 1. rewrite q2r_mult.
  replace (2 * n + 3)%nat with (S (S (2 * n + 1))) by lia. rewrite !gS.
  assert (MS : (0 <= q2r (mean_square of))%R). { unfold mean_square. fold n. rewrite q2r_div, q2r_qn, q2r_qsum, map_map by exact QN. apply Rmult_le_pos; [apply rsum_nonneg; intros; apply square_nonneg|left; now apply Rinv_0_lt_compat]. }
  eapply (variance_near (fl64 (sum2_of r / qn n)%Qc) (fl_stat_mean r) (mean_abs of) _ (g64 (2 * n + 1)) (g64 n) (q2r (mean_value of)) (q2r (mean_square of))); try apply g1.
  - apply growth_le. lia.
  - unfold mean_abs. apply Rmult_le_pos; [apply rsum_nonneg; intros; apply Rabs_pos|left; now apply Rinv_0_lt_compat].
  - exact MS.
  - unfold mean_value, mean_abs. fold n. rewrite q2r_div, q2r_qn, q2r_qsum, map_map by exact QN. unfold Rdiv. rewrite Rabs_mult, (Rabs_pos_eq (/ INR n)) by (left; now apply Rinv_0_lt_compat). apply Rmult_le_compat_r; [left; now apply Rinv_0_lt_compat|].
    rewrite <- (map_map (fun e => q2r (e_value e)) Rabs). apply rsum_abs.
  - eapply Rle_trans; [exact A|]. pose proof c0. apply Rmult_le_compat_r; [lra|]. rewrite <- gS. apply Rplus_le_compat_r. apply growth_le; lia.
  - exact M.
  - reflexivity.
  - unfold growth. rewrite <- Rdef_pow_add. apply (growth_le 53); lia.
Qed.
Theorem C97_statistics_error : forall calls df_p df_c, fl_statistics calls df_p df_c ->
  (forall r, In r df_p -> statistics_near (of_pixel (pixel_of r) (true_of r) (entries calls)) r) /\
  (forall r, In r df_c -> statistics_near (of_true (true_of r) (entries calls)) r).
Proof.
  intros calls df_p df_c H. destruct (C97_statistics_rows calls df_p df_c H) as (_ & B & _ & _ & E & _). split; intros r R; apply statistics_near_row; auto.
Qed.
Print Assumptions C97_statistics_error.

(** ** Numbers for which nothing is rounded *)
(** Multiples of 2^g. *)
Definition on_grid (g : Z) (x : Qc) : Prop := exists z, x = (qz z * two g)%Qc.
Lemma two_double : forall g, two (2 * g) = (two g * two g)%Qc.
Proof. intros g. apply q2r_eq. rewrite q2r_mult, !q2r_two, <- bpow_plus. f_equal. lia. Qed.
Lemma grid_square : forall g x, on_grid g x -> on_grid (2 * g) (square x).
Proof. intros g x [z ->]. exists (z * z)%Z. unfold square. rewrite two_double. replace (qz (z * z)) with (qz z * qz z)%Qc by (apply q2r_eq; rewrite q2r_mult, !q2r_qz, mult_IZR; reflexivity). ring. Qed.
Lemma grid_minus : forall g x y, on_grid g x -> on_grid g y -> on_grid g (x - y)%Qc.
Proof. intros g x y [a ->] [b ->]. exists (a - b)%Z. replace (qz (a - b)) with (qz a - qz b)%Qc by (apply q2r_eq; rewrite q2r_minus, !q2r_qz, minus_IZR; reflexivity). ring. Qed.
Lemma grid_exact : forall g x, (-1074 <= g)%Z -> on_grid g x -> (Rabs (q2r x) <= bpow radix2 (53 + g))%R -> fl64 x = x.
Proof. intros g x G [z ->] B. now apply grid_format. Qed.
Lemma small_square : forall g x, (-537 <= g)%Z -> (q2r (square x) <= bpow radix2 (53 + 2 * g))%R -> (Rabs (q2r x) <= bpow radix2 (53 + g))%R.
Proof.
  intros g x G B. unfold square in B. rewrite q2r_mult in B. apply Rsqr_incr_0; [|apply Rabs_pos|apply bpow_ge_0]. unfold Rsqr. rewrite <- Rabs_mult, Rabs_pos_eq by apply Rle_0_sqr. eapply Rle_trans; [exact B|]. rewrite <- bpow_plus. apply bpow_le. lia.
Qed.
Lemma in_rsum : forall A (f : A -> R) l x, (forall y, In y l -> (0 <= f y)%R) -> In x l -> (f x <= rsum (map f l))%R.
Proof.
  intros A f l x P I. induction l as [|a l IH]; [destruct I|]. unfold rsum. cbn [map fold_right]. fold (rsum (map f l)). assert (0 <= rsum (map f l))%R by (apply rsum_nonneg; intros; apply P; now right). pose proof (P a (or_introl eq_refl)).
  destruct I as [ ->|I]; [lra|]. specialize (IH (fun y J => P y (or_intror J)) I). lra.
Qed.
Lemma squares_exact : forall (f : entry -> Qc) g of, (-537 <= g)%Z -> (forall e, In e of -> on_grid g (f e)) -> (q2r (qsum (map (fun e => square (f e)) of)) <= bpow radix2 (53 + 2 * g))%R ->
  (forall e, In e of -> fl64 (f e) = f e /\ fl64 (square (f e)) = square (f e)) /\
  forall v, sums_to fl64 (map (fun e => fl64 (square (f e))) of) v -> v = qsum (map (fun e => square (f e)) of).
Proof.
  intros f g of G GR B. rewrite q2r_qsum, map_map in B.
  assert (SQ : forall e, In e of -> (q2r (square (f e)) <= bpow radix2 (53 + 2 * g))%R). { intros e I. eapply Rle_trans; [|exact B]. apply (in_rsum _ (fun e => q2r (square (f e)))); [intros; apply square_nonneg|exact I]. }
  assert (EX : forall e, In e of -> fl64 (f e) = f e /\ fl64 (square (f e)) = square (f e)).
  { intros e I. split; [apply (grid_exact g); [lia|now apply GR|apply small_square; [exact G|now apply SQ]]|]. apply (grid_exact (2 * g)); [lia|now apply grid_square, GR|]. rewrite Rabs_pos_eq by apply square_nonneg. now apply SQ. }
  split; [exact EX|]. intros v S. rewrite (map_ext_in _ (fun e => square (f e))) in S by (intros e I; now apply EX).
  apply (sum_exact 53 (-1074) P53 (2 * g) (map (fun e => square (f e)) of) v); [lia| | |exact S].
  - intros x I. apply in_map_iff in I as (e & <- & I). now apply grid_square, GR.
  - rewrite map_map. erewrite map_ext; [exact B|]. intros e. apply Rabs_pos_eq, square_nonneg.
Qed.
(** Charges and true charges that are multiples of a power of two (integers, for instance): the sums of the tables are exact, in
    whatever batches and order, as long as they stay within 53 bits. *)
Theorem C97_resolution_exact : forall g calls df_p df_c, fl_resolution calls df_p df_c -> (-537 <= g)%Z ->
  (forall e, In e (entries calls) -> on_grid g (e_true e) /\ on_grid g (e_value e)) ->
  (forall r, In r df_p -> let of := of_pixel (pixel_of r) (true_of r) (entries calls) in (q2r (residuals of) <= bpow radix2 (53 + 2 * g))%R -> sum_of r = residuals of) /\
  (forall r, In r df_c -> let of := of_true (true_of r) (entries calls) in (q2r (residuals of) <= bpow radix2 (53 + 2 * g))%R -> sum_of r = residuals of).
Proof.
  intros g calls df_p df_c H G GR. destruct (C97_resolution_rows calls df_p df_c H) as (_ & B & _ & _ & E & _).
  assert (X : forall of r, (forall e, In e of -> In e (entries calls)) -> holds_resolution of r -> (q2r (residuals of) <= bpow radix2 (53 + 2 * g))%R -> sum_of r = residuals of).
  { intros of r I (_ & S & _) BD. destruct (squares_exact (fun e => e_value e - e_true e)%Qc g of G) as [EX SX]; [intros e J; destruct (GR e (I e J)); now apply grid_minus|exact BD|].
    apply SX. erewrite map_ext_in; [exact S|]. intros e J. unfold contribution. destruct (EX e J) as [-> ->]. symmetry. now apply EX. }
  split; intros r R of; apply X; try (intros e J; unfold of in J; apply filter_In in J; tauto); unfold of; [now apply B|now apply E].
Qed.
Print Assumptions C97_resolution_exact.

Theorem C97_statistics_exact : forall g calls df_p df_c, fl_statistics calls df_p df_c -> (-537 <= g)%Z ->
  (forall e, In e (entries calls) -> on_grid g (e_value e)) ->
  let exact of r := (rsum (map (fun e => Rabs (q2r (e_value e))) of) <= bpow radix2 (53 + g))%R -> (q2r (qsum (map (fun e => square (e_value e)) of)) <= bpow radix2 (53 + 2 * g))%R ->
    sum_of r = qsum (map e_value of) /\ sum2_of r = qsum (map (fun e => square (e_value e)) of) in
  (forall r, In r df_p -> exact (of_pixel (pixel_of r) (true_of r) (entries calls)) r) /\ (forall r, In r df_c -> exact (of_true (true_of r) (entries calls)) r).
Proof.
  intros g calls df_p df_c H G GR exact. destruct (C97_statistics_rows calls df_p df_c H) as (_ & B & _ & _ & E & _).
  assert (X : forall of r, (forall e, In e of -> In e (entries calls)) -> holds_statistics of r -> exact of r).
  { intros of r I (_ & S & S2 & _) B1 B2. split.
    - apply (sum_exact 53 (-1074) P53 g (map e_value of)); [lia| |now rewrite map_map|exact S]. intros x J. apply in_map_iff in J as (e & <- & J). apply GR. now apply I.
    - apply (squares_exact e_value g of G); [intros e J; apply GR; now apply I|exact B2|exact S2]. }
  split; intros r R; apply X; auto; intros e J; apply filter_In in J; tauto.
Qed.
Print Assumptions C97_statistics_exact.
(** Equal charges on the grid: std is zero. *)
Theorem C97_statistics_constant : forall g x of r, holds_statistics of r -> (-537 <= g)%Z -> on_grid g x -> (forall e, In e of -> e_value e = x) ->
  (INR (List.length of) * Rabs (q2r x) <= bpow radix2 (53 + g))%R -> (INR (List.length of) * q2r (square x) <= bpow radix2 (53 + 2 * g))%R ->
  fl_stat_mean r = x /\ fl_stat_std r = Some 0%R.
Proof.
  intros g x of r (NE & S & S2 & NU) G GX EQ B1 B2.
  assert (MV : map e_value of = map (fun _ => x) of) by (apply map_ext_in; exact EQ). assert (MS : map (fun e => square (e_value e)) of = map (fun _ => square x) of) by (apply map_ext_in; intros e I; now rewrite EQ).
  assert (QC : forall y, qsum (map (fun _ : entry => y) of) = (qn (List.length of) * y)%Qc).
  { intros y. apply q2r_eq. rewrite q2r_qsum, map_map, rsum_const, q2r_mult, q2r_qn. reflexivity. }
  assert (X1 : sum_of r = (qn (List.length of) * x)%Qc).
  { rewrite <- QC, <- MV. apply (sum_exact 53 (-1074) P53 g (map e_value of)); [lia| | |exact S].
    - intros y J. apply in_map_iff in J as (e & <- & J). now rewrite EQ.
    - rewrite MV, map_map, rsum_const. exact B1. }
  destruct (squares_exact e_value g of G) as [EX SX]; [intros e J; now rewrite EQ|rewrite MS, QC, q2r_mult, q2r_qn; exact B2|].
  assert (X2 : sum2_of r = (qn (List.length of) * square x)%Qc) by (rewrite <- QC, <- MS; apply SX; exact S2).
  assert (N0 : (0 < INR (List.length of))%R) by (apply lt_0_INR; destruct of; [contradiction|cbn; lia]). assert (QN : qn (List.length of) <> 0%Qc) by (intros K; pose proof (q2r_qn (List.length of)) as Q; rewrite K, q2r_0 in Q; lra).
  destruct of as [|e of']; [contradiction|]. destruct (EX e (or_introl eq_refl)) as [F1 F2]. rewrite (EQ e (or_introl eq_refl)) in F1, F2. set (n := qn (List.length (e :: of'))) in *.
  assert (D : forall y, (n * y / n = y)%Qc) by (intros y; field; exact QN).
  assert (M : fl_stat_mean r = x) by (unfold fl_stat_mean; fold (sum_of r); rewrite NU; fold n; now rewrite X1, D). split; [exact M|].
  unfold fl_stat_std. assert (Z : fl_stat_square r = 0%Qc).
  { unfold fl_stat_square. rewrite M. fold (sum2_of r). rewrite NU. fold n. rewrite X2, D, F2. change (x * x)%Qc with (square x). rewrite F2. replace (square x - square x)%Qc with 0%Qc by ring. apply (grid_exact 0); [lia|exists 0%Z; change (qz 0) with 0%Qc; ring|rewrite q2r_0, Rabs_R0; apply bpow_ge_0]. }
  rewrite Z, fl_sqrt_defined by (rewrite q2r_0; lra). rewrite q2r_0, sqrt_0. unfold rnd64. now rewrite round_0 by apply valid_rnd_N.
Qed.
Print Assumptions C97_statistics_constant.

(** ** What fails *)
Lemma sums_three : forall rnd x v, sums_to rnd [x; x; x] v -> v = rnd (rnd (x + x) + x)%Qc.
Proof.
  intros rnd x v [[E _]|(t & PM & ->)]; [discriminate|].
  assert (A : forall y, In y (leaves t) -> y = x) by (intros y I; apply (Permutation_in _ PM) in I; cbn in I; intuition congruence).
  pose proof (Permutation_length PM) as L. cbn [List.length] in L.
  assert (one : forall t, List.length (leaves t) = 1%nat -> (forall y, In y (leaves t) -> y = x) -> tree_sum rnd t = x).
  { intros [a|l r] LE IN; [apply IN; now left|]. cbn [leaves] in LE. rewrite app_length in LE. pose proof (leaves_nonempty _ l). pose proof (leaves_nonempty _ r). lia. }
  assert (two' : forall t, List.length (leaves t) = 2%nat -> (forall y, In y (leaves t) -> y = x) -> tree_sum rnd t = rnd (x + x)%Qc).
  { intros [a|l r] LE IN; [discriminate|]. cbn [leaves tree_sum] in *. rewrite app_length in LE. pose proof (leaves_nonempty _ l). pose proof (leaves_nonempty _ r). rewrite (one l), (one r); auto; try lia; intros; apply IN; apply in_or_app; auto. }
  destruct t as [a|l r]; [discriminate|]. cbn [leaves tree_sum] in *. rewrite app_length in L. pose proof (leaves_nonempty _ l). pose proof (leaves_nonempty _ r).
  destruct (Nat.eq_dec (List.length (leaves l)) 1) as [L1|L1].
  - rewrite (one l), (two' r); auto; try lia; try (intros; apply A; apply in_or_app; auto). f_equal. ring.
  - rewrite (two' l), (one r); auto; try lia; intros; apply A; apply in_or_app; auto.
Qed.
(** Three equal charges of 0.1 (the nearest double): whatever the order of additions, the mean of the squares is below the square
    of the mean, and std is not a number where it should be zero. *)
Definition tenth : Qc := Q2Qc (3602879701896397 # 36028797018963968).
Theorem C97_std_refuted : let calls := [Add [(0%Z, 1%Qc, tenth); (0%Z, 1%Qc, tenth); (0%Z, 1%Qc, tenth)]] in
  double tenth /\ (exists df_p df_c, fl_statistics calls df_p df_c) /\
  forall df_p df_c, fl_statistics calls df_p df_c -> (exists r, In r df_p) /\ forall r, In r df_p \/ In r df_c -> fl_stat_std r = None.
Proof.
  assert (T : fl64 tenth = tenth) by (apply Qc_is_canon, Qeq_bool_iff; vm_compute; reflexivity).
  intros calls. split; [exact T|]. split; [apply (session_exists 2 fl_statistics_row keep_statistics)|]. intros df_p df_c H. destruct (C97_statistics_rows calls df_p df_c H) as (_ & B & C & _ & E & _). split.
  - destruct (C (0%Z, 1%Qc, tenth)) as (r & R & _); [left; reflexivity|]. exists r. exact R.
  - set (x := (0%Z, 1%Qc, tenth) : entry) in *. assert (X : forall r, holds_statistics [x; x; x] r -> fl_stat_std r = None).
    { intros r (_ & S & S2 & N). cbn [map x e_value snd] in S. apply sums_three in S. cbn [map] in S2. apply sums_three in S2. unfold fl_stat_std, fl_stat_square, fl_stat_mean. fold (sum_of r) (sum2_of r). rewrite S, S2, N. vm_compute. reflexivity. }
    assert (FN : forall (f : entry -> bool) r, holds_statistics (filter f (entries calls)) r -> holds_statistics [x; x; x] r). { intros f r (N & O). cbn [calls entries flat_map app filter] in *. destruct (f x); [split; [discriminate|exact O]|contradiction]. }
    intros r [R|R]; apply X; eapply FN; [exact (B r R)|exact (E r R)].
Qed.
Print Assumptions C97_std_refuted.

Lemma group_one : forall k rows v, rows <> [] -> (forall r, In r rows -> fkey r = k) -> sums_to fl64 (map (fun r => nth 0 (fcols r) 0%Qc) rows) v ->
  fl_groupby 1 rows [{| fkey := k; fcols := [v]; fnum := list_sum (map fnum rows) |}].
Proof.
  intros k rows v NE K S. split; [repeat constructor|]. split.
  - intros k'. cbn [map]. split.
    + intros [<-|[]]. destruct rows as [|r rows]; [contradiction|]. left. cbn [fkey]. apply K. now left.
    + intros I. apply in_map_iff in I as (r & <- & I). left. cbn [fkey]. symmetry. now apply K.
  - intros r [<-|[]]. cbn [fkey fcols fnum]. assert (F : filter (fun x => key_eqb (fkey x) k) rows = rows).
    { clear - K. induction rows as [|r rows IH]; [reflexivity|]. cbn [filter]. rewrite (K r) by now left. rewrite key_eqb_refl. f_equal. apply IH. intros; apply K; now right. }
    cbv zeta. rewrite F. split; [reflexivity|]. split; [|reflexivity]. intros [|j] J; [exact S|lia].
Qed.
(** The same four entries in one batch and in two: with additions one after the other the sums of the squares differ
    (2^54 + 1 + 1 + 1 against 3 + 2^54). *)
Definition big : entry := (0%Z, 1%Qc, qz (2 ^ 27 + 1)).
Definition small : entry := (0%Z, 1%Qc, qz 2).
Theorem C97_batches_refuted : exists calls calls' df_p df_c df_p' df_c' r r',
  Permutation (entries calls) (entries calls') /\ doubles (entries calls) /\ fl_resolution calls df_p df_c /\ fl_resolution calls' df_p' df_c' /\
  df_p = [r] /\ df_p' = [r'] /\ fkey r = fkey r' /\ fnum r = fnum r' /\ sum_of r <> sum_of r'.
Proof.
  pose (k := (0%Z, 1%Qc) : key). pose (row := fun (v : Z) n => {| fkey := k; fcols := [qz v]; fnum := n |}).
  assert (RB : fl_resolution_row big = row (2 ^ 54)%Z 1%nat) by (unfold fl_resolution_row, big, row; f_equal; f_equal; apply Qc_is_canon, Qeq_bool_iff; vm_compute; reflexivity).
  assert (RS : fl_resolution_row small = row 1%Z 1%nat) by (unfold fl_resolution_row, small, row; f_equal; f_equal; apply Qc_is_canon, Qeq_bool_iff; vm_compute; reflexivity).
  assert (AD : forall a b c, Qeq_bool (this (fl64 (qz a + qz b)%Qc)) (this (qz c)) = true -> fl64 (qz a + qz b)%Qc = qz c) by (intros; now apply Qc_is_canon, Qeq_bool_iff).
  exists [Add [big; small; small; small]], [Add [small; small; small]; Finish; Add [big]], [row (2 ^ 54)%Z 4%nat], [row (2 ^ 54)%Z 4%nat], [row (2 ^ 54 + 4)%Z 4%nat], [row (2 ^ 54 + 4)%Z 4%nat], (row (2 ^ 54)%Z 4%nat), (row (2 ^ 54 + 4)%Z 4%nat).
  split; [exact (Permutation_cons_append [small; small; small] big)|]. split.
  { intros e I. cbn in I. assert (D : forall z, (Z.abs z < 2 ^ 53)%Z -> double (qz z)) by (intros z Z; unfold double, fl64; apply (fl_int 53 (-1074)); lia).
    assert (D1 : double 1%Qc) by (change 1%Qc with (qz 1); apply D; lia). intuition (subst; cbn [e_true e_value big small fst snd]; first [exact D1|apply D; lia]). }
  assert (C : forall v, fl_groupby 1 (map fl_forget [row v 4%nat]) [row v 4%nat]).
  { intros v. apply (group_one k (map fl_forget [row v 4%nat]) (qz v)); [discriminate|intros r [<-|[]]; reflexivity|]. right. exists (Leaf (qz v)). split; [apply Permutation_refl|reflexivity]. }
  split; [|split].
  - eexists _, _. split; [eapply run_cons; [apply step_add|apply run_nil]|]. split; [|split; [|apply C]].
    + split; [right; discriminate|]. eexists. split; [|reflexivity]. cbn [fl_held fl_append fl_new fdf fdf_list app List.concat map]. rewrite RB, RS.
      apply (group_one k [row (2 ^ 54)%Z 1%nat; row 1%Z 1%nat; row 1%Z 1%nat; row 1%Z 1%nat] (qz (2 ^ 54))); [discriminate|intros r I; cbn in I; intuition (subst; reflexivity)|].
      right. exists (in_order (Leaf (qz (2 ^ 54))) [qz 1; qz 1; qz 1]). split; [apply Permutation_refl|]. cbn [in_order tree_sum]. rewrite !(AD (2 ^ 54) 1 (2 ^ 54))%Z by (vm_compute; reflexivity). reflexivity.
    + reflexivity.
  - eexists _, _. split; [eapply run_cons; [apply step_add|]; eapply run_cons; [eapply step_finish|]; [|eapply run_cons; [apply step_add|apply run_nil]]|].
    { split; [right; discriminate|]. exists [row 3%Z 3%nat]. split; [|reflexivity]. cbn [fl_held fl_append fl_new fdf fdf_list app List.concat map]. rewrite RS.
      apply (group_one k [row 1%Z 1%nat; row 1%Z 1%nat; row 1%Z 1%nat] (qz 3)); [discriminate|intros r I; cbn in I; intuition (subst; reflexivity)|].
      right. exists (in_order (Leaf (qz 1)) [qz 1; qz 1]). split; [apply Permutation_refl|]. cbn [in_order tree_sum]. rewrite (AD 1 1 2)%Z by (vm_compute; reflexivity). symmetry. apply AD. vm_compute. reflexivity. }
    split; [|split; [|apply C]].
    + split; [left; discriminate|]. eexists. split; [|reflexivity].
      assert (F : filter (fun r => keep_resolution (snd (fkey r))) [row 3%Z 3%nat] = [row 3%Z 3%nat]) by reflexivity.
      cbn [fl_held fl_append fl_select fl_new fdf fdf_list option_map app List.concat map]. rewrite F, RB. cbn [app].
      apply (group_one k [row 3%Z 3%nat; row (2 ^ 54)%Z 1%nat] (qz (2 ^ 54 + 4))); [discriminate|intros r I; cbn in I; intuition (subst; reflexivity)|].
      right. exists (Node (Leaf (qz 3)) (Leaf (qz (2 ^ 54)))). split; [apply Permutation_refl|]. cbn [tree_sum]. symmetry. apply AD. vm_compute. reflexivity.
    + reflexivity.
  - repeat (split; [reflexivity|]). unfold sum_of, row. cbn [fcols nth]. intros E. apply (f_equal q2r) in E. rewrite !q2r_qz in E. apply eq_IZR in E. lia.
Qed.
Print Assumptions C97_batches_refuted.
(** A true charge that is negative, with mc_true: the resolution is not a number. *)
Theorem C97_negative_refuted : exists calls df_p df_c r, doubles (entries calls) /\ fl_resolution calls df_p df_c /\ In r df_p /\ fl_res_abs true r = None /\ fl_res_rel true r = None.
Proof.
  pose (e := (0%Z, qz (-2), qz (-1)) : entry). exists [Add [e]]. destruct (session_exists 1 fl_resolution_row keep_resolution [e] []) as (df_p & df_c & H). exists df_p, df_c.
  destruct (C97_resolution_rows _ df_p df_c H) as (_ & B & C & _). destruct (C e) as (r & R & KP & KT); [left; reflexivity|discriminate|]. exists r. split; [|split; [exact H|split; [exact R|]]].
  - intros x [<-|[]]. split; apply (fl_int 53 (-1074)); cbn; lia.
  - destruct (B r R) as [_ (N & S & NU)]. rewrite KP, KT in S, NU. cbn [e_pixel e_true e fst snd] in KT. assert (O : of_pixel 0 (qz (-2)) [e] = [e]) by reflexivity. cbn [entries flat_map app e_pixel e_true e fst snd] in S, NU. fold e in S, NU. rewrite O in S, NU.
    assert (V : sum_of r = contribution e). { destruct S as [[X _]|(t & PM & ->)]; [discriminate|]. apply Permutation_sym, Permutation_length_1_inv in PM. destruct t as [a|a b]; cbn [leaves] in PM; [injection PM as ->; reflexivity|]. apply (f_equal (@List.length Qc)) in PM. rewrite app_length in PM. pose proof (leaves_nonempty _ a). pose proof (leaves_nonempty _ b). cbn in PM. lia. }
    assert (A : fl_res_abs true r = None). { unfold fl_res_abs, fl_res_square. fold (sum_of r) (true_of r). rewrite V, NU, KT. vm_compute. reflexivity. }
    split; [exact A|]. unfold fl_res_rel. now rewrite A.
Qed.
Print Assumptions C97_negative_refuted.
(** Two batches with a finish in between, integer charges: 4 + 1 for pixel 0, 4 + 1 + 1 for the camera, in any order. *)
Example C97_ex : let calls := [Add [(0%Z, 1%Qc, qz 3); (1%Z, 1%Qc, 0%Qc)]; Finish; Add [(0%Z, 1%Qc, qz 2)]] in
  forall df_p df_c, fl_resolution calls df_p df_c ->
  (exists r, In r df_p /\ pixel_of r = 0%Z /\ sum_of r = qz 5 /\ fnum r = 2%nat) /\ (exists r, In r df_c /\ sum_of r = qz 6 /\ fnum r = 3%nat).
Proof.
  intros calls df_p df_c H. destruct (C97_resolution_rows calls df_p df_c H) as (_ & B & C & _ & E & F). destruct (C97_resolution_exact 0 calls df_p df_c H) as [X Y]; [lia| |].
  { intros e I. assert (G : forall z, on_grid 0 (qz z)) by (intros z; exists z; change (two 0) with 1%Qc; ring). assert (G1 : on_grid 0 1%Qc) by apply (G 1%Z). assert (G0 : on_grid 0 0%Qc) by apply (G 0%Z). cbn in I. intuition (subst; cbn [e_true e_value fst snd]; auto). }
  assert (BD : forall z, (z <= 100)%Z -> (IZR z <= bpow radix2 (53 + 2 * 0))%R) by (intros z Z; change (bpow radix2 (53 + 2 * 0)) with (IZR (2 ^ 53)); apply IZR_le; lia).
  split.
  - destruct (C (0%Z, 1%Qc, qz 3)) as (r & R & KP & KT); [left; reflexivity|discriminate|]. exists r. split; [exact R|]. split; [exact KP|]. cbn [e_pixel e_true fst snd] in KP, KT. specialize (X r R). destruct (B r R) as [_ (_ & _ & N)]. rewrite KP, KT in X, N.
    assert (V : residuals (of_pixel 0 1%Qc (entries calls)) = qz 5) by (apply Qc_is_canon, Qeq_bool_iff; vm_compute; reflexivity). split; [|exact N]. cbv zeta in X. rewrite V in X. apply X. rewrite q2r_qz. apply BD. lia.
  - destruct (F (0%Z, 1%Qc, qz 3)) as (r & R & KT); [left; reflexivity|discriminate|]. exists r. split; [exact R|]. cbn [e_true fst snd] in KT. specialize (Y r R). destruct (E r R) as [_ (_ & _ & N)]. rewrite KT in Y, N.
    assert (V : residuals (of_true 1%Qc (entries calls)) = qz 6) by (apply Qc_is_canon, Qeq_bool_iff; vm_compute; reflexivity). split; [|exact N]. cbv zeta in Y. rewrite V in Y. apply Y. rewrite q2r_qz. apply BD. lia.
Qed.
