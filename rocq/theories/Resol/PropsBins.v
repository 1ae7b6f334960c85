(** Property C93: the binned curves of charge resolution and mean charge.

    [edges_to m edges]: the edges increase from 0.1 to [m], at least two; [in_bin edges k x]: [x] lies in bin [k], the last bin
    closed on both sides; [geomspace m] stands for np.geomspace(0.1, m, 100). *)
From Coq Require Import List ZArith QArith Qcanon Bool Arith Lia Sorted Permutation Reals.
From Verif.Base Require Import Py Num Lst Fl FlFacts.
From Verif.Resol Require Import ModelBins ProofsBins.
From Coq Require Import Lra.
Import ListNotations.
Local Open Scope list_scope.
Local Open Scope Qc_scope.

(** [p] is the point drawn for the group [g]: the means of x and y; the errors added in quadrature over the number. *)
Definition drawn_for (g : list point) (p : point) : Prop :=
  let n := qn (List.length g) in n * px p = qsum (map px g) /\ n * py p = qsum (map py g) /\ n * n * pe p = qsum (map (fun q => pe q * pe q) g).

Lemma perm_groups : forall A (f : A -> nat) n (l : list A),
  Permutation (concat (map (fun k => filter (fun a => Nat.eqb (f a) k) l) (seq 1 n))) (filter (fun a => (Nat.leb 1 (f a) && Nat.leb (f a) n)%bool) l).
Proof.
  intros A f n l. induction n as [|n IH].
  - cbn [seq map concat]. assert (E : filter (fun a => (Nat.leb 1 (f a) && Nat.leb (f a) 0)%bool) l = []); [|rewrite E; constructor].
    induction l as [|a l IHl]; [reflexivity|]. cbn [filter]. rewrite IHl. destruct (Nat.leb_spec 1 (f a)), (Nat.leb_spec (f a) 0); cbn; auto; lia.
  - rewrite seq_S, map_app, concat_app. cbn [map concat]. rewrite app_nil_r, IH. clear IH. replace (1 + n)%nat with (S n) by lia. induction l as [|a l IHl]; [constructor|]. cbn [filter].
    destruct (Nat.leb_spec 1 (f a)), (Nat.leb_spec (f a) n), (Nat.leb_spec (f a) (S n)), (Nat.eqb_spec (f a) (S n)); cbn [andb]; try lia.
    + cbn [app]. now constructor.
    + rewrite <- Permutation_middle. now constructor.
    + exact IHl.
    + exact IHl.
Qed.
Lemma concat_filter : forall A (l : list (list A)), concat (filter (fun g => negb (Nat.eqb (List.length g) 0)) l) = concat l.
Proof. induction l as [|[|a g] l IH]; cbn [filter concat List.length Nat.eqb negb]; auto. now rewrite IH. Qed.
Lemma filter_map_swap : forall A B (f : A -> B) (p : B -> bool) l, filter p (map f l) = map f (filter (fun x => p (f x)) l).
Proof. induction l as [|a l IH]; [reflexivity|]. cbn [map filter]. destruct (p (f a)); cbn [map]; now rewrite IH. Qed.
Lemma sorted_filter : forall (p : nat -> bool) l, StronglySorted lt l -> StronglySorted lt (filter p l).
Proof. induction 1 as [|a l S IH F]; [constructor|]. cbn [filter]. destruct (p a); [|exact IH]. constructor; [exact IH|]. rewrite Forall_forall in *. intros x X. apply filter_In in X as [X _]. auto. Qed.
Lemma sorted_seq : forall n a, StronglySorted lt (seq a n).
Proof. induction n as [|n IH]; intros a; [constructor|]. cbn [seq]. constructor; [apply IH|]. rewrite Forall_forall. intros x X. apply in_seq in X. lia. Qed.
Lemma sorted_map : forall A B (R : A -> A -> Prop) (Q : B -> B -> Prop) (f : A -> B) l, (forall a b, In a l -> In b l -> R a b -> Q (f a) (f b)) -> StronglySorted R l -> StronglySorted Q (map f l).
Proof. intros A B R Q f l H S. induction S as [|a l S IH F]; [constructor|]. cbn [map]. constructor; [apply IH; intros; apply H; auto; now right|]. rewrite Forall_forall in *. intros b I. apply in_map_iff in I as (c & <- & C). apply H; [now left|now right|auto]. Qed.
Lemma qn_nz : forall n, (0 < n)%nat -> qn n <> 0.
Proof. intros n N Z. pose proof (qn_pos n N) as P. rewrite Z in P. now apply Qclt_not_eq in P. Qed.
Lemma drawn : forall g, g <> [] -> drawn_for g (qmean (map px g), qmean (map py g), sum_errors2 (map pe g)).
Proof.
  intros g N. assert (P : qn (List.length g) <> 0) by (apply qn_nz; destruct g; [easy|cbn; lia]). unfold drawn_for, qmean, sum_errors2. rewrite !map_length, map_map.
  set (a := qsum (map px g)). set (b := qsum (map py g)). set (c := qsum (map (fun x => pe x * pe x) g)). unfold px, py, pe. cbn [fst snd]. repeat split; field; exact P.
Qed.

(** Every value from 0.1 on belongs to one drawn point and no other value enters; the points are the averages of their groups, one
    per bin that is not empty, in increasing order of x. *)
Theorem C93_curve : forall geomspace pts m, top pts = Ok m -> edges_to m (geomspace m) ->
  exists groups ks curve, bin_points geomspace pts = Ok curve /\ Forall2 drawn_for groups curve /\
  Permutation (concat groups) (filter (fun p => qleb tenth (px p)) pts) /\
  Forall2 (fun g k => g <> [] /\ forall p, In p g -> in_bin (geomspace m) k (px p)) groups ks /\ StronglySorted lt ks /\
  Forall2 (fun p k => in_bin (geomspace m) k (px p)) curve ks /\ StronglySorted Qclt (map px curve).
Proof.
  intros geo pts m T E. set (edges := geo m) in *. destruct (top_spec pts m T) as [TM _]. pose proof E as (L & F0 & LA & SI).
  set (ks := filter (fun k => negb (Nat.eqb (List.length (group edges k pts)) 0)) (seq 1 (List.length edges - 1))).
  set (draw := fun g : list point => (qmean (map px g), qmean (map py g), sum_errors2 (map pe g))).
  assert (SK : StronglySorted lt ks) by apply sorted_filter, sorted_seq.
  assert (KS : forall k, In k ks -> (1 <= k < List.length edges)%nat /\ group edges k pts <> []).
  { intros k K. apply filter_In in K as [K1 K2]. apply in_seq in K1. split; [lia|]. intros Z. rewrite Z in K2. discriminate. }
  assert (G : forall k p, In k ks -> In p (group edges k pts) -> in_bin edges (k - 1) (px p)).
  { intros k p K P. destruct (KS k K) as [K1 _]. apply filter_In in P as [P1 P2]. apply Nat.eqb_eq in P2. apply (bin_number_iff m edges (px p) (k - 1) E (TM p P1)). split; [rewrite P2|]; lia. }
  assert (LO : forall k, In k ks -> in_bin edges (k - 1) (px (draw (group edges k pts)))).
  { intros k K. destruct (KS k K) as [K1 N]. assert (NM : map px (group edges k pts) <> []) by (intros Z; apply map_eq_nil in Z; easy). unfold draw, px at 1. cbn [fst].
    split; [lia|]. split; [apply mean_ge; [exact NM|]; intros x X; apply in_map_iff in X as (p & <- & P); apply (G k p K P)|].
    replace (S (k - 1)) with k by lia. destruct (Nat.eq_dec (S k) (List.length edges)) as [LL|NL].
    - assert (ME : qmean (map px (group edges k pts)) <= last edges 0). { apply mean_le; [exact NM|]. intros x X. apply in_map_iff in X as (p & <- & P). rewrite LA. apply TM. now apply filter_In in P as [P _]. }
      destruct (Qc_eq_dec (qmean (map px (group edges k pts))) (last edges 0)) as [Q|Q]; [right; split; [lia|exact Q]|left].
      replace (nth k edges 0) with (last edges 0) by (rewrite last_nth; f_equal; lia). destruct (Qcle_lt_or_eq _ _ ME); [assumption|now elim Q].
    - left. apply mean_lt; [exact NM|]. intros x X. apply in_map_iff in X as (p & <- & P). destruct (G k p K P) as (_ & _ & [H|[H _]]); [replace (S (k - 1)) with k in H by lia; exact H|lia]. }
  exists (map (fun k => group edges k pts) ks), (map (fun k => (k - 1)%nat) ks), (map draw (map (fun k => group edges k pts) ks)).
  assert (BP : bin_points geo pts = Ok (map draw (map (fun k => group edges k pts) ks))).
  { unfold bin_points. rewrite T. cbn [bind]. fold edges. rewrite (proj2 (increasing_iff edges) SI). cbn [negb]. f_equal. unfold ks. rewrite filter_map_swap. reflexivity. }
  split; [exact BP|]. repeat split.
  - assert (KN : forall k, In k ks -> group edges k pts <> []) by (intros; now apply KS). clear -KN. induction ks as [|k ks IH]; cbn [map]; constructor; [apply drawn, KN; now left|apply IH; intros; apply KN; now right].
  - assert (CC : concat (map (fun k => group edges k pts) ks) = concat (map (fun k => group edges k pts) (seq 1 (List.length edges - 1)))) by (unfold ks; rewrite <- (concat_filter _ (map (fun k => group edges k pts) (seq 1 _))), filter_map_swap; reflexivity).
    rewrite CC. unfold group. rewrite (perm_groups point (fun p => bin_number edges (px p))). erewrite filter_ext_in; [reflexivity|]. intros p P. cbn beta.
    destruct (qleb_spec tenth (px p)) as [Q|Q].
    + destruct (bin_exists m edges (px p) E Q (TM p P)) as [k B]. apply (bin_number_iff m edges (px p) k E (TM p P)) in B as [B1 B2]. rewrite B1. apply andb_true_iff. split; apply Nat.leb_le; lia.
    + apply andb_false_iff. destruct (Nat.leb_spec 1 (bin_number edges (px p))); [|now left]. destruct (Nat.leb_spec (bin_number edges (px p)) (List.length edges - 1)); [|now right]. exfalso. apply Q.
      apply (bin_above m edges (px p) (bin_number edges (px p) - 1) E). apply (bin_number_iff m edges _ _ E (TM p P)). split; lia.
  - assert (H : forall k, In k ks -> group edges k pts <> [] /\ forall p, In p (group edges k pts) -> in_bin edges (k - 1) (px p)) by (intros k K; split; [now apply KS|intros; now apply G]). clear -H. induction ks as [|k ks IH]; cbn [map]; constructor; [apply H; now left|apply IH; intros; apply H; now right].
  - apply (sorted_map nat nat lt lt); [|exact SK]. intros a b A B AB. destruct (KS a A), (KS b B). lia.
  - clear -LO. induction ks as [|k ks IH]; cbn [map]; constructor; [apply LO; now left|apply IH; intros; apply LO; now right].
  - rewrite !map_map. apply (sorted_map nat Qc lt Qclt); [|exact SK]. intros a b A B AB. destruct (KS a A) as [A1 _], (KS b B) as [B1 _]. destruct (LO a A) as (_ & _ & [U|[U _]]); [|lia]. destruct (LO b B) as (_ & U2 & _).
    replace (S (a - 1)) with a in U by lia. apply Qclt_le_trans with (nth a edges 0); [exact U|]. destruct (Nat.eq_dec a (b - 1)) as [ ->|]; [exact U2|]. apply Qcle_trans with (nth (b - 1) edges 0); [|exact U2]. apply Qclt_le_weak, (sorted_le edges SI); lia.
Qed.
Print Assumptions C93_curve.

(** Nothing is lost: the numbers and the sums of y of the groups are those of the values from 0.1 on. *)
Theorem C93_conserved : forall geomspace pts m, top pts = Ok m -> edges_to m (geomspace m) ->
  exists groups curve, bin_points geomspace pts = Ok curve /\ List.length groups = List.length curve /\ (List.length curve <= List.length (geomspace m) - 1)%nat /\
  fold_right Nat.add 0%nat (map (@List.length point) groups) = List.length (filter (fun p => qleb tenth (px p)) pts) /\
  qsum (map (fun gp => qn (List.length (fst gp)) * py (snd gp)) (combine groups curve)) = qsum (map py (filter (fun p => qleb tenth (px p)) pts)).
Proof.
  intros geo pts m T E. destruct (C93_curve geo pts m T E) as (groups & ks & curve & B & D & P & GK & SK & CK & _). exists groups, curve. split; [exact B|].
  assert (LG : List.length groups = List.length curve) by (clear -D; induction D; cbn; congruence). split; [exact LG|].
  assert (LK : List.length curve = List.length ks) by (clear -CK; induction CK; cbn; congruence). split; [|split].
  - rewrite LK. assert (IN : incl ks (seq 0 (List.length (geo m) - 1))).
    { intros k K. clear -CK K. induction CK as [|p k' c ks H F IH]; [destruct K|]. destruct K as [ ->|K]; [|auto]. destruct H as (H & _). apply in_seq. lia. }
    apply NoDup_incl_length in IN; [now rewrite seq_length in IN|]. clear -SK. induction SK as [|k ks S IH F]; constructor; [|exact IH]. intros K. rewrite Forall_forall in F. specialize (F k K). lia.
  - rewrite <- (Permutation_length P). clear. induction groups as [|g gs IH]; [reflexivity|]. cbn [map fold_right concat]. rewrite app_length. now rewrite IH.
  - assert (S : forall l l' : list point, Permutation l l' -> qsum (map py l) = qsum (map py l')). { clear. induction 1; unfold qsum in *; cbn [map fold_right]; [reflexivity|now rewrite IHPermutation|ring|congruence]. }
    rewrite <- (S _ _ P). clear -D. induction D as [|g p gs c H D IH]; [reflexivity|]. cbn [combine map concat]. rewrite map_app, qsum_app, <- IH. rewrite qsum_cons. cbn [fst snd]. f_equal. apply H.
Qed.
Print Assumptions C93_conserved.

(** Values below 0.1 have no influence. *)
Theorem C93_below : forall geomspace pts m, top pts = Ok m -> tenth <= m -> edges_to m (geomspace m) -> bin_points geomspace pts = bin_points geomspace (filter (fun p => qleb tenth (px p)) pts).
Proof.
  intros geo pts m T TM E. destruct (top_spec pts m T) as [T1 (p0 & P0 & E0)].
  assert (IN : In p0 (filter (fun p => qleb tenth (px p)) pts)) by (apply filter_In; split; [exact P0|]; rewrite E0; destruct (qleb_spec tenth m); [reflexivity|easy]).
  assert (T' : top (filter (fun p => qleb tenth (px p)) pts) = Ok m).
  { destruct (filter (fun p => qleb tenth (px p)) pts) as [|q l] eqn:F; [destruct IN|]. destruct (top (q :: l)) as [m'|e] eqn:Q; [|discriminate]. f_equal. destruct (top_spec _ _ Q) as [U1 (q1 & Q1 & E1)].
    apply Qcle_antisym; [|rewrite <- E0; now apply U1]. rewrite <- E1. apply T1. rewrite <- F in Q1. now apply filter_In in Q1 as [Q1 _]. }
  unfold bin_points. rewrite T, T'. cbn [bind]. destruct (negb (increasing (geo m))); [reflexivity|]. f_equal. f_equal. f_equal. apply map_ext_in. intros k K. apply in_seq in K. unfold group.
  assert (SUB : forall p, In p pts -> Nat.eqb (bin_number (geo m) (px p)) k = true -> qleb tenth (px p) = true).
  { intros p P B. apply Nat.eqb_eq in B. destruct (qleb_spec tenth (px p)) as [|Q]; [reflexivity|]. elim Q. apply (bin_above m (geo m) (px p) (k - 1) E). apply (bin_number_iff m (geo m) _ _ E (T1 p P)). split; lia. }
  clear -SUB. induction pts as [|p pts IH]; [reflexivity|]. cbn [filter]. assert (IH' := IH (fun q Q => SUB q (or_intror Q))). destruct (qleb tenth (px p)) eqn:A; cbn [filter]; destruct (Nat.eqb (bin_number (geo m) (px p)) k) eqn:B; rewrite ?IH'; auto.
  rewrite (SUB p (or_introl eq_refl) B) in A. discriminate.
Qed.
Print Assumptions C93_below.

(** Nothing above 0.1, or nothing at all: ValueError, since no increasing edges exist. *)
Theorem C93_refused : forall geomspace pts,
  (forall m, (2 <= List.length (geomspace m))%nat /\ nth 0 (geomspace m) 0 = tenth /\ last (geomspace m) 0 = m) -> (forall p, In p pts -> px p <= tenth) -> bin_points geomspace pts = Raise ValueError.
Proof.
  intros geo pts G H. unfold bin_points. destruct (top pts) as [m|e] eqn:T; [|destruct pts; [injection T as <-; reflexivity|discriminate]]. cbn [bind]. destruct (top_spec pts m T) as [_ (p & P & PM)]. destruct (G m) as (L & F & LA).
  destruct (increasing (geo m)) eqn:I; [|reflexivity]. exfalso. assert (S := proj1 (increasing_iff _) I). pose proof (sorted_le _ S 0 (List.length (geo m) - 1) ltac:(lia) ltac:(lia)) as Q. rewrite F, <- last_nth, LA, <- PM in Q. apply (Qcle_not_lt (px p) tenth); auto.
Qed.
Print Assumptions C93_refused.

(** The claim that every value kept by set_store (above 0.001) enters the curve is refuted: (0.05, 7) does not. *)
Definition two_edges (m : Qc) : list Qc := [tenth; m].
Definition store : list (nat * point) := [(0%nat, (Q2Qc (1 # 20), qz 7, qz 1)); (0%nat, (qz 3, qz 1, qz 1))].
Theorem C93_store_refuted : exists p, In p (set_store (fun r => px (snd r)) store) /\ edges_to (qz 3) (two_edges (qz 3)) /\
  plot_curve two_edges store None = plot_curve two_edges (filter (fun r => negb (qeqb (px (snd r)) (px (snd p)))) store) None /\
  plot_curve two_edges (filter (fun r => negb (qeqb (px (snd r)) (px (snd p)))) store) None <> Raise ValueError.
Proof.
  exists (0%nat, (Q2Qc (1 # 20), qz 7, qz 1)). split; [now left|]. split; [|split; [vm_compute; reflexivity|vm_compute; discriminate]].
  split; [cbn; lia|]. split; [reflexivity|]. split; [reflexivity|]. intros [|i] I; [reflexivity|cbn in I; lia].
Qed.
Print Assumptions C93_store_refuted.

(** plot_pixel: only the rows of the pixel matter; without rows of it ValueError. *)
Theorem C93_pixel : forall geomspace rows p, plot_curve geomspace rows (Some p) = plot_curve geomspace (filter (fun r => Nat.eqb (fst r) p) rows) None /\
  ((forall r, In r rows -> fst r <> p) -> plot_curve geomspace rows (Some p) = Raise ValueError).
Proof.
  intros geo rows p. unfold plot_curve, set_store. split.
  - f_equal. f_equal. induction rows as [|r rows IH]; [reflexivity|]. cbn [filter]. destruct (qltb (Q2Qc (1 # 1000)) (px (snd r))) eqn:A, (Nat.eqb (fst r) p) eqn:B; cbn [filter]; rewrite ?A, ?B, ?IH; reflexivity.
  - intros H. assert (E : filter (fun r : nat * point => Nat.eqb (fst r) p) (filter (fun r => qltb (Q2Qc (1 # 1000)) (px (snd r))) rows) = []); [|rewrite E; reflexivity].
    induction rows as [|r rows IH]; [reflexivity|]. cbn [filter]. assert (IH' := IH (fun q Q => H q (or_intror Q))). destruct (qltb (Q2Qc (1 # 1000)) (px (snd r))); [|exact IH']. cbn [filter]. destruct (Nat.eqb_spec (fst r) p) as [Q|]; [elim (H r (or_introl eq_refl) Q)|exact IH'].
Qed.
Print Assumptions C93_pixel.

(** The drawn error: of n values with equal errors s it is s / sqrt n; it never exceeds the largest error. *)
Theorem C93_error : forall g p s, drawn_for g p -> g <> [] ->
  ((forall q, In q g -> pe q = s) -> 0 <= s -> sqrt (q2r (pe p)) = (q2r s / sqrt (INR (List.length g)))%R) /\
  ((forall q, In q g -> 0 <= pe q /\ pe q <= s) -> (sqrt (q2r (pe p)) <= q2r s)%R).
Proof.
  intros g p s (_ & _ & D) N. assert (N0 : (0 < List.length g)%nat) by (destruct g; [easy|cbn; lia]). assert (NR : (0 < INR (List.length g))%R) by now apply lt_0_INR. assert (N1 : (1 <= INR (List.length g))%R) by (apply (le_INR 1); lia).
  assert (DR : (INR (List.length g) * INR (List.length g) * q2r (pe p) = q2r (qsum (map (fun q => pe q * pe q)%Qc g)))%R) by (rewrite <- D, !q2r_mult, q2r_qn; reflexivity).
  assert (ZR : forall a, 0 <= a -> (0 <= q2r a)%R) by (intros a A; rewrite <- q2r_0; now apply q2r_le). split.
  - intros H S0. assert (Q : qsum (map (fun q => pe q * pe q) g) = qn (List.length g) * (s * s)).
    { rewrite <- qsum_const. rewrite (map_ext_in _ (fun _ => s * s)); [|intros q I; now rewrite (H q I)]. reflexivity. }
    rewrite Q, !q2r_mult, q2r_qn in DR. assert (PE : q2r (pe p) = (q2r s * q2r s / INR (List.length g))%R) by (apply Rmult_eq_reg_l with (INR (List.length g) * INR (List.length g))%R; [rewrite DR; field; lra|]; apply Rgt_not_eq; now apply Rmult_lt_0_compat).
    rewrite PE, sqrt_div_alt by exact NR. now rewrite sqrt_square by auto.
  - intros H. destruct g as [|q0 g']; [easy|]. assert (S0 : (0 <= q2r s)%R) by (destruct (H q0 (or_introl eq_refl)); apply ZR; now apply Qcle_trans with (pe q0)). set (g := q0 :: g') in *.
    assert (B : (q2r (qsum (map (fun q => pe q * pe q)%Qc g)) <= INR (List.length g) * (q2r s * q2r s))%R).
    { clear -H ZR. induction g as [|q g IH]; [unfold qsum; cbn [map fold_right List.length]; rewrite q2r_0; cbn; lra|]. cbn [map List.length]. rewrite qsum_cons, q2r_plus, q2r_mult, S_INR. destruct (H q (or_introl eq_refl)) as [H1 H2].
      assert (IH' := IH (fun r R => H r (or_intror R))). apply q2r_le in H2. apply ZR in H1. assert (q2r (pe q) * q2r (pe q) <= q2r s * q2r s)%R by (apply Rmult_le_compat; assumption). lra. }
    rewrite <- DR in B. assert (PE : (q2r (pe p) <= q2r s * q2r s)%R).
    { assert (IB : (INR (List.length g) * q2r (pe p) <= q2r s * q2r s)%R) by (apply Rmult_le_reg_l with (INR (List.length g)); [exact NR|lra]). destruct (Rle_dec 0 (q2r (pe p))) as [P|P].
      - eapply Rle_trans; [|exact IB]. rewrite <- (Rmult_1_l (q2r (pe p))) at 1. now apply Rmult_le_compat_r.
      - pose proof (Rmult_le_pos _ _ S0 S0). lra. }
    rewrite <- (sqrt_square (q2r s)) by exact S0. now apply sqrt_le_1_alt.
Qed.
Print Assumptions C93_error.

(** ** Mean charge: after any curves, the line at 1 spans exactly the x of all of them. *)
Fixpoint mean_plots (s : limits) (curves : list (list point)) : res limits :=
  match curves with [] => Ok s | c :: cs => bind (mean_plot s c) (fun r => mean_plots (fst r) cs) end.
Lemma lower_spec : forall l a, lower a l <= a /\ (forall x, In x l -> lower a l <= x) /\ In (lower a l) (a :: l).
Proof.
  unfold lower. induction l as [|b l IH]; intros a; [cbn; repeat split; [apply Qcle_refl|easy|auto]|]. cbn [fold_left]. destruct (IH (if qltb b a then b else a)) as (A & B & C). set (r := fold_left _ l _) in *. destruct (qltb_spec b a) as [Q|Q].
  - split; [apply Qcle_trans with b; [exact A|now apply Qclt_le_weak]|]. split; [intros x [<-|X]; auto|]. right. exact C.
  - split; [exact A|]. split; [intros x [<-|X]; [apply Qcle_trans with a; [exact A|now apply Qcnot_lt_le]|auto]|]. destruct C as [C|C]; [now left|right; now right].
Qed.
Lemma upper_spec : forall l a, a <= upper a l /\ (forall x, In x l -> x <= upper a l) /\ In (upper a l) (a :: l).
Proof.
  unfold upper. induction l as [|b l IH]; intros a; [cbn; repeat split; [apply Qcle_refl|easy|auto]|]. cbn [fold_left]. destruct (IH (if qltb a b then b else a)) as (A & B & C). set (r := fold_left _ l _) in *. destruct (qltb_spec a b) as [Q|Q].
  - split; [apply Qcle_trans with b; [now apply Qclt_le_weak|exact A]|]. split; [intros x [<-|X]; auto|]. right. exact C.
  - split; [exact A|]. split; [intros x [<-|X]; [apply Qcle_trans with a; [now apply Qcnot_lt_le|exact A]|auto]|]. destruct C as [C|C]; [now left|right; now right].
Qed.
Definition spans (r : Qc * Qc) (xs : list Qc) : Prop := (forall x, In x xs -> fst r <= x /\ x <= snd r) /\ In (fst r) xs /\ In (snd r) xs.
Theorem C93_mean_range : forall curves, curves <> [] -> (forall c, In c curves -> c <> []) ->
  exists s r, mean_plots None curves = Ok s /\ mean_finish s = Ok r /\ spans r (map px (concat curves)).
Proof.
  assert (H : forall curves s seen, (match s with None => seen = [] | Some r => spans r seen end) -> (forall c, In c curves -> c <> []) ->
    exists s', mean_plots s curves = Ok s' /\ match s' with None => seen ++ map px (concat curves) = [] | Some r => spans r (seen ++ map px (concat curves)) end).
  { induction curves as [|c cs IH]; intros s seen HS HN; [exists s; split; [reflexivity|]; cbn [concat map]; rewrite app_nil_r; destruct s; exact HS|].
    cbn [mean_plots]. unfold mean_plot. destruct (map px c) as [|x xs] eqn:M; [apply map_eq_nil in M; elim (HN c (or_introl eq_refl) M)|]. cbn [bind fst].
    destruct (lower_spec xs x) as (L1 & L2 & L3), (upper_spec xs x) as (U1 & U2 & U3).
    assert (SP : spans (lower x xs, upper x xs) (x :: xs)) by (split; [intros y [<-|Y]; cbn [fst snd]; auto|split; assumption]).
    cbn [concat]. rewrite map_app, M, app_assoc. apply IH; [|intros; apply HN; now right]. destruct s as [[a b]|]; [|subst seen; exact SP].
    destruct HS as (S1 & S2 & S3). destruct SP as (T1 & T2 & T3). cbn [fst snd] in *. set (lo := lower x xs) in *. set (hi := upper x xs) in *.
    split; [|split; cbn [fst snd]; apply in_or_app].
    - intros y Y. cbn [fst snd]. apply in_app_or in Y as [Y|Y].
      + destruct (S1 y Y) as [Y1 Y2]. split; [destruct (qltb_spec lo a) as [Q|Q]; [apply Qcle_trans with a; [now apply Qclt_le_weak|exact Y1]|exact Y1]|destruct (qltb_spec b hi) as [Q|Q]; [apply Qcle_trans with b; [exact Y2|now apply Qclt_le_weak]|exact Y2]].
      + destruct (T1 y Y) as [Y1 Y2]. split; [destruct (qltb_spec lo a) as [Q|Q]; [exact Y1|apply Qcle_trans with lo; [now apply Qcnot_lt_le|exact Y1]]|destruct (qltb_spec b hi) as [Q|Q]; [exact Y2|apply Qcle_trans with hi; [exact Y2|now apply Qcnot_lt_le]]].
    - destruct (qltb lo a); auto.
    - destruct (qltb b hi); auto. }
  intros [|c cs] N HN; [easy|]. destruct (H (c :: cs) None [] eq_refl HN) as (s & E & S). cbn [app] in S. destruct s as [r|].
  - exists (Some r), r. split; [exact E|]. split; [reflexivity|exact S].
  - exfalso. cbn [concat] in S. rewrite map_app in S. apply app_eq_nil in S as [S _]. apply map_eq_nil in S. exact (HN c (or_introl eq_refl) S).
Qed.
Print Assumptions C93_mean_range.

(** Charges between a and b times the true charge draw a curve between a and b; exactly proportional ones a flat line. *)
Theorem C93_mean_curve : forall geomspace pts m a b, top pts = Ok m -> edges_to m (geomspace m) -> (forall p, In p pts -> a * px p <= py p /\ py p <= b * px p) ->
  exists curve, bin_points geomspace pts = Ok curve /\ forall s s' line, mean_plot s curve = Ok (s', line) -> map fst line = map px curve /\ forall xy, In xy line -> a <= snd xy /\ snd xy <= b.
Proof.
  intros geo pts m a b T E H. destruct (C93_curve geo pts m T E) as (groups & ks & curve & B & D & P & GK & SK & CK & _). exists curve. split; [exact B|]. intros s s' line M.
  assert (LN : line = map (fun p => (px p, py p / px p)) curve) by (unfold mean_plot in M; destruct (map px curve); [discriminate|]; now injection M as _ <-). rewrite LN, map_map. split; [reflexivity|]. clear s s' M LN line.
  intros xy XY. apply in_map_iff in XY as (p & <- & I). cbn [snd].
  assert (X : tenth <= px p). { clear -CK I E. induction CK as [|q k c ks F C IH]; [destruct I|]. destruct I as [ ->|I]; [exact (bin_above m (geo m) (px p) k E F)|auto]. }
  assert (X0 : 0 < px p) by (apply Qclt_le_trans with tenth; [reflexivity|exact X]).
  assert (Y : exists g, g <> [] /\ drawn_for g p /\ forall q, In q g -> In q pts).
  { assert (GI : forall g q, In g groups -> In q g -> In q pts). { intros g q G Q. assert (In q (concat groups)) as C by (apply in_concat; eauto). apply (Permutation_in _ P) in C. now apply filter_In in C as [C _]. }
    clear -D GK I GI. revert ks GK. induction D as [|g q gs c F D IH]; intros ks GK; [destruct I|]. inversion_clear GK as [|? k ? ks' [G _] GK']. destruct I as [ ->|I]; [exists g; repeat split; [exact G|apply F|apply F|apply F|intros q Q; apply (GI g q (or_introl eq_refl) Q)]|]. apply (IH I (fun g' q' G' => GI g' q' (or_intror G')) ks' GK'). }
  destruct Y as (g & GN & (DX & DY & _) & GP). set (n := qn (List.length g)) in *. assert (N0 : 0 < n) by (apply qn_pos; destruct g; [easy|cbn; lia]).
  assert (SB : a * qsum (map px g) <= qsum (map py g) /\ qsum (map py g) <= b * qsum (map px g)).
  { clear -H GP. induction g as [|q g IH]; [unfold qsum; cbn [map fold_right]; split; rewrite Qcmult_0_r; apply Qcle_refl|]. cbn [map]. rewrite !qsum_cons. destruct (H q (GP q (or_introl eq_refl))) as [H1 H2]. destruct (IH (fun r R' => GP r (or_intror R'))) as [I1 I2].
    rewrite !Qcmult_plus_distr_r. split; now apply Qcplus_le_compat. }
  rewrite <- DX, <- DY in SB. destruct SB as [S1 S2].
  assert (Q : forall u v, n * u <= n * v -> u <= v) by (intros u v UV; apply Qcnot_lt_le; intros VU; apply (Qcle_not_lt _ _ UV); rewrite !(Qcmult_comm n); now apply Qcmult_lt_compat_r).
  assert (R1 : a * px p <= py p) by (apply Q; replace (n * (a * px p)) with (a * (n * px p)) by ring; exact S1). assert (R2 : py p <= b * px p) by (apply Q; replace (n * (b * px p)) with (b * (n * px p)) by ring; exact S2).
  assert (PX : px p <> 0) by (intros Z; rewrite Z in X0; now apply Qclt_not_eq in X0).
  assert (DV : py p = py p / px p * px p) by (field; exact PX). rewrite DV in R1, R2.
  assert (Q2 : forall u v, u * px p <= v * px p -> u <= v) by (intros u v UV; apply Qcnot_lt_le; intros VU; apply (Qcle_not_lt _ _ UV); now apply Qcmult_lt_compat_r).
  split; now apply Q2.
Qed.
Print Assumptions C93_mean_curve.

(** Edges 0.1, 1, 10: the values 0.05 (dropped), 0.5, 0.5, 1 (second bin), 10 (last edge). *)
Definition three_edges (m : Qc) : list Qc := [tenth; qz 1; m].
Definition pts0 : list point := [(qz 10, qz 4, qz 3); (Q2Qc (1 # 2), qz 1, qz 1); (Q2Qc (1 # 20), qz 100, qz 1); (qz 1, qz 2, qz 4); (Q2Qc (1 # 2), qz 5, qz 1)].
Example C93_ex : match bin_points three_edges pts0 with Ok c => map (fun p => (this (px p), this (py p), this (pe p))) c = [(1 # 2, 3 # 1, 1 # 2); (11 # 2, 3 # 1, 25 # 4)]%Q | _ => False end.
Proof. vm_compute. reflexivity. Qed.
Example C93_ex_edges : edges_to (qz 10) (three_edges (qz 10)).
Proof. split; [cbn; lia|]. split; [reflexivity|]. split; [reflexivity|]. intros [|[|i]] I; [reflexivity|reflexivity|cbn in I; lia]. Qed.
