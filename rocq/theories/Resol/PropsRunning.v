(** Property C104: running statistics of the cookbook. *)
From Coq Require Import List ZArith QArith Qcanon Bool Lia Permutation Sorted Arith.
From Verif.Base Require Import Py PyFacts Num Lst.
From Verif.Reducers Require Import Model Proofs2.
From Verif.Resol Require Import Model Proofs Proofs2 ModelRunning.
Import ListNotations.
Local Open Scope list_scope.

(** ** Accumulation *)
Definition as_entry (x : reading) : entry := ((fst x / 64)%Z, 0%Qc, snd x).
Lemma row_entry : forall x, running_row x = statistics_row (as_entry x).
Proof. intros [p c]. reflexivity. Qed.
Lemma fold_add : forall bytes mx events s, started s \/ events <> [] -> exists s', foldM (running_add bytes mx) events s = Ok s' /\ started s' /\
  groupby (held s') = groupby (held s ++ map running_row (List.concat events)).
Proof.
  intros bytes mx events. induction events as [|ev events IH]; intros s ST.
  - destruct ST as [ST|]; [|easy]. exists s. split; [reflexivity|]. split; auto. cbn [List.concat map]. now rewrite app_nil_r.
  - cbn [foldM]. unfold running_add at 1. destruct (add_rows_ok bytes mx s (map running_row ev)) as (s1 & -> & ST1 & G1). cbn [bind]. destruct (IH s1 (or_introl ST1)) as (s2 & E2 & ST2 & G2).
    exists s2. split; auto. split; auto. rewrite G2. rewrite <- groupby_absorb, G1, groupby_absorb. cbn [List.concat]. now rewrite map_app, app_assoc.
Qed.
Lemma running_ok : forall bytes mx events, events <> [] -> running bytes mx events = Ok (map run_columns (groupby (map statistics_row (map as_entry (List.concat events))))).
Proof.
  intros bytes mx events N. unfold running. destruct (fold_add bytes mx events new_obj (or_intror N)) as (s & -> & ST & G). cbn [bind]. unfold running_finish. rewrite (amalgamate_ok s ST). cbn [bind df].
  rewrite G. cbn [held new_obj df df_list List.concat app]. rewrite map_map. do 3 f_equal. apply map_ext. apply row_entry.
Qed.
(** ** groupby of pandas *)
Lemma insert_tm_in : forall k l x, In x (insert_tm k l) <-> x = k \/ In x l.
Proof.
  intros k l x. induction l as [|h t IH]; cbn [insert_tm]; [cbn; intuition|]. destruct (Z.eqb_spec k h) as [->|N]; [cbn; intuition|]. destruct (k <? h)%Z; cbn [In]; [intuition|]. rewrite IH. intuition.
Qed.
Lemma group_tm_in : forall table x, In x (group_tm table) <-> exists r, In r table /\ x = (fst r / 64)%Z.
Proof.
  intros table x. unfold group_tm. assert (forall t acc, In x (fold_left (fun l r => insert_tm (fst r / 64) l) t acc) <-> (exists r : reading, In r t /\ x = (fst r / 64)%Z) \/ In x acc) as H.
  { induction t as [|r t IH]; intros acc; cbn [fold_left]; [split; [auto|intros [(r & [] & _)|]; auto]|]. rewrite IH, insert_tm_in. split.
    - intros [(y & I & E)|[E|I]]; [left; exists y; split; auto; now right|left; exists r; split; auto; now left|auto].
    - intros [(y & [<-|I] & E)|I]; [auto|left; eauto|auto]. }
  rewrite H. split; [intros [?|[]]; auto|auto].
Qed.
Definition present (table : list reading) (tm : Z) : Prop := exists r, In r table /\ (fst r / 64 = tm)%Z.
(** The charges of a module *)
Definition of_module (table : list reading) (tm : Z) : list Qc := map snd (filter (fun x => (fst x / 64 =? tm)%Z) table).
Lemma present_dec : forall table tm, present table tm \/ (~ present table tm /\ of_module table tm = []).
Proof.
  intros table tm. induction table as [|x t IH]; [right; split; [intros (r & [] & _)|reflexivity]|]. destruct (Z.eqb_spec (fst x / 64) tm) as [E|E]; [left; exists x; split; auto; now left|].
  destruct IH as [(r & I & K)|[A B]]; [left; exists r; split; auto; now right|right]. split; [intros (r & [<-|I] & K); [congruence|apply A; exists r; auto]|]. unfold of_module. cbn [filter]. destruct (Z.eqb_spec (fst x / 64) tm); [congruence|exact B].
Qed.
Lemma aligned_spec : forall A (get : pd_row -> option A) table i,
  aligned get (pd_stats table) i = if in_dec Z.eq_dec (Z.of_nat i) (group_tm table) then let l := of_module table (Z.of_nat i) in get {| d_tm := Z.of_nat i; d_mean := (qsum l / qn (List.length l))%Qc; d_var := pd_std2 l |} else None.
Proof.
  intros A get table i. unfold aligned, pd_stats. change charges_tm with (fun tm table => of_module table tm). cbv beta zeta. induction (group_tm table) as [|h t IH]; [reflexivity|]. cbn [map find d_tm]. destruct (Z.eqb_spec h (Z.of_nat i)) as [->|N].
  - destruct (in_dec Z.eq_dec (Z.of_nat i) (Z.of_nat i :: t)) as [_|N]; [reflexivity|]. exfalso. apply N. now left.
  - rewrite IH. destruct (in_dec Z.eq_dec (Z.of_nat i) t) as [I|I]; destruct (in_dec Z.eq_dec (Z.of_nat i) (h :: t)) as [J|J]; auto; exfalso; [apply J; now right|]. destruct J; [congruence|auto].
Qed.
Lemma of_entries : forall tm table, map e_value (of_pixel tm 0%Qc (map as_entry table)) = of_module table tm.
Proof.
  intros tm table. unfold of_pixel, of_module. induction table as [|x t IH]; [reflexivity|]. cbn [map filter]. unfold as_entry at 1, e_pixel at 1, e_true at 1. cbn [fst snd].
  destruct (qeqb_spec 0%Qc 0%Qc) as [_|]; [|congruence]. rewrite andb_true_r. destruct (fst x / 64 =? tm)%Z; cbn [map]; [f_equal|]; exact IH.
Qed.

(** ** The accumulated table: one row per module, in increasing order, with the statistics of exactly its charges. *)
Definition right_row (table : list reading) (r : run_row) : Prop := let l := of_module table (u_tm r) in
  l <> [] /\ u_sum r = qsum l /\ u_n r = qn (List.length l) /\ u_mean r = qmean l /\ u_var r = qvar l /\ (0 <= u_var r)%Qc.
Theorem C104_rows : forall bytes mx events, events <> [] -> let table := List.concat events in
  exists rows, running bytes mx events = Ok rows /\ StronglySorted (fun a b => u_tm a < u_tm b)%Z rows /\ Forall (right_row table) rows /\
  forall tm, present table tm <-> exists r, In r rows /\ u_tm r = tm.
Proof.
  intros bytes mx events N table. rewrite running_ok by auto. fold table. eexists. split; [reflexivity|].
  assert (FK : forall e, rkey (statistics_row e) = (e_pixel e, e_true e)) by (intros [[p t] m]; reflexivity).
  assert (FC : forall e, List.length (cols (statistics_row e)) = 3%nat) by (intros [[p t] m]; reflexivity).
  destruct (table_rows statistics_row 3 FK FC (map as_entry table)) as (S1 & A1 & B1).
  assert (KEY : forall x, In x (groupby (map statistics_row (map as_entry table))) -> snd (rkey x) = 0%Qc /\ present table (fst (rkey x))).
  { intros x X. destruct (A1 x X) as [NE _]. destruct (of_pixel _ _ _) as [|e l] eqn:E; [easy|]. assert (In e (e :: l)) as I by now left. rewrite <- E in I. apply filter_In in I as [I K]. apply in_map_iff in I as (r & <- & I).
    apply andb_prop in K as [K1 K2]. cbn [as_entry e_pixel e_true fst snd] in K1, K2. apply Z.eqb_eq in K1. destruct (qeqb_spec 0%Qc (snd (rkey x))) as [Z|]; [|discriminate]. split; [auto|]. exists r. auto. }
  split; [|split].
  - eapply in_map_sorted; [|exact S1]. intros a b IA IB L. cbn [run_columns u_tm]. destruct L as [L|[_ L]]; auto. destruct (KEY a IA) as [Ka _], (KEY b IB) as [Kb _]. rewrite Ka, Kb in L. now apply Qclt_not_eq in L.
  - apply Forall_forall. intros r R. apply in_map_iff in R as (x & <- & X). destruct (KEY x X) as [K0 _]. destruct (A1 x X) as [NE C]. rewrite K0 in NE, C. unfold right_row. cbn [run_columns u_tm u_sum u_n u_mean u_var].
    rewrite !C by lia. set (of := of_pixel (fst (rkey x)) 0%Qc (map as_entry table)) in *. rewrite <- of_entries. fold of. assert (map e_value of <> []) as NV by (destruct of; easy).
    assert (qsum (map (fun e => nth 0 (cols (statistics_row e)) 0%Qc) of) = qsum (map e_value of)) as -> by (f_equal; apply map_ext; intros [[? ?] ?]; reflexivity).
    assert (qsum (map (fun e => nth 1 (cols (statistics_row e)) 0%Qc) of) = qsum (map (fun x => x * x)%Qc (map e_value of))) as -> by (rewrite map_map; f_equal; apply map_ext; intros [[? ?] ?]; reflexivity).
    assert (qsum (map (fun e => nth 2 (cols (statistics_row e)) 0%Qc) of) = qn (List.length (map e_value of))) as -> by (rewrite map_length, <- qsum_ones; f_equal; apply map_ext; intros [[? ?] ?]; reflexivity).
    destruct (mean_var _ NV) as (M & V & P). rewrite V, M. repeat (split; [solve [auto]|]). auto.
  - intros tm. split.
    + intros (r & I & E). destruct (B1 (as_entry r) (in_map _ _ _ I)) as (x & X & K). exists (run_columns x). split; [now apply in_map|]. cbn [run_columns u_tm]. now rewrite K.
    + intros (r & R & <-). apply in_map_iff in R as (x & <- & X). apply (KEY x X).
Qed.
Print Assumptions C104_rows.
(** Neither the events into which the readings are cut, nor their order, nor the memory after which the tables are merged matters. *)
Theorem C104_batches : forall bytes1 mx1 events1 bytes2 mx2 events2, events1 <> [] -> events2 <> [] ->
  Permutation (List.concat events1) (List.concat events2) -> running bytes1 mx1 events1 = running bytes2 mx2 events2.
Proof.
  intros b1 m1 e1 b2 m2 e2 N1 N2 P. rewrite !running_ok by auto. rewrite !map_map. now rewrite (groupby_perm _ _ (Permutation_map (fun x => statistics_row (as_entry x)) P)).
Qed.
Print Assumptions C104_batches.
(** An empty file raises. *)
Theorem C104_empty : forall bytes mx, running bytes mx [] = Raise KeyError.
Proof. reflexivity. Qed.
Print Assumptions C104_empty.

(** ** The comparison with pandas: in row [i] stand the statistics of module [i], whatever the module of the row. *)
Lemma nth_combine : forall A (l : list A) k i x, nth_error (combine (seq k (List.length l)) l) i = Some x -> x = ((k + i)%nat, snd x) /\ nth_error l i = Some (snd x).
Proof.
  intros A l. induction l as [|a l IH]; intros k i x E; [destruct i; discriminate|]. destruct i as [|i]; cbn [List.length seq combine nth_error] in E.
  - injection E as <-. cbn [snd nth_error]. split; auto. f_equal. lia.
  - destruct (IH _ _ _ E) as [A1 B1]. split; [|exact B1]. rewrite A1 at 1. f_equal. lia.
Qed.
Theorem C104_pandas : forall bytes mx events rows, running_mean bytes mx events = Ok rows -> let table := List.concat events in
  running bytes mx events = Ok (map k_run rows) /\
  forall i r, nth_error rows i = Some r ->
    (present table (Z.of_nat i) -> k_pd_mean r = Some (qmean (of_module table (Z.of_nat i))) /\
       k_pd_var r = match of_module table (Z.of_nat i) with [_] => None | l => Some (qvar l * qn (List.length l) / (qn (List.length l) - 1))%Qc end) /\
    (~ present table (Z.of_nat i) -> k_pd_mean r = None /\ k_pd_var r = None).
Proof.
  intros bytes mx events rows E table. unfold running_mean in E. destruct (running bytes mx events) as [t|] eqn:ER; [|discriminate]. cbn [rmap] in E. injection E as <-. fold table. split.
  - f_equal. rewrite map_map. cbn [k_run]. symmetry. clear ER. generalize 0%nat. induction t as [|a t IH]; intros k; [reflexivity|]. cbn [List.length seq combine map snd]. f_equal. apply IH.
  - intros i r N. rewrite nth_error_map in N. destruct (nth_error (combine _ _) i) as [x|] eqn:EX; [|discriminate]. cbn [option_map] in N. injection N as <-. apply nth_combine in EX as [EX _]. rewrite EX. cbn [fst snd plus k_pd_mean k_pd_var].
    rewrite !aligned_spec. replace (0 + i)%nat with i by lia. destruct (in_dec Z.eq_dec (Z.of_nat i) (group_tm table)) as [I|I]; rewrite group_tm_in in I; split; intros P.
    + cbv zeta. cbn [d_mean d_var]. split; [reflexivity|]. unfold pd_std2, qvar, qmean. rewrite !map_length. destruct P as (y & Y & EY). assert (of_module table (Z.of_nat i) <> []) as NE.
      { assert (In (snd y) (of_module table (Z.of_nat i))) as J; [|intro Z; rewrite Z in J; easy]. apply in_map, filter_In. split; auto. now apply Z.eqb_eq. }
      destruct (of_module table (Z.of_nat i)) as [|a [|b l]]; [easy|reflexivity|]. rewrite !map_length. set (s := qsum (map _ (a :: b :: l))). clearbody s. cbn [List.length]. rewrite !qn_S. apply f_equal. assert (0 <= qn (List.length l))%Qc as LN by (apply (proj1 (qz_le 0 _)); lia). generalize dependent (qn (List.length l)). intros n LN.
      assert (n + 1 <> 0)%Qc as N1 by (intro Z; assert (0 < n + 1)%Qc as H by qlra; rewrite Z in H; discriminate H). assert (n + 1 + 1 <> 0)%Qc as N2 by (intro Z; assert (0 < n + 1 + 1)%Qc as H by qlra; rewrite Z in H; discriminate H).
      replace (n + 1 + 1 - 1)%Qc with (n + 1)%Qc by ring. field. split; first [exact N1|exact N2].
    + exfalso. apply P. destruct I as (y & Y & EY). exists y. auto.
    + exfalso. apply I. destruct P as (y & Y & EY). exists y. auto.
    + auto.
Qed.
Print Assumptions C104_pandas.

(** If the modules are numbered without gap from 0 the means agree. *)
Lemma sorted_range : forall l (a : Z), StronglySorted Z.lt l -> (forall x, In x l <-> (a <= x < a + Z.of_nat (List.length l))%Z) -> forall i x, nth_error l i = Some x -> x = (a + Z.of_nat i)%Z.
Proof.
  induction l as [|h l IH]; intros a SS H i x E; [destruct i; discriminate|]. inversion SS as [|h' l' S1 F]; subst h' l'. rewrite Forall_forall in F. cbn [List.length] in H.
  assert (h = a) as ->. { assert (In a (h :: l)) as [->|I] by (apply H; lia); auto. specialize (F a I). assert (a <= h)%Z by (apply (proj1 (H h)); now left). lia. }
  destruct i as [|i]; cbn [nth_error] in E; [injection E as <-; lia|]. assert (x = (a + 1 + Z.of_nat i)%Z) as ->; [|lia]. apply (IH (a + 1)%Z S1); auto. intros y. split; intros Y.
  - specialize (F y Y). assert (a <= y < a + Z.of_nat (S (List.length l)))%Z by (apply H; now right). lia.
  - assert (In y (a :: l)) as [<-|I] by (apply H; lia); [lia|auto].
Qed.
Theorem C104_means_agree : forall bytes mx events rows, running_mean bytes mx events = Ok rows -> let table := List.concat events in
  (forall tm, present table tm <-> (0 <= tm < Z.of_nat (List.length rows))%Z) -> Forall (fun r => k_pd_mean r = Some (u_mean (k_run r))) rows.
Proof.
  intros bytes mx events rows E table P. apply Forall_forall. intros r R. apply In_nth_error in R as [i N].
  destruct (C104_pandas bytes mx events rows E) as [ER X]. fold table in X. destruct (X i r N) as [A _]. destruct events as [|ev events]; [discriminate|].
  destruct (C104_rows bytes mx (ev :: events)) as (rows' & ER' & S & F & C); [easy|]. fold table in F, C. rewrite ER in ER'. injection ER' as <-.
  assert (nth_error (map k_run rows) i = Some (k_run r)) as NK by (rewrite nth_error_map, N; reflexivity).
  assert (u_tm (k_run r) = Z.of_nat i) as T.
  { change (Z.of_nat i) with (0 + Z.of_nat i)%Z. apply (sorted_range (map u_tm (map k_run rows)) 0).
    - eapply map_sorted; [|exact S]. auto.
    - intros x. rewrite !map_length, Z.add_0_l, <- P, C. rewrite in_map_iff. split; intros (y & ? & ?); exists y; auto.
    - now rewrite nth_error_map, NK. }
  rewrite Forall_forall in F. destruct (F (k_run r)) as (_ & _ & _ & M & _); [now apply nth_error_In in NK|]. rewrite T in M. rewrite M. apply A. apply P. assert (i < List.length rows)%nat by (apply nth_error_Some; congruence). lia.
Qed.
Print Assumptions C104_means_agree.
(** Refuted otherwise: a missing module below the number of modules leaves a row without a mean to compare with, and the rows of other modules
    show the mean of a module that is not theirs (C104_pandas). *)
Theorem C104_gap_refuted : forall bytes mx events rows, running_mean bytes mx events = Ok rows -> let table := List.concat events in
  forall m, (m < List.length rows)%nat -> ~ present table (Z.of_nat m) -> exists r, nth_error rows m = Some r /\ k_pd_mean r = None /\ k_pd_var r = None.
Proof.
  intros bytes mx events rows E table m L P. destruct (C104_pandas bytes mx events rows E) as [_ X]. fold table in X. destruct (nth_error rows m) as [r|] eqn:N; [|apply nth_error_None in N; lia].
  exists r. split; auto. now apply (X m r N).
Qed.
Print Assumptions C104_gap_refuted.

Lemma squares_pos : forall l q c, In c l -> c <> q -> (0 < qsum (map (fun x => (x - q) * (x - q)) l))%Qc.
Proof.
  intros l q c. induction l as [|h l IH]; intros I N; [easy|]. cbn [map]. rewrite qsum_cons. assert (0 <= (h - q) * (h - q))%Qc as H by (generalize (h - q)%Qc; intros; qnra).
  assert (0 <= qsum (map (fun x => (x - q) * (x - q)) l))%Qc as P. { apply qsum_nonneg. intros x X. apply in_map_iff in X as (y & <- & _). generalize (y - q)%Qc. intros. qnra. }
  destruct I as [->|I]; [|specialize (IH I N); qlra]. assert (0 < (c - q) * (c - q))%Qc; [|qlra]. assert (c - q <> 0)%Qc as D by (intro Z; apply N; replace c with (c - q + q)%Qc by ring; rewrite Z; ring).
  destruct (Qclt_le_dec 0 (c - q)) as [L|L]; [generalize dependent (c - q)%Qc; intros; qnra|]. assert (c - q < 0)%Qc by (apply Qcle_lt_or_eq in L as [L|L]; [auto|contradiction]). generalize dependent (c - q)%Qc; intros; qnra.
Qed.
(** The two standard deviations never agree, unless all charges of the module are equal: the accumulated one lacks the Bessel correction. *)
Theorem C104_std_refuted : forall bytes mx events rows, running_mean bytes mx events = Ok rows -> let table := List.concat events in
  forall i r, nth_error rows i = Some r -> u_tm (k_run r) = Z.of_nat i -> (exists a b, In a (of_module table (Z.of_nat i)) /\ In b (of_module table (Z.of_nat i)) /\ a <> b) ->
  exists v, k_pd_var r = Some v /\ (u_var (k_run r) < v)%Qc /\ (v * (u_n (k_run r) - 1) = u_var (k_run r) * u_n (k_run r))%Qc.
Proof.
  intros bytes mx events rows E table i r N T (a & b & IA & IB & D). destruct (C104_pandas bytes mx events rows E) as [ER X]. fold table in X. destruct (X i r N) as [A _]. destruct events as [|ev events]; [discriminate|].
  destruct (C104_rows bytes mx (ev :: events)) as (rows' & ER' & S & F & C); [easy|]. fold table in F, C. rewrite ER in ER'. injection ER' as <-.
  assert (nth_error (map k_run rows) i = Some (k_run r)) as NK by (rewrite nth_error_map, N; reflexivity). rewrite Forall_forall in F.
  assert (In (k_run r) (map k_run rows)) as IK by now apply nth_error_In in NK. destruct (F (k_run r) IK) as (_ & _ & UN & _ & UV & _). rewrite T in UN, UV.
  destruct A as [_ V]; [apply C; eauto|]. rewrite UN, UV. set (l := of_module table (Z.of_nat i)) in *.
  assert (exists x y m, l = x :: y :: m) as (x & y & m & EL). { destruct l as [|x [|y m]]; [easy| |eauto]. exfalso. destruct IA as [<-|[]], IB as [<-|[]]. now apply D. }
  rewrite V, EL. rewrite <- EL. eexists. split; [reflexivity|].
  assert (0 < qvar l)%Qc as VP.
  { unfold qvar, qmean at 1. rewrite map_length. assert (0 < qn (List.length l))%Qc as LP by (rewrite EL; cbn [List.length]; apply (proj1 (qz_lt 0 _)); lia).
    assert (0 < qsum (map (fun x => (x - qmean l) * (x - qmean l))%Qc l))%Qc as SP.
    { destruct (Qc_eq_dec a (qmean l)) as [Ea|Na]; [|now apply (squares_pos _ _ a)]. apply (squares_pos _ _ b); auto. congruence. }
    generalize dependent (qsum (map (fun x => (x - qmean l) * (x - qmean l))%Qc l)). intros q SP. apply Qcnot_le_lt. intros L. assert (q = q / qn (List.length l) * qn (List.length l))%Qc as Q by (field; intro Z; rewrite Z in LP; discriminate LP).
    generalize dependent (q / qn (List.length l))%Qc. generalize dependent (qn (List.length l)). intros. qnra. }
  assert (1 < qn (List.length l))%Qc as L1 by (rewrite EL; cbn [List.length]; apply (proj1 (qz_lt 1 _)); lia).
  clear - VP L1. revert VP L1. generalize (qvar l) (qn (List.length l)). intros v n VP L1. assert (n - 1 <> 0)%Qc as NZ by (intro Z; assert (n = 1)%Qc as E by (replace n with (n - 1 + 1)%Qc by ring; rewrite Z; ring); rewrite E in L1; discriminate L1).
  assert (v * n / (n - 1) * (n - 1) = v * n)%Qc as E by (field; auto). split; [|exact E]. revert E. generalize (v * n / (n - 1))%Qc. intros x E. apply Qcnot_le_lt. intros L. assert (0 < n - 1)%Qc as P by qlra. assert ((v - x) * (n - 1) = - v)%Qc as D by (replace ((v - x) * (n - 1))%Qc with (v * n - v - x * (n - 1))%Qc by ring; rewrite E; ring).
  assert (0 <= v - x)%Qc as Y by qlra. revert D Y P. generalize (v - x)%Qc (n - 1)%Qc. intros y z D Y P. assert (0 <= y * z)%Qc by qnra. rewrite D in H. qlra.
Qed.
Print Assumptions C104_std_refuted.

Definition rd (p : Z) (c : Z) : reading := (p, qz c).
Definition show_cook (r : res (list cook_row)) :=
  match r with Ok l => Some (map (fun r => (u_tm (k_run r), this (u_n (k_run r)), this (u_mean (k_run r)), this (u_var (k_run r)), option_map this (k_pd_mean r), option_map this (k_pd_var r))) l) | Raise _ => None end.
(** Two modules, merged after every event; a camera with module 1 only. *)
Example C104_ex : show_cook (running_mean (fun r => Z.of_nat (List.length r)) 1 [[rd 0 1; rd 64 5]; [rd 63 3; rd 70 5]; [rd 1 8; rd 127 5]]) =
  Some [(0%Z, 3, 4, 26 # 3, Some 4, Some 13); (1%Z, 3, 5, 0, Some 5, Some 0)]%Q /\
  show_cook (running_mean (fun r => Z.of_nat (List.length r)) 100 [[rd 64 5; rd 65 7]]) = Some [(1%Z, 2, 6, 1, None, None)]%Q /\
  show_cook (running_mean (fun r => Z.of_nat (List.length r)) 100 [[rd 64 5; rd 128 7]]) = Some [(1%Z, 1, 5, 0, None, None); (2%Z, 1, 7, 0, Some 5, None)]%Q.
Proof. split; [|split]; vm_compute; reflexivity. Qed.
