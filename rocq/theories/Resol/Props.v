(** Properties C62 and C63: charge resolution and charge statistics. *)
From Coq Require Import List ZArith QArith Qcanon Bool Lia Permutation Sorted.
From Verif.Base Require Import Py PyFacts Num Lst.
From Verif.Reducers Require Import Model Proofs2.
From Verif.Resol Require Import Model Proofs Proofs2.
Import ListNotations.
Local Open Scope list_scope.
Ltac vmr := repeat match goal with |- _ /\ _ => split; [vm_compute; reflexivity|] end; vm_compute; reflexivity.

Definition square (x : Qc) : Qc := (x * x)%Qc.
(** Sum of squared residuals of entries. *)
Definition residuals (l : list entry) : Qc := qsum (map (fun e => square (e_value e - e_true e)) l).
Definition earlier (a b : res_row) : Prop := (r_pixel a < r_pixel b)%Z \/ (r_pixel a = r_pixel b /\ (r_true a < r_true b)%Qc).

(** C62. Any sequence of add and finish calls that begins with an add, any memory sizes and any threshold: the last
    finish returns one row per distinct (pixel, true != 0), in increasing order, with the sum over exactly the entries
    added so far, their number and the resolution computed from these; likewise per true charge for the camera. *)
Theorem C62_tables : forall mc bytes max_bytes batch calls,
  let l := entries (Add batch :: calls) in
  exists df_p df_c, session resolution_row (resolution_finish mc) bytes max_bytes (Add batch :: calls) = Ok (df_p, df_c) /\
  StronglySorted earlier df_p /\
  (forall r, In r df_p -> let of := of_pixel (r_pixel r) (r_true r) l in
     r_true r <> 0%Qc /\ of <> [] /\ r_sum r = residuals of /\ r_n r = qn (List.length of) /\
     r_abs2 r = (residuals of / qn (List.length of) + if mc then r_true r else 0)%Qc /\ r_rel2 r = (r_abs2 r / square (r_true r))%Qc) /\
  (forall e, In e l -> e_true e <> 0%Qc -> exists r, In r df_p /\ r_pixel r = e_pixel e /\ r_true r = e_true e) /\
  StronglySorted (fun a b => r_true a < r_true b)%Qc df_c /\
  (forall r, In r df_c -> let of := of_true (r_true r) l in
     r_true r <> 0%Qc /\ of <> [] /\ r_sum r = residuals of /\ r_n r = qn (List.length of) /\
     r_abs2 r = (residuals of / qn (List.length of) + if mc then r_true r else 0)%Qc /\ r_rel2 r = (r_abs2 r / square (r_true r))%Qc) /\
  (forall e, In e l -> e_true e <> 0%Qc -> exists r, In r df_c /\ r_true r = e_true e).
Proof.
  intros mc bytes mx batch calls l.
  rewrite (session_ok resolution_row (resolution_finish mc) nz _ (resolution_finish_ok mc) bytes mx batch calls).
  eexists _, _. split; [reflexivity|].
  set (sel := filter (fun e => negb (qeqb (e_true e) 0%Qc)) l).
  assert (FK : forall e, rkey (resolution_row e) = (e_pixel e, e_true e)) by (intros [[p t] m]; reflexivity).
  assert (FC : forall e, List.length (cols (resolution_row e)) = 2%nat) by (intros [[p t] m]; reflexivity).
  assert (T : filter (fun r => nz (rkey r)) (groupby (rows_of resolution_row (Add batch :: calls))) = groupby (map resolution_row sel)).
  { rewrite <- groupby_filter, rows_of_map. fold l. f_equal. rewrite filter_map_comm. f_equal. apply filter_ext. intros [[p t] m]. reflexivity. }
  rewrite T. rewrite groupby_forget.
  destruct (table_rows resolution_row 2 FK FC sel) as (S1 & A1 & B1). destruct (camera_rows resolution_row 2 FK FC sel) as (S2 & A2 & B2).
  assert (C0 : forall e, nth 0 (cols (resolution_row e)) 0%Qc = square (e_value e - e_true e)) by (intros [[p t] m]; reflexivity).
  assert (C1 : forall e, nth 1 (cols (resolution_row e)) 0%Qc = 1%Qc) by (intros [[p t] m]; reflexivity).
  assert (NZ : forall e, In e sel -> qeqb (e_true e) 0%Qc = false) by (intros e E; apply filter_In in E as [_ E]; now destruct (qeqb (e_true e) 0%Qc)).
  assert (SI : forall e, In e l -> e_true e <> 0%Qc -> In e sel) by (intros e E N; apply filter_In; split; auto; destruct (qeqb_spec (e_true e) 0%Qc); [contradiction|auto]).
  assert (NQ : forall t, qeqb t 0%Qc = false -> t <> 0%Qc) by (intros t; destruct (qeqb_spec t 0%Qc); [discriminate|auto]).
  split; [|split; [|split; [|split; [|split]]]].
  - eapply map_sorted; [|exact S1]. intros a b L. exact L.
  - intros r R. apply in_map_iff in R as (x & <- & R). destruct (A1 x R) as [N C]. cbn [res_columns r_pixel r_true r_sum r_n r_abs2 r_rel2].
    assert (qeqb (snd (rkey x)) 0%Qc = false) as Z.
    { destruct (of_pixel _ _ sel) as [|e m] eqn:E; [easy|]. assert (In e (e :: m)) as I by (left; auto). rewrite <- E in I. unfold of_pixel in I. apply filter_In in I as [I K]. apply andb_prop in K as [_ K].
      destruct (qeqb_spec (e_true e) (snd (rkey x))) as [<-|]; [now apply NZ|discriminate]. }
    rewrite !C by lia. unfold sel in N |- *. rewrite filter_filter_of in N |- * by auto. fold l.
    assert (qsum (map (fun e => nth 0 (cols (resolution_row e)) 0%Qc) (of_pixel (fst (rkey x)) (snd (rkey x)) l)) = residuals (of_pixel (fst (rkey x)) (snd (rkey x)) l)) as -> by (unfold residuals; f_equal; apply map_ext, C0).
    assert (qsum (map (fun e => nth 1 (cols (resolution_row e)) 0%Qc) (of_pixel (fst (rkey x)) (snd (rkey x)) l)) = qn (List.length (of_pixel (fst (rkey x)) (snd (rkey x)) l))) as -> by (rewrite <- qsum_ones; f_equal; apply map_ext, C1).
    cbv zeta. split; [now apply NQ|]. split; [auto|]. split; [auto|]. split; [auto|]. split; [|reflexivity]. destruct mc; [reflexivity|]. now rewrite Qcplus_0_r.
  - intros e E N. destruct (B1 e (SI e E N)) as (r & R & K). exists (res_columns mc r). split; [now apply in_map|]. cbn [res_columns r_pixel r_true]. rewrite K. auto.
  - eapply in_map_sorted; [|exact S2]. intros a b IA IB L. cbn [res_columns r_true]. unfold row_lt, key_lt in L. rewrite (forget_zero _ _ IA), (forget_zero _ _ IB) in L. destruct L as [L|[_ L]]; [lia|auto].
  - intros r R. apply in_map_iff in R as (x & <- & R). destruct (A2 x R) as (_ & N & C). cbn [res_columns r_pixel r_true r_sum r_n r_abs2 r_rel2].
    assert (qeqb (snd (rkey x)) 0%Qc = false) as Z.
    { destruct (of_true _ sel) as [|e m] eqn:E; [easy|]. assert (In e (e :: m)) as I by (left; auto). rewrite <- E in I. unfold of_true in I. apply filter_In in I as [I K].
      destruct (qeqb_spec (e_true e) (snd (rkey x))) as [<-|]; [now apply NZ|discriminate]. }
    rewrite !C by lia. unfold sel in N |- *. rewrite filter_filter_true in N |- * by auto. fold l.
    assert (qsum (map (fun e => nth 0 (cols (resolution_row e)) 0%Qc) (of_true (snd (rkey x)) l)) = residuals (of_true (snd (rkey x)) l)) as -> by (unfold residuals; f_equal; apply map_ext, C0).
    assert (qsum (map (fun e => nth 1 (cols (resolution_row e)) 0%Qc) (of_true (snd (rkey x)) l)) = qn (List.length (of_true (snd (rkey x)) l))) as -> by (rewrite <- qsum_ones; f_equal; apply map_ext, C1).
    cbv zeta. split; [now apply NQ|]. split; [auto|]. split; [auto|]. split; [auto|]. split; [|reflexivity]. destruct mc; [reflexivity|]. now rewrite Qcplus_0_r.
  - intros e E N. destruct (B2 e (SI e E N)) as (r & R & K). exists (res_columns mc r). split; [now apply in_map|]. cbn [res_columns r_true]. auto.
Qed.
Print Assumptions C62_tables.

(** Two sequences of calls that add the same entries, in whatever order, batches, sizes and thresholds, and with
    whatever finish calls in between, return equal tables. *)
Theorem C62_independent : forall mc bytes1 max1 batch1 calls1 bytes2 max2 batch2 calls2,
  Permutation (entries (Add batch1 :: calls1)) (entries (Add batch2 :: calls2)) ->
  session resolution_row (resolution_finish mc) bytes1 max1 (Add batch1 :: calls1) = session resolution_row (resolution_finish mc) bytes2 max2 (Add batch2 :: calls2).
Proof.
  intros mc b1 m1 x1 c1 b2 m2 x2 c2 P. rewrite !(session_ok resolution_row (resolution_finish mc) nz _ (resolution_finish_ok mc)). rewrite !rows_of_map.
  now rewrite (groupby_perm _ _ (Permutation_map resolution_row P)).
Qed.
Print Assumptions C62_independent.
(** finish before any add raises KeyError. *)
Theorem C62_empty : forall mc bytes max_bytes calls,
  session resolution_row (resolution_finish mc) bytes max_bytes (Finish :: calls) = Raise KeyError /\ session resolution_row (resolution_finish mc) bytes max_bytes [] = Raise KeyError.
Proof. intros. apply session_finish_first. intros s N. unfold resolution_finish. now rewrite finish_new_raises. Qed.
Print Assumptions C62_empty.

Definition show_res (r : res (list res_row * list res_row)) :=
  match r with
  | Ok (p, c) => Some (map (fun r => (r_pixel r, this (r_true r), this (r_sum r), this (r_n r), this (r_abs2 r), this (r_rel2 r))) p, map (fun r => (this (r_true r), this (r_sum r), this (r_n r))) c)
  | Raise _ => None
  end.
Definition ent (p t m : Z) : entry := (p, qz t, qz m).
Example C62_ex :
  show_res (session resolution_row (resolution_finish true) (fun r => Z.of_nat (List.length r)) 2 [Add [ent 1 2 3; ent 0 2 0]; Finish; Add [ent 1 2 5; ent 0 0 1]; Add [ent 0 4 4]]) =
  Some ([(0%Z, 2, 4, 1, 6, 3 # 2); (0%Z, 4, 0, 1, 4, 1 # 4); (1%Z, 2, 10, 2, 7, 7 # 4)], [(2, 14, 3); (4, 0, 1)])%Q.
Proof. vm_compute. reflexivity. Qed.

(** C63. *)
Definition before (a b : stat_row) : Prop := (t_pixel a < t_pixel b)%Z \/ (t_pixel a = t_pixel b /\ (t_amplitude a < t_amplitude b)%Qc).
Theorem C63_tables : forall bytes max_bytes batch calls,
  let l := entries (Add batch :: calls) in
  exists df_p df_c, session statistics_row statistics_finish bytes max_bytes (Add batch :: calls) = Ok (df_p, df_c) /\
  StronglySorted before df_p /\
  (forall r, In r df_p -> let charges := map e_value (of_pixel (t_pixel r) (t_amplitude r) l) in
     charges <> [] /\ t_n r = qn (List.length charges) /\ t_mean r = qmean charges /\ t_var r = qvar charges /\ (0 <= t_var r)%Qc) /\
  (forall e, In e l -> exists r, In r df_p /\ t_pixel r = e_pixel e /\ t_amplitude r = e_true e) /\
  StronglySorted (fun a b => t_amplitude a < t_amplitude b)%Qc df_c /\
  (forall r, In r df_c -> let charges := map e_value (of_true (t_amplitude r) l) in
     charges <> [] /\ t_n r = qn (List.length charges) /\ t_mean r = qmean charges /\ t_var r = qvar charges /\ (0 <= t_var r)%Qc) /\
  (forall e, In e l -> exists r, In r df_c /\ t_amplitude r = e_true e).
Proof.
  intros bytes mx batch calls l.
  rewrite (session_ok statistics_row statistics_finish (fun _ => true) _ statistics_finish_ok bytes mx batch calls).
  eexists _, _. split; [reflexivity|].
  assert (FK : forall e, rkey (statistics_row e) = (e_pixel e, e_true e)) by (intros [[p t] m]; reflexivity).
  assert (FC : forall e, List.length (cols (statistics_row e)) = 3%nat) by (intros [[p t] m]; reflexivity).
  assert (F : forall l : list row, filter (fun _ => true) l = l) by (induction l0 as [|a l0 IH]; cbn [filter]; congruence).
  rewrite F, rows_of_map, groupby_forget. fold l.
  destruct (table_rows statistics_row 3 FK FC l) as (S1 & A1 & B1). destruct (camera_rows statistics_row 3 FK FC l) as (S2 & A2 & B2).
  assert (SUMS : forall m, m <> [] -> qsum (map (fun e => nth 0 (cols (statistics_row e)) 0%Qc) m) = qsum (map e_value m) /\
            qsum (map (fun e => nth 1 (cols (statistics_row e)) 0%Qc) m) = qsum (map (fun x => x * x)%Qc (map e_value m)) /\ qsum (map (fun e => nth 2 (cols (statistics_row e)) 0%Qc) m) = qn (List.length (map e_value m)) /\ map e_value m <> []).
  { intros m N. rewrite map_map, map_length, <- qsum_ones. split; [|split; [|split]]; [f_equal; apply map_ext; intros [[? ?] ?]; reflexivity ..|destruct m; easy]. }
  split; [|split; [|split; [|split; [|split]]]].
  - eapply map_sorted; [|exact S1]. intros a b L. exact L.
  - intros r R. apply in_map_iff in R as (x & <- & R). destruct (A1 x R) as [N C]. cbn [stat_columns t_pixel t_amplitude t_n t_mean t_var]. rewrite !C by lia.
    destruct (SUMS _ N) as (-> & -> & -> & N'). cbv zeta. destruct (mean_var _ N') as (M & V & P). rewrite V, M. auto.
  - intros e E. destruct (B1 e E) as (r & R & K). exists (stat_columns r). split; [now apply in_map|]. cbn [stat_columns t_pixel t_amplitude]. rewrite K. auto.
  - eapply in_map_sorted; [|exact S2]. intros a b IA IB L. cbn [stat_columns t_amplitude]. unfold row_lt, key_lt in L. rewrite (forget_zero _ _ IA), (forget_zero _ _ IB) in L. destruct L as [L|[_ L]]; [lia|auto].
  - intros r R. apply in_map_iff in R as (x & <- & R). destruct (A2 x R) as (_ & N & C). cbn [stat_columns t_pixel t_amplitude t_n t_mean t_var]. rewrite !C by lia.
    destruct (SUMS _ N) as (-> & -> & -> & N'). cbv zeta. destruct (mean_var _ N') as (M & V & P). rewrite V, M. auto.
  - intros e E. destruct (B2 e E) as (r & R & K). exists (stat_columns r). split; [now apply in_map|]. cbn [stat_columns t_amplitude]. auto.
Qed.
Print Assumptions C63_tables.
Theorem C63_independent : forall bytes1 max1 batch1 calls1 bytes2 max2 batch2 calls2,
  Permutation (entries (Add batch1 :: calls1)) (entries (Add batch2 :: calls2)) ->
  session statistics_row statistics_finish bytes1 max1 (Add batch1 :: calls1) = session statistics_row statistics_finish bytes2 max2 (Add batch2 :: calls2).
Proof.
  intros b1 m1 x1 c1 b2 m2 x2 c2 P. rewrite !(session_ok statistics_row statistics_finish (fun _ => true) _ statistics_finish_ok). rewrite !rows_of_map.
  now rewrite (groupby_perm _ _ (Permutation_map statistics_row P)).
Qed.
Print Assumptions C63_independent.
Definition show_stat (r : res (list stat_row * list stat_row)) :=
  match r with
  | Ok (p, c) => Some (map (fun r => (t_pixel r, this (t_amplitude r), this (t_n r), this (t_mean r), this (t_var r))) p, map (fun r => (this (t_amplitude r), this (t_n r), this (t_mean r), this (t_var r))) c)
  | Raise _ => None
  end.
Example C63_ex :
  show_stat (session statistics_row statistics_finish (fun r => Z.of_nat (List.length r)) 1 [Add [ent 1 2 3; ent 0 2 0]; Finish; Add [ent 1 2 5; ent 0 0 1]]) =
  Some ([(0%Z, 0, 1, 1, 0); (0%Z, 2, 1, 0, 0); (1%Z, 2, 2, 4, 1)], [(0, 1, 1, 0); (2, 3, 8 # 3, 38 # 9)])%Q.
Proof. vm_compute. reflexivity. Qed.
