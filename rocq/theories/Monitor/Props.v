(** Property C69: monitor information of DL1 files. *)
From Coq Require Import List ZArith QArith Qcanon Qround Bool String Lia Sorted.
From Verif.Base Require Import Py PyFacts Num Lst.
From Verif.Camera Require Import Model Proofs.
From Verif.Monitor Require Import Model.
Import ListNotations.
Local Open Scope string_scope.
Local Open Scope list_scope.
Ltac vmr := repeat match goal with |- _ /\ _ => split; [vm_compute; reflexivity|] end; vm_compute; reflexivity.

Definition has (c : string) (t : table) : Prop := In c (map fst t).
(** The first table, in the order camera, module, pixel, that has the column. *)
Inductive first_table (m : monitor) (c : string) : which -> table -> Prop :=
| in_camera : forall t, monitor_camera m = Some t -> has c t -> first_table m c Camera t
| in_tm : forall t t', monitor_camera m = Some t -> ~ has c t -> monitor_tm m = Some t' -> has c t' -> first_table m c TM t'
| in_pixel : forall t t' t'', monitor_camera m = Some t -> ~ has c t -> monitor_tm m = Some t' -> ~ has c t' -> monitor_pixel m = Some t'' -> has c t'' -> first_table m c Pixel t''.

Lemma smem_in : forall c l, smem c l = true <-> In c l.
Proof. intros c l. unfold smem. rewrite existsb_exists. split; [intros (x & I & E); apply String.eqb_eq in E; now subst|]. intros I. exists c. split; auto. apply String.eqb_refl. Qed.
Lemma smem_not : forall c l, ~ In c l -> smem c l = false.
Proof. intros c l N. destruct (smem c l) eqn:E; [|reflexivity]. apply smem_in in E. contradiction. Qed.
Lemma key_of : forall m c k t, first_table m c k t -> get_key_for_column m c = Ok k /\ get_table m k = Some t /\ has c t.
Proof.
  intros m c k t F. unfold get_key_for_column, columns, get_table. destruct F as [t M H|t t' M N M' H|t t' t'' M N M' N' M'' H]; rewrite M; cbn [bind]; unfold dkeys.
  - rewrite (proj2 (smem_in _ _) H). auto.
  - rewrite (smem_not _ _ N), M'. cbn [bind]. rewrite (proj2 (smem_in _ _) H). auto.
  - rewrite (smem_not _ _ N), M'. cbn [bind]. rewrite (smem_not _ _ N'), M''. cbn [bind]. rewrite (proj2 (smem_in _ _) H). auto.
Qed.
Lemma has_get : forall c t, has c t -> exists v, dget c t = Some v.
Proof.
  intros c t H. induction t as [|[k v] t IH]; [destruct H|]. cbn [dget]. destruct (String.eqb_spec c k); [now exists v|]. apply IH. destruct H as [<-|H]; [easy|exact H].
Qed.
Lemma by_label_ok : forall values labels, (forall i, In i labels -> (0 <= i < Z.of_nat (List.length values))%Z) ->
  by_label values labels = Ok (map (fun i => (i, nth (Z.to_nat i) values 0%Qc)) labels).
Proof.
  intros values labels H. unfold by_label. induction labels as [|i l IH]; [reflexivity|]. cbn [mapM map]. pose proof (H i (or_introl eq_refl)) as B. destruct (Z.leb_spec 0 i); [|lia].
  destruct (nth_error values (Z.to_nat i)) as [v|] eqn:E; [|apply nth_error_None in E; lia]. rewrite IH by (intros; apply H; now right). now rewrite (nth_error_nth _ _ _ E).
Qed.
Lemma by_label_out : forall values labels i, In i labels -> ~ (0 <= i < Z.of_nat (List.length values))%Z -> by_label values labels = Raise KeyError.
Proof.
  intros values labels i I N. unfold by_label. induction labels as [|j l IH]; [destruct I|]. cbn [mapM]. destruct I as [->|I].
  - destruct (Z.leb_spec 0 i); [|reflexivity]. destruct (nth_error values (Z.to_nat i)) as [v|] eqn:E; [|reflexivity]. exfalso. assert (Z.to_nat i < List.length values)%nat by (apply nth_error_Some; congruence). lia.
  - destruct (0 <=? j)%Z; [|reflexivity]. destruct (nth_error values (Z.to_nat j)); [|reflexivity]. now rewrite IH.
Qed.

(** Each event gets the monitor value its index points to, from the first table that has the column. *)
Theorem C69_matched : forall f m c k t imonitor, info f = Some m -> first_table m c k t ->
  dget (match k with Camera => "monitor_camera_index" | TM => "monitor_tm_index" | Pixel => "monitor_pixel_index" end) (index_columns f) = Some imonitor ->
  exists values, dget c t = Some values /\
  ((forall i, In i imonitor -> (0 <= i < Z.of_nat (List.length values))%Z) ->
     get_matched_monitor_column f c = Ok (map (fun i => (i, nth (Z.to_nat i) values 0%Qc)) imonitor)) /\
  ((exists i, In i imonitor /\ ~ (0 <= i < Z.of_nat (List.length values))%Z) -> get_matched_monitor_column f c = Raise KeyError).
Proof.
  intros f m c k t im I F D. destruct (key_of m c k t F) as (K & T & H). destruct (has_get c t H) as (v & V). exists v. split; [exact V|].
  assert (G : get_matched_monitor_column f c = by_label v im).
  { unfold get_matched_monitor_column. rewrite I, K. cbn [bind]. unfold event_key, dlookup. rewrite D. cbn [bind]. unfold select_column. cbn [bind]. rewrite T. unfold dlookup. rewrite V. reflexivity. }
  rewrite G. split; [apply by_label_ok|]. intros (i & II & N). eapply by_label_out; eauto.
Qed.
Print Assumptions C69_matched.
(** A column no table has, an event index column that is missing, and a file without monitor information. *)
Theorem C69_missing : forall f m c, info f = Some m -> (forall k t, get_table m k = Some t -> ~ has c t) -> get_matched_monitor_column f c = Raise KeyError.
Proof.
  intros f m c I N. unfold get_matched_monitor_column. rewrite I. unfold get_key_for_column, columns. pose proof (N Camera) as N1. pose proof (N TM) as N2. pose proof (N Pixel) as N3. unfold get_table in *.
  destruct (monitor_camera m) as [t|]; [|reflexivity]. cbn [bind]. unfold dkeys. rewrite (smem_not _ _ (N1 t eq_refl)). destruct (monitor_tm m) as [t'|]; [|reflexivity]. cbn [bind]. rewrite (smem_not _ _ (N2 t' eq_refl)).
  destruct (monitor_pixel m) as [t''|]; [|reflexivity]. cbn [bind]. now rewrite (smem_not _ _ (N3 t'' eq_refl)).
Qed.
Print Assumptions C69_missing.
Theorem C69_no_monitor : forall f c, info f = None -> get_matched_monitor_column f c = Raise AttributeError.
Proof. intros f c I. unfold get_matched_monitor_column. now rewrite I. Qed.
Print Assumptions C69_no_monitor.

(** The average of a column: one value per device, in increasing order of device, the mean over its entries. *)
Theorem C69_average : forall m c k t devices values, first_table m c k t -> c <> "idevice" -> dget "idevice" t = Some (map qz devices) -> dget c t = Some values -> List.length values = List.length devices ->
  exists ids, get_average m c = Ok (map (fun d => qmean (map snd (filter (fun p => (fst p =? d)%Z) (combine devices values)))) ids) /\
  StronglySorted Z.lt ids /\ forall d, In d ids <-> In d devices.
Proof.
  intros m c k t dev v F NC D V L. destruct (key_of m c k t F) as (K & T & _). unfold get_average. rewrite K. cbn [bind]. unfold select_column. cbn [bind]. rewrite T. unfold dlookup. rewrite D, V. cbn [bind].
  destruct (String.eqb_spec c "idevice"); [contradiction|].
  set (key := fun p : Qc * Qc => Qfloor (this (fst p))). set (fn := fun (k0 : Z) (_ : Qc * Qc) (g : list (Qc * Qc)) => (k0, qmean (map snd g))).
  assert (OF : forall k a g, fst (fn k a g) = k) by reflexivity.
  assert (KEYS : map key (combine (map qz dev) v) = dev).
  { clear - L. revert v L. induction dev as [|d dev IH]; intros [|x v] L; try discriminate; [reflexivity|]. cbn [map combine]. f_equal; [|apply IH; now injection L]. unfold key. cbn [fst]. rewrite <- (Qfloor_Z d) at 2. apply Qfloor_comp, this_qz. }
  exists (keys dev). split; [|split; [apply keys_sorted|intros d; apply keys_in]]. f_equal.
  replace (keys dev) with (map fst (agg key fn (combine (map qz dev) v))) by (rewrite (agg_keys key fn fst OF); now rewrite KEYS). rewrite map_map. apply map_ext_in. intros r R. destruct (agg_in key fn fst OF _ _ R) as (p & ps & M & E). rewrite E at 1. cbn [fn snd]. rewrite <- M.
  f_equal. generalize (fst r). clear - L. intros d. unfold members. revert v L. induction dev as [|e dev IH]; intros [|x v] L; try discriminate; [reflexivity|]. cbn [map combine filter].
  assert (key (qz e, x) = e) as -> by (unfold key; cbn [fst]; rewrite <- (Qfloor_Z e) at 2; apply Qfloor_comp, this_qz). cbn [fst]. destruct (e =? d)%Z; cbn [map snd]; [f_equal|]; apply IH; now injection L.
Qed.
Print Assumptions C69_average.

(** As an array: the value of device d at event e. *)
Lemma reshape_nth : forall A n k (l : list A) i j, (i < n)%nat -> (j < k)%nat -> match nth_error (reshape n k l) i with Some r => nth_error r j | None => None end = nth_error l (i * k + j).
Proof.
  intros A n k. induction n as [|n IH]; intros l i j I J; [lia|]. cbn [reshape]. destruct i as [|i]; cbn [nth_error].
  - rewrite nth_error_firstn. destruct (Nat.ltb_spec j k); [reflexivity|lia].
  - rewrite IH by lia. rewrite nth_error_skipn. f_equal. lia.
Qed.
Theorem C69_array : forall m c k t values, first_table m c k t -> dget c t = Some values -> (0 < n_events m)%Z ->
  (forall n, Z.of_nat (List.length values) = (n_events m * Z.of_nat n)%Z ->
     exists a, select_column_as_array m c None = Ok a /\ List.length a = Z.to_nat (n_events m) /\
     forall e d, (e < Z.to_nat (n_events m))%nat -> (d < n)%nat -> match nth_error a e with Some r => nth_error r d | None => None end = nth_error values (e * n + d)) /\
  ((forall n, Z.of_nat (List.length values) <> (n_events m * Z.of_nat n)%Z) -> select_column_as_array m c None = Raise ValueError).
Proof.
  intros m c k t v F V N. destruct (key_of m c k t F) as (K & T & _). unfold select_column_as_array, select_column. rewrite K. cbn [bind]. rewrite T. unfold dlookup. rewrite V. cbn [bind].
  destruct (Z.eqb_spec (n_events m) 0); [lia|]. destruct (Z.ltb_spec (n_events m) 0); [lia|]. cbn [orb]. split.
  - intros n' E. rewrite E. replace (n_events m * Z.of_nat n' / n_events m)%Z with (Z.of_nat n') by (rewrite Z.mul_comm, Z.div_mul; lia). rewrite Z.eqb_refl. cbn [negb]. eexists. split; [reflexivity|]. rewrite Nat2Z.id. split.
    + generalize v. induction (Z.to_nat (n_events m)); intros; cbn [reshape List.length]; auto.
    + intros e d H1 H2. now apply reshape_nth.
  - intros X. destruct (Z.eqb_spec (n_events m * (Z.of_nat (List.length v) / n_events m)) (Z.of_nat (List.length v))) as [E|]; [|reflexivity]. exfalso.
    apply (X (Z.to_nat (Z.of_nat (List.length v) / n_events m))). rewrite Z2Nat.id; [now symmetry|]. apply Z.div_pos; lia.
Qed.
Print Assumptions C69_array.

Definition ex_monitor : monitor :=
  {| monitor_camera := Some [("t_cpu", [qz 5; qz 6])]; monitor_tm := Some [("idevice", map qz [1; 0; 1; 0]%Z); ("temp", map qz [10; 20; 30; 40]%Z)]; monitor_pixel := Some [("idevice", []); ("temp", []); ("hv", [qz 7])]; n_events := 2; n_bytes := 0 |}.
Definition ex_file : file := {| index_columns := [("monitor_tm_index", [3; 0; 3]%Z); ("monitor_pixel_index", [1%Z])]; info := Some ex_monitor |}.
Definition show {A} (r : res (list (A * Qc))) := match r with Ok l => Ok (map (fun p => (fst p, this (snd p))) l) | Raise e => Raise e end.
Example C69_ex :
  show (get_matched_monitor_column ex_file "temp") = Ok [(3%Z, 40%Q); (0%Z, 10%Q); (3%Z, 40%Q)] /\
  get_matched_monitor_column ex_file "hv" = Raise KeyError /\ get_matched_monitor_column ex_file "t_cpu" = Raise KeyError /\ get_matched_monitor_column ex_file "x" = Raise KeyError /\
  rmap (map this) (get_average ex_monitor "temp") = Ok [30; 20]%Q /\ get_average ex_monitor "idevice" = Raise KeyError /\
  rmap (map (map this)) (select_column_as_array ex_monitor "temp" None) = Ok [[10; 20]; [30; 40]]%Q.
Proof. vmr. Qed.
(** Loading a whole table: refused above 8 GB unless forced, whole otherwise. *)
Theorem C69_load : forall m k force,
  (forall t, get_table m k = Some t -> (n_bytes m <= 8 * 10 ^ 9)%Z \/ force = true -> load_entire_table m k force = Ok t) /\
  (get_table m k = None -> (n_bytes m <= 8 * 10 ^ 9)%Z \/ force = true -> load_entire_table m k force = Raise KeyError) /\
  ((8 * 10 ^ 9 < n_bytes m)%Z -> force = false -> load_entire_table m k force = Raise MemoryError).
Proof.
  intros m k force. change (8 * 10 ^ 9)%Z with 8000000000%Z. unfold load_entire_table.
  assert (S : (n_bytes m <= 8000000000)%Z \/ force = true -> (8000000000 <? n_bytes m)%Z && negb force = false).
  { intros [L| ->]; [|apply andb_false_r]. destruct (Z.ltb_spec 8000000000 (n_bytes m)); [lia|reflexivity]. }
  split; [|split].
  - intros t E L. now rewrite (S L), E.
  - intros E L. now rewrite (S L), E.
  - intros L ->. destruct (Z.ltb_spec 8000000000 (n_bytes m)); [reflexivity|lia].
Qed.
Print Assumptions C69_load.
Example C69_load_ex : load_entire_table {| monitor_camera := None; monitor_tm := None; monitor_pixel := None; n_events := 1; n_bytes := 8000000001 |} TM false = Raise MemoryError /\
  load_entire_table {| monitor_camera := None; monitor_tm := Some []; monitor_pixel := None; n_events := 1; n_bytes := 8000000001 |} TM true = Ok [].
Proof. vmr. Qed.
