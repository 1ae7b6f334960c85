(** Properties C23-C27: waveform readers. *)
From Coq Require Import List ZArith String Bool Lia.
From Verif.Base Require Import Py PyFacts.
From Verif.Reader Require Import Model Proofs Proofs2.
From Verif.Chain Require Model.
Import ListNotations.
Local Open Scope list_scope.
Local Open Scope Z_scope.

Ltac vmr := repeat match goal with |- _ /\ _ => split; [vm_compute; reflexivity|] end; vm_compute; reflexivity.

(** *** C23 *)
Theorem C23_integer_index : forall E (ev : Z -> E) n i, 0 <= n ->
  (0 <= i < n -> getitem ev n (IInt i) = Ok (Event (ev i))) /\
  (- n <= i < 0 -> getitem ev n (IInt i) = Ok (Event (ev (n + i)))) /\
  (~ - n <= i < n -> getitem ev n (IInt i) = Raise IndexError).
Proof.
  intros E ev n i Hn. cbn [getitem]. rewrite get_int_spec by exact Hn.
  destruct (Z.leb_spec 0 i), (Z.ltb_spec i n), (Z.leb_spec (- n) i), (Z.ltb_spec i 0);
    repeat split; intros; try lia; reflexivity.
Qed.
Print Assumptions C23_integer_index.

Theorem C23_iteration : forall E (ev : Z -> E) n, 0 <= n ->
  len n = Ok n /\
  iterate ev n = map ev (map Z.of_nat (seq 0 (Z.to_nat n))) /\
  mapM (fun i => getitem ev n (IInt i)) (map Z.of_nat (seq 0 (Z.to_nat n))) = Ok (map Event (iterate ev n)).
Proof.
  intros E ev n Hn. split; [exact (len_ok n Hn)|]. split; [exact (iterate_spec ev n)|].
  rewrite (mapM_ext _ _ _ (fun i => Ok (Event (ev i)))).
  - rewrite mapM_Ok_map, iterate_spec. unfold upto. rewrite !map_map. reflexivity.
  - intros i I. apply C23_integer_index; [exact Hn|]. exact (proj1 (upto_In n i) I).
Qed.
Print Assumptions C23_iteration.

Theorem C23_list_index : forall E (ev : Z -> E) n l, 0 <= n ->
  ((forall i, In i l -> - n <= i < n) ->
    getitem ev n (IList (map IInt l)) =
    Ok (Events (map (fun i => Event (ev (if i <? 0 then n + i else i))) l))) /\
  ((exists i, In i l /\ ~ - n <= i < n) -> getitem ev n (IList (map IInt l)) = Raise IndexError).
Proof. intros E ev n l Hn. exact (list_index ev n Hn l). Qed.
Print Assumptions C23_list_index.

Definition ex_ev (i : Z) : Z := 1000 + i.
Example C23_example :
  getitem ex_ev 5 (IInt 4) = Ok (Event 1004) /\ getitem ex_ev 5 (IInt (-5)) = Ok (Event 1000) /\
  getitem ex_ev 5 (IInt 5) = Raise IndexError /\ getitem ex_ev 5 (IInt (-6)) = Raise IndexError /\
  getitem ex_ev 5 (IList [IInt 3; IInt (-1); IInt 3]) = Ok (Events [Event 1003; Event 1004; Event 1003]) /\
  getitem ex_ev 5 (IList [IInt 3; IInt 9]) = Raise IndexError /\
  getitem ex_ev 5 IOther = Raise TypeError /\ iterate ex_ev 3 = [1000; 1001; 1002].
Proof. vmr. Qed.

(** *** C24 *)
Theorem C24_slice : forall E (ev : Z -> E) n, 0 <= n ->
  (forall d a b c, match c with Some z => z <> 0 | None => True end ->
     getitem ev n (ISlice a b c) = Ok (Events (map Event (list_slice d (iterate ev n) a b c)))) /\
  (forall a b, getitem ev n (ISlice a b (Some 0)) = Raise ValueError).
Proof. intros E ev n Hn. split; [exact (c24 ev n Hn)|exact (c24_zero ev n Hn)]. Qed.
Print Assumptions C24_slice.

Example C24_example :
  getitem ex_ev 6 (ISlice (Some 1) (Some (-1)) (Some 2)) = Ok (Events [Event 1001; Event 1003]) /\
  getitem ex_ev 6 (ISlice (Some 100) None (Some (-4))) = Ok (Events [Event 1005; Event 1001]) /\
  getitem ex_ev 6 (ISlice (Some (-100)) (Some 2) None) = Ok (Events [Event 1000; Event 1001]) /\
  getitem ex_ev 6 (ISlice (Some 4) (Some 2) None) = Ok (Events []) /\
  getitem ex_ev 6 (ISlice None (Some (-3)) (Some (-1))) = Ok (Events [Event 1005; Event 1004]) /\
  getitem ex_ev 6 (ISlice None (Some (-100)) (Some (-3))) = Ok (Events [Event 1005; Event 1002]) /\
  getitem ex_ev 6 (ISlice None None (Some 0)) = Raise ValueError /\
  list_slice 0 [10; 11; 12; 13; 14] (Some (-2)) None (Some (-2)) = [13; 11].
Proof. vmr. Qed.

(** *** C25 *)
Theorem C25_simtel_detection : forall gunzip little_endian content,
  (forall c, plain gunzip content = Ok c -> Forall is_byte c) ->
  (simtel_compatible gunzip little_endian content = Ok true <->
   exists c, plain gunzip content = Ok c /\ simtel_marker (firstn 4 c)).
Proof. exact simtel_accepts. Qed.
Print Assumptions C25_simtel_detection.

Theorem C25_byte_order : forall gunzip content, (forall c, plain gunzip content = Ok c -> Forall is_byte c) ->
  simtel_compatible gunzip true content = simtel_compatible gunzip false content.
Proof. exact simtel_endian. Qed.
Print Assumptions C25_byte_order.

(** A TIO file is one with FITS in its first kilobyte and a readable header of an event file; an
    unreadable header is an answer, not an error. *)
Theorem C25_tio_detection : forall gunzip fits_header content c,
  (2 <= List.length content)%nat -> plain gunzip content = Ok c ->
  (tio_compatible gunzip fits_header content = Ok true <->
   (exists a b, firstn 1024 c = a ++ [70; 73; 84; 83] ++ b) /\ fits_header content = Ok true) /\
  ((forall e, fits_header content = Raise e -> e = IOError \/ e = FileNotFoundError) ->
   exists b, tio_compatible gunzip fits_header content = Ok b).
Proof. exact tio_detects. Qed.
Print Assumptions C25_tio_detection.

(** from_path picks the first class that accepts, provided the ones before it do not raise. *)
Theorem C25_first_compatible : forall C F (comp : C -> F -> res bool) cs f,
  (forall c, from_path comp cs f = Ok (Some c) <->
     exists a b, cs = a ++ c :: b /\ (forall x, In x a -> comp x f = Ok false) /\ comp c f = Ok true) /\
  (from_path comp cs f = Ok None <-> forall x, In x cs -> comp x f = Ok false).
Proof. exact from_path_first. Qed.
Print Assumptions C25_first_compatible.

(** The readers of the repository: 1 TIOReader, 2 ReaderR1, 3 ReaderR0, 4 SimtelReader (tio.py, imported
    before simtel.py), 0 the abstract WaveformReader. *)
Definition readers : list Chain.Model.class :=
  snd (Chain.Model.exec_classes (Chain.Model.world0 "WaveformReader" true)
    [Chain.Model.Def "TIOReader" false [0%nat] []; Chain.Model.Def "ReaderR1" false [1%nat] [];
     Chain.Model.Def "ReaderR0" false [1%nat] []; Chain.Model.Def "SimtelReader" false [0%nat] []]).
Definition reader_compatible gunzip fits_header le (c : nat) (content : list byte) : res bool :=
  if Nat.eqb c 4 then simtel_compatible gunzip le content else tio_compatible gunzip fits_header content.

(** A simtel file is opened by SimtelReader unless its first kilobyte contains FITS. *)
Theorem C25_simtel_file : forall gunzip fits_header le content c,
  plain gunzip content = Ok c -> Forall is_byte c -> simtel_marker (firstn 4 c) ->
  ~ (exists a b, firstn 1024 c = a ++ [70; 73; 84; 83] ++ b) ->
  from_path (reader_compatible gunzip fits_header le) (Chain.Model.child_subclasses readers 0) content = Ok (Some 4%nat).
Proof.
  intros gunzip fits_header le content c P HB HM HF.
  change (Chain.Model.child_subclasses readers 0) with [1; 4; 2; 3]%nat.
  apply (proj1 (from_path_first _ _ (reader_compatible gunzip fits_header le) [1; 4; 2; 3]%nat content)).
  exists [1%nat], [2; 3]%nat. split; [reflexivity|]. split.
  - intros x [<-|[]]. cbn [reader_compatible Nat.eqb]. apply tio_refuses with c; auto.
    destruct content as [|b0 [|b1 t]]; cbn; try lia; exfalso.
    + inversion P; subst. destruct HM; discriminate.
    + assert (c = [b0]) as ->; [|destruct HM; discriminate].
      unfold plain in P. destruct b0 as [|p|p]; try congruence. do 6 (try (destruct p as [p|p|]; try congruence)).
  - cbn [reader_compatible Nat.eqb]. apply simtel_accepts; [|eauto]. intros c' E. congruence.
Qed.
Print Assumptions C25_simtel_file.

Definition ex_gunzip (l : list byte) : res (list byte) :=
  match l with _ :: _ :: t => Ok t | _ => Raise IOError end.
Definition ex_fits (l : list byte) : res bool := if Z.even (last l 0) then Ok true else Raise IOError.
Example C25_example :
  simtel_compatible ex_gunzip true [55; 138; 31; 212; 9] = Ok true /\
  simtel_compatible ex_gunzip false [31; 139; 212; 31; 138; 55] = Ok true /\
  simtel_compatible ex_gunzip true [31; 139; 212; 31; 138; 54] = Ok false /\
  simtel_compatible ex_gunzip true [55; 138; 31] = Raise StructError /\
  simtel_compatible ex_gunzip true [] = Raise IndexError /\
  Chain.Model.child_subclasses readers 0 = [1; 4; 2; 3]%nat /\
  from_path (reader_compatible ex_gunzip ex_fits true) (Chain.Model.child_subclasses readers 0)
    [1; 70; 73; 84; 83; 2] = Ok (Some 1%nat) /\
  from_path (reader_compatible ex_gunzip ex_fits true) (Chain.Model.child_subclasses readers 0)
    [1; 70; 73; 84; 83; 3] = Ok None /\
  from_path (reader_compatible ex_gunzip ex_fits true) (Chain.Model.child_subclasses readers 0)
    [55; 138; 31; 212; 70; 73; 84; 83; 2] = Ok (Some 1%nat) /\
  from_path (reader_compatible ex_gunzip ex_fits true) (Chain.Model.child_subclasses readers 0)
    [55; 138; 31; 212; 1; 2] = Ok (Some 4%nat).
Proof. vmr. Qed.

(** *** C26 *)
Theorem C26_max_events : forall nf (m : option Z), 0 <= nf ->
  tio_n_events nf m = match m with
                      | None => nf
                      | Some m => if m =? 0 then nf else Z.min m nf
                      end.
Proof. exact c26. Qed.
Print Assumptions C26_max_events.

Theorem C26_first_events : forall E (ev : Z -> E) nf m, 0 <= nf -> 1 <= m ->
  iterate ev (tio_n_events nf (Some m)) = firstn (Z.to_nat m) (iterate ev nf).
Proof. exact c26_events. Qed.
Print Assumptions C26_first_events.

Example C26_example :
  tio_n_events 10 (Some 3) = 3 /\ tio_n_events 10 (Some 30) = 10 /\ tio_n_events 10 (Some 0) = 10 /\
  tio_n_events 10 None = 10 /\ iterate ex_ev (tio_n_events 4 (Some 2)) = [1000; 1001].
Proof. vmr. Qed.

(** *** C27 *)
Theorem C27_t_cpu_exact : forall s ns, 0 <= s < 2 ^ 32 -> 0 <= ns < 2 ^ 32 -> t_cpu s ns = s * 1000000000 + ns.
Proof. exact c27. Qed.
Print Assumptions C27_t_cpu_exact.

Theorem C27_t_cpu_order : forall s ns s' ns', 0 <= s < 2 ^ 32 -> 0 <= s' < 2 ^ 32 ->
  0 <= ns < 1000000000 -> 0 <= ns' < 1000000000 ->
  (t_cpu s ns < t_cpu s' ns' <-> s < s' \/ s = s' /\ ns < ns') /\
  (t_cpu s ns = t_cpu s' ns' <-> s = s' /\ ns = ns').
Proof. exact c27_order. Qed.
Print Assumptions C27_t_cpu_order.

(** The last second of 32 bits; for 2^34 + 1 seconds the product would be rounded. *)
Example C27_example :
  t_cpu 4294967295 999999999 = 4294967295999999999 /\ t_cpu 1565000001 123456789 = 1565000001123456789 /\
  t_cpu 17179869185 0 <> 17179869185000000000.
Proof. split; [vm_compute; reflexivity|]. split; [vm_compute; reflexivity|]. vm_compute. discriminate. Qed.
