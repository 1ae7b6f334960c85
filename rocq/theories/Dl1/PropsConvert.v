(** C100: conversion of DL1 files to ROOT. *)
From Coq Require Import List ZArith Bool Arith String Ascii Lia Permutation.
From Verif.Base Require Import Py PyFacts.
From Verif.Files Require Import Model Proofs2.
From Verif.Plots Require Import SpecFigures ProofsFigures.
From Verif.Dl1 Require Import ModelConvert SpecConvert ProofsConvert.
Import ListNotations.
Local Open Scope list_scope.

(** The output: the path asked for, or else the input with .root for its extension. *)
Definition target (inp : path) (out : option path) : path := match out with Some p => p | None => default_output inp end.

(** A file without monitor data, with scalar metadata and columns of numbers, is converted: the output has one branch per
    entry of the metadata with its value, every column of the table (times in nanoseconds) and of the mapping; no other file
    changes. *)
Theorem C100_converted : forall F hold bits inp out (d : disk F) f, holder hold -> d inp = Some (Hdf f) -> convertible f -> d_monitor f = false ->
  exists d' t, convert hold bits inp out d = (d', Finished) /\ d' (target inp out) = Some (Root t) /\ elsewhere (target inp out) d d' /\
    Permutation (map (fun e => (fst e, kept (snd e))) (d_meta f)) (map (fun e => (fst e, Some (snd e))) (tMeta t)) /\
    tData t = map (fun c => (fst c, nanoseconds (snd c))) (d_data f) /\ tMapping t = d_mapping f.
Proof.
  intros F hold bits inp out d f Hh I C M. unfold convert. rewrite I, (load_ok F bits f C M). fold (target inp out). destruct C as (_ & S & D & P).
  destruct (meta_tree F hold (d_meta f) Hh S) as (a & b & m & E & N & Pm). unfold fill. rewrite E. cbn [bind snd fst]. rewrite N. cbn [bind].
  rewrite (write_numeric F _ (view_numeric F _ D)), (write_numeric F _ P). cbn [bind].
  eexists _, _. split; [reflexivity|]. split; [apply put_same|]. split; [apply put_other|]. cbn [tMeta tData tMapping]. auto.
Qed.
Print Assumptions C100_converted.

(** The same, read from the output: a key of the metadata is found there once, with its value. *)
Theorem C100_lookup : forall F hold bits inp out (d d' : disk F) f t k v, holder hold -> d inp = Some (Hdf f) -> convertible f -> NoDup (map fst (d_meta f)) ->
  convert hold bits inp out d = (d', Finished) -> d' (target inp out) = Some (Root t) -> In (k, v) (d_meta f) ->
  exists b, kept v = Some b /\ In (k, b) (tMeta t) /\ (forall b', In (k, b') (tMeta t) -> b' = b) /\ NoDup (map fst (tMeta t)).
Proof.
  intros F hold bits inp out d d' f t k v Hh I C N E T K. destruct (d_monitor f) eqn:M.
  { unfold convert in E. rewrite I in E. unfold load in E. rewrite M in E. destruct (8000000000 <? d_bytes f)%Z; discriminate. }
  destruct (C100_converted F hold bits inp out d f Hh I C M) as (d2 & t2 & E2 & T2 & _ & P & _). rewrite E in E2. injection E2 as <-. rewrite T in T2. injection T2 as <-.
  assert (In (k, kept v) (map (fun e => (fst e, Some (snd e))) (tMeta t))) as J. { eapply Permutation_in; [exact P|]. apply in_map_iff. now exists (k, v). }
  apply in_map_iff in J as ((k' & b) & Eq & J). cbn [fst snd] in Eq. injection Eq as -> Eb. exists b. split; [now rewrite Eb|]. split; [exact J|].
  assert (NoDup (map fst (tMeta t))) as ND. { apply (Permutation_map fst) in P. rewrite !map_map in P. cbn [fst] in P. eapply Permutation_NoDup; [exact P|exact N]. }
  split; [|exact ND]. intros b' J'. clear - J J' ND. induction (tMeta t) as [|[k0 b0] l IH]; [destruct J|]. cbn [map fst] in ND. inversion ND as [|? ? N1 N2]; subst.
  destruct J as [J|J], J' as [J'|J']; try congruence; [injection J as -> ->|injection J' as -> ->|now apply IH]; exfalso; apply N1; apply in_map_iff; eexists (_, _); (split; [|eassumption]); reflexivity.
Qed.
Print Assumptions C100_lookup.

(** The default name keeps the directory and exchanges the extension, if there is one, for .root; it is the name of the
    input only if that ends with .root. *)
Theorem C100_default_name : forall inp, exists s e, snd inp = s ++ e /\ (e = [] \/ exists x, e = "."%char :: x /\ dotless x) /\
  default_output inp = (fst inp, s ++ T ".root") /\ (default_output inp = inp <-> e = T ".root") /\
  (forall a x, snd inp = a ++ "."%char :: x -> stem a -> dotless x -> s = a).
Proof.
  intros [ds b]. destruct (splitext_split b) as (s & e & E & B & H). exists s, e. cbn [fst snd]. split; [exact B|]. split; [exact H|]. unfold default_output. cbn [fst snd]. rewrite E. cbn [fst]. split; [reflexivity|]. split.
  - rewrite B. split; [intros Q; injection Q as Q; apply app_inv_head in Q; now symmetry|now intros ->].
  - intros a x Bx St Dx. rewrite Bx, (splitext_app a x St Dx) in E. now injection E as <-.
Qed.
Print Assumptions C100_default_name.

(** However it ends, only the output can change; the input stays as it is if it is not the output, and a script that stops before it
    opens the output changes nothing. *)
Theorem C100_only_output : forall F hold bits inp out (d d' : disk F) e, convert hold bits inp out d = (d', e) ->
  elsewhere (target inp out) d d' /\ (e = Finished -> exists t, d' (target inp out) = Some (Root t)) /\
  (e = NoInput <-> d inp = None) /\ (e = NoInput -> d' = d) /\ (forall x, e = Failed x -> d' = d \/ d' (target inp out) = Some Scrap).
Proof.
  intros F hold bits inp out d d' e E. unfold convert in E. fold (target inp out) in E. destruct (d inp) as [[f|t| |]|] eqn:I.
  - destruct (load bits f) as [[[meta data] mapping]|x]; [destruct (fill hold meta data mapping) as [t|x]|]; injection E as <- <-.
    + split; [apply put_other|]. split; [intros _; exists t; apply put_same|]. split; [split; discriminate|]. split; [discriminate|]. intros x X. discriminate.
    + split; [apply put_other|]. split; [discriminate|]. split; [split; discriminate|]. split; [discriminate|]. intros y _. right. apply put_same.
    + split; [now intros q|]. split; [discriminate|]. split; [split; discriminate|]. split; [discriminate|]. auto.
  - injection E as <- <-. split; [now intros q|]. split; [discriminate|]. split; [split; discriminate|]. split; [discriminate|]. auto.
  - injection E as <- <-. split; [now intros q|]. split; [discriminate|]. split; [split; discriminate|]. split; [discriminate|]. auto.
  - injection E as <- <-. split; [now intros q|]. split; [discriminate|]. split; [split; discriminate|]. split; [discriminate|]. auto.
  - injection E as <- <-. split; [now intros q|]. split; [discriminate|]. split; [tauto|]. split; [reflexivity|]. intros x X. discriminate.
Qed.
Print Assumptions C100_only_output.

(** Every output has one branch per key of the metadata, whatever the values. *)
Theorem C100_keys : forall F hold bits inp out (d d' : disk F) f t, d inp = Some (Hdf f) -> convert hold bits inp out d = (d', Finished) -> d' (target inp out) = Some (Root t) ->
  Permutation (map fst (d_meta f)) (map fst (tMeta t)) /\ map fst (tData t) = map fst (d_data f) /\ tMapping t = d_mapping f.
Proof.
  intros F hold bits inp out d d' f t I E T. unfold convert in E. fold (target inp out) in E. rewrite I in E. unfold load in E. destruct (8000000000 <? d_bytes f)%Z; [discriminate|]. destruct (d_monitor f); [discriminate|].
  destruct (view_data bits (d_data f)) as [data|] eqn:V; [|discriminate]. cbn [bind] in E. unfold fill in E. destruct (strings hold _) as [[a m]|] eqn:S; [|discriminate]. cbn [bind fst snd] in E.
  destruct (numbers m) as [ns|] eqn:N; [|discriminate]. cbn [bind] in E. destruct (write_tree data) as [td|] eqn:W1; [|discriminate]. cbn [bind] in E. destruct (write_tree (d_mapping f)) as [tm|] eqn:W2; [|discriminate]. cbn [bind] in E.
  injection E as <-. rewrite put_same in T. injection T as <-. cbn [tMeta tData tMapping]. split; [|split].
  - rewrite map_app, (numbers_names F m ns N). rewrite <- (strings_names F hold _ a m S), map_map. reflexivity.
  - transitivity (map fst data).
    + clear - W1. revert td W1. unfold write_tree. induction data as [|c data IH]; intros td E; [injection E as <-; reflexivity|]. cbn [mapM] in E.
      destruct (match snd c with Times _ | Objects => Raise TypeError | Ints l => if forallb int64 l then Ok c else Raise TypeError | _ => Ok c end) as [x|] eqn:X; [|discriminate]. cbn [bind] in E.
      destruct (mapM _ data) as [y|] eqn:Y; [|discriminate]. injection E as <-. cbn [map]. rewrite (IH y eq_refl). f_equal. destruct (snd c) as [l|l|l|l|]; try discriminate; try (destruct (forallb int64 l); [|discriminate]); now injection X as <-.
    + clear - V. revert data V. unfold view_data. induction (d_data f) as [|c l IH]; intros data E; [injection E as <-; reflexivity|]. cbn [mapM] in E.
      destruct (if text_eqb (fst c) (T "t_cpu") then rmap (pair (fst c)) (view_int bits (snd c)) else Ok c) as [x|] eqn:X; [|discriminate]. cbn [bind] in E. destruct (mapM _ l) as [y|] eqn:Y; [|discriminate]. injection E as <-. cbn [map].
      rewrite (IH y eq_refl). f_equal. destruct (text_eqb (fst c) (T "t_cpu")); [|now injection X as <-]. destruct (view_int bits (snd c)); [|discriminate]. now injection X as <-.
  - clear - W2. revert tm W2. unfold write_tree. induction (d_mapping f) as [|c data IH]; intros td E; [injection E as <-; reflexivity|]. cbn [mapM] in E.
    destruct (match snd c with Times _ | Objects => Raise TypeError | Ints l => if forallb int64 l then Ok c else Raise TypeError | _ => Ok c end) as [x|] eqn:X; [|discriminate]. cbn [bind] in E.
    destruct (mapM _ data) as [y|] eqn:Y; [|discriminate]. injection E as <-. rewrite (IH y eq_refl). f_equal. destruct (snd c) as [l|l|l|l|]; try discriminate; try (destruct (forallb int64 l); [|discriminate]); now injection X as <-.
Qed.
Print Assumptions C100_keys.

(** Finding: no file with monitor data can be converted. *)
Theorem C100_monitor_refuted : forall F hold bits inp out (d : disk F) f, d inp = Some (Hdf f) -> d_monitor f = true -> exists e, convert hold bits inp out d = (d, Failed e).
Proof. intros F hold bits inp out d f I M. unfold convert. rewrite I. unfold load. rewrite M. destruct (8000000000 <? d_bytes f)%Z; eexists; reflexivity. Qed.
Print Assumptions C100_monitor_refuted.

(** Finding: a value of the metadata that cannot be written (a list of other than one number, NaT, ...) is found out only after the
    output was opened: an output of before is lost. *)
Theorem C100_lost_refuted : forall F hold bits inp out (d : disk F) f k v, d inp = Some (Hdf f) -> (d_bytes f <= 8000000000)%Z -> d_monitor f = false ->
  (forall n c, In (n, c) (d_data f) -> readable n c) -> In (k, v) (d_meta f) -> match v with MList l | MArray l => List.length l <> 1%nat | MOther => True | _ => False end ->
  exists d' e, convert hold bits inp out d = (d', Failed e) /\ d' (target inp out) = Some Scrap.
Proof.
  intros F hold bits inp out d f k v I B M D K U. unfold convert. rewrite I. fold (target inp out). unfold load. replace (8000000000 <? d_bytes f)%Z with false by (symmetry; apply Z.ltb_ge; lia).
  rewrite M, (view_ok F bits _ D). cbn [bind].
  destruct (unfit_fails F hold (map (fun e => (fst e, stamp (snd e))) (d_meta f)) (map (fun c => (fst c, nanoseconds (snd c))) (d_data f)) (d_mapping f) k v) as (e & ->); [|exact U|eexists _, _; split; [reflexivity|apply put_same]].
  apply in_map_iff. exists (k, v). split; [|exact K]. cbn [fst snd]. destruct v; try contradiction; reflexivity.
Qed.
Print Assumptions C100_lost_refuted.

(** Finding: None and the string None cannot be told apart in the output. *)
Theorem C100_none_refuted : forall F hold bits inp out (d : disk F) f g, d inp = Some (Hdf f) -> d_bytes g = d_bytes f -> d_data g = d_data f -> d_mapping g = d_mapping f -> d_monitor g = d_monitor f ->
  d_meta g = map (fun e => (fst e, match snd e with MNone => MStr (T "None") | v => v end)) (d_meta f) -> inp <> target inp out ->
  (fst (convert hold bits inp out (put inp (Hdf g) d))) (target inp out) = (fst (convert hold bits inp out d)) (target inp out).
Proof.
  intros F hold bits inp out d f g I B D M N E Ne. unfold convert. fold (target inp out). rewrite put_same, I. unfold load. rewrite B, D, M, N, E. fold (@spell F).
  assert (put inp (Hdf g) d (target inp out) = d (target inp out)) as Old by (apply put_other; congruence).
  destruct (8000000000 <? d_bytes f)%Z; [exact Old|]. destruct (d_monitor f); [exact Old|]. destruct (view_data bits (d_data f)) as [data|]; cbn [bind]; [|exact Old].
  unfold fill. change (fun e : text * mval F => (fst e, match snd e with MNone => MStr (T "None") | v => v end)) with (@spell F). rewrite strings_spell.
  destruct (bind (strings hold (map (fun e => (fst e, stamp (snd e))) (d_meta f))) _); cbn [fst]; now rewrite !put_same.
Qed.
Print Assumptions C100_none_refuted.

(** Finding: a string of more than 256 characters (a path) does not arrive as it was. *)
Theorem C100_long_refuted : forall F hold bits inp out (d d' : disk F) f t k s, holder hold -> d inp = Some (Hdf f) -> NoDup (map fst (d_meta f)) -> In (k, MStr s) (d_meta f) -> (256 < List.length s)%nat ->
  convert hold bits inp out d = (d', Finished) -> d' (target inp out) = Some (Root t) -> exists s', In (k, BStr s') (tMeta t) /\ ~ In (k, BStr s) (tMeta t) /\ (List.length s' <= 256)%nat.
Proof.
  intros F hold bits inp out d d' f t k s [_ Hh] I ND K L E T. destruct (C100_keys F hold bits inp out d d' f t I E T) as (P & _). apply (Permutation_NoDup P) in ND. clear P.
  unfold convert in E. fold (target inp out) in E. rewrite I in E. unfold load in E. destruct (8000000000 <? d_bytes f)%Z; [discriminate|]. destruct (d_monitor f); [discriminate|].
  destruct (view_data bits (d_data f)) as [data|]; [|discriminate]. cbn [bind] in E. unfold fill in E. destruct (strings hold _) as [[a m]|] eqn:St; [|discriminate]. cbn [bind fst snd] in E.
  destruct (numbers m) as [ns|]; [|discriminate]. cbn [bind] in E. destruct (write_tree data) as [td|]; [|discriminate]. cbn [bind] in E. destruct (write_tree (d_mapping f)) as [tm|]; [|discriminate]. cbn [bind] in E.
  injection E as <-. rewrite put_same in T. injection T as <-. cbn [tMeta] in *. exists (hold s).
  assert (In (k, BStr (hold s)) (a ++ ns)) as J. { apply in_or_app. left. eapply strings_branch; [exact St|]. apply in_map_iff. now exists (k, MStr s). }
  split; [exact J|]. split; [|apply Hh]. intros J'. assert (hold s = s) as Q; [|specialize (Hh s); rewrite Q in Hh; lia].
  clear - J J' ND. induction (a ++ ns) as [|[k0 b0] l IH]; [destruct J|]. cbn [map fst] in ND. inversion ND as [|? ? N1 N2]; subst.
  destruct J as [J|J], J' as [J'|J']; try congruence; [injection J as -> ->|injection J' as -> ->|now apply IH]; exfalso; apply N1; apply in_map_iff; eexists (_, _); (split; [|eassumption]); reflexivity.
Qed.
Print Assumptions C100_long_refuted.

(** Finding: inputs that differ in their extension only have the same output by default; converting the second replaces the
    first. *)
Theorem C100_collision_refuted : forall ds a x y, stem a -> dotless x -> dotless y -> default_output (ds, a ++ "."%char :: x) = default_output (ds, a ++ "."%char :: y).
Proof. intros ds a x y St X Y. unfold default_output. cbn [fst snd]. now rewrite (splitext_app a x St X), (splitext_app a y St Y). Qed.
Print Assumptions C100_collision_refuted.

(** Finding: a column t_cpu of doubles (times in seconds) arrives as the integers with the same bits; one of booleans stops the
    script before the output is opened. *)
Theorem C100_cpu_refuted : forall F hold bits inp out (d d' : disk F) f e l, d inp = Some (Hdf f) -> convert hold bits inp out d = (d', e) ->
  (In (T "t_cpu", Floats l) (d_data f) -> forall t, e = Finished -> d' (target inp out) = Some (Root t) -> In (T "t_cpu", Ints (map bits l)) (tData t)) /\
  (forall b, In (T "t_cpu", Bools b) (d_data f) -> d' = d /\ exists x, e = Failed x).
Proof.
  intros F hold bits inp out d d' f e l I E. unfold convert in E. fold (target inp out) in E. rewrite I in E. unfold load in E. destruct (8000000000 <? d_bytes f)%Z; [injection E as <- <-; split; [discriminate|]; intros; split; [reflexivity|]; now eexists|]. destruct (d_monitor f); [injection E as <- <-; split; [discriminate|]; intros; split; [reflexivity|]; now eexists|].
  destruct (view_data bits (d_data f)) as [data|x] eqn:V; cbn [bind] in E; [|injection E as <- <-; split; [discriminate|]; intros; split; [reflexivity|]; now eexists]. split.
  - intros J t -> T. destruct (fill hold _ data (d_mapping f)) as [t'|] eqn:Fi; [|discriminate]. injection E as <-. rewrite put_same in T. injection T as <-.
    assert (K : In (Model.T "t_cpu", Ints (map bits l)) data). { apply (mapM_in _ _ _ _ _ _ _ V J). cbn [fst snd]. rewrite text_eqb_refl. reflexivity. }
    unfold fill in Fi. destruct (strings hold _) as [[a m]|]; [|discriminate]. cbn [bind snd] in Fi. destruct (numbers m); [|discriminate]. cbn [bind] in Fi. destruct (write_tree data) as [td|] eqn:W; [|discriminate]. cbn [bind] in Fi. destruct (write_tree (d_mapping f)); [|discriminate]. cbn [bind] in Fi. injection Fi as <-. cbn [tData].
    unfold write_tree in W. assert (H : exists y, In y td /\ (match snd (Model.T "t_cpu", @Ints F (map bits l)) with Times _ | Objects => Raise TypeError | Ints z => if forallb int64 z then Ok (Model.T "t_cpu", @Ints F (map bits l)) else Raise TypeError | _ => Ok (Model.T "t_cpu", Ints (map bits l)) end) = Ok y) by exact (mapM_some _ _ _ _ _ _ W K).
    destruct H as (y & Y & H). cbn [snd] in H. destruct (forallb int64 (map bits l)); [|discriminate]. now injection H as <-.
  - intros b J. exfalso. destruct (mapM_fails _ _ (fun c : text * column F => if text_eqb (fst c) (Model.T "t_cpu") then rmap (pair (fst c)) (view_int bits (snd c)) else Ok c) _ _ ValueError J) as (x & X).
    + cbn [fst snd]. now rewrite text_eqb_refl.
    + unfold view_data in V. rewrite X in V. discriminate.
Qed.
Print Assumptions C100_cpu_refuted.

(** Finding: a missing input is reported to the user, and to the shell as a success. *)
Theorem C100_status_refuted : forall F hold bits inp out (d : disk F), d inp = None -> convert hold bits inp out d = (d, NoInput) /\ status (snd (convert hold bits inp out d)) = status Finished /\ forall e, status (Failed e) <> status Finished.
Proof. intros F hold bits inp out d I. unfold convert. rewrite I. split; [reflexivity|]. split; [reflexivity|]. discriminate. Qed.
Print Assumptions C100_status_refuted.

(** A file of two rows. *)
Definition ex_hold (t : text) : text := firstn 255 t.
Definition ex_file : dl1 Z := {| d_bytes := 64; d_data := [(T "iev", Ints [0; 1]%Z); (T "t_cpu", Times [7; 9]%Z); (T "charge", Floats [3; 4]%Z)];
  d_meta := [(T "n_events", MInt 1); (T "input_path", MStr (T "Run00001_r1.tio")); (T "start_time", MTime 7); (T "camera_version", MNone); (T "is_mc", MBool false)];
  d_mapping := [(T "pixel", Ints [0; 1]%Z)]; d_monitor := false |}.
Definition ex_disk : disk Z := put ([T "data"], T "Run00001_dl1.h5") (Hdf ex_file) (fun _ => None).
Example C100_ex : exists d', convert ex_hold (fun z => z) ([T "data"], T "Run00001_dl1.h5") None ex_disk = (d', Finished) /\
  d' ([T "data"], T "Run00001_dl1.root") = Some (Root {| tMeta := [(T "input_path", BStr (T "Run00001_r1.tio")); (T "camera_version", BStr (T "None")); (T "n_events", BInt 1); (T "start_time", BInt 7); (T "is_mc", BBool false)];
    tData := [(T "iev", Ints [0; 1]%Z); (T "t_cpu", Ints [7; 9]%Z); (T "charge", Floats [3; 4]%Z)]; tMapping := [(T "pixel", Ints [0; 1]%Z)] |}).
Proof. eexists. split; vm_compute; reflexivity. Qed.
Example C100_ex_holder : holder ex_hold /\ convertible ex_file.
Proof.
  split; [split|].
  - intros t L _. unfold ex_hold. apply firstn_all2. lia.
  - intros t. unfold ex_hold. rewrite firstn_length. lia.
  - assert (forall z, (0 <= z < 10)%Z -> fits64 z) as F10 by (intros z Z; unfold fits64; lia). split; [cbn; lia|]. split; [|split].
    + intros k v I. cbn [ex_file d_meta In] in I. destruct I as [I|[I|[I|[I|[I|[]]]]]]; injection I as <- <-; cbn [scalar]; auto; try (apply F10; lia). split; [cbn; lia|]. cbn. intuition discriminate.
    + intros k v I. cbn [ex_file d_data In] in I. destruct I as [I|[I|[I|[]]]]; injection I as <- <-; cbn [readable]; repeat split; auto; try (repeat constructor; apply F10; lia). discriminate.
    + intros k v I. cbn [ex_file d_mapping In] in I. destruct I as [I|[]]; injection I as <- <-; cbn [numeric]; repeat constructor; apply F10; lia.
Qed.
