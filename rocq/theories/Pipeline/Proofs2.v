(** Proofs about file names, several inputs, and charges of DL1 files. *)
From Coq Require Import List ZArith QArith Qcanon String Ascii Bool Arith Lia.
From Verif.Base Require Import Py PyFacts Lst Str Num.
From Verif.Hdf5 Require Import Model.
From Verif.Dl1 Require Import Model Spec Proofs Proofs2.
From Verif.Pipeline Require Import Model.
Import ListNotations.
Local Open Scope nat_scope.
Local Open Scope list_scope.

(** ** Output names *)
Section Names.
  Local Open Scope string_scope.
  Ltac chars := cbn [append prefix]; repeat match goal with |- (if ascii_dec ?a ?b then _ else _) = false => let H := fresh in destruct (ascii_dec a b) as [H|H]; [try discriminate H|reflexivity] end.
  Lemma no_tail : forall p c s, ~ occurs p (String c s) -> ~ occurs p s.
  Proof. intros p c s N (a & b & ->). apply N. now exists (String c a), b. Qed.
  Lemma prefix_split : forall p s, prefix p s = true -> exists b, s = p ++ b.
  Proof.
    induction p as [|c p IH]; intros s H; [now exists s|]. destruct s as [|d s]; [discriminate|]. cbn [prefix] in H.
    destruct (ascii_dec c d) as [->|]; [|discriminate]. destruct (IH _ H) as (b & ->). now exists b.
  Qed.
  Lemma not_prefix : forall p s, ~ occurs p s -> prefix p s = false.
  Proof. intros p s N. destruct (prefix p s) eqn:E; [|reflexivity]. exfalso. apply N. destruct (prefix_split _ _ E) as (b & ->). now exists "", b. Qed.
  Lemma prefix_app : forall p s t, String.length p <= String.length s -> prefix p (s ++ t) = prefix p s.
  Proof.
    induction p as [|c p IH]; intros s t L; [now destruct s, t|]. destruct s as [|d s]; cbn [String.length] in L; [lia|]. cbn [append prefix].
    destruct (ascii_dec c d); [|reflexivity]. apply IH. lia.
  Qed.

  Lemma replace_r1 : forall stem, ~ occurs "_r1" stem -> py_replace "_r1" "_dl1" (stem ++ "_r1.tio") = stem ++ "_dl1.tio".
  Proof.
    unfold py_replace. induction stem as [|c s IH]; intros N; [reflexivity|]. change (String c s ++ "_r1.tio") with (String c (s ++ "_r1.tio")). cbn [repl].
    assert (E : prefix "_r1" (String c (s ++ "_r1.tio")) = false).
    { destruct s as [|d [|e s]].
      - chars.
      - chars.
      - change (String c (String d (String e s) ++ "_r1.tio")) with (String c (String d (String e s)) ++ "_r1.tio"). rewrite prefix_app by (cbn; lia). now apply not_prefix. }
    rewrite E, IH by now apply (no_tail _ c). reflexivity.
  Qed.
  Lemma replace_tio : forall stem, ~ occurs ".tio" stem -> py_replace ".tio" ".h5" (stem ++ "_dl1.tio") = stem ++ "_dl1.h5".
  Proof.
    unfold py_replace. induction stem as [|c s IH]; intros N; [reflexivity|]. change (String c s ++ "_dl1.tio") with (String c (s ++ "_dl1.tio")). cbn [repl].
    assert (E : prefix ".tio" (String c (s ++ "_dl1.tio")) = false).
    { destruct s as [|d [|e [|f s]]].
      - chars.
      - chars.
      - chars.
      - change (String c (String d (String e (String f s)) ++ "_dl1.tio")) with (String c (String d (String e (String f s))) ++ "_dl1.tio"). rewrite prefix_app by (cbn; lia). now apply not_prefix. }
    rewrite E, IH by now apply (no_tail _ c). reflexivity.
  Qed.
  Lemma replace_simtel : forall stem, ~ occurs ".simtel.gz" stem -> py_replace ".simtel.gz" "_dl1.h5" (stem ++ ".simtel.gz") = stem ++ "_dl1.h5".
  Proof.
    unfold py_replace. induction stem as [|c s IH]; intros N; [reflexivity|]. change (String c s ++ ".simtel.gz") with (String c (s ++ ".simtel.gz")). cbn [repl].
    assert (E : prefix ".simtel.gz" (String c (s ++ ".simtel.gz")) = false).
    { destruct s as [|c1 [|c2 [|c3 [|c4 [|c5 [|c6 [|c7 [|c8 [|c9 s]]]]]]]]].
      10: { match goal with |- prefix _ (String c (?a ++ ?b)) = _ => change (String c (a ++ b)) with (String c a ++ b) end. rewrite prefix_app by (cbn; lia). now apply not_prefix. }
      all: chars. }
    rewrite E, IH by now apply (no_tail _ c). reflexivity.
  Qed.
  Lemma app_same_tail : forall a b t, a ++ t = b ++ t -> a = b.
  Proof.
    assert (L : forall x y, String.length (x ++ y) = String.length x + String.length y) by (induction x; intros; cbn; auto).
    induction a as [|c a IH]; intros [|d b] t H; [reflexivity|..].
    - apply (f_equal String.length) in H. cbn in H. rewrite L in H. lia.
    - apply (f_equal String.length) in H. cbn in H. rewrite L in H. lia.
    - injection H as -> H. f_equal. now apply (IH _ t).
  Qed.
End Names.

(** ** Several inputs *)
Section Inputs.
  Context {input output : Type}.
  Variable is_mc : input -> bool.
  Variable reduce : input -> output.
  Variable w : string -> input.
  Definition target (p : string) : string := out_path (is_mc (w p)) p.

  Lemma files_default : forall paths (fs : dict (@content input output)), (forall p, In p paths -> dget p fs = Some (Waves (w p))) ->
    (forall p q, In p paths -> In q paths -> target p = target q -> p = q) -> (forall p q, In p paths -> In q paths -> target p <> q) ->
    exists fs', reduce_files is_mc reduce None fs paths = (fs', None) /\
    (forall p, In p paths -> dget (target p) fs' = Some (Reduced (reduce (w p)))) /\
    (forall q, (forall p, In p paths -> q <> target p) -> dget q fs' = dget q fs).
  Proof.
    induction paths as [|p paths IH]; intros fs G I D; [exists fs; split; [reflexivity|]; split; [intros p []|auto]|].
    cbn [reduce_files]. unfold reduce_file. rewrite (G p) by now left. cbv beta iota zeta. change (out_path (is_mc (w p)) p) with (target p).
    destruct (IH (dset (target p) (Reduced (reduce (w p))) fs)) as (fs' & E & A & B).
    - intros q Q. rewrite dget_dset_neq by (apply not_eq_sym, D; [now left|now right]). apply G. now right.
    - intros a b Ia Ib. apply I; now right.
    - intros a b Ia Ib. apply D; now right.
    - exists fs'. split; [exact E|]. split.
      + intros q [<-|Q]; [|now apply A]. destruct (in_dec string_dec p paths) as [Ip|Np]; [now apply A|].
        rewrite B; [apply dget_dset_eq|]. intros q Q E'. apply Np. rewrite (I p q); [exact Q|now left|now right|exact E'].
      + intros q Q. rewrite B by (intros; apply Q; now right). apply dget_dset_neq, Q. now left.
  Qed.

  Lemma files_single : forall o, o <> ""%string -> forall paths (fs : dict (@content input output)) p0, (forall p, In p (p0 :: paths) -> dget p fs = Some (Waves (w p))) ->
    ~ In o (p0 :: paths) ->
    exists fs', reduce_files is_mc reduce (Some o) fs (p0 :: paths) = (fs', None) /\
    dget o fs' = Some (Reduced (reduce (w (last (p0 :: paths) ""%string)))) /\ (forall q, q <> o -> dget q fs' = dget q fs).
  Proof.
    intros o O. apply eqb_neq in O.
    assert (ST : forall paths (fs : dict (@content input output)) p, dget p fs = Some (Waves (w p)) ->
      reduce_files is_mc reduce (Some o) fs (p :: paths) = reduce_files is_mc reduce (Some o) (dset o (Reduced (reduce (w p))) fs) paths).
    { intros paths fs p E. cbn [reduce_files]. unfold reduce_file at 1. now rewrite E, O. }
    induction paths as [|p paths IH]; intros fs p0 G D; rewrite ST by (apply G; now left).
    - eexists. split; [reflexivity|]. split; [apply dget_dset_eq|]. intros q Q. now apply dget_dset_neq.
    - destruct (IH (dset o (Reduced (reduce (w p0))) fs) p) as (fs' & E & A & B).
      + intros q Q. rewrite dget_dset_neq; [apply G; now right|]. intros ->. apply D. now right.
      + intros Q. apply D. now right.
      + exists fs'. split; [exact E|]. split; [exact A|]. intros q Q. rewrite B by exact Q. now apply dget_dset_neq.
  Qed.
  (** The first input that is missing or of the wrong kind ends the run. *)
  Lemma files_missing : forall o paths (fs : dict (@content input output)) p, dget p fs = None -> 
    reduce_files is_mc reduce o fs (p :: paths) = (fs, Some FileNotFoundError).
  Proof. intros. cbn [reduce_files]. unfold reduce_file. now rewrite H. Qed.
End Inputs.

(** ** Charges *)
Section Charges.
  Context {V : Type}.
  Variable column : row V -> option Qc.
  Lemma rows_of_concat : forall np (bs : list (list (row V))), Forall (fun b => List.length b = np) bs ->
    rows_of (List.length bs) np (map column (List.concat bs)) = map (map column) bs.
  Proof.
    induction 1 as [|b bs L F IH]; [reflexivity|]. cbn [List.length rows_of List.concat map]. rewrite map_app.
    rewrite firstn_app, skipn_app, map_length, L, Nat.sub_diag. cbn [firstn skipn]. rewrite app_nil_r.
    rewrite firstn_all2 by (rewrite map_length; lia). rewrite skipn_all2 by (rewrite map_length; lia). cbn [app]. now rewrite IH.
  Qed.
  Lemma charges_holds : forall r np bs ievs, holds r np bs ievs -> file_charges column r = Ok (map (map column) bs).
  Proof.
    intros r np bs ievs (P & T & NE & NP & F & _). unfold file_charges. rewrite T, NE, NP. cbn [bind].
    assert (L : List.length (List.concat bs) = List.length bs * np). { clear - F. induction F as [|b bs L F IH]; [reflexivity|]. cbn. rewrite app_length, L, IH. lia. }
    rewrite L, Nat2Z.inj_mul, Z.eqb_refl. rewrite !(proj2 (Z.ltb_ge _ _)) by lia. cbn [negb orb]. rewrite !Nat2Z.id. now rewrite rows_of_concat.
  Qed.
  Lemma pixel_of_blocks : forall np p (bs : list (list (row V))), Forall (fun b => List.length b = np) bs -> p < np ->
    exists cs, pixel_of p (map (map column) bs) = Ok cs /\ Forall2 (fun b c => exists x, nth_error b p = Some x /\ c = column x) bs cs.
  Proof.
    intros np p bs F P. induction F as [|b bs L F (cs & E & C)]; [exists []; split; [reflexivity|constructor]|].
    destruct (nth_error b p) as [x|] eqn:N; [|apply nth_error_None in N; lia].
    exists (column x :: cs). unfold pixel_of in *. cbn [map mapM]. rewrite nth_error_map, N. cbn [option_map bind]. rewrite E. cbn [bind].
    split; [reflexivity|]. constructor; [now exists x|exact C].
  Qed.
  Lemma pixel_of_outside : forall np p b (bs : list (list (row V))), Forall (fun b => List.length b = np) (b :: bs) -> np <= p ->
    pixel_of p (map (map column) (b :: bs)) = Raise IndexError.
  Proof.
    intros np p b bs F P. inversion F; subst. unfold pixel_of. cbn [map mapM]. rewrite (proj2 (nth_error_None _ p)); [reflexivity|]. rewrite map_length. lia.
  Qed.
End Charges.
