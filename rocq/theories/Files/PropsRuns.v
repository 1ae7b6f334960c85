(** Property C94: the files of a run list.

    [no_brace t]: no character of [t] is a curly bracket; [digits d]: not empty, decimal digits only. *)
From Coq Require Import ZArith NArith Bool Arith String Ascii Lia List Sorted.
From Verif.Base Require Import Py PyFacts Str Lex.
From Verif.Files Require Import Model Proofs Proofs2 Proofs3 ModelRuns ProofsRuns.
Import ListNotations.
Local Open Scope list_scope.

Definition is_suffix (s : text) : Prop := s = r1 \/ s = dl1.
Lemma suffix_facts : forall s, is_suffix s -> no_brace s /\ starts_text s /\ forallb (fun c => negb (is_slash c)) s = true /\ exists r, s = "_"%char :: r.
Proof. intros s [-> | ->]; (split; [reflexivity|split; [reflexivity|split; [reflexivity|eexists; reflexivity]]]). Qed.

(** The path of a run: next to the run list, Run, the number with at least five digits, the suffix. *)
Theorem C94_path : forall suffix path n, is_suffix suffix -> no_brace (dirname path) ->
  exists d p, run_path suffix path (Int (Z.of_N n)) = Ok p /\ p = join (dirname path) (T "Run" ++ d ++ suffix) /\ dirname p = dirname path /\
  digits d /\ digits_val d = n /\ (5 <= List.length d)%nat /\ ((n < 100000)%N -> List.length d = 5%nat).
Proof.
  intros suffix path n S NB. destruct (suffix_facts suffix S) as (S1 & S2 & S3 & _). exists (pad05 (Z.of_N n)), (with_slash (dirname path) ++ T "Run" ++ pad05 (Z.of_N n) ++ suffix).
  assert (D : pad05 (Z.of_N n) = zfill 5 (T (dec n))) by (unfold pad05; rewrite (proj2 (Z.ltb_ge _ _)) by lia; now rewrite N2Z.id). split; [|split; [|split]].
  - apply run_path_iff; [exact S1|]. exists (with_slash (dirname path)), (Z.of_N n). split; [|split; reflexivity]. symmetry. apply escape_plain. now apply no_brace_slash.
  - rewrite join_with_slash by reflexivity. reflexivity.
  - apply dirname_join; [apply dirname_is_dir|]. rewrite !forallb_app. rewrite S3, andb_true_r. change (forallb (fun c => negb (is_slash c)) (T "Run")) with true. cbn [andb]. apply forallb_forall. intros c C. apply negb_true_iff. apply pad05_chars in C as [C| ->]; [|reflexivity].
    destruct (is_slash c) eqn:E; [|reflexivity]. apply is_slash_iff in E. subst c. discriminate.
  - rewrite D. destruct (zfill_spec 5 n) as [Z|]; [|discriminate]. split; [exact Z|]. split; [apply zfill_val|]. rewrite zfill_length. split; [lia|]. intros L.
    assert (Q : (List.length (T (dec n)) <= 5)%nat); [|lia]. destruct n as [|p]; [cbn; lia|].
    assert (H : forall k t, forallb is_d t = true -> match t with [] => True | c :: _ => c <> "0"%char end -> (List.length t > k)%nat -> (N.of_nat 10 ^ N.of_nat k <= digits_val t)%N).
    { clear. intros k t F. change (digits_val t) with (fold_left step t 0%N). assert (G : forall t k acc, (1 <= acc)%N -> (k <= List.length t)%nat -> (10 ^ N.of_nat k * acc <= fold_left step t acc)%N).
      { clear. induction t as [|c t IH]; intros k acc A K; [cbn in K; replace k with 0%nat by lia; cbn [N.of_nat fold_left]; rewrite N.pow_0_r; lia|]. cbn [fold_left]. destruct k as [|k].
        - cbn [N.of_nat]. rewrite N.pow_0_r. specialize (IH 0%nat (step acc c) ltac:(unfold step; lia) ltac:(lia)). cbn [N.of_nat] in IH. rewrite N.pow_0_r in IH. unfold step in *. lia.
        - specialize (IH k (step acc c) ltac:(unfold step; lia) ltac:(cbn in K; lia)). rewrite Nat2N.inj_succ, N.pow_succ_r'. eapply N.le_trans; [|exact IH]. unfold step.
          replace (10 * 10 ^ N.of_nat k * acc)%N with (10 ^ N.of_nat k * (10 * acc))%N by lia. apply N.mul_le_mono_l. lia. }
      destruct t as [|c t]; [cbn; lia|]. intros C K. cbn [fold_left]. cbn [forallb] in F. apply andb_true_iff in F as [F _].
      assert (A : (1 <= step 0 c)%N). { unfold is_d in F. apply andb_true_iff in F as [F1 _]. apply N.leb_le in F1. unfold step. assert (code c <> 48%N); [|lia]. intros E. apply C. apply (f_equal ascii_of_N) in E. unfold code in E. now rewrite ascii_N_embedding in E. }
      specialize (G t k (step 0 c) A ltac:(cbn in K; lia)). eapply N.le_trans; [|exact G]. change (N.of_nat 10) with 10%N. nia. }
    destruct (dec_digits (Npos p)) as [F V]. specialize (H 5%nat _ F). rewrite V in H.
    destruct (Nat.le_gt_cases (List.length (T (dec (Npos p)))) 5) as [|G]; [assumption|]. exfalso.
    assert (HD : match T (dec (Npos p)) with [] => True | c :: _ => c <> "0"%char end).
    { unfold dec. cbn [N.to_uint]. pose proof (DecimalPos.Unsigned.to_uint_nonnil p) as X. pose proof (DecimalPos.Unsigned.to_of (Pos.to_uint p)) as Y. rewrite DecimalPos.Unsigned.of_to in Y. cbn [N.to_uint] in Y.
      destruct (Pos.to_uint p) as [|u|u|u|u|u|u|u|u|u|u] eqn:Q; cbn; try exact I; try discriminate.
      exfalso. apply (f_equal Pos.of_uint) in Q. rewrite DecimalPos.Unsigned.of_to in Q. cbn [Pos.of_uint] in Q.
      rewrite DecimalFacts.unorm_D0 in Y. pose proof (DecimalFacts.nb_digits_unorm u) as W.
      assert (ZN : u <> Decimal.Nil). { intros ->. discriminate Q. }
      specialize (W ZN). rewrite <- Y in W. cbn [Decimal.nb_digits] in W. lia. }
    specialize (H HD G). revert H. change (N.of_nat 10 ^ N.of_nat 5)%N with 100000%N. lia.
Qed.
Print Assumptions C94_path.

Lemma run_path_distinct : forall s s' path a b p q, is_suffix s -> is_suffix s' -> run_path s path (Int a) = Ok p -> run_path s' path (Int b) = Ok q -> (p = q <-> a = b /\ s = s').
Proof.
  intros s s' path a b p q S S' P Q. destruct (suffix_facts s S) as (N & ST & _), (suffix_facts s' S') as (N' & ST' & _). apply run_path_iff in P as (u & z & U & E & ->); [|exact N]. apply run_path_iff in Q as (v & y & V & E' & ->); [|exact N']. injection E as <-. injection E' as <-.
  assert (UV : u = v).
  { rewrite U in V. clear -V. revert v V. induction u as [|c u IH]; intros [|d v] V; cbn in V; [reflexivity|destruct (brace d); discriminate|destruct (brace c); discriminate|].
    destruct (brace c) eqn:C, (brace d) eqn:D; cbn in V; injection V as ->.
    - f_equal. apply IH. assumption.
    - congruence.
    - congruence.
    - f_equal. apply IH. assumption. }
  subst v. split; [|now intros [-> ->]]. intros H. apply app_inv_head in H. apply app_inv_head in H.
  assert (X : pad05 a = pad05 b /\ s = s'); [|now destruct X as [X ->]; apply pad05_inj in X].
  assert (L : forall x, (forall c, In c (pad05 x) -> c <> "_"%char)) by (intros x c C; apply pad05_chars in C as [C| ->]; [intros ->; discriminate|discriminate]).
  destruct (suffix_facts s S) as (_ & _ & _ & r & R), (suffix_facts s' S') as (_ & _ & _ & r' & R'). rewrite R, R' in *. pose proof (L a) as LA. pose proof (L b) as LB. clear -H LA LB. revert H LA LB. generalize (pad05 a) (pad05 b).
  induction t as [|c t IH]; intros [|d t'] H LA LB; cbn [app] in H.
  - split; [reflexivity|exact H].
  - injection H as <- _. elim (LB _ (or_introl eq_refl) eq_refl).
  - injection H as -> _. elim (LA _ (or_introl eq_refl) eq_refl).
  - injection H as -> H. destruct (IH t' H) as [-> ?]; [intros; apply LA; now right|intros; apply LB; now right|auto].
Qed.
(** Two runs never share a file, and the waveforms and the charges of runs are different files. *)
Inductive kind := Waveforms | Charges.
Definition suffix_of (k : kind) : text := match k with Waveforms => r1 | Charges => dl1 end.
Theorem C94_distinct : forall k k' path a b p q, run_path (suffix_of k) path (Int a) = Ok p -> run_path (suffix_of k') path (Int b) = Ok q -> (p = q <-> a = b /\ k = k').
Proof.
  intros k k' path a b p q P Q. assert (S : forall j, is_suffix (suffix_of j)) by (intros []; [now left|now right]). rewrite (run_path_distinct _ _ _ _ _ _ _ (S k) (S k') P Q).
  split; intros [-> H]; (split; [reflexivity|]); [destruct k, k'; cbn in H; try reflexivity; discriminate H|now subst].
Qed.
Print Assumptions C94_distinct.

(** sort_file_list puts the files in the order of their runs. *)
Theorem C94_sorted : forall suffix path a b p q, is_suffix suffix -> no_brace (dirname path) -> plain (dirname path) -> run_path suffix path (Int (Z.of_N a)) = Ok p -> run_path suffix path (Int (Z.of_N b)) = Ok q ->
  exists ka kb, natural_keys p = Ok ka /\ natural_keys q = Ok kb /\ key_lt ka kb = Ok (a <? b)%N.
Proof.
  intros suffix path a b p q S NB PL P Q. destruct (suffix_facts suffix S) as (N & ST & _). destruct (C94_path suffix path a S NB) as (da & p' & P' & EP & _ & DA & VA & _). destruct (C94_path suffix path b S NB) as (db & q' & Q' & EQ & _ & DB & VB & _).
  rewrite P in P'. injection P' as <-. rewrite Q in Q'. injection Q' as <-. rewrite join_with_slash in EP, EQ by reflexivity. subst p q.
  assert (PP : forall d, digits d -> plain (with_slash (dirname path) ++ T "Run" ++ d ++ suffix)).
  { intros d [_ D]. apply plain_app; [|apply plain_app; [reflexivity|apply plain_app; [now apply plain_digits|destruct S as [-> | ->]; reflexivity]]]. unfold plain in *. apply forallb_forall. intros c C. apply with_slash_In in C as [C| ->]; [|reflexivity]. rewrite forallb_forall in PL. auto. }
  assert (NB' : forall t, plain t -> bad_name t = false) by (intros; now apply plain_not_bad).
  destruct (natural_keys_ok _ (NB' _ (PP da DA))) as [KA AA], (natural_keys_ok _ (NB' _ (PP db DB))) as [KB AB]. do 2 eexists. split; [exact KA|]. split; [exact KB|]. rewrite (key_lt_alt _ _ true) by auto. f_equal.
  rewrite !(app_assoc (with_slash _)). rewrite nkey_number_order; auto; [|right; exists (with_slash (dirname path) ++ T "Ru"), "n"%char; split; [rewrite <- app_assoc; reflexivity|reflexivity]]. rewrite VA, VB.
  destruct (N.compare_spec a b) as [->|L|L].
  - rewrite (tc_refl _ _ lk_total). cbn. symmetry. apply N.ltb_irrefl.
  - cbn. symmetry. now apply N.ltb_lt.
  - cbn. symmetry. apply N.ltb_ge. lia.
Qed.
Print Assumptions C94_sorted.

(** A run list of integers next to its files: row by row the run, its other columns, its path and, if asked for, the reader of that path; the first file that cannot be opened is the error. *)
Theorem C94_list : forall B R suffix (open : text -> res R) path (rows : list (Z * B)), is_suffix suffix -> no_brace (dirname path) ->
  let file z := join (dirname path) (T "Run" ++ pad05 z ++ suffix) in let rows' := map (fun r => (Int (fst r), snd r)) rows in
  open_runlist suffix open false path rows' = Ok (map (fun r => (Int (fst r), snd r, file (fst r), None)) rows) /\
  (forall readers, Forall2 (fun r x => open (file (fst r)) = Ok x) rows readers -> open_runlist suffix open true path rows' = Ok (map (fun rx => (Int (fst (fst rx)), snd (fst rx), file (fst (fst rx)), Some (snd rx))) (combine rows readers))) /\
  (forall before r after e, rows = before ++ r :: after -> (forall q, In q before -> exists x, open (file (fst q)) = Ok x) -> open (file (fst r)) = Raise e -> open_runlist suffix open true path rows' = Raise e).
Proof.
  intros B R suffix open path rows S NB file rows'. destruct (suffix_facts suffix S) as (N & _).
  assert (P : mapM (fun r => run_path suffix path (fst r)) rows' = Ok (map (fun r => file (fst r)) rows)).
  { unfold rows'. induction rows as [|r rows IH]; [reflexivity|]. cbn [map mapM fst]. rewrite IH. rewrite (proj2 (run_path_iff suffix path (Int (fst r)) (file (fst r)) N)); [reflexivity|]. exists (with_slash (dirname path)), (fst r). split; [|split; [reflexivity|]].
    - symmetry. apply escape_plain. now apply no_brace_slash.
    - unfold file. now rewrite join_with_slash by reflexivity. }
  unfold open_runlist. rewrite P. cbn [bind]. clear P. split; [|split].
  - f_equal. unfold rows'. clear. induction rows as [|r rows IH]; [reflexivity|]. cbn [map combine]. now rewrite IH.
  - intros readers F. assert (M : mapM (fun p => rmap Some (open p)) (map (fun r => file (fst r)) rows) = Ok (map Some readers)).
    { clear -F. induction F as [|r x rows readers H F IH]; [reflexivity|]. cbn [map mapM]. rewrite H, IH. reflexivity. }
    rewrite M. cbn [bind]. f_equal. unfold rows'. clear -F. induction F as [|r x rows readers H F IH]; [reflexivity|]. cbn [map combine fst snd]. now rewrite IH.
  - intros before r after e E H O. assert (M : mapM (fun p => rmap Some (open p)) (map (fun q => file (fst q)) rows) = Raise e); [|rewrite M; reflexivity].
    rewrite E. clear -H O. induction before as [|q before IH]; cbn [app map mapM].
    + rewrite O. reflexivity.
    + destruct (H q (or_introl eq_refl)) as [x X]. rewrite X. cbn [rmap bind]. rewrite IH by (intros; apply H; now right). reflexivity.
Qed.
Print Assumptions C94_list.

(** The claim that the files next to the run list are opened in every directory is refuted: a path with a pair of brackets fails with IndexError, one
    with a name in brackets with KeyError, one with doubled brackets leads to the files of another directory. *)
Theorem C94_braces_refuted : run_path r1 (T "/data/{}/list.txt") (Int 7) = Raise IndexError /\ run_path r1 (T "/data/{a}/list.txt") (Int 7) = Raise KeyError /\
  run_path r1 (T "/data/{{a}}/list.txt") (Int 7) = Ok (T "/data/{a}/Run00007_r1.tio").
Proof. repeat split; vm_compute; reflexivity. Qed.
Print Assumptions C94_braces_refuted.

(** Exactly: the path is the right one if and only if the directory has no curly bracket; and an index that is not an integer never has a path. *)
Theorem C94_braces : forall suffix path z, is_suffix suffix ->
  (run_path suffix path (Int z) = Ok (join (dirname path) (T "Run" ++ pad05 z ++ suffix)) <-> no_brace (dirname path)) /\ exists e, run_path suffix path NotInt = Raise e.
Proof.
  intros suffix path z S. destruct (suffix_facts suffix S) as (N & _). split.
  - rewrite (run_path_iff suffix path (Int z) _ N). rewrite join_with_slash by reflexivity. split.
    + intros (u & y & U & E & H). injection E as <-. apply app_inv_tail in H. subst u. apply no_brace_slash. apply escape_longer. now symmetry.
    + intros NB. exists (with_slash (dirname path)), z. split; [|split; reflexivity]. symmetry. apply escape_plain. now apply no_brace_slash.
  - destruct (run_path suffix path NotInt) as [p|e] eqn:E; [|eauto]. apply run_path_iff in E as (u & y & _ & H & _); [discriminate|exact N].
Qed.
Print Assumptions C94_braces.

Example C94_ex : run_path dl1 (T "d/runs/list.txt") (Int 43) = Ok (T "d/runs/Run00043_dl1.h5") /\ run_path r1 (T "list.txt") (Int 123456) = Ok (T "Run123456_r1.tio") /\ run_path r1 (T "/list.txt") (Int (-3)) = Ok (T "/Run-0003_r1.tio").
Proof. repeat split; vm_compute; reflexivity. Qed.
Example C94_ex_list : open_runlist r1 (fun p => if text_eqb p (T "d/Run00005_r1.tio") then Raise FileNotFoundError else Ok p) true (T "d/l") [(Int 4, 1%nat); (Int 5, 2%nat); (Int 6, 3%nat)] = Raise FileNotFoundError.
Proof. vm_compute. reflexivity. Qed.
