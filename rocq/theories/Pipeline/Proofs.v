(** Proofs about the event loop of extract_dl1. *)
From Coq Require Import List ZArith QArith Qcanon Bool Arith Lia.
From Verif.Base Require Import Py PyFacts Lst Num.
From Verif.Dl1 Require Import Model Spec.
From Verif.WfUtils Require Import Model Proofs.
From Verif.Pipeline Require Import Model.
Import ListNotations.
Local Open Scope nat_scope.
Local Open Scope list_scope.

Lemma kept_cons : forall B (w : wf B) t, kept (w :: t) = if skip_event w then kept t else w :: kept t.
Proof. intros. unfold kept, skip_event. cbn [filter]. destruct (wf_stale w), (wf_missing w); reflexivity. Qed.

Section Loop.
  Context {C : Type}.
  Variable process : event -> list C.
  Variable t_cor : option (list Qc).
  Definition values_of (w : wf body) (e : event) (bl : list Qc) : list (Z * (Qc * C)) :=
    combine (snd (wf_body w)) (combine bl (process (minus_baseline e bl))).

  Lemma loop_out : forall wfs s out, extract_loop process t_cor s wfs = Ok out ->
    exists tcs, Forall2 (fun w e => calibrated t_cor w = Ok e) (kept wfs) tcs /\ map fst out = kept wfs /\
    forall k w vals, nth_error out k = Some (w, vals) ->
      exists e, nth_error tcs k = Some e /\ calibrated t_cor w = Ok e /\ vals = values_of w e (b_baseline (after s (firstn (S k) tcs))).
  Proof.
    induction wfs as [|w wfs IH]; intros s out H; cbn [extract_loop] in H.
    - injection H as <-. exists []. split; [constructor|]. split; [reflexivity|]. intros [|k] w vals; discriminate.
    - rewrite kept_cons. destruct (skip_event w); [now apply IH|].
      unfold bind, call in H. destruct (calibrated t_cor w) as [e|] eqn:EC; [|discriminate]. cbn [bind] in H.
      destruct (subtract s e) as [s' bs] eqn:ES. cbn [fst snd] in H. unfold subtract in ES. injection ES as E1 E2.
      destruct (extract_loop process t_cor s' wfs) as [rest|] eqn:ER; [|discriminate]. injection H as <-.
      destruct (IH _ _ ER) as (tcs & F & M & K). exists (e :: tcs). split; [now constructor|]. split; [cbn; now rewrite M|].
      intros [|k] w' vals N; cbn [nth_error] in N.
      + injection N as <- <-. exists e. split; [reflexivity|]. split; [exact EC|]. cbn [firstn after fold_left]. rewrite E1. unfold values_of. rewrite <- E2. now rewrite <- E1.
      + destruct (K _ _ _ N) as (e' & NE & CE & V). exists e'. split; [exact NE|]. split; [exact CE|]. rewrite V. f_equal.
        change (firstn (S (S k)) (e :: tcs)) with (e :: firstn (S k) tcs). cbn [after fold_left]. now rewrite E1.
  Qed.

  Lemma total_loop : forall dummy np wfs s out, extract_loop process t_cor s wfs = Ok out ->
    (forall w vals, In (w, vals) out -> List.length vals = np) ->
    extracted (total_call process t_cor dummy np) s (kept wfs) = out.
  Proof.
    induction wfs as [|w wfs IH]; intros s out H L; cbn [extract_loop] in H.
    - injection H as <-. reflexivity.
    - rewrite kept_cons. destruct (skip_event w); [now apply IH|].
      unfold bind in H. destruct (call process t_cor s w) as [[s' vals]|] eqn:EC; [|discriminate]. cbn [fst snd] in H.
      destruct (extract_loop process t_cor s' wfs) as [rest|] eqn:ER; [|discriminate]. injection H as <-.
      assert (ET : total_call process t_cor dummy np s w = (s', vals)) by (unfold total_call; rewrite EC, (L w vals) by (now left); now rewrite Nat.eqb_refl).
      cbn [extracted]. rewrite ET. cbn [fst snd]. f_equal.
      apply IH; [exact ER|]. intros w' v' I. apply (L w' v'). now right.
  Qed.
End Loop.

Lemma total_length : forall C (process : event -> list C) t_cor dummy np s w, List.length (snd (total_call process t_cor dummy np s w)) = np.
Proof.
  intros. unfold total_call. destruct (call _ _ s w) as [[s' vals]|]; cbn [snd]; [|apply repeat_length].
  destruct (Nat.eqb_spec (List.length vals) np); cbn [snd]; [assumption|apply repeat_length].
Qed.

Lemma kept_length : forall C (process : event -> list C) t_cor s wfs out tcs, extract_loop process t_cor s wfs = Ok out ->
  Forall2 (fun w e => calibrated t_cor w = Ok e) (kept wfs) tcs -> List.length out = List.length tcs.
Proof.
  intros. destruct (loop_out process t_cor _ _ _ H) as (tcs' & F & M & _).
  rewrite <- (map_length fst), M. clear - H0. induction H0; cbn; auto.
Qed.

Lemma Forall2_slice : forall A B (R : A -> B -> Prop) a b n m, Forall2 R a b -> Forall2 R (skipn n (firstn m a)) (skipn n (firstn m b)).
Proof.
  intros A B R a b n m H. revert n m. induction H; intros n m.
  - rewrite !firstn_nil, !skipn_nil. constructor.
  - destruct m as [|m]; [cbn [firstn]; rewrite !skipn_nil; constructor|]. cbn [firstn].
    destruct n as [|n]; cbn [skipn]; [|apply IHForall2]. constructor; [assumption|]. apply (IHForall2 0 m).
Qed.

Lemma nth_pixel_values : forall C (process : event -> list C) (w : wf body) e bl p fci b c, nth_error (values_of process w e bl) p = Some (fci, (b, c)) ->
  nth_error (snd (wf_body w)) p = Some fci /\ nth_error bl p = Some b /\ nth_error (process (minus_baseline e bl)) p = Some c.
Proof.
  intros C process w e bl p fci b c H. unfold values_of in H. rewrite nth_error_combine in H.
  destruct (nth_error (snd (wf_body w)) p); [|discriminate]. rewrite nth_error_combine in H.
  destruct (nth_error bl p); [|discriminate]. destruct (nth_error (process _) p); [|discriminate]. injection H as -> -> ->. auto.
Qed.

Lemma baseline_pixels : forall np src nb ns evs, List.length (b_baseline (after (new_subtractor np src nb ns) evs)) = np.
Proof. intros. rewrite baseline_length; [reflexivity|]. cbn. now rewrite map_length, seq_length. Qed.

(** Two histories of which the last n_base events are the same give the same baseline. *)
Lemma same_baseline : forall np src src' nb ns evs evs', 0 < nb -> nb <= List.length evs -> nb <= List.length evs' ->
  skipn (List.length evs - nb) evs = skipn (List.length evs' - nb) evs' ->
  b_baseline (after (new_subtractor np src nb ns) evs) = b_baseline (after (new_subtractor np src' nb ns) evs').
Proof.
  intros np src src' nb ns evs evs' P L L' E. apply (nth_ext _ _ 0%Qc 0%Qc); [now rewrite !baseline_pixels|].
  intros p Hp. rewrite baseline_pixels in Hp. rewrite !c41_late by assumption. now rewrite E.
Qed.

Lemma F2_same : forall A B (f : A -> res B) l x y, Forall2 (fun a b => f a = Ok b) l x -> Forall2 (fun a b => f a = Ok b) l y -> x = y.
Proof. intros A B f l x y H. revert y. induction H; intros z K; inversion K; subst; [reflexivity|]. f_equal; [congruence|auto]. Qed.

Lemma settled : forall C (process : event -> list C) t_cor np nb ns src src' wfs wfs' out out' k k', 0 < nb ->
  extract_loop process t_cor (new_subtractor np src nb ns) wfs = Ok out -> extract_loop process t_cor (new_subtractor np src' nb ns) wfs' = Ok out' ->
  nb <= S k -> nb <= S k' -> k < List.length (kept wfs) -> k' < List.length (kept wfs') ->
  skipn (S k - nb) (firstn (S k) (kept wfs)) = skipn (S k' - nb) (firstn (S k') (kept wfs')) ->
  nth_error out k = nth_error out' k'.
Proof.
  intros C process t_cor np nb ns src src' wfs wfs' out out' k k' P H H' K K' L L' E.
  destruct (loop_out process t_cor _ _ _ H) as (tcs & F & M & V). destruct (loop_out process t_cor _ _ _ H') as (tcs' & F' & M' & V').
  assert (LT : List.length tcs = List.length (kept wfs)) by (clear - F; induction F; cbn; auto).
  assert (LT' : List.length tcs' = List.length (kept wfs')) by (clear - F'; induction F'; cbn; auto).
  assert (LO : List.length out = List.length (kept wfs)) by now rewrite <- M, map_length.
  assert (LO' : List.length out' = List.length (kept wfs')) by now rewrite <- M', map_length.
  destruct (nth_error out k) as [[w vals]|] eqn:N; [|apply nth_error_None in N; lia].
  destruct (nth_error out' k') as [[w' vals']|] eqn:N'; [|apply nth_error_None in N'; lia].
  destruct (V _ _ _ N) as (e & NE & CE & ->). destruct (V' _ _ _ N') as (e' & NE' & CE' & ->).
  assert (S1 : skipn (S k - nb) (firstn (S k) tcs) = skipn (S k' - nb) (firstn (S k') tcs')).
  { apply (F2_same _ _ (calibrated t_cor) (skipn (S k - nb) (firstn (S k) (kept wfs)))); [now apply Forall2_slice|]. rewrite E. now apply Forall2_slice. }
  assert (W : w = w').
  { assert (nth_error (kept wfs) k = Some w) by (rewrite <- M, nth_error_map, N; reflexivity).
    assert (nth_error (kept wfs') k' = Some w') by (rewrite <- M', nth_error_map, N'; reflexivity).
    assert (Q : nth_error (skipn (S k - nb) (firstn (S k) (kept wfs))) (nb - 1) = nth_error (skipn (S k' - nb) (firstn (S k') (kept wfs'))) (nb - 1)) by now rewrite E.
    rewrite !nth_error_skipn, !nth_error_firstn in Q. replace (S k - nb + (nb - 1)) with k in Q by lia. replace (S k' - nb + (nb - 1)) with k' in Q by lia.
    rewrite !(proj2 (Nat.ltb_lt _ _)) in Q by lia. congruence. }
  subst w'. assert (e = e') by congruence. subst e'. do 3 f_equal.
  apply same_baseline; [assumption|rewrite firstn_length; lia|rewrite firstn_length; lia|]. rewrite !firstn_length_le by lia. exact S1.
Qed.
