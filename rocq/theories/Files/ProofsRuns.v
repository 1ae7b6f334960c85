(** Proofs about the paths of run lists. *)
From Coq Require Import ZArith NArith Bool Arith String Ascii Lia DecimalString Decimal DecimalN List.
From Verif.Base Require Import Py PyFacts Str Lex.
From Verif.Files Require Import Model Proofs Proofs2 Proofs3 ModelRuns.
Import ListNotations.
Local Open Scope list_scope.

(** ** Decimal digits *)
Fixpoint uval (acc : N) (u : uint) : N :=
  match u with
  | Nil => acc
  | D0 u => uval (10 * acc)%N u | D1 u => uval (10 * acc + 1)%N u | D2 u => uval (10 * acc + 2)%N u | D3 u => uval (10 * acc + 3)%N u
  | D4 u => uval (10 * acc + 4)%N u | D5 u => uval (10 * acc + 5)%N u | D6 u => uval (10 * acc + 6)%N u | D7 u => uval (10 * acc + 7)%N u
  | D8 u => uval (10 * acc + 8)%N u | D9 u => uval (10 * acc + 9)%N u
  end.
Lemma uval_acc : forall u p, uval (Npos p) u = Npos (Pos.of_uint_acc u p).
Proof. induction u; intros p; cbn [uval Pos.of_uint_acc]; [reflexivity|..]; rewrite <- IHu; f_equal; lia. Qed.
Lemma uval_of : forall u, uval 0 u = N.of_uint u.
Proof. unfold N.of_uint. induction u; cbn [uval Pos.of_uint]; try (change (10 * 0)%N with 0%N; cbn [N.add]; first [apply IHu|apply uval_acc]); reflexivity. Qed.
Definition step (acc : N) (c : ascii) : N := (10 * acc + (code c - 48))%N.
Lemma digits_uint : forall u acc, fold_left step (T (NilEmpty.string_of_uint u)) acc = uval acc u /\ forallb is_d (T (NilEmpty.string_of_uint u)) = true.
Proof.
  unfold T. intros u. induction u; intros acc; cbn [NilEmpty.string_of_uint list_ascii_of_string fold_left uval forallb]; [auto|..];
  match goal with |- fold_left step _ (step acc ?c) = uval ?b _ /\ _ => replace (step acc c) with b by (unfold step; let v := eval vm_compute in (code c - 48)%N in change (code c - 48)%N with v; lia) end; apply IHu.
Qed.
Lemma dec_digits : forall n, forallb is_d (T (dec n)) = true /\ digits_val (T (dec n)) = n.
Proof. intros n. unfold dec. destruct (digits_uint (N.to_uint n) 0) as [A B]. split; [exact B|]. change digits_val with (fun t => fold_left step t 0%N). cbn beta. rewrite A, uval_of. apply Unsigned.of_to. Qed.
Lemma zeros_val : forall k t, fold_left step (repeat "0"%char k ++ t) 0%N = fold_left step t 0%N.
Proof. induction k as [|k IH]; intros t; [reflexivity|]. cbn [repeat app fold_left]. exact (IH t). Qed.
Lemma zfill_spec : forall w n, digits (zfill w (T (dec n))) \/ (w = 0%nat). Proof.
  intros [|w] n; [now right|left]. split.
  - unfold zfill. intros E. apply (f_equal (@List.length ascii)) in E. rewrite app_length, repeat_length in E. cbn [List.length] in E. lia.
  - unfold zfill. rewrite forallb_app. destruct (dec_digits n) as [-> _]. rewrite andb_true_r. induction (S w - List.length (T (dec n)))%nat; cbn; auto.
Qed.
Lemma zfill_val : forall w n, digits_val (zfill w (T (dec n))) = n.
Proof. intros w n. change digits_val with (fun t => fold_left step t 0%N). cbn beta. unfold zfill. rewrite zeros_val. apply (dec_digits n). Qed.
Lemma zfill_length : forall w t, List.length (zfill w t) = Nat.max w (List.length t).
Proof. intros. unfold zfill. rewrite app_length, repeat_length. lia. Qed.
Lemma minus_no_digit : is_d "-"%char = false. Proof. reflexivity. Qed.
Lemma pad05_inj : forall a b, pad05 a = pad05 b -> a = b.
Proof.
  assert (D : forall w n, w <> 0%nat -> exists c r, zfill w (T (dec n)) = c :: r /\ is_d c = true).
  { intros w n W. destruct (zfill_spec w n) as [[NE F]|]; [|easy]. destruct (zfill w (T (dec n))) as [|c r]; [easy|]. exists c, r. split; [reflexivity|]. cbn in F. now apply andb_true_iff in F. }
  intros a b. unfold pad05. destruct (Z.ltb_spec a 0), (Z.ltb_spec b 0); intros E.
  - injection E as E. apply (f_equal digits_val) in E. rewrite !zfill_val in E. lia.
  - destruct (D 5%nat (Z.to_N b) ltac:(lia)) as (c & r & Q & DC). rewrite Q in E. injection E as <- _. discriminate.
  - destruct (D 5%nat (Z.to_N a) ltac:(lia)) as (c & r & Q & DC). rewrite Q in E. injection E as -> _. discriminate.
  - apply (f_equal digits_val) in E. rewrite !zfill_val in E. lia.
Qed.
Lemma pad05_chars : forall z c, In c (pad05 z) -> is_d c = true \/ c = "-"%char.
Proof.
  intros z c I. unfold pad05 in I. assert (D : forall w n, w <> 0%nat -> In c (zfill w (T (dec n))) -> is_d c = true).
  { intros w n W J. destruct (zfill_spec w n) as [[_ F]|]; [|easy]. rewrite forallb_forall in F. auto. }
  destruct (z <? 0)%Z; [destruct I as [<-|I]; [now right|]|]; left; eapply D; try exact I; lia.
Qed.

(** ** Paths *)
Lemma is_slash_iff : forall c, is_slash c = true <-> c = "/"%char.
Proof. intros c. unfold is_slash, is_char. rewrite N.eqb_eq. split; [|now intros ->]. intros H. apply (f_equal ascii_of_N) in H. unfold code in H. now rewrite !ascii_N_embedding in H. Qed.
Lemma is_char_iff : forall c d, is_char c d = true <-> c = d.
Proof. intros c d. unfold is_char. rewrite N.eqb_eq. split; [|now intros ->]. intros H. apply (f_equal ascii_of_N) in H. unfold code in H. now rewrite !ascii_N_embedding in H. Qed.
Lemma is_char_eq : forall c, is_char c c = true. Proof. intros c. now apply is_char_iff. Qed.
Lemma is_char_neq : forall c d, c <> d -> is_char c d = false.
Proof. intros c d H. destruct (is_char c d) eqn:E; [|reflexivity]. now apply is_char_iff in E. Qed.
Lemma drop_while_app : forall f a b, forallb f a = true -> drop_while f (a ++ b) = drop_while f b.
Proof. induction a as [|c a IH]; intros b H; [reflexivity|]. cbn [forallb] in H. apply andb_true_iff in H as [C H]. cbn [app drop_while]. rewrite C. auto. Qed.
Lemma drop_while_stop : forall f t, match drop_while f t with [] => True | c :: _ => f c = false end.
Proof. induction t as [|c t IH]; cbn; [exact I|]. destruct (f c) eqn:E; auto. Qed.
Lemma drop_while_In : forall f t c, In c (drop_while f t) -> In c t.
Proof. induction t as [|d t IH]; intros c; cbn; [easy|]. destruct (f d); auto. Qed.
Lemma forallb_rev : forall A (f : A -> bool) l, forallb f (rev l) = forallb f l.
Proof. intros A f. induction l as [|a l IH]; [reflexivity|]. cbn. rewrite forallb_app, IH. cbn. rewrite andb_true_r. apply andb_comm. Qed.
(** A directory: empty, slashes only, or not ending with a slash. *)
Definition is_dir (d : text) : Prop := forallb is_slash d = true \/ match rev d with [] => True | c :: _ => is_slash c = false end.
Lemma dirname_is_dir : forall p, is_dir (dirname p).
Proof.
  intros p. unfold dirname. set (h := rev (drop_while _ (rev p))). destruct (forallb is_slash h) eqn:E; [now left|]. right. rewrite rev_involutive. apply drop_while_stop.
Qed.
Lemma dirname_In : forall p c, In c (dirname p) -> In c p.
Proof.
  intros p c. unfold dirname. set (h := rev (drop_while _ (rev p))). assert (H : In c h -> In c p) by (intros I; apply in_rev in I; apply drop_while_In in I; now apply in_rev in I).
  destruct (forallb is_slash h); [exact H|]. intros I. apply in_rev in I. apply drop_while_In in I. apply in_rev in I. auto.
Qed.
Definition with_slash (d : text) : text := match rev d with [] => [] | c :: _ => if is_slash c then d else d ++ ["/"%char] end.
Lemma join_with_slash : forall d b, match b with c :: _ => is_slash c = false | [] => True end -> join d b = with_slash d ++ b.
Proof. intros d b B. unfold join, with_slash. destruct b as [|c b]; [|rewrite B]; destruct (rev d) as [|x r] eqn:E; cbn [app]; auto; destruct (is_slash x); auto; now rewrite <- app_assoc. Qed.
Lemma dirname_join : forall d b, is_dir d -> forallb (fun c => negb (is_slash c)) b = true -> dirname (with_slash d ++ b) = d.
Proof.
  intros d b D B. unfold dirname. rewrite rev_app_distr, drop_while_app by (now rewrite forallb_rev).
  assert (H : rev (drop_while (fun c => negb (is_slash c)) (rev (with_slash d))) = with_slash d).
  { unfold with_slash. destruct (rev d) as [|x r] eqn:E; [reflexivity|]. destruct (is_slash x) eqn:X.
    - rewrite E. cbn [drop_while]. rewrite X. cbn [negb]. rewrite <- E. apply rev_involutive.
    - rewrite rev_app_distr. cbn [rev app drop_while]. rewrite E. cbn [negb is_slash]. rewrite (proj2 (is_slash_iff _) eq_refl). cbn [negb]. rewrite <- E. cbn [rev]. now rewrite rev_involutive. }
  rewrite H. unfold with_slash. destruct (rev d) as [|x r] eqn:E.
  - apply (f_equal (@rev ascii)) in E. rewrite rev_involutive in E. subst. reflexivity.
  - destruct (is_slash x) eqn:X.
    + destruct D as [D|D]; [now rewrite D|]. rewrite E in D. congruence.
    + rewrite forallb_app. assert (F : forallb is_slash d = false). { rewrite <- forallb_rev, E. cbn [forallb]. now rewrite X. }
      rewrite F. cbn [andb]. rewrite rev_app_distr. cbn [rev app drop_while]. rewrite (proj2 (is_slash_iff _) eq_refl), E. cbn [drop_while]. rewrite X, <- E. apply rev_involutive.
Qed.
Lemma with_slash_In : forall d c, In c (with_slash d) -> In c d \/ c = "/"%char.
Proof. intros d c. unfold with_slash. destruct (rev d) as [|x r]; [easy|]. destruct (is_slash x); [auto|]. intros I. apply in_app_or in I as [I|[I|[]]]; auto. Qed.
Lemma with_slash_incl : forall d c, In c d -> In c (with_slash d).
Proof. intros d c I. unfold with_slash. destruct (rev d) as [|x r] eqn:E; [apply in_rev in I; rewrite E in I; exact I|]. destruct (is_slash x); [exact I|]. apply in_or_app. now left. Qed.
Lemma with_slash_ends : forall d, ends_text (with_slash d).
Proof.
  intros d. unfold with_slash. destruct (rev d) as [|x r] eqn:E; [now left|]. right. destruct (is_slash x) eqn:X.
  - exists (rev r), x. split; [|apply is_slash_iff in X; now subst]. apply (f_equal (@rev ascii)) in E. rewrite rev_involutive in E. exact E.
  - exists d, "/"%char. split; reflexivity.
Qed.

(** ** str.format *)
Definition brace (c : ascii) : bool := is_char c "{"%char || is_char c "}"%char.
(** The template of a text: every brace doubled. *)
Definition escape (u : text) : text := flat_map (fun c => if brace c then [c; c] else [c]) u.
Definition tail (suffix : text) : text := T "Run{:05d}" ++ suffix.
Definition no_brace (t : text) : Prop := forallb (fun c => negb (brace c)) t = true.

Lemma fmt_plain : forall args st t r, no_brace t -> fmt args st None (t ++ r) = rmap (app t) (fmt args st None r).
Proof.
  unfold no_brace. induction t as [|c t IH]; intros r H; [cbn [app]; destruct (fmt args st None r); reflexivity|]. cbn [forallb] in H. apply andb_true_iff in H as [C H]. unfold brace in C. apply negb_true_iff, orb_false_iff in C as [C1 C2].
  cbn [app fmt]. rewrite C1, C2, IH by exact H. destruct (fmt args st None r); reflexivity.
Qed.
Lemma fmt_nil : forall args st, fmt args st None [] = Ok []. Proof. reflexivity. Qed.
Lemma fmt_tail : forall i suffix st, no_brace suffix -> fmt [i] st None (tail suffix) =
  match st with
  | Fresh => rmap (fun s => T "Run" ++ s ++ suffix) (apply_spec i (T "05d"))
  | Auto n => match n with O => rmap (fun s => T "Run" ++ s ++ suffix) (apply_spec i (T "05d")) | S _ => Raise IndexError end
  | Manual => Raise ValueError
  end.
Proof.
  intros i suffix st N. assert (F : forall st', fmt [i] st' None suffix = Ok suffix).
  { intros st'. rewrite <- (app_nil_r suffix) at 1. rewrite fmt_plain by exact N. rewrite fmt_nil. cbn. now rewrite app_nil_r. }
  unfold tail. change (T "Run{:05d}" ++ suffix) with (T "Run" ++ T "{:05d}" ++ suffix). rewrite fmt_plain by reflexivity.
  change (fmt [i] st None (T "{:05d}" ++ suffix)) with (bind (field [i] st (T ":05d")) (fun x => rmap (app (snd x)) (fmt [i] (fst x) None suffix))).
  change (field [i] st (T ":05d")) with (let get n st' := match nth_error [i] n with Some i => rmap (fun s => (st', s)) (apply_spec i (T "05d")) | None => Raise IndexError end in
    match st with Fresh => get 0%nat (Auto 1) | Auto n => get n (Auto (S n)) | Manual => Raise ValueError end). cbn zeta.
  destruct st as [|[|n]|]; cbn [nth_error]; try (set (a := apply_spec i (T "05d")); clearbody a).
  - destruct a; cbn [rmap bind fst snd]; [rewrite F|]; reflexivity.
  - destruct a; cbn [rmap bind fst snd]; [rewrite F|]; reflexivity.
  - destruct n; reflexivity.
  - reflexivity.
Qed.
Definition used (st : numbering) : Prop := match st with Fresh => False | Auto n => n <> 0%nat | Manual => True end.
Lemma field_used : forall args st f st' s, field args st f = Ok (st', s) -> used st'.
Proof.
  intros args st f st' s. unfold field. destruct (split_colon f) as [name spec].
  assert (G : forall n (st1 : numbering), used st1 -> match nth_error args n with Some i => rmap (fun s0 => (st1, s0)) (apply_spec i spec) | None => Raise IndexError end = Ok (st', s) -> used st').
  { intros n st1 U H. destruct (nth_error args n); [|discriminate]. destruct (apply_spec i spec); [|discriminate]. cbn in H. injection H as <- _. exact U. }
  destruct name as [|c name].
  - destruct st; [|apply G; cbn; lia|discriminate]. apply G. cbn. lia.
  - destruct (forallb is_d (c :: name)); [|discriminate]. destruct st; [|discriminate|]; apply G; exact I.
Qed.
Lemma tail_head : forall suffix, exists r, tail suffix = "R"%char :: "u"%char :: "n"%char :: "{"%char :: r. Proof. intros. eexists. reflexivity. Qed.
(** Inside a field, or after one, the last field fails. *)
Lemma fmt_fails : forall suffix i, no_brace suffix -> forall n t, (List.length t <= n)%nat ->
  (forall st g, exists e, fmt [i] st (Some g) (t ++ tail suffix) = Raise e) /\ (forall st, used st -> exists e, fmt [i] st None (t ++ tail suffix) = Raise e).
Proof.
  intros suffix i NB. assert (B : (forall st g, exists e, fmt [i] st (Some g) (tail suffix) = Raise e) /\ (forall st, used st -> exists e, fmt [i] st None (tail suffix) = Raise e)).
  { split; [intros st g; exists ValueError; reflexivity|]. intros st U. rewrite fmt_tail by exact NB. destruct st as [|[|m]|]; cbn in U; [easy|lia|eauto|eauto]. }
  induction n as [|n IH]; intros [|c t] L; try (cbn in L; lia); try exact B.
  cbn [List.length] in L. destruct (IH t ltac:(lia)) as [IHS IHN]. split.
  - intros st g. cbn [app fmt]. destruct (is_char c "}"); [|destruct (is_char c "{"); [eauto|apply IHS]]. destruct (field [i] st (rev g)) as [[st' s]|e] eqn:F; [|cbn; eauto]. apply field_used in F. destruct (IHN st' F) as [e E]. cbn [bind fst snd]. rewrite E. cbn. eauto.
  - intros st U. cbn [app fmt]. destruct (is_char c "{") eqn:C1; [|destruct (is_char c "}") eqn:C2].
    + destruct t as [|d t]; [cbn [app]; destruct (tail_head suffix) as [r R]; rewrite R; cbn [is_char]; change (is_char "R" "{") with false; cbn iota; rewrite <- R; apply B|].
      cbn [app]. destruct (is_char d "{"); [|apply (IHS st [])]. destruct (IH t ltac:(cbn in L; lia)) as [_ H]. destruct (H st U) as [e E]. rewrite E. cbn. eauto.
    + destruct t as [|d t]; [cbn [app]; destruct (tail_head suffix) as [r R]; rewrite R; change (is_char "R" "}") with false; cbn iota; eauto|].
      cbn [app]. destruct (is_char d "}"); [|eauto]. destruct (IH t ltac:(cbn in L; lia)) as [_ H]. destruct (H st U) as [e E]. rewrite E. cbn. eauto.
    + destruct (IHN st U) as [e E]. rewrite E. cbn. eauto.
Qed.
(** The whole of str.format on a directory followed by the name. *)
Lemma fmt_whole : forall suffix i, no_brace suffix -> forall n t, (List.length t <= n)%nat -> forall s,
  fmt [i] Fresh None (t ++ tail suffix) = Ok s <-> exists u v, t = escape u /\ apply_spec i (T "05d") = Ok v /\ s = u ++ T "Run" ++ v ++ suffix.
Proof.
  intros suffix i NB. assert (B : forall s, fmt [i] Fresh None (tail suffix) = Ok s <-> exists v, apply_spec i (T "05d") = Ok v /\ s = T "Run" ++ v ++ suffix).
  { intros s. rewrite fmt_tail by exact NB. destruct (apply_spec i (T "05d")) as [v|e]; cbn [rmap]; split.
    - intros H. exists v. split; [reflexivity|congruence].
    - intros (v' & H & ->). now injection H as <-.
    - discriminate.
    - intros (v' & H & _). discriminate. }
  assert (NE : forall u, [] = escape u -> u = []). { intros [|c u] H; [reflexivity|]. cbn in H. destruct (brace c); discriminate. }
  induction n as [|n IH]; intros [|c t] L s; try (cbn in L; lia).
  1,2: cbn [app]; rewrite B; split; [intros (v & H & E); exists [], v; auto|intros (u & v & E & H & S); apply NE in E; subst; exists v; auto].
  cbn [List.length] in L. destruct (brace c) eqn:BC.
  - destruct t as [|d t].
    + cbn [app fmt]. destruct (tail_head suffix) as [r R]. split.
      * unfold brace in BC. destruct (is_char c "{"); cbn [orb] in BC.
        -- rewrite R. change (is_char "R" "{") with false. cbn iota. rewrite <- R. destruct (fmt_fails suffix i NB 0 [] (le_n _)) as [H _]. destruct (H Fresh []) as [e E]. cbn [app] in E. intros Q0. discriminate (eq_trans (eq_sym E) Q0).
        -- rewrite BC, R. change (is_char "R" "}") with false. discriminate.
      * intros (u & v & E & _). destruct u as [|x u]; [discriminate|]. cbn in E. destruct (brace x) eqn:X; [discriminate|]. injection E as -> _. congruence.
    + destruct (is_char d c) eqn:DC.
      * apply is_char_iff in DC. subst d. assert (F : fmt [i] Fresh None ((c :: c :: t) ++ tail suffix) = rmap (cons c) (fmt [i] Fresh None (t ++ tail suffix))).
        { cbn [app fmt]. unfold brace in BC. destruct (is_char c "{") eqn:Q; [reflexivity|]. cbn [orb] in BC. now rewrite BC. }
        rewrite F. cbn [List.length] in L. specialize (IH t ltac:(lia)). split.
        -- destruct (fmt [i] Fresh None (t ++ tail suffix)) as [s'|e] eqn:Q; [|discriminate]. cbn [rmap]. intros H. injection H as <-. destruct (proj1 (IH s') eq_refl) as (u & v & -> & V & ->). exists (c :: u), v. cbn. rewrite BC. auto.
        -- intros (u & v & E & V & ->). destruct u as [|x u]; [discriminate|]. cbn in E. destruct (brace x) eqn:X; [|injection E as -> _; congruence]. injection E as -> E. rewrite (proj2 (IH (u ++ T "Run" ++ v ++ suffix))); [reflexivity|]. exists u, v. auto.
      * split.
        -- cbn [app fmt]. unfold brace in BC. destruct (is_char c "{") eqn:Q; cbn [orb] in BC.
           ++ apply is_char_iff in Q. subst c. rewrite DC. destruct (fmt_fails suffix i NB _ (d :: t) (le_n _)) as [H _]. destruct (H Fresh []) as [e E]. cbn [app fmt] in E. rewrite DC in E. intros Q0. discriminate (eq_trans (eq_sym E) Q0).
           ++ rewrite BC. apply is_char_iff in BC. subst c. rewrite DC. discriminate.
        -- intros (u & v & E & _). destruct u as [|x u]; [discriminate|]. cbn in E. destruct (brace x) eqn:X; [injection E as -> -> _; rewrite is_char_eq in DC; discriminate|injection E as -> _; congruence].
  - assert (F : fmt [i] Fresh None ((c :: t) ++ tail suffix) = rmap (cons c) (fmt [i] Fresh None (t ++ tail suffix))).
    { cbn [app fmt]. unfold brace in BC. apply orb_false_iff in BC as [B1 B2]. now rewrite B1, B2. }
    rewrite F. specialize (IH t ltac:(lia)). split.
    + destruct (fmt [i] Fresh None (t ++ tail suffix)) as [s'|e] eqn:Q; [|discriminate]. cbn [rmap]. intros H. injection H as <-. destruct (proj1 (IH s') eq_refl) as (u & v & -> & V & ->). exists (c :: u), v. cbn. rewrite BC. auto.
    + intros (u & v & E & V & ->). destruct u as [|x u]; [discriminate|]. cbn in E. destruct (brace x) eqn:X; [injection E as -> _; congruence|]. injection E as -> E. rewrite (proj2 (IH (u ++ T "Run" ++ v ++ suffix))); [reflexivity|]. exists u, v. auto.
Qed.
Lemma escape_plain : forall u, no_brace u -> escape u = u.
Proof. unfold no_brace. induction u as [|c u IH]; intros H; [reflexivity|]. cbn [forallb] in H. apply andb_true_iff in H as [C H]. cbn. apply negb_true_iff in C. rewrite C. cbn. f_equal. exact (IH H). Qed.
Lemma escape_longer : forall u, (List.length u <= List.length (escape u))%nat /\ (escape u = u -> no_brace u).
Proof.
  unfold no_brace. induction u as [|c u [IH1 IH2]]; [split; [cbn; lia|reflexivity]|]. cbn. destruct (brace c) eqn:B; cbn; fold (escape u).
  - split; [lia|]. intros E. exfalso. injection E as E. apply (f_equal (@List.length ascii)) in E. cbn in E. lia.
  - split; [lia|]. intros E. injection E as E. auto.
Qed.
Lemma run_path_iff : forall suffix path i s, no_brace suffix ->
  run_path suffix path i = Ok s <-> exists u z, with_slash (dirname path) = escape u /\ i = Int z /\ s = u ++ T "Run" ++ pad05 z ++ suffix.
Proof.
  intros suffix path i s N. unfold run_path, format. rewrite join_with_slash by reflexivity. rewrite (fmt_whole suffix i N _ _ (le_n _)). split.
  - intros (u & v & E & V & ->). destruct i as [z|]; [|discriminate]. exists u, z. cbn in V. injection V as <-. auto.
  - intros (u & z & E & -> & ->). exists u, (pad05 z). auto.
Qed.
Lemma no_brace_iff : forall t, no_brace t <-> ~ (In "{"%char t \/ In "}"%char t).
Proof.
  unfold no_brace. intros t. rewrite forallb_forall. split.
  - intros H [I|I]; specialize (H _ I); discriminate.
  - intros H c I. apply negb_true_iff. unfold brace. destruct (is_char c "{") eqn:A; [apply is_char_iff in A; subst; elim H; auto|]. destruct (is_char c "}") eqn:B; [apply is_char_iff in B; subst; elim H; auto|reflexivity].
Qed.
Lemma no_brace_slash : forall d, no_brace (with_slash d) <-> no_brace d.
Proof.
  intros d. rewrite !no_brace_iff. split; intros H [I|I]; apply H.
  - left; now apply with_slash_incl.
  - right; now apply with_slash_incl.
  - apply with_slash_In in I as [I|I]; [now left|discriminate].
  - apply with_slash_In in I as [I|I]; [now right|discriminate].
Qed.
