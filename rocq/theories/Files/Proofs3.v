(** Committed mask files: the latest is found. *)
From Coq Require Import List ZArith NArith Bool Arith String Ascii Lia Permutation Sorted.
From Verif.Base Require Import Py PyFacts Lex Lst.
From Verif.Files Require Import Model Proofs Proofs2.
Import ListNotations.
Local Open Scope list_scope.

Definition valid (t : clock) : Prop := (1 <= month t <= 12 /\ 1 <= day t <= 31 /\ hour t <= 23 /\ minute t <= 59)%N.
(** Chronological order of valid times, to the minute. *)
Definition clock_num (t : clock) : N := ((((year t * 100 + month t) * 100 + day t) * 100 + hour t) * 100 + minute t)%N.
Definition date_num (t : clock) : N := ((year t mod 100) * 10000 + month t * 100 + day t)%N.
Definition time_num (t : clock) : N := (hour t * 100 + minute t)%N.

Lemma digit_code : forall d, (d < 10)%N -> code (ascii_of_N (48 + d)) = (48 + d)%N.
Proof. intros. unfold code. apply N_ascii_embedding. lia. Qed.
Lemma pad2_digits : forall n, (n < 100)%N -> forallb is_d (pad2 n) = true.
Proof.
  intros n H. unfold pad2. cbn [forallb]. unfold is_d.
  rewrite !digit_code by (try apply N.mod_lt; try apply N.div_lt_upper_bound; lia).
  assert (n / 10 < 10)%N by (apply N.div_lt_upper_bound; lia). pose proof (N.mod_lt n 10 ltac:(lia)).
  generalize dependent (n / 10)%N. generalize dependent (n mod 10)%N. intros a A b B.
  destruct (N.leb_spec 48 (48 + a)), (N.leb_spec (48 + a) 57), (N.leb_spec 48 (48 + b)), (N.leb_spec (48 + b) 57); auto; lia.
Qed.
Lemma pad2_val : forall n t acc, (n < 100)%N ->
  fold_left (fun acc c => 10 * acc + (code c - 48))%N (pad2 n ++ t) acc = fold_left (fun acc c => 10 * acc + (code c - 48))%N t (100 * acc + n)%N.
Proof.
  intros n t acc H. unfold pad2. cbn [fold_left app]. rewrite !digit_code by (try apply N.mod_lt; try apply N.div_lt_upper_bound; lia).
  f_equal. pose proof (N.div_mod n 10 ltac:(lia)) as E. generalize dependent (n / 10)%N. generalize dependent (n mod 10)%N. intros a b E. lia.
Qed.

Definition date_text (t : clock) := pad2 (year t mod 100) ++ pad2 (month t) ++ pad2 (day t).
Definition time_text (t : clock) := pad2 (hour t) ++ pad2 (minute t).
Lemma yy_lt : forall t, (year t mod 100 < 100)%N.
Proof. intro. apply N.mod_lt. lia. Qed.
Lemma date_ok : forall t, valid t -> digits (date_text t) /\ digits_val (date_text t) = date_num t.
Proof.
  intros t (V1 & V2 & V3 & V4). pose proof (yy_lt t). unfold date_text. split; [split|].
  - discriminate.
  - rewrite !forallb_app, !pad2_digits by lia. reflexivity.
  - unfold digits_val. rewrite <- (app_nil_r (pad2 (day t))). rewrite !pad2_val by lia. cbn [fold_left]. unfold date_num. lia.
Qed.
Lemma time_ok : forall t, valid t -> digits (time_text t) /\ digits_val (time_text t) = time_num t.
Proof.
  intros t (V1 & V2 & V3 & V4). unfold time_text. split; [split|].
  - discriminate.
  - rewrite !forallb_app, !pad2_digits by lia. reflexivity.
  - unfold digits_val. rewrite <- (app_nil_r (pad2 (minute t))). rewrite !pad2_val by lia. cbn [fold_left]. unfold time_num. lia.
Qed.
Lemma file_name_split : forall prefix t, prefix ++ file_name t = (prefix ++ T "d") ++ date_text t ++ (T "T" ++ time_text t ++ T ".dat").
Proof. intros. unfold file_name, stamp, date_text, time_text. now rewrite <- !app_assoc. Qed.
Lemma ends_d : forall prefix, ends_text (prefix ++ T "d").
Proof. intro. right. exists prefix, "d"%char. auto. Qed.

Lemma file_key : forall prefix t, valid t ->
  nkey (prefix ++ file_name t) = nkey (prefix ++ T "d") ++ [KN (date_num t); KT (T "T"); KN (time_num t); KT (T ".dat")].
Proof.
  intros prefix t V. destruct (date_ok t V) as [D DV], (time_ok t V) as [E EV].
  rewrite file_name_split, nkey_mid by (auto using ends_d; reflexivity). f_equal. f_equal; [now rewrite DV|].
  rewrite nkey_mid; auto; [|right; exists [], "T"%char; auto|reflexivity]. rewrite EV. reflexivity.
Qed.

Definition same_century (a b : clock) : Prop := (year a / 100 = year b / 100)%N.
Lemma file_order : forall prefix a b, valid a -> valid b -> same_century a b -> (clock_num a <= clock_num b)%N ->
  file_name a = file_name b \/ lkcmp (nkey (prefix ++ file_name a)) (nkey (prefix ++ file_name b)) = Lt.
Proof.
  intros prefix a b VA VB C L. rewrite !file_key by auto. unfold lkcmp. rewrite lexc_app by apply kcmp_total. cbn [lexc kcmp].
  pose proof (N.div_mod (year a) 100 ltac:(lia)) as YA. pose proof (N.div_mod (year b) 100 ltac:(lia)) as YB. unfold same_century in C. rewrite C in YA.
  pose proof (yy_lt a). pose proof (yy_lt b).
  destruct VA as (A1 & A2 & A3 & A4), VB as (B1 & B2 & B3 & B4). unfold clock_num, date_num, time_num in *.
  remember (year a mod 100)%N as ya. remember (year b mod 100)%N as yb. remember (year b / 100)%N as cc.
  destruct (N.compare_spec (ya * 10000 + month a * 100 + day a) (yb * 10000 + month b * 100 + day b)) as [E|E|E]; auto.
  - rewrite tc_refl by (apply lexc_total, char_total).
    destruct (N.compare_spec (hour a * 100 + minute a) (hour b * 100 + minute b)) as [E2|E2|E2]; auto.
    + left. unfold file_name, stamp. rewrite <- Heqya, <- Heqyb. clear YA YB Heqya Heqyb Heqcc C L.
      replace ya with yb by lia. replace (month a) with (month b) by lia. replace (day a) with (day b) by lia.
      replace (hour a) with (hour b) by lia. replace (minute a) with (minute b) by lia. reflexivity.
    + exfalso. lia.
  - exfalso. lia.
Qed.

Definition plain (t : text) : Prop := forallb (fun c => negb (superscript c)) t = true.
Lemma plain_app : forall a b, plain a -> plain b -> plain (a ++ b).
Proof. unfold plain. intros. now rewrite forallb_app, H, H0. Qed.
Lemma plain_digits : forall d, forallb is_d d = true -> plain d.
Proof. unfold plain. intros d H. rewrite forallb_forall in *. intros c C. rewrite superscript_eq. now rewrite (H c C), andb_false_r. Qed.
Lemma plain_file : forall t, valid t -> plain (file_name t).
Proof.
  intros t V. pose proof (file_name_split [] t) as E. cbn [app] in E. rewrite E. destruct (date_ok t V) as [[_ D] _], (time_ok t V) as [[_ F] _].
  apply plain_app; [reflexivity|]. apply plain_app; [now apply plain_digits|]. apply plain_app; [reflexivity|]. apply plain_app; [now apply plain_digits|reflexivity].
Qed.

(** ** The directory *)
Lemma fget_fset : forall d n v n', fget (fset d n v) n' = if text_eqb n n' then Some v else fget d n'.
Proof.
  induction d as [|[k w] d IH]; intros n v n'; cbn; auto. destruct (text_eqb k n) eqn:E; cbn.
  - apply text_eqb_eq in E. subst. now destruct (text_eqb n n').
  - rewrite IH. destruct (text_eqb k n') eqn:E2; auto. apply text_eqb_eq in E2. subst. destruct (text_eqb n n') eqn:E3; auto.
    apply text_eqb_eq in E3. subst. rewrite text_eqb_refl in E. discriminate.
Qed.
Lemma in_fset : forall d n v n', In n' (map fst (fset d n v)) <-> n' = n \/ In n' (map fst d).
Proof.
  induction d as [|[k w] d IH]; intros n v n'; cbn; [intuition|]. destruct (text_eqb k n) eqn:E; cbn.
  - apply text_eqb_eq in E. subst. intuition.
  - rewrite IH. intuition.
Qed.

(** A file name that sorts before the file of time [t], or is that file. *)
Definition not_newer (prefix : text) (t : clock) (name : text) : Prop :=
  bad_name (prefix ++ name) = false /\ (name = file_name t \/ lkcmp (nkey (prefix ++ name)) (nkey (prefix ++ file_name t)) = Lt).
Definition commits (d : folder) (cs : list (clock * masks)) : res folder := foldM (fun d c => commit d (fst c) (snd c)) cs d.

Lemma not_newer_later : forall prefix a b n, valid a -> valid b -> same_century a b -> (clock_num a <= clock_num b)%N ->
  not_newer prefix a n -> not_newer prefix b n.
Proof.
  intros prefix a b n VA VB C L [B [->|H]]; split; auto; destruct (file_order prefix a b VA VB C L) as [E|E]; auto.
  - right. now rewrite <- E.
  - right. exact (tc_trans _ lk_total _ _ _ H E).
Qed.

Lemma commits_spec : forall prefix cs d d' t, plain prefix -> valid t ->
  Forall (fun c => valid (fst c) /\ same_century (fst c) t) cs ->
  StronglySorted (fun a b => (clock_num (fst a) <= clock_num (fst b))%N) cs ->
  Forall (fun c => (clock_num t <= clock_num (fst c))%N) cs ->
  (forall n, In n (map fst d) -> not_newer prefix t n) ->
  commits d cs = Ok d' -> forall c, cs <> [] -> c = last cs c ->
  (forall n, In n (map fst d') -> not_newer prefix (fst c) n) /\
  exists f, to_csv (snd c) = Ok f /\ fget d' (file_name (fst c)) = Some f /\ In (file_name (fst c)) (map fst d').
Proof.
  intros prefix cs. induction cs as [|c0 cs IH]; intros d d' t PL V F S L N E c NE LC; [congruence|].
  inversion F as [|? ? [V0 C0] F']; subst. apply StronglySorted_inv in S as [S FS]. inversion L as [|? ? L0 L']; subst.
  cbn [commits foldM] in E. unfold commit in E at 1. destruct (to_csv (snd c0)) as [f|] eqn:TC; cbn [bind] in E; [|discriminate].
  set (d1 := fset d (file_name (fst c0)) f) in *.
  assert (forall n, In n (map fst d1) -> not_newer prefix (fst c0) n) as N1.
  { intros n I. apply in_fset in I as [->|I].
    - split; auto. apply plain_not_bad. apply plain_app; auto. now apply plain_file.
    - apply (not_newer_later prefix t); auto. unfold same_century in *. congruence. }
  destruct cs as [|c1 cs].
  - cbn in LC. subst c. cbn in E. injection E as <-. split; auto. exists f. repeat split; auto.
    + unfold d1. now rewrite fget_fset, text_eqb_refl.
    + apply in_fset. now left.
  - apply (IH d1 d' (fst c0)); auto.
    + eapply Forall_impl; [|exact F']. intros x [X1 X2]. split; auto. unfold same_century in *. congruence.
    + discriminate.
Qed.

Lemma new_masks_latest : forall n_sp prefix d listing t f m, (forall n, In n (map fst d) -> not_newer prefix t n) ->
  Permutation listing (map fst d) -> In (file_name t) (map fst d) -> fget d (file_name t) = Some f ->
  (forall m0, load_csv n_sp m0 f false = Ok m) -> new_masks n_sp prefix d listing = Ok m.
Proof.
  intros n_sp prefix d listing t f m N P I G L. unfold new_masks.
  assert (forall n, In n listing -> not_newer prefix t n) as N' by (intros n J; apply N; now rewrite <- P).
  assert (In (file_name t) listing) as I' by now rewrite P.
  rewrite sort_ok.
  2:{ destruct (existsb bad_name (map (fun n => prefix ++ n) listing)) eqn:E; auto. apply existsb_exists in E as (x & X & B).
      apply in_map_iff in X as (n & <- & X). destruct (N' n X). congruence. }
  cbn [bind]. set (l := srt nkey lkcmp (map (fun n => prefix ++ n) listing)).
  destruct (srt_spec _ _ nkey lkcmp lk_total (map (fun n => prefix ++ n) listing)) as (PS & SS & _). fold l in PS, SS.
  assert (l <> []) as NE.
  { intro E. rewrite E in PS. apply Permutation_nil in PS. destruct listing; [destruct I'|discriminate]. }
  destruct (exists_last NE) as (l' & x & EL). rewrite EL, rev_app_distr. cbn [rev app].
  assert (In x (map (fun n => prefix ++ n) listing)) as IX by (rewrite <- PS, EL; apply in_app_iff; right; now left).
  apply in_map_iff in IX as (n & <- & IX).
  assert (le nkey lkcmp (prefix ++ file_name t) (last l (prefix ++ n))) as M.
  { apply (sorted_last_max _ _ _ _ lk_total); auto. rewrite PS. now apply in_map. }
  rewrite EL, last_last in M. unfold le in M. destruct (N' n IX) as [_ [->|H]].
  - rewrite strip_app, G. apply L.
  - rewrite (tc_anti _ lk_total (nkey (prefix ++ n))), H in M. now cbn in M.
Qed.

Lemma c45 : forall n_sp prefix d d' cs c listing, plain prefix -> cs <> [] -> last cs c = c ->
  Forall (fun c => valid (fst c) /\ same_century (fst c) (fst (hd c cs))) cs ->
  StronglySorted (fun a b => (clock_num (fst a) <= clock_num (fst b))%N) cs ->
  (forall n, In n (map fst d) -> not_newer prefix (fst (hd c cs)) n) ->
  wf n_sp (snd c) -> commits d cs = Ok d' -> Permutation listing (map fst d') ->
  new_masks n_sp prefix d' listing = Ok (snd c).
Proof.
  intros n_sp prefix d d' cs c listing PL NE LC F S N W E P.
  destruct cs as [|c0 cs]; [congruence|]. cbn [hd] in *.
  destruct (commits_spec prefix (c0 :: cs) d d' (fst c0)) with (c := c) as (N' & f & TC & G & I); auto.
  - inversion F as [|? ? [V _] _]. exact V.
  - apply StronglySorted_inv in S as [_ FS]. constructor; [lia|exact FS].
  - apply (new_masks_latest n_sp prefix d' listing (fst c) f); auto. intro m0. destruct (c44_round_trip n_sp (snd c) m0 W) as (f' & T' & L). congruence.
Qed.
