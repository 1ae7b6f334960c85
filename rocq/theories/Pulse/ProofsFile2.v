(** The text of the reference pulse file and how it is read back. *)
From Coq Require Import List ZArith NArith QArith Qcanon Bool Arith String Ascii Lia.
From Verif.Base Require Import Py PyFacts Num Fl Str.
From Verif.Files Require Import Model ProofsRuns.
From Verif.Pulse Require Import ModelFile ProofsFile.
Import ListNotations.
Local Open Scope list_scope.

Lemma digit_spec : forall d, (0 <= d <= 9)%Z -> is_d (digit d) = true /\ Z.of_N (code (digit d) - 48) = d.
Proof.
  intros d D. assert (C : (d = 0 \/ d = 1 \/ d = 2 \/ d = 3 \/ d = 4 \/ d = 5 \/ d = 6 \/ d = 7 \/ d = 8 \/ d = 9)%Z) by lia.
  destruct C as [->|[->|[->|[->|[->|[->|[->|[->|[->| ->]]]]]]]]]; split; reflexivity.
Qed.
Lemma take_digit : forall acc n d r, (0 <= d <= 9)%Z -> take_digits acc n (digit d :: r) = take_digits (10 * acc + d) (S n) r.
Proof. intros acc n d r D. destruct (digit_spec d D) as [A B]. cbn [take_digits]. now rewrite A, B. Qed.
Lemma take_stop : forall acc n c r, is_d c = false -> take_digits acc n (c :: r) = (acc, n, c :: r).
Proof. intros acc n c r H. cbn [take_digits]. now rewrite H. Qed.
Lemma take_all : forall (t : text) acc n, forallb is_d t = true ->
  take_digits (Z.of_N acc) n t = (Z.of_N (fold_left (fun acc c => 10 * acc + (code c - 48))%N t acc), (n + List.length t)%nat, []).
Proof.
  induction t as [|c t IH]; intros acc n H.
  - cbn. now rewrite Nat.add_0_r.
  - cbn [forallb] in H. apply andb_true_iff in H as [C H]. cbn [take_digits fold_left List.length]. rewrite C.
    replace (10 * Z.of_N acc + Z.of_N (code c - 48))%Z with (Z.of_N (10 * acc + (code c - 48))) by lia. rewrite IH by exact H. f_equal. f_equal. lia.
Qed.
Lemma T_app : forall a b, T (a ++ b)%string = T a ++ T b.
Proof. induction a as [|c a IH]; intro b; cbn; [reflexivity|]. unfold T in IH. now rewrite IH. Qed.
Lemma T_length : forall s, List.length (T s) = String.length s.
Proof. induction s as [|c s IH]; cbn; [reflexivity|]. unfold T in IH. now rewrite IH. Qed.
Lemma pad02_text : forall z, (0 <= z)%Z -> forallb is_d (T (pad02 z)) = true /\ digits_val (T (pad02 z)) = Z.to_N z /\ T (pad02 z) <> [].
Proof.
  intros z H. unfold pad02. replace (z <? 0)%Z with false by (symmetry; apply Z.ltb_ge; lia). cbv zeta.
  destruct (ProofsRuns.dec_digits (Z.to_N z)) as [A B]. destruct (String.length (dec (Z.to_N z)) <? 2)%nat eqn:E.
  - rewrite T_app. cbn [app T list_ascii_of_string forallb]. split; [exact A|]. split; [exact B|discriminate].
  - split; [exact A|]. split; [exact B|]. intro K. apply (f_equal (@List.length ascii)) in K. rewrite T_length in K. apply Nat.ltb_ge in E. cbn in K. lia.
Qed.
Lemma sci_any : forall q, let '(neg, m, e) := sci q in (0 <= m < 1000000)%Z.
Proof.
  intros q. destruct (Qc_eq_dec q 0) as [->|N]; [rewrite sci_0; lia|]. pose proof (sci_range q N) as H. destruct (sci q) as [[neg m] e]. lia.
Qed.
Lemma six : forall m, (0 <= m < 1000000)%Z ->
  (10 * (10 * (10 * (10 * (10 * (10 * 0 + m / 10 ^ 5) + (m / 10 ^ 4) mod 10) + (m / 10 ^ 3) mod 10) + (m / 10 ^ 2) mod 10) + (m / 10 ^ 1) mod 10) + (m / 10 ^ 0) mod 10 = m)%Z.
Proof.
  intros m M. change (10 ^ 5)%Z with 100000%Z. change (10 ^ 4)%Z with 10000%Z. change (10 ^ 3)%Z with 1000%Z. change (10 ^ 2)%Z with 100%Z. change (10 ^ 1)%Z with 10%Z. change (10 ^ 0)%Z with 1%Z.
  Z.div_mod_to_equations. lia.
Qed.
Lemma first_digit : forall m, (0 <= m < 1000000)%Z -> (0 <= m / 10 ^ 5 <= 9)%Z.
Proof. intros m M. change (10 ^ 5)%Z with 100000%Z. Z.div_mod_to_equations. lia. Qed.
Lemma next_digit : forall x, (0 <= x mod 10 <= 9)%Z.
Proof. intros x. Z.div_mod_to_equations. lia. Qed.
Lemma not_sign : forall d r, (0 <= d <= 9)%Z -> take_sign (digit d :: r) = (false, digit d :: r).
Proof.
  intros d r D. assert (C : (d = 0 \/ d = 1 \/ d = 2 \/ d = 3 \/ d = 4 \/ d = 5 \/ d = 6 \/ d = 7 \/ d = 8 \/ d = 9)%Z) by lia.
  destruct C as [->|[->|[->|[->|[->|[->|[->|[->|[->| ->]]]]]]]]]; reflexivity.
Qed.
Lemma read_number : forall q, py_float (fmt5e q) = Ok (fl64 (decimal q)).
Proof.
  intros q. unfold fmt5e, decimal. pose proof (sci_any q) as M. destruct (sci q) as [[neg m] e].
  pose proof (first_digit m M) as D0. unfold py_float.
  set (tl := digit (m / 10 ^ 5) :: "."%char :: _).
  assert (S : take_sign ((if neg then ["-"%char] else []) ++ tl) = (neg, tl)).
  { destruct neg; [reflexivity|]. cbn [app]. unfold tl. now apply not_sign. }
  rewrite S. unfold tl. rewrite (take_digit _ _ _ _ D0), take_stop by reflexivity. cbn [Ascii.eqb Bool.eqb andb]. cbn [map app].
  rewrite !take_digit by apply next_digit. rewrite take_stop by reflexivity.
  rewrite six by exact M. cbn [Nat.add Nat.eqb]. cbn [Ascii.eqb Bool.eqb andb orb].
  assert (SE : forall r, take_sign ((if (e <? 0)%Z then "-"%char else "+"%char) :: r) = ((e <? 0)%Z, r)) by (intro r; destruct (e <? 0)%Z; reflexivity).
  rewrite SE. destruct (pad02_text (Z.abs e) ltac:(lia)) as (A & B & C).
  pose proof (take_all (T (pad02 (Z.abs e))) 0%N 0 A) as TA. cbn [Z.of_N] in TA. rewrite TA. fold (digits_val (T (pad02 (Z.abs e)))). rewrite B.
  destruct (T (pad02 (Z.abs e))) as [|c t]; [contradiction|]. cbn [List.length Nat.add]. do 2 f_equal. f_equal. f_equal.
  destruct (Z.ltb_spec e 0); cbn [Z.of_nat Pos.of_succ_nat]; lia.
Qed.

(** ** Characters *)
Definition plain (c : ascii) : bool := is_d c || Ascii.eqb c "-" || Ascii.eqb c "+" || Ascii.eqb c "." || Ascii.eqb c "e".
Lemma plain_digit : forall d, (0 <= d <= 9)%Z -> plain (digit d) = true.
Proof. intros d D. unfold plain. now rewrite (proj1 (digit_spec d D)). Qed.
Lemma forallb_app' : forall A (f : A -> bool) a b, forallb f (a ++ b) = forallb f a && forallb f b.
Proof. intros. apply forallb_app. Qed.
Lemma fmt_plain : forall q, forallb plain (fmt5e q) = true /\ fmt5e q <> [].
Proof.
  intros q. unfold fmt5e. pose proof (sci_any q) as M. destruct (sci q) as [[neg m] e]. pose proof (first_digit m M) as D0. split.
  - rewrite forallb_app'. cbn [map app forallb]. rewrite (plain_digit _ D0), !plain_digit by apply next_digit. cbn [andb].
    assert (forallb plain (T (pad02 (Z.abs e))) = true) as ->.
    { destruct (pad02_text (Z.abs e) ltac:(lia)) as (A & _). apply forallb_forall. intros c I. rewrite forallb_forall in A. unfold plain. now rewrite (A c I). }
    destruct neg, (e <? 0)%Z; reflexivity.
  - destruct neg; discriminate.
Qed.
Lemma plain_not : forall c, plain c = true -> is_blank c = false /\ Ascii.eqb c newline = false /\ Ascii.eqb c "#" = false.
Proof.
  intros c H. destruct c as [[] [] [] [] [] [] [] []]; vm_compute in H; try discriminate H; repeat split; reflexivity.
Qed.

Lemma fields_sep : forall sep (a : text) f c r, forallb (fun x => negb (sep x)) a = true -> sep c = true -> fields sep f (a ++ c :: r) = (rev f ++ a) :: fields sep [] r.
Proof.
  intros sep. induction a as [|x a IH]; intros f c r H C; cbn [app fields].
  - now rewrite C, app_nil_r.
  - cbn [forallb] in H. apply andb_true_iff in H as [X H]. apply negb_true_iff in X. rewrite X, IH by assumption. cbn [rev]. now rewrite <- app_assoc.
Qed.
Lemma fields_end : forall sep (a : text) f, forallb (fun x => negb (sep x)) a = true -> fields sep f a = [rev f ++ a].
Proof.
  intros sep. induction a as [|x a IH]; intros f H; cbn [fields].
  - now rewrite app_nil_r.
  - cbn [forallb] in H. apply andb_true_iff in H as [X H]. apply negb_true_iff in X. rewrite X, IH by assumption. cbn [rev]. now rewrite <- app_assoc.
Qed.
Definition line (r : Qc * Qc) : text := fmt5e (fst r) ++ " "%char :: fmt5e (snd r).
Lemma plain_sep : forall (sep : ascii -> bool) t, (forall c, plain c = true -> sep c = false) -> forallb plain t = true -> forallb (fun x => negb (sep x)) t = true.
Proof. intros sep t H P. apply forallb_forall. intros c I. rewrite forallb_forall in P. now rewrite (H c (P c I)). Qed.
Lemma before_plain : forall t r, forallb (fun c => negb (Ascii.eqb c "#")) t = true -> before_comment (t ++ r) = t ++ before_comment r.
Proof.
  induction t as [|c t IH]; intros r H; [reflexivity|]. cbn [forallb] in H. apply andb_true_iff in H as [X H]. apply negb_true_iff in X. cbn [app before_comment]. now rewrite X, IH.
Qed.
Lemma words_line : forall r, words (line r) = [fmt5e (fst r); fmt5e (snd r)].
Proof.
  intros [x y]. unfold words, line. cbn [fst snd]. destruct (fmt_plain x) as [PX NX], (fmt_plain y) as [PY NY].
  assert (H : before_comment (fmt5e x ++ " "%char :: fmt5e y) = fmt5e x ++ " "%char :: fmt5e y).
  { rewrite before_plain by (apply plain_sep; [intros c P; apply (plain_not c P)|exact PX]). f_equal. cbn [before_comment]. cbn [Ascii.eqb Bool.eqb andb]. f_equal.
    rewrite <- (app_nil_r (fmt5e y)) at 1. rewrite before_plain by (apply plain_sep; [intros c P; apply (plain_not c P)|exact PY]). apply app_nil_r. }
  rewrite H, fields_sep, fields_end; try reflexivity; try (apply plain_sep; [intros c P; apply (plain_not c P)|assumption]).
  cbn [rev app filter]. destruct (fmt5e x); [contradiction|]. destruct (fmt5e y); [contradiction|]. reflexivity.
Qed.
Lemma line_no_newline : forall r, forallb (fun c => negb (Ascii.eqb c newline)) (line r) = true.
Proof.
  intros [x y]. unfold line. cbn [fst snd]. destruct (fmt_plain x) as [PX _], (fmt_plain y) as [PY _]. rewrite forallb_app'. cbn [forallb].
  rewrite !(plain_sep (fun c => Ascii.eqb c newline)); [reflexivity|intros c P; apply (plain_not c P)|assumption|intros c P; apply (plain_not c P)|assumption].
Qed.
Lemma savetxt_lines : forall rows, fields (fun c => Ascii.eqb c newline) [] (savetxt rows) = map line rows ++ [[]].
Proof.
  induction rows as [|r rows IH]; [reflexivity|]. unfold savetxt. cbn [flat_map map app]. fold (savetxt rows).
  replace ((fmt5e (fst r) ++ " "%char :: fmt5e (snd r) ++ [newline]) ++ savetxt rows) with (line r ++ newline :: savetxt rows).
  2:{ unfold line. rewrite <- !app_assoc. cbn [app]. now rewrite <- app_assoc. }
  rewrite fields_sep by (try apply line_no_newline; reflexivity). cbn [rev app]. now rewrite IH.
Qed.
Definition back (q : Qc) : Qc := fl64 (decimal q).
Lemma mapM_map : forall A B C (f : A -> B) (g : B -> res C) (h : A -> C) l, (forall x, g (f x) = Ok (h x)) -> mapM g (map f l) = Ok (map h l).
Proof. intros A B C f g h l H. induction l as [|x l IH]; [reflexivity|]. cbn [map mapM]. rewrite H, IH. reflexivity. Qed.
Lemma loadtxt_savetxt : forall rows, loadtxt (savetxt rows) = Ok (map (fun r => [back (fst r); back (snd r)]) rows).
Proof.
  intros rows. unfold loadtxt. rewrite savetxt_lines, map_app, filter_app. cbn [map]. cbn [words before_comment fields rev filter nonempty].
  rewrite app_nil_r. rewrite map_map. rewrite (map_ext _ _ words_line).
  assert (F : filter (fun ws : list text => match ws with [] => false | _ => true end) (map (fun r => [fmt5e (fst r); fmt5e (snd r)]) rows) = map (fun r => [fmt5e (fst r); fmt5e (snd r)]) rows).
  { induction rows as [|r rows IH]; [reflexivity|]. cbn [map filter]. now rewrite IH. }
  rewrite F. rewrite (mapM_map _ _ _ _ _ (fun r : Qc * Qc => [back (fst r); back (snd r)])).
  2:{ intros r. cbn [mapM]. rewrite !read_number. reflexivity. }
  cbn [bind]. destruct rows as [|r rows]; [reflexivity|]. cbn [map].
  assert (E : forallb (fun s : list Qc => (List.length s =? List.length [back (fst r); back (snd r)])%nat) (map (fun r0 => [back (fst r0); back (snd r0)]) rows) = true).
  { clear. induction rows as [|x rows IH]; [reflexivity|]. cbn [map forallb]. now rewrite IH. }
  now rewrite E.
Qed.
Lemma load_savetxt : forall rows, (2 <= List.length rows)%nat -> load_columns (savetxt rows) = Ok (map (fun r => back (fst r)) rows, map (fun r => back (snd r)) rows).
Proof.
  intros rows L. unfold load_columns. rewrite loadtxt_savetxt. cbn [bind]. destruct rows as [|a [|b rows]]; [cbn in L; lia|cbn in L; lia|].
  set (l := a :: b :: rows). assert (E : mapM (fun r : list Qc => match r with x :: y :: _ => Ok (x, y) | _ => Raise IndexError end) (map (fun r => [back (fst r); back (snd r)]) l) = Ok (map (fun r => (back (fst r), back (snd r))) l)).
  { apply mapM_map. reflexivity. }
  unfold l in *. cbn [map] in *. rewrite E. cbn [rmap map fst snd]. now rewrite !map_map.
Qed.
Lemma load_savetxt_short : forall rows, (List.length rows <= 1)%nat -> load_columns (savetxt rows) = Raise IndexError.
Proof. intros rows L. unfold load_columns. rewrite loadtxt_savetxt. cbn [bind]. destruct rows as [|a [|b rows]]; [reflexivity|reflexivity|cbn in L; lia]. Qed.
