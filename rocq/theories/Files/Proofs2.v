(** HV configuration files and pixel masks. *)
From Coq Require Import List ZArith NArith Bool Arith String Ascii Lia Permutation Sorted.
From Verif.Base Require Import Py PyFacts Lex Lst.
From Verif.Files Require Import Model Proofs.
Import ListNotations.
Local Open Scope list_scope.
Local Arguments Ascii.eqb : simpl never.

(** ** Matching *)
Lemma text_eqb_eq : forall a b, text_eqb a b = true <-> a = b.
Proof.
  induction a as [|x a IH]; intros [|y b]; cbn; try (split; discriminate); [tauto|].
  rewrite andb_true_iff, IH, Ascii.eqb_eq. split; [intros [-> ->]; auto|]. intro E. injection E as -> ->. auto.
Qed.
Lemma text_eqb_refl : forall a, text_eqb a a = true.
Proof. intro. now apply text_eqb_eq. Qed.
Lemma text_eqb_neq : forall a b, a <> b -> text_eqb a b = false.
Proof. intros a b H. destruct (text_eqb a b) eqn:E; auto. now apply text_eqb_eq in E. Qed.

Lemma strip_app : forall p s, strip p (p ++ s) = Some s.
Proof. induction p as [|x p IH]; intro s; cbn; auto. rewrite Ascii.eqb_refl. apply IH. Qed.
Lemma strip_inv : forall p s r, strip p s = Some r -> s = p ++ r.
Proof.
  induction p as [|x p IH]; intros [|y s] r H; cbn in H; try discriminate; try (injection H as <-; reflexivity).
  destruct (Ascii.eqb_spec x y); [|discriminate]. subst. cbn. f_equal. now apply IH.
Qed.
Lemma span_d_app : forall d r, forallb is_d d = true -> starts_text r -> span_d (d ++ r) = (d, r).
Proof.
  induction d as [|c d IH]; intros r D S; cbn.
  - destruct r as [|c r]; auto. cbn in *. now rewrite S.
  - cbn in D. apply andb_true_iff in D as [C D]. rewrite C, IH by auto. reflexivity.
Qed.
Lemma span_d_inv : forall s d r, span_d s = (d, r) -> s = d ++ r /\ forallb is_d d = true /\ starts_text r.
Proof.
  induction s as [|c s IH]; intros d r H; cbn in H.
  - injection H as <- <-. cbn. auto.
  - destruct (is_d c) eqn:C.
    + destruct (span_d s) as [d' r'] eqn:E. injection H as <- <-. destruct (IH _ _ eq_refl) as (-> & D & S). cbn. rewrite C, D. auto.
    + injection H as <- <-. cbn. auto.
Qed.
Lemma digits1_app : forall d r, digits d -> starts_text r -> digits1 (d ++ r) = Some (d, r).
Proof. intros d r [NE D] S. unfold digits1. rewrite span_d_app by auto. destruct d; congruence. Qed.
Lemma digits1_inv : forall s d r, digits1 s = Some (d, r) -> s = d ++ r /\ digits d /\ starts_text r.
Proof.
  unfold digits1. intros s d r H. destruct (span_d s) as [d' r'] eqn:E. destruct d' as [|c d']; [discriminate|]. injection H as <- <-.
  destruct (span_d_inv _ _ _ E) as (-> & D & S). repeat split; auto. discriminate.
Qed.

Definition setting (name g1 g2 g3 : text) : text := T "M:" ++ g1 ++ T "/F/S:" ++ g2 ++ (T "|" ++ name ++ T "=") ++ g3.

Lemma re_match_app : forall name g1 g2 g3 r, digits g1 -> digits g2 -> digits g3 -> starts_text r ->
  re_match name (setting name g1 g2 g3 ++ r) = Some (g1, g2, g3).
Proof.
  intros name g1 g2 g3 r D1 D2 D3 S. unfold re_match, setting. rewrite <- !app_assoc. rewrite (strip_app (T "M:")).
  rewrite digits1_app by (auto; reflexivity). rewrite (strip_app (T "/F/S:")). rewrite digits1_app by (auto; reflexivity).
  rewrite (app_assoc name (T "=")), (app_assoc (T "|") (name ++ T "=")). rewrite strip_app. rewrite digits1_app by auto. reflexivity.
Qed.
Lemma re_match_inv : forall name s g1 g2 g3, re_match name s = Some (g1, g2, g3) ->
  exists r, s = setting name g1 g2 g3 ++ r /\ digits g1 /\ digits g2 /\ digits g3 /\ starts_text r.
Proof.
  intros name s g1 g2 g3 H. unfold re_match in H.
  destruct (strip (T "M:") s) as [s1|] eqn:E1; [|discriminate]. apply strip_inv in E1.
  destruct (digits1 s1) as [[h1 s2]|] eqn:E2; [|discriminate]. apply digits1_inv in E2 as (E2 & D1 & S1).
  destruct (strip (T "/F/S:") s2) as [s3|] eqn:E3; [|discriminate]. apply strip_inv in E3.
  destruct (digits1 s3) as [[h2 s4]|] eqn:E4; [|discriminate]. apply digits1_inv in E4 as (E4 & D2 & S2).
  destruct (strip (T "|" ++ name ++ T "=") s4) as [s5|] eqn:E5; [|discriminate]. apply strip_inv in E5.
  destruct (digits1 s5) as [[h3 r]|] eqn:E6; [|discriminate]. apply digits1_inv in E6 as (E6 & D3 & S3).
  injection H as <- <- <-. exists r. subst. unfold setting. rewrite <- !app_assoc. auto.
Qed.

Lemma contains_false_tail : forall p c s, contains p (c :: s) = false -> contains p s = false /\ strip p (c :: s) = None.
Proof. intros p c s H. cbn [contains] in H. destruct (strip p (c :: s)); [discriminate|auto]. Qed.

Lemma re_search_skip : forall name p s, contains (T "M:") p = false ->
  re_search name (p ++ T "M:" ++ s) = re_search name (T "M:" ++ s).
Proof.
  induction p as [|c p IH]; intros s H; auto. apply contains_false_tail in H as [H1 H2].
  change ((c :: p) ++ T "M:" ++ s) with (c :: (p ++ T "M:" ++ s)). cbn [re_search].
  assert (strip (T "M:") (c :: (p ++ T "M:" ++ s)) = None) as E.
  { cbn in H2 |- *. destruct (Ascii.eqb "M" c); auto. destruct p as [|d p]; [reflexivity|]. cbn. destruct (Ascii.eqb ":" d); [discriminate|reflexivity]. }
  unfold re_match at 1. rewrite E. now apply IH.
Qed.
Lemma re_search_found : forall name p g1 g2 g3 r, contains (T "M:") p = false -> digits g1 -> digits g2 -> digits g3 -> starts_text r ->
  re_search name (p ++ setting name g1 g2 g3 ++ r) = Some (g1, g2, g3).
Proof.
  intros name p g1 g2 g3 r P D1 D2 D3 S.
  pose proof (re_match_app name g1 g2 g3 r D1 D2 D3 S) as M. unfold setting in *. rewrite <- !app_assoc in *.
  rewrite re_search_skip by auto. set (x := T "M:" ++ _) in *. destruct x as [|c x]; cbn [re_search]; now rewrite M.
Qed.
Lemma re_search_none : forall name s,
  (forall p g1 g2 g3 r, s = p ++ setting name g1 g2 g3 ++ r -> digits g1 -> digits g2 -> digits g3 -> starts_text r -> False) ->
  re_search name s = None.
Proof.
  induction s as [|c s IH]; intros H; cbn [re_search].
  - reflexivity.
  - destruct (re_match name (c :: s)) as [[[g1 g2] g3]|] eqn:E.
    + exfalso. apply re_match_inv in E as (r & E & D1 & D2 & D3 & S). eapply (H []); eauto.
    + apply IH. intros p g1 g2 g3 r X. apply (H (c :: p) g1 g2 g3 r). now rewrite X.
Qed.

Lemma re_search_none_inv : forall name s, re_search name s = None ->
  forall p g1 g2 g3 r, s = p ++ setting name g1 g2 g3 ++ r -> digits g1 -> digits g2 -> digits g3 -> starts_text r -> False.
Proof.
  intros name s H p g1 g2 g3 r E D1 D2 D3 S. subst s. revert H. induction p as [|c p IH]; cbn [app].
  - pose proof (re_match_app name g1 g2 g3 r D1 D2 D3 S) as M. destruct (setting name g1 g2 g3 ++ r); cbn [re_search]; rewrite M; discriminate.
  - cbn [re_search]. destruct (re_match name (c :: p ++ setting name g1 g2 g3 ++ r)); [discriminate|exact IH].
Qed.

(** ** Configuration files *)
Inductive item :=
| Set_ (on : bool) (p tm sp v q : text)   (* a setting, between any texts p and q *)
| Other (s : text).
Definition iname (on : bool) : text := if on then T "HVOn" else T "HV".
Definition render (i : item) : text := match i with Set_ on p tm sp v q => p ++ setting (iname on) tm sp v ++ q | Other s => s end.
Definition item_ok (i : item) : Prop :=
  match i with
  | Set_ on p tm sp v q => digits tm /\ digits sp /\ digits v /\ starts_text q /\ contains (T "M:") p = false /\
      (digits_val tm < 32)%N /\ (digits_val sp < 16)%N /\ (digits_val v < 32768)%N /\
      (on = false -> contains (T "HVOn") (render i) = false)
  | Other s => forall p g1 g2 g3 q, s = p ++ setting (iname (contains (T "HVOn") s)) g1 g2 g3 ++ q ->
      digits g1 -> digits g2 -> digits g3 -> starts_text q -> False
  end.
(** The value the last setting of kind [on] gives to superpixel [sp] of module [tm]; 0 without one. *)
Definition last_value (on : bool) (items : list item) (tm sp : nat) : Z :=
  fold_left (fun acc i => match i with
    | Set_ on' _ tm' sp' v _ => if (Bool.eqb on on' && (N.to_nat (digits_val tm') =? tm) && (N.to_nat (digits_val sp') =? sp))%nat then Z.of_N (digits_val v) else acc
    | Other _ => acc end) items 0%Z.

Lemma contains_app : forall p s q, contains p (s ++ p ++ q) = true.
Proof.
  induction s as [|c s IH]; intro q; cbn [app].
  - destruct (p ++ q) eqn:E.
    + destruct p; [reflexivity|discriminate].
    + cbn [contains]. rewrite <- E, strip_app. reflexivity.
  - cbn [contains]. destruct (strip p (c :: s ++ p ++ q)); auto.
Qed.
Lemma setting_on : forall p tm sp v q, contains (T "HVOn") (p ++ setting (T "HVOn") tm sp v ++ q) = true.
Proof.
  intros. unfold setting. rewrite <- !app_assoc.
  rewrite (app_assoc p), (app_assoc _ tm), (app_assoc _ (T "/F/S:")), (app_assoc _ sp), (app_assoc _ (T "|")). apply contains_app.
Qed.

Lemma set_at_length : forall A (l : list A) i f, List.length (set_at l i f) = List.length l.
Proof. induction l; intros [|i] f; cbn; auto. Qed.
Lemma set_at_nth : forall A (l : list A) i j f d, (i < List.length l)%nat -> nth j (set_at l i f) d = if (i =? j)%nat then f (nth j l d) else nth j l d.
Proof.
  induction l as [|x l IH]; intros [|i] [|j] f d H; cbn in *; try lia; auto. apply IH. lia.
Qed.
Definition shape (a : array2) : Prop := List.length a = 32%nat /\ Forall (fun r => List.length r = 16%nat) a.
Lemma set_at_Forall : forall A (P : A -> Prop) l i f, Forall P l -> (forall x, P x -> P (f x)) -> Forall P (set_at l i f).
Proof. induction l; intros [|i] f F H; cbn; auto; inversion F; subst; constructor; auto. Qed.
Lemma set2_ok : forall a tm sp v, shape a -> (tm < 32)%N -> (sp < 16)%N -> (v < 32768)%N ->
  exists a', set2 a tm sp v = Ok a' /\ shape a' /\
  forall i j, (i < 32)%nat -> (j < 16)%nat -> get2 a' i j = if ((N.to_nat tm =? i) && (N.to_nat sp =? j))%nat then Z.of_N v else get2 a i j.
Proof.
  intros a tm sp v [L F] T S V. unfold set2. rewrite (proj2 (N.ltb_lt _ _) T), (proj2 (N.ltb_lt _ _) S). cbn [andb].
  eexists. split; [reflexivity|]. split.
  - split; [now rewrite set_at_length|]. apply set_at_Forall; auto. intros. now rewrite set_at_length.
  - intros i j I J. unfold get2. rewrite set_at_nth by lia. destruct (Nat.eqb_spec (N.to_nat tm) i) as [EQ|NE]; cbn [andb]; auto.
    rewrite Forall_forall in F. rewrite set_at_nth by (rewrite F; [lia|apply nth_In; lia]).
    destruct (Nat.eqb_spec (N.to_nat sp) j) as [EQ2|NE]; auto. unfold wrap16. rewrite Z.mod_small by lia. lia.
Qed.

Lemma py_int_digits : forall d, digits d -> py_int d = Ok (digits_val d).
Proof. intros d [NE D]. now destruct (isdigit_digits d NE D). Qed.

Lemma cfg_line_ok : forall i dac hvon, item_ok i -> shape dac -> shape hvon ->
  exists dac' hvon', cfg_line (dac, hvon) (render i) = Ok (dac', hvon') /\ shape dac' /\ shape hvon' /\
  forall m s, (m < 32)%nat -> (s < 16)%nat ->
    get2 dac' m s = match i with Set_ false _ tm sp v _ => if ((N.to_nat (digits_val tm) =? m) && (N.to_nat (digits_val sp) =? s))%nat then Z.of_N (digits_val v) else get2 dac m s | _ => get2 dac m s end /\
    get2 hvon' m s = match i with Set_ true _ tm sp v _ => if ((N.to_nat (digits_val tm) =? m) && (N.to_nat (digits_val sp) =? s))%nat then Z.of_N (digits_val v) else get2 hvon m s | _ => get2 hvon m s end.
Proof.
  intros [on p tm sp v q|s] dac hvon H SD SH; unfold cfg_line.
  - destruct H as (D1 & D2 & D3 & Q & P & B1 & B2 & B3 & NO).
    assert (contains (T "HVOn") (render (Set_ on p tm sp v q)) = on) as CO.
    { destruct on; [apply setting_on|auto]. }
    rewrite CO. change (if on then T "HVOn" else T "HV") with (iname on). cbn [render]. rewrite re_search_found by auto.
    rewrite !py_int_digits by auto. cbn [bind]. destruct on.
    + destruct (set2_ok hvon _ _ _ SH B1 B2 B3) as (a & -> & SA & G). exists dac, a. cbn [rmap]. repeat split; auto; try apply SA; try apply SD; apply G; auto.
    + destruct (set2_ok dac _ _ _ SD B1 B2 B3) as (a & -> & SA & G). exists a, hvon. cbn [rmap]. repeat split; auto; try apply SA; try apply SH; apply G; auto.
  - cbn [render item_ok] in *. change (if contains (T "HVOn") s then T "HVOn" else T "HV") with (iname (contains (T "HVOn") s)). rewrite re_search_none by exact H. exists dac, hvon. repeat split; auto; try apply SD; apply SH.
Qed.

Lemma cfg_fold : forall items dac hvon, Forall item_ok items -> shape dac -> shape hvon ->
  exists dac' hvon', foldM cfg_line (map render items) (dac, hvon) = Ok (dac', hvon') /\ shape dac' /\ shape hvon' /\
  forall m s, (m < 32)%nat -> (s < 16)%nat -> forall (on : bool),
    get2 (if on then hvon' else dac') m s =
    fold_left (fun acc i => match i with
    | Set_ on' _ tm' sp' v _ => if (Bool.eqb on on' && (N.to_nat (digits_val tm') =? m) && (N.to_nat (digits_val sp') =? s))%nat then Z.of_N (digits_val v) else acc
    | Other _ => acc end) items (get2 (if on then hvon else dac) m s).
Proof.
  induction items as [|i items IH]; intros dac hvon F SD SH.
  - exists dac, hvon. repeat split; auto; try apply SD; try apply SH.
  - inversion F; subst. destruct (cfg_line_ok i dac hvon) as (d1 & h1 & E & S1 & S2 & G); auto.
    destruct (IH d1 h1) as (d2 & h2 & E2 & S3 & S4 & G2); auto. exists d2, h2. cbn [map foldM]. rewrite E. cbn [bind].
    repeat split; auto; try apply S3; try apply S4. intros m s M S on. rewrite (G2 m s M S on). cbn [fold_left]. f_equal.
    destruct (G m s M S) as [GD GH]. destruct i as [on' p tm sp v q|t].
    + destruct on, on'; cbn [Bool.eqb andb]; rewrite ?GD, ?GH; reflexivity.
    + destruct on; rewrite ?GD, ?GH; reflexivity.
Qed.
Lemma zeros_shape : shape zeros.
Proof. split; [reflexivity|]. apply Forall_forall. intros r R. apply repeat_spec in R. now subst. Qed.
Lemma get2_zeros : forall m s, get2 zeros m s = 0%Z.
Proof.
  intros. unfold get2, zeros. destruct (nth_in_or_default m (repeat (repeat 0%Z 16) 32) []) as [H| ->].
  - apply repeat_spec in H. rewrite H. destruct (nth_in_or_default s (repeat 0%Z 16) 0%Z) as [G|G]; auto. now apply repeat_spec in G.
  - now destruct s.
Qed.
Lemma c48 : forall items, Forall item_ok items -> exists dac hvon, extract_hv_cfg (map render items) = Ok (dac, hvon) /\
  forall m s, (m < 32)%nat -> (s < 16)%nat -> get2 dac m s = last_value false items m s /\ get2 hvon m s = last_value true items m s.
Proof.
  intros items F. destruct (cfg_fold items zeros zeros F zeros_shape zeros_shape) as (d & h & E & _ & _ & G).
  exists d, h. split; auto. intros m s M S. unfold last_value. rewrite (G m s M S false), (G m s M S true). cbv match. rewrite get2_zeros. auto.
Qed.

(** ** Masks *)
Lemma np_repeat_length : forall A (l : list A) k, List.length (np_repeat l k) = (k * List.length l)%nat.
Proof. unfold np_repeat. induction l as [|x l IH]; intro k; cbn [flat_map List.length]; [lia|]. rewrite app_length, repeat_length, IH. lia. Qed.
Lemma np_repeat_nth : forall A (l : list A) k i d, (0 < k)%nat -> nth i (np_repeat l k) d = nth (i / k) l d.
Proof.
  unfold np_repeat. induction l as [|x l IH]; intros k i d K; cbn [flat_map]; [destruct i, (_ / _)%nat; reflexivity|].
  destruct (Nat.lt_ge_cases i k) as [H|H].
  - rewrite app_nth1 by (rewrite repeat_length; auto). rewrite Nat.div_small by auto. cbn. rewrite nth_of_error, nth_error_repeat.
    now rewrite (proj2 (Nat.ltb_lt _ _) H).
  - rewrite app_nth2 by (rewrite repeat_length; auto). rewrite repeat_length, IH by auto.
    replace i with (i - k + 1 * k)%nat at 2 by lia. rewrite Nat.div_add by lia. now rewrite Nat.add_1_r.
Qed.
Lemma any4_repeat : forall l, any4 (np_repeat l 4) = l.
Proof. unfold np_repeat. induction l as [|x l IH]; auto. cbn [flat_map repeat app any4] in *. rewrite IH. f_equal. now destruct x. Qed.
Lemma any4_nth : forall n l s, List.length l = (4 * n)%nat -> (s < n)%nat ->
  nth s (any4 l) false = nth (4 * s) l false || nth (4 * s + 1) l false || nth (4 * s + 2) l false || nth (4 * s + 3) l false.
Proof.
  induction n as [|n IH]; intros l s L H; [lia|]. do 4 (destruct l as [|? l]; [cbn in L; lia|]). cbn [any4].
  destruct s as [|s]; auto. cbn [nth]. rewrite IH by (cbn in L; lia).
  replace (4 * S s)%nat with (S (S (S (S (4 * s))))) by lia. reflexivity.
Qed.
Lemma any4_length : forall n l, List.length l = (4 * n)%nat -> List.length (any4 l) = n.
Proof. induction n as [|n IH]; intros l L; [destruct l; [auto|cbn in L; lia]|]. do 4 (destruct l as [|? l]; [cbn in L; lia|]). cbn. rewrite IH; auto. cbn in L. lia. Qed.

Definition wf (n_sp : nat) (m : masks) : Prop :=
  List.length (dead m) = (4 * n_sp)%nat /\ List.length (low m) = (4 * n_sp)%nat /\ List.length (bad_hv m) = n_sp.

Lemma parse_show : forall b, parse_bool (show_bool b) = Ok b.
Proof. destruct b; reflexivity. Qed.
Lemma c44_round_trip : forall n_sp m m0, wf n_sp m -> exists f, to_csv m = Ok f /\ load_csv n_sp m0 f false = Ok m.
Proof.
  intros n_sp m m0 (LD & LL & LH). unfold to_csv. rewrite np_repeat_length, LD, LL, LH, !Nat.eqb_refl. cbn [andb].
  eexists. split; [reflexivity|]. unfold load_csv, column. cbn [header rows].
  change (index_of (T "dead") _) with (Some 1%nat). change (index_of (T "low") _) with (Some 2%nat). change (index_of (T "bad_hv") _) with (Some 3%nat). cbv iota beta.
  assert (forall (i : nat) (g : nat -> bool), 
    (forall k, nth_error [show_N (N.of_nat k); show_bool (nth k (dead m) false); show_bool (nth k (low m) false); show_bool (nth k (np_repeat (bad_hv m) 4) false)] i = Some (show_bool (g k))) ->
    mapM (fun r : list text => match nth_error r i with Some t => parse_bool t | None => Raise ValueError end)
      (map (fun i => [show_N (N.of_nat i); show_bool (nth i (dead m) false); show_bool (nth i (low m) false); show_bool (nth i (np_repeat (bad_hv m) 4) false)]) (seq 0 (4 * n_sp))) = Ok (map g (seq 0 (4 * n_sp)))) as C.
  { intros i g G. generalize (seq 0 (4 * n_sp)). induction l as [|k l IH]; auto. cbn [map mapM]. rewrite G, parse_show. cbn [bind]. rewrite IH. reflexivity. }
  rewrite (C 1%nat (fun k => nth k (dead m) false)) by reflexivity. rewrite (C 2%nat (fun k => nth k (low m) false)) by reflexivity.
  rewrite (C 3%nat (fun k => nth k (np_repeat (bad_hv m) 4) false)) by reflexivity. cbn [bind].
  assert (forall l, List.length l = (4 * n_sp)%nat -> map (fun k => nth k l false) (seq 0 (4 * n_sp)) = l) as X by (intros l <-; apply map_seq_nth).
  rewrite !X by (rewrite ?np_repeat_length; lia). unfold reshape_any. rewrite np_repeat_length, LH, Nat.eqb_refl. cbn [bind]. rewrite any4_repeat.
  destruct m; reflexivity.
Qed.

Definition or_lists (a b : list bool) : list bool := map (fun xy => fst xy || snd xy) (combine a b).
Lemma or_length : forall a b, List.length a = List.length b -> List.length (or_lists a b) = List.length a.
Proof. intros. unfold or_lists. rewrite map_length, combine_length. lia. Qed.
Lemma or_nth : forall a b i, List.length a = List.length b -> nth i (or_lists a b) false = nth i a false || nth i b false.
Proof.
  induction a as [|x a IH]; intros [|y b] i L; cbn in *; try discriminate.
  - now destruct i.
  - destruct i; auto. apply IH. lia.
Qed.
Definition or_masks (a b : masks) : masks := Masks (or_lists (dead a) (dead b)) (or_lists (low a) (low b)) (or_lists (bad_hv a) (bad_hv b)).

Lemma load_merge : forall n_sp m m0 f c, wf n_sp m -> wf n_sp c -> load_csv n_sp m0 f false = Ok c -> load_csv n_sp m f true = Ok (or_masks m c).
Proof.
  intros n_sp m m0 f c (A1 & A2 & A3) (B1 & B2 & B3) H. unfold load_csv in *.
  destruct (column f (T "dead")) as [d|]; cbn [bind] in *; [|discriminate]. destruct (column f (T "low")) as [l|]; cbn [bind] in *; [|discriminate].
  destruct (column f (T "bad_hv")) as [h|]; cbn [bind] in *; [|discriminate]. destruct (reshape_any n_sp h) as [h4|]; cbn [bind] in *; [|discriminate].
  injection H as <-. cbn [dead low bad_hv] in *. unfold logical_or. rewrite A1, A2, A3, B1, B2, B3, !Nat.eqb_refl. reflexivity.
Qed.
Lemma or_wf : forall n_sp a b, wf n_sp a -> wf n_sp b -> wf n_sp (or_masks a b).
Proof. intros n a b (A1 & A2 & A3) (B1 & B2 & B3). unfold or_masks. repeat split; cbn [dead low bad_hv]; rewrite or_length; congruence. Qed.

(** Merging a list of files whose contents are [cs]. *)
Definition holds (n_sp : nat) (f : csv) (c : masks) : Prop := wf n_sp c /\ forall m0, load_csv n_sp m0 f false = Ok c.
Lemma merge_all : forall n_sp fs cs, Forall2 (holds n_sp) fs cs -> forall m, wf n_sp m ->
  exists m', foldM (fun m f => load_csv n_sp m f true) fs m = Ok m' /\ wf n_sp m' /\
  forall i, nth i (dead m') false = existsb (fun c => nth i (dead c) false) (m :: cs) /\
            nth i (low m') false = existsb (fun c => nth i (low c) false) (m :: cs) /\
            nth i (bad_hv m') false = existsb (fun c => nth i (bad_hv c) false) (m :: cs).
Proof.
  intros n_sp. induction 1 as [|f c fs cs [W H] F IH]; intros m Wm.
  - exists m. repeat split; auto; try apply Wm; cbn; now rewrite orb_false_r.
  - destruct (IH (or_masks m c) (or_wf _ _ _ Wm W)) as (m' & E & W' & G). exists m'. cbn [foldM].
    rewrite (load_merge n_sp m m f c) by auto. cbn [bind]. split; [exact E|]. split; auto. intro i. destruct (G i) as (G1 & G2 & G3).
    rewrite G1, G2, G3. destruct Wm as (A1 & A2 & A3), W as (B1 & B2 & B3). cbn [existsb or_masks dead low bad_hv].
    rewrite !or_nth by congruence. rewrite !orb_assoc. auto.
Qed.
Lemma masks_ext : forall n_sp a b, wf n_sp a -> wf n_sp b ->
  (forall i, nth i (dead a) false = nth i (dead b) false /\ nth i (low a) false = nth i (low b) false /\ nth i (bad_hv a) false = nth i (bad_hv b) false) -> a = b.
Proof.
  intros n [d l h] [d' l' h'] (A1 & A2 & A3) (B1 & B2 & B3) H. cbn in *. f_equal; (eapply nth_ext; [congruence|]); intros i _; apply H.
Qed.
Lemma existsb_perm : forall A (f : A -> bool) l l', Permutation l l' -> existsb f l = existsb f l'.
Proof.
  intros A f l l' P. induction P; cbn; auto; [now rewrite IHP|rewrite !orb_assoc; f_equal; apply orb_comm|congruence].
Qed.
Lemma merge_order : forall n_sp fs cs fs' cs' m, wf n_sp m -> Forall2 (holds n_sp) fs cs -> Forall2 (holds n_sp) fs' cs' ->
  Permutation cs cs' -> foldM (fun m f => load_csv n_sp m f true) fs m = foldM (fun m f => load_csv n_sp m f true) fs' m.
Proof.
  intros n_sp fs cs fs' cs' m W F F' P. destruct (merge_all _ _ _ F m W) as (m1 & -> & W1 & G1). destruct (merge_all _ _ _ F' m W) as (m2 & -> & W2 & G2).
  f_equal. apply (masks_ext n_sp); auto. intro i. destruct (G1 i) as (-> & -> & ->), (G2 i) as (-> & -> & ->). cbn [existsb].
  rewrite (existsb_perm _ (fun c => nth i (dead c) false) _ _ P), (existsb_perm _ (fun c => nth i (low c) false) _ _ P), (existsb_perm _ (fun c => nth i (bad_hv c) false) _ _ P). auto.
Qed.
Lemma all_mask_spec : forall n_sp m, wf n_sp m -> exists a, all_mask m = Ok a /\ List.length a = (4 * n_sp)%nat /\
  forall i, nth i a false = nth i (dead m) false || nth i (low m) false || nth (i / 4) (bad_hv m) false.
Proof.
  intros n m (A1 & A2 & A3). unfold all_mask, logical_or. rewrite A1, A2, Nat.eqb_refl. cbn [bind].
  fold (or_lists (dead m) (low m)). rewrite or_length, np_repeat_length, A1, A3, Nat.eqb_refl by congruence.
  eexists. split; [reflexivity|]. split.
  - fold (or_lists (or_lists (dead m) (low m)) (np_repeat (bad_hv m) 4)). rewrite or_length; rewrite or_length, ?np_repeat_length; congruence || lia.
  - intro i. fold (or_lists (or_lists (dead m) (low m)) (np_repeat (bad_hv m) 4)).
    rewrite or_nth by (rewrite or_length, np_repeat_length; congruence || lia). rewrite or_nth by congruence. rewrite np_repeat_nth by lia. reflexivity.
Qed.

(** ** Expansion *)
Lemma combine_app_seq : forall A (a b : list A) s, combine (a ++ b) (seq s (List.length (a ++ b))) = combine a (seq s (List.length a)) ++ combine b (seq (s + List.length a) (List.length b)).
Proof.
  induction a as [|x a IH]; intros b s; cbn [app List.length seq combine].
  - now rewrite Nat.add_0_r.
  - rewrite IH. cbn [app]. do 4 f_equal. lia.
Qed.
Lemma expand_spec : forall k l, (0 < k)%nat -> expand k l = flat_map (fun s => map (fun i => s * Z.of_nat k + Z.of_nat i)%Z (seq 0 k)) l.
Proof.
  intros k l K. unfold expand, np_repeat.
  assert (forall l o, (o mod k = 0)%nat -> map (fun xi : Z * nat => fst xi * Z.of_nat k + Z.of_nat (snd xi mod k))%Z
    (combine (flat_map (fun x => repeat x k) l) (seq o (List.length (flat_map (fun x => repeat x k) l)))) =
    flat_map (fun s => map (fun i => s * Z.of_nat k + Z.of_nat i)%Z (seq 0 k)) l) as G.
  { clear l. induction l as [|s l IH]; intros o O; auto. cbn [flat_map]. rewrite combine_app_seq, map_app. f_equal.
    - rewrite repeat_length. apply list_ext. intro i. rewrite !nth_error_map, nth_error_combine, nth_error_repeat, !nth_error_seq.
      destruct (Nat.ltb_spec i k); auto. cbn. do 2 f_equal. f_equal. rewrite Nat.add_mod, O by lia. cbn. rewrite Nat.mod_mod by lia. now apply Nat.mod_small.
    - rewrite repeat_length. apply IH. rewrite Nat.add_mod, O, Nat.mod_same by lia. cbn. apply Nat.mod_0_l. lia. }
  apply G. apply Nat.mod_0_l. lia.
Qed.
(** Pixels obtained from the set superpixels = pixels set in the repeated mask. *)
Lemma expand_mask : forall k mask i, (0 < k)%nat -> (i < k * List.length mask)%nat ->
  (In (Z.of_nat i) (expand k (map Z.of_nat (filter (fun s => nth s mask false) (seq 0 (List.length mask))))) <-> nth i (np_repeat mask k) false = true).
Proof.
  intros k mask i K I. rewrite expand_spec, np_repeat_nth by auto. rewrite in_flat_map. split.
  - intros (s & S & M). apply in_map_iff in S as (n & <- & S). apply filter_In in S as [_ S]. apply in_map_iff in M as (j & M & J). apply in_seq in J.
    assert (i = n * k + j)%nat as -> by nia. rewrite Nat.div_add_l, Nat.div_small by lia. now rewrite Nat.add_0_r.
  - intros H. exists (Z.of_nat (i / k)). split.
    + apply in_map. apply filter_In. split; auto. apply in_seq. split; [lia|]. apply Nat.div_lt_upper_bound; lia.
    + apply in_map_iff. exists (i mod k)%nat. split; [|apply in_seq; split; [lia|apply Nat.mod_upper_bound; lia]].
      pose proof (Nat.div_mod i k ltac:(lia)). nia.
Qed.

(** ** Files whose rows are given (not only saved ones) *)
(** The first column of that name is the k-th one. *)
Definition column_at (f : csv) (name : text) (k : nat) : Prop := nth_error (header f) k = Some name /\ ~ In name (firstn k (header f)).
(** What row [i] has in the k-th column. *)
Definition cell (f : csv) (i k : nat) : option text := match nth_error (rows f) i with Some r => nth_error r k | None => None end.
Definition boolean_column (f : csv) (k : nat) : Prop :=
  forall i, (i < List.length (rows f))%nat -> cell f i k = Some (T "True") \/ cell f i k = Some (T "False").

Lemma index_of_at : forall h name k, nth_error h k = Some name -> ~ In name (firstn k h) -> index_of name h = Some k.
Proof.
  induction h as [|x h IH]; intros name k E N; destruct k; cbn in *; try discriminate.
  - injection E as ->. now rewrite (proj2 (text_eqb_eq name name) eq_refl).
  - destruct (text_eqb x name) eqn:X; [apply text_eqb_eq in X; subst; exfalso; apply N; now left|]. rewrite (IH name k); auto.
Qed.
Lemma column_ok : forall f name k, column_at f name k -> boolean_column f k ->
  exists l, column f name = Ok l /\ List.length l = List.length (rows f) /\ forall i, nth i l false = true <-> cell f i k = Some (T "True").
Proof.
  intros f name k [A1 A2] B. unfold column. rewrite (index_of_at _ _ _ A1 A2). unfold boolean_column, cell in *. revert B. generalize (rows f).
  induction l as [|r l IH]; intros B; cbn [mapM].
  - exists []. split; [reflexivity|]. split; [reflexivity|]. intro i. destruct i; cbn; split; discriminate.
  - destruct IH as (l' & E & L & G). { intros i I. apply (B (S i)). cbn. lia. } pose proof (B 0%nat ltac:(cbn; lia)) as B0. cbn [nth_error] in B0. rewrite E.
    destruct B0 as [B0|B0]; rewrite B0; [change (parse_bool (T "True")) with (Ok true)|change (parse_bool (T "False")) with (Ok false)]; cbn [bind];
      eexists; (split; [reflexivity|]); (split; [cbn [List.length]; now rewrite L|]); intros [|i]; cbn [nth nth_error]; rewrite ?B0; auto; split; auto; discriminate.
Qed.
Lemma file_rows : forall n_sp f kd kl kh, List.length (rows f) = (4 * n_sp)%nat ->
  column_at f (T "dead") kd -> column_at f (T "low") kl -> column_at f (T "bad_hv") kh ->
  boolean_column f kd -> boolean_column f kl -> boolean_column f kh ->
  exists m, holds n_sp f m /\
  (forall i, nth i (dead m) false = true <-> cell f i kd = Some (T "True")) /\
  (forall i, nth i (low m) false = true <-> cell f i kl = Some (T "True")) /\
  (forall s, (s < n_sp)%nat -> (nth s (bad_hv m) false = true <-> exists j, (j < 4)%nat /\ cell f (4 * s + j) kh = Some (T "True"))).
Proof.
  intros n_sp f kd kl kh L Cd Cl Ch Bd Bl Bh. destruct (column_ok _ _ _ Cd Bd) as (d & Ed & Ld & Gd). destruct (column_ok _ _ _ Cl Bl) as (l & El & Ll & Gl).
  destruct (column_ok _ _ _ Ch Bh) as (h & Eh & Lh & Gh). exists (Masks d l (any4 h)). split; [|split; [exact Gd|split; [exact Gl|]]].
  - split.
    + repeat split; cbn [dead low bad_hv]; try congruence. apply any4_length. congruence.
    + intro m0. unfold load_csv. rewrite Ed, El, Eh. cbn [bind]. unfold reshape_any. rewrite Lh, L, Nat.eqb_refl. reflexivity.
  - intros s S. cbn [bad_hv]. rewrite (any4_nth n_sp) by (congruence || lia). rewrite !orb_true_iff, !Gh. split.
    + intros [[[H|H]|H]|H]; [exists 0%nat|exists 1%nat|exists 2%nat|exists 3%nat]; (split; [lia|]); auto. now rewrite Nat.add_0_r.
    + intros (j & J & H). do 4 (destruct j as [|j]; [rewrite ?Nat.add_0_r in H; tauto|]). lia.
Qed.
