(** Natural sorting. *)
From Coq Require Import List ZArith NArith Bool Arith String Ascii Lia Permutation Sorted.
From Verif.Base Require Import Py PyFacts Lex Lst.
From Verif.Files Require Import Model.
Import ListNotations.
Local Open Scope list_scope.

(** ** Orders *)
Lemma N_total : total_cmp N.compare.
Proof.
  split.
  - apply N.compare_eq_iff.
  - intros. apply N.compare_antisym.
  - intros a b c. rewrite !N.compare_lt_iff. apply N.lt_trans.
Qed.
Lemma char_total : total_cmp char_cmp.
Proof.
  unfold char_cmp, code. split.
  - intros a b. rewrite N.compare_eq_iff. split; [|congruence]. intro H. rewrite <- (ascii_N_embedding a), <- (ascii_N_embedding b). congruence.
  - intros. apply N.compare_antisym.
  - intros a b c. rewrite !N.compare_lt_iff. apply N.lt_trans.
Qed.
Definition kcmp (a b : kelem) : comparison :=
  match a, b with
  | KT x, KT y => lexc char_cmp x y
  | KN x, KN y => N.compare x y
  | KT _, KN _ => Lt
  | KN _, KT _ => Gt
  end.
Lemma kcmp_total : total_cmp kcmp.
Proof.
  pose proof (lexc_total _ _ char_total) as H. split.
  - intros [x|x] [y|y]; cbn; try (split; discriminate).
    + rewrite (tc_eq _ H). split; congruence.
    + rewrite N.compare_eq_iff. split; congruence.
  - intros [x|x] [y|y]; cbn; auto; [apply (tc_anti _ H)|apply N.compare_antisym].
  - intros [x|x] [y|y] [z|z]; cbn; try discriminate; auto; [apply (tc_trans _ H)|rewrite !N.compare_lt_iff; apply N.lt_trans].
Qed.
Definition lkcmp := lexc kcmp.
Lemma lk_total : total_cmp lkcmp.
Proof. apply lexc_total, kcmp_total. Qed.

(** ** Shape of the pieces *)
(** [pieces b l]: the pieces alternate between text ([b = true] first) and digits, and end with text. *)
Fixpoint pieces (b : bool) (l : list text) : Prop :=
  match l with
  | [] => b = false
  | t :: l' => (if b then forallb (fun c => negb (is_d c)) t = true else t <> [] /\ forallb is_d t = true) /\ pieces (negb b) l'
  end.
Lemma re_split_nonempty : forall s, re_split s <> [].
Proof.
  induction s as [|c s IH]; cbn; [discriminate|]. destruct (re_split s) as [|t r]; [congruence|].
  destruct (is_d c); [|discriminate]. destruct t; [destruct r|]; discriminate.
Qed.
Lemma re_split_pieces : forall s, pieces true (re_split s).
Proof.
  induction s as [|c s IH]; cbn [re_split]; [cbn; auto|].
  destruct (re_split s) as [|t r] eqn:E; [now apply re_split_nonempty in E|].
  destruct (is_d c) eqn:D.
  - destruct t as [|x t].
    + destruct r as [|d r].
      * cbn. rewrite D. repeat split; auto. discriminate.
      * cbn [pieces negb] in *. destruct IH as (_ & (N & FD) & P). cbn [forallb]. rewrite D, FD. repeat split; auto. discriminate.
    + cbn [pieces negb] in *. destruct IH as (P1 & P2). cbn [forallb]. rewrite D. repeat split; auto. discriminate.
  - cbn [pieces negb] in *. destruct IH as (P1 & P2). cbn [forallb]. rewrite D, P1. auto.
Qed.
(** Joining the pieces gives the text back. *)
Lemma re_split_concat : forall s, List.concat (re_split s) = s.
Proof.
  induction s as [|c s IH]; auto. cbn [re_split].
  destruct (re_split s) as [|t r] eqn:E; [now apply re_split_nonempty in E|]. rewrite <- IH. cbn [List.concat].
  destruct (is_d c); auto. destruct t as [|x t]; [destruct r as [|d r]|]; auto.
Qed.

(** ** Keys *)
Fixpoint alt (b : bool) (k : list kelem) : Prop :=
  match k with
  | [] => True
  | KT _ :: k' => b = true /\ alt false k'
  | KN _ :: k' => b = false /\ alt true k'
  end.
(** The superscript digits two, three and one. *)
Definition superscript (c : ascii) : bool := ((code c =? 178) || (code c =? 179) || (code c =? 185))%N.
Lemma superscript_eq : forall c, superscript c = isdigit1 c && negb (is_d c).
Proof.
  intro c. unfold superscript, isdigit1, is_d. destruct (N.eqb_spec (code c) 178) as [->|]; [reflexivity|]. destruct (N.eqb_spec (code c) 179) as [->|]; [reflexivity|].
  destruct (N.eqb_spec (code c) 185) as [->|]; [reflexivity|]. rewrite !orb_false_r. now destruct (48 <=? code c)%N, (code c <=? 57)%N.
Qed.
(** The only texts on which int() fails. *)
Definition bad_piece (t : text) : bool := match t with [] => false | _ => forallb superscript t end.

Lemma isdigit_text : forall t, forallb (fun c => negb (is_d c)) t = true -> isdigit t = bad_piece t.
Proof.
  intros t H. destruct t as [|c t]; auto. unfold isdigit, bad_piece. revert H. generalize (c :: t). clear. intro l.
  induction l as [|c l IH]; cbn [forallb]; auto. intros H. apply andb_true_iff in H as [H1 H2]. rewrite IH by auto.
  rewrite superscript_eq, H1, andb_true_r. reflexivity.
Qed.
Lemma bad_not_int : forall t, bad_piece t = true -> py_int t = Raise ValueError.
Proof.
  intros [|c t] H; [discriminate|]. cbn [bad_piece forallb] in H. apply andb_true_iff in H as [H _]. rewrite superscript_eq in H.
  apply andb_true_iff in H as [_ H]. apply negb_true_iff in H. unfold py_int. cbn [forallb]. now rewrite H.
Qed.
Lemma isdigit_digits : forall t, t <> [] -> forallb is_d t = true -> isdigit t = true /\ py_int t = Ok (digits_val t).
Proof.
  intros [|c t] N H; [congruence|]. split.
  - unfold isdigit. rewrite forallb_forall in *. intros x X. specialize (H x X). unfold isdigit1. now rewrite H.
  - unfold py_int. rewrite H. reflexivity.
Qed.
Definition key_of (t : text) : kelem := if isdigit t then KN (digits_val t) else KT t.
Lemma pieces_keys : forall l b, pieces b l ->
  (existsb bad_piece l = false -> mapM atoi l = Ok (map key_of l) /\ alt b (map key_of l)) /\
  (existsb bad_piece l = true -> mapM atoi l = Raise ValueError).
Proof.
  induction l as [|t l IH]; intros b P; cbn [pieces] in P.
  - split; [|discriminate]. intros _. cbn. auto.
  - destruct P as [P1 P2]. destruct (IH _ P2) as [IH1 IH2]. cbn [existsb mapM map]. unfold atoi, key_of. fold key_of. destruct b.
    + rewrite isdigit_text by auto. destruct (bad_piece t) eqn:B; cbn [orb].
      * split; [discriminate|]. intros _. now rewrite bad_not_int.
      * split; intro H.
        -- destruct (IH1 H) as [E A]. fold atoi. cbn [bind rmap]. rewrite E. cbn. auto.
        -- fold atoi. cbn [bind rmap]. rewrite (IH2 H). reflexivity.
    + destruct P1 as [NE FD]. destruct (isdigit_digits t NE FD) as [-> ->].
      assert (bad_piece t = false) as ->.
      { destruct t as [|c t]; auto. cbn in *. apply andb_true_iff in FD as [FD _]. rewrite superscript_eq. now rewrite FD, andb_false_r. }
      cbn [orb]. split; intro H.
      * destruct (IH1 H) as [E A]. fold atoi. cbn [bind rmap]. rewrite E. cbn. auto.
      * fold atoi. cbn [bind rmap]. rewrite (IH2 H). reflexivity.
Qed.

(** A name whose key can be computed. *)
Definition bad_name (s : text) : bool := existsb bad_piece (re_split s).
Definition nkey (s : text) : list kelem := map key_of (re_split s).
Lemma natural_keys_ok : forall s, bad_name s = false -> natural_keys s = Ok (nkey s) /\ alt true (nkey s).
Proof. intros s H. destruct (pieces_keys _ _ (re_split_pieces s)) as [A _]. now apply A. Qed.
Lemma natural_keys_bad : forall s, bad_name s = true -> natural_keys s = Raise ValueError.
Proof. intros s H. destruct (pieces_keys _ _ (re_split_pieces s)) as [_ A]. now apply A. Qed.

(** Without a superscript digit the key exists. *)
Lemma plain_not_bad : forall s, forallb (fun c => negb (superscript c)) s = true -> bad_name s = false.
Proof.
  intros s H. unfold bad_name. destruct (existsb bad_piece (re_split s)) eqn:E; auto. exfalso.
  apply existsb_exists in E as (t & I & B). destruct t as [|c t]; [discriminate|]. cbn in B. apply andb_true_iff in B as [B _].
  rewrite <- (re_split_concat s) in H. rewrite forallb_forall in H. specialize (H c).
  rewrite B in H. discriminate H. apply in_concat. exists (c :: t). split; auto. now left.
Qed.

(** ** Comparisons never fail on keys *)
Definition lt_of (c : comparison) : bool := match c with Lt => true | _ => false end.
Lemma key_lt_alt : forall a b p, alt p a -> alt p b -> key_lt a b = Ok (lt_of (lkcmp a b)).
Proof.
  unfold lkcmp. induction a as [|x a IH]; intros [|y b] p A B; auto.
  destruct x as [x|x], y as [y|y]; cbn [alt] in A, B; destruct A as [A1 A2], B as [B1 B2]; subst; try discriminate; cbn [key_lt kelem_eqb kelem_lt lexc kcmp].
  - destruct (lexc char_cmp x y) eqn:E; auto. eapply IH; eauto.
  - destruct (N.compare_spec x y) as [->|H|H].
    + rewrite N.eqb_refl. eapply IH; eauto.
    + rewrite (proj2 (N.eqb_neq x y)) by lia. rewrite (proj2 (N.ltb_lt x y)) by lia. reflexivity.
    + rewrite (proj2 (N.eqb_neq x y)) by lia. rewrite (proj2 (N.ltb_ge x y)) by lia. reflexivity.
Qed.

(** ** The sort *)
Section Sort.
Variables (A : Type) (K : Type) (key : A -> K) (cmp : K -> K -> comparison).
Hypothesis tot : total_cmp cmp.
Fixpoint ins (x : A) (l : list A) : list A :=
  match l with [] => [x] | y :: t => if lt_of (cmp (key x) (key y)) then x :: y :: t else y :: ins x t end.
Definition srt (l : list A) : list A := fold_left (fun acc x => ins x acc) l [].
Definition le (a b : A) : Prop := cmp (key a) (key b) <> Gt.
Definition same (k : K) (a : A) : bool := match cmp (key a) k with Eq => true | _ => false end.

Lemma ins_perm : forall x l, Permutation (ins x l) (x :: l).
Proof.
  induction l as [|y l IH]; cbn; auto. destruct (lt_of _); auto. rewrite IH. apply perm_swap.
Qed.
Lemma le_trans : forall a b c, le a b -> le b c -> le a c.
Proof.
  unfold le. intros a b c H1 H2. destruct (cmp (key a) (key b)) eqn:E1; try congruence.
  - apply (tc_eq _ tot) in E1. congruence.
  - destruct (cmp (key b) (key c)) eqn:E2; try congruence.
    + apply (tc_eq _ tot) in E2. rewrite <- E2, E1. discriminate.
    + rewrite (tc_trans _ tot _ _ _ E1 E2). discriminate.
Qed.
Lemma ins_sorted : forall x l, StronglySorted le l -> StronglySorted le (ins x l).
Proof.
  induction l as [|y l IH]; intros S; cbn; [repeat constructor|].
  apply StronglySorted_inv in S as [S F]. destruct (cmp (key x) (key y)) eqn:E; cbn [lt_of].
  - constructor; auto. eapply Permutation_Forall; [symmetry; apply ins_perm|]. constructor; auto.
    unfold le. rewrite (tc_anti _ tot (key x) (key y)), E. discriminate.
  - constructor; [now constructor|]. constructor; [unfold le; congruence|].
    eapply Forall_impl; [|exact F]. intros z Z. apply le_trans with y; auto. unfold le. congruence.
  - constructor; auto. eapply Permutation_Forall; [symmetry; apply ins_perm|]. constructor; auto.
    unfold le. rewrite (tc_anti _ tot (key x) (key y)), E. discriminate.
Qed.
Lemma filter_none : forall (f : A -> bool) l, Forall (fun x => f x = false) l -> filter f l = [].
Proof. induction 1; cbn; auto. now rewrite H. Qed.
Lemma ins_stable : forall k x l, StronglySorted le l -> filter (same k) (ins x l) = filter (same k) l ++ filter (same k) [x].
Proof.
  intros k x. induction l as [|y l IH]; intros S; cbn [ins]; auto.
  pose proof S as S0. apply StronglySorted_inv in S as [S F].
  destruct (cmp (key x) (key y)) eqn:E; cbn [lt_of].
  - cbn [filter]. rewrite IH by auto. cbn [filter]. now destruct (same k y).
  - change (x :: y :: l) with ([x] ++ (y :: l)). rewrite filter_app.
    destruct (same k x) eqn:X.
    + rewrite (filter_none (same k) (y :: l)); [now rewrite app_nil_r|].
      unfold same in X. destruct (cmp (key x) k) eqn:XK; try discriminate. apply (tc_eq _ tot) in XK. subst k.
      assert (forall z, le y z -> same (key x) z = false) as G.
      { intros z Z. unfold same. destruct (cmp (key z) (key x)) eqn:ZX; auto. apply (tc_eq _ tot) in ZX. unfold le in Z. rewrite ZX in Z.
        rewrite (tc_anti _ tot (key x) (key y)), E in Z. now cbn in Z. }
      constructor; [apply G; unfold le; rewrite tc_refl by auto; discriminate|]. eapply Forall_impl; [|exact F]. auto.
    + cbn [filter]. rewrite X. now rewrite app_nil_r.
  - cbn [filter]. rewrite IH by auto. cbn [filter]. now destruct (same k y).
Qed.

Lemma srt_gen : forall l acc, StronglySorted le acc ->
  let r := fold_left (fun acc x => ins x acc) l acc in
  Permutation r (acc ++ l) /\ StronglySorted le r /\ forall k, filter (same k) r = filter (same k) acc ++ filter (same k) l.
Proof.
  induction l as [|x l IH]; intros acc S; cbn [fold_left].
  - rewrite app_nil_r. repeat split; auto. intros. cbn. now rewrite app_nil_r.
  - destruct (IH (ins x acc) (ins_sorted _ _ S)) as (P & S' & F). repeat split; auto.
    + rewrite P, ins_perm. cbn. apply Permutation_middle.
    + intro k. rewrite F, ins_stable, <- app_assoc by auto. f_equal. now rewrite <- filter_app.
Qed.
Lemma srt_spec : forall l, Permutation (srt l) l /\ StronglySorted le (srt l) /\ forall k, filter (same k) (srt l) = filter (same k) l.
Proof. intro l. exact (srt_gen l [] (SSorted_nil _)). Qed.

(** The last element is a greatest one. *)
Lemma sorted_last_max : forall l d x, StronglySorted le l -> In x l -> le x (last l d).
Proof.
  induction l as [|y l IH]; intros d x S I; [destruct I|]. apply StronglySorted_inv in S as [S F].
  destruct l as [|z l].
  - destruct I as [->|[]]. cbn. unfold le. rewrite tc_refl by auto. discriminate.
  - change (last (y :: z :: l) d) with (last (z :: l) d). destruct I as [->|I]; [|now apply IH].
    rewrite Forall_forall in F. apply F. destruct (@exists_last _ (z :: l) ltac:(discriminate)) as (l' & w & E). rewrite E, last_last. apply in_app_iff. right. now left.
Qed.
End Sort.
Arguments ins {A K}. Arguments srt {A K}. Arguments le {A K}. Arguments same {A K}.

(** [py_sort] on comparisons that succeed. *)
Lemma insert_ins : forall A K (key : A -> K) cmp lt (P : A -> Prop),
  (forall a b, P a -> P b -> lt a b = Ok (lt_of (cmp (key a) (key b)))) ->
  forall x l, P x -> Forall P l -> insert lt x l = Ok (ins key cmp x l).
Proof.
  intros A K key cmp lt P H x l Px. induction l as [|y l IH]; intros F; cbn; auto. inversion F; subst.
  rewrite H by auto. cbn [bind]. destruct (lt_of _); auto. rewrite IH by auto. reflexivity.
Qed.
Lemma py_sort_srt : forall A K (key : A -> K) cmp lt (P : A -> Prop),
  (forall a b, P a -> P b -> lt a b = Ok (lt_of (cmp (key a) (key b)))) ->
  forall l, Forall P l -> py_sort lt l = Ok (srt key cmp l).
Proof.
  intros A K key cmp lt P H l F. unfold py_sort, srt.
  assert (forall acc, Forall P acc -> foldM (fun acc x => insert lt x acc) l acc = Ok (fold_left (fun acc x => ins key cmp x acc) l acc)) as G.
  { induction F as [|x l Px F IH]; intros acc Fa; cbn; auto.
    rewrite (insert_ins A K key cmp lt P) by auto. cbn [bind]. apply IH.
    eapply Permutation_Forall; [symmetry; apply ins_perm|]. now constructor. }
  apply G. constructor.
Qed.

Lemma mapM_raise_or_ok : forall l,
  (existsb bad_name l = false -> mapM (fun s => rmap (fun k => (k, s)) (natural_keys s)) l = Ok (map (fun s => (nkey s, s)) l)) /\
  (existsb bad_name l = true -> mapM (fun s => rmap (fun k => (k, s)) (natural_keys s)) l = Raise ValueError).
Proof.
  induction l as [|s l [IH1 IH2]]; cbn [existsb mapM map]; [split; [auto|discriminate]|].
  destruct (bad_name s) eqn:B; cbn [orb].
  - split; [discriminate|]. intros _. now rewrite natural_keys_bad.
  - destruct (natural_keys_ok s B) as [-> _]. cbn [rmap bind]. split; intro H; [rewrite (IH1 H)|rewrite (IH2 H)]; reflexivity.
Qed.

Lemma ins_map : forall (g : text -> list kelem * text) x l, (forall s, g s = (nkey s, s)) ->
  ins fst lkcmp (g x) (map g l) = map g (ins nkey lkcmp x l).
Proof.
  intros g x l G. induction l as [|y l IH]; cbn; auto. rewrite !G. cbn [fst]. destruct (lt_of _); cbn; rewrite ?G; auto.
  rewrite <- IH, ?G. reflexivity.
Qed.
Lemma srt_map : forall l, map snd (srt fst lkcmp (map (fun s => (nkey s, s)) l)) = srt nkey lkcmp l.
Proof.
  intro l. unfold srt.
  assert (forall l acc, fold_left (fun acc x => ins fst lkcmp x acc) (map (fun s => (nkey s, s)) l) (map (fun s => (nkey s, s)) acc) =
    map (fun s => (nkey s, s)) (fold_left (fun acc x => ins nkey lkcmp x acc) l acc)) as G.
  { induction l0 as [|x l0 IH]; intros acc; cbn; auto. rewrite <- IH. f_equal. apply (ins_map (fun s => (nkey s, s))). auto. }
  pose proof (G l []) as GL. cbn [map] in GL. rewrite GL, map_map. cbn. apply map_id.
Qed.

Lemma sort_ok : forall l, existsb bad_name l = false -> sort_file_list l = Ok (srt nkey lkcmp l).
Proof.
  intros l H. unfold sort_file_list. destruct (mapM_raise_or_ok l) as [E _]. rewrite E by auto. cbn [bind].
  rewrite (py_sort_srt _ _ fst lkcmp _ (fun p => alt true (fst p))).
  - cbn [bind]. now rewrite srt_map.
  - intros [a s] [b t] A B. cbn [fst] in *. exact (key_lt_alt _ _ _ A B).
  - rewrite Forall_map, Forall_forall. intros s I. cbn. apply natural_keys_ok.
    destruct (bad_name s) eqn:B; auto. assert (existsb bad_name l = true) by (apply existsb_exists; eauto). congruence.
Qed.
Lemma sort_bad : forall l, existsb bad_name l = true -> sort_file_list l = Raise ValueError.
Proof. intros l H. unfold sort_file_list. destruct (mapM_raise_or_ok l) as [_ E]. now rewrite E. Qed.

(** ** Numbers compare by value *)
Definition ends_text (p : text) : Prop := p = [] \/ exists p' c, p = p' ++ [c] /\ is_d c = false.
Definition starts_text (s : text) : Prop := match s with [] => True | c :: _ => is_d c = false end.
Definition digits (a : text) : Prop := a <> [] /\ forallb is_d a = true.

Lemma re_split_start : forall s, starts_text s -> exists t r, re_split s = t :: r /\ (t = [] -> r = []).
Proof.
  intros [|c s] H; cbn [starts_text] in H.
  - exists [], []. auto.
  - cbn. destruct (re_split s) as [|t r] eqn:E; [now apply re_split_nonempty in E|]. rewrite H. exists (c :: t), r. split; auto. discriminate.
Qed.
Lemma re_split_digits : forall a s, digits a -> starts_text s -> re_split (a ++ s) = [] :: a :: re_split s.
Proof.
  intros a s [NE FD] S. induction a as [|c a IH]; [congruence|]. cbn [forallb] in FD. apply andb_true_iff in FD as [C FD].
  destruct a as [|c' a].
  - cbn [app re_split]. destruct (re_split_start s S) as (t & r & E & TR). rewrite E, C. destruct t; [|reflexivity]. now rewrite TR.
  - change ((c :: c' :: a) ++ s) with (c :: ((c' :: a) ++ s)). cbn [re_split]. rewrite IH by (auto; discriminate). rewrite C. reflexivity.
Qed.
Lemma re_split_mid : forall p a s, ends_text p -> digits a -> starts_text s -> re_split (p ++ a ++ s) = re_split p ++ a :: re_split s.
Proof.
  intros p a s EP DA SS. induction p as [|c p IH].
  - cbn [app re_split]. now apply re_split_digits.
  - assert (p <> [] -> ends_text p) as EP'.
    { intro NE. destruct EP as [EP|(p' & c' & E & D)]; [discriminate|]. destruct p' as [|x p']; injection E as -> ->; [congruence|].
      right. exists p', c'. auto. }
    destruct p as [|c2 p].
    + destruct EP as [EP|(p' & c' & E & D)]; [discriminate|]. destruct p' as [|x [|? ?]]; try discriminate. injection E as ->.
      cbn [app re_split]. rewrite re_split_digits by auto. rewrite D. reflexivity.
    + change ((c :: c2 :: p) ++ a ++ s) with (c :: ((c2 :: p) ++ a ++ s)).
      cbn [re_split] in IH |- *. specialize (IH (EP' ltac:(discriminate))).
      change (c2 :: (p ++ a ++ s)) with (c2 :: (p ++ a ++ s)) in *.
      change (re_split ((c2 :: p) ++ a ++ s)) with (re_split (c2 :: (p ++ a ++ s))). cbn [re_split app] in *. rewrite IH.
      set (q := match re_split p with [] => [] | _ :: _ => _ end) in *.
      destruct q as [|t r] eqn:Q; [exfalso; apply (re_split_nonempty (c2 :: p)); cbn [re_split]; exact Q|].
      cbn [app]. destruct (is_d c); auto. destruct t as [|x t]; auto. destruct r as [|d r]; auto.
      exfalso. assert (List.concat (re_split (c2 :: p)) = c2 :: p) as X by apply re_split_concat.
      cbn [re_split] in X. fold q in X. rewrite Q in X. discriminate.
Qed.

Lemma key_digits : forall a, digits a -> key_of a = KN (digits_val a).
Proof. intros a [NE FD]. unfold key_of. now rewrite (proj1 (isdigit_digits a NE FD)). Qed.
Lemma nkey_mid : forall p a s, ends_text p -> digits a -> starts_text s -> nkey (p ++ a ++ s) = nkey p ++ KN (digits_val a) :: nkey s.
Proof. intros. unfold nkey. rewrite re_split_mid by auto. rewrite map_app. cbn. now rewrite key_digits. Qed.
Lemma nkey_number_order : forall p a b s1 s2, ends_text p -> digits a -> digits b -> starts_text s1 -> starts_text s2 ->
  lkcmp (nkey (p ++ a ++ s1)) (nkey (p ++ b ++ s2)) =
  match (digits_val a ?= digits_val b)%N with Eq => lkcmp (nkey s1) (nkey s2) | c => c end.
Proof.
  intros. rewrite !nkey_mid by auto. unfold lkcmp. rewrite lexc_app by apply kcmp_total. reflexivity.
Qed.
