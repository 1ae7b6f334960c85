(** Lemmas about the conversion to ROOT. *)
From Coq Require Import List ZArith Bool Arith String Ascii Lia Permutation.
From Verif.Base Require Import Py PyFacts.
From Verif.Files Require Import Model Proofs2.
From Verif.Plots Require Import SpecFigures ProofsFigures.
From Verif.Dl1 Require Import ModelConvert SpecConvert.
Import ListNotations.
Local Open Scope list_scope.

Lemma texts_eqb : forall a b : list text, ((List.length a =? List.length b)%nat && forallb (fun e => text_eqb (fst e) (snd e)) (combine a b)) = true <-> a = b.
Proof.
  induction a as [|x a IH]; intros [|y b]; cbn; try (split; [discriminate|discriminate]); [tauto|].
  destruct (text_eqb x y) eqn:E; cbn [andb].
  - rewrite IH. apply text_eqb_eq in E. subst y. split; [now intros ->|congruence].
  - rewrite andb_false_r. split; [discriminate|]. intros Q. injection Q as -> ->. now rewrite text_eqb_refl in E.
Qed.
Lemma path_eqb_eq : forall a b, path_eqb a b = true <-> a = b.
Proof.
  intros [a1 a2] [b1 b2]. unfold path_eqb. cbn [fst snd]. rewrite andb_true_iff, text_eqb_eq, texts_eqb. split; [intros [-> ->]; reflexivity|]. intros E. injection E as -> ->. auto.
Qed.
Lemma put_same : forall F p (s : stored F) d, put p s d p = Some s.
Proof. intros. unfold put. now rewrite (proj2 (path_eqb_eq p p) eq_refl). Qed.
Lemma put_other : forall F p (s : stored F) d, elsewhere p d (put p s d).
Proof. intros F p s d q N. unfold put. destruct (path_eqb q p) eqn:E; [apply path_eqb_eq in E; contradiction|reflexivity]. Qed.

Lemma last_dot_split : forall t a b, ModelFigures.last_dot t = Some (a, b) -> t = a ++ b /\ exists e, b = "."%char :: e /\ dotless e.
Proof.
  induction t as [|c t IH]; intros a b E; [discriminate|]. cbn [ModelFigures.last_dot] in E. destruct (ModelFigures.last_dot t) as [[a' b']|] eqn:L.
  - injection E as <- <-. destruct (IH _ _ eq_refl) as [-> H]. auto.
  - destruct (Ascii.eqb_spec c "."%char) as [->|]; [|discriminate]. injection E as <- <-. split; [reflexivity|]. exists t. split; [reflexivity|]. clear IH.
    induction t as [|x t IH]; intros I; [destruct I|]. cbn [ModelFigures.last_dot] in L. destruct (ModelFigures.last_dot t) as [[? ?]|]; [discriminate|]. destruct I as [->|I]; [now rewrite Ascii.eqb_refl in L|]. now apply IH.
Qed.
Lemma splitext_split : forall t, exists a b, ModelFigures.splitext t = (a, b) /\ t = a ++ b /\ (b = [] \/ exists e, b = "."%char :: e /\ dotless e).
Proof.
  intros t. unfold ModelFigures.splitext. destruct (ModelFigures.last_dot t) as [[a b]|] eqn:L.
  - destruct (last_dot_split _ _ _ L) as [E H]. destruct (ModelFigures.dots a); [exists t, []; rewrite app_nil_r; auto|exists a, b; auto].
  - exists t, []. rewrite app_nil_r. auto.
Qed.

Lemma int64_spec : forall z, int64 z = true <-> fits64 z.
Proof. intros z. unfold int64, fits64. rewrite andb_true_iff, Z.leb_le, Z.ltb_lt. reflexivity. Qed.
Lemma ints_spec : forall l, forallb int64 l = true <-> Forall fits64 l.
Proof. intros l. rewrite forallb_forall, Forall_forall. split; intros H x X; now apply int64_spec, H. Qed.
Lemma mapM_id : forall A (f : A -> res A) l, (forall a, In a l -> f a = Ok a) -> mapM f l = Ok l.
Proof. intros A f l. induction l as [|a l IH]; intros H; [reflexivity|]. cbn [mapM]. rewrite H by now left. cbn [bind]. rewrite IH by (intros; apply H; now right). reflexivity. Qed.
Lemma mapM_is : forall A B (f : A -> res B) g l, (forall a, In a l -> f a = Ok (g a)) -> mapM f l = Ok (map g l).
Proof. intros A B f g l. induction l as [|a l IH]; intros H; [reflexivity|]. cbn [mapM map]. rewrite H by now left. cbn [bind]. rewrite IH by (intros; apply H; now right). reflexivity. Qed.
Lemma write_numeric : forall F (t : table F), (forall n c, In (n, c) t -> numeric c) -> write_tree t = Ok t.
Proof.
  intros F t H. apply mapM_id. intros [n c] I. specialize (H n c I). destruct c; cbn [numeric snd] in *; try contradiction; auto. now rewrite (proj2 (ints_spec _) H).
Qed.
Lemma view_ok : forall F bits (t : table F), (forall n c, In (n, c) t -> readable n c) -> view_data bits t = Ok (map (fun c => (fst c, nanoseconds (snd c))) t).
Proof.
  intros F bits t H. apply mapM_is. intros [n c] I. specialize (H n c I). cbn [fst snd]. destruct (text_eqb n (T "t_cpu")) eqn:E.
  - apply text_eqb_eq in E. destruct c; cbn [readable view_int rmap nanoseconds] in *; try contradiction; reflexivity.
  - destruct c; cbn [readable nanoseconds] in *; try reflexivity. destruct H as [_ H]. rewrite H, text_eqb_refl in E. discriminate.
Qed.
Lemma view_numeric : forall F (t : table F), (forall n c, In (n, c) t -> readable n c) -> forall n c, In (n, c) (map (fun c => (fst c, nanoseconds (snd c))) t) -> numeric c.
Proof.
  intros F t H n c I. apply in_map_iff in I as ((n' & c') & E & I). cbn [fst snd] in E. injection E as <- <-. specialize (H n' c' I). destruct c'; cbn [readable nanoseconds numeric] in *; tauto.
Qed.

(** The metadata. *)
Definition words {F} (v : mval F) : bool := match v with MStr _ | MNone => true | _ => false end.
Lemma meta_tree : forall F hold (meta : list (text * mval F)), holder hold -> (forall k v, In (k, v) meta -> scalar v) -> exists a b m, 
  strings hold (map (fun e => (fst e, stamp (snd e))) meta) = Ok (a, m) /\ numbers m = Ok b /\
  Permutation (map (fun e => (fst e, kept (snd e))) meta) (map (fun e => (fst e, Some (snd e))) (a ++ b)).
Proof.
  intros F hold meta [Hh _] S. unfold numbers. induction meta as [|[k v] r IH]; [exists [], [], []; repeat split; reflexivity|].
  destruct IH as (a & b & m & E & N & P); [intros; eapply S; right; eassumption|]. cbn [map fst snd strings]. pose proof (S k v (or_introl eq_refl)) as Sv.
  destruct (forallb (fun e => one_row (snd e)) m) eqn:O; [|discriminate].
  assert (forall w x, stamp v = w -> kept v = Some x -> one_row w = true -> branch (k, w) = Ok (k, x) -> match w with MArray l => if (1 <? List.length l)%nat then Raise ValueError else Ok tt | _ => Ok tt end = Ok tt -> words w = false -> 
     exists a0 b0 m0, bind (match w with MArray l => if (1 <? List.length l)%nat then Raise ValueError else Ok tt | _ => Ok tt end) (fun _ => bind (strings hold (map (fun e => (fst e, stamp (snd e))) r)) (fun o =>
      match w with MNone => Ok ((k, BStr (hold (T "None"))) :: fst o, snd o) | MStr t => Ok ((k, BStr (hold t)) :: fst o, snd o) | _ => Ok (fst o, (k, w) :: snd o) end)) = Ok (a0, m0) /\
      (if forallb (fun e => one_row (snd e)) m0 then mapM branch m0 else Raise ValueError) = Ok b0 /\
      Permutation ((k, kept v) :: map (fun e => (fst e, kept (snd e))) r) (map (fun e => (fst e, Some (snd e))) (a0 ++ b0))) as Num.
  { intros w x Ew Ex Ow Bw Aw Ww. exists a, ((k, x) :: b), ((k, w) :: m). rewrite Aw. cbn [bind]. rewrite E. cbn [bind fst snd]. split; [destruct w; try discriminate; reflexivity|].
    cbn [forallb snd]. rewrite Ow, O. cbn [andb mapM]. rewrite Bw. cbn [bind]. rewrite N. split; [reflexivity|]. rewrite Ex. rewrite map_app. cbn [map fst snd]. rewrite <- Permutation_middle. constructor. now rewrite <- map_app. }
  assert (forall t, kept v = Some (BStr t) -> hold t = t -> exists a0 b0 m0, Ok ((k, BStr (hold t)) :: a, m) = Ok (a0, m0) /\
      (if forallb (fun e => one_row (snd e)) m0 then mapM branch m0 else Raise ValueError) = Ok b0 /\
      Permutation ((k, kept v) :: map (fun e => (fst e, kept (snd e))) r) (map (fun e => (fst e, Some (snd e))) (a0 ++ b0))) as Str.
  { intros t K Ht. exists ((k, BStr (hold t)) :: a), b, m. split; [reflexivity|]. rewrite O. split; [exact N|]. rewrite K, Ht. cbn [app map fst snd]. now constructor. }
  destruct v; cbn [scalar stamp] in *; try contradiction.
  - eapply (Num (MInt z)); try reflexivity. unfold branch. cbn [snd fst]. now rewrite (proj2 (int64_spec z) Sv).
  - eapply (Num (MFloat f)); reflexivity.
  - eapply (Num (MBool b0)); reflexivity.
  - cbn [bind]. rewrite E. cbn [bind fst snd]. apply (Str t); [reflexivity|]. apply Hh; tauto.
  - cbn [bind]. rewrite E. cbn [bind fst snd]. apply (Str (T "None")); [reflexivity|]. apply Hh; [cbn; lia|]. cbn. intuition discriminate.
  - eapply (Num (MInt ns)); try reflexivity. unfold branch. cbn [snd fst]. now rewrite (proj2 (int64_spec ns) Sv).
Qed.
Lemma load_ok : forall F bits (f : dl1 F), convertible f -> d_monitor f = false -> load bits f = Ok (map (fun e => (fst e, stamp (snd e))) (d_meta f), map (fun c => (fst c, nanoseconds (snd c))) (d_data f), d_mapping f).
Proof.
  intros F bits f (B & _ & D & _) M. unfold load. replace (8000000000 <? d_bytes f)%Z with false by (symmetry; apply Z.ltb_ge; lia). rewrite M, (view_ok F bits _ D). reflexivity.
Qed.
(** Values that cannot be written. *)
Definition unfit {F} (v : mval F) : Prop := match v with MList l | MArray l => List.length l <> 1%nat | MOther => True | _ => False end.
Lemma strings_keep : forall F hold (meta : list (text * mval F)) k v a m, strings hold meta = Ok (a, m) -> In (k, v) meta -> words v = false -> In (k, v) m.
Proof.
  intros F hold meta. induction meta as [|[k0 v0] r IH]; intros k v a m E I W; [destruct I|]. cbn [strings] in E. cbv zeta in E.
  destruct (match v0 with MArray l => if (1 <? List.length l)%nat then Raise ValueError else Ok tt | _ => Ok tt end); [|discriminate]. cbn [bind] in E. destruct (strings hold r) as [[a' m']|] eqn:R; [|discriminate]. cbn [bind fst snd] in E.
  destruct I as [I|I].
  - injection I as -> ->. destruct v; try discriminate W; injection E as <- <-; now left.
  - specialize (IH k v a' m' eq_refl I W). destruct v0; injection E as <- <-; auto; now right.
Qed.
Lemma mapM_fails : forall A B (f : A -> res B) l a e, In a l -> f a = Raise e -> exists e', mapM f l = Raise e'.
Proof.
  intros A B f l a e I E. induction l as [|b l IH]; [destruct I|]. cbn [mapM]. destruct (f b) eqn:Eb; cbn [bind]; [|now eexists]. destruct I as [->|I]; [congruence|]. destruct (IH I) as (e' & ->). now exists e'.
Qed.
Lemma mapM_some : forall A B (f : A -> res B) l r a, mapM f l = Ok r -> In a l -> exists b, In b r /\ f a = Ok b.
Proof.
  intros A B f l. induction l as [|x l IH]; intros r a E I; [destruct I|]. cbn [mapM] in E. destruct (f x) as [y|] eqn:Y; [|discriminate]. cbn [bind] in E. destruct (mapM f l) as [ys|]; [|discriminate]. injection E as <-.
  destruct I as [->|I]; [exists y; split; [now left|exact Y]|]. destruct (IH ys a eq_refl I) as (b & J & K). exists b. split; [now right|exact K].
Qed.
Lemma mapM_in : forall A B (f : A -> res B) l r a b, mapM f l = Ok r -> In a l -> f a = Ok b -> In b r.
Proof. intros A B f l r a b E I H. destruct (mapM_some _ _ _ _ _ _ E I) as (b' & J & K). rewrite H in K. injection K as ->. exact J. Qed.
Lemma unfit_fails : forall F hold (meta : list (text * mval F)) data mapping k v, In (k, v) meta -> unfit v -> exists e, fill hold meta data mapping = Raise e.
Proof.
  intros F hold meta data mapping k v I U. unfold fill. destruct (strings hold meta) as [[a m]|e] eqn:S; cbn [bind]; [|now exists e]. cbn [snd].
  assert (In (k, v) m) as M by (eapply strings_keep; [exact S|exact I|destruct v; cbn [unfit] in U; try contradiction; reflexivity]).
  unfold numbers. destruct (forallb (fun e => one_row (snd e)) m) eqn:O; cbn [bind]; [|now exists ValueError]. rewrite forallb_forall in O. specialize (O _ M). cbn [snd one_row] in O.
  destruct v; cbn [unfit one_row] in *; try contradiction; try (apply Nat.eqb_eq in O; contradiction).
  destruct (mapM_fails _ _ branch m (k, MOther) TypeError M eq_refl) as (e & ->). now exists e.
Qed.
(** Replacing None by the string None. *)
Definition spell {F} (e : text * mval F) : text * mval F := (fst e, match snd e with MNone => MStr (T "None") | v => v end).
Lemma strings_spell : forall F hold (meta : list (text * mval F)), strings hold (map (fun e => (fst e, stamp (snd e))) (map spell meta)) = strings hold (map (fun e => (fst e, stamp (snd e))) meta).
Proof. intros F hold meta. induction meta as [|[k v] r IH]; [reflexivity|]. cbn [map fst snd spell strings]. rewrite IH. destruct v; reflexivity. Qed.
(** A long string. *)
Lemma strings_branch : forall F hold (meta : list (text * mval F)) k t a m, strings hold meta = Ok (a, m) -> In (k, MStr t) meta -> In (k, BStr (hold t)) a.
Proof.
  intros F hold meta. induction meta as [|[k0 v0] r IH]; intros k t a m E I; [destruct I|]. cbn [strings] in E.
  destruct (match v0 with MArray l => if (1 <? List.length l)%nat then Raise ValueError else Ok tt | _ => Ok tt end); [|discriminate]. cbn [bind] in E. destruct (strings hold r) as [[a' m']|] eqn:R; [|discriminate]. cbn [bind fst snd] in E.
  destruct I as [I|I].
  - injection I as -> ->. injection E as <- <-. now left.
  - specialize (IH k t a' m' eq_refl I). destruct v0; injection E as <- <-; auto; now right.
Qed.
Lemma strings_names : forall F hold (meta : list (text * mval F)) a m, strings hold meta = Ok (a, m) -> Permutation (map fst meta) (map fst a ++ map fst m).
Proof.
  intros F hold meta. induction meta as [|[k0 v0] r IH]; intros a m E; [injection E as <- <-; constructor|]. cbn [strings] in E.
  destruct (match v0 with MArray l => if (1 <? List.length l)%nat then Raise ValueError else Ok tt | _ => Ok tt end); [|discriminate]. cbn [bind] in E. destruct (strings hold r) as [[a' m']|] eqn:R; [|discriminate]. cbn [bind fst snd] in E.
  specialize (IH a' m' eq_refl). destruct v0; injection E as <- <-; cbn [map fst app]; try (now constructor); rewrite <- Permutation_middle; now constructor.
Qed.
Lemma numbers_names : forall F (m : list (text * mval F)) b, numbers m = Ok b -> map fst b = map fst m.
Proof.
  intros F m b E. unfold numbers in E. destruct (forallb (fun e => one_row (snd e)) m); [|discriminate]. revert b E. induction m as [|e m IH]; intros b E; [injection E as <-; reflexivity|]. cbn [mapM] in E.
  destruct (branch e) as [x|] eqn:B; [|discriminate]. cbn [bind] in E. destruct (mapM branch m) as [b'|]; [|discriminate]. injection E as <-. cbn [map]. rewrite (IH b' eq_refl). f_equal.
  unfold branch in B. destruct (snd e) as [z|f|bb|t| |ns|[|z [|]]|[|z [|]]|]; try discriminate; try (destruct (int64 z); [|discriminate]); injection B as <-; reflexivity.
Qed.
