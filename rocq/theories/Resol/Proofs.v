(** Grouping and the sessions of add and finish calls. *)
From Coq Require Import List ZArith QArith Qcanon Bool Lia Permutation Sorted.
From Verif.Base Require Import Py PyFacts Num Lst.
From Verif.WfUtils Require Proofs.
From Verif.Resol Require Import Model.
Import ListNotations.
Local Open Scope list_scope.

(** ** Keys *)
Definition key_lt (a b : key) : Prop := (fst a < fst b)%Z \/ (fst a = fst b /\ (snd a < snd b)%Qc).
Lemma key_ltb_spec : forall a b, reflect (key_lt a b) (key_ltb a b).
Proof.
  intros [p x] [q y]. unfold key_ltb, key_lt. cbn [fst snd]. destruct (Z.ltb_spec0 p q); cbn [orb]; [constructor; auto|].
  destruct (Z.eqb_spec p q); cbn [andb]; [|constructor; lia]. destruct (qltb_spec x y); constructor; [auto|]. intros [?|[_ ?]]; [lia|auto].
Qed.
Lemma key_eqb_spec : forall a b, reflect (a = b) (key_eqb a b).
Proof.
  intros [p x] [q y]. unfold key_eqb. cbn [fst snd]. destruct (Z.eqb_spec p q) as [->|N]; cbn [andb]; [|constructor; congruence].
  destruct (qeqb_spec x y) as [->|N]; constructor; congruence.
Qed.
Lemma key_lt_trans : forall a b c, key_lt a b -> key_lt b c -> key_lt a c.
Proof. intros [p x] [q y] [r z]. unfold key_lt. cbn [fst snd]. intros [A|[A B]] [C|[C D]]; try (left; lia). right. split; [lia|]. qlra. Qed.
Lemma key_lt_irrefl : forall a, ~ key_lt a a.
Proof. intros [p x] [A|[_ A]]; cbn [fst snd] in *; [lia|]. qlra. Qed.
Lemma key_total : forall a b, a <> b -> ~ key_lt a b -> key_lt b a.
Proof.
  intros [p x] [q y] N L. unfold key_lt in *. cbn [fst snd] in *. destruct (Z_lt_le_dec q p); [auto|]. destruct (Z_lt_le_dec p q); [exfalso; auto|]. assert (p = q) as -> by lia. right. split; auto.
  destruct (Qclt_le_dec x y) as [|G]; [exfalso; auto|]. destruct (Qcle_lt_or_eq _ _ G) as [|E]; auto. congruence.
Qed.

Lemma vadd_comm : forall a b, vadd a b = vadd b a.
Proof. induction a as [|x a IH]; intros [|y b]; unfold vadd in *; cbn [combine map]; auto. f_equal; [cbn [fst snd]; ring|auto]. Qed.
Lemma vadd_assoc : forall a b c, vadd (vadd a b) c = vadd a (vadd b c).
Proof. induction a as [|x a IH]; intros [|y b] [|z c]; unfold vadd in *; cbn [combine map]; auto. f_equal; [cbn [fst snd]; ring|auto]. Qed.
Lemma vadd_nth : forall a b c, (c < List.length a)%nat -> (c < List.length b)%nat -> nth c (vadd a b) 0%Qc = (nth c a 0 + nth c b 0)%Qc.
Proof. induction a as [|x a IH]; intros [|y b] [|c]; unfold vadd in *; cbn [combine map List.length nth fst snd]; intros; try lia; auto. apply IH; lia. Qed.
Lemma vadd_length : forall a b, List.length b = List.length a -> List.length (vadd a b) = List.length a.
Proof. intros a b L. unfold vadd. rewrite map_length, combine_length. lia. Qed.

(** ** Tables in strictly increasing order of keys, seen as maps *)
Definition row_lt (a b : row) : Prop := key_lt (rkey a) (rkey b).
Definition ordered := StronglySorted row_lt.
Definition get (k : key) (t : list row) : option (list Qc) := option_map cols (find (fun r => key_eqb k (rkey r)) t).
Definition plus (o : option (list Qc)) (v : list Qc) : option (list Qc) := Some (match o with Some p => vadd p v | None => v end).

Lemma get_cons : forall k h t, get k (h :: t) = if key_eqb k (rkey h) then Some (cols h) else get k t.
Proof. intros. unfold get. cbn [find]. destruct (key_eqb k (rkey h)); reflexivity. Qed.
Lemma get_below : forall k t, Forall (fun r => key_lt k (rkey r)) t -> get k t = None.
Proof.
  intros k t. induction t as [|h t IH]; intros F; [reflexivity|]. inversion F; subst. rewrite get_cons. destruct (key_eqb_spec k (rkey h)) as [->|]; [|auto]. now apply key_lt_irrefl in H1.
Qed.
Lemma insert_keys : forall r t, forall x, In x (insert_row r t) -> rkey x = rkey r \/ exists y, In y t /\ rkey y = rkey x.
Proof.
  intros r t. induction t as [|h t IH]; cbn [insert_row In]; intros x X.
  - destruct X as [<-|[]]; auto.
  - destruct (key_eqb_spec (rkey r) (rkey h)) as [E|]; [|destruct (key_ltb (rkey r) (rkey h))].
    + destruct X as [<-|X]; [left; now cbn|]. right. exists x; auto.
    + destruct X as [<-|X]; auto. right. exists x. split; [exact X|auto].
    + destruct X as [<-|X]; [right; exists h; auto|]. destruct (IH _ X) as [|(y & Y & E)]; auto. right. exists y; auto.
Qed.
Lemma insert_ordered : forall r t, ordered t -> ordered (insert_row r t).
Proof.
  intros r t. induction t as [|h t IH]; intros S; cbn [insert_row]; [repeat constructor|]. inversion S as [|? ? S1 F1]; subst.
  destruct (key_eqb_spec (rkey r) (rkey h)) as [E|NE]; [|destruct (key_ltb_spec (rkey r) (rkey h)) as [L|NL]].
  - constructor; auto.
  - constructor; [auto|]. constructor; [auto|]. eapply Forall_impl; [|exact F1]. intros a A. unfold row_lt in *. eapply key_lt_trans; eauto.
  - constructor; [now apply IH|]. apply Forall_forall. intros x X. unfold row_lt. apply insert_keys in X as [->|(y & Y & <-)]; [now apply key_total|]. now apply (proj1 (Forall_forall _ _) F1).
Qed.
Lemma insert_get : forall r t k, ordered t -> get k (insert_row r t) = if key_eqb k (rkey r) then plus (get k t) (cols r) else get k t.
Proof.
  intros r t k. induction t as [|h t IH]; intros S; cbn [insert_row].
  - rewrite get_cons. destruct (key_eqb k (rkey r)); reflexivity.
  - inversion S as [|? ? S1 F1]; subst. destruct (key_eqb_spec (rkey r) (rkey h)) as [E|NE]; [|destruct (key_ltb_spec (rkey r) (rkey h)) as [L|NL]].
    + rewrite !get_cons. cbn [rkey cols]. rewrite <- E. destruct (key_eqb k (rkey r)); reflexivity.
    + rewrite get_cons. destruct (key_eqb_spec k (rkey r)) as [EK|N]; auto. rewrite EK, get_below; [reflexivity|]. constructor; auto. eapply Forall_impl; [|exact F1]. intros a A. unfold row_lt in A. eapply key_lt_trans; eauto.
    + rewrite !get_cons, IH by auto. destruct (key_eqb_spec k (rkey h)) as [EK|N]; auto. destruct (key_eqb_spec k (rkey r)); [congruence|auto].
Qed.
Lemma ordered_ext : forall t u, ordered t -> ordered u -> (forall k, get k t = get k u) -> t = u.
Proof.
  induction t as [|a t IH]; intros [|b u] S U H; auto.
  - specialize (H (rkey b)). rewrite get_cons in H. destruct (key_eqb_spec (rkey b) (rkey b)); [discriminate|congruence].
  - specialize (H (rkey a)). rewrite get_cons in H. destruct (key_eqb_spec (rkey a) (rkey a)); [discriminate|congruence].
  - inversion S as [|? ? S1 F1]; inversion U as [|? ? U1 G1]; subst.
    assert (rkey a = rkey b) as K.
    { destruct (key_eqb_spec (rkey a) (rkey b)) as [|N]; auto. exfalso. destruct (key_ltb_spec (rkey a) (rkey b)) as [L|NL].
      - specialize (H (rkey a)). rewrite get_cons in H. destruct (key_eqb_spec (rkey a) (rkey a)); [|congruence]. rewrite get_below in H; [discriminate|]. constructor; auto. eapply Forall_impl; [|exact G1]. intros x X. eapply key_lt_trans; eauto.
      - assert (key_lt (rkey b) (rkey a)) as L by (now apply key_total). specialize (H (rkey b)). rewrite (get_cons _ b) in H. destruct (key_eqb_spec (rkey b) (rkey b)); [|congruence].
        rewrite get_below in H; [discriminate|]. constructor; auto. eapply Forall_impl; [|exact F1]. intros x X. eapply key_lt_trans; eauto. }
    assert (cols a = cols b) as C.
    { specialize (H (rkey a)). rewrite !get_cons in H. rewrite <- K in H. destruct (key_eqb_spec (rkey a) (rkey a)); [|congruence]. now injection H. }
    f_equal; [destruct a, b; cbn in *; congruence|]. apply IH; auto. intros k. specialize (H k). rewrite !get_cons, K in H. destruct (key_eqb_spec k (rkey b)) as [EK|]; auto.
    rewrite EK, !get_below; auto. rewrite <- K. exact F1.
Qed.

(** ** groupby *)
Lemma fold_ordered : forall l acc, ordered acc -> ordered (fold_left (fun acc r => insert_row r acc) l acc).
Proof. induction l as [|r l IH]; intros acc S; cbn [fold_left]; auto. apply IH, insert_ordered, S. Qed.
Lemma groupby_ordered : forall l, ordered (groupby l).
Proof. intros. apply fold_ordered. constructor. Qed.
Definition of_key (k : key) (l : list row) : list (list Qc) := map cols (filter (fun r => key_eqb k (rkey r)) l).
Lemma fold_get : forall l acc k, ordered acc -> get k (fold_left (fun acc r => insert_row r acc) l acc) = fold_left plus (of_key k l) (get k acc).
Proof.
  induction l as [|r l IH]; intros acc k S; cbn [fold_left]; auto. rewrite IH by (now apply insert_ordered). rewrite insert_get by auto.
  unfold of_key. cbn [filter]. destruct (key_eqb k (rkey r)); reflexivity.
Qed.
Lemma groupby_get : forall l k, get k (groupby l) = fold_left plus (of_key k l) None.
Proof. intros. unfold groupby. rewrite fold_get by constructor. reflexivity. Qed.
Lemma plus_comm : forall o a b, plus (plus o a) b = plus (plus o b) a.
Proof. intros [p|] a b; unfold plus; apply f_equal; [|apply vadd_comm]. rewrite !vadd_assoc, (vadd_comm a b). reflexivity. Qed.
Lemma plus_perm : forall l m, Permutation l m -> forall o, fold_left plus l o = fold_left plus m o.
Proof.
  intros l m P. induction P; intros o; cbn [fold_left]; auto.
  - now rewrite plus_comm.
  - now rewrite IHP1.
Qed.
Lemma filter_perm : forall A (f : A -> bool) l m, Permutation l m -> Permutation (filter f l) (filter f m).
Proof.
  intros A f l m P. induction P; cbn [filter]; auto.
  - destruct (f x); auto.
  - destruct (f x), (f y); auto. apply perm_swap.
  - etransitivity; eauto.
Qed.
Lemma groupby_perm : forall l m, Permutation l m -> groupby l = groupby m.
Proof.
  intros l m P. apply ordered_ext; try apply groupby_ordered. intros k. rewrite !groupby_get. apply plus_perm. unfold of_key. apply Permutation_map, filter_perm, P.
Qed.
Lemma of_key_app : forall k l m, of_key k (l ++ m) = of_key k l ++ of_key k m.
Proof. intros. unfold of_key. now rewrite filter_app, map_app. Qed.
Lemma of_key_ordered : forall t k, ordered t -> of_key k t = match get k t with Some p => [p] | None => [] end.
Proof.
  induction t as [|h t IH]; intros k S; [reflexivity|]. inversion S as [|? ? S1 F1]; subst. rewrite get_cons. unfold of_key in *. cbn [filter]. destruct (key_eqb_spec k (rkey h)) as [EK|N]; [|auto].
  cbn [map]. f_equal. specialize (IH k S1). rewrite EK in *. rewrite get_below in IH; auto.
Qed.
Lemma groupby_absorb : forall l m, groupby (groupby l ++ m) = groupby (l ++ m).
Proof.
  intros l m. apply ordered_ext; try apply groupby_ordered. intros k. rewrite !groupby_get, !of_key_app, !fold_left_app. f_equal.
  rewrite of_key_ordered by apply groupby_ordered. rewrite groupby_get. destruct (of_key k l) as [|p q] eqn:E; [reflexivity|]. cbn [fold_left plus].
  assert (forall q p, exists p', fold_left plus q (Some p) = Some p') as X. { induction q0 as [|a q0 IH]; intros p0; [now exists p0|]. apply IH. }
  change (plus None p) with (Some p). destruct (X q p) as [p' ->]. reflexivity.
Qed.
Lemma filter_ordered : forall f t, ordered t -> ordered (filter f t).
Proof.
  intros f t S. induction S as [|h t S IH F]; cbn [filter]; [constructor|]. destruct (f h); auto. constructor; auto. apply Forall_forall. intros x X. apply filter_In in X as [X _]. now apply (proj1 (Forall_forall _ _) F).
Qed.
Section FilterKeys.
  Variable f : key -> bool.
  Lemma of_key_filter : forall k l, of_key k (filter (fun r => f (rkey r)) l) = if f k then of_key k l else [].
  Proof.
    intros k l. unfold of_key. induction l as [|h t IH]; cbn [filter]; [destruct (f k); reflexivity|]. destruct (f (rkey h)) eqn:E; cbn [filter].
    - destruct (key_eqb_spec k (rkey h)) as [EK|]; cbn [map]; [rewrite EK, E in *; cbn [map]; now rewrite IH|exact IH].
    - destruct (key_eqb_spec k (rkey h)) as [EK|]; [rewrite EK, E in *; exact IH|exact IH].
  Qed.
  Lemma get_filter : forall k t, get k (filter (fun r => f (rkey r)) t) = if f k then get k t else None.
  Proof.
    intros k t. induction t as [|h t IH]; cbn [filter]; [destruct (f k); reflexivity|]. rewrite get_cons. destruct (f (rkey h)) eqn:E.
    - rewrite get_cons. destruct (key_eqb_spec k (rkey h)) as [EK|]; [now rewrite EK, E|exact IH].
    - rewrite IH. destruct (key_eqb_spec k (rkey h)) as [EK|]; [now rewrite EK, E|reflexivity].
  Qed.
  Lemma groupby_filter : forall l, groupby (filter (fun r => f (rkey r)) l) = filter (fun r => f (rkey r)) (groupby l).
  Proof.
    intros l. apply ordered_ext; [apply groupby_ordered|apply filter_ordered, groupby_ordered|]. intros k. rewrite get_filter, !groupby_get, of_key_filter. destruct (f k); reflexivity.
  Qed.
End FilterKeys.
(** Dropping the pixel after grouping by pixel and charge is the same as dropping it before. *)
Lemma fold_insert_map : forall l t, groupby (map forget_pixel (fold_left (fun acc r => insert_row r acc) l t)) = groupby (map forget_pixel (t ++ l)).
Proof.
  induction l as [|r l IH]; intros t; cbn [fold_left]; [now rewrite app_nil_r|]. rewrite IH. clear IH. rewrite !map_app. cbn [map].
  assert (forall m, groupby (map forget_pixel (insert_row r t) ++ m) = groupby ((map forget_pixel t ++ [forget_pixel r]) ++ m)) as X.
  { induction t as [|h t IH]; intros m; cbn [insert_row map app]; auto. destruct (key_eqb_spec (rkey r) (rkey h)) as [E|NE]; [|destruct (key_ltb (rkey r) (rkey h))].
    - set (fr := forget_pixel r). set (fh := forget_pixel h). cbn [map app]. set (fm := forget_pixel {| rkey := rkey h; cols := vadd (cols h) (cols r) |}).
      transitivity (groupby (fm :: map forget_pixel t ++ m)); [reflexivity|]. transitivity (groupby (fh :: fr :: map forget_pixel t ++ m)).
      + apply ordered_ext; try apply groupby_ordered. intros k. rewrite !groupby_get. unfold of_key. cbn [filter].
        assert (rkey fr = rkey fh) as -> by (unfold fr, fh, forget_pixel; cbn [rkey]; now rewrite E). change (rkey fm) with (rkey fh). destruct (key_eqb k (rkey fh)); reflexivity.
      + apply groupby_perm. constructor. rewrite <- app_assoc. cbn [app]. apply Permutation_middle.
    - apply groupby_perm. rewrite <- app_assoc. cbn [app map]. exact (Permutation_middle (forget_pixel h :: map forget_pixel t) m (forget_pixel r)).
    - cbn [map app]. unfold groupby in *. cbn [fold_left] in *. 
      assert (forall u v, groupby u = groupby v -> groupby (forget_pixel h :: u) = groupby (forget_pixel h :: v)) as C.
      { intros u v EQ. rewrite (groupby_perm (_ :: u) (u ++ [forget_pixel h])) by apply Permutation_cons_append. rewrite (groupby_perm (_ :: v) (v ++ [forget_pixel h])) by apply Permutation_cons_append.
        rewrite <- groupby_absorb, EQ, groupby_absorb. reflexivity. }
      apply (C _ _ (IH m)). }
  rewrite X, <- app_assoc. reflexivity.
Qed.
Lemma groupby_forget : forall l, groupby (map forget_pixel (groupby l)) = groupby (map forget_pixel l).
Proof. intros. unfold groupby at 2. now rewrite fold_insert_map. Qed.

(** ** Sessions *)
Definition rows_of (to_row : entry -> row) (calls : list call) : list row :=
  flat_map (fun c => match c with Add batch => map to_row batch | Finish => [] end) calls.
Definition has_add (calls : list call) : Prop := exists batch, In (Add batch) calls.
(** What is held, in the order of arrival. *)
Definition held (s : obj) : list row := match df s with Some t => t | None => [] end ++ List.concat (df_list s).
Definition started (s : obj) : Prop := df s <> None \/ df_list s <> [].
Definition nz (k : key) : bool := negb (qeqb (snd k) 0%Qc).

Lemma amalgamate_ok : forall s, started s -> amalgamate s = Ok {| df := Some (groupby (held s)); df_list := []; n_bytes := 0 |}.
Proof. intros s [H|H]; unfold amalgamate, held; destruct (df s), (df_list s); try easy; reflexivity. Qed.
Lemma amalgamate_held : forall s s', amalgamate s = Ok s' -> held s' = groupby (held s) /\ started s' /\ df s' = Some (groupby (held s)) /\ df_list s' = [].
Proof.
  intros s s' E. assert (started s) as S. { unfold started. unfold amalgamate in E. destruct (df s); [left; easy|]. destruct (df_list s); [discriminate|right; easy]. }
  rewrite amalgamate_ok in E by auto. injection E as <-. unfold held at 1. cbn [df df_list List.concat]. rewrite app_nil_r. split; auto. split; [left; discriminate|auto].
Qed.
Lemma add_rows_ok : forall bytes mx s rows, exists s', add_rows bytes mx s rows = Ok s' /\ started s' /\ groupby (held s') = groupby (held s ++ rows).
Proof.
  intros. unfold add_rows. set (s1 := {| df := df s; df_list := df_list s ++ [rows]; n_bytes := _ |}).
  assert (started s1) as S. { right. cbn [df_list s1]. now destruct (df_list s). }
  assert (held s1 = held s ++ rows) as H. { unfold held. cbn [df df_list s1]. rewrite concat_app. cbn [List.concat]. now rewrite app_nil_r, app_assoc. }
  destruct (mx <? n_bytes s1)%Z.
  - rewrite amalgamate_ok by auto. eexists. split; [reflexivity|]. split; [left; discriminate|]. unfold held at 1. cbn [df df_list List.concat]. rewrite H. rewrite groupby_absorb, app_nil_r. reflexivity.
  - exists s1. split; auto. split; auto. now rewrite H.
Qed.

Section Session.
  Context {A : Type}.
  Variable to_row : entry -> row.
  Variable finish : obj -> res (obj * A).
  Variable keep : key -> bool.
  Variable output : list row -> A.
  Let kept (l : list row) := filter (fun r => keep (rkey r)) l.
  Hypothesis finish_ok : forall s, started s -> exists s', finish s = Ok (s', output (kept (groupby (held s)))) /\ started s' /\ kept (groupby (held s')) = kept (groupby (held s)).
  Hypothesis finish_new : forall s, ~ started s -> finish s = Raise KeyError.

  Lemma kept_groupby : forall l, kept (groupby l) = groupby (kept l).
  Proof. intros. symmetry. apply groupby_filter. Qed.
  Lemma kept_app : forall l m, kept (l ++ m) = kept l ++ kept m.
  Proof. intros. apply filter_app. Qed.
  Lemma kept_step : forall l l' m, kept (groupby l) = kept (groupby l') -> kept (groupby (l ++ m)) = kept (groupby (l' ++ m)).
  Proof. intros l l' m E. rewrite !kept_groupby in *. rewrite !kept_app, <- (groupby_absorb (kept l)), E, groupby_absorb. reflexivity. Qed.

  Definition step (bytes : list row -> Z) (mx : Z) := fun s c => match c with Add batch => add_rows bytes mx s (map to_row batch) | Finish => rmap fst (finish s) end.
  Lemma run_started : forall bytes mx calls s, started s -> exists s', foldM (step bytes mx) calls s = Ok s' /\ started s' /\ kept (groupby (held s')) = kept (groupby (held s ++ rows_of to_row calls)).
  Proof.
    intros bytes mx. induction calls as [|c calls IH]; intros s S; cbn [foldM].
    - exists s. unfold rows_of. cbn [flat_map]. rewrite app_nil_r. auto.
    - destruct c as [batch|]; cbn [step].
      + destruct (add_rows_ok bytes mx s (map to_row batch)) as (s1 & -> & S1 & H1). destruct (IH s1 S1) as (s2 & -> & S2 & H2). exists s2. split; auto. split; auto. rewrite H2. unfold rows_of. cbn [flat_map].
        rewrite app_assoc. apply kept_step. now rewrite H1.
      + destruct (finish_ok s S) as (s1 & -> & S1 & H1). cbn [rmap fst]. destruct (IH s1 S1) as (s2 & -> & S2 & H2). exists s2. split; auto. split; auto. rewrite H2. unfold rows_of. cbn [flat_map app].
        now apply kept_step.
  Qed.
  Lemma session_ok : forall bytes mx batch calls, session to_row finish bytes mx (Add batch :: calls) = Ok (output (kept (groupby (rows_of to_row (Add batch :: calls))))).
  Proof.
    intros bytes mx batch calls. unfold session, run. change (foldM _ ?c ?s) with (foldM (step bytes mx) c s). cbn [foldM step].
    destruct (add_rows_ok bytes mx new_obj (map to_row batch)) as (s1 & -> & S1 & H1). destruct (run_started bytes mx calls s1 S1) as (s2 & -> & S2 & H2). cbn [bind].
    destruct (finish_ok s2 S2) as (s3 & -> & _ & _). cbn [rmap snd]. f_equal. f_equal. rewrite H2. unfold rows_of. cbn [flat_map]. apply kept_step. now rewrite H1.
  Qed.
  Lemma session_finish_first : forall bytes mx calls, session to_row finish bytes mx (Finish :: calls) = Raise KeyError /\ session to_row finish bytes mx [] = Raise KeyError.
  Proof.
    intros. assert (~ started new_obj) as N by (intros [H|H]; now apply H). unfold session, run. cbn [foldM]. cbn [bind]. rewrite (finish_new _ N). auto.
  Qed.
End Session.

Lemma resolution_finish_ok : forall mc s, started s -> exists s', resolution_finish mc s = Ok (s', (fun t => (map (res_columns mc) t, map (res_columns mc) (groupby (map forget_pixel t)))) (filter (fun r => nz (rkey r)) (groupby (held s)))) /\
  started s' /\ filter (fun r => nz (rkey r)) (groupby (held s')) = filter (fun r => nz (rkey r)) (groupby (held s)).
Proof.
  intros mc s S. unfold resolution_finish. rewrite amalgamate_ok by auto. cbn [bind df]. eexists. split; [reflexivity|]. split; [left; discriminate|].
  unfold held at 1. cbn [df df_list List.concat]. rewrite app_nil_r. change nonzero_true with (fun r => nz (rkey r)). rewrite groupby_filter.
  assert (groupby (groupby (held s)) = groupby (held s)) as E by (pose proof (groupby_absorb (held s) []) as X; now rewrite !app_nil_r in X). rewrite E.
  clear E. generalize (groupby (held s)). intros l. induction l as [|a l IH]; cbn [filter]; auto. destruct (nz (rkey a)) eqn:Z; cbn [filter]; rewrite ?Z; [now f_equal|auto].
Qed.
Lemma statistics_finish_ok : forall s, started s -> exists s', statistics_finish s = Ok (s', (fun t => (map stat_columns t, map stat_columns (groupby (map forget_pixel t)))) (filter (fun _ => true) (groupby (held s)))) /\
  started s' /\ filter (fun _ => true) (groupby (held s')) = filter (fun _ => true) (groupby (held s)).
Proof.
  assert (forall l : list row, filter (fun _ => true) l = l) as F by (induction l as [|a l IH]; cbn [filter]; congruence).
  intros s S. unfold statistics_finish. rewrite amalgamate_ok by auto. cbn [bind df]. eexists. rewrite !F. split; [reflexivity|]. split; [left; discriminate|].
  unfold held at 1. cbn [df df_list List.concat]. rewrite groupby_absorb. now rewrite app_nil_r.
Qed.
Lemma finish_new_raises : forall s, ~ started s -> amalgamate s = Raise KeyError.
Proof. intros s N. unfold amalgamate. destruct (df s) eqn:D; [exfalso; apply N; left; congruence|]. destruct (df_list s) eqn:L; auto. exfalso. apply N. right. congruence. Qed.

(** ** Contents of the tables *)
Lemma get_in : forall t r, ordered t -> In r t -> get (rkey r) t = Some (cols r).
Proof.
  induction t as [|h t IH]; intros r S; [easy|]. inversion S as [|? ? S1 F1]; subst. rewrite get_cons. intros [->|I].
  - destruct (key_eqb_spec (rkey r) (rkey r)); [auto|congruence].
  - destruct (key_eqb_spec (rkey r) (rkey h)) as [E|]; [|auto]. exfalso. pose proof (proj1 (Forall_forall _ _) F1 r I) as L. unfold row_lt in L. rewrite E in L. now apply key_lt_irrefl in L.
Qed.
Lemma get_some_in : forall t k p, get k t = Some p -> exists r, In r t /\ rkey r = k /\ cols r = p.
Proof.
  intros t k p E. unfold get in E. destruct (find _ t) as [r|] eqn:F; [|discriminate]. injection E as <-. apply find_some in F as [I K]. exists r. destruct (key_eqb_spec k (rkey r)); [auto|discriminate].
Qed.
Lemma fold_plus_total : forall n l p, List.length p = n -> (forall q, In q l -> List.length q = n) ->
  exists p', fold_left plus l (Some p) = Some p' /\ List.length p' = n /\ forall c, (c < n)%nat -> nth c p' 0%Qc = (nth c p 0 + qsum (map (fun q => nth c q 0) l))%Qc.
Proof.
  intros n. induction l as [|q l IH]; intros p L H; cbn [fold_left].
  - exists p. split; auto. split; auto. intros. cbn [map]. unfold qsum. cbn [fold_right]. ring.
  - change (plus (Some p) q) with (Some (vadd p q)). assert (List.length q = n) as LQ by (apply H; left; auto). destruct (IH (vadd p q)) as (p' & E & L' & N).
    + rewrite vadd_length; congruence.
    + intros; apply H; now right.
    + exists p'. split; auto. split; auto. intros c C. rewrite N by auto. rewrite vadd_nth by congruence. cbn [map]. rewrite qsum_cons. ring.
Qed.
Lemma groupby_total : forall n l, (forall r, In r l -> List.length (cols r) = n) ->
  forall k, match get k (groupby l) with
            | None => of_key k l = []
            | Some p => of_key k l <> [] /\ List.length p = n /\ forall c, (c < n)%nat -> nth c p 0%Qc = qsum (map (fun q => nth c q 0%Qc) (of_key k l))
            end.
Proof.
  intros n l H k. rewrite groupby_get. destruct (of_key k l) as [|q m] eqn:E; [reflexivity|]. cbn [fold_left]. change (plus None q) with (Some q).
  assert (forall q', In q' (q :: m) -> List.length q' = n) as LQ. { intros q' I. rewrite <- E in I. unfold of_key in I. apply in_map_iff in I as (r & <- & I). apply filter_In in I as [I _]. auto. }
  destruct (fold_plus_total n m q) as (p' & -> & L' & N); [apply LQ; left; auto|intros; apply LQ; now right|]. split; [discriminate|]. split; auto.
Qed.
Lemma groupby_row : forall n l, (forall r, In r l -> List.length (cols r) = n) ->
  (forall r, In r (groupby l) -> of_key (rkey r) l <> [] /\ forall c, (c < n)%nat -> nth c (cols r) 0%Qc = qsum (map (fun q => nth c q 0%Qc) (of_key (rkey r) l))) /\
  (forall k, of_key k l <> [] -> exists r, In r (groupby l) /\ rkey r = k).
Proof.
  intros n l H. split.
  - intros r R. pose proof (groupby_total n l H (rkey r)) as T. rewrite get_in in T by (auto using groupby_ordered). destruct T as (A & _ & B). auto.
  - intros k N. pose proof (groupby_total n l H k) as T. destruct (get k (groupby l)) as [p|] eqn:E; [|contradiction]. apply get_some_in in E as (r & R & K & _). now exists r.
Qed.
