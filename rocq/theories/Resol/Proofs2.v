(** From grouped rows back to the entries. *)
From Coq Require Import List ZArith QArith Qcanon Bool Lia Permutation Sorted.
From Verif.Base Require Import Py PyFacts Num Lst.
From Verif.Reducers Require Import Model Proofs2.
From Verif.Resol Require Import Model Proofs.
Import ListNotations.
Local Open Scope list_scope.

Definition entries (calls : list call) : list entry := flat_map (fun c => match c with Add batch => batch | Finish => [] end) calls.
Definition e_pixel (e : entry) : Z := fst (fst e).
Definition e_true (e : entry) : Qc := snd (fst e).
Definition e_value (e : entry) : Qc := snd e.
(** Entries of one pixel and true charge, and of one true charge. *)
Definition of_pixel (p : Z) (t : Qc) (l : list entry) : list entry := filter (fun e => (e_pixel e =? p)%Z && qeqb (e_true e) t) l.
Definition of_true (t : Qc) (l : list entry) : list entry := filter (fun e => qeqb (e_true e) t) l.

Lemma rows_of_map : forall f calls, rows_of f calls = map f (entries calls).
Proof. intros f calls. unfold rows_of, entries. induction calls as [|[b|] c IH]; cbn [flat_map]; [reflexivity| |exact IH]. now rewrite map_app, IH. Qed.
Lemma Zeqb_sym' : forall a b, (a =? b)%Z = (b =? a)%Z.
Proof. intros. apply Z.eqb_sym. Qed.
Lemma qeqb_sym : forall a b, qeqb a b = qeqb b a.
Proof. intros. destruct (qeqb_spec a b), (qeqb_spec b a); congruence. Qed.

Section Rows.
  Variable f : entry -> row.
  Hypothesis fkey : forall e, rkey (f e) = (e_pixel e, e_true e).
  Lemma of_key_entries : forall k l, of_key k (map f l) = map (fun e => cols (f e)) (of_pixel (fst k) (snd k) l).
  Proof.
    intros k l. unfold of_key, of_pixel. induction l as [|e l IH]; [reflexivity|]. cbn [map filter]. rewrite fkey. unfold key_eqb. cbn [fst snd]. rewrite (Z.eqb_sym (fst k)), (qeqb_sym (snd k)).
    destruct ((e_pixel e =? fst k)%Z && qeqb (e_true e) (snd k)); cbn [map]; [f_equal|]; exact IH.
  Qed.
  Lemma of_key_forget : forall t l, of_key (0%Z, t) (map forget_pixel (map f l)) = map (fun e => cols (f e)) (of_true t l).
  Proof.
    intros t l. unfold of_key, of_true. induction l as [|e l IH]; [reflexivity|]. cbn [map filter]. unfold forget_pixel at 1. cbn [rkey]. rewrite fkey. unfold key_eqb. cbn [fst snd]. rewrite Z.eqb_refl, (qeqb_sym t). cbn [andb].
    destruct (qeqb (e_true e) t); cbn [map]; [f_equal|]; exact IH.
  Qed.
End Rows.

Lemma of_key_nil : forall k l, of_key k l <> [] <-> exists r, In r l /\ rkey r = k.
Proof.
  intros k l. unfold of_key. split.
  - intros N. destruct (filter _ l) as [|r m] eqn:E; [easy|]. exists r. assert (In r (r :: m)) as I by (left; auto). rewrite <- E in I. apply filter_In in I as [I K]. split; auto. destruct (key_eqb_spec k (rkey r)); [auto|discriminate].
  - intros (r & I & K) E. assert (In (cols r) []) as X; [|easy]. rewrite <- E. apply in_map, filter_In. split; auto. destruct (key_eqb_spec k (rkey r)); [auto|congruence].
Qed.
Lemma forget_zero : forall l r, In r (groupby (map forget_pixel l)) -> fst (rkey r) = 0%Z.
Proof.
  intros l r R. pose proof (get_in _ _ (groupby_ordered _) R) as G. rewrite groupby_get in G. assert (of_key (rkey r) (map forget_pixel l) <> []) as N by (intro E; rewrite E in G; discriminate).
  apply of_key_nil in N as (r' & I & <-). apply in_map_iff in I as (x & <- & _). reflexivity.
Qed.
Lemma map_sorted : forall A B (R : A -> A -> Prop) (S : B -> B -> Prop) (g : A -> B) l, (forall a b, R a b -> S (g a) (g b)) -> StronglySorted R l -> StronglySorted S (map g l).
Proof.
  intros A B R S g l H S1. induction S1 as [|a l S1 IH F]; cbn [map]; constructor; auto. apply Forall_forall. intros x X. apply in_map_iff in X as (y & <- & Y). apply H. now apply (proj1 (Forall_forall _ _) F).
Qed.
Lemma in_map_sorted : forall A B (R : A -> A -> Prop) (S : B -> B -> Prop) (g : A -> B) l, (forall a b, In a l -> In b l -> R a b -> S (g a) (g b)) -> StronglySorted R l -> StronglySorted S (map g l).
Proof.
  intros A B R S g l H S1. induction S1 as [|a l S1 IH F]; cbn [map]; constructor.
  - apply IH. intros; apply H; auto; now right.
  - apply Forall_forall. intros x X. apply in_map_iff in X as (y & <- & Y). apply H; [now left|now right|]. now apply (proj1 (Forall_forall _ _) F).
Qed.
Lemma filter_filter_of : forall p t l, qeqb t 0%Qc = false -> of_pixel p t (filter (fun e => negb (qeqb (e_true e) 0%Qc)) l) = of_pixel p t l.
Proof.
  intros p t l N. unfold of_pixel. induction l as [|e l IH]; [reflexivity|]. cbn [filter]. destruct (qeqb_spec (e_true e) 0%Qc) as [Z|Z]; cbn [negb filter].
  - rewrite IH. destruct (qeqb_spec (e_true e) t) as [E|]; [|now rewrite andb_false_r]. exfalso. rewrite <- E, Z in N. now destruct (qeqb_spec 0%Qc 0%Qc).
  - destruct ((e_pixel e =? p)%Z && qeqb (e_true e) t); [f_equal|]; exact IH.
Qed.
Lemma filter_filter_true : forall t l, qeqb t 0%Qc = false -> of_true t (filter (fun e => negb (qeqb (e_true e) 0%Qc)) l) = of_true t l.
Proof.
  intros t l N. unfold of_true. induction l as [|e l IH]; [reflexivity|]. cbn [filter]. destruct (qeqb_spec (e_true e) 0%Qc) as [Z|Z]; cbn [negb filter].
  - rewrite IH. destruct (qeqb_spec (e_true e) t) as [E|]; [|reflexivity]. exfalso. rewrite <- E, Z in N. now destruct (qeqb_spec 0%Qc 0%Qc).
  - destruct (qeqb (e_true e) t); [f_equal|]; exact IH.
Qed.
Lemma filter_map_comm : forall A B (g : A -> B) (p : B -> bool) l, filter p (map g l) = map g (filter (fun a => p (g a)) l).
Proof. intros. induction l as [|a l IH]; cbn [map filter]; auto. destruct (p (g a)); cbn [map]; [f_equal|]; exact IH. Qed.
Lemma qsum_ones : forall A (l : list A), qsum (map (fun _ => 1%Qc) l) = qn (List.length l).
Proof. intros. rewrite qsum_const. ring. Qed.

(** ** The rows of a session *)
Section Table.
  Variable f : entry -> row.
  Variable w : nat.
  Hypothesis fkey : forall e, rkey (f e) = (e_pixel e, e_true e).
  Hypothesis fcols : forall e, List.length (cols (f e)) = w.
  Lemma table_rows : forall l,
    StronglySorted row_lt (groupby (map f l)) /\
    (forall r, In r (groupby (map f l)) -> of_pixel (fst (rkey r)) (snd (rkey r)) l <> [] /\
       forall c, (c < w)%nat -> nth c (cols r) 0%Qc = qsum (map (fun e => nth c (cols (f e)) 0%Qc) (of_pixel (fst (rkey r)) (snd (rkey r)) l))) /\
    (forall e, In e l -> exists r, In r (groupby (map f l)) /\ rkey r = (e_pixel e, e_true e)).
  Proof.
    intros l. split; [apply groupby_ordered|]. destruct (groupby_row w (map f l)) as [A B]. { intros r R. apply in_map_iff in R as (e & <- & _). apply fcols. }
    split.
    - intros r R. destruct (A r R) as [N T]. rewrite (of_key_entries f fkey) in N, T. split; [intro E; rewrite E in N; easy|]. intros c C. rewrite T by auto. now rewrite map_map.
    - intros e E. apply B. apply of_key_nil. exists (f e). split; [now apply in_map|apply fkey].
  Qed.
  Lemma camera_rows : forall l,
    StronglySorted row_lt (groupby (map forget_pixel (map f l))) /\
    (forall r, In r (groupby (map forget_pixel (map f l))) -> fst (rkey r) = 0%Z /\ of_true (snd (rkey r)) l <> [] /\
       forall c, (c < w)%nat -> nth c (cols r) 0%Qc = qsum (map (fun e => nth c (cols (f e)) 0%Qc) (of_true (snd (rkey r)) l))) /\
    (forall e, In e l -> exists r, In r (groupby (map forget_pixel (map f l))) /\ snd (rkey r) = e_true e).
  Proof.
    intros l. split; [apply groupby_ordered|]. destruct (groupby_row w (map forget_pixel (map f l))) as [A B].
    { intros r R. apply in_map_iff in R as (x & <- & R). apply in_map_iff in R as (e & <- & _). apply fcols. }
    split.
    - intros r R. pose proof (forget_zero _ _ R) as Z. split; auto. destruct (A r R) as [N T]. assert (rkey r = (0%Z, snd (rkey r))) as K by (destruct (rkey r); cbn in *; congruence).
      rewrite K in N, T. rewrite (of_key_forget f fkey) in N, T. split; [intro E; rewrite E in N; easy|]. intros c C. rewrite T by auto. now rewrite map_map.
    - intros e E. destruct (B (0%Z, e_true e)) as (r & R & K). { apply of_key_nil. exists (forget_pixel (f e)). split; [apply in_map; now apply in_map|]. unfold forget_pixel. cbn [rkey]. now rewrite fkey. }
      exists r. split; auto. now rewrite K.
  Qed.
End Table.

(** ** Mean and variance from the sums *)
Lemma mean_var : forall l : list Qc, l <> [] ->
  (qsum l / qn (List.length l) = qmean l /\ qsum (map (fun x => x * x) l) / qn (List.length l) - qsum l / qn (List.length l) * (qsum l / qn (List.length l)) = qvar l /\ 0 <= qvar l)%Qc.
Proof.
  intros l N. assert (0 < qn (List.length l))%Qc as P. { unfold qn. apply (proj1 (qz_lt 0 _)). destruct l; [easy|cbn [List.length]; lia]. }
  assert (qn (List.length l) <> 0)%Qc as NZ by (intro Z; rewrite Z in P; now apply Qclt_not_eq in P).
  assert (E : qmean l = (qsum l / qn (List.length l))%Qc) by reflexivity. split; [auto|].
  assert (V : qvar l = (qsum (map (fun x => x * x) l) / qn (List.length l) - qsum l / qn (List.length l) * (qsum l / qn (List.length l)))%Qc).
  { unfold qvar. unfold qmean at 1. rewrite map_length. set (m := qmean l).
    assert (qsum (map (fun x => (x - m) * (x - m)) l) = qsum (map (fun x => x * x) l) - (1 + 1) * m * qsum l + qn (List.length l) * (m * m))%Qc as ->.
    { generalize m. clear. intros m. induction l as [|a l IH]; [unfold qsum, qn; cbn [map fold_right List.length]; change (qz (Z.of_nat 0)) with 0%Qc; ring|]. cbn [map]. rewrite !qsum_cons, IH.
      assert (qn (List.length (a :: l)) = 1 + qn (List.length l))%Qc as ->; [|ring]. cbn [List.length]. rewrite qn_S. ring. }
    unfold m. rewrite E. field. auto. }
  split; [auto|]. unfold qvar, qmean at 1. set (q := qsum _). assert (0 <= q)%Qc. { apply qsum_nonneg. intros x X. apply in_map_iff in X as (y & <- & _). generalize (y - qmean l)%Qc. intros. qnra. }
  rewrite map_length. destruct (Qclt_le_dec (q / qn (List.length l)) 0) as [L|]; auto. exfalso. assert (q = q / qn (List.length l) * qn (List.length l))%Qc as X by (now field). generalize dependent (q / qn (List.length l))%Qc. intros. qnra.
Qed.
