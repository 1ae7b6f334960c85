(** Lemmas about superpixel and module mappings. *)
From Coq Require Import List ZArith QArith Qcanon Bool Lia Sorted.
From Verif.Base Require Import Py PyFacts Num Lst.
From Verif.Camera Require Import Model.
Import ListNotations.
Local Open Scope list_scope.

Lemma insert_key_in : forall k l x, In x (insert_key k l) <-> x = k \/ In x l.
Proof.
  intros k l x. induction l as [|h t IH]; cbn [insert_key].
  - cbn [In]. intuition.
  - destruct (Z.ltb_spec k h); [cbn [In]; intuition|]. destruct (Z.eqb_spec k h) as [E|]; [|cbn [In]; rewrite IH; intuition].
    cbn [In]. subst k. intuition.
Qed.
Lemma insert_key_sorted : forall k l, StronglySorted Z.lt l -> StronglySorted Z.lt (insert_key k l).
Proof.
  intros k l S. induction S as [|h t S IH F]; cbn [insert_key]; [repeat constructor|].
  destruct (Z.ltb_spec k h).
  - constructor; [now constructor|]. constructor; [auto|]. eapply Forall_impl; [|exact F]. intros a A. lia.
  - destruct (Z.eqb_spec k h); [now constructor|]. constructor; [exact IH|]. apply Forall_forall. intros x X. apply insert_key_in in X as [->|X]; [lia|]. now apply (proj1 (Forall_forall _ _) F).
Qed.
Lemma keys_in : forall l x, In x (keys l) <-> In x l.
Proof. intros l x. induction l as [|a l IH]; [reflexivity|]. cbn [keys fold_right]. fold (keys l). rewrite insert_key_in, IH. cbn [In]. intuition. Qed.
Lemma keys_sorted : forall l, StronglySorted Z.lt (keys l).
Proof. intros l. induction l as [|a l IH]; [constructor|]. cbn [keys fold_right]. now apply insert_key_sorted. Qed.

Section Agg.
  Context {A B : Type}.
  Variable key : A -> Z.
  Variable f : Z -> A -> list A -> B.
  Variable out : B -> Z.
  Hypothesis out_f : forall k a g, out (f k a g) = k.
  Definition members (k : Z) (l : list A) : list A := filter (fun a => (key a =? k)%Z) l.
  Lemma members_in : forall k l a, In a (members k l) <-> In a l /\ key a = k.
  Proof. intros. unfold members. rewrite filter_In, Z.eqb_eq. reflexivity. Qed.
  Lemma agg_over : forall ks l, (forall k, In k ks -> In k (map key l)) ->
    map out (flat_map (fun k => match members k l with [] => [] | a :: g => [f k a (a :: g)] end) ks) = ks.
  Proof.
    induction ks as [|k ks IH]; intros l H; [reflexivity|]. cbn [flat_map]. rewrite map_app, IH by (intros; apply H; now right).
    destruct (members k l) as [|a g] eqn:E; cbn [map app]; [|now rewrite out_f].
    exfalso. assert (In k (map key l)) as K by (apply H; now left). apply in_map_iff in K as (a & K & I). assert (In a (members k l)) as X by (now apply members_in). now rewrite E in X.
  Qed.
  Lemma agg_keys : forall l, map out (agg key f l) = keys (map key l).
  Proof. intros l. apply agg_over. intros k K. exact (proj1 (keys_in _ _) K). Qed.
  Lemma agg_in : forall l r, In r (agg key f l) -> exists a g, members (out r) l = a :: g /\ r = f (out r) a (a :: g).
  Proof.
    intros l r R. unfold agg in R. apply in_flat_map in R as (k & _ & R). fold (members k l) in R. destruct (members k l) as [|a g] eqn:E; [destruct R|]. destruct R as [<-|[]].
    rewrite out_f. exists a, g. auto.
  Qed.
  Lemma agg_has : forall l a, In a l -> exists r, In r (agg key f l) /\ out r = key a.
  Proof.
    intros l a I. assert (In (key a) (map out (agg key f l))) as X. { rewrite agg_keys. apply keys_in. now apply in_map. }
    apply in_map_iff in X as (r & E & R). now exists r.
  Qed.
  Lemma agg_sorted : forall l, StronglySorted (fun a b => out a < out b)%Z (agg key f l).
  Proof.
    intros l. pose proof (keys_sorted (map key l)) as S. rewrite <- agg_keys in S. revert S. generalize (agg key f l). intros m S.
    induction m as [|a m IH]; [constructor|]. cbn [map] in S. inversion S; subst. constructor; [now apply IH|]. apply Forall_forall. intros x X. apply (proj1 (Forall_forall _ _) H2). now apply in_map.
  Qed.
  Lemma agg_inj : forall l r r', In r (agg key f l) -> In r' (agg key f l) -> out r = out r' -> r = r'.
  Proof. intros l r r' R R' E. destruct (agg_in l r R) as (a & g & M & ->). destruct (agg_in l r' R') as (a' & g' & M' & ->). rewrite E in *. congruence. Qed.
  Lemma agg_nonempty : forall l, l <> [] -> agg key f l <> [].
  Proof. intros [|a l] N; [easy|]. destruct (agg_has (a :: l) a (or_introl eq_refl)) as (r & R & _). intro E. now rewrite E in R. Qed.
End Agg.

Lemma fold_max : forall l a, (a <= fold_left Z.max l a)%Z /\ (forall x, In x l -> x <= fold_left Z.max l a)%Z /\ (fold_left Z.max l a = a \/ In (fold_left Z.max l a) l).
Proof.
  induction l as [|b l IH]; intros a; cbn [fold_left]; [repeat split; [lia|intros x []|auto]|].
  destruct (IH (Z.max a b)) as (L & I & E). split; [lia|]. split.
  - intros x [<-|X]; [lia|auto].
  - destruct E as [E|E]; [|right; now right]. rewrite E. destruct (Z.max_spec a b) as [[_ ->]|[_ ->]]; [right; now left|now left].
Qed.
Lemma zmax_some : forall l, l <> [] -> exists m, zmax l = Some m /\ In m l /\ forall x, In x l -> (x <= m)%Z.
Proof.
  intros [|a l] N; [easy|]. destruct (fold_max l a) as (L & I & E). eexists. split; [reflexivity|]. split; [destruct E as [E|E]; [left; now rewrite E|now right]|]. intros x [<-|X]; auto.
Qed.
Lemma new_metadata_some : forall h m d rws cls k, nth_error h m = Some d -> exists h' d',
  new_metadata h m rws cls k = Some h' /\ nth_error h' (List.length h) = Some d' /\ size d' = (size d * qz k)%Qc /\ other d' = other d /\
  n_rows d' = succ_opt (zmax rws) /\ n_columns d' = succ_opt (zmax cls) /\ (forall i, (i < List.length h)%nat -> nth_error h' i = nth_error h i).
Proof.
  intros h m d rws cls k E. unfold new_metadata. rewrite E. eexists _, _. split; [reflexivity|]. rewrite nth_error_app2 by lia. rewrite Nat.sub_diag. split; [reflexivity|]. cbn [size other n_rows n_columns].
  do 4 (split; [reflexivity|]). intros i I. now rewrite nth_error_app1.
Qed.
(** The number of rows is one more than the largest row. *)
Definition covers (n : option Z) (l : list Z) : Prop := l <> [] -> exists N, n = Some N /\ (forall x, In x l -> (x < N)%Z) /\ In (N - 1)%Z l.
Lemma succ_zmax : forall l, covers (succ_opt (zmax l)) l.
Proof.
  intros l N. destruct (zmax_some l N) as (m & -> & I & L). exists (m + 1)%Z. split; [reflexivity|]. split; [intros x X; specialize (L x X); lia|]. now replace (m + 1 - 1)%Z with m by lia.
Qed.
