(** Lemmas about images, limits and pages of axes. *)
From Coq Require Import List ZArith QArith Qcanon Bool Lia Permutation.
From Verif.Base Require Import Py PyFacts Num Lst.
From Verif.Camera Require Import Model Proofs2.
From Verif.Plots Require Import Model.
Import ListNotations.
Local Open Scope list_scope.

(** ** Smallest and largest *)
Lemma fold_min : forall l a, let m := fold_left (fun m x => if qltb x m then x else m) l a in In m (a :: l) /\ forall x, In x (a :: l) -> (m <= x)%Qc.
Proof.
  induction l as [|b l IH]; intros a; cbn [fold_left].
  - split; [now left|]. intros x [<-|[]]. apply Qcle_refl.
  - destruct (qltb_spec b a) as [E|E].
    + destruct (IH b) as [I L]. split; [now right|]. intros x [<-|X]; [|now apply L]. eapply Qcle_trans; [apply L; now left|now apply Qclt_le_weak].
    + destruct (IH a) as [I L]. split; [destruct I as [I|I]; [now left|right; now right]|]. intros x [<-|[<-|X]]; [apply L; now left| |apply L; now right].
      eapply Qcle_trans; [apply L; now left|]. now apply Qcnot_lt_le.
Qed.
Lemma fold_max : forall l a, let m := fold_left (fun m x => if qltb m x then x else m) l a in In m (a :: l) /\ forall x, In x (a :: l) -> (x <= m)%Qc.
Proof.
  induction l as [|b l IH]; intros a; cbn [fold_left].
  - split; [now left|]. intros x [<-|[]]. apply Qcle_refl.
  - destruct (qltb_spec a b) as [E|E].
    + destruct (IH b) as [I L]. split; [now right|]. intros x [<-|X]; [|now apply L]. eapply Qcle_trans; [now apply Qclt_le_weak, E|apply L; now left].
    + destruct (IH a) as [I L]. split; [destruct I as [I|I]; [now left|right; now right]|]. intros x [<-|[<-|X]]; [apply L; now left| |apply L; now right].
      eapply Qcle_trans; [|apply L; now left]. now apply Qcnot_lt_le.
Qed.
Lemma qmax_list_spec : forall l m, qmax_list l = Some m -> In m l /\ forall x, In x l -> (x <= m)%Qc.
Proof. intros [|a l] m H; [discriminate|]. injection H as <-. apply fold_max. Qed.
Lemma qmax_list_some : forall l, l <> [] -> exists m, qmax_list l = Some m.
Proof. intros [|a l] H; [easy|]. eexists. reflexivity. Qed.

(** Limits that are the smallest and the largest of some values; none if there are no values. *)
Definition is_range (lim : option (Qc * Qc)) (l : list Qc) : Prop :=
  match lim with None => l = [] | Some (a, b) => In a l /\ In b l /\ forall x, In x l -> (a <= x)%Qc /\ (x <= b)%Qc end.
Lemma span_range : forall l, is_range (span l) l.
Proof.
  intros [|a l]; [reflexivity|]. unfold span. cbn [qmin_list qmax_list is_range]. destruct (fold_min l a) as [I L], (fold_max l a) as [J M]. split; [exact I|]. split; [exact J|]. intros x X. auto.
Qed.

(** ** Tables *)
Lemma loc_in : forall V (t : list (nat * V)) k v, NoDup (map fst t) -> In (k, v) t -> loc k t = Ok v.
Proof.
  induction t as [|[k' v'] t IH]; intros k v N I; [destruct I|]. cbn [map fst] in N. apply NoDup_cons_iff in N as [NI N]. cbn [loc].
  destruct I as [I|I]; [injection I as -> ->; now rewrite Nat.eqb_refl|].
  destruct (Nat.eqb_spec k' k) as [ ->|]; [|now apply IH]. elim NI. apply in_map_iff. now exists (k, v).
Qed.
Lemma loc_out : forall V (t : list (nat * V)) k, ~ In k (map fst t) -> loc k t = Raise KeyError.
Proof.
  induction t as [|[k' v'] t IH]; intros k I; [reflexivity|]. cbn [loc]. destruct (Nat.eqb_spec k' k) as [ ->|]; [elim I; now left|]. apply IH. intro X. apply I. now right.
Qed.

(** ** Traces of calls *)
Lemma calls_app : forall n a b, do_calls n (a ++ b) = bind (do_calls n a) (foldM (do_call n) b).
Proof. intros n a b. apply foldM_app. Qed.
Lemma images_keep : forall n post s s', (forall c, In c post -> exists v, c = SetImage v) -> autoscale s = false -> foldM (do_call n) post s = Ok s' -> limits s' = limits s /\ autoscale s' = false /\ logarithmic s' = logarithmic s.
Proof.
  intros n post. induction post as [|c post IH]; intros s s' P A H; cbn [foldM] in H; [injection H as <-; auto|].
  destruct (P c (or_introl eq_refl)) as [v ->]. cbn [do_call] in H. destruct (negb _); [discriminate|]. cbn [autoscale] in H. rewrite A in H.
  apply IH in H; [|intros; apply P; now right|reflexivity]. exact H.
Qed.
Lemma calls_autoscale : forall n post s s', (forall a b, ~ In (SetLimitsMinmax a b) post) -> autoscale s = true -> foldM (do_call n) post s = Ok s' -> autoscale s' = true.
Proof.
  intros n post. induction post as [|c post IH]; intros s s' P A H; cbn [foldM] in H; [injection H as <-; auto|].
  destruct (do_call n s c) as [s1|] eqn:E; [|discriminate]. apply IH in H; [exact H|intros a b I; apply (P a b); now right|].
  destruct c as [v|a b| |]; cbn [do_call] in E.
  - destruct (negb _); [discriminate|]. cbn [autoscale] in E. rewrite A in E. injection E as <-. reflexivity.
  - elim (P a b). now left.
  - injection E as <-. exact A.
  - injection E as <-. reflexivity.
Qed.
(** The limits are those of what is shown. *)
Definition fitted (s : image_state) : Prop := limits s = limits (rescale s).
Lemma calls_fitted : forall n post s s', (forall a b, ~ In (SetLimitsMinmax a b) post) -> autoscale s = true -> fitted s \/ post <> [] -> foldM (do_call n) post s = Ok s' -> fitted s'.
Proof.
  intros n post. induction post as [|c post IH]; intros s s' P A F H; cbn [foldM] in H; [injection H as <-; destruct F; congruence|].
  destruct (do_call n s c) as [s1|] eqn:E; [|discriminate].
  assert (A1 : autoscale s1 = true). { apply (calls_autoscale n [c] s); [intros a b [I|[]]; apply (P a b); now left|exact A|]. cbn [foldM]. now rewrite E. }
  refine (IH s1 s' _ A1 (or_introl _) H); [intros a b I; apply (P a b); now right|].
  destruct c as [v|a b| |]; cbn [do_call] in E.
  - destruct (negb _); [discriminate|]. cbn [autoscale] in E. rewrite A in E. injection E as <-. reflexivity.
  - elim (P a b). now left.
  - injection E as <-. reflexivity.
  - injection E as <-. reflexivity.
Qed.
Definition last_image (n_pixels : nat) (cs : list call) : list (option Qc) := fold_left (fun im c => match c with SetImage v => v | _ => im end) cs (repeat (Some 0%Qc) n_pixels).
Lemma calls_shown : forall n cs s s', foldM (do_call n) cs s = Ok s' ->
  shown s' = fold_left (fun im c => match c with SetImage v => v | _ => im end) cs (shown s) /\
  logarithmic s' = (existsb (fun c => match c with SetZLog => true | _ => false end) cs || logarithmic s)%bool.
Proof.
  intros n cs. induction cs as [|c cs IH]; intros s s' H; cbn [foldM] in H; [injection H as <-; auto|].
  destruct (do_call n s c) as [s1|] eqn:E; [|discriminate]. destruct (IH _ _ H) as [ -> ->]. cbn [fold_left existsb].
  destruct c as [v|a b| |]; cbn [do_call] in E.
  - destruct (negb _); [discriminate|]. cbn [autoscale] in E. destruct (autoscale s); injection E as <-; auto.
  - injection E as <-. auto.
  - injection E as <-. split; [reflexivity|]. cbn [rescale logarithmic orb]. apply orb_true_r.
  - injection E as <-. auto.
Qed.

(** ** Grids *)
Lemma grid_values_in : forall g v, In v (grid_values g) <-> exists i j, cell g i j = Some (Val v).
Proof.
  intros g v. unfold grid_values. rewrite in_flat_map. split.
  - intros (c & I & J). apply in_concat in I as (r & R & C). apply In_nth_error in R as [i R]. apply In_nth_error in C as [j C]. exists i, j. unfold cell. rewrite R, C. destruct c; [destruct J|]. destruct J as [ ->|[]]. reflexivity.
  - intros (i & j & C). unfold cell in C. destruct (nth_error g i) as [r|] eqn:R; [|discriminate]. exists (Val v). split; [|now left]. apply in_concat. exists r. split; eapply nth_error_In; eauto.
Qed.

(** ** Pages of axes *)
Lemma highlight_length : forall mask c page page', highlight mask c page = Ok page' -> List.length page' = List.length page.
Proof.
  induction mask as [|b mask IH]; intros c [|a page] page' H; cbn [highlight] in H; try discriminate; [now injection H as <-..|].
  destruct (highlight mask c page) as [r|] eqn:E; [|discriminate]. injection H as <-. cbn [List.length]. f_equal. eauto.
Qed.
Lemma highlight_nth : forall mask c page page', highlight mask c page = Ok page' -> forall p,
  nth_error page' p = match nth_error page p with None => None | Some a => Some (if nth p mask false then all_spines {| visible := true; colour := c; linewidth := 1%Qc |} else a) end.
Proof.
  induction mask as [|b mask IH]; intros c [|a page] page' H p; cbn [highlight] in H; try discriminate.
  - injection H as <-. destruct p; reflexivity.
  - injection H as <-. assert (nth p [] false = false) as -> by (destruct p; reflexivity). destruct (nth_error (a :: page) p); reflexivity.
  - destruct (highlight mask c page) as [r|] eqn:E; [|discriminate]. injection H as <-. destruct p as [|p]; cbn [nth_error nth]; [reflexivity|]. now apply (IH c page).
Qed.
Lemma highlight_ok : forall mask c page, (List.length mask <= List.length page)%nat -> exists page', highlight mask c page = Ok page'.
Proof.
  induction mask as [|b mask IH]; intros c [|a page] L; cbn [highlight List.length] in *; [eauto|eauto|lia|]. destruct (IH c page) as [r ->]; [lia|]. eexists. reflexivity.
Qed.
Lemma highlight_long : forall mask c page, (List.length page < List.length mask)%nat -> highlight mask c page = Raise KeyError.
Proof.
  induction mask as [|b mask IH]; intros c [|a page] L; cbn [highlight List.length] in *; try lia; [reflexivity|]. rewrite IH by lia. reflexivity.
Qed.
Lemma reset_page : forall n_rows n_cols mapping page, List.length page = List.length mapping -> reset n_rows n_cols mapping page = pixel_page n_rows n_cols mapping.
Proof.
  intros nr nc mapping. induction mapping as [|rc mapping IH]; intros [|a page] L; try discriminate L; [reflexivity|]. cbn [reset]. unfold pixel_page in *. cbn [mapM].
  change (all_spines {| visible := true; colour := black; linewidth := thin |}) with new_axes. destruct (outline nr nc rc new_axes); [|reflexivity]. cbn [bind]. rewrite IH by (cbn [List.length] in L; lia). reflexivity.
Qed.

(** ** Outliers *)
Lemma outliers_spec : forall w thresh tm tmpixs o, outliers w thresh tm tmpixs = Ok o ->
  o = map (fun t => (t, (tm * 64 + t)%nat)) (filter (fun t => match nth_error w (tm * 64 + t) with Some wf => match qmax_list wf with Some m => qltb m thresh | None => false end | None => false end) tmpixs).
Proof.
  intros w th tm tmpixs. induction tmpixs as [|t ts IH]; intros o H; cbn [outliers] in H; [now injection H as <-|]. cbn [filter].
  destruct (nth_error w (tm * 64 + t)) as [wf|]; [|discriminate]. destruct (qmax_list wf) as [m|]; [|discriminate].
  destruct (outliers w th tm ts) as [r|] eqn:E; [|discriminate]. injection H as <-. rewrite (IH r eq_refl). destruct (qltb m th); reflexivity.
Qed.
Lemma outliers_ok : forall w thresh tm tmpixs, (forall t, In t tmpixs -> exists wf, nth_error w (tm * 64 + t) = Some wf /\ wf <> []) -> exists o, outliers w thresh tm tmpixs = Ok o.
Proof.
  intros w th tm tmpixs. induction tmpixs as [|t ts IH]; intros H; cbn [outliers]; [eauto|]. destruct (H t (or_introl eq_refl)) as (wf & -> & N). destruct (qmax_list_some wf N) as [m ->].
  destruct IH as [o ->]; [intros; apply H; now right|]. eexists. reflexivity.
Qed.
Lemma mapM_raise : forall A B (f : A -> res B) e l a, In a l -> (forall x, In x l -> (exists b, f x = Ok b) \/ f x = Raise e) -> f a = Raise e -> mapM f l = Raise e.
Proof.
  induction l as [|b l IH]; intros a I F E; [destruct I|]. cbn [mapM]. destruct (F b (or_introl eq_refl)) as [[y K]|K]; rewrite K; [|reflexivity].
  destruct I as [ ->|I]; [congruence|]. rewrite (IH a I); auto. intros x X. apply F. now right.
Qed.
Lemma seq_at : forall n p, (p < n)%nat -> nth_error (seq 0 n) p = Some p.
Proof. intros n p L. rewrite (nth_error_nth' _ 0%nat) by now rewrite seq_length. now rewrite seq_nth. Qed.
Lemma mapM_all : forall A B (f : A -> res B) l, (forall x, In x l -> exists b, f x = Ok b) -> exists r, mapM f l = Ok r.
Proof.
  induction l as [|a l IH]; intros F; [eexists; reflexivity|]. cbn [mapM]. destruct (F a (or_introl eq_refl)) as [b ->]. destruct IH as [r ->]; [intros; apply F; now right|]. eexists. reflexivity.
Qed.
Lemma mapM_nth : forall A B (f : A -> res B) l r, mapM f l = Ok r -> forall k a, nth_error l k = Some a -> exists b, nth_error r k = Some b /\ f a = Ok b.
Proof.
  intros A B f l r H. apply mapM_Ok_iff in H. induction H as [|a b l r F H IH]; intros k x K; [destruct k; discriminate|]. destruct k as [|k]; cbn [nth_error] in *; [injection K as <-; eauto|]. now apply IH.
Qed.
