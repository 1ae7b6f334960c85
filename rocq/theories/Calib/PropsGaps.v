(** Property C110: gaps in the data sheet of the SiPMs. *)
From Coq Require Import List ZArith QArith Qcanon String Bool Arith Permutation Sorted Lia.
From Verif.Base Require Import Py PyFacts Num Lst.
From Verif.Calib Require Import Model Proofs Proofs2 ModelGaps.
Import ListNotations.
Local Open Scope list_scope.
Local Open Scope Qc_scope.

(** ** Sorting *)
Definition leo (p q : point) : Prop := before (fst q) (fst p) = false.
Lemma leo_cases : forall p q, leo p q <-> match fst p, fst q with Some x, Some y => x <= y | Some _, None => True | None, Some _ => False | None, None => True end.
Proof.
  intros [[x|] y] [[x'|] y']; unfold leo; cbn; [|intuition discriminate..]. destruct (qltb_spec x' x) as [H|H]; split; intros E; auto; try discriminate.
  - exfalso. apply Qclt_not_le in H. contradiction.
  - now apply Qcnot_lt_le.
Qed.
Lemma leo_trans : forall p q r, leo p q -> leo q r -> leo p r.
Proof. intros [[x|] y] [[x'|] y'] [[x''|] y'']; rewrite !leo_cases; cbn; try tauto. apply Qcle_trans. Qed.
Lemma leo_total : forall p q, before (fst p) (fst q) = true -> leo p q.
Proof. intros [[x|] y] [[x'|] y']; rewrite leo_cases; cbn; auto; try discriminate. destruct (qltb_spec x x'); [intros _; now apply Qclt_le_weak|discriminate]. Qed.
Lemma put_perm : forall p l, Permutation (p :: l) (put p l).
Proof. intros p l. induction l as [|q l IH]; cbn; [auto|]. destruct (before (fst p) (fst q)); [auto|]. rewrite perm_swap. now apply perm_skip. Qed.
Lemma put_sorted : forall p l, StronglySorted leo l -> StronglySorted leo (put p l).
Proof.
  intros p l H. induction H as [|q l HL IH HF]; cbn; [repeat constructor|]. destruct (before (fst p) (fst q)) eqn:B.
  - constructor; [now constructor|]. apply leo_total in B. constructor; [exact B|]. eapply Forall_impl; [|exact HF]. intros r. now apply leo_trans.
  - constructor; [exact IH|]. eapply Permutation_Forall; [apply put_perm|]. now constructor.
Qed.
Lemma sorted_aux : forall l acc, StronglySorted leo acc -> Permutation (acc ++ l) (fold_left (fun a p => put p a) l acc) /\ StronglySorted leo (fold_left (fun a p => put p a) l acc).
Proof.
  induction l as [|p l IH]; intros acc H; cbn [fold_left]; [rewrite app_nil_r; auto|]. destruct (IH (put p acc) (put_sorted p acc H)) as [P Q]. split; [|exact Q].
  rewrite <- P. rewrite <- put_perm. cbn. symmetry. apply Permutation_middle.
Qed.
Lemma sorted_spec : forall l, Permutation l (sorted_points l) /\ StronglySorted leo (sorted_points l).
Proof. intros l. apply (sorted_aux l []). constructor. Qed.

(** ** Searching *)
Definition low (v : Qc) (p : point) : bool := not_below v (fst p).
Lemma split_at : forall v l, StronglySorted leo l -> l = filter (low v) l ++ filter (fun p => negb (low v p)) l.
Proof.
  intros v l H. induction H as [|p l HL IH HF]; [reflexivity|]. cbn [filter]. destruct (low v p) eqn:B; cbn [negb app]; [now f_equal|].
  assert (N : forall q, In q l -> low v q = false).
  { intros q Q. rewrite Forall_forall in HF. specialize (HF q Q). apply leo_cases in HF. unfold low, not_below in *. destruct (fst p) as [x|], (fst q) as [x'|]; auto; try contradiction. destruct (qleb_spec x v); [discriminate|]. destruct (qleb_spec x' v) as [L|L]; [|reflexivity]. exfalso. apply n. now apply Qcle_trans with x'. }
  assert (E : filter (low v) l = []). { clear - N. induction l as [|q l IH]; [reflexivity|]. cbn. rewrite (N q) by (now left). apply IH. intros r R. apply N. now right. }
  rewrite E. cbn [app]. f_equal. clear - N. induction l as [|q l IH]; [reflexivity|]. cbn. rewrite (N q) by (now left). cbn. f_equal. apply IH. intros r R. apply N. now right.
Qed.
Lemma interp_split : forall v A p B, (forall q, In q A -> low v q = true) -> low v p = true -> (forall q, In q B -> low v q = false) ->
  gap_interp (A ++ p :: B) v = match B with [] => snd p | q :: _ => segment p q v end.
Proof.
  intros v A p B HA HP HB. induction A as [|a A IH].
  - cbn [app]. destruct B as [|q B]; [reflexivity|]. cbn [gap_interp]. specialize (HB q (or_introl eq_refl)). unfold low in HB. now rewrite HB.
  - cbn [app]. rewrite <- IH by (intros; apply HA; now right). destruct A as [|a' A]; cbn [app gap_interp].
    + unfold low in HP. now rewrite HP.
    + specialize (HA a' (or_intror (or_introl eq_refl))). unfold low in HA. now rewrite HA.
Qed.

(** ** Rows of a table *)
Lemma row_in : forall A B (xs : list A) (ys : list B) i x y, nth_error xs i = Some x -> nth_error ys i = Some y -> In (x, y) (combine xs ys).
Proof. intros A B xs ys i x y X Y. apply nth_error_In with i. now rewrite nth_error_combine, X, Y. Qed.
Lemma in_row : forall A B (xs : list A) (ys : list B) x y, In (x, y) (combine xs ys) -> exists i, nth_error xs i = Some x /\ nth_error ys i = Some y.
Proof. intros A B xs ys x y I. apply In_nth_error in I as [i I]. exists i. rewrite nth_error_combine in I. destruct (nth_error xs i), (nth_error ys i); try discriminate. now injection I as -> ->. Qed.
Lemma nth_ex : forall A (l : list A) n m i x, nth_error l i = Some x -> List.length l = n -> n = m -> forall B (l' : list B), List.length l' = m -> exists y, nth_error l' i = Some y.
Proof. intros A l n m i x X L E B l' L'. destruct (nth_error l' i) eqn:N; [eauto|]. apply nth_error_None in N. assert (i < List.length l)%nat by (apply nth_error_Some; congruence). lia. Qed.

(** No two rows have the same value of the abscissa. *)
Definition unique (xs : list (option Qc)) : Prop := forall i j a, nth_error xs i = Some (Some a) -> nth_error xs j = Some (Some a) -> i = j.

Lemma filter_last : forall A (f : A -> bool) l, (exists x, In x l /\ f x = true) -> exists B x, filter f l = B ++ [x].
Proof. intros A f l (x & I & F). destruct (filter f l) as [|y t] eqn:E; [assert (In x []) as [] by (rewrite <- E; now apply filter_In)|]. destruct (@exists_last _ (y :: t)) as (B & z & Z); [discriminate|]. eauto. Qed.
Lemma sorted_last : forall A p, StronglySorted leo (A ++ [p]) -> forall q, In q (A ++ [p]) -> leo q p.
Proof.
  intros A p H q I. induction A as [|a A IH]; cbn in *.
  - destruct I as [<-|[]]. apply leo_cases. destruct (fst p); [apply Qcle_refl|exact Logic.I].
  - inversion_clear H as [|? ? H1 H2]. destruct I as [<-|I]; [|now apply IH]. rewrite Forall_forall in H2. apply H2. apply in_or_app. right. now left.
Qed.
Lemma filter_sorted : forall f l, StronglySorted leo l -> StronglySorted leo (filter f l).
Proof.
  intros f l H. induction H as [|p l HL IH HF]; cbn; [constructor|]. destruct (f p); [|exact IH]. constructor; [exact IH|]. rewrite Forall_forall in *. intros q Q. apply filter_In in Q as [Q _]. auto.
Qed.

(** What is found for a value that is not below all abscissae: the row [i] of the largest abscissa not above it, and the next one. *)
Lemma find : forall xs ys v i a y, unique xs -> List.length ys = List.length xs -> nth_error xs i = Some (Some a) -> nth_error ys i = Some y -> a <= v -> (forall j c, nth_error xs j = Some (Some c) -> c <= v -> c <= a) ->
  let pts := sorted_points (combine xs ys) in exists A B, pts = A ++ (Some a, y) :: B /\ (forall q, In q B -> low v q = false /\ In q (combine xs ys)) /\ StronglySorted leo B /\
  (forall q, In q (combine xs ys) -> low v q = false -> In q B) /\ gap_interp pts v = match B with [] => y | q :: _ => segment (Some a, y) q v end.
Proof.
  intros xs ys v i a y U L X Y AV MX pts. destruct (sorted_spec (combine xs ys)) as [P S]. fold pts in P, S. pose proof (split_at v pts S) as SP.
  assert (LA : low v (Some a, y) = true) by (unfold low, not_below; cbn; now destruct (qleb_spec a v)).
  assert (IA : In (Some a, y) pts) by (eapply Permutation_in; [exact P|]; now apply row_in with i).
  destruct (filter_last _ (low v) pts) as (A & p & E); [eauto|]. pose proof (filter_sorted (low v) pts S) as SF. rewrite E in SF.
  assert (IP : In p (filter (low v) pts)) by (rewrite E; apply in_or_app; right; now left). apply filter_In in IP as [IP LP].
  assert (p = (Some a, y)) as ->.
  { pose proof (sorted_last A p SF (Some a, y)) as LE. rewrite <- E in LE. specialize (LE (proj2 (filter_In _ _ _) (conj IA LA))). apply leo_cases in LE. destruct p as [[c|] y']; cbn in LE; [|discriminate LP].
    eapply Permutation_in in IP; [|symmetry; exact P]. apply in_row in IP as (j & J1 & J2). unfold low, not_below in LP. cbn in LP. destruct (qleb_spec c v) as [CV|]; [|discriminate]. pose proof (MX j c J1 CV) as CA.
    assert (c = a) as -> by (now apply Qcle_antisym). rewrite (U j i a J1 X) in J2. congruence. }
  set (B := filter (fun p => negb (low v p)) pts) in *. exists A, B. rewrite E, <- app_assoc in SP. cbn [app] in SP. split; [exact SP|].
  assert (HB : forall q, In q B -> low v q = false /\ In q (combine xs ys)). { intros q Q. apply filter_In in Q as [Q1 Q2]. split; [now apply negb_true_iff|]. eapply Permutation_in; [symmetry; exact P|exact Q1]. }
  split; [exact HB|]. split; [now apply filter_sorted|]. split; [intros q Q1 Q2; apply filter_In; split; [eapply Permutation_in; [exact P|exact Q1]|now rewrite Q2]|].
  rewrite SP. apply interp_split; [|exact LA|intros q Q; now apply HB]. intros q Q. assert (In q (filter (low v) pts)) as F by (rewrite E; apply in_or_app; now left). now apply filter_In in F.
Qed.

(** ** The bounds *)
Lemma bounds : forall xs ys v i a, List.length ys = List.length xs -> nth_error xs i = Some (Some a) ->
  gap_interp1d xs ys v = if (match sorted_points (combine xs ys) with [] => true | p :: _ => less (Some v) (fst p) || less (fst (last (sorted_points (combine xs ys)) p)) (Some v) end) then Raise ValueError else Ok (gap_interp (sorted_points (combine xs ys)) v).
Proof. intros xs ys v i a L X. unfold gap_interp1d. rewrite L, Nat.eqb_refl. cbn [negb]. destruct (sorted_points (combine xs ys)) as [|p l]; [reflexivity|]. destruct (less (Some v) (fst p)); [reflexivity|]. cbn [orb]. now destruct (less _ _). Qed.
Lemma head_least : forall p l q, StronglySorted leo (p :: l) -> In q (p :: l) -> leo p q.
Proof. intros p l q H [<-|I]; [apply leo_cases; destruct (fst p); [apply Qcle_refl|exact Logic.I]|]. inversion_clear H as [|? ? _ F]. rewrite Forall_forall in F. auto. Qed.
Lemma last_in : forall A (l : list A) p, l <> [] -> In (last l p) l.
Proof. intros A l p N. rewrite (app_removelast_last p N) at 2. apply in_or_app. right. now left. Qed.
Lemma last_greatest : forall l p q, StronglySorted leo l -> In q l -> leo q (last l p).
Proof. intros l p q H I. assert (N : l <> []) by (intros ->; contradiction). rewrite (app_removelast_last p N) in H, I. now apply sorted_last with (removelast l). Qed.
Lemma not_less : forall v p q, leo p q -> match fst q with Some c => c <= v | None => False end -> less (Some v) (fst p) = false.
Proof. intros v p q H K. apply leo_cases in H. destruct (fst p) as [x|], (fst q) as [y|]; cbn in *; try contradiction. destruct (qltb_spec v x) as [L|]; [|reflexivity]. exfalso. apply Qclt_not_le in L. apply L. now apply Qcle_trans with y. Qed.
Lemma not_above : forall v p q, leo p q -> match fst p with Some c => v <= c | None => True end -> less (fst q) (Some v) = false.
Proof. intros v p q H K. apply leo_cases in H. destruct (fst p) as [x|], (fst q) as [y|]; cbn in *; try contradiction; try reflexivity. destruct (qltb_spec y v) as [L|]; [|reflexivity]. exfalso. apply Qclt_not_le in L. apply L. now apply Qcle_trans with x. Qed.
Lemma in_bounds : forall xs ys v i k a x, List.length ys = List.length xs -> nth_error xs i = Some (Some a) -> a <= v -> nth_error xs k = Some x -> match x with Some b => v <= b | None => True end ->
  gap_interp1d xs ys v = Ok (gap_interp (sorted_points (combine xs ys)) v).
Proof.
  intros xs ys v i k a x L X AV Y BV. rewrite (bounds xs ys v i a L X). destruct (sorted_spec (combine xs ys)) as [P S]. set (pts := sorted_points (combine xs ys)) in *.
  destruct (nth_ex _ xs _ _ i _ X eq_refl eq_refl _ ys L) as [y1 Y1]. destruct (nth_ex _ xs _ _ k _ Y eq_refl eq_refl _ ys L) as [y2 Y2].
  pose proof (Permutation_in _ P (row_in _ _ _ _ _ _ _ X Y1)) as I1. pose proof (Permutation_in _ P (row_in _ _ _ _ _ _ _ Y Y2)) as I2.
  destruct pts as [|p l]; [destruct I1|]. rewrite (not_less v p _ (head_least _ _ _ S I1) AV). rewrite (not_above v _ _ (last_greatest _ p _ S I2)); [reflexivity|exact BV].
Qed.

Lemma interp_row : forall xs ys v i y, unique xs -> List.length ys = List.length xs -> nth_error xs i = Some (Some v) -> nth_error ys i = Some y -> gap_interp1d xs ys v = Ok y.
Proof.
  intros xs ys v i y U L X Y. rewrite (in_bounds xs ys v i i v (Some v) L X (Qcle_refl v) X (Qcle_refl v)). f_equal.
  destruct (find xs ys v i v y U L X Y (Qcle_refl v)) as (A & B & _ & _ & _ & _ & ->); [auto|]. destruct B as [|q B]; [reflexivity|]. unfold segment. cbn [fst snd]. now destruct (qeqb_spec v v).
Qed.

Lemma interp_between : forall xs ys v i k a b y1 y2, unique xs -> List.length ys = List.length xs -> nth_error xs i = Some (Some a) -> nth_error xs k = Some (Some b) -> a < v -> v < b ->
  (forall j c, nth_error xs j = Some (Some c) -> c <= a \/ b <= c) -> nth_error ys i = Some y1 -> nth_error ys k = Some y2 ->
  gap_interp1d xs ys v = Ok (match y1, y2 with Some p, Some q => Some (p + (q - p) * ((v - a) / (b - a))) | _, _ => None end).
Proof.
  intros xs ys v i k a b y1 y2 U L X1 X2 AV VB ADJ Y1 Y2. rewrite (in_bounds xs ys v i k a (Some b) L X1 (Qclt_le_weak _ _ AV) X2 (Qclt_le_weak _ _ VB)). f_equal.
  destruct (find xs ys v i a y1 U L X1 Y1 (Qclt_le_weak _ _ AV)) as (A & B & _ & HB & SB & IB & ->).
  { intros j c J CV. destruct (ADJ j c J) as [|G]; [assumption|]. exfalso. apply Qclt_not_le in VB. apply VB. now apply Qcle_trans with c. }
  assert (I2 : In (Some b, y2) B). { apply IB; [now apply row_in with k|]. unfold low, not_below. cbn. destruct (qleb_spec b v) as [G|]; [|reflexivity]. exfalso. apply Qclt_not_le in VB. contradiction. }
  destruct B as [|q B]; [destruct I2|]. assert (q = (Some b, y2)) as ->.
  { pose proof (head_least _ _ _ SB I2) as LE. apply leo_cases in LE. destruct (HB q (or_introl eq_refl)) as [LQ IQ]. destruct q as [[c|] y']; cbn [fst] in LE; [|contradiction]. apply in_row in IQ as (j & J1 & J2).
    unfold low, not_below in LQ. cbn in LQ. destruct (qleb_spec c v) as [|CV]; [discriminate|]. apply Qcnot_le_lt in CV. assert (c = b) as ->. { destruct (ADJ j c J1) as [G|G]; [|now apply Qcle_antisym]. exfalso. apply Qclt_not_le in CV. apply CV. apply Qcle_trans with a; [exact G|now apply Qclt_le_weak]. }
    rewrite (U j k b J1 X2) in J2. congruence. }
  unfold segment. cbn [fst snd]. destruct (qeqb_spec a v) as [->|_]; [now apply Qclt_not_eq in AV|]. destruct y1 as [p|], y2 as [r|]; try reflexivity. f_equal. field. intros E. assert (a < b) as AB by (now apply Qclt_trans with v). apply Qclt_not_eq in AB. apply AB. rewrite <- (Qcplus_0_l a), <- E. ring.
Qed.

Lemma interp_below : forall xs ys v i a, List.length ys = List.length xs -> nth_error xs i = Some (Some a) -> (forall j c, nth_error xs j = Some (Some c) -> v < c) -> gap_interp1d xs ys v = Raise ValueError.
Proof.
  intros xs ys v i a L X MN. rewrite (bounds xs ys v i a L X). destruct (sorted_spec (combine xs ys)) as [P S]. set (pts := sorted_points (combine xs ys)) in *.
  destruct (nth_ex _ xs _ _ i _ X eq_refl eq_refl _ ys L) as [y1 Y1]. pose proof (Permutation_in _ P (row_in _ _ _ _ _ _ _ X Y1)) as I1. destruct pts as [|p l]; [destruct I1|].
  pose proof (head_least _ _ _ S I1) as LE. apply leo_cases in LE. destruct p as [[c|] y']; [|destruct LE]. assert (In (Some c, y') (combine xs ys)) as IC by (eapply Permutation_in; [symmetry; exact P|now left]). apply in_row in IC as (j & J & _).
  cbn [fst less]. destruct (qltb_spec v c) as [|N]; [reflexivity|]. exfalso. apply N. now apply (MN j).
Qed.
Lemma interp_above : forall xs ys v i a, List.length ys = List.length xs -> nth_error xs i = Some (Some a) -> ~ In None xs -> (forall j c, nth_error xs j = Some (Some c) -> c < v) -> gap_interp1d xs ys v = Raise ValueError.
Proof.
  intros xs ys v i a L X NG MX. rewrite (bounds xs ys v i a L X). destruct (sorted_spec (combine xs ys)) as [P S]. set (pts := sorted_points (combine xs ys)) in *.
  destruct pts as [|p l]; [reflexivity|]. assert (In (last (p :: l) p) (combine xs ys)) as IL by (eapply Permutation_in; [symmetry; exact P|apply last_in; discriminate]). destruct (last (p :: l) p) as [x y]. apply in_row in IL as (j & J & _).
  destruct x as [c|]; [|exfalso; apply NG; now apply nth_error_In with j]. cbn [fst]. assert (less (Some c) (Some v) = true) as ->; [|now rewrite orb_true_r]. cbn [less]. destruct (qltb_spec c v) as [|N]; [reflexivity|]. exfalso. apply N. now apply (MX j).
Qed.
Lemma interp_gap : forall xs ys v i k a, unique xs -> List.length ys = List.length xs -> nth_error xs i = Some (Some a) -> (forall j c, nth_error xs j = Some (Some c) -> c <= a) -> a < v -> nth_error xs k = Some None ->
  exists y, gap_interp1d xs ys v = Ok y /\ (y = None \/ exists j, nth_error xs j = Some None /\ nth_error ys i = Some y /\ nth_error ys j = Some y).
Proof.
  intros xs ys v i k a U L X MX AV Y. eexists. split; [now apply (in_bounds xs ys v i k a None L X (Qclt_le_weak _ _ AV) Y)|].
  destruct (nth_ex _ xs _ _ i _ X eq_refl eq_refl _ ys L) as [y1 Y1]. destruct (nth_ex _ xs _ _ k _ Y eq_refl eq_refl _ ys L) as [y2 Y2].
  destruct (find xs ys v i a y1 U L X Y1 (Qclt_le_weak _ _ AV)) as (A & B & _ & HB & SB & IB & ->); [intros j c J _; now apply (MX j)|].
  assert (I2 : In (None, y2) B) by (apply IB; [now apply row_in with k|reflexivity]). destruct B as [|q B]; [destruct I2|]. destruct (HB q (or_introl eq_refl)) as [LQ IQ]. destruct q as [[c|] y']; apply in_row in IQ as (j & J1 & J2).
  - exfalso. unfold low, not_below in LQ. cbn in LQ. destruct (qleb_spec c v) as [|CV]; [discriminate|]. apply CV. apply Qcle_trans with a; [now apply (MX j)|now apply Qclt_le_weak].
  - unfold segment. cbn [fst snd]. destruct (qeqb_spec a v) as [->|_]; [now apply Qclt_not_eq in AV|]. destruct y1 as [p|], y' as [r|]; auto. destruct (qeqb_spec p r) as [->|_]; [|auto]. right. exists j. auto.
Qed.

(** ** The converter *)
(** The call with the single named argument [key=v]. *)
Definition gap_convert_named (df : gtable) (key : string) (v : Qc) : res (dict (option Qc)) :=
  let arg name := if String.eqb key name then Some v else None in
  (gap_convert df (arg "vover") (arg "opct") (arg "pde") (arg "gain"))%string.
Lemma gap_named : forall df key v, In key ["vover"; "opct"; "pde"; "gain"]%string ->
  gap_convert_named df key v = (do x <- dlookup key df; mapM (fun col => rmap (fun y => (fst col, y)) (gap_interp1d x (snd col) v)) df)%py.
Proof. intros df key v [<-|[<-|[<-|[<-|[]]]]]; reflexivity. Qed.
Lemma lift_ok : forall df key v xs (P : list (option Qc) -> option Qc -> Prop), In key ["vover"; "opct"; "pde"; "gain"]%string -> dlookup key df = Ok xs ->
  (forall col, In col df -> exists y, gap_interp1d xs (snd col) v = Ok y /\ P (snd col) y) ->
  exists r, gap_convert_named df key v = Ok r /\ map fst r = map fst df /\ forall c name ys, nth_error df c = Some (name, ys) -> exists y, nth_error r c = Some (name, y) /\ P ys y.
Proof.
  intros df key v xs P K D H. rewrite gap_named, D by exact K. cbn [bind]. destruct (mapM_ok_all _ _ (fun col => rmap (fun y => (fst col, y)) (gap_interp1d xs (snd col) v)) df) as [r E].
  { intros col C. destruct (H col C) as (y & -> & _). eexists; reflexivity. }
  exists r. split; [exact E|]. assert (G : forall c name ys, nth_error df c = Some (name, ys) -> exists y, nth_error r c = Some (name, y) /\ P ys y).
  { intros c name ys C. destruct (mapM_nth _ _ _ _ _ c _ E C) as (q & Q & NE). cbn [fst snd] in Q. destruct (H (name, ys) (nth_error_In _ _ C)) as (y & EY & PY). cbn [snd] in EY, PY. rewrite EY in Q. injection Q as <-. eauto. }
  split; [|exact G]. apply list_ext. intro c. rewrite !nth_error_map. destruct (nth_error df c) as [[name ys]|] eqn:C.
  - destruct (G c name ys C) as (y & -> & _). reflexivity.
  - apply nth_error_None in C. apply mapM_length in E. rewrite (proj2 (nth_error_None r c)) by lia. reflexivity.
Qed.
Lemma lift_raise : forall df key v xs, In key ["vover"; "opct"; "pde"; "gain"]%string -> dlookup key df = Ok xs -> (forall col, In col df -> gap_interp1d xs (snd col) v = Raise ValueError) -> gap_convert_named df key v = Raise ValueError.
Proof. intros df key v xs K D H. rewrite gap_named, D by exact K. cbn [bind]. destruct df as [|col df]; [discriminate|]. cbn [mapM]. now rewrite (H col (or_introl eq_refl)). Qed.

(** ** C110 *)
Definition names : list string := ["vover"; "opct"; "pde"; "gain"]%string.
(** All columns have the rows of the column [key], [xs], whose values are different. *)
Definition sheet_with (df : gtable) (key : string) (xs : list (option Qc)) : Prop :=
  In key names /\ dlookup key df = Ok xs /\ unique xs /\ forall col, In col df -> List.length (snd col) = List.length xs.

(** A value of the sheet gives its row, with the gaps it has. *)
Theorem C110_row : forall df key xs v i, sheet_with df key xs -> nth_error xs i = Some (Some v) ->
  exists r, gap_convert_named df key v = Ok r /\ map fst r = map fst df /\
  forall c name ys, nth_error df c = Some (name, ys) -> exists y, nth_error r c = Some (name, y) /\ nth_error ys i = Some y.
Proof.
  intros df key xs v i (K & D & U & L) X. apply (lift_ok df key v xs (fun ys y => nth_error ys i = Some y) K D). intros col C.
  destruct (nth_ex _ xs _ _ i _ X eq_refl eq_refl _ (snd col) (L col C)) as [y Y]. exists y. split; [|exact Y]. now apply interp_row with i; auto.
Qed.
Print Assumptions C110_row.
(** Other values are interpolated between the rows of the nearest values of [key], whatever rows without one lie between; the result is NaN exactly if one of the two rows has a gap. *)
Theorem C110_between : forall df key xs v i k a b, sheet_with df key xs -> nth_error xs i = Some (Some a) -> nth_error xs k = Some (Some b) -> a < v -> v < b ->
  (forall j c, nth_error xs j = Some (Some c) -> c <= a \/ b <= c) ->
  exists r, gap_convert_named df key v = Ok r /\ map fst r = map fst df /\
  forall c name ys, nth_error df c = Some (name, ys) -> exists y y1 y2, nth_error r c = Some (name, y) /\ nth_error ys i = Some y1 /\ nth_error ys k = Some y2 /\
    (y = None <-> y1 = None \/ y2 = None) /\ (forall p q, y1 = Some p -> y2 = Some q -> y = Some (p + (q - p) * ((v - a) / (b - a)))).
Proof.
  intros df key xs v i k a b (K & D & U & L) X1 X2 AV VB ADJ.
  destruct (lift_ok df key v xs (fun ys y => exists y1 y2, nth_error ys i = Some y1 /\ nth_error ys k = Some y2 /\ y = match y1, y2 with Some p, Some q => Some (p + (q - p) * ((v - a) / (b - a))) | _, _ => None end) K D) as (r & R & N & G).
  - intros col C. destruct (nth_ex _ xs _ _ i _ X1 eq_refl eq_refl _ (snd col) (L col C)) as [y1 Y1]. destruct (nth_ex _ xs _ _ k _ X2 eq_refl eq_refl _ (snd col) (L col C)) as [y2 Y2].
    eexists. split; [exact (interp_between xs (snd col) v i k a b y1 y2 U (L col C) X1 X2 AV VB ADJ Y1 Y2)|]. eauto.
  - exists r. split; [exact R|]. split; [exact N|]. intros c name ys C. destruct (G c name ys C) as (y & E & y1 & y2 & Y1 & Y2 & ->). do 3 eexists. split; [exact E|]. split; [exact Y1|]. split; [exact Y2|]. split.
    + destruct y1, y2; split; intros F; auto; try discriminate; destruct F; discriminate.
    + now intros p q -> ->.
Qed.
Print Assumptions C110_between.
(** Values below the sheet are refused, and values above it if the column has no gap. *)
Theorem C110_refused : forall df key xs v, sheet_with df key xs -> (exists i a, nth_error xs i = Some (Some a)) ->
  (forall j c, nth_error xs j = Some (Some c) -> v < c) \/ (~ In None xs /\ forall j c, nth_error xs j = Some (Some c) -> c < v) -> gap_convert_named df key v = Raise ValueError.
Proof.
  intros df key xs v (K & D & U & L) (i & a & X) H. apply (lift_raise df key v xs K D). intros col C. destruct H as [H|[N H]]; [now apply (interp_below xs _ v i a); auto|now apply (interp_above xs _ v i a); auto].
Qed.
Print Assumptions C110_refused.
(** Above a column with gaps nothing is refused: the result is NaN, or a value that the last row has in common with a row in which [key] is missing. *)
Theorem C110_above_refuted : forall df key xs v i a, sheet_with df key xs -> In None xs -> nth_error xs i = Some (Some a) -> (forall j c, nth_error xs j = Some (Some c) -> c <= a) -> a < v ->
  exists r, gap_convert_named df key v = Ok r /\ map fst r = map fst df /\
  forall c name ys, nth_error df c = Some (name, ys) -> exists y, nth_error r c = Some (name, y) /\ (ys = xs -> y = None) /\ (y = None \/ exists j, nth_error xs j = Some None /\ nth_error ys i = Some y /\ nth_error ys j = Some y).
Proof.
  intros df key xs v i a (K & D & U & L) G X MX AV. apply In_nth_error in G as [k Y].
  destruct (lift_ok df key v xs (fun ys y => y = None \/ exists j, nth_error xs j = Some None /\ nth_error ys i = Some y /\ nth_error ys j = Some y) K D) as (r & R & N & W).
  - intros col C. now apply (interp_gap xs (snd col) v i k a U (L col C) X MX AV Y).
  - exists r. split; [exact R|]. split; [exact N|]. intros c name ys C. destruct (W c name ys C) as (y & E & F). exists y. split; [exact E|]. split; [|exact F]. intros ->. destruct F as [F|(j & J1 & J2 & J3)]; [exact F|congruence].
Qed.
Print Assumptions C110_above_refuted.

(** Without gaps it is the converter of C52. *)
Definition full (df : table) : gtable := map (fun col => (fst col, map Some (snd col))) df.
Definition some2 (p : Qc * Qc) : point := (Some (fst p), Some (snd p)).
Lemma put_full : forall p l, put (some2 p) (map some2 l) = map some2 (sort_insert p l).
Proof. intros p l. induction l as [|q l IH]; [reflexivity|]. cbn. destruct (qltb (fst p) (fst q)); [reflexivity|]. cbn. now f_equal. Qed.
Lemma sorted_full : forall l acc, fold_left (fun a p => put p a) (map some2 l) (map some2 acc) = map some2 (fold_left (fun a p => sort_insert p a) l acc).
Proof. induction l as [|p l IH]; intros acc; [reflexivity|]. cbn. rewrite put_full. apply IH. Qed.
Lemma combine_full : forall xs ys, combine (map Some xs) (map Some ys) = map some2 (combine xs ys).
Proof. induction xs as [|x xs IH]; intros [|y ys]; cbn; [reflexivity..|]. now rewrite IH. Qed.
Lemma interp_full : forall l v, l <> [] -> gap_interp (map some2 l) v = Some (np_interp l v).
Proof.
  induction l as [|[x1 y1] [|[x2 y2] l] IH]; intros v N; [contradiction|reflexivity|]. cbn [map gap_interp np_interp some2 fst snd not_below segment] in *.
  destruct (qleb_spec x2 v) as [H|H], (qltb_spec v x2) as [G|G].
  - apply Qclt_not_le in G. contradiction.
  - now apply IH.
  - destruct (qeqb_spec x1 v) as [->|_]; [|reflexivity]. f_equal. unfold Qcdiv. ring.
  - exfalso. apply H. now apply Qcnot_lt_le.
Qed.
Lemma interp1d_full : forall xs ys v, gap_interp1d (map Some xs) (map Some ys) v = rmap Some (interp1d xs ys v).
Proof.
  intros xs ys v. unfold gap_interp1d, interp1d. rewrite !map_length. destruct (negb _); [reflexivity|]. cbv zeta. unfold sorted_points, sort_points. rewrite combine_full. pose proof (sorted_full (combine xs ys) []) as E. cbn [map] in E. rewrite E. clear E.
  destruct (fold_left _ (combine xs ys) []) as [|p l]; [reflexivity|]. cbn [map]. change (some2 p :: map some2 l) with (map some2 (p :: l)). cbn [fst some2 less]. destruct (qltb v (fst p)); [reflexivity|].
  assert (last (map some2 (p :: l)) (some2 p) = some2 (last (p :: l) p)) as ->. { generalize (p :: l). intros L. induction L as [|q [|q' L] IH]; [reflexivity..|]. exact IH. }
  cbn [fst some2 less]. destruct (qltb _ v); [reflexivity|]. rewrite interp_full by discriminate. reflexivity.
Qed.
Theorem C110_no_gaps : forall df vover opct pde gain, gap_convert (full df) vover opct pde gain = rmap (map (fun e => (fst e, Some (snd e)))) (convert df vover opct pde gain).
Proof.
  intros df vover opct pde gain. unfold gap_convert, convert. cbv zeta. change gap_is_set with is_set. destruct (negb _); [reflexivity|]. destruct (filter is_set _) as [|[key [v|]] l]; [reflexivity| |reflexivity].
  assert (dlookup key (full df) = rmap (map Some) (dlookup key df)) as ->. { unfold dlookup, full. induction df as [|[k x] df IH]; [reflexivity|]. cbn. destruct (String.eqb key k); [reflexivity|exact IH]. }
  destruct (dlookup key df) as [x|e]; [|reflexivity]. cbn [bind rmap]. unfold full. induction df as [|[k y] df IH]; [reflexivity|]. cbn [map mapM fst snd]. rewrite interp1d_full. destruct (interp1d x y v) as [w|e]; cbn [rmap bind]; [|reflexivity]. rewrite IH. now destruct (mapM _ df).
Qed.
Print Assumptions C110_no_gaps.

(** ** The data sheet that comes with the code *)
Fixpoint rising (prev : Q) (l : list (option Qc)) : bool := match l with [] => true | None :: t => rising prev t | Some x :: t => Qle_bool prev (this x) && negb (Qeq_bool prev (this x)) && rising (this x) t end.
Lemma rising_above : forall l p j c, rising p l = true -> nth_error l j = Some (Some c) -> (p < this c)%Q.
Proof.
  induction l as [|[x|] l IH]; intros p j c H N; [destruct j; discriminate| |]; cbn in H.
  - apply andb_true_iff in H as [H H2]. apply andb_true_iff in H as [H0 H1]. apply Qle_bool_iff in H0. apply negb_true_iff in H1. apply Qeq_bool_neq in H1. assert (p < this x)%Q as PX by (apply Qle_lteq in H0 as [|E]; [assumption|contradiction]).
    destruct j as [|j]; cbn in N; [now injection N as <-|]. apply Qlt_trans with (this x); [exact PX|now apply (IH _ j)].
  - destruct j as [|j]; [discriminate|]. now apply (IH _ j).
Qed.
Lemma rising_unique : forall l p, rising p l = true -> unique l.
Proof.
  induction l as [|[x|] l IH]; intros p H [|i] [|j] a X Y; cbn in *; try discriminate; auto.
  - injection X as ->. apply andb_true_iff in H as [_ H]. apply (rising_above _ _ j a) in H; [|exact Y]. now apply Qlt_irrefl in H.
  - injection Y as ->. apply andb_true_iff in H as [_ H]. apply (rising_above _ _ i a) in H; [|exact X]. now apply Qlt_irrefl in H.
  - f_equal. apply andb_true_iff in H as [_ H]. now apply (IH _ H i j a).
  - f_equal. now apply (IH _ H i j a).
Qed.
Definition shape (r : res (dict (option Qc))) : res (list (string * bool)) := rmap (map (fun e => (fst e, match snd e with Some _ => true | None => false end))) r.
Definition check (df : gtable) (xs : list (option Qc)) (i : nat) : bool :=
  rising 0 xs && forallb (fun col => List.length (snd col) =? List.length xs)%nat df &&
  match nth_error xs i with
  | Some (Some a) => forallb (fun x => match x with Some c => Qle_bool (this c) (this a) | None => true end) xs && Qle_bool (this a) 10000000 &&
      existsb (fun x => match x with None => true | _ => false end) xs &&
      forallb (fun col => forallb (fun p => match fst p, snd p, nth_error (snd col) i with None, Some y, Some (Some y') => negb (Qeq_bool (this y) (this y')) | _, _, _ => true end) (combine xs (snd col))) df
  | _ => false
  end.
Lemma check_spec : forall df key xs i v, In key names -> dlookup key df = Ok xs -> check df xs i = true -> qz 10000000 < v ->
  exists r, gap_convert_named df key v = Ok r /\ forall c, nth_error (map snd r) c = Some None \/ nth_error (map snd r) c = None.
Proof.
  intros df key xs i v K D C V. unfold check in C. destruct (nth_error xs i) as [[a|]|] eqn:X; [|rewrite andb_false_r in C; discriminate..]. apply andb_true_iff in C as [C C1]. apply andb_true_iff in C as [C CL]. apply andb_true_iff in C1 as [C1 C5]. apply andb_true_iff in C1 as [C1 CN]. apply andb_true_iff in C1 as [CM CA].
  rewrite forallb_forall in CM, CL, C5. apply existsb_exists in CN as (x & XN & XE). destruct x; [discriminate|]. apply Qle_bool_iff in CA.
  destruct (C110_above_refuted df key xs v i a) as (r & R & N & W).
  - repeat split; auto. + now apply rising_unique with 0%Q. + intros col IC. apply Nat.eqb_eq. now apply CL.
  - exact XN.
  - exact X.
  - intros j c J. specialize (CM (Some c) (nth_error_In _ _ J)). now apply Qle_bool_iff in CM.
  - apply Qcle_lt_trans with (qz 10000000); [|exact V]. unfold Qcle. eapply Qle_trans; [exact CA|]. vm_compute. discriminate.
  - exists r. split; [exact R|]. intros c. rewrite nth_error_map. destruct (nth_error r c) as [[name y]|] eqn:E; [|now right]. left. cbn. f_equal.
    assert (exists ys, nth_error df c = Some (name, ys)) as [ys Y]. { assert (nth_error (map fst r) c = nth_error (map fst df) c) as M by (now rewrite N). rewrite !nth_error_map, E in M. destruct (nth_error df c) as [[name' ys]|]; [|discriminate]. injection M as <-. eauto. }
    destruct (W c name ys Y) as (y' & E' & _ & F). assert (y' = y) as -> by congruence. destruct F as [F|(j & J1 & J2 & J3)]; [exact F|]. destruct y as [y|]; [|reflexivity]. exfalso.
    specialize (C5 (name, ys) (nth_error_In _ _ Y)). rewrite forallb_forall in C5. specialize (C5 (None, Some y) (row_in _ _ xs ys j None (Some y) J1 J3)). cbn [fst snd] in C5. rewrite J2 in C5. apply negb_true_iff in C5. apply Qeq_bool_neq in C5. apply C5. reflexivity.
Qed.
Definition column_of (key : string) : list (option Qc) := match dlookup key data_sheet with Ok xs => xs | Raise _ => [] end.
(** Too large a gain, crosstalk or efficiency is not noticed, too large a voltage is. *)
Theorem C110_sheet_refuted : forall key v, In key ["gain"; "opct"; "pde"]%string -> qz 10000000 < v ->
  (exists r, gap_convert_named data_sheet key v = Ok r /\ forall c, nth_error (map snd r) c = Some None \/ nth_error (map snd r) c = None) /\ gap_convert_named data_sheet "vover" v = Raise ValueError.
Proof.
  intros key v K V. split.
  - destruct K as [<-|[<-|[<-|[]]]].
    + apply (check_spec data_sheet "gain" (column_of "gain") 27 v); [cbn; tauto|reflexivity|vm_compute; reflexivity|exact V].
    + apply (check_spec data_sheet "opct" (column_of "opct") 29 v); [cbn; tauto|reflexivity|vm_compute; reflexivity|exact V].
    + apply (check_spec data_sheet "pde" (column_of "pde") 28 v); [cbn; tauto|reflexivity|vm_compute; reflexivity|exact V].
  - assert (R : rising 0 (column_of "vover") = true) by (vm_compute; reflexivity).
    assert (B : forallb (fun x => match x with Some c => Qle_bool (this c) 10000000 | None => false end) (column_of "vover") = true) by (vm_compute; reflexivity). rewrite forallb_forall in B.
    apply (C110_refused data_sheet "vover" (column_of "vover") v).
    + split; [cbn; tauto|]. split; [reflexivity|]. split; [now apply rising_unique with 0%Q|]. assert (L : forallb (fun col => List.length (snd col) =? List.length (column_of "vover"))%nat data_sheet = true) by (vm_compute; reflexivity). rewrite forallb_forall in L. intros col C. apply Nat.eqb_eq. now apply L.
    + exists 0%nat. eexists. reflexivity.
    + right. split; [intros I; apply B in I; discriminate|]. intros j c J. apply nth_error_In, B, Qle_bool_iff in J. apply Qcle_lt_trans with (qz 10000000); [|exact V]. unfold Qcle. eapply Qle_trans; [exact J|]. vm_compute. discriminate.
Qed.
Print Assumptions C110_sheet_refuted.
Example C110_ex : shape (gap_convert_named data_sheet "gain" (qz 3000000)) = Ok [("vover", false); ("gain", false); ("opct", false); ("pde", false)]%string /\
  shape (gap_convert_named data_sheet "gain" (qz 2000000)) = Ok [("vover", true); ("gain", true); ("opct", true); ("pde", true)]%string /\
  shape (gap_convert_named data_sheet "vover" (qz 1)) = Ok [("vover", true); ("gain", false); ("opct", false); ("pde", true)]%string /\
  gap_convert_named data_sheet "gain" (qz 600000) = Raise ValueError /\ gap_convert_named data_sheet "vover" (qz 5) = Raise ValueError.
Proof. vm_compute. auto 6. Qed.
