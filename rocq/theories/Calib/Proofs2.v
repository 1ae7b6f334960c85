(** Whole events, amplitude calibration, data sheet. *)
From Coq Require Import List ZArith QArith Qcanon Qround Bool Arith Lia String.
From Verif.Base Require Import Py PyFacts Num Lst.
From Verif.Calib Require Import Model Proofs.
Import ListNotations.
Local Open Scope list_scope.
Local Open Scope Qc_scope.

Lemma event_pixel : forall ws cs out p w c, apply_t_cor ws cs = Ok out -> nth_error ws p = Some w -> nth_error cs p = Some c ->
  exists o, t_cor_pixel w c = Ok o /\ nth_error out p = Some o.
Proof.
  intros ws cs out p w c E W C. unfold apply_t_cor in E.
  apply (mapM_nth _ _ _ _ _ p (w, c) E). rewrite nth_error_combine. now rewrite W, C.
Qed.
Lemma event_local : forall ws cs out ws' cs' out' p, apply_t_cor ws cs = Ok out -> apply_t_cor ws' cs' = Ok out' ->
  (p < List.length ws)%nat -> (p < List.length cs)%nat ->
  nth_error ws p = nth_error ws' p -> nth_error cs p = nth_error cs' p -> nth_error out p = nth_error out' p.
Proof.
  intros ws cs out ws' cs' out' p E E' A B W C.
  destruct (nth_error ws p) as [w|] eqn:Hw; [|apply nth_error_None in Hw; lia].
  destruct (nth_error cs p) as [c|] eqn:Hc; [|apply nth_error_None in Hc; lia].
  destruct (event_pixel ws cs out p w c) as (o & O & N); auto.
  destruct (event_pixel ws' cs' out' p w c) as (o' & O' & N'); auto. congruence.
Qed.
Lemma event_raise : forall ws cs p w z, (forall v, In v ws -> (2 <= List.length v)%nat) -> nth_error ws p = Some w -> nth_error cs p = Some (qz z) ->
  (Z.abs z < Z.of_nat (List.length w))%Z -> apply_t_cor ws cs = Raise ZeroDivisionError.
Proof.
  intros ws cs p w z L W C B. unfold apply_t_cor. apply (mapM_raise _ _ _ _ (w, qz z)).
  - apply (nth_error_In _ p). rewrite nth_error_combine. now rewrite W, C.
  - cbn. apply pixel_raise_iff; [apply L; now apply nth_error_In in W|eauto].
  - intros [v c] I. apply in_combine_l in I. cbn. apply pixel_raise_iff. now apply L.
Qed.
Lemma event_ok : forall ws cs, (forall v, In v ws -> (2 <= List.length v)%nat) ->
  (forall p w c, nth_error ws p = Some w -> nth_error cs p = Some c -> forall z, (Z.abs z < Z.of_nat (List.length w))%Z -> c <> qz z) ->
  exists out, apply_t_cor ws cs = Ok out /\ List.length out = Nat.min (List.length ws) (List.length cs).
Proof.
  intros ws cs L N. destruct (mapM_ok_all _ _ (fun wc => t_cor_pixel (fst wc) (snd wc)) (combine ws cs)) as [out E].
  - intros [w c] I. cbn. destruct (pixel_raise_iff w c) as [R [H|H]]; auto; [apply L; now apply in_combine_l in I|].
    exfalso. apply R in H as (z & -> & B). apply In_nth_error in I as [p I]. rewrite nth_error_combine in I.
    destruct (nth_error ws p) as [w'|] eqn:W; [|discriminate]. destruct (nth_error cs p) as [c'|] eqn:C; [|discriminate]. injection I as -> ->.
    now apply (N p w (qz z) W C z).
  - exists out. split; auto. apply mapM_length in E. now rewrite combine_length in E.
Qed.
Lemma pixel_far_integer : forall w z i, (2 <= List.length w)%nat -> (Z.of_nat (List.length w) <= Z.abs z)%Z -> (i < List.length w)%nat ->
  exists out, t_cor_pixel w (qz z) = Ok out /\ List.length out = List.length w /\ interpolated w (qn i - qz z) (nth i out 0).
Proof.
  intros w z i L B I. destruct (pixel_raise_iff w (qz z) L) as [R [H|[out H]]].
  - exfalso. apply R in H as (z' & E & B'). apply qz_inj in E. lia.
  - exists out. split; auto. unfold t_cor_pixel in H. split; [apply mapM_length in H; now rewrite seq_length in H|].
    destruct (mapM_nth _ _ _ _ _ i i H) as (y & Y & NE); [rewrite nth_error_seq; now rewrite (proj2 (Nat.ltb_lt _ _) I)|].
    rewrite (nth_error_nth _ _ 0 NE). now apply (sample_interpolated w _ i y).
Qed.

(** ** amplitude calibration *)
Lemma calibrate_affine : forall ff ped conv p f b, nth_error ped p = Some b -> nth_error ff p = Some f -> conv <> 0 ->
  calibrate ff ped conv b p = Ok 0 /\
  calibrate ff ped conv (b + conv) p = Ok f /\
  (forall a c v w, exists x y z, calibrate ff ped conv v p = Ok x /\ calibrate ff ped conv w p = Ok y /\
    calibrate ff ped conv (a * v + c * w) p = Ok z /\ (a + c = 1 -> z = a * x + c * y) /\ (0 < f / conv -> v < w -> x < y)).
Proof.
  intros ff ped conv p f b B F N. unfold calibrate. rewrite B, F. split; [f_equal; field; auto|]. split; [f_equal; field; auto|].
  intros a c v w. do 3 eexists. do 3 (split; [reflexivity|]). split.
  - intros S. replace a with (1 - c) by (rewrite <- S; ring). field. auto.
  - intros P H. replace ((v - b) / conv * f) with ((v - b) * (f / conv)) by (field; auto). replace ((w - b) / conv * f) with ((w - b) * (f / conv)) by (field; auto).
    apply Qcmult_lt_compat_r; auto. qlra.
Qed.
Lemma profile_inverse : forall profile image, List.length image = List.length profile -> (forall x, In x profile -> x <> 0) ->
  fold_profile profile (unfold_profile profile image) = image /\ unfold_profile profile (fold_profile profile image) = image.
Proof.
  induction profile as [|x p IH]; intros [|y l] L N; try discriminate; [split; reflexivity|].
  unfold fold_profile, unfold_profile in *. destruct (IH l) as [A B]; [now injection L|intros; apply N; now right|].
  assert (x <> 0) as X by (apply N; now left). split; cbn [combine map fst snd]; f_equal; auto; field; auto.
Qed.

(** ** data sheet *)
Definition increasing (l : list Qc) : Prop := forall i j x y, nth_error l i = Some x -> nth_error l j = Some y -> (i < j)%nat -> x < y.

Lemma sort_insert_last : forall l p, (forall q, In q l -> fst q < fst p) -> sort_insert p l = l ++ [p].
Proof.
  induction l as [|q l IH]; intros p H; [reflexivity|]. cbn. destruct (qltb_spec (fst p) (fst q)) as [X|X].
  - pose proof (H q (or_introl eq_refl)). exfalso. qlra.
  - f_equal. apply IH. intros; apply H; now right.
Qed.
Lemma sort_points_sorted : forall l, increasing (map fst l) -> sort_points l = l.
Proof.
  intros l H. unfold sort_points. enough (forall acc, increasing (map fst (acc ++ l)) -> fold_left (fun a p => sort_insert p a) l acc = acc ++ l) as G by now apply (G []).
  clear H. induction l as [|p l IH]; intros acc H; cbn [fold_left]; [now rewrite app_nil_r|].
  rewrite sort_insert_last.
  - rewrite IH; rewrite <- app_assoc; auto.
  - intros q Q. apply In_nth_error in Q as [i I]. apply (H i (List.length acc)).
    + rewrite nth_error_map, nth_error_app1 by (apply nth_error_Some; congruence). now rewrite I.
    + rewrite nth_error_map, nth_error_app2 by lia. now rewrite Nat.sub_diag.
    + apply nth_error_Some. congruence.
Qed.
Lemma increasing_tail : forall x l, increasing (x :: l) -> increasing l.
Proof. intros x l H i j a b A B L. apply (H (S i) (S j)); auto. lia. Qed.

Lemma np_interp_between : forall pts i x1 y1 x2 y2 v, increasing (map fst pts) -> nth_error pts i = Some (x1, y1) -> nth_error pts (S i) = Some (x2, y2) ->
  x1 <= v -> v < x2 -> np_interp pts v = (y2 - y1) / (x2 - x1) * (v - x1) + y1.
Proof.
  induction pts as [|[a b] [|[a' b'] l] IH]; intros i x1 y1 x2 y2 v H N1 N2 L1 L2; [destruct i; discriminate|destruct i as [|[|]]; discriminate|].
  cbn [np_interp]. destruct i as [|i].
  - cbn in N1, N2. injection N1 as -> ->. injection N2 as -> ->. destruct (qltb_spec v x2); [reflexivity|contradiction].
  - destruct (qltb_spec v a') as [X|X].
    + exfalso. cbn [nth_error] in N1. destruct i as [|i]; cbn [nth_error] in N1; [injection N1 as -> ->; qlra|].
      assert (a' < x1). { apply (H 1%nat (S (S i))); [reflexivity| |lia]. cbn [map nth_error]. rewrite nth_error_map, N1. reflexivity. } qlra.
    + apply (IH i); auto. now apply increasing_tail in H.
Qed.
Lemma np_interp_last : forall pts x y v d, increasing (map fst pts) -> pts <> [] -> last pts d = (x, y) -> x <= v -> np_interp pts v = y.
Proof.
  induction pts as [|[a b] [|[a' b'] l] IH]; intros x y v d H N E L; [congruence|cbn in *; congruence|].
  cbn [np_interp]. assert (last ((a', b') :: l) d = (x, y)) as E' by exact E.
  destruct (qltb_spec v a') as [X|X].
  - exfalso. assert (a' <= x); [|qlra]. 
    destruct (@exists_last _ ((a', b') :: l)) as (l' & z & Z); [discriminate|]. rewrite Z in E'. rewrite last_last in E'. subst z.
    destruct l' as [|q l']; cbn in Z.
    + injection Z as -> _ _. apply Qcle_refl.
    + injection Z as _ Z2. apply Qclt_le_weak. apply (H 1%nat (S (S (List.length l')))); [reflexivity| |lia]. cbn [map nth_error]. rewrite nth_error_map, Z2. rewrite nth_error_app2 by lia. now rewrite Nat.sub_diag.
  - apply (IH x y v d); auto; [now apply increasing_tail in H|discriminate].
Qed.
Lemma combine_fst : forall A B (l : list A) (m : list B), List.length l = List.length m -> map fst (combine l m) = l.
Proof. induction l as [|x l IH]; intros [|y m] L; try discriminate; auto. cbn. f_equal. apply IH. now injection L. Qed.

Lemma last_nth_error : forall A (l : list A) d, l <> [] -> nth_error l (List.length l - 1) = Some (last l d).
Proof.
  intros A l d N. destruct (exists_last N) as (l' & z & ->). rewrite last_last, app_length. cbn [List.length].
  rewrite nth_error_app2 by lia. replace (List.length l' + 1 - 1 - List.length l')%nat with 0%nat by lia. reflexivity.
Qed.

Lemma interp1d_spec : forall xs ys v, increasing xs -> List.length xs = List.length ys -> xs <> [] ->
  let n := List.length xs in
  ((v < nth 0 xs 0 \/ nth (n - 1) xs 0 < v) -> interp1d xs ys v = Raise ValueError) /\
  (nth 0 xs 0 <= v <= nth (n - 1) xs 0 -> exists y, interp1d xs ys v = Ok y /\
     (forall i, (i < n)%nat -> v = nth i xs 0 -> y = nth i ys 0) /\
     (forall i, (S i < n)%nat -> nth i xs 0 < v -> v < nth (S i) xs 0 ->
        y = nth i ys 0 + (nth (S i) ys 0 - nth i ys 0) * ((v - nth i xs 0) / (nth (S i) xs 0 - nth i xs 0)))).
Proof.
  intros xs ys v H L N n. unfold interp1d. rewrite <- L, Nat.eqb_refl. cbn [negb].
  assert (increasing (map fst (combine xs ys))) as I by now rewrite combine_fst.
  rewrite sort_points_sorted by auto. set (pts := combine xs ys) in *.
  assert (List.length pts = n) as LP by (unfold pts; rewrite combine_length; fold n in L |- *; lia).
  assert (0 < n)%nat as P by (unfold n; destruct xs; [congruence|cbn; lia]).
  assert (forall i, (i < n)%nat -> nth_error pts i = Some (nth i xs 0, nth i ys 0)) as NP.
  { intros i B. unfold pts. rewrite nth_error_combine. rewrite (nth_error_nth' xs 0) by exact B. rewrite (nth_error_nth' ys 0) by (rewrite <- L; exact B). reflexivity. }
  destruct pts as [|p0 pts0] eqn:EP; [cbn in LP; lia|]. rewrite <- EP in *.
  assert (p0 = (nth 0 xs 0, nth 0 ys 0)) as E0 by (specialize (NP 0%nat P); rewrite EP in NP; cbn [nth_error] in NP; congruence).
  assert (last pts p0 = (nth (n - 1) xs 0, nth (n - 1) ys 0)) as EL.
  { pose proof (last_nth_error _ pts p0) as X. rewrite LP in X. rewrite NP in X by lia. rewrite EP in X at 1. specialize (X ltac:(discriminate)). congruence. }
  rewrite EL, E0. cbn [fst].
  split.
  - intros [X|X].
    + destruct (qltb_spec v (nth 0 xs 0)); [reflexivity|contradiction].
    + destruct (qltb_spec v (nth 0 xs 0)); [reflexivity|]. destruct (qltb_spec (nth (n - 1) xs 0) v); [reflexivity|contradiction].
  - intros [X1 X2]. destruct (qltb_spec v (nth 0 xs 0)); [exfalso; qlra|]. destruct (qltb_spec (nth (n - 1) xs 0) v); [exfalso; qlra|].
    exists (np_interp pts v). split; [reflexivity|].
    assert (forall i, (S i < n)%nat -> nth i xs 0 <= v -> v < nth (S i) xs 0 -> 
      np_interp pts v = nth i ys 0 + (nth (S i) ys 0 - nth i ys 0) * ((v - nth i xs 0) / (nth (S i) xs 0 - nth i xs 0))) as M.
    { intros i B A1 A2. rewrite (np_interp_between pts i (nth i xs 0) (nth i ys 0) (nth (S i) xs 0) (nth (S i) ys 0)); auto; [|apply NP; lia].
      field. intro Z. revert A1 A2 Z. generalize (nth (S i) xs 0) (nth i xs 0). intros q1 q2 A1 A2 Z. qlra. }
    split.
    + intros i B E. destruct (Nat.eq_dec (S i) n) as [D|D].
      * replace i with (n - 1)%nat in * by lia. apply (np_interp_last pts (nth (n - 1) xs 0) _ v p0); auto; [rewrite EP; discriminate|]. subst v. apply Qcle_refl.
      * assert (v < nth (S i) xs 0) as V.
        { rewrite E. apply (H i (S i)); [| |lia]; apply nth_error_nth'; fold n; lia. }
        rewrite (M i); auto; [|lia|rewrite E; apply Qcle_refl]. rewrite <- E. unfold Qcminus at 2. rewrite Qcplus_opp_r. unfold Qcdiv. ring.
    + intros i B A1 A2. apply M; auto. now apply Qclt_le_weak.
Qed.

(** A point strictly between two neighbours divides the segment, so the value lies between theirs. *)
Lemma between : forall y1 y2 t, 0 < t -> t < 1 -> (y1 <= y2 -> y1 <= y1 + (y2 - y1) * t <= y2) /\ (y2 <= y1 -> y2 <= y1 + (y2 - y1) * t <= y1).
Proof. intros y1 y2 t A B. split; intro L; split; qnra. Qed.
Lemma ratio01 : forall a b v, a < v -> v < b -> 0 < (v - a) / (b - a) /\ (v - a) / (b - a) < 1.
Proof.
  intros a b v A B. assert (0 < b - a) as P by qlra. split; [apply qdiv_pos; qlra|].
  replace 1 with ((b - a) / (b - a)) by (field; intro Z; rewrite Z in P; now apply Qclt_not_eq in P). apply qdiv_lt; qlra.
Qed.

(** The call with the single named argument [key=v]. *)
Definition convert_named (df : table) (key : string) (v : Qc) : res (dict Qc) :=
  let arg name := if String.eqb key name then Some v else None in
  (convert df (arg "vover") (arg "opct") (arg "pde") (arg "gain"))%string.

Lemma convert_named_eq : forall df key v, In key ["vover"; "opct"; "pde"; "gain"]%string ->
  convert_named df key v = (do x <- dlookup key df; mapM (fun col => rmap (fun y => (fst col, y)) (interp1d x (snd col) v)) df)%py.
Proof. intros df key v [<-|[<-|[<-|[<-|[]]]]]; reflexivity. Qed.
Lemma dlookup_in : forall V k (d : dict V) v, dlookup k d = Ok v -> In (k, v) d.
Proof.
  intros V k d v. unfold dlookup. induction d as [|[k' v'] d IH]; cbn; [discriminate|]. destruct (String.eqb_spec k k') as [E|E].
  - subst. intro X. injection X as <-. now left.
  - intro X. right. now apply IH.
Qed.

Lemma position_in : forall xs v, increasing xs -> xs <> [] -> nth 0 xs 0 <= v <= nth (List.length xs - 1) xs 0 ->
  (exists i, (i < List.length xs)%nat /\ v = nth i xs 0) \/ (exists i, (S i < List.length xs)%nat /\ nth i xs 0 < v /\ v < nth (S i) xs 0).
Proof.
  intros xs v _ N. induction xs as [|a [|b xs] IH]; [congruence| |]; intros [A B].
  - left. exists 0%nat. split; [cbn; lia|]. cbn in *. now apply Qcle_antisym.
  - destruct (Qclt_le_dec v b) as [X|X].
    + cbn [nth] in A. destruct (Qcle_lt_or_eq _ _ A) as [Y|Y].
      * right. exists 0%nat. cbn. repeat split; auto. lia.
      * left. exists 0%nat. cbn. split; auto. lia.
    + destruct IH as [(i & P & Q)|(i & P & Q)]; [discriminate| | |].
      * split; [exact X|]. cbn [List.length] in B |- *. replace (S (S (List.length xs)) - 1)%nat with (S (S (List.length xs) - 1)) in B by lia. exact B.
      * left. exists (S i). split; [cbn in *; lia|exact Q].
      * right. exists (S i). split; [cbn in *; lia|exact Q].
Qed.

Lemma convert_outside : forall df key v xs, In key ["vover"; "opct"; "pde"; "gain"]%string -> dlookup key df = Ok xs ->
  increasing xs -> xs <> [] -> (forall col, In col df -> List.length (snd col) = List.length xs) ->
  v < nth 0 xs 0 \/ nth (List.length xs - 1) xs 0 < v -> convert_named df key v = Raise ValueError.
Proof.
  intros df key v xs K D I N L O. rewrite convert_named_eq by auto. rewrite D. cbn [bind].
  assert (forall col, In col df -> interp1d xs (snd col) v = Raise ValueError) as R.
  { intros col C. apply interp1d_spec; auto. symmetry. now apply L. }
  apply (mapM_raise _ _ _ _ (key, xs)).
  - now apply dlookup_in.
  - rewrite (R (key, xs)) by now apply dlookup_in. reflexivity.
  - intros col C. left. now rewrite R.
Qed.
Lemma convert_inside : forall df key v xs, In key ["vover"; "opct"; "pde"; "gain"]%string -> dlookup key df = Ok xs ->
  increasing xs -> xs <> [] -> (forall col, In col df -> List.length (snd col) = List.length xs) ->
  nth 0 xs 0 <= v <= nth (List.length xs - 1) xs 0 ->
  exists r, convert_named df key v = Ok r /\ map fst r = map fst df /\
  forall c name ys, nth_error df c = Some (name, ys) -> exists y, nth_error r c = Some (name, y) /\
    (ys = xs -> y = v) /\
    (forall i, (i < List.length xs)%nat -> v = nth i xs 0 -> y = nth i ys 0) /\
    (forall i, (S i < List.length xs)%nat -> nth i xs 0 < v -> v < nth (S i) xs 0 ->
       y = nth i ys 0 + (nth (S i) ys 0 - nth i ys 0) * ((v - nth i xs 0) / (nth (S i) xs 0 - nth i xs 0)) /\
       (nth i ys 0 <= nth (S i) ys 0 -> nth i ys 0 <= y <= nth (S i) ys 0) /\
       (nth (S i) ys 0 <= nth i ys 0 -> nth (S i) ys 0 <= y <= nth i ys 0)).
Proof.
  intros df key v xs K D I N L O. rewrite convert_named_eq by auto. rewrite D. cbn [bind].
  assert (forall col, In col df -> exists y, interp1d xs (snd col) v = Ok y /\
     (forall i, (i < List.length xs)%nat -> v = nth i xs 0 -> y = nth i (snd col) 0) /\
     (forall i, (S i < List.length xs)%nat -> nth i xs 0 < v -> v < nth (S i) xs 0 ->
        y = nth i (snd col) 0 + (nth (S i) (snd col) 0 - nth i (snd col) 0) * ((v - nth i xs 0) / (nth (S i) xs 0 - nth i xs 0)))) as R.
  { intros col C. apply interp1d_spec; auto. symmetry. now apply L. }
  destruct (mapM_ok_all _ _ (fun col => rmap (fun y => (fst col, y)) (interp1d xs (snd col) v)) df) as [r E].
  { intros col C. destruct (R col C) as (y & -> & _). eexists; reflexivity. }
  exists r. split; auto.
  assert (forall c name ys, nth_error df c = Some (name, ys) -> exists y, nth_error r c = Some (name, y) /\ interp1d xs ys v = Ok y) as G.
  { intros c name ys C. destruct (mapM_nth _ _ _ _ _ c _ E C) as (q & Q & NE). cbn [fst snd] in Q. destruct (interp1d xs ys v) as [y|]; [|discriminate].
    injection Q as <-. eauto. }
  split.
  - apply list_ext. intro c. rewrite !nth_error_map. destruct (nth_error df c) as [[name ys]|] eqn:C.
    + destruct (G c name ys C) as (y & -> & _). reflexivity.
    + apply nth_error_None in C. apply mapM_length in E. rewrite (proj2 (nth_error_None r c)) by lia. reflexivity.
  - intros c name ys C. destruct (G c name ys C) as (y & NE & EY). exists y. split; auto.
    destruct (R (name, ys) (nth_error_In _ _ C)) as (y' & E' & P1 & P2). cbn [snd] in *. assert (y' = y) by congruence. subst y'.
    split; [|split].
    + intros ->. destruct (position_in xs v I N O) as [(i & B & X)|(i & B & X1 & X2)].
      * rewrite (P1 i); auto.
      * rewrite (P2 i) by auto. revert X1 X2. generalize (nth i xs 0) (nth (S i) xs 0). intros a b X1 X2. field. intro Z. qlra.
    + exact P1.
    + intros i B X1 X2. split; [now apply P2|]. destruct (ratio01 _ _ _ X1 X2). rewrite (P2 i) by auto. now apply between.
Qed.
