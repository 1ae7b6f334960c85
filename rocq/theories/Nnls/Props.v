(** Properties C60, C61 and C72: non-negative least squares pulse extraction. *)
From Coq Require Import List ZArith QArith Qcanon Bool Arith Lia Permutation.
From Verif.Base Require Import Num Lst.
From Verif.Reducers Require Import Model.
From Verif.Nnls Require Import Model Proofs Proofs2 Proofs3.
Import ListNotations.
Local Open Scope list_scope.
Local Open Scope nat_scope.
Ltac vmr := repeat match goal with |- _ /\ _ => split; [vm_compute; reflexivity|] end; vm_compute; reflexivity.

(** C60. Whatever the least squares solver answers (one number per column asked for), the solver stops: at most maxit
    rounds, fewer than two least squares calls per round, the two sets partition the columns, and every returned
    coefficient is a non-negative number or NaN. The result does not depend on the fuel of the model. *)
Theorem C60_terminates : forall cols b lsq maxit tol, (forall k F, List.length (lsq k F) = List.length F) ->
  forall fuel, maxit < fuel -> List.length cols + 1 < fuel ->
  exists s, nnls cols b lsq maxit tol fuel = Some s /\
    iterations s <= maxit /\ lstsqs s <= 2 * iterations s /\
    Permutation (passive s ++ active s) (seq 0 (List.length cols)) /\
    List.length (sol s) = List.length cols /\
    (forall v, In (Some v) (sol s) -> (0 <= v)%Qc) /\
    (forall j v, In j (active s) -> nth j (sol s) None = Some v -> v = 0%Qc).
Proof.
  intros cols b lsq maxit tol L fuel F1 F2. destruct (nnls_spec cols b lsq maxit tol L fuel F1 F2) as (s & E & (P & LN & NN & ZZ) & A2 & A3 & _ & _).
  exists s. split; [auto|]. split; [auto|]. split; [lia|]. split; [auto|]. split; [auto|]. split.
  - intros v V. apply (In_nth _ _ None) in V as (j & J & EV). specialize (NN j). rewrite LN in J. specialize (NN J). now rewrite EV in NN.
  - intros j v J EV. specialize (ZZ j J). now rewrite EV in ZZ.
Qed.
Print Assumptions C60_terminates.

(** NaN only arises from a 0/0 step, which needs a least squares answer that is exactly zero. *)
Theorem C60_no_nan : forall cols b lsq maxit tol, (forall k F, List.length (lsq k F) = List.length F) -> (forall k F, ~ In 0%Qc (lsq k F)) ->
  forall fuel s, maxit < fuel -> List.length cols + 1 < fuel -> nnls cols b lsq maxit tol fuel = Some s ->
  exists x, sol s = map Some x /\ List.length x = List.length cols /\ forall v, In v x -> (0 <= v)%Qc.
Proof.
  intros cols b lsq maxit tol L NZ fuel s F1 F2 E0. destruct (nnls_spec cols b lsq maxit tol L fuel F1 F2) as (s' & E & (P & LN & NN & ZZ) & _ & _ & _ & NS).
  rewrite E0 in E. injection E as <-. specialize (NS NZ). exists (map value (sol s)).
  assert (sol s = map Some (map value (sol s))) as EQ.
  { rewrite map_map. transitivity (map (fun o => o) (sol s)); [now rewrite map_id|]. apply map_ext_in. intros o O. apply (In_nth _ _ None) in O as (j & J & EO). rewrite LN in J. specialize (NS j J). rewrite EO in NS. now destruct o. }
  split; [exact EQ|]. split; [now rewrite map_length|]. intros v V. apply in_map_iff in V as (o & <- & O). apply (In_nth _ _ None) in O as (j & J & EO). rewrite LN in J.
  specialize (NN j J). specialize (NS j J). rewrite EO in NN, NS. destruct o; [exact NN|easy].
Qed.
Print Assumptions C60_no_nan.

Definition show (o : option state) := option_map (fun s => (passive s, active s, map (option_map this) (sol s), (iterations s, lstsqs s, converged s))) o.
Definition zs (l : list Z) : list Qc := map qz l.
(** A pulse is added and taken out again: three columns, exact least squares answers. *)
Definition ex_cols := [zs [2; 1]; zs [1; 0]; zs [0; 1]]%Z.
Definition ex_lsq (k : nat) (F : list nat) : list Qc :=
  match F with
  | [0] => [qz 1] | [1] => [qz 3] | [0; 1] => [qz (-1); qz 5] | [2] => [qz (-1)] | [0; 2] => [Q2Qc (3 # 2); Q2Qc (-5 # 2)]%Q | _ => map (fun _ => qz 0) F
  end.
Example C60_ex : show (nnls ex_cols (zs [3; -1]%Z) ex_lsq 2 (qz 0) 10) = Some ([1], [0; 2], [Some 0%Q; Some 3%Q; Some 0%Q], (2, 3, false)).
Proof. vmr. Qed.
(** The degenerate step: all least squares answers are the exact ones, and two coefficients come out as NaN. *)
Definition nan_cols := [zs [2; 1; 0; 0]; zs [0; 0; 2; 1]; zs [1; 0; 0; 0]; zs [0; 0; 1; 0]]%Z.
Definition nan_b := zs [6; 0; 3; -1]%Z.
Definition nan_lsq (k : nat) (F : list nat) : list Qc :=
  match F with
  | [0] => [Q2Qc (12 # 5)] | [0; 1] => [Q2Qc (12 # 5); qz 1] | [0; 1; 2] => [qz 0; qz 1; qz 6] | [0; 1; 2; 3] => [qz 0; qz (-1); qz 6; qz 5]
  | [1; 2; 3] => [qz (-1); qz 6; qz 5] | [2; 3] => [qz 6; qz 3] | _ => map (fun _ => qz 0) F
  end.
Theorem C60_nan : exists cols b lsq, (forall k F, List.length (lsq k F) = List.length F) /\
  (forall k F, In F [[0]; [0; 1]; [0; 1; 2]; [0; 1; 2; 3]; [1; 2; 3]; [2; 3]] -> forall j, In j F -> dot (nth j cols []) (residual cols b F (lsq k F)) = 0%Qc) /\
  show (nnls cols b lsq (List.length b) 0%Qc 10) = Some ([2; 3], [0; 1], [None; None; Some 6%Q; Some 3%Q], (4, 6, false)).
Proof.
  exists nan_cols, nan_b, nan_lsq. split; [|split].
  - intros k F. unfold nan_lsq. repeat (match goal with |- context [match ?x with _ => _ end] => destruct x end); try reflexivity; now rewrite map_length.
  - intros k F H j J. apply Qc_is_canon. cbn [In] in H. repeat match goal with H : _ \/ _ |- _ => destruct H | H : _ = F |- _ => subst F | H : False |- _ => destruct H end;
      cbn [In] in J; repeat match goal with H : _ \/ _ |- _ => destruct H | H : _ = j |- _ => subst j | H : False |- _ => destruct H end; vm_compute; reflexivity.
  - vm_compute. reflexivity.
Qed.
Print Assumptions C60_nan.

(** C72. When the least squares answers satisfy the normal equations and the loop ends by itself (not because maxit is
    reached), the returned coefficients minimise the squared difference to the waveform among all non-negative
    vectors, up to the tolerance. [sqerr cols b x] is the sum over the samples of (A x - b)^2. *)
Theorem C72_optimal : forall cols b lsq maxit tol, (forall k F, List.length (lsq k F) = List.length F) ->
  (forall k F j, In j F -> dot (nth j cols []) (residual cols b F (lsq k F)) = 0%Qc) -> (tol <= 0)%Qc ->
  forall fuel s x, maxit < fuel -> List.length cols + 1 < fuel -> nnls cols b lsq maxit tol fuel = Some s -> converged s = true -> sol s = map Some x ->
  forall z, List.length z = List.length cols -> (forall v, In v z -> 0 <= v)%Qc ->
  (sqerr cols b x <= sqerr cols b z - (1 + 1) * tol * qsum z)%Qc.
Proof.
  intros cols b lsq maxit tol L NE T0 fuel s x F1 F2 E0 CV EX z LZ PZ.
  destruct (nnls_spec cols b lsq maxit tol L fuel F1 F2) as (s' & E & GD & _ & _ & CONV & _). rewrite E0 in E. injection E as <-.
  destruct (CONV CV) as (xF & TK & OR & YG). rewrite EX in GD, TK. eapply optimal; eauto.
  intros j J. destruct OR as [O|[c ->]]; [rewrite O in J; easy|]. now apply NE.
Qed.
Print Assumptions C72_optimal.
Example C72_ex : show (nnls ex_cols (zs [3; -1]%Z) ex_lsq 5 (qz 0) 10) = Some ([1], [0; 2], [Some 0%Q; Some 3%Q; Some 0%Q], (3, 3, true)) /\
  map this [sqerr ex_cols (zs [3; -1]%Z) (zs [0; 3; 0]%Z); sqerr ex_cols (zs [3; -1]%Z) (zs [1; 1; 0]%Z); sqerr ex_cols (zs [3; -1]%Z) (zs [1; 0; 0]%Z)] = [1; 4; 5]%Q.
Proof. vmr. Qed.

(** C61. The columns of every pixel, from whatever coefficients nnls returned. *)
Theorem C61_columns : forall save basis_t xs p, p < List.length xs -> List.length basis_t = List.length (nth p xs []) ->
  let row := nth p (prepare save basis_t xs) (pixel_columns save 0%Qc []) in
  (charge_nnls row = qz 7 * qsum (map value (filter is_pulse (nth p xs []))))%Qc /\
  (charge_nnls row = nnls_tcharge row + nnls_tccharge row)%Qc /\
  (0 <= nnls_tmcharge row <= nnls_tcharge row)%Qc /\ (0 <= nnls_tccharge row)%Qc /\
  nnls_npulses row = List.length (filter is_pulse (nth p xs [])) /\
  (save = true -> List.length (pulses row) = nnls_npulses row /\ qsum (map snd (pulses row)) = charge_nnls row).
Proof.
  intros save basis_t xs p P LB row. unfold row, prepare.
  rewrite (nth_map' _ _ _ _ p (positive_pulses basis_t [])) by (now rewrite map_length). rewrite (nth_map' _ _ (positive_pulses basis_t) xs p []) by auto.
  set (c := positive_pulses basis_t (nth p xs [])). destruct (pixel_columns_spec save (qmean (map pulse_mean (map (positive_pulses basis_t) xs))) c) as (A & B & C & D & E & F & G & _).
  { intros q Q. eapply positive_pulses_pos, Q. }
  split; [rewrite A; unfold c; now apply positive_pulses_sum|]. split; [auto|]. split; [auto|]. split; [auto|].
  split; [rewrite F; unfold c; now apply positive_pulses_count|]. intros ->. rewrite G, F, A. auto.
Qed.
Print Assumptions C61_columns.
(** The windowed columns: nnls_tcharge is zero exactly when no pulse lies within 5 ns of the average time, and
    nnls_tmcharge is the largest pulse within it. *)
Theorem C61_window : forall save av c, (forall p, In p c -> 0 < snd p)%Qc ->
  let row := pixel_columns save av c in
  (nnls_tcharge row = 0%Qc <-> forall p, In p c -> ~ (qabs (fst p - av) <= window_ns)%Qc) /\
  (nnls_tcharge row <> 0%Qc -> (exists p, In p c /\ (qabs (fst p - av) <= window_ns)%Qc /\ snd p = nnls_tmcharge row) /\
                               forall p, In p c -> (qabs (fst p - av) <= window_ns)%Qc -> (snd p <= nnls_tmcharge row)%Qc).
Proof. intros save av c P row. destruct (pixel_columns_spec save av c P) as (_ & _ & _ & _ & _ & _ & _ & A & B). auto. Qed.
Print Assumptions C61_window.
(** The average time around which the window lies: the mean over the pixels of the charge-weighted mean time of their
    pulses, which lies between their first and last pulse. A pixel without pulses counts as time 0. *)
Theorem C61_average : forall save basis_t xs, xs <> [] -> exists av ts,
  (forall p, p < List.length xs -> nth p (prepare save basis_t xs) (pixel_columns save 0%Qc []) = pixel_columns save av (positive_pulses basis_t (nth p xs []))) /\
  List.length ts = List.length xs /\ (av * qn (List.length xs) = qsum ts)%Qc /\
  forall p, p < List.length xs -> let c := positive_pulses basis_t (nth p xs []) in
    (c = [] -> nth p ts 0 = 0)%Qc /\
    (c <> [] -> (nth p ts 0 * qsum (map snd c) = qsum (map (fun tc => fst tc * snd tc) c))%Qc /\
                forall lo hi, (forall q, In q c -> lo <= fst q /\ fst q <= hi)%Qc -> (lo <= nth p ts 0 /\ nth p ts 0 <= hi)%Qc).
Proof.
  intros save basis_t xs NE. set (ex := map (positive_pulses basis_t) xs). exists (qmean (map pulse_mean ex)), (map pulse_mean ex).
  assert (List.length ex = List.length xs) as LE by (unfold ex; now rewrite map_length). split; [|split; [|split]].
  - intros p P. unfold prepare. fold ex. rewrite (nth_map' _ _ _ _ p (positive_pulses basis_t [])) by lia. unfold ex at 2. now rewrite (nth_map' _ _ (positive_pulses basis_t) xs p []) by auto.
  - now rewrite map_length.
  - unfold qmean. rewrite map_length, LE. unfold Qcdiv. rewrite <- Qcmult_assoc, (Qcmult_comm (/ _)), Qcmult_inv_r, Qcmult_1_r; auto. apply neq_pos, qn_pos. destruct xs; [congruence|cbn; lia].
  - intros p P c. assert (nth p (map pulse_mean ex) 0%Qc = pulse_mean c) as ->.
    { rewrite (nth_map' _ _ pulse_mean ex p (positive_pulses basis_t [])) by lia. f_equal. unfold ex, c. now rewrite (nth_map' _ _ (positive_pulses basis_t) xs p []) by auto. }
    assert (forall q, In q c -> 0 < snd q)%Qc as PC by (intros q Q; eapply positive_pulses_pos, Q).
    split; [intros ->; reflexivity|]. intros C. assert (qsum (map snd c) <> 0)%Qc as Z.
    { apply neq_pos, qsum_pos; [destruct c; [congruence|discriminate]|]. intros x X. apply in_map_iff in X as (q & <- & Q). now apply PC. }
    assert (pulse_mean c = fst (weighted c)) as -> by (unfold weighted; destruct c; [congruence|reflexivity]). split; [unfold weighted; cbn [fst snd]; now field|].
    intros lo hi H. apply weighted_range; auto.
Qed.
Print Assumptions C61_average.
(** Merging: the result are the charge sums and charge-weighted mean times of consecutive groups of pulses, so charge is
    conserved and each merged time lies between the smallest and the largest time of its group. *)
Theorem C61_merge : forall binwidth ps, (forall p, In p ps -> 0 < snd p)%Qc ->
  (qsum (map snd (merge_pulses binwidth ps)) = qsum (map snd ps))%Qc /\
  exists groups, List.concat groups = ps /\ List.length groups = List.length (merge_pulses binwidth ps) /\
    forall i, i < List.length groups -> let g := nth i groups [] in let m := nth i (merge_pulses binwidth ps) (0, 0)%Qc in
      g <> [] /\ snd m = qsum (map snd g) /\ (fst m * snd m = qsum (map (fun tc => fst tc * snd tc) g))%Qc /\
      forall lo hi, (forall p, In p g -> lo <= fst p /\ fst p <= hi)%Qc -> (lo <= fst m /\ fst m <= hi)%Qc.
Proof.
  intros bw ps P. destruct (merge_spec bw ps P) as (gs & E & C & N). rewrite E.
  assert (PG : forall g, In g gs -> forall p, In p g -> (0 < snd p)%Qc). { intros g G p Q. apply P. rewrite <- C. apply in_concat. now exists g. }
  split.
  - rewrite <- C. clear. induction gs as [|g gs IH]; [reflexivity|]. cbn [map List.concat]. rewrite map_app, qsum_app, qsum_cons, IH. reflexivity.
  - exists gs. split; [auto|]. split; [now rewrite map_length|]. intros i I g m. assert (In g gs) as G by (apply nth_In; auto).
    unfold m. rewrite (nth_map' _ _ weighted gs i []) by auto. fold g. split; [now apply N|]. split; [reflexivity|]. split.
    + unfold weighted. cbn [fst snd]. assert (qsum (map snd g) <> 0)%Qc. { apply neq_pos, qsum_pos; [specialize (N g G); destruct g; [easy|discriminate]|]. intros x X. apply in_map_iff in X as (q & <- & Q). now apply (PG g G). } now field.
    + intros lo hi H. apply weighted_range; [now apply N|]. intros p Q. split; [now apply (PG g G)|]. now apply H.
Qed.
Print Assumptions C61_merge.
(** Pulses in order of time stay at least binwidth apart after merging. *)
Theorem C61_merge_gaps : forall binwidth ps, (forall p, In p ps -> 0 < snd p)%Qc ->
  (forall i, (S i < List.length ps)%nat -> fst (nth i ps (0, 0)) <= fst (nth (S i) ps (0, 0)))%Qc ->
  forall i, S i < List.length (merge_pulses binwidth ps) ->
  (fst (nth i (merge_pulses binwidth ps) (0, 0)) + binwidth <= fst (nth (S i) (merge_pulses binwidth ps) (0, 0)))%Qc.
Proof. exact merge_gaps. Qed.
Print Assumptions C61_merge_gaps.
Definition two (p : Qc * Qc) := (this (fst p), this (snd p)).
Example C61_ex : map two (merge_pulses (qz 2) [(qz 1, qz 3); (qz 2, qz 1); (qz 5, qz 2)]) = [((5 # 4)%Q, 4%Q); (5%Q, 2%Q)] /\
  (let row := nth 0 (prepare true (map (fun z => (qz z / qz 1000000000)%Qc) [10; 11; 30]%Z) [[Some (qz 2); None; Some (qz 1)]; [Some (qz 0); Some (qz 4); Some (qz 0)]]) (pixel_columns true 0%Qc []) in
   map this [charge_nnls row; nnls_tcharge row; nnls_tmcharge row; nnls_tccharge row] = [21; 14; 14; 7]%Q /\ nnls_npulses row = 2).
Proof. split; [vm_compute; reflexivity|]. cbv zeta. vmr. Qed.
(** Two pixels with pulses at 10 ns have their charge in the window; a third pixel without pulses moves the window away from them. *)
Example C61_ex_empty_pixel : let t := map (fun z => (qz z / qz 1000000000)%Qc) [10; 40]%Z in let hit := [Some (qz 2); Some (qz 0)] in let none := [Some (qz 0); Some (qz 0)] in
  map (fun row => this (nnls_tcharge row)) (prepare false t [hit; hit]) = [14; 14]%Q /\
  map (fun row => this (nnls_tcharge row)) (prepare false t [hit; hit; none; none; none]) = [0; 0; 0; 0; 0]%Q.
Proof. cbv zeta. vmr. Qed.
