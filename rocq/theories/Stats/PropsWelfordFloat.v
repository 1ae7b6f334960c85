(** Theorems for property C101: Welford's algorithm in double precision, however it was compiled. *)
From Coq Require Import ZArith QArith Qcanon Reals Lia List Permutation.
From Flocq Require Import Core.
From Verif.Base Require Import Num Fl FlFacts.
From Verif.Stats Require Import ModelWelford PropsWelford ModelWelfordFloat SpecWelfordFloat ProofsWelfordFloat ProofsWelfordFloat2 ProofsWelfordFloat3.
From Coq Require Import Lra.
Import ListNotations.
Local Open Scope Qc_scope.

(** The count is the number of samples and the mean lies between two of the samples: never below the smallest nor above the
    largest, whatever is lost by rounding. *)
Theorem C101_mean_between : forall samples m n m2, samples <> [] -> (forall e, In e samples -> is_double (snd e)) ->
  fwelford_all samples (0, O, 0) = (m, n, m2) ->
  n = List.length samples /\ is_double m /\ is_double m2 /\ exists a b, In a (map snd samples) /\ In b (map snd samples) /\ a <= m <= b.
Proof.
  intros l m n m2 NE DB E. destruct (run_safe l NE DB m n m2 E) as (L & Fm & F2 & _ & a & b & Ia & Ib & A).
  split; [exact L|]. split; [now apply double_F|]. split; [now apply double_F|]. exists a, b. repeat split; try assumption; apply q2r_le; lra.
Qed.
Print Assumptions C101_mean_between.

(** A further sample moves the mean towards it and not beyond it. *)
Theorem C101_towards : forall samples w x m n m2 m' n' m2', samples <> [] -> (forall e, In e (samples ++ [(w, x)]) -> is_double (snd e)) ->
  fwelford_all samples (0, O, 0) = (m, n, m2) -> fwelford_all (samples ++ [(w, x)]) (0, O, 0) = (m', n', m2') ->
  (m <= m' <= x) \/ (x <= m' <= m).
Proof.
  intros l w x m n m2 m' n' m2' NE DB E E'. rewrite fwelford_snoc, E in E'. destruct (run_safe l NE (fun e I => DB e (in_or_app _ _ _ (or_introl I))) m n m2 E) as (L & Fm & F2 & _).
  assert (C : (1 <= n)%nat) by (subst n; destruct l; [easy|cbn; lia]). assert (Fx : fl64 x = x) by (apply (DB (w, x)), in_or_app; right; now left).
  destruct (step_safe _ _ _ _ _ _ _ _ E' C (F_double _ Fx) Fm F2) as (_ & _ & _ & BT & _). unfold btw in BT. cbn [snd] in BT. destruct BT; [left|right]; split; apply q2r_le; lra.
Qed.
Print Assumptions C101_towards.

(** The sum of squared deviations is never negative and never decreases: the square root of it is never NaN. *)
Theorem C101_grows : forall samples more m n m2 m' n' m2', samples <> [] -> (forall e, In e (samples ++ more) -> is_double (snd e)) ->
  fwelford_all samples (0, O, 0) = (m, n, m2) -> fwelford_all (samples ++ more) (0, O, 0) = (m', n', m2') -> 0 <= m2 <= m2'.
Proof.
  intros l more m n m2 m' n' m2' NE DB E. split.
  - destruct (run_safe l NE (fun e I => DB e (in_or_app _ _ _ (or_introl I))) m n m2 E) as (_ & _ & _ & P & _). apply q2r_le. now rewrite q2r_0.
  - revert m' n' m2' H. induction more as [|e more IH] using rev_ind; intros m' n' m2' E'.
    + rewrite app_nil_r, E in E'. injection E' as _ _ <-. apply q2r_le. lra.
    + rewrite app_assoc, fwelford_snoc in E'. destruct (fwelford_all (l ++ more) (0, O, 0)) as [[ma na] m2a] eqn:EA.
      assert (DB' : forall e, In e (l ++ more) -> is_double (snd e)) by (intros x I; apply DB; rewrite app_assoc; apply in_or_app; now left).
      specialize (IH DB' ma na m2a eq_refl). assert (NE' : l ++ more <> []) by (destruct l; [easy|discriminate]).
      destruct (run_safe _ NE' DB' _ _ _ EA) as (L & Fm & F2 & _). assert (C : (1 <= na)%nat) by (subst na; destruct l; [easy|cbn; lia]).
      assert (Fx : fl64 (snd e) = snd e) by (apply DB; rewrite app_assoc; apply in_or_app; right; now left).
      destruct (step_safe _ _ _ _ _ _ _ _ E' C (F_double _ Fx) Fm F2) as (_ & _ & _ & _ & G). apply q2r_le. apply q2r_le in IH. lra.
Qed.
Print Assumptions C101_grows.

(** Equal samples have exactly this mean and no deviation. *)
Theorem C101_equal : forall c samples, samples <> [] -> is_double c -> (forall e, In e samples -> snd e = c) -> fwelford_all samples (0, O, 0) = (c, List.length samples, 0).
Proof.
  intros c l NE DC. induction l as [|e l IH] using rev_ind; intros A; [easy|]. rewrite fwelford_snoc, app_length. assert (Ee : snd e = c) by (apply A, in_or_app; right; now left). rewrite Ee.
  destruct l as [|e0 l']; [cbn [fwelford_all fold_left List.length app Nat.add]; now rewrite first_sample|]. remember (e0 :: l') as k eqn:Ek. rewrite IH; [|subst; discriminate|intros x I; apply A, in_or_app; now left].
  unfold fwelford. cbv zeta. assert (E0 : (c - c = 0)%Qc) by ring. rewrite E0, !fl_0. assert (Ed : forall q, (0 / q = 0)%Qc) by (intros; unfold Qcdiv; ring). assert (Em : forall q, (0 * q = 0)%Qc) by (intros; ring). rewrite Ed, !Em, fl_0.
  assert (Ei : forall b : bool, (if b then 0 else 0) = (0:Qc)) by now intros []. rewrite Ei. assert (Ec : (c + 0 = c)%Qc) by ring. rewrite Ec. unfold is_double in DC. rewrite DC.
  assert (Eb : forall b : bool, (if b then c else c) = c) by now intros []. rewrite Eb. rewrite !Qcplus_0_l, fl_0, Ei. f_equal. f_equal. cbn. lia.
Qed.
Print Assumptions C101_equal.

Lemma q2r_eps : q2r eps = u.
Proof. apply q2r_two. Qed.
Lemma q2r_tau : q2r tau = t.
Proof. apply q2r_two. Qed.
Lemma q2r_mean_bound : forall n D B, q2r (mean_bound n D B) = E_ (q2r D) (q2r B) n.
Proof.
  intros. unfold mean_bound, E_. rewrite !q2r_plus, !q2r_mult, q2r_div by discriminate. rewrite !q2r_plus, !q2r_mult, !q2r_qz, q2r_qn, q2r_eps, q2r_tau, q2r_1. ring.
Qed.
Lemma q2r_squares_bound : forall n D B, q2r (squares_bound n D B) = (2 * INR n * H_ (q2r D) (q2r B) n)%R.
Proof.
  intros. unfold squares_bound, H_. rewrite !q2r_mult, !q2r_plus, !q2r_mult, !q2r_plus, !q2r_mult, !q2r_qz, q2r_qn, q2r_eps, q2r_tau, q2r_mean_bound. ring.
Qed.
Lemma within_abs : forall k a b, within k a b <-> (Rabs (q2r a - q2r b) <= q2r k)%R.
Proof.
  intros. unfold within. rewrite <- q2r_minus. split.
  - intros [A B]. apply q2r_le in A, B. rewrite q2r_opp in A. now apply Rabs_le.
  - intros A. apply Rabs_le_inv in A. split; apply q2r_le; rewrite ?q2r_opp; lra.
Qed.

(** The mean differs from the exact mean of the samples by at most a multiple of the rounding unit that grows with the number of
    samples as (n + 1) / 2 times their size. *)
Theorem C101_mean_error : forall samples lo hi B m n m2, samples <> [] -> (Z.of_nat (List.length samples) <= 2 ^ 53)%Z ->
  (forall e, In e samples -> is_double (snd e) /\ lo <= snd e <= hi) -> - B <= lo -> hi <= B ->
  fwelford_all samples (0, O, 0) = (m, n, m2) ->
  within (mean_bound (List.length samples) (hi - lo) B) m (mean_of (map snd samples)).
Proof.
  intros l lo hi B m n m2 NE N53 A B1 B2 E. assert (NE' : map snd l <> []) by (now destruct l). pose proof (C32_welford (map snd l) NE') as X.
  assert (HB : forall x : R, (q2r lo <= x <= q2r hi)%R -> (Rabs x <= q2r B)%R). { apply q2r_le in B1, B2. rewrite q2r_opp in B1. intros x H. apply Rabs_le. lra. }
  assert (RG : forall e, In e l -> (q2r lo <= q2r (snd e) <= q2r hi)%R) by (intros e I; destruct (A e I) as [_ [P Q]]; split; now apply q2r_le).
  destruct (run_error (q2r lo) (q2r hi) (q2r B) (List.length l) HB N53 l NE (Nat.le_refl _) (fun e I => proj1 (A e I)) RG _ _ _ _ _ _ E X) as (L & _ & _ & _ & _ & _ & EM & _).
  apply within_abs. rewrite q2r_mean_bound, q2r_minus. rewrite L in EM. assert (P : (1 <= INR (List.length l))%R) by (change 1%R with (INR 1); apply le_INR; destruct l; [easy|cbn; lia]).
  apply Rmult_le_reg_l with (INR (List.length l)); [lra|]. apply Rle_trans with (1 := EM). unfold E_. lra.
Qed.
Print Assumptions C101_mean_error.

(** The sum of squared deviations differs from the exact one by at most a multiple of the width of the interval of the samples:
    samples that are large but close together do not lose it, as they do when squares are summed. *)
Theorem C101_squares_error : forall samples lo hi B m n m2, samples <> [] -> (Z.of_nat (List.length samples) <= 2 ^ 52)%Z ->
  (forall e, In e samples -> is_double (snd e) /\ lo <= snd e <= hi) -> - B <= lo -> hi <= B ->
  fwelford_all samples (0, O, 0) = (m, n, m2) ->
  within (squares_bound (List.length samples) (hi - lo) B) m2 (squares_of (map snd samples)).
Proof.
  intros l lo hi B m n m2 NE N52 A B1 B2 E. assert (NE' : map snd l <> []) by (now destruct l). pose proof (C32_welford (map snd l) NE') as X.
  assert (HB : forall x : R, (q2r lo <= x <= q2r hi)%R -> (Rabs x <= q2r B)%R). { apply q2r_le in B1, B2. rewrite q2r_opp in B1. intros x H. apply Rabs_le. lra. }
  assert (RG : forall e, In e l -> (q2r lo <= q2r (snd e) <= q2r hi)%R) by (intros e I; destruct (A e I) as [_ [P Q]]; split; now apply q2r_le).
  destruct (run_error (q2r lo) (q2r hi) (q2r B) (List.length l) HB ltac:(lia) l NE (Nat.le_refl _) (fun e I => proj1 (A e I)) RG _ _ _ _ _ _ E X) as (L & _ & _ & _ & _ & _ & _ & _ & EV).
  apply within_abs. rewrite q2r_squares_bound, q2r_minus. rewrite L in EV. apply Rle_trans with (1 := EV). set (N := List.length l) in *. pose proof (pos_INR N) as P. pose proof (pow_u2 N N52) as W.
  assert (H0 : (0 <= H_ (q2r hi - q2r lo) (q2r B) N)%R).
  { destruct (Rle_or_lt 0 (INR N * (1 + u) ^ N * H_ (q2r hi - q2r lo) (q2r B) N)) as [H|H]; [|pose proof (Rabs_pos (q2r m2 - q2r (squares_of (map snd l)))); lra].
    destruct (Rle_or_lt 0 (H_ (q2r hi - q2r lo) (q2r B) N)) as [K|K]; [exact K|]. exfalso. assert (0 < INR N)%R by (apply lt_0_INR; unfold N; destruct l; [easy|cbn; lia]). assert (0 < (1 + u) ^ N)%R by (apply pow_lt; pose proof u_pos; lra). assert (0 < INR N * (1 + u) ^ N)%R by now apply Rmult_lt_0_compat. nra. }
  apply Rmult_le_compat_r; [exact H0|]. rewrite (Rmult_comm 2). now apply Rmult_le_compat_l.
Qed.
Print Assumptions C101_squares_error.

Lemma qsum_perm : forall a b, Permutation a b -> qsum a = qsum b.
Proof. intros a b H. induction H as [|x l l' _ IH|x y l|]; [reflexivity| | |congruence]; unfold qsum in *; cbn [fold_right]; [now rewrite IH|ring]. Qed.
(** The order of the samples and the way the function was compiled change the mean by at most twice the bound. *)
Theorem C101_order : forall samples other lo hi B m n m2 m' n' m2', samples <> [] -> (Z.of_nat (List.length samples) <= 2 ^ 53)%Z ->
  Permutation (map snd samples) (map snd other) ->
  (forall e, In e samples -> is_double (snd e) /\ lo <= snd e <= hi) -> - B <= lo -> hi <= B ->
  fwelford_all samples (0, O, 0) = (m, n, m2) -> fwelford_all other (0, O, 0) = (m', n', m2') ->
  n = n' /\ within (qz 2 * mean_bound (List.length samples) (hi - lo) B) m m'.
Proof.
  intros l k lo hi B m n m2 m' n' m2' NE N53 P A B1 B2 E E'. pose proof (Permutation_length P) as LP. rewrite !map_length in LP.
  assert (NE' : k <> []) by (intros ->; destruct l; [easy|discriminate]).
  assert (A' : forall e, In e k -> is_double (snd e) /\ lo <= snd e <= hi). { intros e I. assert (J : In (snd e) (map snd l)) by (apply (Permutation_in _ (Permutation_sym P)); now apply in_map). apply in_map_iff in J. destruct J as (e' & J1 & J2). rewrite <- J1. now apply A. }
  pose proof (C101_mean_error l lo hi B m n m2 NE N53 A B1 B2 E) as M. pose proof (C101_mean_error k lo hi B m' n' m2' NE' ltac:(now rewrite <- LP) A' B1 B2 E') as M'. rewrite <- LP in M'.
  assert (EM : mean_of (map snd l) = mean_of (map snd k)) by (unfold mean_of; rewrite (qsum_perm _ _ P), !map_length; now rewrite LP). rewrite EM in M.
  destruct (C101_mean_between l m n m2 NE (fun e I => proj1 (A e I)) E) as [Ln _]. destruct (C101_mean_between k m' n' m2' NE' (fun e I => proj1 (A' e I)) E') as [Ln' _].
  split; [congruence|]. apply within_abs in M, M'. apply within_abs. rewrite q2r_mult, q2r_qz. apply Rabs_le_inv in M, M'. apply Rabs_le. lra.
Qed.
Print Assumptions C101_order.

Definition as_written (l : list Z) : list (way * Qc) := map (fun z => (written, qz z)) l.
Definition with_reciprocal : way := {| reciprocal := true; fuse_mean := false; second_way := FromMean; fuse_m2 := false |}.
Definition seen (s : Qc * nat * Qc) : Q * nat * Q := let '(m, n, v) := s in (this m, n, this v).
(** The results are not the same for another order of the samples, nor when the division was compiled as a product. *)
Theorem C101_reproducible_refuted :
  (exists a b, Permutation a b /\ (forall z, In z a -> is_double (qz z)) /\ fwelford_all (as_written a) (0, O, 0) <> fwelford_all (as_written b) (0, O, 0)) /\
  (exists a, (forall z, In z a -> is_double (qz z)) /\ fst (fst (fwelford_all (as_written a) (0, O, 0))) <> fst (fst (fwelford_all (map (fun z => (with_reciprocal, qz z)) a) (0, O, 0)))).
Proof.
  assert (D : forall z, In z [1; 2; 4]%Z -> is_double (qz z)) by (intros z [<-|[<-|[<-|[]]]]; apply Qc_is_canon, Qeq_bool_iff; vm_compute; reflexivity). split.
  - exists [1; 2; 4]%Z, [4; 2; 1]%Z. split; [apply (Permutation_rev [1; 2; 4]%Z)|]. split; [exact D|]. intro E. apply (f_equal seen) in E. vm_compute in E. discriminate E.
  - exists [1; 2; 4]%Z. split; [exact D|]. intro E. apply (f_equal this) in E. vm_compute in E. discriminate E.
Qed.
Print Assumptions C101_reproducible_refuted.

(** Three samples near 10^9: the mean and the deviations survive. *)
Example C101_example : seen (fwelford_all (as_written [1000000001; 1000000002; 1000000004]%Z) (0, O, 0)) = (8388608019573419 # 8388608, 3%nat, 78293673 # 16777216)%Q.
Proof. vm_compute. reflexivity. Qed.
Example C101_example_bound : qltb (squares_bound 3 (qz 3) (qz 1000000004)) (Q2Qc (1 # 10000)) = true.
Proof. vm_compute. reflexivity. Qed.
(** As written 1, 2, 4, 8 are summarised exactly; with a fused product they are not. *)
Example C101_example_written : seen (fwelford_all (as_written [1; 2; 4; 8]%Z) (0, O, 0)) = (15 # 4, 4%nat, 115 # 4)%Q /\
  snd (fwelford_all (map (fun z => ({| reciprocal := false; fuse_mean := false; second_way := FromMean; fuse_m2 := true |}, qz z)) [1; 2; 4; 8]%Z) (0, O, 0)) <> Q2Qc (115 # 4).
Proof. split; [vm_compute; reflexivity|]. intro E. apply (f_equal this) in E. vm_compute in E. discriminate E. Qed.
