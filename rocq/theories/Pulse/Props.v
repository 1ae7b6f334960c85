(** Properties C84-C86: preparing the reference pulse. *)
From Coq Require Import List ZArith QArith Qcanon Reals Bool Arith Lia.
From Flocq Require Import Core BinarySingleNaN.
From Verif.Base Require Import Py PyFacts Lst Num F64 F64Facts.
From Verif.Fitter Require Import Model.
From Verif.Pulse Require Import Model Proofs Proofs2 Proofs3.
Import ListNotations.
Local Open Scope list_scope.
Ltac vmr := repeat match goal with |- _ /\ _ => split; [vm_compute; reflexivity|] end; vm_compute; reflexivity.

(** ** C84. [T] is one nanosecond. If the table of the pulse ends between the N-th and the next whole nanosecond (by more
    than rounding errors), the pulse is sampled at the N + 1 whole nanoseconds from 0 to N, all of them inside the table. *)
Theorem C84_loads : forall Y (f : list b64 -> list Y -> b64 -> Y) refx refy d N, (4 <= List.length refx)%nat -> (forall x, In x refx -> is_finite x = true) ->
  (exists x, In x refx /\ (B2R x <= 0)%R) -> (1 <= N < 2 ^ 32)%Z ->
  (IZR N * T * (1 + bpow radix2 (-50)) <= B2R (last refx d) <= (IZR N + 1) * T * (1 - bpow radix2 (-50)))%R ->
  exists ys, resample f refx refy = Ok ys /\ List.length ys = S (Z.to_nat N) /\
  forall k y, nth_error ys k = Some y -> exists t, y = f refx refy t /\ is_finite t = true /\ (0 <= B2R t <= B2R (last refx d))%R /\ (Rabs (B2R t - INR k * T) <= bpow radix2 (-50) * (INR k * T))%R.
Proof.
  intros Y f refx refy d N L F Z HN H. destruct (times_spec refx d N L F Z HN H) as (ts & E & LT & P). exists (map (f refx refy) ts). unfold resample. rewrite E. cbn [bind].
  split; [reflexivity|]. split; [now rewrite map_length|]. intros k y K. rewrite nth_error_map in K. destruct (nth_error ts k) as [t|] eqn:NT; [|discriminate]. injection K as <-. exists t. split; [reflexivity|]. exact (P k t NT).
Qed.
Print Assumptions C84_loads.
(** Whatever the table, no sample is taken outside of it. *)
Lemma fold_in : forall (f : b64 -> b64 -> b64), (forall x y, f x y = x \/ f x y = y) -> forall l x, In (fold_left f l x) (x :: l).
Proof.
  intros f H. induction l as [|y l IH]; intro x; [now left|]. cbn [fold_left]. destruct (IH (f x y)) as [E|I]; [|right; now right]. rewrite <- E. destruct (H x y) as [-> | ->]; [now left|right; now left].
Qed.
Theorem C84_inside : forall refx ts t, sample_times refx = Ok ts -> In t ts -> is_finite t = true -> (forall x, In x refx -> is_finite x = true) ->
  exists lo hi, In lo refx /\ In hi refx /\ (B2R lo <= B2R t <= B2R hi)%R.
Proof.
  intros refx ts t E I FT F. unfold sample_times in E. destruct refx as [|x0 l]; [discriminate|]. destruct (_ <? 4)%nat; [discriminate|].
  destruct (b64_int _) as [m|]; [|discriminate]. cbn [bind] in E. destruct (b64_linspace0 _ _) as [x|]; [|discriminate]. cbn [bind] in E. cbv zeta in E.
  destruct (existsb _ x) eqn:EX; [discriminate|]. injection E as <-.
  exists (fold_left b64_min l x0), (fold_left b64_max l x0).
  assert (IL : In (fold_left b64_min l x0) (x0 :: l)) by (apply fold_in; intros a b; unfold b64_min; destruct (b64_lt b a); auto).
  assert (IH : In (fold_left b64_max l x0) (x0 :: l)) by (apply fold_in; intros a b; unfold b64_max; destruct (b64_lt a b); auto).
  split; [exact IL|]. split; [exact IH|]. set (lo := fold_left b64_min l x0) in *. set (hi := fold_left b64_max l x0) in *.
  assert (B : (b64_lt t lo || b64_lt hi t)%bool = false).
  { destruct (b64_lt t lo || b64_lt hi t)%bool eqn:BB; [|reflexivity]. rewrite <- EX. symmetry. apply existsb_exists. now exists t. }
  apply Bool.orb_false_elim in B as [B1 B2]. split; apply Rnot_lt_le; intro K; apply lt_spec in K; auto; congruence.
Qed.
Print Assumptions C84_inside.
(** In every case the number of sampled nanoseconds is at most one off. *)
Theorem C84_count : forall r : b64, is_finite r = true -> (0 <= B2R r <= 1)%R ->
  exists m, b64_int (b64_div r time_slice) = Ok m /\ (0 <= m)%Z /\ (IZR m * T * (1 - bpow radix2 (-50)) <= B2R r < (IZR m + 1) * T * (1 + bpow radix2 (-50)))%R.
Proof. exact samples_bound. Qed.
Print Assumptions C84_count.
(** Tables in whole nanoseconds, every number being the double next to the decimal one in the file. *)
Definition whole_table (n : nat) : list b64 := map whole_ns (seq 0 (S n)).
Theorem C84_whole_numbers : forall n k, (Z.of_nat n < 2 ^ 53)%Z -> (k <= n)%nat -> exists x, nth_error (whole_table n) k = Some x /\ is_finite x = true /\ B2R x = rnd (INR k * T).
Proof.
  intros n k N K. exists (whole_ns k). unfold whole_table. rewrite nth_error_map, nth_error_seq. destruct (Nat.ltb_spec k (S n)); [|lia]. cbn. split; [reflexivity|]. apply whole_ns_spec. lia.
Qed.
Print Assumptions C84_whole_numbers.
(** They are not always loaded: a table that ends at 96 ns cannot be loaded at all, and of one that ends at 100 ns the last
    sample is dropped. *)
Lemma has_length : forall A (r : res (list A)) n, match r with Ok l => Nat.eqb (List.length l) n | Raise _ => false end = true -> exists l, r = Ok l /\ List.length l = n.
Proof. intros A [l|e] n H; [|discriminate]. exists l. split; [reflexivity|]. now apply Nat.eqb_eq. Qed.
Lemma has_raised : forall A (r : res (list A)), match r with Raise ValueError => true | _ => false end = true -> r = Raise ValueError.
Proof. intros A [l|[]] H; try discriminate; reflexivity. Qed.
Theorem C84_whole_refuted : (exists n, sample_times (whole_table n) = Raise ValueError) /\
  (exists n ts, sample_times (whole_table n) = Ok ts /\ List.length ts = n /\ n = 100%nat).
Proof.
  split; [exists 96%nat; apply has_raised; vm_compute; reflexivity|]. destruct (has_length _ (sample_times (whole_table 100)) 100) as (ts & E & L); [vm_compute; reflexivity|]. exists 100%nat, ts. split; [exact E|]. split; [exact L|reflexivity].
Qed.
Print Assumptions C84_whole_refuted.
Definition n_samples (refx : list b64) : option nat := match sample_times refx with Ok l => Some (List.length l) | Raise _ => None end.
Example C84_ex : map (fun n => n_samples (whole_table n)) [3; 4; 5; 6; 7; 127]%nat = [None; Some 5; Some 6; None; Some 7; Some 128]%nat /\
  n_samples (map (fun k => b64_div (b64_of_Z (Z.of_nat k)) (b64_of_Z 2000000000)) (seq 0 20)) = Some 10%nat /\
  n_samples (whole_table 2) = None /\ n_samples (map whole_ns (seq 1 10)) = None.
Proof. vmr. Qed.

Local Open Scope Qc_scope.
(** ** C85. The adjusted template: up to the fifth point it is the straight line through the origin, the last ten points are
    on the straight line that ends at 0 at the abscissa x[-10] + x[10], and everything between is as in the file. *)
Theorem C85_template : forall x y n, List.length x = n -> List.length y = n -> (15 <= n)%nat -> nth 4 x 0 <> 0 -> nth 10 x 0 <> 0 ->
  exists y', template_points x y = Ok (Some y') /\ List.length y' = n /\
  (forall i, (i <= 4)%nat -> nth i y' 0 = nth 4 y 0 / nth 4 x 0 * nth i x 0) /\
  (forall i, (4 <= i <= n - 10)%nat -> nth i y' 0 = nth i y 0) /\
  (forall i, (n - 10 <= i < n)%nat -> nth i y' 0 = nth (n - 10) y 0 * (nth (n - 10) x 0 + nth 10 x 0 - nth i x 0) / nth 10 x 0).
Proof. exact template_spec. Qed.
Print Assumptions C85_template.
(** For a table in equal steps from 0 on it starts at 0 and would be 0 one step after the last point. *)
Theorem C85_equal_steps : forall h y n, h <> 0 -> List.length y = n -> (15 <= n)%nat ->
  exists y', template_points (map (fun i => qn i * h) (seq 0 n)) y = Ok (Some y') /\ List.length y' = n /\ nth 0 y' 0 = 0 /\
  (forall i, (4 <= i <= n - 10)%nat -> nth i y' 0 = nth i y 0) /\
  (forall j, (1 <= j <= 10)%nat -> nth (n - j) y' 0 = nth (n - 10) y 0 * (qn j / qn 10)).
Proof.
  intros h y n H LY L. set (x := map (fun i => qn i * h) (seq 0 n)).
  assert (LX : List.length x = n) by (unfold x; now rewrite map_length, seq_length).
  assert (NX : forall i, (i < n)%nat -> nth i x 0 = qn i * h).
  { intros i I. unfold x. apply nth_error_nth. rewrite nth_error_map, nth_error_seq. destruct (Nat.ltb_spec i n); [reflexivity|lia]. }
  assert (NZ : forall i, (0 < i)%nat -> qn i * h <> 0).
  { intros i I E. apply Qcmult_integral in E as [E|E]; [|contradiction]. pose proof (qn_pos i I) as P. rewrite E in P. now apply Qclt_not_eq in P. }
  destruct (template_spec x y n LX LY L) as (y' & E & L' & A & B & C); [rewrite NX by lia; apply NZ; lia|rewrite NX by lia; apply NZ; lia|].
  exists y'. split; [exact E|]. split; [exact L'|]. split; [rewrite A, (NX 0%nat) by lia; rewrite qn_0; unfold Qcdiv; ring|]. split; [exact B|].
  intros j J. rewrite C by lia. rewrite !NX by lia. assert (EJ : qn (n - j) = qn n - qn j) by (replace (qn n) with (qn (n - j + j)) by (f_equal; lia); rewrite qn_plus; ring).
  assert (E10 : qn (n - 10) = qn n - qn 10) by (replace (qn n) with (qn (n - 10 + 10)) by (f_equal; lia); rewrite qn_plus; ring). rewrite EJ, E10. field. split; [discriminate|exact H].
Qed.
Print Assumptions C85_equal_steps.
Theorem C85_short : forall x y n, List.length x = n -> List.length y = n -> (n <= 10)%nat -> (n <= 4)%nat \/ nth 4 x 0 <> 0 -> template_points x y = Raise IndexError.
Proof. exact template_short. Qed.
Print Assumptions C85_short.
Example C85_ex : match template_points (map (fun i => qz (Z.of_nat i)) (seq 0 16)) (map qz [5; 7; 3; 9; 8; 20; 30; 20; 15; 14; 13; 12; 11; 10; 9; 8]%Z) with
  | Ok (Some y) => map this y = [0; 2; 4; 6; 8; 20; 30; 27; 24; 21; 18; 15; 12; 9; 6; 3]%Q | _ => False end.
Proof. vm_compute. reflexivity. Qed.

(** ** C86. The candidate pulses: 127 * bases_bin equally spaced times from minus the length of the template to 126 ns.
    [pulse_end template t]: [t] is the last of 1000 points between 0 and 120 ns at which the template is positive. *)
Theorem C86_bases : forall template b, (1 <= b)%nat ->
  (basis_times template b = Raise ValueError /\ forall k, (k < 1000)%nat -> ~ 0 < template (nth k grid 0)) \/
  exists t_end l, pulse_end template t_end /\ basis_times template b = Ok l /\ List.length l = (127 * b)%nat /\
  forall i, (i < 127 * b)%nat -> nth i l 0 = qn i * ((qz 126 * nano + t_end) / qn (127 * b - 1)) - t_end.
Proof. exact basis_spec. Qed.
Print Assumptions C86_bases.
Lemma last_spaced : forall b c, (1 <= b)%nat -> qn (127 * b - 1) * (c / qn (127 * b - 1)) = c.
Proof. intros b c B. field. intro E. assert (P : 0 < qn (127 * b - 1)) by (apply qn_pos; lia). rewrite E in P. now apply Qclt_not_eq in P. Qed.
(** Every time of the range is within half a spacing of one of them. *)
Theorem C86_covers : forall template b l t_end t, (1 <= b)%nat -> pulse_end template t_end -> basis_times template b = Ok l -> - t_end <= t -> t <= qz 126 * nano ->
  exists i, (i < 127 * b)%nat /\ let d := (qz 126 * nano + t_end) / qn (127 * b - 1) in t - nth i l 0 <= d / (1 + 1) /\ nth i l 0 - t <= d / (1 + 1).
Proof.
  intros template b l t_end t B PE E T0 T1.
  assert (UE : forall s, pulse_end template s -> s = t_end).
  { intros s (k & K & -> & P & N). destruct PE as (k' & K' & -> & P' & N'). destruct (lt_eq_lt_dec k k') as [[H| ->]|H]; [|reflexivity|]; exfalso; [apply (N k')|apply (N' k)]; auto. }
  destruct (basis_spec template b B) as [[R _]|(s & l' & PS & E' & L & N)]; [congruence|]. rewrite (UE s PS) in *. assert (l' = l) by congruence. subst l'. clear PS E'.
  set (c := qz 126 * nano + t_end) in *. set (d := c / qn (127 * b - 1)).
  assert (D : 0 < d).
  { assert (P : 0 < qn (127 * b - 1)) by (apply qn_pos; lia). assert (C : 0 < c). { destruct (end_range _ _ PE) as [A _]. assert (0 < qz 126 * nano) by reflexivity. unfold c. set (q := qz 126 * nano) in *. clearbody q. clear - A H. qlra. }
    pose proof (last_spaced b c B) as EQ. fold d in EQ. clearbody d. clear - P C EQ. qnra. }
  destruct (nearest_point (- t_end) d (127 * b - 1) t D T0) as (i & I & X & Y).
  { unfold d. rewrite last_spaced by exact B. unfold c. clear - T1. set (q := qz 126 * nano) in *. clearbody q. qlra. }
  exists i. assert (I' : (i < 127 * b)%nat) by lia. split; [exact I'|]. cbv zeta. rewrite (N i I'). fold d. split.
  - clear - X. set (h := d / (1 + 1)) in *. set (e := qn i * d) in *. clearbody h e. qlra.
  - clear - Y. set (h := d / (1 + 1)) in *. set (e := qn i * d) in *. clearbody h e. qlra.
Qed.
Print Assumptions C86_covers.
(** A column of the matrix is the template shifted to the time of the pulse. *)
Theorem C86_columns : forall template l i j, (i < List.length l)%nat -> (j < 128)%nat -> nth j (nth i (model_matrix template l) []) 0 = template (qn j * nano - nth i l 0).
Proof.
  intros template l i j I J. unfold model_matrix.
  assert (E : nth i (map (fun t => map (fun tb => template (tb - t)) time_bins) l) [] = map (fun tb => template (tb - nth i l 0)) time_bins).
  { apply nth_error_nth. now rewrite nth_error_map, (nth_error_nth' l 0 I). }
  rewrite E. apply nth_error_nth. unfold time_bins. rewrite !nth_error_map, nth_error_seq. destruct (Nat.ltb_spec j 128); [reflexivity|lia].
Qed.
Print Assumptions C86_columns.
(** But there are fewer than bases_bin of them per nanosecond, whatever the template, if it is at least 1 ns long: the
    length of the template enters the number of pulses in seconds. *)
Theorem C86_density_refuted : forall template b t_end l, (1 <= b)%nat -> pulse_end template t_end -> nano <= t_end -> basis_times template b = Ok l ->
  forall i, (S i < 127 * b)%nat -> nano / qn b < nth (S i) l 0 - nth i l 0.
Proof.
  intros template b t_end l B PE T1 E i I.
  assert (UE : forall s, pulse_end template s -> s = t_end).
  { intros s (k & K & -> & P & N). destruct PE as (k' & K' & -> & P' & N'). destruct (lt_eq_lt_dec k k') as [[H| ->]|H]; [|reflexivity|]; exfalso; [apply (N k')|apply (N' k)]; auto. }
  destruct (basis_spec template b B) as [[R _]|(s & l' & PS & E' & L & N)]; [congruence|]. rewrite (UE s PS) in *. assert (l' = l) by congruence. subst l'.
  rewrite (N (S i)), (N i) by lia. rewrite qn_S. set (c := qz 126 * nano + t_end). pose proof (last_spaced b c B) as EQ. set (d := c / qn (127 * b - 1)) in *.
  replace ((qn i + 1) * d - t_end - (qn i * d - t_end)) with d by ring.
  assert (PB : 0 < qn b) by (apply qn_pos; lia). assert (EN : qn b * (nano / qn b) = nano) by (field; intro Z; rewrite Z in PB; now apply Qclt_not_eq in PB).
  set (g := nano / qn b) in *.
  assert (Q : qn (127 * b - 1) = qz 127 * qn b - 1). { assert (qn (127 * b) = qn (127 * b - 1) + 1) by (rewrite <- qn_S; f_equal; lia). rewrite qn_mult in H. change (qn 127) with (qz 127) in H. rewrite H. ring. }
  rewrite Q in EQ. assert (C : qz 127 * nano <= c). { unfold c. assert (qz 127 * nano = qz 126 * nano + nano) by (apply Qc_is_canon; reflexivity). rewrite H. clear - T1. set (q := qz 126 * nano). clearbody q. qlra. }
  rewrite <- EN in C. assert (PG : 0 < g). { assert (0 < nano) by reflexivity. rewrite <- EN in H. clear - H PB. clearbody g. qnra. }
  destruct (qltb_spec g d) as [H|H]; [exact H|]. exfalso.
  assert (B1 : 1 <= qn b) by (change 1 with (qn 1); apply qn_le; lia).
  assert (X : (qz 127 * qn b - 1) * d <= (qz 127 * qn b - 1) * g).
  { assert (0 <= qz 127 * qn b - 1). { assert (qz 1 <= qz 127) by discriminate. change (qz 1) with 1 in H0. clear - B1 H0. set (z := qz 127) in *. set (n := qn b) in *. clearbody z n. qnra. }
    clear - H0 H. set (z := qz 127 * qn b - 1) in *. clearbody z d g. qnra. }
  rewrite EQ in X. assert (Y : (qz 127 * qn b - 1) * g = qz 127 * (qn b * g) - g) by ring. rewrite Y in X. clear - X C PG. set (z := qz 127 * (qn b * g)) in *. clearbody z c g. qlra.
Qed.
Print Assumptions C86_density_refuted.
(** A triangular template of 60 ns. *)
Definition triangle (t : Qc) : Qc := if qltb 0 t && qltb t (qz 60 * nano) then (if qltb t (qz 60 * nano - t) then t else qz 60 * nano - t) else 0.
Example C86_ex : match basis_times triangle 4 with
  | Ok l => List.length l = 508%nat /\ map (fun i => this (nth i l 0 / nano)) [0; 1; 507]%nat = [-19960 # 333; -10057802 # 168831; 126]%Q | _ => False end.
Proof. vm_compute. split; reflexivity. Qed.
