(** Properties C49-C52: calibrators. *)
From Coq Require Import List ZArith QArith Qcanon Qround Bool Arith Lia String Permutation.
From Verif.Base Require Import Py PyFacts Num Lst.
From Verif.Calib Require Import Model Proofs Proofs2 Proofs3.
Import ListNotations.
Local Open Scope list_scope.
Local Open Scope Qc_scope.

(** ** C49: [interpolated w x y] says that [y] is the piecewise linear function through the samples of [w] at [x],
    continued beyond both ends by the outermost segments (Calib/Proofs.v). *)
Theorem C49_interpolation : forall w c, (2 <= List.length w)%nat -> ~ integer c ->
  exists out, t_cor_pixel w c = Ok out /\ List.length out = List.length w /\
  forall i, (i < List.length w)%nat -> interpolated w (qn i - c) (nth i out 0).
Proof. exact pixel_interpolated. Qed.
Print Assumptions C49_interpolation.

(** A ramp is shifted exactly. *)
Theorem C49_affine : forall a b n c, (2 <= n)%nat -> ~ integer c ->
  t_cor_pixel (map (fun j => a + b * qn j) (seq 0 n)) c = Ok (map (fun j => a + b * (qn j - c)) (seq 0 n)).
Proof.
  intros a b n c L N. destruct (pixel_interpolated (map (fun j => a + b * qn j) (seq 0 n)) c) as (out & E & LO & H); auto.
  { now rewrite map_length, seq_length. } rewrite map_length, seq_length in *.
  rewrite E. f_equal. apply list_ext. intro i. rewrite nth_error_map_seq. destruct (Nat.ltb_spec i n) as [I|I].
  - rewrite (nth_error_nth' out 0) by lia. f_equal. apply (affine_interpolated a b n (qn i - c)); auto.
    intros k _ X. apply N. now apply (position_int i c k).
  - apply nth_error_None. lia.
Qed.
Print Assumptions C49_affine.

(** The whole camera: the row of a pixel depends on its own samples and correction only. *)
Theorem C49_pixels_independent : forall ws cs out ws' cs' out' p, apply_t_cor ws cs = Ok out -> apply_t_cor ws' cs' = Ok out' ->
  (p < List.length ws)%nat -> (p < List.length cs)%nat ->
  nth_error ws p = nth_error ws' p -> nth_error cs p = nth_error cs' p -> nth_error out p = nth_error out' p.
Proof. exact event_local. Qed.
Print Assumptions C49_pixels_independent.
Theorem C49_event : forall ws cs, List.length ws = List.length cs -> (forall w, In w ws -> (2 <= List.length w)%nat) -> (forall c, In c cs -> ~ integer c) ->
  exists out, apply_t_cor ws cs = Ok out /\ List.length out = List.length ws /\
  forall p w c, nth_error ws p = Some w -> nth_error cs p = Some c -> exists o, nth_error out p = Some o /\ List.length o = List.length w /\
    forall i, (i < List.length w)%nat -> interpolated w (qn i - c) (nth i o 0).
Proof.
  intros ws cs E L N. destruct (event_ok ws cs L) as (out & EO & LO).
  { intros p w c W C z _ ->. apply (N (qz z)); [now apply nth_error_In in C|now exists z]. }
  exists out. split; auto. split; [lia|]. intros p w c W C. destruct (event_pixel ws cs out p w c) as (o & O & NO); auto.
  destruct (pixel_interpolated w c) as (o' & O' & R); [apply L; now apply nth_error_In in W|apply N; now apply nth_error_In in C|].
  assert (o = o') by congruence. subst o'. exists o. tauto.
Qed.
Print Assumptions C49_event.

Definition halves (l : list (Z * positive)) : list Qc := map (fun p => Q2Qc (fst p # snd p)) l.
Example C49_ex : exists out, t_cor_pixel (map qz [0; 10; 40; 20]%Z) (Q2Qc (1 # 2)) = Ok out /\ map this out = [-5 # 1; 5 # 1; 25 # 1; 30 # 1]%Q.
Proof. eexists. split; vm_compute; reflexivity. Qed.
Example C49_ex_right : exists out, t_cor_pixel (map qz [0; 10; 40; 20]%Z) (Q2Qc (-3 # 2)) = Ok out /\ map this out = [25 # 1; 30 # 1; 10 # 1; -10 # 1]%Q.
Proof. eexists. split; vm_compute; reflexivity. Qed.
Example C49_ex_hyp : ~ integer (Q2Qc (1 # 2)).
Proof. intros [z E]. pose proof (this_qz z) as H. rewrite <- E in H. unfold Qeq in H. cbn in H. lia. Qed.

(** ** C50 does not hold: no waveform survives the correction 0; a whole-sample shift smaller than the waveform raises as well. *)
Theorem C50_refuted : forall w, (2 <= List.length w)%nat -> t_cor_pixel w 0 = Raise ZeroDivisionError.
Proof. intros w L. apply pixel_raise_iff; auto. exists 0%Z. split; [reflexivity|lia]. Qed.
Print Assumptions C50_refuted.
(** Exactly which corrections raise, and with which exception. *)
Theorem C50_exact : forall w c, (2 <= List.length w)%nat ->
  (t_cor_pixel w c = Raise ZeroDivisionError <-> exists z, c = qz z /\ (Z.abs z < Z.of_nat (List.length w))%Z) /\
  (t_cor_pixel w c = Raise ZeroDivisionError \/ exists out, t_cor_pixel w c = Ok out).
Proof. exact pixel_raise_iff. Qed.
Print Assumptions C50_exact.
(** One such pixel loses the whole event. *)
Theorem C50_event : forall ws cs p w z, (forall v, In v ws -> (2 <= List.length v)%nat) -> nth_error ws p = Some w -> nth_error cs p = Some (qz z) ->
  (Z.abs z < Z.of_nat (List.length w))%Z -> apply_t_cor ws cs = Raise ZeroDivisionError.
Proof. exact event_raise. Qed.
Print Assumptions C50_event.
(** Integer corrections beyond the waveform are extrapolated. *)
Theorem C50_far : forall w z i, (2 <= List.length w)%nat -> (Z.of_nat (List.length w) <= Z.abs z)%Z -> (i < List.length w)%nat ->
  exists out, t_cor_pixel w (qz z) = Ok out /\ List.length out = List.length w /\ interpolated w (qn i - qz z) (nth i out 0).
Proof. exact pixel_far_integer. Qed.
Print Assumptions C50_far.
Example C50_ex : apply_t_cor [map qz [1; 2; 3]%Z; map qz [4; 5; 6]%Z] [Q2Qc (1 # 2); 0] = Raise ZeroDivisionError /\
  (exists out, apply_t_cor [map qz [1; 2; 3]%Z; map qz [4; 6; 6]%Z] [Q2Qc (1 # 2); qz 3] = Ok out /\ map (map this) out = [[1 # 2; 3 # 2; 5 # 2]; [-2 # 1; 0 # 1; 2 # 1]]%Q).
Proof. split; [vm_compute; reflexivity|]. eexists. split; vm_compute; reflexivity. Qed.

(** ** C51 *)
Theorem C51_amplitude : forall ff ped conv p f b, nth_error ped p = Some b -> nth_error ff p = Some f -> conv <> 0 ->
  calibrate ff ped conv b p = Ok 0 /\
  calibrate ff ped conv (b + conv) p = Ok f /\
  (forall a c v w, exists x y z, calibrate ff ped conv v p = Ok x /\ calibrate ff ped conv w p = Ok y /\
    calibrate ff ped conv (a * v + c * w) p = Ok z /\ (a + c = 1 -> z = a * x + c * y) /\ (0 < f / conv -> v < w -> x < y)).
Proof. exact calibrate_affine. Qed.
Print Assumptions C51_amplitude.
Theorem C51_profile : forall profile image, List.length image = List.length profile -> (forall x, In x profile -> x <> 0) ->
  fold_profile profile (unfold_profile profile image) = image /\ unfold_profile profile (fold_profile profile image) = image.
Proof. exact profile_inverse. Qed.
Print Assumptions C51_profile.
Example C51_ex : exists y, calibrate (map qz [1; 2]%Z) (map qz [10; 20]%Z) (qz 4) (qz 30) 1 = Ok y /\ this y = (5 # 1)%Q.
Proof. eexists. split; vm_compute; reflexivity. Qed.
Example C51_ex_profile : map this (unfold_profile (halves [(1%Z, 2%positive); (4%Z, 1%positive)]) (map qz [3; 8]%Z)) = [6 # 1; 2 # 1]%Q.
Proof. vm_compute. reflexivity. Qed.

(** ** C52 *)
Definition n_given (args : list (option Qc)) : nat := fold_right (fun a n => match a with Some _ => S n | None => n end) 0%nat args.
Theorem C52_exactly_one : forall df vover opct pde gain, n_given [vover; opct; pde; gain] <> 1%nat -> convert df vover opct pde gain = Raise ValueError.
Proof. intros df [|] [|] [|] [|] H; try reflexivity; exfalso; apply H; reflexivity. Qed.
Print Assumptions C52_exactly_one.
(** [convert_named df key v] is the call with the one argument [key=v]; [increasing] is strict. *)
Theorem C52_outside : forall df key v xs, In key ["vover"; "opct"; "pde"; "gain"]%string -> dlookup key df = Ok xs ->
  increasing xs -> xs <> [] -> (forall col, In col df -> List.length (snd col) = List.length xs) ->
  v < nth 0 xs 0 \/ nth (List.length xs - 1) xs 0 < v -> convert_named df key v = Raise ValueError.
Proof. exact convert_outside. Qed.
Print Assumptions C52_outside.
Theorem C52_inside : forall df key v xs, In key ["vover"; "opct"; "pde"; "gain"]%string -> dlookup key df = Ok xs ->
  increasing xs -> xs <> [] -> (forall col, In col df -> List.length (snd col) = List.length xs) ->
  nth 0 xs 0 <= v <= nth (List.length xs - 1) xs 0 ->
  exists r, convert_named df key v = Ok r /\ map fst r = map fst df /\
  forall c name ys, nth_error df c = Some (name, ys) -> exists y, nth_error r c = Some (name, y) /\
    (ys = xs -> y = v) /\
    (forall i, (i < List.length xs)%nat -> v = nth i xs 0 -> y = nth i ys 0) /\
    (forall i, (S i < List.length xs)%nat -> nth i xs 0 < v -> v < nth (S i) xs 0 ->
       y = nth i ys 0 + (nth (S i) ys 0 - nth i ys 0) * ((v - nth i xs 0) / (nth (S i) xs 0 - nth i xs 0)) /\
       (nth i ys 0 <= nth (S i) ys 0 -> nth i ys 0 <= y <= nth (S i) ys 0) /\
       (nth (S i) ys 0 <= nth i ys 0 -> nth (S i) ys 0 <= y <= nth i ys 0)).
Proof. exact convert_inside. Qed.
Print Assumptions C52_inside.
(** The order of the rows does not matter (so a table that decreases down a column, or in no order at all, converts as
    the increasing one does): [pick_rows perm df] has the rows of [df] in the order [perm]. *)
Theorem C52_row_order : forall perm n df vover opct pde gain, Permutation perm (seq 0 n) -> (forall col, In col df -> List.length (snd col) = n) ->
  (forall key xs, In key ["vover"; "opct"; "pde"; "gain"]%string -> dlookup key df = Ok xs -> NoDup xs) ->
  convert (pick_rows perm df) vover opct pde gain = convert df vover opct pde gain.
Proof. exact convert_pick. Qed.
Print Assumptions C52_row_order.
Definition sheet : table := [("vover", map qz [2; 4; 6]%Z); ("pde", map qz [30; 50; 45]%Z)]%string.
Example C52_ex : (exists r, convert_named sheet "vover" (qz 3) = Ok r /\ map (fun a => (fst a, this (snd a))) r = [("vover", 3 # 1); ("pde", 40 # 1)]%Q%string) /\
  (exists r, convert_named sheet "vover" (qz 6) = Ok r /\ map (fun a => (fst a, this (snd a))) r = [("vover", 6 # 1); ("pde", 45 # 1)]%Q%string) /\
  convert_named sheet "vover" (qz 7) = Raise ValueError /\ convert sheet (Some (qz 3)) (Some (qz 3)) None None = Raise ValueError.
Proof. split; [eexists; split; vm_compute; reflexivity|]. split; [eexists; split; vm_compute; reflexivity|]. split; vm_compute; reflexivity. Qed.
Example C52_ex_order : pick_rows [2; 0; 1]%nat sheet = [("vover", map qz [6; 2; 4]%Z); ("pde", map qz [45; 30; 50]%Z)]%string /\
  exists r, convert_named (pick_rows [2; 0; 1]%nat sheet) "vover" (qz 3) = Ok r /\ map (fun a => (fst a, this (snd a))) r = [("vover", 3 # 1); ("pde", 40 # 1)]%Q%string.
Proof. split; [reflexivity|]. eexists; split; vm_compute; reflexivity. Qed.
Example C52_ex_hyp : increasing (map qz [2; 4; 6]%Z).
Proof.
  intros i j x y X Y L. destruct i as [|[|[|i]]]; destruct j as [|[|[|j]]]; cbn in X, Y; try lia; try discriminate; try (destruct j; discriminate); try (destruct i; discriminate);
    injection X as <-; injection Y as <-; reflexivity.
Qed.
