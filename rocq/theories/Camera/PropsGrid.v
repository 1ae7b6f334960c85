(** Property C73: rows and columns of pixels on a grid. *)
From Coq Require Import List ZArith QArith Qcanon Bool Lia.
From Verif.Base Require Import Py PyFacts Num Lst.
From Verif.Camera Require Import Model Proofs3 Proofs4.
Import ListNotations.
Local Open Scope list_scope.

(** A pixel in the given (column, row) of a grid with the given origin and pitch. *)
Definition at_cell (x0 y0 pitch : Qc) (c : Z * Z) : Qc * Qc := (x0 + pitch * qz (fst c), y0 + pitch * qz (snd c))%Qc.
Definition neighbours (c d : Z * Z) : Prop := (Z.abs (fst c - fst d) + Z.abs (snd c - snd d) = 1)%Z.

(** Pixels on an n x n grid, in any order, not necessarily filling it, such that the first pixel has a direct
    neighbour, some column is complete, every complete column has the number of a complete row, and no pixel has a zero
    coordinate: get_row_column returns every pixel's row and column. *)
Theorem C73_square : forall x0 y0 pitch n first others,
  let cells := first :: others in
  (0 < pitch)%Qc -> (2 <= n)%Z -> NoDup cells -> (forall c, In c cells -> (0 <= fst c < n /\ 0 <= snd c < n)%Z) ->
  (exists c, In c others /\ neighbours c first) ->
  (exists i, (0 <= i < n)%Z /\ forall j, (0 <= j < n)%Z -> In (i, j) cells) ->
  (forall i, (0 <= i < n)%Z -> (forall j, (0 <= j < n)%Z -> In (i, j) cells) -> forall j, (0 <= j < n)%Z -> In (j, i) cells) ->
  (forall c, In c cells -> fst (at_cell x0 y0 pitch c) <> 0%Qc /\ snd (at_cell x0 y0 pitch c) <> 0%Qc) ->
  get_row_column (map (at_cell x0 y0 pitch) cells) = Ok (map snd cells, map fst cells).
Proof.
  intros x0 y0 p n c0 rest cells P N ND IN NB CC SY NZ.
  assert (CR : exists f, (0 <= f < n)%Z /\ forall i, (0 <= i < n)%Z -> In (i, f) cells) by (destruct CC as (i & I & C); exists i; split; [auto|now apply SY]).
  destruct (row_column_grid x0 y0 p n n cells P N N ND IN (fun c I => proj1 (NZ c I)) (fun c I => proj2 (NZ c I)) c0 rest eq_refl NB) as (f & CF & _ & _ & G).
  - destruct CC as (i & I & C). exists i. split; auto.
  - destruct CR as (f & F & C). exists f. split; [auto|]. apply C. lia.
  - destruct CR as (f & F & C). exists f. split; [auto|]. apply C. lia.
  - destruct CF as [FB CF]. change (map (at_cell x0 y0 p) cells) with (map (place x0 y0 p) cells). rewrite G; [|lia|now apply SY].
    destruct (qmin_diag x0 y0 p n P N) as (d & B & M). unfold pos in B. unfold gx at 1 2, gy at 1 2. rewrite B. cbn [bind]. rewrite M. cbv zeta.
    change ((1 + 1) * sq p / qz 4)%Qc with (half2 p). rewrite !mapM_map_in.
    rewrite (mapM_map _ _ _ fst) by (intros c C; apply digitize_pos; [exact P|apply (IN c C)]). cbn [bind].
    rewrite (mapM_map _ _ _ snd) by (intros c C; apply digitize_pos; [exact P|apply (IN c C)]). reflexivity.
Qed.
Print Assumptions C73_square.
(** A completely filled grid with different numbers of rows and columns always raises ValueError. *)
Theorem C73_rectangle : forall x0 y0 pitch ncol nrow first others,
  let cells := first :: others in
  (0 < pitch)%Qc -> (2 <= ncol)%Z -> (2 <= nrow)%Z -> ncol <> nrow -> NoDup cells ->
  (forall c, In c cells <-> (0 <= fst c < ncol /\ 0 <= snd c < nrow)%Z) ->
  (forall c, In c cells -> fst (at_cell x0 y0 pitch c) <> 0%Qc /\ snd (at_cell x0 y0 pitch c) <> 0%Qc) ->
  get_row_column (map (at_cell x0 y0 pitch) cells) = Raise ValueError.
Proof.
  intros x0 y0 p nc nr c0 rest cells P N M NE ND IN NZ.
  assert (FULL : forall i, (0 <= i < nc)%Z -> complete_col nc nr cells i) by (intros i I; split; [auto|intros j J; apply IN; auto]).
  destruct (row_column_grid x0 y0 p nc nr cells P N M ND (fun c => proj1 (IN c)) (fun c I => proj1 (NZ c I)) (fun c I => proj2 (NZ c I)) c0 rest eq_refl) as (f & CF & FIRST & _ & G).
  - assert (exists d, (0 <= fst d < nc /\ 0 <= snd d < nr)%Z /\ neighbours d c0) as (d & D & NB).
    { destruct (proj1 (IN c0) (or_introl eq_refl)) as [C1 C2]. unfold neighbours. destruct (Z.eq_dec (fst c0) 0).
      - exists (fst c0 + 1, snd c0)%Z. cbn [fst snd]. lia.
      - exists (fst c0 - 1, snd c0)%Z. cbn [fst snd]. lia. }
    exists d. split; [|exact NB]. apply IN in D. destruct D as [<-|D]; [|exact D]. exfalso. unfold neighbours in NB. lia.
  - exists 0%Z. apply FULL. lia.
  - exists 0%Z. split; [lia|]. apply IN. cbn. lia.
  - exists 0%Z. split; [lia|]. apply IN. cbn. lia.
  - assert (f = 0)%Z as ->. { destruct CF as [FB _]. destruct (Z.eq_dec f 0); [auto|]. exfalso. apply (FIRST 0%Z); [lia|]. apply FULL. lia. }
    change (map (at_cell x0 y0 p) cells) with (map (place x0 y0 p) cells). rewrite G; [|lia|intros i I; apply IN; cbn; lia].
    rewrite broadcast_fail; [reflexivity|rewrite !map_length, !zrange_length; lia ..].
Qed.
Print Assumptions C73_rectangle.

(** The number of the fullest column is used as the number of a row.  On a 3 x 3 grid without its lower left pixel the
    first complete column is 1 and row 1 is complete.  Without the two lower pixels of the left column the first complete
    column is still 1, but row 1 is not complete, and the call raises. *)
Definition ex_grid (cells : list (Z * Z)) := get_row_column (map (at_cell (qz 1) (qz 1) (qz 2)) cells).
Example C73_ex : ex_grid [(1, 0); (2, 0); (0, 1); (1, 1); (2, 1); (0, 2); (1, 2); (2, 2)]%Z = Ok ([0; 0; 1; 1; 1; 2; 2; 2], [1; 2; 0; 1; 2; 0; 1; 2])%Z.
Proof. vm_compute. reflexivity. Qed.
Example C73_missing_ex : ex_grid [(1, 0); (2, 0); (1, 1); (2, 1); (0, 2); (1, 2); (2, 2)]%Z = Raise ValueError.
Proof. vm_compute. reflexivity. Qed.
Example C73_rectangle_ex : ex_grid [(0, 0); (1, 0); (2, 0); (0, 1); (1, 1); (2, 1)]%Z = Raise ValueError.
Proof. vm_compute. reflexivity. Qed.
(** A pixel displaced from its column by 0.3 of the pitch is assigned to the next one: the edges are placed 1/sqrt 2 of the
    pitch below each column. *)
Theorem C73_tolerance_refuted :
  exists pix, get_row_column pix = Ok ([0; 0; 1; 1], [0; 1; 1; 1])%Z /\ pix = map (fun c => (Q2Qc (fst c), Q2Qc (snd c))) [(1, 1); (2, 1); (13 # 10, 2); (2, 2)]%Q.
Proof. eexists. split; [|reflexivity]. vm_compute. reflexivity. Qed.
Print Assumptions C73_tolerance_refuted.
