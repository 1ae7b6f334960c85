(** Property C67: single photoelectron fits and process schedules. *)
From Coq Require Import List ZArith Bool Lia Permutation.
From Verif.Base Require Import Lst.
From Verif.Spe Require Import Model Proofs.
Import ListNotations.

(** The row of a table that belongs to a pixel: the fit of that pixel's own charges. *)
Definition rows {charges outcome X} (fit : charges -> outcome) (pixel_charges : nat -> charges) (g : outcome -> X) (pixels : list nat) : list (nat * X) :=
  map (fun p => (p, g (fit (pixel_charges p)))) pixels.

(** Any number of processes, any distribution of the pixels over them and any interleaving of their steps: each of the
    three tables has exactly one row per pixel, with the results of that pixel's charges. *)
Theorem C67_results : forall charges outcome V E A (fit : charges -> outcome) (fv : outcome -> V) (fe : outcome -> E) (fa : outcome -> A) pixel_charges n_pixels ds trace,
  distribution n_pixels ds -> interleaving (map program ds) trace ->
  let s := run fit fv fe fa pixel_charges trace in
  Permutation (pixel_values s) (rows fit pixel_charges fv (seq 0 n_pixels)) /\
  Permutation (pixel_errors s) (rows fit pixel_charges fe (seq 0 n_pixels)) /\
  Permutation (pixel_arrays s) (rows fit pixel_charges fa (seq 0 n_pixels)).
Proof.
  intros ch oc V E A fit fv fe fa pc n ds trace [ND CO] I.
  assert (ALL : Permutation (List.concat ds) (seq 0 n)). { apply NoDup_Permutation; [exact ND|apply seq_NoDup|]. intros p. rewrite in_seq, CO. lia. }
  destruct (to_program ds) as (T1 & T2 & T3).
  destruct (inv_run fit fv fe fa pc (seq 0 n) (map program ds) trace initial (seq_NoDup n 0) I) as (P1 & P2 & P3 & R1 & R2 & R3).
  { constructor; cbn [initial fitters pixel_values pixel_errors pixel_arrays map app]; [|rewrite T1; exact ALL|rewrite T2; exact ALL|rewrite T3; exact ALL|intros ? ? []..].
    intros w p H. rewrite nth_error_map in H. destruct (nth_error ds w); [|discriminate]. injection H as <-. constructor. }
  cbv zeta. unfold run, rows. split; [|split].
  - rewrite (right_map fit pc _ _ _ R1). now apply Permutation_map.
  - rewrite (right_map fit pc _ _ _ R2). now apply Permutation_map.
  - rewrite (right_map fit pc _ _ _ R3). now apply Permutation_map.
Qed.
Print Assumptions C67_results.
(** A single process: the rows are in pixel order. *)
Theorem C67_sequential : forall charges outcome V E A (fit : charges -> outcome) (fv : outcome -> V) (fe : outcome -> E) (fa : outcome -> A) pixel_charges n_pixels,
  tables (run fit fv fe fa pixel_charges (process n_pixels)) =
  (rows fit pixel_charges fv (seq 0 n_pixels), rows fit pixel_charges fe (seq 0 n_pixels), rows fit pixel_charges fa (seq 0 n_pixels)).
Proof.
  intros ch oc V E A fit fv fe fa pc n. unfold tables, run, process. destruct (sequential fit fv fe fa pc (seq 0 n) initial (seq_NoDup n 0)) as (-> & -> & ->); [|reflexivity].
  intros p P. cbn. auto.
Qed.
Print Assumptions C67_sequential.

(** The order of the rows is not the same for every schedule: with two processes and two pixels the tables can list
    pixel 1 first, and within one run the table of values and the table of errors can be in different orders. *)
Definition ex_run := run (fun c : Z => c) (fun o => o) (fun o => o) (fun o => o) (fun p => (Z.of_nat p * 10)%Z).
Definition late : list (nat * step) := [(0, Apply 0); (1, Apply 1); (1, StoreValues 1); (0, StoreValues 0); (0, StoreErrors 0); (0, StoreArrays 0); (1, StoreErrors 1); (1, StoreArrays 1)].
Lemma late_interleaving : interleaving (map program [[0]; [1]]) late.
Proof.
  unfold late. repeat (eapply advance; [reflexivity|cbn [firstn skipn app]]). apply finished. intros p [<-|[<-|[]]]; reflexivity.
Qed.
Theorem C67_order_refuted :
  exists ds1 trace1 ds2 trace2, distribution 2 ds1 /\ interleaving (map program ds1) trace1 /\ distribution 2 ds2 /\ interleaving (map program ds2) trace2 /\
  pixel_values (ex_run trace1) = [(0, 0%Z); (1, 10%Z)] /\ pixel_values (ex_run trace2) = [(1, 10%Z); (0, 0%Z)] /\ pixel_errors (ex_run trace2) = [(0, 0%Z); (1, 10%Z)].
Proof.
  assert (D : forall ds, List.concat ds = [0; 1] -> distribution 2 ds). { intros ds E. unfold distribution. rewrite E. split; [repeat constructor; cbn; intuition lia|]. intros p. cbn [In]. lia. }
  exists [[0; 1]], (process 2), [[0]; [1]], late. split; [now apply D|]. split.
  { cbn. repeat (eapply advance; [reflexivity|cbn [firstn skipn app]]). apply finished. intros p [<-|[]]. reflexivity. }
  split; [now apply D|]. split; [apply late_interleaving|]. repeat split; reflexivity.
Qed.
Print Assumptions C67_order_refuted.
