(** Property C109: limits of memory when tables are read, in fresh files and after appending. *)
From Coq Require Import List ZArith NArith String Ascii Bool Permutation Lia.
From Verif.Base Require Import Py PyFacts Str.
From Verif.Hdf5 Require Import Model Spec Proofs Proofs2 Proofs3 Proofs4 Proofs5.
Import ListNotations.
Local Open Scope string_scope.
Local Open Scope list_scope.
Local Open Scope Z_scope.

(** Every row takes [row] bytes, as in tables of numbers. *)
Definition uniform {A} (row : Z) (mem : list A -> Z) : Prop := 0 < row /\ forall l, mem l = row * Z.of_nat (List.length l).
Lemma uniform_sum : forall A row (mem : list A -> Z) cs, uniform row mem -> sum (map mem cs) = mem (List.concat cs).
Proof.
  intros A row mem cs [P U]. induction cs as [|c cs IH]; [cbn; rewrite U; cbn; lia|]. cbn [map List.concat]. change (sum (mem c :: map mem cs)) with (mem c + sum (map mem cs)). rewrite IH, !U, app_length. lia.
Qed.
Lemma uniform_pos : forall A row (mem : list A -> Z) l, uniform row mem -> l <> [] -> 0 < mem l.
Proof. intros A row mem [|a l] [P U] N; [contradiction|]. rewrite U. cbn [List.length]. lia. Qed.
Lemma uniform_nonneg : forall A row (mem : list A -> Z) l, uniform row mem -> 0 <= mem l.
Proof. intros A row mem l [P U]. rewrite U. lia. Qed.

(** ** If the recorded size of a table is right, no chunk takes more than 2 GB, and what read returns without force not more than 8 GB. *)
Theorem C109_limits : forall A row (mem : list A -> Z) s r c k n, uniform row mem -> NoDup (dkeys s) -> r_open s = Ok (r, c) -> dget k s = Some n -> k <> "mapping" ->
  mfield s k "metadata" "n_bytes" = Some (VInt (mem (n_rows n))) ->
  (n_fmt n = Table -> n_rows n <> [] -> row <= 2000000000 -> exists cks, iterate_over_chunks r k None = Ok (Some cks) /\ List.concat cks = n_rows n /\ forall ck, In ck cks -> mem ck <= 2000000000) /\
  (forall rows, r_read r k false = Ok rows -> rows = n_rows n /\ mem rows <= 8000000000).
Proof.
  intros A row mem s r c k n U N O E K B. pose proof U as [P UU]. split.
  - intros T NE RB. pose proof (uniform_pos _ _ _ _ U NE) as MP. destruct (iterate_default s r c k n _ None N O E T K B MP (or_introl eq_refl)) as [I _].
    assert (Z.of_nat (List.length (n_rows n)) * 2000000000 / mem (n_rows n) = 2000000000 / row) as SZ.
    { rewrite UU. assert (0 < Z.of_nat (List.length (n_rows n))) by (destruct (n_rows n); [contradiction|cbn [List.length]; lia]). rewrite Z.mul_comm, Z.div_mul_cancel_r by lia. reflexivity. }
    rewrite SZ in I. destruct I as (cks & I1 & I2 & I3 & I4); [apply Z.div_str_pos; lia|]. exists cks. split; [exact I1|]. split; [exact I2|]. intros ck CK. specialize (I4 ck CK). rewrite UU.
    pose proof (Z.mul_div_le 2000000000 row P). nia.
  - intros rows R. rewrite (read_spec s r c k false N O) in R; [|intros v V; rewrite B in V; injection V as <-; eauto]. destruct (String.eqb_spec k "mapping"); [contradiction|]. rewrite B in R.
    destruct (mem (n_rows n) =? 0); [discriminate|]. destruct (8000000000 <? mem (n_rows n)) eqn:L; cbn [andb negb] in R; [discriminate|]. apply Z.ltb_ge in L. injection R as <-. unfold rows_of. rewrite E. auto.
Qed.
Print Assumptions C109_limits.

(** ** Files of HDF5Writer record the right sizes of appended tables ... *)
Lemma completed_keys : forall A (mem : list A -> Z) prep ops f, prep [] = [] -> no_mix ops -> kwargs_ok ops -> completed mem prep ops f -> NoDup (dkeys f).
Proof.
  intros A mem prep ops f HP HM HK (w & order & R & P & F). pose proof (run_names_ok _ _ _ _ _ R) as HN. now destruct (file_node mem prep ops w order f HP HM HN HK R P F) as (w' & total & _ & N & _).
Qed.
Theorem C109_fresh : forall A row (mem : list A -> Z) prep ops f r c, uniform row mem -> prep [] = [] -> no_mix ops -> kwargs_ok ops -> completed mem prep ops f -> r_open f = Ok (r, c) ->
  forall k n, by_append k ops -> k <> "mapping" -> dget k f = Some n ->
  (n_fmt n = Table -> n_rows n <> [] -> row <= 2000000000 -> exists cks, iterate_over_chunks r k None = Ok (Some cks) /\ List.concat cks = n_rows n /\ forall ck, In ck cks -> mem ck <= 2000000000) /\
  (forall rows, r_read r k false = Ok rows -> rows = n_rows n /\ mem rows <= 8000000000).
Proof.
  intros A row mem prep ops f r c U HP HM HK C O k n BA K E. pose proof (completed_keys A mem prep ops f HP HM HK C) as ND. destruct (totals mem prep ops f r c HP HM HK C O) as (ks & size & md & _ & KS & GN & SZ & _).
  apply (C109_limits A row mem f r c k n U ND O E K). destruct (SZ k BA) as (cs & _ & S1 & S2). unfold rows_of in S2. rewrite E in S2.
  pose proof (GN k (proj2 (KS k) (or_introl BA)) K) as G. rewrite (n_bytes_spec f r c k ND O K) in G. destruct (mfield f k "metadata" "n_bytes") as [v|]; [|discriminate]. injection G as ->.
  do 2 f_equal. rewrite S1, S2, <- (uniform_sum A row mem _ U), map_map. reflexivity.
Qed.
Print Assumptions C109_fresh.

(** ** ... but not after HDF5Appender: read returns a table of any size without force if only the new rows are below 8 GB, and if they are below 2 GB
       the whole table is a single chunk. *)
Lemma one_piece : forall A size (rows : list A) cks, rows <> [] -> Z.of_nat (List.length rows) <= size -> pieces size rows cks -> cks = [rows].
Proof.
  intros A size rows cks NE L (C & F & B). destruct cks as [|a [|b cks]].
  - cbn in C. now subst.
  - cbn in C. rewrite app_nil_r in C. now subst.
  - exfalso. specialize (F 0%nat ltac:(cbn; lia)). cbn [nth] in F. pose proof (B b (or_intror (or_introl eq_refl))) as BB. apply (f_equal (@List.length A)) in C. cbn [List.concat] in C. rewrite !app_length in C. lia.
Qed.
Theorem C109_appended_refuted : forall A row (mem : list A -> Z) prep, uniform row mem -> prep [] = [] ->
  forall s0 r0 w0 ops t0, NoDup (dkeys s0) -> a_open s0 = Ok (r0, w0) -> mfield s0 "data" "metadata" "total_bytes" = Some (VInt t0) ->
  (forall k, by_append k ops -> is_table s0 k) -> no_mix ops -> ~ by_write "data" ops -> names_ok ops -> kwargs_ok ops -> meta_complete_on (fun k => dget k s0 <> None) ops ->
  exists w, w_run mem prep ops w0 = (w, None) /\ forall order, Permutation order (w_keys w) ->
  exists f r, a_finish mem prep order r0 w = Ok f /\ r_open f = Ok (r, Eq) /\
  forall k, by_append k ops -> k <> "mapping" -> exists new, rows_of f k = rows_of s0 k ++ new /\ get_n_bytes r k = Ok (VInt (mem new)) /\
    (new <> [] -> mem new <= 8000000000 -> r_read r k false = Ok (rows_of s0 k ++ new)) /\
    (new <> [] -> mem new <= 2000000000 -> is_table f k -> iterate_over_chunks r k None = Ok (Some [rows_of s0 k ++ new])).
Proof.
  intros A row mem prep U HP s0 r0 w0 ops t0 N O T B X W NO K MC. unfold a_open in O. destruct (r_open s0) as [[r1 cmp]|e] eqn:RO; cbn [bind fst] in O; [|discriminate]. injection O as <- <-.
  destruct (appender_read mem prep HP (fun l => uniform_pos A row mem l U) (fun l => uniform_nonneg A row mem l U) s0 r1 cmp ops t0 N RO T B X W NO K MC) as (w & R & F). exists w. split; [exact R|].
  intros order PM. destruct (F order PM) as (f & r & nbs & A1 & ND & A2 & A3 & _). exists f, r. split; [exact A1|]. split; [exact A2|]. intros k BA KM. destruct (A3 k BA KM) as (c & _ & NB & GN & RW & _).
  set (new := List.concat (map prep c)) in *. exists new. assert (nbs k = mem new) as EN by (rewrite NB; unfold new; rewrite <- (uniform_sum A row mem _ U), map_map; reflexivity).
  rewrite EN in GN. split; [exact RW|]. split; [exact GN|]. pose proof GN as G. rewrite (n_bytes_spec f r Eq k ND A2 KM) in G. destruct (mfield f k "metadata" "n_bytes") as [v|] eqn:MF; [|discriminate]. injection G as ->. split.
  - intros NE L. pose proof (uniform_pos _ _ _ _ U NE). rewrite (read_spec f r Eq k false ND A2); [|intros v V; rewrite MF in V; injection V as <-; eauto]. destruct (String.eqb_spec k "mapping"); [contradiction|]. rewrite MF.
    rewrite (proj2 (Z.eqb_neq (mem new) 0)) by lia. rewrite (proj2 (Z.ltb_ge 8000000000 (mem new))) by lia. cbn [andb]. now rewrite RW.
  - intros NE L TB. pose proof (uniform_pos _ _ _ _ U NE) as MP. unfold rows_of in RW. destruct (dget k f) as [n|] eqn:E.
    + destruct (iterate_default f r Eq k n _ None ND A2 E (TB n E) KM MF MP (or_introl eq_refl)) as [I _].
      assert (Z.of_nat (List.length (n_rows n)) <= Z.of_nat (List.length (n_rows n)) * 2000000000 / mem new) as SZ by (apply Z.div_le_lower_bound; [lia|nia]).
      assert (n_rows n <> []) as NR by (rewrite RW; intros Z0; apply app_eq_nil in Z0 as [_ Z0]; contradiction).
      assert (0 < Z.of_nat (List.length (n_rows n))) by (destruct (n_rows n); [contradiction|cbn [List.length]; lia]).
      destruct I as (cks & I1 & I2); [lia|]. rewrite I1. apply one_piece in I2; [|exact NR|exact SZ]. now rewrite I2, RW.
    + symmetry in RW. apply app_eq_nil in RW as [_ Z0]. contradiction.
Qed.
Print Assumptions C109_appended_refuted.

(** ** Rows of 3 GB: a fresh file with three of them is refused, one more is appended, and the 12 GB are read without force in one piece. *)
Definition big (l : list Z) : Z := 3000000000 * Z.of_nat (List.length l).
Example C109_ex : exists f r0 w0 w f' r1 r, completed big (fun l => l) [Append "data" [1; 2; 3]] f /\ r_open f = Ok (r, Eq) /\ r_read r "data" false = Raise MemoryError /\
  a_open f = Ok (r0, w0) /\ w_run big (fun l => l) [Append "data" [4]] w0 = (w, None) /\ a_finish big (fun l => l) (w_keys w) r0 w = Ok f' /\ r_open f' = Ok (r1, Eq) /\ r_read r1 "data" false = Ok [1; 2; 3; 4].
Proof.
  exists (match w_run big (fun l => l) [Append "data" [1; 2; 3]] w_init with (w, _) => match w_finish big (fun l => l) (w_keys w) w with Ok f => f | Raise _ => [] end end).
  do 6 eexists. split; [eexists; eexists; split; [vm_compute; reflexivity|split; [apply Permutation_refl|vm_compute; reflexivity]]|].
  repeat match goal with |- _ /\ _ => split; [vm_compute; reflexivity|] end. vm_compute; reflexivity.
Qed.
