(** Property C106: versions of HDF5 files and what of a file is listed, for every file (not only those of the writer). *)
From Coq Require Import List ZArith NArith String Ascii Bool Permutation Lia.
From Verif.Base Require Import Py PyFacts Str.
From Verif.Hdf5 Require Import Model Spec Proofs Proofs2 Proofs3 Proofs4.
From Verif.Files Require Model ProofsRuns.
Import ListNotations.
Local Open Scope string_scope.
Local Open Scope list_scope.
Local Open Scope Z_scope.

(** ** Leading number of a version *)
Definition is_digit (c : ascii) : Prop := (48 <= N_of_ascii c <= 57)%N.
Lemma digit_test : forall c, let n := Z.of_nat (nat_of_ascii c) in ((48 <=? n) && (n <=? 57)) = Files.Model.is_d c /\ n = Z.of_N (N_of_ascii c).
Proof.
  intros c. cbv zeta. unfold Files.Model.is_d, Files.Model.code, nat_of_ascii. rewrite N_nat_Z. split; [|reflexivity].
  generalize (N_of_ascii c). intros m. destruct (Z.leb_spec 48 (Z.of_N m)), (N.leb_spec 48 m), (Z.leb_spec (Z.of_N m) 57), (N.leb_spec m 57); try reflexivity; lia.
Qed.
Lemma lead : forall s c rest a, forallb Files.Model.is_d (Files.Model.T s) = true -> ~ is_digit c ->
  leading_num (s ++ String c rest) (Some (Z.of_N a)) = Some (Z.of_N (fold_left ProofsRuns.step (Files.Model.T s) a)).
Proof.
  unfold Files.Model.T. induction s as [|x s IH]; intros c rest a D NC.
  - cbn [append leading_num list_ascii_of_string fold_left]. destruct (digit_test c) as [-> _]. destruct (Files.Model.is_d c) eqn:E; [|reflexivity].
    exfalso. apply NC. unfold Files.Model.is_d, Files.Model.code in E. apply andb_prop in E as [E1 E2]. apply N.leb_le in E1. apply N.leb_le in E2. split; auto.
  - cbn [list_ascii_of_string forallb] in D. apply andb_prop in D as [D1 D2]. cbn [append leading_num list_ascii_of_string fold_left]. destruct (digit_test x) as [-> ->]. rewrite D1.
    assert (48 <= N_of_ascii x)%N as L by (unfold Files.Model.is_d, Files.Model.code in D1; apply andb_prop in D1 as [E1 _]; now apply N.leb_le).
    rewrite <- (IH c rest _ D2 NC). f_equal. f_equal. unfold ProofsRuns.step, Files.Model.code. lia.
Qed.
Lemma lead_dec : forall m c rest, ~ is_digit c -> leading_num (dec m ++ String c rest) None = Some (Z.of_N m).
Proof.
  intros m c rest NC. destruct (ProofsRuns.dec_digits m) as [D V]. destruct (dec m) as [|x s] eqn:E.
  - exfalso. change (0%N = m) in V. subst m. discriminate E.
  - assert (leading_num (String x s ++ String c rest) None = leading_num (String x s ++ String c rest) (Some (Z.of_N 0))) as ->.
    { cbn [append leading_num]. destruct (digit_test x) as [-> _]. cbn [Files.Model.T list_ascii_of_string forallb] in D. unfold Files.Model.T in D. cbn [list_ascii_of_string forallb] in D. apply andb_prop in D as [-> _]. reflexivity. }
    rewrite lead by auto. change (Files.Model.digits_val (Files.Model.T (String x s))) with (fold_left ProofsRuns.step (Files.Model.T (String x s)) 0%N) in V. now rewrite V.
Qed.

(** The library is version 3. *)
Definition library : Z := 3.
Definition described {A} (s : store A) : Prop := forall k n, dget k s = Some n -> exists d, dget "metadata" (n_attrs n) = Some d.
Lemma opening : forall A (s : store A) v m, NoDup (dkeys s) -> described s ->
  match mfield s "data" "metadata" "version" with Some v => v | None => VStr "1.0.0" end = v -> major v = Ok m -> exists r, r_open s = Ok (r, m ?= library).
Proof.
  intros A s v m N H V MJ. destruct (contents_ok s) as [r HC]; auto. exists r. unfold r_open. rewrite HC. cbn [bind].
  assert (r_version r = Ok v) as ->.
  { unfold r_version, mfield in *. destruct (dget "data" s) as [n|] eqn:E.
    - rewrite (get_metadata_spec s r "data" "metadata" n) by (auto; discriminate). destruct (H _ _ E) as [d D]. rewrite D in *. destruct (dget "version" d); now subst v.
    - rewrite (get_metadata_absent s r) by auto. now subst v. }
  cbn [bind]. rewrite MJ. reflexivity.
Qed.
(** A file of version M.x.y opens; there is a warning about an older file iff M < 3 and about a newer one iff M > 3. *)
Theorem C106_opens : forall A (s : store A) m rest, NoDup (dkeys s) -> described s -> mfield s "data" "metadata" "version" = Some (VStr (dec m ++ "." ++ rest)) ->
  exists r, r_open s = Ok (r, Z.of_N m ?= library).
Proof. intros A s m rest N H V. eapply opening; [auto|auto|rewrite V; reflexivity|]. cbn [major]. change ("." ++ rest)%string with (String "."%char rest). rewrite lead_dec; [reflexivity|]. intros [X _]. revert X. now vm_compute. Qed.
Print Assumptions C106_opens.
(** Without a version (also without any data) it counts as an older file. *)
Theorem C106_no_version : forall A (s : store A), NoDup (dkeys s) -> described s -> mfield s "data" "metadata" "version" = None -> exists r, r_open s = Ok (r, Lt).
Proof. intros A s N H V. apply (opening A s (VStr "1.0.0") 1); auto. now rewrite V. Qed.
Print Assumptions C106_no_version.
(** A table without the attribute metadata, whichever it is, makes the whole file unreadable. *)
Lemma breaks : forall A (l : list (string * node A)) r k n, In (k, n) l -> dget "metadata" (n_attrs n) = None -> foldM contents_key l r = Raise AttributeError.
Proof.
  intros A l. induction l as [|[k0 n0] l IH]; intros r k n I D; [contradiction|]. cbn [foldM]. unfold contents_key at 1. destruct (dget "metadata" (n_attrs n0)) as [d|] eqn:E; [|reflexivity].
  assert (In (k, n) l) as J by (destruct I as [I|I]; [injection I as -> ->; congruence|exact I]). destruct (smem k0 ["mapping"]); cbn [bind]; now apply (IH _ k n).
Qed.
Theorem C106_undescribed : forall A (s : store A) k n, dget k s = Some n -> dget "metadata" (n_attrs n) = None -> r_open s = Raise AttributeError.
Proof. intros A s k n K D. unfold r_open, contents. now rewrite (breaks A s _ k n (dget_In _ _ _ _ K) D). Qed.
Print Assumptions C106_undescribed.

(** What is listed: every attribute but info and those with a leading underscore; the tables that do not say they are empty. *)
Lemma underscore : forall nm, starts_underscore nm = true <-> exists t, nm = String "_" t.
Proof. intros [|c t]; cbn; [split; [discriminate|now intros [t E]]|]. rewrite Ascii.eqb_eq. split; [intros ->; now exists t|intros [t' E]; now injection E]. Qed.
Theorem C106_metadata : forall A (s : store A) r c k nm, NoDup (dkeys s) -> r_open s = Ok (r, c) ->
  ((exists t, nm = String "_" t) -> get_metadata r k nm = Raise KeyError) /\
  (forall n, dget k s = Some n -> k <> "mapping" -> nm <> "info" -> ~ (exists t, nm = String "_" t) -> get_metadata r k nm = match dget nm (n_attrs n) with Some d => Ok d | None => Raise KeyError end) /\
  (dget k s = None -> get_metadata r k nm = Raise KeyError).
Proof.
  intros A s r c k nm N O. apply r_open_contents in O. repeat split.
  - intros U. apply underscore in U. now apply (get_metadata_hidden s).
  - intros n K M I U. apply (get_metadata_spec s); auto. destruct (starts_underscore nm) eqn:E; [|reflexivity]. apply underscore in E. contradiction.
  - intros K. now apply (get_metadata_absent s).
Qed.
Print Assumptions C106_metadata.
Theorem C106_tables : forall A (s : store A) r c k, NoDup (dkeys s) -> r_open s = Ok (r, c) ->
  (In k (r_dfkeys r) <-> k <> "mapping" /\ exists v, mfield s k "metadata" "n_bytes" = Some v /\ v <> VInt 0 /\ v <> VBool false).
Proof.
  intros A s r c k N O. rewrite <- smem_In, (dfkeys_spec s r c k N O), andb_true_iff, negb_true_iff, String.eqb_neq. split; intros [M B]; split; auto.
  - destruct (mfield s k "metadata" "n_bytes") as [v|]; [|discriminate]. exists v. split; [reflexivity|]. split; intros ->; discriminate B.
  - destruct B as (v & -> & V0 & VB). destruct v as [z|x|b|]; try reflexivity; cbn.
    + destruct (Z.eqb_spec z 0) as [->|]; [contradiction|reflexivity].
    + destruct b; [reflexivity|contradiction].
Qed.
Print Assumptions C106_tables.

(** ** Appending to an older file removes the mark that its rows are from an older version: no more warning. *)
Theorem C106_append_refuted : forall A (mem : list A -> Z) prep, prep [] = [] -> (forall l, l <> [] -> 0 < mem l) -> (forall l, 0 <= mem l) ->
  forall s0 r0 w0 ops t0, NoDup (dkeys s0) -> r_open s0 = Ok (r0, Lt) -> a_open s0 = Ok (r0, w0) -> mfield s0 "data" "metadata" "total_bytes" = Some (VInt t0) ->
  (forall k, by_append k ops -> is_table s0 k) -> no_mix ops -> ~ by_write "data" ops -> names_ok ops -> kwargs_ok ops -> meta_complete_on (fun k => dget k s0 <> None) ops ->
  exists w, w_run mem prep ops w0 = (w, None) /\ forall order, Permutation order (w_keys w) ->
  exists f r, a_finish mem prep order r0 w = Ok f /\ r_open f = Ok (r, Eq) /\ forall k, ~ touched k ops -> rows_of f k = rows_of s0 k.
Proof.
  intros A mem prep P M1 M2 s0 r0 w0 ops t0 N O AO T B X W NO K MC. unfold a_open in AO. rewrite O in AO. cbn [bind fst] in AO. injection AO as <-. destruct (appender_read mem prep P M1 M2 s0 r0 Lt ops t0 N O T B X W NO K MC) as (w & R & F). exists w. split; [exact R|].
  intros order PM. destruct (F order PM) as (f & r & nbs & A1 & _ & A2 & _ & A3 & _). exists f, r. auto.
Qed.
Print Assumptions C106_append_refuted.

Definition file (v : string) : store Z := [("data", Node Table [1; 2] [("metadata", [("version", VStr v); ("n_bytes", VInt 16)]); ("_own", [("x", VInt 1)]); ("cfg", [("y", VInt 2)])]); ("empty", Node Fixed [] [("metadata", [])])].
Example C106_ex : option_map snd (match r_open (file "2.9.1") with Ok x => Some x | _ => None end) = Some Lt /\ option_map snd (match r_open (file "3.0.0") with Ok x => Some x | _ => None end) = Some Eq /\
  option_map snd (match r_open (file "12.0") with Ok x => Some x | _ => None end) = Some Gt /\
  option_map (fun x => (r_dfkeys (fst x), get_metadata (fst x) "data" "_own", get_metadata (fst x) "data" "cfg")) (match r_open (file "3.1") with Ok x => Some x | _ => None end) = Some (["data"], Raise KeyError, Ok [("y", VInt 2)]).
Proof. vm_compute. repeat split. Qed.
Definition ex_mem (l : list Z) : Z := 8 * Z.of_nat (List.length l).
Definition old_file : store Z := [("data", Node Table [1; 2] [("metadata", [("version", VStr "2.0.0"); ("n_bytes", VInt 16); ("total_bytes", VInt 16)])]); ("old", Node Table [7] [("metadata", [("n_bytes", VInt 8)])])].
Example C106_append_ex : exists r0 w f r, r_open old_file = Ok (r0, Lt) /\ w_run ex_mem (fun l => l) [Append "data" [3]] (W [] [] [] [] [] old_file) = (w, None) /\
  a_finish ex_mem (fun l => l) ["data"] r0 w = Ok f /\ r_open f = Ok (r, Eq) /\ r_read r "old" false = Ok [7] /\ r_read r "data" false = Ok [1; 2; 3].
Proof. do 4 eexists. repeat match goal with |- _ /\ _ => split; [vm_compute; reflexivity|] end. vm_compute. reflexivity. Qed.
