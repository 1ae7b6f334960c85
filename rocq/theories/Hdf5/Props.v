(** Properties C01-C11: HDF5Writer, HDF5Reader and HDF5Appender. *)
From Coq Require Import List ZArith String Bool Permutation Lia.
From Verif.Base Require Import Py PyFacts.
From Verif.Hdf5 Require Import Model Spec Proofs Proofs2 Proofs3 Proofs4 Proofs5.
Import ListNotations.
Local Open Scope string_scope.
Local Open Scope list_scope.
Local Open Scope Z_scope.

Ltac vmr := repeat match goal with |- _ /\ _ => split; [vm_compute; reflexivity|] end; vm_compute; reflexivity.

(** Memory accounting used in the examples: 300 MB per row, so buffers are flushed every second row. *)
Definition ex_mem (l : list Z) : Z := 300000000 * Z.of_nat (List.length l).

Lemma ex_mem_pos : forall l, l <> [] -> 0 < ex_mem l.
Proof. intros [|x l] H; [now contradiction H|]. unfold ex_mem. cbn [List.length]. lia. Qed.
Lemma ex_mem_nonneg : forall l, 0 <= ex_mem l.
Proof. intros. unfold ex_mem. lia. Qed.

Definition ex_ops : list (op Z) :=
  [Append "data" [1]; Append "aux" [7]; AddMeta "data" "metadata" [("n_events", VInt 5)];
   Append "data" [2; 3]; Write [("w", [9])]; Append "data" [4];
   AddMeta "data" "metadata" [("n_events", VInt 6); ("camera", VStr "c")];
   AddMeta "data" "config" [("a", VBool true)]; Write [("w", [8; 8])]].

Lemma ex_no_mix : no_mix ex_ops.
Proof.
  intros k (df & H). split.
  - intros (kvs & df' & I1 & I2). unfold ex_ops in *. simpl in H, I1.
    repeat match goal with H : _ \/ _ |- _ => destruct H end; try contradiction; try discriminate;
      repeat match goal with H : Append _ _ = Append _ _ |- _ => inversion H; clear H
             | H : Write _ = Write _ |- _ => inversion H; clear H end; subst; simpl in I2;
      destruct I2 as [I2|[]]; discriminate.
  - intros (_ & df' & md & I). simpl in I.
    repeat match goal with H : _ \/ _ |- _ => destruct H end; try contradiction; discriminate.
Qed.

Lemma ex_kwargs : kwargs_ok ex_ops.
Proof.
  split; intros.
  - unfold ex_ops in H. simpl in H.
    repeat match goal with H : _ \/ _ |- _ => destruct H end; try contradiction; try discriminate;
      inversion H; subst; repeat constructor; simpl; intuition discriminate.
  - unfold ex_ops in H. simpl in H.
    repeat match goal with H : _ \/ _ |- _ => destruct H end; try contradiction; try discriminate;
      inversion H; subst; repeat constructor; simpl; intuition discriminate.
Qed.

Definition ex_file : store Z :=
  match w_run ex_mem idf ex_ops w_init with
  | (w, _) => match w_finish ex_mem idf (rev (w_keys w)) w with Ok f => f | Raise _ => [] end
  end.

Lemma ex_completed : completed ex_mem idf ex_ops ex_file.
Proof.
  exists (fst (w_run ex_mem idf ex_ops w_init)), (rev (w_keys (fst (w_run ex_mem idf ex_ops w_init)))).
  split; [vm_compute; reflexivity|]. split; [symmetry; apply Permutation_rev|]. vm_compute. reflexivity.
Qed.

Lemma ex_opens : exists r, r_open ex_file = Ok (r, Eq) /\ r_read r "data" true = Ok [1; 2; 3; 4] /\
  r_read r "w" true = Ok [8; 8] /\
  get_metadata r "data" "config" = Ok [("a", VBool true)] /\
  get_n_bytes r "data" = Ok (VInt 1200000000).
Proof. eexists. vmr. Qed.

(** *** C01 *)
Theorem C01_buffered_appends : forall A (mem : list A -> Z),
  (forall l, l <> [] -> 0 < mem l) -> (forall l, 0 <= mem l) ->
  forall ops f r c,
    no_mix ops -> kwargs_ok ops -> completed mem idf ops f -> r_open f = Ok (r, c) ->
    forall k, k <> "mapping" -> appended k ops <> [] -> r_read r k true = Ok (appended k ops).
Proof. exact @reads_appended. Qed.
Print Assumptions C01_buffered_appends.

(** finish() always succeeds on such a history, for every iteration order of the key set. *)
Theorem C01_finish_succeeds : forall A (mem : list A -> Z) prep ops,
  prep [] = [] -> no_mix ops -> kwargs_ok ops -> names_ok ops ->
  exists w, w_run mem prep ops w_init = (w, None) /\
    forall order, Permutation order (w_keys w) -> exists f, w_finish mem prep order w = Ok f.
Proof. exact @completes. Qed.
Print Assumptions C01_finish_succeeds.

Example C01_example : no_mix ex_ops /\ kwargs_ok ex_ops /\ completed ex_mem idf ex_ops ex_file /\
  appended "data" ex_ops = [1; 2; 3; 4] /\ exists r, r_open ex_file = Ok (r, Eq).
Proof.
  split; [exact ex_no_mix|]. split; [exact ex_kwargs|]. split; [exact ex_completed|].
  split; [reflexivity|]. destruct ex_opens as (r & H & _). eauto.
Qed.

(** *** C02 *)
Theorem C02_metadata_round_trip : forall A (mem : list A -> Z) prep ops f r c,
  prep [] = [] -> no_mix ops -> kwargs_ok ops -> completed mem prep ops f -> r_open f = Ok (r, c) ->
  forall k nm, k <> "mapping" ->
    (forall d fld, get_metadata r k nm = Ok d ->
       ~ (nm = "metadata" /\ In fld ["n_bytes"; "total_bytes"; "version"]) ->
       dget fld d = last_value k nm fld ops None) /\
    (meta_named k nm ops -> starts_underscore nm = false -> exists d, get_metadata r k nm = Ok d) /\
    (~ meta_named k nm ops -> nm <> "metadata" -> get_metadata r k nm = Raise KeyError) /\
    (starts_underscore nm = true -> get_metadata r k nm = Raise KeyError) /\
    (~ touched k ops -> (forall n, ~ meta_named k n ops) -> k <> "data" ->
       get_metadata r k nm = Raise KeyError).
Proof. exact @meta_reads. Qed.
Print Assumptions C02_metadata_round_trip.

Example C02_example : meta_named "data" "metadata" ex_ops /\
  last_value "data" "metadata" "n_events" ex_ops None = Some (VInt 6).
Proof. split; [eexists; simpl; right; right; left; reflexivity|reflexivity]. Qed.

(** *** C03 *)
Theorem C03_byte_accounting : forall A (mem : list A -> Z) prep ops f r c,
  prep [] = [] -> no_mix ops -> kwargs_ok ops -> completed mem prep ops f -> r_open f = Ok (r, c) ->
  exists ks size md, NoDup ks /\
    (forall k, In k ks <-> by_append k ops \/ by_write k ops) /\
    (forall k, In k ks -> k <> "mapping" -> get_n_bytes r k = Ok (VInt (size k))) /\
    (forall k, by_append k ops -> exists chunks, List.concat chunks = appended k ops /\
        size k = sum (map (fun x => mem (prep x)) chunks) /\ rows_of f k = List.concat (map prep chunks)) /\
    (forall k df, by_write k ops -> last_written k ops None = Some df -> size k = mem df) /\
    get_metadata r "data" "metadata" = Ok md /\
    dget "total_bytes" md = Some (VInt (sum (map size ks))) /\
    dget "version" md = Some (VStr lib_version).
Proof. exact @totals. Qed.
Print Assumptions C03_byte_accounting.

Example C03_example : exists r d, r_open ex_file = Ok (r, Eq) /\ get_metadata r "data" "metadata" = Ok d /\
  dget "total_bytes" d = Some (VInt (1200000000 + 300000000 + 600000000)).
Proof. eexists. eexists. vmr. Qed.

(** *** C04 *)
Theorem C04_interrupted_writing : forall A (mem : list A -> Z) ops w e order,
  no_mix ops -> kwargs_ok ops ->
  w_run mem idf ops w_init = (w, e) -> Permutation order (w_keys w) ->
  exists pre post f, ops = pre ++ post /\ w_finish mem idf order w = Ok f /\
    (forall k, appended k pre <> [] -> st_get k f = Ok (appended k pre)) /\
    (forall k, by_append k pre ->
       rows_of (w_store w) k ++ List.concat (dgetd [] k (w_buf w)) = appended k pre /\
       sum (map mem (dgetd [] k (w_buf w))) < 500000000) /\
    match e with
    | None => post = []
    | Some x => x = ValueError /\ exists key name kw post', post = AddMeta key name kw :: post' /\
                  (name = "info" \/ name = "mapping")
    end.
Proof. exact @crash. Qed.
Print Assumptions C04_interrupted_writing.

Example C04_example : exists w f,
  w_run ex_mem idf [Append "data" [1]; Append "data" [2]; Append "data" [3]; AddMeta "data" "info" [];
                    Append "data" [4]] w_init = (w, Some ValueError) /\
  rows_of (w_store w) "data" = [1; 2] /\ dgetd [] "data" (w_buf w) = [[3]] /\
  w_finish ex_mem idf (w_keys w) w = Ok f /\ st_get "data" f = Ok [1; 2; 3].
Proof. eexists. eexists. vmr. Qed.

(** *** C05 *)
Theorem C05_reserved_names : forall A (mem : list A -> Z) prep key name kw (w : writer A),
  ((name = "info" \/ name = "mapping") -> w_step mem prep w (AddMeta key name kw) = (w, Some ValueError)) /\
  (name <> "info" -> name <> "mapping" ->
     exists w', w_step mem prep w (AddMeta key name kw) = (w', None)).
Proof. exact @reserved_refused. Qed.
Print Assumptions C05_reserved_names.

Theorem C05_no_side_effect : forall A (mem : list A -> Z) prep (ops : list (op A)) w,
  w_run_catch mem prep ops w =
  w_run_catch mem prep (filter (fun o => negb (reserved_call o)) ops) w.
Proof. exact @catch_filter. Qed.
Print Assumptions C05_no_side_effect.

Example C05_example : filter (fun o => negb (reserved_call o))
  [Append "data" [1]; AddMeta "data" "mapping" [("x", VInt 1)]; AddMeta "data" "other" []]
  = [Append "data" [1]; AddMeta "data" "other" []].
Proof. reflexivity. Qed.

(** *** C06: false as stated (a key that only carries a dict with another name than 'metadata'
    makes the file unreadable); exactly the histories described by [meta_complete] can be read. *)
Theorem C06_every_file_opens_refuted : exists ops f,
  no_mix ops /\ kwargs_ok ops /\ completed ex_mem idf ops f /\
  appended "data" ops <> [] /\ r_open f = Raise AttributeError.
Proof.
  exists [Append "data" [1]; AddMeta "extra" "config" [("a", VInt 1)]].
  exists (match w_run ex_mem idf [Append "data" [1]; AddMeta "extra" "config" [("a", VInt 1)]] w_init with
          | (w, _) => match w_finish ex_mem idf (w_keys w) w with Ok f => f | Raise _ => [] end end).
  split; [|split; [|split; [|split]]].
  - intros k (df & H). simpl in H. destruct H as [H|[H|[]]]; [|discriminate]. split.
    + intros (kvs & df' & I1 & I2). simpl in I1. destruct I1 as [I1|[I1|[]]]; discriminate.
    + intros (_ & df' & md & I). simpl in I. destruct I as [I1|[I1|[]]]; discriminate.
  - split; intros; simpl in H; destruct H as [H|[H|[]]]; try discriminate.
    inversion H; subst. repeat constructor. simpl. tauto.
  - eexists. eexists. split; [vm_compute; reflexivity|]. split; [apply Permutation_refl|vm_compute; reflexivity].
  - discriminate.
  - vm_compute. reflexivity.
Qed.
Print Assumptions C06_every_file_opens_refuted.

Theorem C06_opens_iff_complete : forall A (mem : list A -> Z) prep ops f,
  prep [] = [] -> no_mix ops -> kwargs_ok ops -> completed mem prep ops f ->
  ((exists r c, r_open f = Ok (r, c)) <-> meta_complete ops) /\
  (meta_complete ops -> exists r, r_open f = Ok (r, Eq)).
Proof. exact @opens_iff. Qed.
Print Assumptions C06_opens_iff_complete.

Example C06_example : meta_complete ex_ops.
Proof.
  intros k n (kw & H). unfold ex_ops in H. simpl in H.
  repeat match goal with H : _ \/ _ |- _ => destruct H end; try contradiction; try discriminate;
    inversion H; auto.
Qed.

(** *** C07, C08 *)
Theorem C07_C08_appender : forall A (mem : list A -> Z) prep,
  prep [] = [] -> (forall l, l <> [] -> 0 < mem l) -> (forall l, 0 <= mem l) ->
  forall s0 r0 w0 ops t0,
  NoDup (dkeys s0) -> a_open s0 = Ok (r0, w0) ->
  mfield s0 "data" "metadata" "total_bytes" = Some (VInt t0) ->
  (forall k, by_append k ops -> is_table s0 k) ->
  no_mix ops -> ~ by_write "data" ops -> names_ok ops -> kwargs_ok ops ->
  meta_complete_on (fun k => dget k s0 <> None) ops ->
  exists w, w_run mem prep ops w0 = (w, None) /\
  forall order, Permutation order (w_keys w) ->
  exists f r nbs, a_finish mem prep order r0 w = Ok f /\ NoDup (dkeys f) /\ r_open f = Ok (r, Eq) /\
    (* appended tables: old rows, then the new ones *)
    (forall k, by_append k ops -> k <> "mapping" -> exists c,
        List.concat c = appended k ops /\ nbs k = sum (map (fun x => mem (prep x)) c) /\
        get_n_bytes r k = Ok (VInt (nbs k)) /\
        rows_of f k = rows_of s0 k ++ List.concat (map prep c) /\
        (List.concat (map prep c) <> [] ->
         r_read r k true = Ok (rows_of s0 k ++ List.concat (map prep c)))) /\
    (* tables that were not touched *)
    (forall k, ~ touched k ops -> rows_of f k = rows_of s0 k) /\
    (forall k fc, ~ touched k ops -> ~ meta_named k "metadata" ops -> k <> "data" ->
        (forall v, mfield s0 k "metadata" "n_bytes" = Some v -> exists b, v = VInt b) ->
        r_read r k fc = r_read r0 k fc) /\
    (* tables replaced by write *)
    (forall k df, by_write k ops -> last_written k ops None = Some df ->
        (k = "mapping" -> ~ has_mapping ops) -> nbs k = mem df /\ rows_of f k = df) /\
    (* metadata: merged field by field, the new value wins *)
    (forall k nm fld, ~ by_write k ops -> (k = "mapping" -> ~ has_mapping ops) ->
       ~ (nm = "metadata" /\ In fld ["n_bytes"; "total_bytes"; "version"]) ->
       mfield f k nm fld =
         match last_value k nm fld ops None with Some v => Some v | None => mfield s0 k nm fld end) /\
    (* byte accounting: the old total plus everything written in this session *)
    (forall k, In k (w_keys w) <-> by_append k ops \/ by_write k ops) /\ NoDup (w_keys w) /\
    mfield f "data" "metadata" "total_bytes" = Some (VInt (t0 + sum (map nbs (w_keys w)))).
Proof.
  intros A mem prep P M1 M2 s0 r0 w0 ops t0 N O. unfold a_open in O. destruct (r_open s0) as [[r c]|e] eqn:E; cbn [bind fst] in O; [|discriminate]. injection O as <- <-.
  exact (appender_read mem prep P M1 M2 s0 r c ops t0 N E).
Qed.
Print Assumptions C07_C08_appender.

Definition ex_app : list (op Z) :=
  [Append "data" [5]; Append "new" [6]; AddMeta "data" "config" [("b", VInt 2)]].

Example C07_example : exists r0 w0 w f r,
  a_open ex_file = Ok (r0, w0) /\ is_table ex_file "data" /\ is_table ex_file "new" /\
  mfield ex_file "data" "metadata" "total_bytes" = Some (VInt 2100000000) /\
  w_run ex_mem idf ex_app w0 = (w, None) /\
  a_finish ex_mem idf (w_keys w) r0 w = Ok f /\ r_open f = Ok (r, Eq) /\
  r_read r "data" true = Ok [1; 2; 3; 4; 5] /\ r_read r "new" true = Ok [6] /\
  r_read r "w" true = Ok [8; 8] /\
  get_metadata r "data" "config" = Ok [("a", VBool true); ("b", VInt 2)].
Proof.
  eexists. eexists. eexists. eexists. eexists.
  split; [vm_compute; reflexivity|].
  split; [intros n H; vm_compute in H; inversion H; subst; reflexivity|].
  split; [intros n H; vm_compute in H; inversion H; subst; reflexivity|].
  vmr.
Qed.

(** The recorded size of a table after appending only counts the new rows, and total_bytes is no
    longer the sum of the recorded sizes. *)
Theorem C08_n_bytes_refuted : exists (s0 : store Z) r0 w0 w f r,
  completed ex_mem idf [Append "data" [1; 2]] s0 /\ a_open s0 = Ok (r0, w0) /\
  w_run ex_mem idf [Append "data" [3]] w0 = (w, None) /\
  a_finish ex_mem idf (w_keys w) r0 w = Ok f /\ r_open f = Ok (r, Eq) /\
  r_read r "data" true = Ok [1; 2; 3] /\
  get_n_bytes r "data" = Ok (VInt (ex_mem [3])) /\
  dkeys f = ["data"] /\
  mfield f "data" "metadata" "total_bytes" = Some (VInt (ex_mem [1; 2; 3])).
Proof.
  exists (match w_run ex_mem idf [Append "data" [1; 2]] w_init with
          | (w, _) => match w_finish ex_mem idf (w_keys w) w with Ok f => f | Raise _ => [] end end).
  eexists. eexists. eexists. eexists. eexists.
  split.
  { eexists. eexists. split; [vm_compute; reflexivity|].
    split; [apply Permutation_refl|vm_compute; reflexivity]. }
  vmr.
Qed.
Print Assumptions C08_n_bytes_refuted.

(** *** C09 *)
Theorem C09_write_replaces : forall A (mem : list A -> Z) ops f r c,
  no_mix ops -> kwargs_ok ops -> completed mem idf ops f -> r_open f = Ok (r, c) ->
  forall k df, k <> "mapping" -> last_written k ops None = Some df -> 0 < mem df ->
    r_read r k true = Ok df.
Proof. exact @reads_written. Qed.
Print Assumptions C09_write_replaces.

Example C09_example : last_written "w" ex_ops None = Some [8; 8] /\ 0 < ex_mem [8; 8].
Proof. split; reflexivity. Qed.

(** Mixing append and write on one key: finish() raises and no file is completed. *)
Theorem C09_append_then_write_refuted : exists w,
  w_run ex_mem idf [Append "data" [1]; Append "x" [1]; Write [("x", [2])]] w_init = (w, None) /\
  forall order, Permutation order (w_keys w) -> w_finish ex_mem idf order w = Raise ValueError.
Proof.
  eexists. split; [vm_compute; reflexivity|]. cbn [w_keys]. intros order P.
  assert (order = ["data"; "x"] \/ order = ["x"; "data"]) as [-> | ->].
  { apply Permutation_sym, Permutation_length_2_inv in P. exact P. }
  - vm_compute. reflexivity.
  - vm_compute. reflexivity.
Qed.
Print Assumptions C09_append_then_write_refuted.

(** *** C10 *)
Theorem C10_chunked_iteration : forall A (s : store A) r c k n cs,
  NoDup (dkeys s) -> r_open s = Ok (r, c) -> dget k s = Some n -> n_fmt n = Table -> 0 < cs ->
  exists cks, iterate_over_chunks r k (Some cs) = Ok (Some cks) /\ pieces cs (n_rows n) cks.
Proof. exact @iterate_spec. Qed.
Print Assumptions C10_chunked_iteration.

(** Default chunk size; a table whose rows are larger than 2 GB each is never traversed. *)
Theorem C10_default_chunksize : forall A (s : store A) r c k n b cs,
  NoDup (dkeys s) -> r_open s = Ok (r, c) -> dget k s = Some n -> n_fmt n = Table -> k <> "mapping" ->
  mfield s k "metadata" "n_bytes" = Some (VInt b) -> 0 < b -> (cs = None \/ cs = Some 0) ->
  let size := Z.of_nat (List.length (n_rows n)) * 2000000000 / b in
  (0 < size -> exists cks, iterate_over_chunks r k cs = Ok (Some cks) /\ pieces size (n_rows n) cks) /\
  (size = 0 -> n_rows n <> [] -> forall fuel, chunk_loop fuel size (n_rows n) = None).
Proof. exact @iterate_default. Qed.
Print Assumptions C10_default_chunksize.

Example C10_example : exists r, r_open ex_file = Ok (r, Eq) /\
  iterate_over_chunks r "data" (Some 3) = Ok (Some [[1; 2; 3]; [4]]) /\
  iterate_over_chunks r "data" None = Ok (Some [[1; 2; 3; 4]]).
Proof. eexists. vmr. Qed.

(** *** C11 *)
Theorem C11_read_guard : forall A (s : store A) r c k force,
  NoDup (dkeys s) -> r_open s = Ok (r, c) ->
  (forall v, mfield s k "metadata" "n_bytes" = Some v -> exists b, v = VInt b) ->
  r_read r k force =
  match (if String.eqb k "mapping" then None else mfield s k "metadata" "n_bytes") with
  | Some (VInt b) => if b =? 0 then Raise KeyError
                     else if (8000000000 <? b) && negb force then Raise MemoryError
                     else Ok (rows_of s k)
  | _ => Raise KeyError
  end.
Proof. exact @read_spec. Qed.
Print Assumptions C11_read_guard.

Example C11_example : exists r, 
  r_open [("data", Node Table [1; 2] [("metadata", [("version", VStr "3.1.0"); ("n_bytes", VInt 8000000001)])])]
    = Ok (r, Eq) /\
  r_read r "data" false = Raise MemoryError /\ r_read r "data" true = Ok [1; 2] /\
  r_read r "other" true = Raise KeyError.
Proof. eexists. vmr. Qed.

(** *** C75 *)
Theorem C75_mapping_round_trip : forall A (mem : list A -> Z) prep ops f r c,
  prep [] = [] -> no_mix ops -> kwargs_ok ops -> completed mem prep ops f -> r_open f = Ok (r, c) ->
  ~ by_append "mapping" ops -> ~ by_write "mapping" ops ->
  (forall df md, last_mapping ops None = Some (df, md) -> ~ meta_named "mapping" "metadata" ops ->
     get_mapping r = Ok (df, md)) /\
  (forall df md, last_mapping ops None = Some (df, md) -> meta_named "mapping" "metadata" ops ->
     exists d, get_mapping r = Ok (df, d) /\
       forall fld, dget fld d = last_value "mapping" "metadata" fld ops None) /\
  (~ has_mapping ops -> (forall nm, ~ meta_named "mapping" nm ops) -> get_mapping r = Raise KeyError).
Proof. exact @mapping_reads. Qed.
Print Assumptions C75_mapping_round_trip.

Definition ex_map_ops : list (op Z) :=
  [AddMap [5; 6] [("cfgfile", VStr "old")]; Append "data" [1];
   AddMap [7; 8; 9] [("cfgfile", VStr "camera.cfg")]; Append "data" [2]].

Example C75_example : exists w f r,
  w_run ex_mem idf ex_map_ops w_init = (w, None) /\ w_finish ex_mem idf (w_keys w) w = Ok f /\
  r_open f = Ok (r, Eq) /\ get_mapping r = Ok ([7; 8; 9], [("cfgfile", VStr "camera.cfg")]) /\
  r_dfkeys r = ["data"] /\ r_read r "data" true = Ok [1; 2].
Proof. do 3 eexists. vmr. Qed.
