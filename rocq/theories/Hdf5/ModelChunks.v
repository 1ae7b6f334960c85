(** The default chunk size of iterate_over_chunks as it is computed, in double precision: n_rows / n_bytes * 2E9 (hdf5_reader.py:291), int() of it in
    pandas' TableIterator.  The quotient of two Python integers is rounded once; 2E9 is a double. *)
From Coq Require Import ZArith QArith Qcanon.
From Verif.Base Require Import Num Fl.

Definition chunk_size64 (n_rows n_bytes : Z) : Z := qtrunc (fl64 (fl64 (qz n_rows / qz n_bytes) * qz 2000000000))%Qc.
