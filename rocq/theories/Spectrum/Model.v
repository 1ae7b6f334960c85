(** Model of SpectrumFitter.apply (histogramming), of _get_spectra/_get_likelihood of the fitters, and of the initial values
    that extract_spe.py stores.  Definitions only. *)
From Coq Require Import List ZArith QArith Qcanon Qround String Bool Arith Reals.
From Verif.Base Require Import Py Str Num.
From Verif.Fitter Require Import Model.
From Verif.Stats Require Model.
Import ListNotations.
Local Open Scope list_scope.

(** ** np.histogram with a number of bins and a range (numpy/lib/histograms.py), as called in spectrum_fitter.py:272-274 *)

(** Floating point operations whose results are rounded: [f_index first last n x] is ((x - first) * (n / (last - first)))
    converted to an integer, [f_edges first last n] is linspace(first, last, n + 1), [f32] the conversion to float32. *)
Record arith := Arith { f_index : Qc -> Qc -> Z -> Qc -> Z; f_edges : Qc -> Qc -> Z -> list Qc; f32 : Qc -> Qc }.
(** Without rounding. *)
Definition exact : arith :=
  Arith (fun first last n x => Qfloor (this ((x - first) * (qz n / (last - first)))%Qc))
        (fun first last n => linspace first last (Z.to_nat (n + 1))) (fun x => x).

(** [a[i]]: a negative index counts from the end. *)
Definition zget {A} (l : list A) (i : Z) : res A :=
  let j := if (i <? 0)%Z then (i + Z.of_nat (List.length l))%Z else i in
  if (j <? 0)%Z then Raise IndexError
  else match nth_error l (Z.to_nat j) with Some x => Ok x | None => Raise IndexError end.

(** The bin of one value that lies in the range: guess, last edge, then both corrections against the edges. *)
Definition hist_index (ar : arith) (first last : Qc) (n : Z) (edges : list Qc) (x : Qc) : res Z :=
  (let i0 := f_index ar first last n x in
   let i1 := if i0 =? n then i0 - 1 else i0 in
   do e <- zget edges i1;
   let i2 := if qltb x e then i1 - 1 else i1 in
   do e' <- zget edges (i2 + 1);
   Ok (if qleb e' x && negb (i2 =? n - 1) then i2 + 1 else i2))%Z%py.

(** np.bincount(indices, minlength=n) added to an array of n zeros. (numpy does this for blocks of 65536 values.) *)
Definition bincount (n : Z) (indices : list Z) : res (list nat) :=
  if forallb (fun i => (0 <=? i)%Z && (i <? n)%Z) indices
  then Ok (map (fun k => List.length (filter (fun i => (i =? Z.of_nat k)%Z) indices)) (seq 0 (Z.to_nat n)))
  else Raise ValueError.

(** NaN is None: both comparisons with the range are False. *)
Definition kept (first last : Qc) (a : list (option Qc)) : list Qc :=
  flat_map (fun o => match o with Some x => if qleb first x && qleb x last then [x] else [] | None => [] end) a.
(** _get_outer_edges *)
Definition outer_edges (lo hi : Qc) : Qc * Qc :=
  if qeqb lo hi then (lo - Q2Qc (1 # 2), hi + Q2Qc (1 # 2))%Qc else (lo, hi).
Definition np_histogram (ar : arith) (a : list (option Qc)) (n : Z) (lo hi : Qc) : res (list nat * list Qc) :=
  if (n <? 1)%Z then Raise ValueError
  else if qltb hi lo then Raise ValueError
  else let '(first, last) := outer_edges lo hi in
       let edges := f_edges ar first last n in
       (do indices <- mapM (hist_index ar first last n edges) (kept first last a);
        do counts <- bincount n indices; Ok (counts, edges))%py.

(** (edges[1:] + edges[:-1]) / 2 *)
Definition between (edges : list Qc) : list Qc := map (fun p => (fst p + snd p) / qz 2)%Qc (combine (tl edges) edges).

(** charge_hist_x, charge_hist_y, charge_hist_edges; None before the first application (spectrum_fitter.py:136-139). *)
Record hists := Hists { hist_x : option (list Qc); hist_y : option (list (list Qc)); hist_edges : option (list Qc) }.
Definition no_hists : hists := Hists None None None.

(** spectrum_fitter.py:271-280, for the charge arrays not yet done; [ys] is charge_hist_y so far. *)
Fixpoint apply_loop (ar : arith) (n_bins : Z) (lo hi : Qc) (charges : list (list (option Qc))) (ys : list (list Qc)) (st : hists) : hists * option exn :=
  match charges with
  | [] => (Hists (hist_x st) (Some ys) (hist_edges st), None)
  | a :: rest =>
      match np_histogram ar a n_bins lo hi with
      | Raise e => (Hists (hist_x st) (Some ys) (hist_edges st), Some e)
      | Ok (counts, edges) =>
          let ys' := ys ++ [map (fun c => f32 ar (qz (Z.of_nat c))) counts] in
          apply_loop ar n_bins lo hi rest ys' (Hists (Some (map (f32 ar) (between edges))) (Some ys') (Some (map (f32 ar) edges)))
      end
  end.
(** spectrum_fitter.py:268-280: the histograms (the state after the call, and whether it raised). *)
Definition apply_histograms (ar : arith) (n_illuminations : nat) (n_bins : Z) (lo hi : Qc) (charges : list (list (option Qc))) (st : hists) : hists * option exn :=
  if negb (List.length charges =? n_illuminations)%nat then (st, Some AssertionError)
  else apply_loop ar n_bins lo hi charges [] st.

(** ** Spectra of all illuminations *)
Section Spectra.
  (** [parameter_values[lookup[name]]] *)
  Definition value_of (lk : dict nat) (values : list R) (name : string) : res R :=
    (do k <- dlookup name lk; match nth_error values k with Some v => Ok v | None => Raise IndexError end)%py.
  (** gentile.py:48-58 *)
  Definition gentile_calculate_spectrum (data_x : list R) (lk : dict nat) (values : list R) : res (list R) :=
    (do eped <- value_of lk values "eped"; do eped_sigma <- value_of lk values "eped_sigma";
     do spe <- value_of lk values "spe"; do spe_sigma <- value_of lk values "spe_sigma";
     do opct <- value_of lk values "opct"; do lambda_ <- value_of lk values "lambda_";
     Ok (map (fun x => Stats.Model.sipm_gentile_spe x eped eped_sigma spe spe_sigma opct lambda_) data_x))%py.
  (** mapm.py:47-56 *)
  Definition mapm_calculate_spectrum (data_x : list R) (lk : dict nat) (values : list R) : res (list R) :=
    (do eped <- value_of lk values "eped"; do eped_sigma <- value_of lk values "eped_sigma";
     do spe <- value_of lk values "spe"; do spe_sigma <- value_of lk values "spe_sigma";
     do lambda_ <- value_of lk values "lambda_";
     Ok (map (fun x => Stats.Model.mapm_spe x eped eped_sigma spe spe_sigma lambda_) data_x))%py.

  Variable calculate_spectrum : list R -> dict nat -> list R -> res (list R).
  (** gentile.py:29-34, mapm.py:28-33 *)
  Definition get_spectra (n : nat) (data_x : list R) (lookup : list (dict nat)) (values : list R) : res (list (list R)) :=
    mapM (fun i => match nth_error lookup i with Some lk => calculate_spectrum data_x lk values | None => Raise IndexError end) (seq 0 n).
  (** gentile.py:36-44, mapm.py:35-43 *)
  Definition get_likelihood (n : nat) (data_x : list R) (data_y : list (list nat)) (lookup : list (dict nat)) (values : list R) : res R :=
    foldM (fun likelihood i =>
      match nth_error lookup i, nth_error data_y i with
      | Some lk, Some y => (do spectrum <- calculate_spectrum data_x lk values; Ok (likelihood + Stats.Model.likelihood1 data_x y spectrum)%R)%py
      | _, _ => Raise IndexError
      end) (seq 0 n) 0%R.
End Spectra.

Section Parameters.
  Local Open Scope string_scope.
  (** gentile.py:18-25 and mapm.py:16-22, initial values and limits left out: (name, multi). *)
  Definition gentile_parameters : list (string * bool) :=
    [("eped", false); ("eped_sigma", false); ("spe", false); ("spe_sigma", false); ("opct", false); ("lambda_", true)].
  Definition mapm_parameters : list (string * bool) :=
    [("eped", false); ("eped_sigma", false); ("spe", false); ("spe_sigma", false); ("lambda_", true)].
  (** extract_spe.py:128-131: the initial values put in the metadata and in the plot. *)
  Definition spe_initial {V} (n_illuminations : nat) (ps : list (param V)) : res (dict V) :=
    let d := fold_left (fun d p => dset (p_name p) (p_initial p) d) ps [] in
    match dget "lambda_" d with
    | None => Raise KeyError
    | Some l => Ok (fold_left (fun d i => dset ("lambda_" ++ dec (N.of_nat i)) l d) (seq 0 n_illuminations) (dpop "lambda_" d))
    end.
End Parameters.
