(** Model of CHECLabPy/stats/pdf.py and of the spectra in spectrum_fitters/mapm.py and gentile.py, over the real numbers
    (rounding of floats is not modelled).  Definitions only. *)
From Coq Require Import Reals List.
Import ListNotations.
Local Open Scope R_scope.

(** math.lgamma at a positive integer z is the logarithm of (z-1)!; only such arguments occur (counts and bin contents). *)
Definition lgamma (z : nat) : R := ln (INR (fact (pred z))).
(** binom (pdf.py:8-18), for 0 <= k <= n *)
Definition binom (n k : nat) : R := exp (lgamma (n + 1) - lgamma (k + 1) - lgamma (n - k + 1)).
(** poisson (pdf.py:21-32), for mu > 0 *)
Definition poisson (k : nat) (mu : R) : R := exp (INR k * ln mu - mu - lgamma (k + 1)).
(** pdf.py:4 *)
Definition SQRT2PI : R := sqrt (2 * PI).
(** normal_pdf (pdf.py:35-46), for std_deviation > 0 *)
Definition normal_pdf (x mean std_deviation : R) : R :=
  let u := (x - mean) / std_deviation in
  exp (- (1/2) * u ^ 2) / (SQRT2PI * std_deviation).
(** xlogy (pdf.py:49-54), y not NaN and positive (or x = 0) *)
Definition xlogy (x y : R) : R := if Req_EM_T x 0 then 0 else x * ln y.
(** poisson_logpmf (pdf.py:57-59), k a bin content (a count) *)
Definition poisson_logpmf (k : nat) (mu : R) : R := xlogy (INR k) mu - lgamma (k + 1) - mu.

(** The constant 1e-4 of both loops. *)
Definition cut : R := 1 / 10000.
(** mapm.py:98-113: iterations k, k+1, ... ([fuel] of them) of the loop over the number of avalanches. *)
Fixpoint mapm_loop (fuel k : nat) (pk_max : R) (x eped eped_sigma spe spe_sigma lambda_ : R) (spectrum : R) : R :=
  match fuel with
  | O => spectrum
  | S fuel =>
    let p := poisson k lambda_ in
    let add := spectrum + p * normal_pdf x (eped + INR k * spe) (sqrt (INR k * spe_sigma ^ 2 + eped_sigma ^ 2)) in
    if Rlt_dec pk_max p then mapm_loop fuel (S k) p x eped eped_sigma spe spe_sigma lambda_ add
    else if Rlt_dec p cut then spectrum
    else mapm_loop fuel (S k) pk_max x eped eped_sigma spe spe_sigma lambda_ add
  end.
(** mapm_spe (mapm.py:66-115) at one value of x; range(1, 100) has 99 elements. *)
Definition mapm_spe (x eped eped_sigma spe spe_sigma lambda_ : R) : R :=
  mapm_loop 99 1 0 x eped eped_sigma spe spe_sigma lambda_ (exp (- lambda_) * normal_pdf x eped eped_sigma).

(** gentile.py:97-109: iterations j, j+1, ... ([fuel] of them) of the inner loop. *)
Fixpoint gentile_pk (fuel j k : nat) (opct lambda_ : R) (pk : R) : R :=
  match fuel with
  | O => pk
  | S fuel =>
    let pj := poisson j lambda_ in
    if Rlt_dec pj cut then gentile_pk fuel (S j) k opct lambda_ pk
    else gentile_pk fuel (S j) k opct lambda_ (pk + pj * (1 - opct) ^ j * opct ^ (k - j) * binom (k - 1) (j - 1))
  end.
(** gentile.py:96-122 *)
Fixpoint gentile_loop (fuel k : nat) (pk_max : R) (x eped eped_sigma spe spe_sigma opct lambda_ : R) (spectrum : R) : R :=
  match fuel with
  | O => spectrum
  | S fuel =>
    let pk := gentile_pk k 1 k opct lambda_ 0 in
    let add := spectrum + pk * normal_pdf x (eped + INR k * spe) (sqrt (INR k * spe_sigma ^ 2 + eped_sigma ^ 2)) in
    if Rlt_dec pk_max pk then gentile_loop fuel (S k) pk x eped eped_sigma spe spe_sigma opct lambda_ add
    else if Rlt_dec pk cut then spectrum
    else gentile_loop fuel (S k) pk_max x eped eped_sigma spe spe_sigma opct lambda_ add
  end.
(** sipm_gentile_spe (gentile.py:61-122) at one value of x *)
Definition sipm_gentile_spe (x eped eped_sigma spe spe_sigma opct lambda_ : R) : R :=
  gentile_loop 99 1 0 x eped eped_sigma spe spe_sigma opct lambda_ (exp (- lambda_) * normal_pdf x eped eped_sigma).

(** np.trapz(y, x) *)
Fixpoint trapz (x y : list R) : R :=
  match x, y with
  | x0 :: ((x1 :: _) as x'), y0 :: ((y1 :: _) as y') => (x1 - x0) * (y0 + y1) / 2 + trapz x' y'
  | _, _ => 0
  end.
Definition rsum (l : list R) : R := fold_right Rplus 0 l.
(** One illumination of _get_likelihood (gentile.py:42-44, mapm.py:41-43): the spectrum is scaled to the integral of the
    histogram, and the terms are summed.  np.nansum only differs from a sum when a term is NaN, which the positive spectra
    of the claims never give. *)
Definition normalised (data_x : list R) (data_y : list nat) (spectrum : list R) : list R :=
  map (fun s => s * (trapz data_x (map INR data_y) / trapz data_x spectrum)) spectrum.
Definition likelihood_of (data_y : list nat) (mu : list R) : R := rsum (map (fun ym => -2 * poisson_logpmf (fst ym) (snd ym)) (combine data_y mu)).
Definition likelihood1 (data_x : list R) (data_y : list nat) (spectrum : list R) : R := likelihood_of data_y (normalised data_x data_y spectrum).
(** _get_likelihood (gentile.py:38-45, mapm.py:37-44) *)
Definition get_likelihood (data_x : list R) (data_y : list (list nat)) (spectra : list (list R)) : R :=
  rsum (map (fun ys => likelihood1 data_x (fst ys) (snd ys)) (combine data_y spectra)).
