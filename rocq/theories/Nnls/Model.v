(** Model of CHECLabPy/waveform_reducers/nnls_pulse_extraction.py: the active set solver and the charge columns.
    Numbers are exact; NaN is [None]. The model matrix is given by its columns. Not modelled: load_reference_pulse
    (53-75) and the filling of the model matrix from the spline (31-39). *)
From Coq Require Import List ZArith QArith Qcanon Bool Arith.
From Verif.Base Require Import Num.
From Verif.Reducers Require Import Model.
Import ListNotations.
Local Open Scope list_scope.
Local Open Scope nat_scope.

(** ** Lists of indices: list.sort, list.remove and list.index *)
Fixpoint insert_nat (r : nat) (l : list nat) : list nat :=
  match l with [] => [r] | h :: t => if h <=? r then h :: insert_nat r t else r :: l end.
Definition sort_nat (l : list nat) : list nat := fold_left (fun acc r => insert_nat r acc) l [].
Fixpoint remove1 (r : nat) (l : list nat) : list nat :=
  match l with [] => [] | h :: t => if h =? r then t else h :: remove1 r t end.
Fixpoint index_of (r : nat) (l : list nat) : option nat :=
  match l with [] => None | h :: t => if h =? r then Some 0 else option_map S (index_of r t) end.

(** ** numpy on vectors that may hold NaN *)
Definition argmin (l : list Qc) : nat := argmax (map Qcopp l).
Definition argmin_nan (l : list (option Qc)) : nat := argmax_nan (map (option_map Qcopp) l).
(** x[F] = vals *)
Definition assign (x : list (option Qc)) (F : list nat) (vals : list (option Qc)) : list (option Qc) :=
  map (fun i => match index_of i F with Some k => nth k vals None | None => nth i x None end) (seq 0 (List.length x)).
(** x[F] *)
Definition take (x : list (option Qc)) (F : list nat) : list (option Qc) := map (fun i => nth i x None) F.
(** nnls_pulse_extraction.py:244: x[F] / (x[F] - x_F); 0/0 is NaN. (A non-zero value over zero, infinity in numpy,
    is not looked at: it needs x_F = x[F] > 0, which the mask excludes, or a negative x[F], which does not arise.) *)
Definition theta (o : option Qc) (xf : Qc) : option Qc :=
  match o with
  | Some v => if qeqb (v - xf)%Qc 0%Qc then None else Some (v / (v - xf))%Qc
  | None => None
  end.
(** nnls_pulse_extraction.py:249: x[F] + alpha * (x_F - x[F]) *)
Definition blend (alpha o : option Qc) (xf : Qc) : option Qc :=
  match alpha, o with Some a, Some v => Some (v + a * (xf - v))%Qc | _, _ => None end.

Definition dot (u v : list Qc) : Qc := qsum (map (fun p => fst p * snd p)%Qc (combine u v)).

Record state := { passive : list nat; active : list nat; sol : list (option Qc); iterations : nat; lstsqs : nat; converged : bool }.

Section Solver.
  Variable cols : list (list Qc).
  Variable b : list Qc.
  (** np.linalg.lstsq: the answer to its k-th call, made for the columns F. Every answer is allowed. *)
  Variable lsq : nat -> list nat -> list Qc.
  Variable maxit : nat.
  Variable tolerance : Qc.

  (** np.dot(A[:,F], x[F]) - b *)
  Definition residual (F : list nat) (xF : list Qc) : list Qc :=
    map (fun i => qsum (map (fun p => nth i (nth (fst p) cols []) 0 * snd p)%Qc (combine F xF)) - nth i b 0)%Qc (seq 0 (List.length b)).

  (** nnls_pulse_extraction.py:234-251: while not feasible. [None] means that it has not finished within [fuel] rounds. *)
  Fixpoint inner (fuel k : nat) (F G : list nat) (x : list (option Qc)) : option (nat * list nat * list nat * list (option Qc) * list Qc) :=
    match fuel with
    | O => None
    | S fuel' =>
        let xF := lsq k F in
        if forallb (fun v => qleb 0%Qc v) xF then Some (S k, F, G, assign x F (map Some xF), xF)
        else
          let masked := filter (fun p => qleb (snd p) 0%Qc) (combine F xF) in
          let th := map (fun p => theta (nth (fst p) x None) (snd p)) masked in
          let r_F := argmin_nan th in
          let alpha := nth r_F th None in
          let r := fst (nth r_F masked (0, 0%Qc)) in
          let x' := assign x F (map (fun p => blend alpha (nth (fst p) x None) (snd p)) (combine F xF)) in
          inner fuel' (S k) (remove1 r F) (sort_nat (G ++ [r])) x'
    end.

  (** nnls_pulse_extraction.py:219-254: while True. After the inner loop x[F] is x_F. *)
  Fixpoint outer (fuel0 fuel it k : nat) (F G : list nat) (x : list (option Qc)) (y : list Qc) : option state :=
    match fuel with
    | O => None
    | S fuel' =>
        if maxit <=? it then Some {| passive := F; active := G; sol := x; iterations := it; lstsqs := k; converged := false |}
        else
          match G with
          | [] => Some {| passive := F; active := G; sol := x; iterations := S it; lstsqs := k; converged := true |}
          | _ =>
              let r := nth (argmin (map (fun j => nth j y 0%Qc) G)) G 0 in
              if qleb tolerance (nth r y 0%Qc)
              then Some {| passive := F; active := G; sol := x; iterations := S it; lstsqs := k; converged := true |}
              else
                match inner fuel0 k (sort_nat (F ++ [r])) (remove1 r G) x with
                | None => None
                | Some (k', F', G', x', xF) =>
                    let res := residual F' xF in
                    outer fuel0 fuel' (S it) k' F' G' x'
                      (map (fun j => if existsb (Nat.eqb j) G' then dot (nth j cols []) res else 0%Qc) (seq 0 (List.length cols)))
                end
          end
    end.

  (** nnls_pulse_extraction.py:204-217 *)
  Definition nnls (fuel : nat) : option state :=
    outer fuel fuel 0 0 [] (seq 0 (List.length cols)) (repeat (Some 0%Qc) (List.length cols)) (map (fun c => (- dot c b)%Qc) cols).
End Solver.

(** ** NNLSPulseExtraction._pulse_extraction, one pixel (81-95): pulses of positive charge; NaN > 0 is false.
    charge_scale is 7 (41). *)
Definition positive_pulses (basis_t : list Qc) (x : list (option Qc)) : list (Qc * Qc) :=
  flat_map (fun p => match snd p with
                     | Some v => if qltb 0%Qc (v * qz 7)%Qc then [(fst p, (v * qz 7)%Qc)] else []
                     | None => []
                     end) (combine basis_t x).
Definition pulse_mean (p : list (Qc * Qc)) : Qc :=
  match p with
  | [] => 0%Qc
  | _ => (qsum (map (fun tc => fst tc * snd tc)%Qc p) / qsum (map snd p))%Qc
  end.

(** ** NNLSPulseExtraction._prepare, one pixel (130-146) *)
Record pixel_row := { charge_nnls : Qc; nnls_tcharge : Qc; nnls_tmcharge : Qc; nnls_tccharge : Qc; nnls_npulses : nat; pulses : list (Qc * Qc) }.
Definition window_ns : Qc := Q2Qc (5 # 1000000000).
Definition qabs (x : Qc) : Qc := if qltb x 0%Qc then (- x)%Qc else x.
Definition pixel_columns (save_pulses : bool) (av_ptime : Qc) (c : list (Qc * Qc)) : pixel_row :=
  let m tc := qltb 0%Qc (snd tc) in
  let tm tc := qleb (qabs (fst tc - av_ptime)%Qc) window_ns && m tc in
  let tcharge := qsum (map snd (filter tm c)) in
  let npulses := List.length (filter m c) in
  {| charge_nnls := qsum (map snd (filter m c));
     nnls_tcharge := tcharge;
     nnls_tmcharge := if qltb 0%Qc tcharge then qmax (map snd (filter tm c)) else 0%Qc;
     nnls_tccharge := if negb (List.length (filter (fun tc => negb (tm tc)) c) =? 0) then qsum (map snd (filter (fun tc => negb (tm tc)) c)) else 0%Qc;
     nnls_npulses := npulses;
     pulses := if save_pulses && (0 <? npulses) then filter m c else [] |}.
(** _pulse_extraction and _prepare for the whole camera: [xs] is what nnls returned for each pixel *)
Definition prepare (save_pulses : bool) (basis_t : list Qc) (xs : list (list (option Qc))) : list pixel_row :=
  let extracted := map (positive_pulses basis_t) xs in
  let av_ptime := qmean (map pulse_mean extracted) in
  map (pixel_columns save_pulses av_ptime) extracted.

(** ** NNLSPulseExtraction._merge_pulses (100-116). The arguments are paired up as (time, charge); the bins are kept
    in reverse order. *)
Definition merge_step (binwidth : Qc) (bins : list (Qc * Qc)) (p : Qc * Qc) : list (Qc * Qc) :=
  match bins with
  | [] => [p]
  | (bt, bc) :: rest =>
      if qltb (fst p - bt)%Qc binwidth then (((bt * bc + fst p * snd p) / (bc + snd p))%Qc, (bc + snd p)%Qc) :: rest
      else p :: bins
  end.
Definition merge_pulses (binwidth : Qc) (ps : list (Qc * Qc)) : list (Qc * Qc) := rev (fold_left (merge_step binwidth) ps []).
