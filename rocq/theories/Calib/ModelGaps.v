(** Model of CHECLabPy/calib/sipm_data_sheet.py for a data sheet with gaps, as the one that comes with the code.  Definitions only.

    An empty field of the file is read as NaN, here None.  Simplifications: rational arithmetic; interp1d is scipy's, for one dimensional data
    of double precision: it sorts by abscissa (NaN last), refuses what lies outside of the first and last abscissa and calls np.interp, which
    searches the last abscissa not above the value (numpy/core/src/multiarray/compiled_base.c). *)
From Coq Require Import List ZArith QArith Qcanon String Bool Arith.
From Verif.Base Require Import Py Num.
Import ListNotations.
Local Open Scope list_scope.

Definition gtable := list (string * list (option Qc)).
Definition point := (option Qc * option Qc)%type.

(** np.argsort(x, kind="mergesort"): stable, NaN last. *)
Definition before (a b : option Qc) : bool := match a, b with Some x, Some y => qltb x y | Some _, None => true | None, _ => false end.
Fixpoint put (p : point) (l : list point) : list point :=
  match l with
  | [] => [p]
  | q :: t => if before (fst p) (fst q) then p :: l else q :: put p t
  end.
Definition sorted_points (l : list point) : list point := fold_left (fun acc p => put p acc) l [].

(** Comparisons with NaN are False. *)
Definition less (a b : option Qc) : bool := match a, b with Some x, Some y => qltb x y | _, _ => false end.
Definition not_below (v : Qc) (a : option Qc) : bool := match a with Some x => qleb x v | None => false end.

(** np.interp between two points, the first not above [v]: slope * (v - x1) + y1; a result NaN is replaced by the ordinate if both ordinates
    are equal. *)
Definition segment (p q : point) (v : Qc) : option Qc :=
  match fst p with
  | Some x => if qeqb x v then snd p else
      match fst q, snd p, snd q with
      | Some x', Some y, Some y' => Some ((y' - y) / (x' - x) * (v - x) + y)%Qc
      | None, Some y, Some y' => if qeqb y y' then Some y else None
      | _, _, _ => None
      end
  | None => match snd p, snd q with Some y, Some y' => if qeqb y y' then Some y else None | _, _ => None end
  end.
Fixpoint gap_interp (pts : list point) (v : Qc) : option Qc :=
  match pts with
  | [] => None
  | [p] => snd p
  | p :: ((q :: _) as t) => if not_below v (fst q) then gap_interp t v else segment p q v
  end.
(** scipy.interpolate.interp1d(x, y)(v) *)
Definition gap_interp1d (xs ys : list (option Qc)) (v : Qc) : res (option Qc) :=
  if negb (List.length xs =? List.length ys)%nat then Raise ValueError
  else let pts := sorted_points (combine xs ys) in
  match pts with
  | [] => Raise ValueError
  | p :: _ =>
      if less (Some v) (fst p) then Raise ValueError
      else if less (fst (last pts p)) (Some v) then Raise ValueError
      else Ok (gap_interp pts v)
  end.

(** sipm_data_sheet.py:15-31 *)
Definition gap_is_set (a : string * option Qc) : bool := match snd a with Some _ => true | None => false end.
Definition gap_convert (df : gtable) (vover opct pde gain : option Qc) : res (dict (option Qc)) :=
  let values := [("vover", vover); ("opct", opct); ("pde", pde); ("gain", gain)]%string in
  let n_set := List.length (filter gap_is_set values) in
  if negb (n_set =? 1)%nat then Raise ValueError
  else match filter gap_is_set values with
       | (key, Some value) :: _ =>
           (do x <- dlookup key df;
            mapM (fun col => rmap (fun y => (fst col, y)) (gap_interp1d x (snd col) value)) df)%py
       | _ => Raise ValueError
       end.

(** calib/data/sipm_data_sheet.csv *)
Definition data_sheet : gtable := [
  ("vover", [Some (Q2Qc (79503 # 100000));
    Some (Q2Qc (5661 # 6250));
    Some (Q2Qc (101649 # 100000));
    Some (Q2Qc (56361 # 50000));
    Some (Q2Qc (24759 # 20000));
    Some (Q2Qc (33717 # 25000));
    Some (Q2Qc (145941 # 100000));
    Some (Q2Qc (78507 # 50000));
    Some (Q2Qc (168087 # 100000));
    Some (Q2Qc (4479 # 2500));
    Some (Q2Qc (190233 # 100000));
    Some (Q2Qc (100653 # 50000));
    Some (Q2Qc (212379 # 100000));
    Some (Q2Qc (22345200000000003 # 10000000000000000));
    Some (Q2Qc (9381 # 4000));
    Some (Q2Qc (122799 # 50000));
    Some (Q2Qc (256671 # 100000));
    Some (Q2Qc (26774400000000003 # 10000000000000000));
    Some (Q2Qc (278817 # 100000));
    Some (Q2Qc (28989 # 10000));
    Some (Q2Qc (300963 # 100000));
    Some (Q2Qc (78009 # 25000));
    Some (Q2Qc (323109 # 100000));
    Some (Q2Qc (167091 # 50000));
    Some (Q2Qc (69051 # 20000));
    Some (Q2Qc (17816400000000001 # 5000000000000000));
    Some (Q2Qc (367401 # 100000));
    Some (Q2Qc (189237 # 50000));
    Some (Q2Qc (389547 # 100000));
    Some (Q2Qc (20031 # 5000))]);
  ("gain", [None;
    None;
    None;
    Some (Q2Qc (6335142332670643 # 10000000000));
    Some (Q2Qc (350453084824387 # 500000000));
    Some (Q2Qc (153653818807947 # 200000000));
    Some (Q2Qc (834335129570747 # 1000000000));
    Some (Q2Qc (8975815704989153 # 10000000000));
    Some (Q2Qc (601836682483731 # 625000000));
    Some (Q2Qc (10254305993883793 # 10000000000));
    Some (Q2Qc (271435799261783 # 250000000));
    Some (Q2Qc (1429411300397501 # 1250000000));
    Some (Q2Qc (2426057297297297 # 2000000000));
    Some (Q2Qc (1280287514450867 # 1000000000));
    Some (Q2Qc (3354875270953757 # 2500000000));
    Some (Q2Qc (3501921691973969 # 2500000000));
    Some (Q2Qc (7330508893709327 # 5000000000));
    Some (Q2Qc (382847514450867 # 250000000));
    Some (Q2Qc (15897113088685013 # 10000000000));
    Some (Q2Qc (4116797297297297 # 2500000000));
    Some (Q2Qc (17095656756756757 # 10000000000));
    Some (Q2Qc (4431031081081081 # 2500000000));
    Some (Q2Qc (45865423853211 # 25000000));
    Some (Q2Qc (47428759936407 # 25000000));
    Some (Q2Qc (122382518966763 # 62500000));
    Some (Q2Qc (20158647359454853 # 10000000000));
    Some (Q2Qc (208000136286201 # 100000000));
    Some (Q2Qc (10710296908127207 # 5000000000));
    None;
    None]);
  ("opct", [None;
    None;
    Some (Q2Qc (427425957119741 # 5000000000000000));
    Some (Q2Qc (5173116636636637 # 50000000000000000));
    Some (Q2Qc (1228776917293233 # 10000000000000000));
    Some (Q2Qc (290359698630137 # 2000000000000000));
    Some (Q2Qc (859609535087719 # 5000000000000000));
    Some (Q2Qc (1988194380165289 # 10000000000000000));
    Some (Q2Qc (11197847980613891 # 50000000000000000));
    Some (Q2Qc (24811229402261709 # 100000000000000000));
    Some (Q2Qc (2723786989247311 # 10000000000000000));
    Some (Q2Qc (7377682097186701 # 25000000000000000));
    Some (Q2Qc (6378845574354407 # 20000000000000000));
    Some (Q2Qc (213798371743487 # 625000000000000));
    Some (Q2Qc (923386490125673 # 2500000000000000));
    Some (Q2Qc (3952122914389799 # 10000000000000000));
    Some (Q2Qc (4220838614035087 # 10000000000000000));
    Some (Q2Qc (44849785263157893 # 100000000000000000));
    Some (Q2Qc (1187346921052631 # 2500000000000000));
    Some (Q2Qc (5015711490125673 # 10000000000000000));
    Some (Q2Qc (1321665297927461 # 2500000000000000));
    Some (Q2Qc (555614064516129 # 1000000000000000));
    Some (Q2Qc (363910134868421 # 625000000000000));
    Some (Q2Qc (6091669087837839 # 10000000000000000));
    Some (Q2Qc (318156549831081 # 500000000000000));
    Some (Q2Qc (3313629263913823 # 5000000000000000));
    Some (Q2Qc (215671911637931 # 312500000000000));
    Some (Q2Qc (448106927631579 # 625000000000000));
    Some (Q2Qc (1486777152027027 # 2000000000000000));
    Some (Q2Qc (38531 # 50000))]);
  ("pde", [Some (Q2Qc (6051 # 50000));
    Some (Q2Qc (7385675972927243 # 50000000000000000));
    Some (Q2Qc (4276948798197297 # 25000000000000000));
    Some (Q2Qc (19110759139784947 # 100000000000000000));
    Some (Q2Qc (1061943423076923 # 5000000000000000));
    Some (Q2Qc (2287287157894737 # 10000000000000000));
    Some (Q2Qc (2460128873873873 # 10000000000000000));
    Some (Q2Qc (5245448721804511 # 20000000000000000));
    Some (Q2Qc (27469782058823533 # 100000000000000000));
    Some (Q2Qc (2887478796992481 # 10000000000000000));
    Some (Q2Qc (3007438842105263 # 10000000000000000));
    Some (Q2Qc (3137060630630631 # 10000000000000000));
    Some (Q2Qc (1625540796992481 # 5000000000000000));
    Some (Q2Qc (33499312312312307 # 100000000000000000));
    Some (Q2Qc (1079389567669173 # 3125000000000000));
    Some (Q2Qc (355334606158833 # 1000000000000000));
    Some (Q2Qc (18222234870317003 # 50000000000000000));
    Some (Q2Qc (37261421052631577 # 100000000000000000));
    Some (Q2Qc (4761820307807807 # 12500000000000000));
    Some (Q2Qc (3887322857142857 # 10000000000000000));
    Some (Q2Qc (19900275675675677 # 50000000000000000));
    Some (Q2Qc (20283822074074073 # 50000000000000000));
    Some (Q2Qc (4134879184861717 # 10000000000000000));
    Some (Q2Qc (2098112780979827 # 5000000000000000));
    Some (Q2Qc (10682893 # 25000000));
    Some (Q2Qc (4343781098901099 # 10000000000000000));
    Some (Q2Qc (44056895540540547 # 100000000000000000));
    Some (Q2Qc (446458272189349 # 1000000000000000));
    Some (Q2Qc (2265995752351097 # 5000000000000000));
    None])]%string.
