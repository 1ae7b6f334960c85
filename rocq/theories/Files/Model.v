(** Model of CHECLabPy/utils/files.py (natural sorting, HV configuration) and CHECLabPy/calib/pixel_masks.py.

    Simplifications:
    - text is a list of characters with codes 0-255 (Latin-1); within that range the regular expression class \d is
      0-9, while str.isdigit also accepts the three superscript digits 178, 179, 185;
    - a mask file is what pandas' tokeniser yields: a header and rows of fields; tab and newline handling is pandas';
    - a boolean column must consist of the fields True and False (anything else gives [Raise]);
    - printing and directory creation are left out;
    - np.int16 assignment wraps (numpy before 2.0). *)
From Coq Require Import List ZArith NArith Bool Arith String Ascii.
From Verif.Base Require Import Py Lex Str.
Import ListNotations.
Local Open Scope list_scope.

Definition text := list ascii.
Definition T (s : string) : text := list_ascii_of_string s.
Definition code (c : ascii) : N := N_of_ascii c.
(** \d *)
Definition is_d (c : ascii) : bool := ((48 <=? code c) && (code c <=? 57))%N.
(** str.isdigit on one character *)
Definition isdigit1 (c : ascii) : bool := is_d c || (code c =? 178)%N || (code c =? 179)%N || (code c =? 185)%N.
Definition isdigit (t : text) : bool := match t with [] => false | _ => forallb isdigit1 t end.

(** int(text) for text of decimal digits. *)
Definition digits_val (t : text) : N := fold_left (fun acc c => 10 * acc + (code c - 48))%N t 0%N.
Definition py_int (t : text) : res N := if forallb is_d t && negb (match t with [] => true | _ => false end) then Ok (digits_val t) else Raise ValueError.

(** ** Natural sorting, files.py:53-68 *)
Inductive kelem := KT (t : text) | KN (n : N).

(** files.py:53-54 *)
Definition atoi (t : text) : res kelem := if isdigit t then rmap KN (py_int t) else Ok (KT t).

(** [re.split('(\d+)', text)]: text, digits, text, digits, ..., text. *)
Fixpoint re_split (s : text) : list text :=
  match s with
  | [] => [[]]
  | c :: s' =>
      match re_split s' with
      | [] => []
      | t :: rest =>
          if is_d c then
            match t, rest with
            | [], d :: rest' => [] :: (c :: d) :: rest'      (* s' starts with a digit *)
            | _, _ => [] :: [c] :: t :: rest
            end
          else (c :: t) :: rest
      end
  end.

(** files.py:57-63 *)
Definition natural_keys (s : text) : res (list kelem) := mapM atoi (re_split s).

Definition char_cmp (a b : ascii) : comparison := (code a ?= code b)%N.
(** [==] and [<] of two key elements; a text and a number are unequal and cannot be ordered. *)
Definition kelem_eqb (a b : kelem) : bool :=
  match a, b with
  | KT x, KT y => match lexc char_cmp x y with Eq => true | _ => false end
  | KN x, KN y => (x =? y)%N
  | _, _ => false
  end.
Definition kelem_lt (a b : kelem) : res bool :=
  match a, b with
  | KT x, KT y => Ok match lexc char_cmp x y with Lt => true | _ => false end
  | KN x, KN y => Ok (x <? y)%N
  | _, _ => Raise TypeError
  end.
(** Python [<] of lists. *)
Fixpoint key_lt (a b : list kelem) : res bool :=
  match a, b with
  | [], [] => Ok false
  | [], _ :: _ => Ok true
  | _ :: _, [] => Ok false
  | x :: a', y :: b' => if kelem_eqb x y then key_lt a' b' else kelem_lt x y
  end.

(** list.sort: a stable sort that uses only [<]. *)
Fixpoint insert {A} (lt : A -> A -> res bool) (x : A) (l : list A) : res (list A) :=
  match l with
  | [] => Ok [x]
  | y :: t => do b <- lt x y; if b then Ok (x :: y :: t) else rmap (cons y) (insert lt x t)
  end%py.
Definition py_sort {A} (lt : A -> A -> res bool) (l : list A) : res (list A) := foldM (fun acc x => insert lt x acc) l [].

(** files.py:66-68; the keys are computed first, once per element. *)
Definition sort_file_list (l : list text) : res (list text) :=
  (do keyed <- mapM (fun s => rmap (fun k => (k, s)) (natural_keys s)) l;
   do sorted <- py_sort (fun a b => key_lt (fst a) (fst b)) keyed;
   Ok (map snd sorted))%py.

(** ** HV configuration, files.py:71-91 *)
Fixpoint text_eqb (a b : text) : bool :=
  match a, b with
  | [], [] => true
  | x :: a', y :: b' => Ascii.eqb x y && text_eqb a' b'
  | _, _ => false
  end.
Fixpoint strip (p s : text) : option text :=
  match p, s with
  | [], _ => Some s
  | x :: p', y :: s' => if Ascii.eqb x y then strip p' s' else None
  | _, _ => None
  end.
Fixpoint span_d (s : text) : text * text :=
  match s with
  | [] => ([], [])
  | c :: s' => if is_d c then let '(d, r) := span_d s' in (c :: d, r) else ([], s)
  end.
(** [\d+]: greedy; giving digits back never helps, a digit is followed by a non-digit in both patterns. *)
Definition digits1 (s : text) : option (text * text) := match span_d s with ([], _) => None | (d, r) => Some (d, r) end.

(** The pattern M:(\d+)/F/S:(\d+)\|<name>=(\d+) at the start of [s]. *)
Definition re_match (name s : text) : option (text * text * text) :=
  match strip (T "M:") s with None => None | Some s1 =>
  match digits1 s1 with None => None | Some (g1, s2) =>
  match strip (T "/F/S:") s2 with None => None | Some s3 =>
  match digits1 s3 with None => None | Some (g2, s4) =>
  match strip (T "|" ++ name ++ T "=") s4 with None => None | Some s5 =>
  match digits1 s5 with None => None | Some (g3, _) => Some (g1, g2, g3)
  end end end end end end.
(** re.search: the leftmost match. *)
Fixpoint re_search (name s : text) : option (text * text * text) :=
  match re_match name s with
  | Some m => Some m
  | None => match s with [] => None | _ :: s' => re_search name s' end
  end.

Fixpoint contains (p s : text) : bool :=
  match strip p s with Some _ => true | None => match s with [] => false | _ :: s' => contains p s' end end.

(** A 32 x 16 np.int16 array. *)
Definition array2 := list (list Z).
Definition zeros : array2 := repeat (repeat 0%Z 16) 32.
Definition wrap16 (z : Z) : Z := ((z + 32768) mod 65536 - 32768)%Z.
Fixpoint set_at {A} (l : list A) (i : nat) (f : A -> A) : list A :=
  match l, i with
  | [], _ => []
  | x :: t, O => f x :: t
  | x :: t, S i' => x :: set_at t i' f
  end.
Definition get2 (a : array2) (tm sp : nat) : Z := nth sp (nth tm a []) 0%Z.
Definition set2 (a : array2) (tm sp : N) (v : N) : res array2 :=
  if ((tm <? 32) && (sp <? 16))%N
  then Ok (set_at a (N.to_nat tm) (fun row => set_at row (N.to_nat sp) (fun _ => wrap16 (Z.of_N v))))
  else Raise IndexError.

Definition cfg_line (s : array2 * array2) (line : text) : res (array2 * array2) :=
  let '(dac, hvon) := s in
  let on := contains (T "HVOn") line in
  match re_search (if on then T "HVOn" else T "HV") line with
  | None => Ok s
  | Some (g1, g2, g3) =>
      (do tm <- py_int g1; do sp <- py_int g2; do v <- py_int g3;
       if on then rmap (fun a => (dac, a)) (set2 hvon tm sp v)
       else rmap (fun a => (a, hvon)) (set2 dac tm sp v))%py
  end.
Definition extract_hv_cfg (lines : list text) : res (array2 * array2) := foldM cfg_line lines (zeros, zeros).

(** ** PixelMasks *)
Record masks := Masks { dead : list bool; low : list bool; bad_hv : list bool }.
Record csv := Csv { header : list text; rows : list (list text) }.

(** [df[name].values] for a boolean column. *)
Fixpoint index_of (name : text) (h : list text) : option nat :=
  match h with [] => None | x :: t => if text_eqb x name then Some 0%nat else option_map S (index_of name t) end.
Definition parse_bool (t : text) : res bool :=
  if text_eqb t (T "True") then Ok true else if text_eqb t (T "False") then Ok false else Raise ValueError.
Definition column (f : csv) (name : text) : res (list bool) :=
  match index_of name (header f) with
  | None => Raise KeyError
  | Some i => mapM (fun r => match nth_error r i with Some t => parse_bool t | None => Raise ValueError end) (rows f)
  end.

(** [x.reshape((n, 4)).any(1)] *)
Fixpoint any4 (l : list bool) : list bool :=
  match l with a :: b :: c :: d :: t => (a || b || c || d) :: any4 t | _ => [] end.
Definition reshape_any (n : nat) (l : list bool) : res (list bool) :=
  if (List.length l =? 4 * n)%nat then Ok (any4 l) else Raise ValueError.
(** np.logical_or *)
Definition logical_or (a b : list bool) : res (list bool) :=
  if (List.length a =? List.length b)%nat then Ok (map (fun xy => fst xy || snd xy) (combine a b)) else Raise ValueError.
(** [np.repeat(l, k)] *)
Definition np_repeat {A} (l : list A) (k : nat) : list A := flat_map (fun x => repeat x k) l.

(** pixel_masks.py:41-52; [n_sp] is N_SUPERPIXELS (512). *)
Definition load_csv (n_sp : nat) (m : masks) (f : csv) (merge : bool) : res masks :=
  (do d <- column f (T "dead"); do l <- column f (T "low"); do h <- column f (T "bad_hv"); do h4 <- reshape_any n_sp h;
   if merge then
     do d' <- logical_or (dead m) d; do l' <- logical_or (low m) l; do h' <- logical_or (bad_hv m) h4; Ok (Masks d' l' h')
   else Ok (Masks d l h4))%py.

Definition show_bool (b : bool) : text := if b then T "True" else T "False".
(** str(int) *)
Definition show_N (n : N) : text := T (dec n).
(** pixel_masks.py:57-64; pandas refuses columns of different lengths. *)
Definition to_csv (m : masks) : res csv :=
  let hv := np_repeat (bad_hv m) 4 in
  let n := List.length (dead m) in
  if ((List.length (low m) =? n) && (List.length hv =? n))%nat then
    Ok (Csv [T "pixel"; T "dead"; T "low"; T "bad_hv"]
       (map (fun i => [show_N (N.of_nat i); show_bool (nth i (dead m) false); show_bool (nth i (low m) false); show_bool (nth i hv false)]) (seq 0 n)))
  else Raise ValueError.

(** pixel_masks.py:74-78 *)
Definition all_mask (m : masks) : res (list bool) :=
  (do dl <- logical_or (dead m) (low m); logical_or dl (np_repeat (bad_hv m) 4))%py.

(** *** Committed files, pixel_masks.py:36-39,66-72. The directory maps file names to contents; [listing] is the order in
    which glob returns the names; [prefix] is get_calib_data("pixel_masks/"). *)
Record clock := Clock { year : N; month : N; day : N; hour : N; minute : N }.
(** Two digits, for numbers below 100. *)
Definition pad2 (n : N) : text := [ascii_of_N (48 + n / 10); ascii_of_N (48 + n mod 10)].
(** strftime("d%y%m%dT%H%M") *)
Definition stamp (t : clock) : text :=
  T "d" ++ pad2 (year t mod 100) ++ pad2 (month t) ++ pad2 (day t) ++ T "T" ++ pad2 (hour t) ++ pad2 (minute t).
Definition file_name (t : clock) : text := stamp t ++ T ".dat".

Definition folder := list (text * csv).
Fixpoint fget (d : folder) (name : text) : option csv :=
  match d with [] => None | (k, v) :: t => if text_eqb k name then Some v else fget t name end.
Fixpoint fset (d : folder) (name : text) (v : csv) : folder :=
  match d with [] => [(name, v)] | (k, w) :: t => if text_eqb k name then (k, v) :: t else (k, w) :: fset t name v end.

Definition commit (d : folder) (now : clock) (m : masks) : res folder :=
  (do f <- to_csv m; Ok (fset d (file_name now) f))%py.

(** PixelMasks(): pixel_masks.py:31-39 then the load. *)
Definition new_masks (n_sp : nat) (prefix : text) (d : folder) (listing : list text) : res masks :=
  (do paths <- sort_file_list (map (fun n => prefix ++ n) listing);
   match rev paths with
   | [] => Raise IndexError
   | path :: _ =>
       match strip prefix path with
       | None => Raise FileNotFoundError
       | Some name => match fget d name with
                      | None => Raise FileNotFoundError
                      | Some f => load_csv n_sp (Masks (repeat false (4 * n_sp)) (repeat false (4 * n_sp)) (repeat false n_sp)) f false
                      end
       end
   end)%py.

(** *** pixel_masks.py:80-90 *)
Definition expand (k : nat) (l : list Z) : list Z :=
  let rep := np_repeat l k in
  map (fun xi => fst xi * Z.of_nat k + Z.of_nat (snd xi mod k))%Z (combine rep (seq 0 (List.length rep))).
Definition convert_superpixels_to_pixels (l : list Z) : list Z := expand 4 l.
Definition convert_module_to_pixels (l : list Z) : list Z := expand 64 l.
