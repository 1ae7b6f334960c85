(** Model of the paths of run lists, CHECLabPy/utils/files.py:31-50.

    Simplifications:
    - the lines of the run list are what pandas yields: an index (integer or not) and the other columns, kept as they are;
    - text is Latin-1, paths are POSIX paths;
    - str.format: conversions (!r), attributes and items of an argument, and fields inside a format
      specification are refused with ValueError; all of these are followed by an error of Python anyway, because the
      template ends with one more automatic field;
    - opening a file is a function from its path to a reader or an exception. *)
From Coq Require Import List ZArith NArith Bool Arith String Ascii.
From Verif.Base Require Import Py Str.
From Verif.Files Require Import Model.
Import ListNotations.
Local Open Scope list_scope.

Definition is_char (c d : ascii) : bool := (code c =? code d)%N.
Definition is_slash (c : ascii) : bool := is_char c "/"%char.
Fixpoint drop_while (f : ascii -> bool) (t : text) : text := match t with [] => [] | c :: r => if f c then drop_while f r else t end.
(** os.path.dirname: what precedes the last slash, without the slashes at its end unless there is nothing else. *)
Definition dirname (p : text) : text :=
  let head := rev (drop_while (fun c => negb (is_slash c)) (rev p)) in
  if forallb is_slash head then head else rev (drop_while is_slash (rev head)).
(** os.path.join of two paths *)
Definition join (a b : text) : text :=
  if match b with c :: _ => is_slash c | [] => false end then b
  else match rev a with [] => b | c :: _ => if is_slash c then a ++ b else a ++ "/"%char :: b end.

(** ** str.format *)
(** An element of the index: an integer, or a float or text, which the format code d refuses. *)
Inductive index := Int (z : Z) | NotInt.
Definition zfill (w : nat) (t : text) : text := repeat "0"%char (w - List.length t) ++ t.
(** format(z, "05d") *)
Definition pad05 (z : Z) : text := if (z <? 0)%Z then "-"%char :: zfill 4 (T (dec (Z.to_N (- z)))) else zfill 5 (T (dec (Z.to_N z))).
Definition str_int (z : Z) : text := if (z <? 0)%Z then "-"%char :: T (dec (Z.to_N (- z))) else T (dec (Z.to_N z)).
Definition apply_spec (i : index) (spec : text) : res text :=
  match i with
  | Int z => if text_eqb spec (T "05d") then Ok (pad05 z) else match spec with [] => Ok (str_int z) | _ => Raise ValueError end
  | NotInt => Raise ValueError
  end.
(** Numbering of the fields so far: none, automatic up to [n], or by hand. *)
Inductive numbering := Fresh | Auto (n : nat) | Manual.
Fixpoint split_colon (t : text) : text * text :=
  match t with
  | [] => ([], [])
  | c :: r => if is_char c ":"%char then ([], r) else let (a, b) := split_colon r in (c :: a, b)
  end.
Definition field (args : list index) (st : numbering) (f : text) : res (numbering * text) :=
  let (name, spec) := split_colon f in
  let get n st' := match nth_error args n with Some i => rmap (fun s => (st', s)) (apply_spec i spec) | None => Raise IndexError end in
  match name with
  | [] => match st with Fresh => get 0%nat (Auto 1) | Auto n => get n (Auto (S n)) | Manual => Raise ValueError end
  | _ => if forallb is_d name then match st with Auto _ => Raise ValueError | _ => get (N.to_nat (digits_val name)) Manual end else Raise KeyError
  end.
(** [f]: the field being read, backwards. *)
Fixpoint fmt (args : list index) (st : numbering) (f : option text) (t : text) : res text :=
  match f with
  | None =>
      match t with
      | [] => Ok []
      | c :: r =>
          if is_char c "{"%char then
            match r with
            | d :: r' => if is_char d "{"%char then rmap (cons c) (fmt args st None r') else fmt args st (Some []) r
            | [] => Raise ValueError
            end
          else if is_char c "}"%char then
            match r with
            | d :: r' => if is_char d "}"%char then rmap (cons c) (fmt args st None r') else Raise ValueError
            | [] => Raise ValueError
            end
          else rmap (cons c) (fmt args st None r)
      end
  | Some g =>
      match t with
      | [] => Raise ValueError
      | c :: r =>
          if is_char c "}"%char then bind (field args st (rev g)) (fun x => rmap (app (snd x)) (fmt args (fst x) None r))
          else if is_char c "{"%char then Raise ValueError
          else fmt args st (Some (c :: g)) r
      end
  end.
Definition format (template : text) (args : list index) : res text := fmt args Fresh None template.

(** ** The run lists *)
(** files.py:35-36 with "_r1.tio", 46-47 with "_dl1.h5" *)
Definition run_path (suffix path : text) (i : index) : res text := format (join (dirname path) (T "Run{:05d}" ++ suffix)) [i].
(** open_runlist_r1, open_runlist_dl1, files.py:31-50: all paths first, then the readers. *)
Definition open_runlist {B R} (suffix : text) (open : text -> res R) (open_readers : bool) (path : text) (rows : list (index * B)) : res (list (index * B * text * option R)) :=
  bind (mapM (fun r => run_path suffix path (fst r)) rows) (fun paths =>
  bind (if open_readers then mapM (fun p => rmap Some (open p)) paths else Ok (map (fun _ => None) paths)) (fun readers =>
  Ok (combine (combine rows paths) readers))).
Definition r1 : text := T "_r1.tio".
Definition dl1 : text := T "_dl1.h5".
