(** Model of plotting/setup.py, of the saving and cropping of plotting/camera.py:84-109, of the constructors of the plots
    (plotting/camera.py:28-34, 361-362, plotting/spe.py:5-12, plotting/waveform.py:30, 54-61, 192-205,
    scripts/plot_spe.py:14-24), of utils/files.py:7-11 and of the loop of scripts/plot_spe.py:66-103.  Definitions only.

    Simplifications:
    - a path is the list of its directories and a base name, starting at the working directory; ".", ".." and repeated
      slashes are not modelled, base names contain something else than dots;
    - a figure is a number that is never used twice, what is drawn on it is a list of marks in the order of drawing;
      axes are identified with the figure they are on;
    - the values of the style are kept as they are written; the size of a figure by the scale given to golden_figsize;
    - finish, which sets the labels of the axes, draws nothing; printing is left out;
    - matplotlib's savefig (print_figure) chooses the format by the extension of the path in small letters; without an extension
      it writes png and adds ".png" to the path; unknown formats are refused with ValueError;
    - PyPDF2 is there or not; it can crop what savefig wrote. *)
From Coq Require Import List ZArith QArith Bool Arith String Ascii NArith.
From Verif.Base Require Import Py Str.
From Verif.Files Require Import Model.
Import ListNotations.
Local Open Scope list_scope.

(** ** Paths *)
Definition dots (t : text) : bool := forallb (fun c => Ascii.eqb c "."%char) t.
(** What precedes the last dot, and that dot with what follows it; None without a dot. *)
Fixpoint last_dot (t : text) : option (text * text) :=
  match t with
  | [] => None
  | c :: r => match last_dot r with
              | Some (a, b) => Some (c :: a, b)
              | None => if Ascii.eqb c "."%char then Some ([], t) else None
              end
  end.
(** os.path.splitext of a base name: dots at its start do not begin an extension. *)
Definition splitext (t : text) : text * text :=
  match last_dot t with Some (a, b) => if dots a then (t, []) else (a, b) | None => (t, []) end.
(** str.lower on the letters A-Z *)
Definition lower (t : text) : text := map (fun c => let n := N_of_ascii c in if ((65 <=? n) && (n <=? 90))%N then ascii_of_N (n + 32) else c) t.
Fixpoint ends_with (suffix t : text) : bool := text_eqb t suffix || match t with [] => false | _ :: r => ends_with suffix r end.
(** str.rstrip(".") *)
Fixpoint strip (t : text) : text := match t with [] => [] | c :: r => if dots t then [] else c :: strip r end.
Definition path := (list text * text)%type.
Definition whole (p : path) : list text := fst p ++ [snd p].

(** ** The disk *)
Inductive content (M : Type) := Pic (marks : list M) | Cropped (c : content M).
Arguments Pic {M}. Arguments Cropped {M}.
Inductive node (M : Type) := Dir | File (c : content M).
Arguments Dir {M}. Arguments File {M}.
Definition disk (M : Type) := list text -> option (node M).
Fixpoint same (a b : list text) : bool := match a, b with [], [] => true | x :: a', y :: b' => text_eqb x y && same a' b' | _, _ => false end.
Definition put {M} (k : list text) (n : node M) (d : disk M) : disk M := fun q => if same q k then Some n else d q.
Definition present {M} (k : list text) (d : disk M) : bool := match d k with Some _ => true | None => false end.
Definition mkdir {M} (k : list text) (d : disk M) : res (disk M) :=
  match d k, d (removelast k) with None, Some Dir => Ok (put k Dir d) | _, _ => Raise IOError end.
(** os.makedirs; the components in reverse order. *)
Fixpoint makedirs {M} (r : list text) (d : disk M) : res (disk M) :=
  match r with
  | [] => Raise IOError
  | _ :: h => bind (match h with [] => Ok d | _ => if present (rev h) d then Ok d else makedirs h d end) (fun d' => mkdir (rev r) d')
  end.
(** utils/files.py:7-11 *)
Definition create_directory {M} (k : list text) (d : disk M) : res (disk M) :=
  match k with [] => Ok d | _ => if present k d then Ok d else makedirs (rev k) d end.
(** open(path, "wb") and writing *)
Definition write {M} (p : path) (c : content M) (d : disk M) : res (disk M) :=
  match d (fst p), d (whole p) with
  | Some Dir, Some Dir => Raise IOError
  | Some Dir, _ => Ok (put (whole p) (File c) d)
  | _, _ => Raise IOError
  end.
Definition read {M} (p : path) (d : disk M) : res (content M) :=
  match d (whole p) with Some (File c) => Ok c | Some Dir => Raise IOError | None => Raise FileNotFoundError end.

(** ** matplotlib *)
Definition formats : list text := map T ["eps"; "jpg"; "jpeg"; "pdf"; "pgf"; "png"; "ps"; "raw"; "rgba"; "svg"; "svgz"; "tif"; "tiff"]%string.
(** The file that Figure.savefig writes to. *)
Definition savefig_target (p : path) : res path :=
  match tl (snd (splitext (snd p))) with
  | [] => Ok (fst p, strip (snd p) ++ T ".png")
  | e => if existsb (text_eqb (lower e)) formats then Ok p else Raise ValueError
  end.
Definition savefig {M} (p : path) (marks : list M) (d : disk M) : res (disk M) := bind (savefig_target p) (fun q => write q (Pic marks) d).

Inductive rcv := Num (q : Q) | Word (s : string) | Flag (b : bool) | Colors (s : string) | Size (scale : Q).
Definition style := dict rcv.
Record world (M : Type) := { figs : list nat; next : nat; drawn : nat -> list M; rc : style; files : disk M }.
Arguments figs {M}. Arguments next {M}. Arguments drawn {M}. Arguments rc {M}. Arguments files {M}.
(** plt.figure *)
Definition new_figure {M} (w : world M) : world M * nat :=
  ({| figs := figs w ++ [next w]; next := S (next w); drawn := drawn w; rc := rc w; files := files w |}, next w).
(** plt.close(fig) *)
Definition close {M} (f : nat) (w : world M) : world M :=
  {| figs := filter (fun g => negb (Nat.eqb g f)) (figs w); next := next w; drawn := drawn w; rc := rc w; files := files w |}.
Definition draw {M} (f : nat) (m : M) (w : world M) : world M :=
  {| figs := figs w; next := next w; drawn := fun g => if Nat.eqb g f then drawn w g ++ [m] else drawn w g; rc := rc w; files := files w |}.
(** mpl.rcParams.update *)
Definition restyle {M} (s : style) (w : world M) : world M :=
  {| figs := figs w; next := next w; drawn := drawn w; rc := dupdate (rc w) s; files := files w |}.
Definition with_files {M} (d : disk M) (w : world M) : world M :=
  {| figs := figs w; next := next w; drawn := drawn w; rc := rc w; files := d |}.

(** ** Plotter, plotting/setup.py *)
Record options := { o_ax : option nat; o_side : bool; o_talk : bool }.
Definition default : options := {| o_ax := None; o_side := false; o_talk := false |}.
(** setup.py:94-98 *)
Definition get_figsize (side : bool) : rcv := Size (if side then 6 # 10 else 9 # 10).
(** setup.py:24-60 *)
Definition base_style (side : bool) : style :=
  [ ("font.size", Num 8); ("axes.titlesize", Num 8); ("axes.labelsize", Num 8); ("legend.fontsize", Num 6); ("axes.prop_cycle", Colors "Dark2");
    ("xtick.labelsize", Num 8); ("xtick.direction", Word "in"); ("xtick.major.size", Num 3); ("xtick.major.width", Num (1 # 2));
    ("xtick.minor.size", Num (3 # 2)); ("xtick.minor.width", Num (1 # 2)); ("xtick.minor.visible", Flag true); ("xtick.top", Flag true);
    ("ytick.labelsize", Num 8); ("ytick.direction", Word "in"); ("ytick.major.size", Num 3); ("ytick.major.width", Num (1 # 2));
    ("ytick.minor.size", Num (3 # 2)); ("ytick.minor.width", Num (1 # 2)); ("ytick.minor.visible", Flag true); ("ytick.right", Flag true);
    ("axes.linewidth", Num (1 # 2)); ("grid.linewidth", Num (1 # 2)); ("lines.linewidth", Num 1);
    ("savefig.bbox", Word "tight"); ("savefig.pad_inches", Num (5 # 100)); ("figure.figsize", get_figsize side); ("lines.markeredgewidth", Num 1) ]%string.
(** setup.py:63-72 *)
Definition talk_style : style :=
  [ ("font.family", Word "Latin Modern Roman"); ("xtick.labelsize", Num 12); ("ytick.labelsize", Num 12); ("font.size", Num 12);
    ("axes.titlesize", Num 12); ("axes.labelsize", Num 12); ("legend.fontsize", Num 10); ("lines.markeredgewidth", Num 1) ]%string.
(** setup.py:24-73 *)
Definition own_style (o : options) : style := if o_talk o then dupdate (base_style (o_side o)) talk_style else base_style (o_side o).

(** The classes: Plotter and those that do not change its constructor (WaveformPlotter, the charge resolution plots, SPEHist),
    CameraImage, CameraImageImshow, SpectrumFitPlotter, SPECamera, CameraTMWaveformPlotter, CameraPixelWaveformPlotter. *)
Inductive kind := Plain | Camera | Imshow | SpectrumFit | SpeCamera | ModuleWaveforms | PixelWaveforms.
(** self.fig and the figure of self.ax *)
Record plotter := { p_kind : kind; p_fig : nat; p_ax : nat }.
(** setup.py:9-81 *)
Definition init {M} (o : options) (w : world M) : world M * nat :=
  let w := restyle (own_style o) w in
  match o_ax o with Some f => (w, f) | None => new_figure w end.
(** camera.py:28-34 *)
Definition init_camera {M} (o : options) (w : world M) : world M * nat :=
  let (w, f) := init o w in (restyle [("xtick.direction", Word "out"); ("ytick.direction", Word "out")]%string w, f).
Definition make {M} (k : kind) (o : options) (w : world M) : world M * plotter :=
  match k with
  | Plain | Imshow => let (w, f) := init o w in (w, {| p_kind := k; p_fig := f; p_ax := f |})
  | Camera => let (w, f) := init_camera o w in (w, {| p_kind := k; p_fig := f; p_ax := f |})
  | SpectrumFit => (* spe.py:6-12 *)
      let (w, f) := init o w in let (w, g) := new_figure (close f w) in (w, {| p_kind := k; p_fig := g; p_ax := g |})
  | SpeCamera => (* plot_spe.py:15-22; the two camera images are on the second figure *)
      let (w, f) := init default w in let (w, g) := new_figure w in
      let on_g := {| o_ax := Some g; o_side := false; o_talk := false |} in
      let (w, _) := init_camera on_g w in let (w, _) := init_camera on_g w in (w, {| p_kind := k; p_fig := g; p_ax := f |})
  | ModuleWaveforms => (* waveform.py:56-61 *)
      let (w, f) := init default w in let (w, g) := new_figure w in (w, {| p_kind := k; p_fig := g; p_ax := f |})
  | PixelWaveforms => (* waveform.py:194-205 *)
      let (w, f) := init default w in let (w, g) := new_figure (restyle [("axes.linewidth", Num (1 # 10))]%string w) in (w, {| p_kind := k; p_fig := g; p_ax := f |})
  end.
(** Something drawn on self.ax: add_legend (setup.py:104-105), add, plot, hist, text. *)
Definition on_ax {M} (p : plotter) (m : M) (w : world M) : world M := draw (p_ax p) m w.
(** Something drawn on the other axes of self.fig. *)
Definition on_fig {M} (p : plotter) (m : M) (w : world M) : world M := draw (p_fig p) m w.
(** setup.py:114-120 *)
Definition save_plain {M} (p : plotter) (out : path) (w : world M) : res (world M) :=
  bind (create_directory (fst out) (files w)) (fun d =>
  bind (savefig out (drawn w (p_fig p)) d) (fun d => Ok (close (p_fig p) (with_files d w)))).
(** camera.py:106 *)
Definition cropped (out : path) : path := (fst out, fst (splitext (snd out)) ++ T "_cropped.pdf").
(** camera.py:91-109 *)
Definition crop {M} (pypdf : bool) (out : path) (d : disk M) : res (disk M) :=
  if pypdf then bind (read out d) (fun c => write (cropped out) (Cropped c) d) else Raise ModuleNotFound.
(** camera.py:84-89 *)
Definition save_camera {M} (pypdf : bool) (p : plotter) (out : path) (w : world M) : res (world M) :=
  bind (save_plain p out w) (fun w =>
  if ends_with (T ".pdf") (snd out) then
    match crop pypdf out (files w) with Ok d => Ok (with_files d w) | Raise ModuleNotFound => Ok w | Raise e => Raise e end
  else Ok w).
Definition save {M} (pypdf : bool) (p : plotter) (out : path) (w : world M) : res (world M) :=
  match p_kind p with Camera => save_camera pypdf p out w | _ => save_plain p out w end.

(** ** scripts/plot_spe.py:66-103 *)
Inductive mark := Images (column : text) | Histogram (column : text) | Spectrum (pixel : N).
Definition camera_file (column : text) : text := T "camera_" ++ column ++ T ".pdf".
Definition hist_file (column : text) : text := T "hist_" ++ column ++ T ".pdf".
Definition spectrum_file (pixel : N) : text := T "spectrum_p" ++ T (dec pixel) ++ T ".pdf".
Definition plot_column (pypdf : bool) (out : list text) (w : world mark) (column : text) : res (world mark) :=
  let (w, p) := make SpeCamera default w in
  bind (save pypdf p (out, camera_file column) (on_fig p (Images column) w)) (fun w =>
  let (w, p) := make Plain default w in
  save pypdf p (out, hist_file column) (on_ax p (Histogram column) w)).
Definition plot_spe (pypdf : bool) (out : option (list text)) (columns : list text) (pixel : N) (w : world mark) : res (world mark) :=
  match out with
  | None => Raise TypeError
  | Some out =>
      bind (foldM (plot_column pypdf out) columns w) (fun w =>
      let (w, p) := make SpectrumFit default w in
      save pypdf p (out, spectrum_file pixel) (on_ax p (Spectrum pixel) w))
  end.
