(** Notions in which the properties of the figures are stated.  Independent of how the code does it. *)
From Coq Require Import List String Ascii Bool.
From Verif.Base Require Import Py.
From Verif.Files Require Import Model.
From Verif.Plots Require Import ModelFigures.
Import ListNotations.
Local Open Scope list_scope.

(** A disk: the working directory exists, and whatever exists lies in a directory. *)
Definition sound {M} (d : disk M) : Prop := d [] = Some Dir /\ forall k n, d (k ++ [n]) <> None -> d k = Some Dir.
(** [k] is a directory or could be made one: neither it nor what it lies in is a file. *)
Definition free {M} (k : list text) (d : disk M) : Prop := forall a b, k = a ++ b -> forall c, d a <> Some (File c).
Definition inside (q k : list text) : Prop := exists rest, k = q ++ rest.
(** A stem that is not just dots. *)
Definition stem (t : text) : Prop := exists c, In c t /\ c <> "."%char.
Definition dotless (t : text) : Prop := ~ In "."%char t.
(** Figures that are open were created, and nothing is drawn on those to come. *)
Definition ready {M} (w : world M) : Prop := sound (files w) /\ (forall g, In g (figs w) -> g < next w) /\ (forall g, next w <= g -> drawn w g = []).
(** What a program does to a plot between making and saving it: [true] on self.ax, [false] on the rest of self.fig. *)
Definition drawing {M} (p : plotter) (steps : list (bool * M)) (w : world M) : world M :=
  fold_left (fun w s => if fst s : bool then on_ax p (snd s) w else on_fig p (snd s) w) steps w.
(** The classes whose self.ax is on the figure that is saved. *)
Definition one_figure (k : kind) : bool := match k with SpeCamera | ModuleWaveforms | PixelWaveforms => false | _ => true end.
(** The classes that take the argument ax and draw there. *)
Definition takes_ax (k : kind) : bool := match k with Plain | Camera | Imshow => true | _ => false end.
(** The settings that every plot sets. *)
Definition styled : list string :=
  ["font.size"; "axes.titlesize"; "axes.labelsize"; "legend.fontsize"; "axes.prop_cycle"; "xtick.labelsize"; "xtick.direction"; "xtick.major.size";
   "xtick.major.width"; "xtick.minor.size"; "xtick.minor.width"; "xtick.minor.visible"; "xtick.top"; "ytick.labelsize"; "ytick.direction"; "ytick.major.size";
   "ytick.major.width"; "ytick.minor.size"; "ytick.minor.width"; "ytick.minor.visible"; "ytick.right"; "axes.linewidth"; "grid.linewidth";
   "lines.linewidth"; "savefig.bbox"; "savefig.pad_inches"; "figure.figsize"; "lines.markeredgewidth"]%string.
(** The states that programs made of these plots reach. *)
Inductive reached {M} (pypdf : bool) : world M -> Prop :=
| Start : forall s d, sound d -> reached pypdf {| figs := []; next := 0; drawn := fun _ => []; rc := s; files := d |}
| Made : forall k o w, reached pypdf w -> match o_ax o with Some f => f < next w | None => True end -> reached pypdf (fst (make k o w))
| Drew : forall p steps w, reached pypdf w -> p_fig p < next w -> p_ax p < next w -> reached pypdf (drawing p steps w)
| Saved : forall p out w w', reached pypdf w -> save pypdf p out w = Ok w' -> reached pypdf w'.
