(** C98: the figures that the plots leave on the disk and in memory, and their style. *)
From Coq Require Import List ZArith QArith Bool Arith String Ascii NArith Lia.
From Verif.Base Require Import Py PyFacts Str.
From Verif.Files Require Import Model Proofs2.
From Verif.Plots Require Import ModelFigures SpecFigures ProofsFigures.
Import ListNotations.
Local Open Scope list_scope.
Local Open Scope nat_scope.

(** Saving at a path with a known extension writes the picture to that path, makes the directories it lies in, changes nothing
    else on the disk, closes this figure and no other.  (Camera images: C98_cropped.) *)
Theorem C98_saved : forall M pypdf p dir name ext (w : world M), sound (files w) -> stem name -> dotless ext -> In (lower ext) formats -> (p_kind p = Camera -> ext <> T "pdf" \/ pypdf = false) ->
  let out := (dir, name ++ "."%char :: ext) in free dir (files w) -> files w (dir ++ [name ++ "."%char :: ext]) <> Some Dir ->
  exists w', save pypdf p out w = Ok w' /\ sound (files w') /\ files w' (dir ++ [name ++ "."%char :: ext]) = Some (File (Pic (drawn w (p_fig p)))) /\
    (forall q, inside q dir -> files w' q = Some Dir) /\ (forall q, q <> dir ++ [name ++ "."%char :: ext] -> ~ inside q dir -> files w' q = files w q) /\
    (forall g, In g (figs w') <-> In g (figs w) /\ g <> p_fig p) /\ drawn w' = drawn w /\ rc w' = rc w.
Proof.
  intros M pypdf p dir name ext w S ST DL F C out FR ND. assert (TG : savefig_target out = Ok out) by now apply target_known.
  destruct (save_plain_ok M p out w S FR ND TG) as (w' & E & (A1 & A2 & A3 & A4) & W).
  assert (SV : save pypdf p out w = Ok w').
  { unfold save. destruct (p_kind p); auto. unfold save_camera. rewrite E. cbn [bind]. destruct (ends_with _ _) eqn:EN; [|reflexivity].
    apply (ends_pdf name ext DL) in EN. destruct (C eq_refl) as [X| ->]; [now elim X|reflexivity]. }
  exists w'. split; [exact SV|]. split; [exact A1|]. split; [exact A2|]. split; [exact A3|]. split; [exact A4|]. rewrite W. cbn [figs close with_files drawn rc]. split; [|auto].
  intros g. rewrite filter_In. destruct (Nat.eqb_spec g (p_fig p)); cbn; intuition congruence.
Qed.
Print Assumptions C98_saved.

(** With a file in the place of a directory, a directory in the place of the file, or an unknown extension, saving raises. *)
Theorem C98_refused : forall M pypdf p dir name ext (w : world M), sound (files w) -> stem name -> dotless ext -> ext <> [] ->
  (exists a c, inside a dir /\ files w a = Some (File c)) \/ files w (dir ++ [name ++ "."%char :: ext]) = Some Dir \/ ~ In (lower ext) formats ->
  exists e, save pypdf p (dir, name ++ "."%char :: ext) w = Raise e.
Proof.
  intros M pypdf p dir name ext w S ST DL NE H.
  assert (P : exists e, save_plain p (dir, name ++ "."%char :: ext) w = Raise e).
  { destruct H as [(a & c & I & A)|H]; [now apply (save_plain_blocked M p _ w a c)|].
    destruct (in_dec (list_eq_dec ascii_dec) (lower ext) formats) as [F|F].
    - destruct H as [H|H]; [|now elim H]. unfold save_plain. destruct (create_directory _ _) as [d1|e1] eqn:C; [|now exists e1]. cbn [bind].
      unfold savefig. rewrite target_known by auto. cbn [bind]. assert (D : files w dir = Some Dir) by (apply (proj2 S dir (name ++ "."%char :: ext)); unfold text in *; rewrite H; discriminate).
      assert (C1 : create_directory dir (files w) = Ok (files w)) by (unfold create_directory; destruct dir; auto; unfold present; now rewrite D).
      cbn [fst] in C. rewrite C1 in C. injection C as <-. unfold write, whole. cbn [fst snd]. unfold text in *. rewrite D, H. now eexists.
    - unfold save_plain. destruct (create_directory _ _) as [d1|e1]; [|now exists e1]. cbn [bind]. unfold savefig. rewrite target_unknown by auto. now eexists. }
  destruct P as (e & P). exists e. unfold save. destruct (p_kind p); auto. unfold save_camera. now rewrite P.
Qed.
Print Assumptions C98_refused.

(** Camera images saved as pdf: besides the picture there is its cropped copy next to it; nothing else is touched. *)
Theorem C98_cropped : forall M p dir name (w : world M), sound (files w) -> p_kind p = Camera -> stem name -> free dir (files w) ->
  let pic := dir ++ [name ++ T ".pdf"] in let crop := dir ++ [name ++ T "_cropped.pdf"] in files w pic <> Some Dir -> files w crop <> Some Dir ->
  exists w', save true p (dir, name ++ T ".pdf") w = Ok w' /\ sound (files w') /\ files w' pic = Some (File (Pic (drawn w (p_fig p)))) /\ files w' crop = Some (File (Cropped (Pic (drawn w (p_fig p))))) /\
    (forall q, inside q dir -> files w' q = Some Dir) /\ (forall q, q <> pic -> q <> crop -> ~ inside q dir -> files w' q = files w q) /\
    (forall g, In g (figs w') <-> In g (figs w) /\ g <> p_fig p).
Proof.
  intros M p dir name w S K ST FR pic crp N1 N2. set (out := (dir, name ++ T ".pdf")).
  assert (TG : savefig_target out = Ok out) by (apply target_known; auto; [apply pdf_dotless|cbn; tauto]).
  destruct (save_plain_ok M p out w S FR N1 TG) as (w1 & E & (A1 & A2 & A3 & A4) & W).
  assert (SX : splitext (name ++ T ".pdf") = (name, T ".pdf")) by (apply (splitext_app name (T "pdf")); auto; apply pdf_dotless).
  assert (CR : cropped out = (dir, name ++ T "_cropped.pdf")) by (unfold cropped, out; cbn [fst snd]; now rewrite SX).
  assert (NE : crp <> pic). { unfold crp, pic. intros C. apply app_inj_tail in C as [_ C]. apply app_inv_head in C. discriminate. }
  assert (NI : ~ inside crp dir) by apply (not_inside_whole (dir, name ++ T "_cropped.pdf")).
  assert (D1 : files w1 dir = Some Dir) by (apply A3; exists []; now rewrite app_nil_r).
  assert (N3 : files w1 (whole (cropped out)) <> Some Dir) by (rewrite CR; change (whole (dir, name ++ T "_cropped.pdf")) with crp; rewrite A4; auto).
  destruct (stored_again M (cropped out) (Cropped (Pic (drawn w (p_fig p)))) (files w1) A1) as (d2 & W2 & (B1 & B2 & B3 & _) & B4); [now rewrite CR|exact N3|].
  rewrite CR in B2, B3, B4. change (whole (dir, name ++ T "_cropped.pdf")) with crp in B2, B4. cbn [fst] in B3.
  exists (with_files d2 w1). split; [|split; [exact B1|split; [|split; [exact B2|split; [exact B3|split]]]]].
  - unfold save. rewrite K. unfold save_camera. rewrite E. cbn [bind]. change (snd out) with (name ++ "."%char :: T "pdf"). rewrite (proj2 (ends_pdf name (T "pdf") pdf_dotless) eq_refl).
    unfold ModelFigures.crop, read. rewrite A2. cbn [bind]. now rewrite W2.
  - cbn [files with_files]. rewrite B4 by (intro X; now apply NE). exact A2.
  - intros q Q1 Q2 I. cbn [files with_files]. rewrite B4 by auto. now apply A4.
  - cbn [figs with_files]. rewrite W. cbn [figs close with_files]. intros g. rewrite filter_In. destruct (Nat.eqb_spec g (p_fig p)); cbn; intuition congruence.
Qed.
Print Assumptions C98_cropped.

(** Two images saved at different paths: all four files are there, unless one is saved under the name of the other's copy. *)
Lemma camera_needs : forall M p dir name (w w' : world M), sound (files w) -> p_kind p = Camera -> stem name -> save true p (dir, name ++ T ".pdf") w = Ok w' ->
  free dir (files w) /\ files w (whole (dir, name ++ T ".pdf")) <> Some Dir /\ files w (whole (dir, name ++ T "_cropped.pdf")) <> Some Dir.
Proof.
  intros M p dir name w w' S K ST E. set (out := (dir, name ++ T ".pdf")) in *.
  assert (TG : savefig_target out = Ok out) by (apply target_known; auto; [apply pdf_dotless|cbn; tauto]).
  unfold save in E. rewrite K in E. unfold save_camera in E. destruct (save_plain p out w) as [w1|e1] eqn:P; [|discriminate]. cbn [bind] in E.
  assert (F : free dir (files w)).
  { intros a b D c A. destruct (save_plain_blocked M p out w a c S) as (e & R); auto; [now exists b|]. rewrite R in P. discriminate. }
  assert (N : files w (whole out) <> Some Dir).
  { intros C. rewrite (save_plain_dir M p out w S F C TG) in P. discriminate. }
  split; [exact F|]. split; [exact N|]. intros C. destruct (save_plain_ok M p out w S F N TG) as (w2 & R & (B1 & B2 & B3 & B4) & _). rewrite R in P. injection P as ->.
  change (snd out) with (name ++ "."%char :: T "pdf") in E. rewrite (proj2 (ends_pdf name (T "pdf") pdf_dotless) eq_refl) in E.
  unfold ModelFigures.crop, read in E. rewrite B2 in E. cbn [bind] in E.
  assert (SX : splitext (name ++ T ".pdf") = (name, T ".pdf")) by (apply (splitext_app name (T "pdf")); auto; apply pdf_dotless).
  assert (CR : cropped out = (dir, name ++ T "_cropped.pdf")) by (unfold cropped, out; cbn [fst snd]; now rewrite SX). rewrite CR in E.
  unfold write in E. cbn [fst] in E. rewrite (B3 dir) in E by (exists []; now rewrite app_nil_r).
  rewrite B4 in E; [rewrite C in E; discriminate| |apply (not_inside_whole (dir, name ++ T "_cropped.pdf"))]. unfold whole. cbn [fst snd out]. intros Y. apply app_inj_tail in Y as [_ Y]. apply app_inv_head in Y. discriminate.
Qed.
Theorem C98_two_images : forall M p1 p2 (d1 d2 : list text) (n1 n2 : text) (w w1 w2 : world M), sound (files w) -> p_kind p1 = Camera -> p_kind p2 = Camera -> stem n1 -> stem n2 ->
  (d1, n1) <> (d2, n2) -> (d1, n1) <> (d2, n2 ++ T "_cropped") -> (d2, n2) <> (d1, n1 ++ T "_cropped") ->
  save true p1 (d1, n1 ++ T ".pdf") w = Ok w1 -> save true p2 (d2, n2 ++ T ".pdf") w1 = Ok w2 ->
  files w2 (d1 ++ [n1 ++ T ".pdf"]) = Some (File (Pic (drawn w (p_fig p1)))) /\ files w2 (d1 ++ [n1 ++ T "_cropped.pdf"]) = Some (File (Cropped (Pic (drawn w (p_fig p1))))) /\
  files w2 (d2 ++ [n2 ++ T ".pdf"]) = Some (File (Pic (drawn w (p_fig p2)))) /\ files w2 (d2 ++ [n2 ++ T "_cropped.pdf"]) = Some (File (Cropped (Pic (drawn w (p_fig p2))))).
Proof.
  intros M p1 p2 d1 d2 n1 n2 w w1 w2 S K1 K2 ST1 ST2 X1 X2 X3 E1 E2.
  assert (CRP : forall n : text, n ++ T "_cropped.pdf" = (n ++ T "_cropped") ++ T ".pdf") by (intros n; now rewrite <- app_assoc).
  assert (KEY : forall (d d' : list text) (n n' : text), d ++ [n ++ T ".pdf"] = d' ++ [n' ++ T ".pdf"] -> (d, n) = (d', n')).
  { intros d d' n n' E. apply app_inj_tail in E as [-> E]. apply app_inv_tail in E. now subst. }
  destruct (camera_needs M p1 d1 n1 w w1 S K1 ST1 E1) as (F1 & P1 & Q1).
  destruct (C98_cropped M p1 d1 n1 w S K1 ST1 F1 P1 Q1) as (w1' & A & S1 & A1 & A2 & A3 & A4 & _).
  assert (W : w1' = w1) by (assert (Y : Ok w1' = Ok w1) by (etransitivity; [symmetry; exact A|exact E1]); now injection Y). subst w1'.
  assert (DR : drawn w1 = drawn w) by (apply save_inv in A; rewrite A; reflexivity).
  destruct (camera_needs M p2 d2 n2 w1 w2 S1 K2 ST2 E2) as (F2 & P2 & Q2).
  destruct (C98_cropped M p2 d2 n2 w1 S1 K2 ST2 F2 P2 Q2) as (w2' & B & _ & B1 & B2 & B3 & B4 & _).
  assert (W : w2' = w2) by (assert (Y : Ok w2' = Ok w2) by (etransitivity; [symmetry; exact B|exact E2]); now injection Y). subst w2'.
  rewrite DR in B1, B2. assert (NI : forall q c, files w1 q = Some (File c) -> ~ inside q d2) by (intros q c C (r & I); exact (F2 q r I c C)).
  split; [|split; [|split; [exact B1|exact B2]]].
  - rewrite B4; [exact A1| | |exact (NI _ _ A1)]; intros C; [exact (X1 (KEY _ _ _ _ C))|rewrite CRP in C; exact (X2 (KEY _ _ _ _ C))].
  - rewrite B4; [exact A2| | |exact (NI _ _ A2)]; rewrite CRP; intros C; [exact (X3 (eq_sym (KEY _ _ _ _ C)))|]. rewrite CRP in C. apply KEY in C. injection C as C1 C2. apply app_inv_tail in C2. apply X1. now rewrite C1, C2.
Qed.
Print Assumptions C98_two_images.

(** One image saved under the name of the copy of another: the copy replaces it. *)
Theorem C98_cropped_refuted : forall M p1 p2 (dir : list text) (name : text) (w w1 w2 : world M), sound (files w) -> p_kind p1 = Camera -> p_kind p2 = Camera -> stem name ->
  save true p1 (dir, (name ++ T "_cropped") ++ T ".pdf") w = Ok w1 -> save true p2 (dir, name ++ T ".pdf") w1 = Ok w2 ->
  files w1 (dir ++ [(name ++ T "_cropped") ++ T ".pdf"]) = Some (File (Pic (drawn w (p_fig p1)))) /\
  files w2 (dir ++ [(name ++ T "_cropped") ++ T ".pdf"]) = Some (File (Cropped (Pic (drawn w (p_fig p2))))).
Proof.
  intros M p1 p2 dir name w w1 w2 S K1 K2 ST E1 E2.
  assert (ST1 : stem (name ++ T "_cropped")) by (destruct ST as (c & I & C); exists c; split; auto; apply in_or_app; now left).
  destruct (camera_needs M p1 dir _ w w1 S K1 ST1 E1) as (F1 & P1 & Q1).
  destruct (C98_cropped M p1 dir _ w S K1 ST1 F1 P1 Q1) as (w1' & A & S1 & A1 & _).
  assert (W : w1' = w1) by (assert (Y : Ok w1' = Ok w1) by (etransitivity; [symmetry; exact A|exact E1]); now injection Y). subst w1'.
  assert (DR : drawn w1 = drawn w) by (apply save_inv in A; rewrite A; reflexivity).
  destruct (camera_needs M p2 dir name w1 w2 S1 K2 ST E2) as (F2 & P2 & Q2).
  destruct (C98_cropped M p2 dir name w1 S1 K2 ST F2 P2 Q2) as (w2' & B & _ & B1 & B2 & _).
  assert (W : w2' = w2) by (assert (Y : Ok w2' = Ok w2) by (etransitivity; [symmetry; exact B|exact E2]); now injection Y). subst w2'.
  split; [exact A1|]. rewrite DR in B2. rewrite <- app_assoc. exact B2.
Qed.
Print Assumptions C98_cropped_refuted.

(** Without an extension there is no file at the path that is announced; the picture is next to it. *)
Theorem C98_extension_refuted : forall M pypdf p (dir : list text) (name : text) (w : world M), sound (files w) -> dotless name -> free dir (files w) ->
  files w (dir ++ [name]) = None -> files w (dir ++ [name ++ T ".png"]) <> Some Dir ->
  exists w', save pypdf p (dir, name) w = Ok w' /\ files w' (dir ++ [name]) = None /\ files w' (dir ++ [name ++ T ".png"]) = Some (File (Pic (drawn w (p_fig p)))).
Proof.
  intros M pypdf p dir name w S DL F N0 N1. set (out := (dir, name) : path). set (q := (dir, name ++ T ".png") : path).
  assert (TG : savefig_target out = Ok q) by now apply target_bare.
  destruct (stored_ok M q (Pic (drawn w (p_fig p))) (files w) S F N1) as (d1 & d2 & C & W & (B1 & B2 & B3 & B4)).
  assert (P : save_plain p out w = Ok (close (p_fig p) (with_files d2 w))).
  { unfold save_plain, savefig. change (fst out) with (fst q). rewrite C. cbn [bind]. rewrite TG. cbn [bind]. now rewrite W. }
  assert (EN : ends_with (T ".pdf") (snd out) = false).
  { apply not_true_is_false. intros E. apply ends_with_spec in E as (a & E). apply DL. change name with (snd out). rewrite E. apply in_or_app. right. now left. }
  exists (close (p_fig p) (with_files d2 w)). split; [|split].
  - unfold save. destruct (p_kind p); auto. unfold save_camera. rewrite P. cbn [bind]. now rewrite EN.
  - cbn [files close with_files]. rewrite B4; [exact N0| |apply (not_inside_whole (dir, name))]. unfold whole, q. cbn [fst snd]. intros E. apply app_inj_tail in E as [_ E].
    apply (f_equal (@List.length ascii)) in E. rewrite app_length in E. cbn in E. lia.
  - exact B2.
Qed.
Print Assumptions C98_extension_refuted.

(** A camera image with the base name ".pdf" is written as ".pdf.png", and cropping ".pdf" fails. *)
Theorem C98_hidden_refuted : forall M p (dir : list text) (w : world M), sound (files w) -> p_kind p = Camera -> free dir (files w) ->
  files w (dir ++ [T ".pdf"]) = None -> files w (dir ++ [T ".pdf.png"]) <> Some Dir -> save true p (dir, T ".pdf") w = Raise FileNotFoundError.
Proof.
  intros M p dir w S K F N0 N1. set (out := (dir, T ".pdf") : path). set (q := (dir, T ".pdf.png") : path). assert (TG : savefig_target out = Ok q) by reflexivity.
  destruct (stored_ok M q (Pic (drawn w (p_fig p))) (files w) S F N1) as (d1 & d2 & C & W & (B1 & B2 & B3 & B4)).
  assert (P : save_plain p out w = Ok (close (p_fig p) (with_files d2 w))).
  { unfold save_plain, savefig. change (fst out) with (fst q). rewrite C. cbn [bind]. rewrite TG. cbn [bind]. now rewrite W. }
  unfold save. rewrite K. unfold save_camera. rewrite P. cbn [bind]. change (ends_with (T ".pdf") (snd out)) with true. cbv iota. unfold crop, read. cbn [files close with_files].
  rewrite B4; [unfold whole; cbn [fst snd out]; unfold text in *; now rewrite N0| |apply (not_inside_whole out)]. unfold whole, q. cbn [fst snd out]. intros E. apply app_inj_tail in E as [_ E]. discriminate.
Qed.
Print Assumptions C98_hidden_refuted.

(** ** Figures *)
(** From making a plot to saving it: with one figure, the file holds everything drawn, and the open figures are those of before.
    The classes with two figures leave one of them open, and what was drawn on self.ax is not in the file. *)
Theorem C98_drawn : forall M pypdf k o (steps : list (bool * M)) out w w', ready w -> o_ax o = None ->
  let (w1, p) := make k o w in save pypdf p out (drawing p steps w1) = Ok w' ->
  p_kind p = k /\ (if one_figure k then drawn w' (p_fig p) = map snd steps /\ figs w' = figs w
   else drawn w' (p_fig p) = map snd (filter (fun s => negb (fst s)) steps) /\ figs w' = figs w ++ [next w] /\ drawn w' (next w) = map snd (filter fst steps)).
Proof.
  intros M pypdf k o steps out w w' (SD & FR & DR) AX. destruct (make k o w) as [w1 p] eqn:E. intros SV. apply save_inv in SV.
  assert (G : figs w' = filter (fun g => negb (Nat.eqb g (p_fig p))) (figs w1)) by (rewrite SV; cbn [figs close with_files]; now rewrite (proj1 (drawing_figs M p steps w1))).
  assert (D : forall g, drawn w' g = drawn w1 g ++ map snd (filter (fun s : bool * M => Nat.eqb g (if fst s then p_ax p else p_fig p)) steps)) by (intros g; rewrite SV; cbn [drawn close with_files]; apply drawing_drawn).
  assert (ONE : forall f, drawn w1 = drawn w -> p_fig p = f -> p_ax p = f -> next w <= f -> drawn w' f = map snd steps).
  { intros f A B C L. rewrite D, A, DR by auto. cbn [app]. apply map_filter_all. intros [[] m] _; cbn [fst]; [rewrite C|rewrite B]; apply Nat.eqb_refl. }
  assert (F2 : filter (fun g => negb (g =? S (next w))) (figs w ++ [next w; S (next w)]) = figs w ++ [next w]).
  { change [next w; S (next w)] with ([next w] ++ [S (next w)]). rewrite app_assoc. apply filter_last. intros g I. apply in_app_or in I as [I|[<-|[]]]; [specialize (FR g I); lia|lia]. }
  assert (TWO : drawn w1 = drawn w -> p_ax p = next w -> p_fig p = S (next w) -> drawn w' (p_fig p) = map snd (filter (fun s => negb (fst s)) steps) /\ drawn w' (next w) = map snd (filter fst steps)).
  { intros A B C. split; rewrite D, A, DR by lia; cbn [app]; f_equal; apply filter_ext; intros [[] m]; cbn [fst]; rewrite ?B, ?C; cbn [negb]; rewrite ?Nat.eqb_refl; auto; apply Nat.eqb_neq; lia. }
  pose proof (make_facts M k o w FR AX) as MF. rewrite E in MF. destruct MF as (MK & MD & MF). split; [exact MK|].
  destruct (one_figure k).
  - destruct MF as (M1 & M2 & M3 & _). split.
    + apply ONE; auto.
    + rewrite G, M3. apply filter_last. intros g I. specialize (FR g I). lia.
  - destruct MF as (M1 & M2 & M3 & _). destruct (TWO MD M1 M2) as [T1 T2]. split; [exact T1|split; [|exact T2]]. rewrite G, M3, M2. exact F2.
Qed.
Print Assumptions C98_drawn.

(** Plotter(ax=ax): the plot is on the given axes, no figure is opened. *)
Theorem C98_axes : forall M k o f (w : world M), takes_ax k = true -> o_ax o = Some f -> let (w1, p) := make k o w in p_ax p = f /\ p_fig p = f /\ figs w1 = figs w /\ drawn w1 = drawn w.
Proof. intros M k o f w K A. destruct k; try discriminate; unfold make, init_camera, init; rewrite A; cbn [make init init_camera new_figure restyle close with_files figs next drawn rc files o_ax default p_kind p_fig p_ax]; auto. Qed.
Print Assumptions C98_axes.

(** SpectrumFitPlotter(n, ax=ax) closes the figure of the given axes and draws on a new one. *)
Theorem C98_axes_refuted : forall M o f (w : world M) steps, ready w -> o_ax o = Some f -> In f (figs w) ->
  let (w1, p) := make SpectrumFit o w in ~ In f (figs w1) /\ p_ax p <> f /\ p_fig p <> f /\ drawn (drawing p steps w1) f = drawn w f.
Proof.
  intros M o f w steps (SD & FR & DR) A I. unfold make, init. rewrite A. cbn [make init init_camera new_figure restyle close with_files figs next drawn rc files o_ax default p_kind p_fig p_ax]. specialize (FR f I). split; [|split; [lia|split; [lia|]]].
  - intros C. apply in_app_or in C as [C|[C|[]]]; [|lia]. apply filter_In in C as [_ C]. rewrite Nat.eqb_refl in C. discriminate.
  - rewrite drawing_drawn. cbn [p_ax p_fig drawn close restyle]. rewrite map_filter_none; [apply app_nil_r|]. intros [[] m] _; cbn [fst]; apply Nat.eqb_neq; lia.
Qed.
Print Assumptions C98_axes_refuted.

(** The states these theorems speak about are those that programs reach. *)
Theorem C98_ready : forall M pypdf (w : world M), reached pypdf w -> ready w.
Proof. intros M pypdf w. apply reached_ready. Qed.
Print Assumptions C98_ready.

(** ** Style *)
(** The settings do not depend on what was plotted before. *)
Theorem C98_style : forall M N k o key (w1 : world M) (w2 : world N), In key styled \/ key = "font.family"%string /\ o_talk o = true /\ (takes_ax k = true \/ k = SpectrumFit) ->
  dget key (rc (fst (make k o w1))) = dget key (rc (fst (make k o w2))).
Proof.
  intros M N k o key w1 w2 H. rewrite !make_rc. apply settled; [intros s; apply nodup_settings|].
  assert (OWN : takes_ax k = true \/ k = SpectrumFit -> In (own_style o) (settings k o)) by (destruct k; intros [X|X]; try discriminate; cbn; auto).
  destruct H as [H|(-> & TK & H)].
  - assert (C : In (own_style o) (settings k o) \/ In (own_style default) (settings k o)) by (destruct k; cbn; auto).
    destruct C as [C|C]; [destruct (styled_has o key H) as (v & V); exists (own_style o), v|destruct (styled_has default key H) as (v & V); exists (own_style default), v]; now split.
  - exists (own_style o), (Word "Latin Modern Roman"). split; [now apply OWN|]. unfold own_style. rewrite TK. destruct (o_side o); reflexivity.
Qed.
Print Assumptions C98_style.

Theorem C98_sizes : forall M k o (w : world M), takes_ax k = true \/ k = SpectrumFit -> let get key := dget key (rc (fst (make k o w))) in
  get "font.size"%string = Some (Num (if o_talk o then 12 else 8)) /\ get "axes.titlesize"%string = Some (Num (if o_talk o then 12 else 8)) /\
  get "axes.labelsize"%string = Some (Num (if o_talk o then 12 else 8)) /\ get "legend.fontsize"%string = Some (Num (if o_talk o then 10 else 6)) /\
  get "xtick.labelsize"%string = Some (Num (if o_talk o then 12 else 8)) /\ get "ytick.labelsize"%string = Some (Num (if o_talk o then 12 else 8)) /\
  get "figure.figsize"%string = Some (Size (if o_side o then 6 # 10 else 9 # 10)) /\ get "axes.linewidth"%string = Some (Num (1 # 2)) /\
  get "xtick.direction"%string = Some (Word (match k with Camera => "out" | _ => "in" end)).
Proof.
  intros M k o w K get. unfold get. clear get.
  assert (X : forall key, dget key (rc (fst (make k o w))) = match k with Camera => dget key (dupdate (dupdate (rc w) (own_style o)) ticks_out) | _ => dget key (dupdate (rc w) (own_style o)) end).
  { intros key. rewrite make_rc. destruct k; destruct K as [K|K]; try discriminate; reflexivity. }
  assert (Y : forall key, dget key (dupdate (rc w) (own_style o)) = match dget key (own_style o) with Some v => Some v | None => dget key (rc w) end) by (intros key; apply dget_dupdate, nodup_own).
  assert (Z : forall key d, dget key (dupdate d ticks_out) = match dget key ticks_out with Some v => Some v | None => dget key d end) by (intros key d; apply dget_dupdate; repeat constructor; cbn; intuition discriminate).
  destruct o as [ax side talk]. cbn [o_talk o_side].
  repeat split; rewrite X, ?Z, Y; destruct k, side, talk; reflexivity.
Qed.
Print Assumptions C98_sizes.

(** Except for the typeface: a plot made for a talk leaves its typeface to every plot after it. *)
Theorem C98_style_refuted : forall M k j o t (w : world M), takes_ax k = true -> o_talk t = true -> (takes_ax j = true -> o_talk o = false) -> (j = SpectrumFit -> o_talk o = false) ->
  dget "font.family"%string (rc (fst (make j o (fst (make k t w))))) = Some (Word "Latin Modern Roman") /\
  dget "font.family"%string (rc (fst (make j o w))) = dget "font.family"%string (rc w).
Proof.
  intros M k j o t w K TT J1 J2.
  assert (P : forall d, dget "font.family"%string (dupdate d (own_style default)) = dget "font.family"%string d) by (intros d; apply dget_dupdate_notin; reflexivity).
  assert (Q : forall d, o_talk o = false -> dget "font.family"%string (dupdate d (own_style o)) = dget "font.family"%string d) by (intros d E; apply dget_dupdate_notin; unfold own_style; rewrite E; destruct (o_side o); reflexivity).
  assert (U : forall d, dget "font.family"%string (dupdate d ticks_out) = dget "font.family"%string d) by (intros d; now apply dget_dupdate_notin).
  assert (V : forall d, dget "font.family"%string (dupdate d [("axes.linewidth", Num (1 # 10))]%string) = dget "font.family"%string d) by (intros d; now apply dget_dupdate_notin).
  assert (KEEP : forall w : world M, dget "font.family"%string (rc (fst (make j o w))) = dget "font.family"%string (rc w)).
  { intros w0. rewrite make_rc. destruct j; cbn [settings fold_left takes_ax] in *; rewrite ?V, ?U, ?P, ?Q; auto; rewrite ?U, ?P, ?U, ?P; auto. }
  split; [|apply KEEP]. rewrite KEEP, make_rc.
  assert (W : forall d, dget "font.family"%string (dupdate d (own_style t)) = Some (Word "Latin Modern Roman")) by (intros d; rewrite dget_dupdate by apply nodup_own; unfold own_style; rewrite TT; destruct (o_side t); reflexivity).
  destruct k; try discriminate; cbn [settings fold_left]; rewrite ?U; apply W.
Qed.
Print Assumptions C98_style_refuted.

(** ** scripts/plot_spe.py *)
Definition camera_path (out : list text) (c : text) : list text := out ++ [T "camera_" ++ c ++ T ".pdf"].
Definition hist_path (out : list text) (c : text) : list text := out ++ [T "hist_" ++ c ++ T ".pdf"].
Definition spectrum_path (out : list text) (pixel : N) : list text := out ++ [T "spectrum_p" ++ T (dec pixel) ++ T ".pdf"].
Lemma free_of_dir : forall M (d : disk M) k, sound d -> d k = Some Dir -> free k d.
Proof. intros M d k SD K a b E c. destruct (sound_up M d b a SD) as [H| ->]; [rewrite <- E; congruence|congruence|]. rewrite app_nil_r in E. subst. congruence. Qed.
Lemma save_made : forall pypdf k pre (mid : text) m on (w : world mark) out, ready w -> one_figure k = true /\ k <> Camera \/ one_figure k = false /\ on = false -> stem pre -> free out (files w) -> files w (out ++ [(pre ++ mid) ++ T ".pdf"]) <> Some Dir ->
  exists w', (let (w1, p) := make k default w in save pypdf p (out, (pre ++ mid) ++ T ".pdf") (drawing p [(on, m)] w1)) = Ok w' /\ ready w' /\ files w' (out ++ [(pre ++ mid) ++ T ".pdf"]) = Some (File (Pic [m])) /\
    files w' out = Some Dir /\ (forall q, q <> out ++ [(pre ++ mid) ++ T ".pdf"] -> ~ inside q out -> files w' q = files w q) /\
    figs w' = if one_figure k then figs w else figs w ++ [next w].
Proof.
  intros pypdf k pre mid m on w out RD KK ST FR ND. pose proof RD as (SD & FG & DW).
  pose proof (make_facts mark k default w FG eq_refl) as MF. pose proof (make_next mark k default w RD I) as [RN _].
  pose proof (fun w' => C98_drawn mark pypdf k default [(on, m)] (out, (pre ++ mid) ++ T ".pdf") w w' RD eq_refl) as DR.
  destruct (make k default w) as [w1 p] eqn:E. cbn [fst] in RN. destruct MF as (MK & MD & MF).
  assert (MFI : files w1 = files w) by (destruct (one_figure k); tauto).
  assert (S1 : sound (files (drawing p [(on, m)] w1))) by (rewrite (proj1 (proj2 (proj2 (drawing_figs mark p [(on, m)] w1)))); now rewrite MFI).
  assert (FI : files (drawing p [(on, m)] w1) = files w) by (rewrite (proj1 (proj2 (proj2 (drawing_figs mark p [(on, m)] w1)))); exact MFI).
  assert (ST2 : stem (pre ++ mid)) by (destruct ST as (c & J & C); exists c; split; auto; apply in_or_app; now left).
  destruct (C98_saved mark pypdf p out (pre ++ mid) (T "pdf") (drawing p [(on, m)] w1)) as (w' & A & B1 & B2 & B3 & B4 & B5 & B6 & B7); auto.
  { apply pdf_dotless. } { cbn. tauto. } { rewrite MK. destruct KK as [(_ & KK)|(KK & _)]; [congruence|]. intros ->. discriminate. } { now rewrite FI. } { rewrite FI. exact ND. }
  exists w'. split; [exact A|]. specialize (DR w' A). destruct DR as (_ & DR).
  assert (DF : drawn (drawing p [(on, m)] w1) (p_fig p) = [m]).
  { rewrite <- B6. destruct (one_figure k); destruct DR as (DR & _); rewrite DR; auto. destruct KK as [(KK & _)|(_ & KK)]; [discriminate|]. now rewrite KK. }
  assert (FIG : figs w' = if one_figure k then figs w else figs w ++ [next w]) by (destruct (one_figure k); tauto).
  split; [|split; [rewrite <- DF; exact B2|split; [apply B3; exists []; now rewrite app_nil_r|split; [|exact FIG]]]].
  - apply save_inv in A. split; [exact B1|]. destruct RN as (_ & RG & RW). rewrite A. cbn [figs next drawn close with_files]. destruct (drawing_figs mark p [(on, m)] w1) as (G1 & G2 & _). rewrite G1, G2. split.
    + intros g J. apply filter_In in J as [J _]. auto.
    + intros g L. rewrite drawing_drawn, RW by auto. rewrite map_filter_none; auto. intros [[] x] _; cbn [fst]; apply Nat.eqb_neq; destruct (one_figure k); destruct MF as (F1 & F2 & F3 & F4 & _); lia.
  - intros q Q J. rewrite <- FI. now apply B4.
Qed.
Lemma column_ok : forall pypdf out (w : world mark) c, ready w -> free out (files w) -> files w (camera_path out c) <> Some Dir -> files w (hist_path out c) <> Some Dir ->
  exists w', plot_column pypdf out w c = Ok w' /\ ready w' /\ files w' out = Some Dir /\ files w' (camera_path out c) = Some (File (Pic [Images c])) /\ files w' (hist_path out c) = Some (File (Pic [Histogram c])) /\
    (forall q, q <> camera_path out c -> q <> hist_path out c -> ~ inside q out -> files w' q = files w q) /\ figs w' = figs w ++ [next w].
Proof.
  intros pypdf out w c RD FR N1 N2. unfold camera_path, hist_path in *. rewrite !(app_assoc _ c) in *.
  destruct (save_made pypdf SpeCamera (T "camera_") c (Images c) false w out RD) as (w1 & A & RD1 & A1 & A2 & A3 & A4); auto.
  { exists "c"%char. split; [now left|discriminate]. }
  assert (NE : forall a b : list text, a ++ [(T "hist_" ++ c) ++ T ".pdf"] <> b ++ [(T "camera_" ++ c) ++ T ".pdf"]) by (intros a b C; apply app_inj_tail in C as [_ C]; discriminate).
  assert (NI : forall x, ~ inside (out ++ [x]) out) by (intros x; apply (not_inside_whole (out, x))).
  destruct (save_made pypdf Plain (T "hist_") c (Histogram c) true w1 out RD1) as (w2 & B & RD2 & B1 & B2 & B3 & B4).
  { left. split; [reflexivity|discriminate]. } { exists "h"%char. split; [now left|discriminate]. } { destruct RD1 as (SD1 & _). now apply free_of_dir. } { rewrite A3; [exact N2|apply NE|apply NI]. }
  exists w2. split.
  - unfold plot_column, camera_file, hist_file. rewrite !(app_assoc _ c). destruct (make SpeCamera default w) as [wa pa]. refine (eq_trans (f_equal (fun r => bind r _) A) _). cbn [bind].
    destruct (make Plain default w1) as [wb pb]. exact B.
  - split; [exact RD2|]. split; [exact B2|]. split; [rewrite B3; [exact A1|intros C; symmetry in C; now apply NE in C|apply NI]|]. split; [exact B1|]. split; [|now rewrite B4].
    intros q Q1 Q2 J. rewrite B3 by auto. now apply A3.
Qed.
Lemma columns_ok : forall pypdf out columns (w : world mark), ready w -> free out (files w) -> NoDup columns ->
  (forall c, In c columns -> files w (camera_path out c) <> Some Dir /\ files w (hist_path out c) <> Some Dir) ->
  exists w' leaked, foldM (plot_column pypdf out) columns w = Ok w' /\ ready w' /\ free out (files w') /\
    (forall c, In c columns -> files w' (camera_path out c) = Some (File (Pic [Images c])) /\ files w' (hist_path out c) = Some (File (Pic [Histogram c]))) /\
    (forall q, (forall c, In c columns -> q <> camera_path out c /\ q <> hist_path out c) -> ~ inside q out -> files w' q = files w q) /\
    figs w' = figs w ++ leaked /\ List.length leaked = List.length columns.
Proof.
  intros pypdf out. induction columns as [|c columns IH]; intros w RD FR ND NO.
  - exists w, []. cbn. repeat split; auto; try tauto; try apply RD. now rewrite app_nil_r.
  - apply NoDup_cons_iff in ND as [NC ND]. destruct (NO c (or_introl eq_refl)) as [N1 N2].
    destruct (column_ok pypdf out w c RD FR N1 N2) as (w1 & A & RD1 & A1 & A2 & A3 & A4 & A5).
    assert (NI : forall x, ~ inside (out ++ [x]) out) by (intros x; apply (not_inside_whole (out, x))).
    assert (CC : forall x y, camera_path out x = camera_path out y -> x = y) by (intros x y E; unfold camera_path in E; apply app_inj_tail in E as [_ E]; apply app_inv_head in E; now apply app_inv_tail in E).
    assert (HH : forall x y, hist_path out x = hist_path out y -> x = y) by (intros x y E; unfold hist_path in E; apply app_inj_tail in E as [_ E]; apply app_inv_head in E; now apply app_inv_tail in E).
    assert (CH : forall x y, camera_path out x <> hist_path out y) by (intros x y E; unfold camera_path, hist_path in E; apply app_inj_tail in E as [_ E]; discriminate).
    destruct (IH w1) as (w2 & l & B & RD2 & B1 & B2 & B3 & B4 & B5); auto.
    { destruct RD1 as (SD1 & _). now apply free_of_dir. }
    { intros x X. destruct (NO x (or_intror X)) as [X1 X2]. assert (x <> c) by (intros ->; now apply NC). split; rewrite A4; auto; try apply NI; try (intros E; apply CC in E || apply HH in E; now apply H); try (intros E; now apply CH in E); intros E; symmetry in E; now apply CH in E. }
    exists w2, (next w :: l). cbn [foldM]. rewrite A. split; [exact B|]. split; [exact RD2|]. split; [exact B1|]. split; [|split; [|split]].
    + intros x [<-|X]; [|now apply B2]. split; (rewrite B3; [assumption| |apply NI]); intros x X; split; intros E; try (now apply CH in E); try (symmetry in E; now apply CH in E); apply CC in E || apply HH in E; subst; now apply NC.
    + intros q Q J. rewrite B3; [|intros x X; apply Q; now right|auto]. destruct (Q c (or_introl eq_refl)). apply A4; auto.
    + rewrite B4, A5, <- app_assoc. reflexivity.
    + cbn. now rewrite B5.
Qed.
(** Every column has its camera image and its histogram in the output directory, the pixel has its spectrum; nothing else on the disk is
    changed.  One figure per column is left open. *)
Theorem C98_plot_spe : forall pypdf out columns pixel (w : world mark), ready w -> free out (files w) -> NoDup columns ->
  (forall c, In c columns -> files w (camera_path out c) <> Some Dir /\ files w (hist_path out c) <> Some Dir) -> files w (spectrum_path out pixel) <> Some Dir ->
  exists w' leaked, plot_spe pypdf (Some out) columns pixel w = Ok w' /\
    (forall c, In c columns -> files w' (camera_path out c) = Some (File (Pic [Images c])) /\ files w' (hist_path out c) = Some (File (Pic [Histogram c]))) /\
    files w' (spectrum_path out pixel) = Some (File (Pic [Spectrum pixel])) /\
    (forall q, (forall c, In c columns -> q <> camera_path out c /\ q <> hist_path out c) -> q <> spectrum_path out pixel -> ~ inside q out -> files w' q = files w q) /\
    figs w' = figs w ++ leaked /\ List.length leaked = List.length columns.
Proof.
  intros pypdf out columns pixel w RD FR ND NO NS.
  destruct (columns_ok pypdf out columns w RD FR ND NO) as (w1 & l & A & RD1 & FR1 & A1 & A2 & A3 & A4).
  assert (NI : forall x, ~ inside (out ++ [x]) out) by (intros x; apply (not_inside_whole (out, x))).
  assert (SC : forall c, spectrum_path out pixel <> camera_path out c /\ spectrum_path out pixel <> hist_path out c) by (intros c; split; intros E; apply app_inj_tail in E as [_ E]; discriminate).
  unfold spectrum_path in *. rewrite (app_assoc (T "spectrum_p")) in *.
  destruct (save_made pypdf SpectrumFit (T "spectrum_p") (T (dec pixel)) (Spectrum pixel) true w1 out RD1) as (w2 & B & RD2 & B1 & B2 & B3 & B4); auto.
  { left. split; [reflexivity|discriminate]. } { exists "s"%char. split; [now left|discriminate]. } { rewrite A2; [exact NS|intros c _; apply SC|apply NI]. }
  exists w2, l. split; [|split; [|split; [exact B1|split; [|split; [now rewrite B4|exact A4]]]]].
  - unfold plot_spe. rewrite A. cbn [bind]. unfold spectrum_file. rewrite (app_assoc (T "spectrum_p")). destruct (make SpectrumFit default w1) as [wa pa]. exact B.
  - intros c C. destruct (A1 c C) as [C1 C2]. destruct (SC c) as [S1 S2]. split; rewrite B3; auto; apply NI.
  - intros q Q Q2 J. rewrite B3 by auto. now apply A2.
Qed.
Print Assumptions C98_plot_spe.

(** No figure should be left open: with at least one column some are. *)
Theorem C98_leak_refuted : forall pypdf out columns pixel (w w' : world mark), ready w -> free out (files w) -> NoDup columns -> columns <> [] ->
  (forall n, files w (out ++ [n]) <> Some Dir) -> plot_spe pypdf (Some out) columns pixel w = Ok w' -> figs w' <> figs w.
Proof.
  intros pypdf out columns pixel w w' RD FR ND NE NO E. destruct (C98_plot_spe pypdf out columns pixel w) as (w2 & l & A & _ & _ & _ & G & L); auto; [intros c _; split; apply NO|apply NO|].
  rewrite A in E. injection E as ->. rewrite G. intros C. apply (f_equal (@List.length nat)) in C. rewrite app_length, L in C. destruct columns; [now elim NE|]. cbn in C. lia.
Qed.
Print Assumptions C98_leak_refuted.

(** A legend on a plot of the waveforms of all pixels is not in the file. *)
Theorem C98_legend_refuted : forall M pypdf k o (legend : M) out w w', ready w -> one_figure k = false -> o_ax o = None ->
  let (w1, p) := make k o w in save pypdf p out (on_ax p legend w1) = Ok w' -> drawn w' (p_fig p) = [] /\ drawn w' (next w) = [legend] /\ next w <> p_fig p.
Proof.
  intros M pypdf k o legend out w w' RD K AX. pose proof (C98_drawn M pypdf k o [(true, legend)] out w w' RD AX) as H. destruct RD as (SD & FG & DW). pose proof (make_facts M k o w FG AX) as MF.
  destruct (make k o w) as [w1 p]. rewrite K in *. intros E. destruct (H E) as (_ & H1 & _ & H2). split; [exact H1|]. split; [exact H2|]. destruct MF as (_ & _ & _ & MF & _). lia.
Qed.
Print Assumptions C98_legend_refuted.

(** A program: a camera image in a new directory, with a note on it. *)
Definition start : world nat := {| figs := []; next := 0; drawn := fun _ => []; rc := []; files := fun q => match q with [] => Some Dir | _ => None end |}.
Definition program : res (world nat) :=
  let (w1, p) := make Camera {| o_ax := None; o_side := true; o_talk := false |} start in save true p ([T "plots"; T "run1"], T "flat.field.pdf") (on_ax p 7 w1).
Example C98_ex : exists w, program = Ok w /\ figs w = [] /\ files w [T "plots"; T "run1"; T "flat.field.pdf"] = Some (File (Pic [7])) /\
  files w [T "plots"; T "run1"; T "flat.field_cropped.pdf"] = Some (File (Cropped (Pic [7]))) /\ files w [T "plots"] = Some Dir /\ files w [T "run1"] = None.
Proof. eexists. split; [vm_compute; reflexivity|]. repeat split; vm_compute; reflexivity. Qed.
Example C98_ex_spe : exists w, plot_spe false (Some [T "out"]) [T "spe"; T "opct"] 5 {| figs := []; next := 0; drawn := fun _ => []; rc := []; files := fun q => match q with [] => Some Dir | _ => None end |} = Ok w /\
  figs w = [0; 3] /\ files w [T "out"; T "hist_opct.pdf"] = Some (File (Pic [Histogram (T "opct")])) /\ files w [T "out"; T "spectrum_p5.pdf"] = Some (File (Pic [Spectrum 5])).
Proof. eexists. split; [vm_compute; reflexivity|]. repeat split; vm_compute; reflexivity. Qed.
