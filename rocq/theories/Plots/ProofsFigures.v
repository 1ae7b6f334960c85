From Coq Require Import List ZArith QArith Bool Arith String Ascii NArith Lia.
From Verif.Base Require Import Py PyFacts.
From Verif.Files Require Import Model Proofs2.
From Verif.Plots Require Import ModelFigures SpecFigures.
Import ListNotations.
Local Open Scope list_scope.
Local Open Scope nat_scope.

(** ** Base names *)
Lemma dots_false : forall t, stem t <-> dots t = false.
Proof.
  intros t. unfold stem, dots. induction t as [|c t IH]; cbn; [split; [intros (c & [] & _)|discriminate]|].
  destruct (Ascii.eqb_spec c "."%char) as [->|N]; cbn.
  - rewrite <- IH. split; intros (d & I & D); exists d; [destruct I as [<-|I]; [now elim D|now split]|now split; [right|]].
  - split; auto. intros _. exists c. split; auto.
Qed.
Lemma last_dot_none : forall t, dotless t -> last_dot t = None.
Proof.
  induction t as [|c t IH]; intros D; cbn; auto. rewrite IH by (intros I; apply D; now right).
  destruct (Ascii.eqb_spec c "."%char) as [->|]; auto. elim D. now left.
Qed.
Lemma last_dot_app : forall a e, dotless e -> last_dot (a ++ "."%char :: e) = Some (a, "."%char :: e).
Proof.
  induction a as [|c a IH]; intros e D.
  - cbn. now rewrite last_dot_none.
  - cbn [app last_dot]. now rewrite IH.
Qed.
Lemma splitext_app : forall a e, stem a -> dotless e -> splitext (a ++ "."%char :: e) = (a, "."%char :: e).
Proof. intros a e S D. unfold splitext. rewrite last_dot_app by auto. apply dots_false in S. now rewrite S. Qed.
Lemma splitext_none : forall a, dotless a -> splitext a = (a, []).
Proof. intros a D. unfold splitext. now rewrite last_dot_none. Qed.
Lemma strip_dotless : forall a, dotless a -> ModelFigures.strip a = a.
Proof.
  induction a as [|c a IH]; intros D; auto. cbn [ModelFigures.strip]. unfold dots. cbn [forallb].
  destruct (Ascii.eqb_spec c "."%char) as [->|]; [elim D; now left|]. cbn. f_equal. apply IH. intros I. apply D. now right.
Qed.
Lemma in_formats : forall e, existsb (text_eqb e) formats = true <-> In e formats.
Proof.
  intros e. rewrite existsb_exists. split; [intros (x & I & E); apply text_eqb_eq in E; now subst|]. intros I. exists e. split; auto. now apply text_eqb_eq.
Qed.
Lemma lower_nil : forall e, lower e = [] -> e = [].
Proof. intros [|]; [auto|discriminate]. Qed.
Lemma target_known : forall d a e, stem a -> dotless e -> In (lower e) formats -> savefig_target (d, a ++ "."%char :: e) = Ok (d, a ++ "."%char :: e).
Proof.
  intros d a e S D F. unfold savefig_target. cbn [fst snd]. rewrite splitext_app by auto. cbn [snd tl]. apply in_formats in F. destruct e; [discriminate|]. now rewrite F.
Qed.
Lemma target_unknown : forall d a e, stem a -> dotless e -> e <> [] -> ~ In (lower e) formats -> savefig_target (d, a ++ "."%char :: e) = Raise ValueError.
Proof.
  intros d a e S D E F. unfold savefig_target. cbn [fst snd]. rewrite splitext_app by auto. cbn [snd tl].
  rewrite <- in_formats in F. apply not_true_is_false in F. destruct e; [now elim E|]. now rewrite F.
Qed.
Lemma target_bare : forall d a, dotless a -> savefig_target (d, a) = Ok (d, a ++ T ".png").
Proof. intros d a D. unfold savefig_target. cbn [fst snd]. rewrite splitext_none by auto. cbn [snd tl]. now rewrite strip_dotless. Qed.
Lemma ends_with_spec : forall s t, ends_with s t = true <-> exists a, t = a ++ s.
Proof.
  intros s. induction t as [|c t IH].
  - cbn [ends_with]. rewrite orb_false_r, text_eqb_eq. split; [intros <-; now exists []|]. intros ([|] & E); auto. discriminate.
  - cbn [ends_with]. rewrite orb_true_iff, text_eqb_eq, IH. split.
    + intros [->|(a & ->)]; [now exists []|now exists (c :: a)].
    + intros ([|x a] & E); [now left|]. injection E as -> ->. right. now exists a.
Qed.
Lemma dot_split : forall a b (x y : text), dotless x -> dotless y -> a ++ "."%char :: x = b ++ "."%char :: y -> a = b /\ x = y.
Proof.
  intros a b x y X Y E. assert (L : last_dot (a ++ "."%char :: x) = last_dot (b ++ "."%char :: y)) by now rewrite E.
  rewrite !last_dot_app in L by auto. injection L as -> ->. auto.
Qed.
Lemma pdf_dotless : dotless (T "pdf").
Proof. cbn. intros [H|[H|[H|[]]]]; discriminate. Qed.
Lemma ends_pdf : forall a e, dotless e -> ends_with (T ".pdf") (a ++ "."%char :: e) = true <-> e = T "pdf".
Proof.
  intros a e D. rewrite ends_with_spec. split.
  - intros (b & E). change (T ".pdf") with ("."%char :: T "pdf") in E. apply dot_split in E; auto; [tauto|apply pdf_dotless].
  - intros ->. now exists a.
Qed.

(** ** The disk *)
Lemma same_eq : forall a b, same a b = true <-> a = b.
Proof.
  induction a as [|x a IH]; intros [|y b]; cbn; try (split; [discriminate|discriminate || auto]); [tauto|].
  rewrite andb_true_iff, text_eqb_eq, IH. split; [intros [-> ->]; auto|intros H; now injection H].
Qed.
Lemma put_eq : forall M k (n : node M) d, put k n d k = Some n.
Proof. intros. unfold put. now rewrite (proj2 (same_eq k k) eq_refl). Qed.
Lemma put_neq : forall M k (n : node M) d q, q <> k -> put k n d q = d q.
Proof. intros. unfold put. destruct (same q k) eqn:E; auto. now apply same_eq in E. Qed.
Lemma sound_up : forall M (d : disk M) b a, sound d -> d (a ++ b) <> None -> d a = Some Dir \/ b = [].
Proof.
  intros M d b. induction b as [|n b IH] using rev_ind; intros a S E; [now right|]. left. rewrite app_assoc in E. apply (proj2 S) in E.
  destruct (IH a S) as [H| ->]; auto; [congruence|]. now rewrite app_nil_r in E.
Qed.
Lemma sound_put : forall M (d : disk M) k n m, sound d -> d k = Some Dir -> (d (k ++ [n]) = Some Dir -> m = Dir) -> sound (put (k ++ [n]) m d).
Proof.
  intros M d k n m [R U] K P. split.
  - rewrite put_neq; auto. now destruct k.
  - intros q x H. destruct (list_eq_dec (list_eq_dec ascii_dec) (q ++ [x]) (k ++ [n])) as [E|E].
    + apply app_inj_tail in E as [-> ->]. rewrite put_neq; auto. intros C. apply (f_equal (@List.length text)) in C. rewrite app_length in C. cbn in C. lia.
    + rewrite put_neq in H by auto. specialize (U q x H). destruct (list_eq_dec (list_eq_dec ascii_dec) q (k ++ [n])) as [->|F]; [rewrite put_eq; now rewrite P|now rewrite put_neq].
Qed.
Lemma mkdir_ok : forall M (d : disk M) k n, d (k ++ [n]) = None -> d k = Some Dir -> mkdir (k ++ [n]) d = Ok (put (k ++ [n]) Dir d).
Proof. intros M d k n N K. unfold mkdir. rewrite removelast_last, N, K. reflexivity. Qed.

(** What making the directory [k] leaves: the directories it lies in are added, all else is as before. *)
Definition grown {M} (k : list text) (d d' : disk M) : Prop :=
  sound d' /\ (forall q, inside q k -> d' q = Some Dir) /\ (forall q, ~ inside q k -> d' q = d q).
Lemma free_up : forall M (d : disk M) a b, free (a ++ b) d -> free a d.
Proof. intros M d a b F x y E. apply (F x (y ++ b)). rewrite E. now rewrite app_assoc. Qed.
Lemma free_dir : forall M (d : disk M) k a, sound d -> d k = Some Dir -> inside a k -> d a = Some Dir.
Proof. intros M d k a S K (b & ->). destruct (sound_up M d b a S) as [H| ->]; auto; [congruence|]. now rewrite app_nil_r in K. Qed.
Lemma inside_snoc : forall q k n, inside q (k ++ [n]) <-> inside q k \/ q = k ++ [n].
Proof.
  intros q k n. split.
  - intros (r & E). destruct r as [|x r _] using rev_ind; [right; now rewrite app_nil_r in E|]. rewrite app_assoc in E. apply app_inj_tail in E as [-> _]. left. now exists r.
  - intros [(r & ->)| ->]; [exists (r ++ [n]); now rewrite app_assoc|exists []; now rewrite app_nil_r].
Qed.
Lemma grown_here : forall M (d : disk M) k n, sound d -> d k = Some Dir -> d (k ++ [n]) = None -> grown (k ++ [n]) d (put (k ++ [n]) Dir d).
Proof.
  intros M d k n S K N. split; [|split].
  - now apply sound_put.
  - intros q I. apply inside_snoc in I as [I| ->]; [|apply put_eq]. rewrite put_neq; [now apply (free_dir M d k)|].
    intros ->. destruct I as (r & E). apply (f_equal (@List.length text)) in E. rewrite !app_length in E. cbn in E. lia.
  - intros q I. apply put_neq. intros ->. apply I. exists []. now rewrite app_nil_r.
Qed.
Lemma makedirs_ok : forall M r (d : disk M), sound d -> r <> [] -> free (rev r) d -> d (rev r) = None -> exists d', makedirs r d = Ok d' /\ grown (rev r) d d'.
Proof.
  intros M. induction r as [|n h IH]; intros d S E F N; [now elim E|]. cbn [rev] in *. cbn [makedirs].
  destruct (d (rev h)) as [m|] eqn:H.
  - assert (m = Dir) as -> by (destruct m; auto; now elim (F (rev h) [n] eq_refl c)).
    assert (X : (match h with [] => Ok d | _ => if present (rev h) d then Ok d else makedirs h d end) = Ok d) by (destruct h; auto; unfold present; now rewrite H).
    rewrite X. cbn [bind rev]. exists (put (rev h ++ [n]) Dir d). split; [now apply mkdir_ok|now apply grown_here].
  - assert (h <> []) as Hn by (intros ->; destruct S as [S _]; cbn in H; congruence).
    destruct (IH d S Hn (free_up _ _ _ _ F) H) as (d1 & A & G).
    assert (X : (match h with [] => Ok d | _ => if present (rev h) d then Ok d else makedirs h d end) = Ok d1) by (destruct h; [now elim Hn|]; unfold present; now rewrite H).
    rewrite X. cbn [bind rev]. destruct G as (S1 & G1 & G2).
    assert (K1 : d1 (rev h) = Some Dir) by (apply G1; exists []; now rewrite app_nil_r).
    assert (NI : ~ inside (rev h ++ [n]) (rev h)) by (intros (r & C); apply (f_equal (@List.length text)) in C; rewrite !app_length in C; cbn in C; lia).
    assert (N1 : d1 (rev h ++ [n]) = None) by (rewrite G2; auto).
    exists (put (rev h ++ [n]) Dir d1). split; [now apply mkdir_ok|]. destruct (grown_here M d1 (rev h) n S1 K1 N1) as (P1 & P2 & P3). split; [auto|split; [auto|]].
    intros q I. rewrite P3 by auto. apply G2. intros C. apply I. apply inside_snoc. now left.
Qed.
Lemma create_ok : forall M k (d : disk M), sound d -> free k d -> exists d', create_directory k d = Ok d' /\ grown k d d'.
Proof.
  intros M k d S F. unfold create_directory. destruct k as [|x k].
  - exists d. split; auto. split; [auto|split; [|auto]]. intros q ([|] & E); [|destruct q; discriminate]. rewrite app_nil_r in E. subst. apply S.
  - unfold present. destruct (d (x :: k)) as [m|] eqn:E.
    + assert (m = Dir) as -> by (destruct m; auto; now elim (F (x :: k) [] (eq_sym (app_nil_r _)) c)).
      exists d. split; auto. split; [auto|split; [|auto]]. intros q I. now apply (free_dir M d (x :: k)).
    + assert (V : rev (rev (x :: k)) = x :: k) by apply rev_involutive. destruct (makedirs_ok M (rev (x :: k)) d) as (d' & A & G); auto.
      * intros C. apply (f_equal (@rev text)) in C. rewrite V in C. discriminate.
      * now rewrite V.
      * now rewrite V.
      * rewrite V in G. now exists d'.
Qed.
(** A file in the way *)
Lemma below_file : forall M (d : disk M) a b c, sound d -> d a = Some (File c) -> b <> [] -> d (a ++ b) = None.
Proof. intros M d a b c S A B. destruct (d (a ++ b)) eqn:E; auto. destruct (sound_up M d b a S) as [H|H]; [congruence|congruence|now elim B]. Qed.
Lemma makedirs_blocked : forall M r (d : disk M) a b c, sound d -> rev r = a ++ b -> b <> [] -> d a = Some (File c) -> exists e, makedirs r d = Raise e.
Proof.
  intros M. induction r as [|n h IH]; intros d a b c S E B A; [now exists IOError|]. cbn [rev] in E. cbn [makedirs].
  destruct b as [|x b _] using rev_ind; [now elim B|]. rewrite app_assoc in E. apply app_inj_tail in E as [E ->].
  destruct b as [|y b].
  - rewrite app_nil_r in E. assert (H : d (rev h) = Some (File c)) by now rewrite E.
    assert (X : (match h with [] => Ok d | _ => if present (rev h) d then Ok d else makedirs h d end) = Ok d) by (destruct h; auto; unfold present; now rewrite H).
    rewrite X. cbn [bind rev]. unfold mkdir. rewrite removelast_last, H. exists IOError. now destruct (d (rev h ++ [x])).
  - assert (N : d (rev h) = None) by (rewrite E; now apply (below_file M d a (y :: b) c)).
    assert (h <> []) as Hn by (intros ->; destruct a; discriminate).
    destruct (IH d a (y :: b) c S E) as (e & R); auto; [discriminate|]. destruct h; [now elim Hn|]. unfold present. rewrite N, R. now exists e.
Qed.
Lemma write_ok : forall M p (c : content M) d, sound d -> d (fst p) = Some Dir -> d (whole p) <> Some Dir -> write p c d = Ok (put (whole p) (File c) d) /\ sound (put (whole p) (File c) d).
Proof.
  intros M p c d S D N. split; [|apply sound_put; auto; intros; now elim N]. unfold write. rewrite D. destruct (d (whole p)) as [[|]|]; auto. now elim N.
Qed.

(** ** Saving *)
(** What saving at [out] leaves on the disk: the picture, the directories [out] lies in, all else as before. *)
Definition stored {M} (out : path) (c : content M) (d d' : disk M) : Prop :=
  sound d' /\ d' (whole out) = Some (File c) /\ (forall q, inside q (fst out) -> d' q = Some Dir) /\ (forall q, q <> whole out -> ~ inside q (fst out) -> d' q = d q).
Lemma not_inside_whole : forall p, ~ inside (whole p) (fst p).
Proof. intros p (r & C). apply (f_equal (@List.length text)) in C. unfold whole in C. rewrite !app_length in C. cbn in C. lia. Qed.
Lemma stored_ok : forall M out (c : content M) d, sound d -> free (fst out) d -> d (whole out) <> Some Dir ->
  exists d1 d2, create_directory (fst out) d = Ok d1 /\ write out c d1 = Ok d2 /\ stored out c d d2.
Proof.
  intros M out c d S F N. destruct (create_ok M (fst out) d S F) as (d1 & E & S1 & G1 & G2).
  assert (D1 : d1 (fst out) = Some Dir) by (apply G1; exists []; now rewrite app_nil_r).
  assert (N1 : d1 (whole out) <> Some Dir) by (rewrite G2; [auto|apply not_inside_whole]).
  destruct (write_ok M out c d1 S1 D1 N1) as [W SW]. exists d1, (put (whole out) (File c) d1). split; [auto|split; [auto|]].
  split; [auto|split; [apply put_eq|split]].
  - intros q I. rewrite put_neq; auto. intros ->. now apply not_inside_whole in I.
  - intros q Q I. rewrite put_neq by auto. now apply G2.
Qed.
(** Saving twice in the same directory *)
Lemma stored_again : forall M out (c : content M) d, sound d -> d (fst out) = Some Dir -> d (whole out) <> Some Dir ->
  exists d', write out c d = Ok d' /\ stored out c d d' /\ (forall q, q <> whole out -> d' q = d q).
Proof.
  intros M out c d S F N. destruct (write_ok M out c d S F N) as [W SW]. exists (put (whole out) (File c) d). split; [auto|split].
  - split; [auto|split; [apply put_eq|split]].
    + intros q I. rewrite put_neq; [now apply (free_dir M d (fst out))|]. intros ->. now apply not_inside_whole in I.
    + intros q Q _. now apply put_neq.
  - intros q Q. now apply put_neq.
Qed.
Lemma save_plain_ok : forall M p out (w : world M), sound (files w) -> free (fst out) (files w) -> files w (whole out) <> Some Dir -> savefig_target out = Ok out ->
  exists w', save_plain p out w = Ok w' /\ stored out (Pic (drawn w (p_fig p))) (files w) (files w') /\ w' = close (p_fig p) (with_files (files w') w).
Proof.
  intros M p out w S F N T. destruct (stored_ok M out (Pic (drawn w (p_fig p))) (files w) S F N) as (d1 & d2 & C & W & ST).
  unfold save_plain, savefig. rewrite C, T. cbn [bind]. rewrite W. cbn [bind]. eexists. split; [reflexivity|]. cbn [files close with_files]. auto.
Qed.
Lemma save_plain_inv : forall M p out (w w' : world M), save_plain p out w = Ok w' -> w' = close (p_fig p) (with_files (files w') w).
Proof.
  intros M p out w w' E. unfold save_plain in E. destruct (create_directory _ _) as [d|]; [|discriminate]. cbn [bind] in E. destruct (savefig _ _ _); [|discriminate]. cbn [bind] in E. injection E as <-. reflexivity.
Qed.
Lemma save_inv : forall M b p out (w w' : world M), save b p out w = Ok w' -> w' = close (p_fig p) (with_files (files w') w).
Proof.
  intros M b p out w w' E. unfold save in E. assert (C : p_kind p = Camera \/ save_plain p out w = Ok w') by (destruct (p_kind p); auto). destruct C as [C|C]; [rewrite C in E|now apply save_plain_inv in C].
  unfold save_camera in E. destruct (save_plain p out w) as [w1|] eqn:P; [|discriminate]. apply save_plain_inv in P. cbn [bind] in E. destruct (ends_with _ _).
  - destruct (crop b out (files w1)) as [d|[]]; try discriminate; injection E as <-; [|auto]. rewrite P. reflexivity.
  - now injection E as <-.
Qed.
Lemma blocked_create : forall M k (d : disk M) a b c, sound d -> k = a ++ b -> d a = Some (File c) -> (exists e, create_directory k d = Raise e) \/ (create_directory k d = Ok d /\ d k = Some (File c)).
Proof.
  intros M k d a b c S E A. destruct b as [|x b].
  - rewrite app_nil_r in E. subst k. right. split; auto. unfold create_directory. destruct a as [|y a]; auto. unfold present. now rewrite A.
  - left. assert (N : d k = None) by (rewrite E; now apply (below_file M d a (x :: b) c)). unfold create_directory. destruct k as [|y k]; [now destruct a|].
    unfold present. rewrite N. apply (makedirs_blocked M _ d a (x :: b) c); auto; [|discriminate]. now rewrite rev_involutive.
Qed.
Lemma target_dir : forall out q, savefig_target out = Ok q -> fst q = fst out.
Proof.
  intros out q E. unfold savefig_target in E. destruct (tl _); [now injection E as <-|]. destruct (existsb _ _); [now injection E as <-|discriminate].
Qed.
Lemma save_plain_blocked : forall M p out (w : world M) a c, sound (files w) -> inside a (fst out) -> files w a = Some (File c) -> exists e, save_plain p out w = Raise e.
Proof.
  intros M p out w a c S (b & E) A. unfold save_plain. destruct (blocked_create M (fst out) (files w) a b c S E A) as [(e & R)|[R D]]; rewrite R; cbn [bind]; [now exists e|].
  unfold savefig. destruct (savefig_target out) as [q|e] eqn:Q; cbn [bind]; [|now exists e]. apply target_dir in Q. unfold write. rewrite Q, D. now exists IOError.
Qed.
Lemma save_plain_dir : forall M p out (w : world M), sound (files w) -> free (fst out) (files w) -> files w (whole out) = Some Dir -> savefig_target out = Ok out -> save_plain p out w = Raise IOError.
Proof.
  intros M p out w S F N T. destruct (create_ok M (fst out) (files w) S F) as (d1 & E & S1 & G1 & G2). unfold save_plain, savefig. rewrite E, T. cbn [bind].
  unfold write. rewrite (G1 (fst out)) by (exists []; now rewrite app_nil_r). rewrite (G2 (whole out)) by apply not_inside_whole. now rewrite N.
Qed.

(** ** Figures *)
Lemma filter_fresh : forall (l : list nat) n, (forall g, In g l -> g < n) -> filter (fun g => negb (Nat.eqb g n)) l = l.
Proof.
  induction l as [|x l IH]; intros n H; cbn; auto. destruct (Nat.eqb_spec x n) as [->|N]; cbn; [specialize (H n (or_introl eq_refl)); lia|]. f_equal. apply IH. intros g I. apply H. now right.
Qed.
Lemma filter_last : forall (l : list nat) n, (forall g, In g l -> g < n) -> filter (fun g => negb (Nat.eqb g n)) (l ++ [n]) = l.
Proof. intros l n H. rewrite filter_app, filter_fresh by auto. cbn. rewrite Nat.eqb_refl. cbn. apply app_nil_r. Qed.
Lemma drawing_figs : forall M p steps (w : world M), figs (drawing p steps w) = figs w /\ next (drawing p steps w) = next w /\ files (drawing p steps w) = files w /\ rc (drawing p steps w) = rc w.
Proof. intros M p. unfold drawing. induction steps as [|[[] m] steps IH]; intros w; cbn; auto; destruct (IH (draw (p_ax p) m w)) as (A & B & C & D), (IH (draw (p_fig p) m w)) as (A' & B' & C' & D'); auto. Qed.
Lemma drawing_drawn : forall M p steps (w : world M) g,
  drawn (drawing p steps w) g = drawn w g ++ map snd (filter (fun s : bool * M => Nat.eqb g (if fst s then p_ax p else p_fig p)) steps).
Proof.
  intros M p. unfold drawing. induction steps as [|[c m] steps IH]; intros w g; cbn [fold_left filter map]; [symmetry; apply app_nil_r|].
  rewrite IH. cbn [fst snd]. destruct c; cbn [on_ax on_fig draw drawn].
  - destruct (Nat.eqb_spec g (p_ax p)); cbn [map snd]; [now rewrite <- app_assoc|auto].
  - destruct (Nat.eqb_spec g (p_fig p)); cbn [map snd]; [now rewrite <- app_assoc|auto].
Qed.
Lemma map_filter_all : forall M (steps : list (bool * M)) f, (forall s, In s steps -> f s = true) -> map snd (filter f steps) = map snd steps.
Proof. intros M steps f H. induction steps as [|s l IH]; cbn; auto. rewrite H by now left. cbn. f_equal. apply IH. intros x I. apply H. now right. Qed.
Lemma map_filter_none : forall M (steps : list (bool * M)) f, (forall s, In s steps -> f s = false) -> map snd (filter f steps) = [].
Proof. intros M steps f H. induction steps as [|s l IH]; cbn; auto. rewrite H by now left. apply IH. intros x I. apply H. now right. Qed.
Lemma make_facts : forall M k o (w : world M), (forall g, In g (figs w) -> g < next w) -> o_ax o = None -> let (w1, p) := make k o w in
  p_kind p = k /\ drawn w1 = drawn w /\
  if one_figure k then next w <= p_fig p /\ p_ax p = p_fig p /\ figs w1 = figs w ++ [p_fig p] /\ next w1 = S (p_fig p) /\ files w1 = files w
  else p_ax p = next w /\ p_fig p = S (next w) /\ figs w1 = figs w ++ [next w; S (next w)] /\ next w1 = S (S (next w)) /\ files w1 = files w.
Proof.
  intros M k o w FR AX. destruct k; cbn [make one_figure]; unfold init_camera, init; rewrite ?AX; cbn [new_figure restyle close with_files figs next drawn rc files o_ax default p_kind p_fig p_ax].
  1-3: repeat split; lia.
  1: rewrite filter_last by auto; repeat split; lia.
  all: rewrite <- app_assoc; repeat split; lia.
Qed.

(** ** Reachable states *)
Lemma mkdir_sound : forall M k (d d' : disk M), sound d -> mkdir k d = Ok d' -> sound d'.
Proof.
  intros M k d d' SD E. unfold mkdir in E. destruct (d k) eqn:N; [discriminate|]. destruct (d (removelast k)) as [[|]|] eqn:D; try discriminate. injection E as <-.
  destruct k as [|n k _] using rev_ind; [destruct SD; congruence|]. rewrite removelast_last in D. apply sound_put; auto.
Qed.
Lemma makedirs_sound : forall M r (d d' : disk M), sound d -> makedirs r d = Ok d' -> sound d'.
Proof.
  intros M. induction r as [|n h IH]; intros d d' SD E; [discriminate|]. cbn [makedirs] in E.
  destruct (match h with [] => Ok d | _ => if present (rev h) d then Ok d else makedirs h d end) as [d1|] eqn:X; [|discriminate]. cbn [bind] in E.
  apply mkdir_sound in E; auto. destruct h; [now injection X as <-|]. destruct (present _ _); [now injection X as <-|]. now apply IH in X.
Qed.
Lemma create_sound : forall M k (d d' : disk M), sound d -> create_directory k d = Ok d' -> sound d'.
Proof.
  intros M k d d' SD E. unfold create_directory in E. destruct k; [now injection E as <-|]. destruct (present _ _); [now injection E as <-|]. now apply makedirs_sound in E.
Qed.
Lemma write_sound : forall M p c (d d' : disk M), sound d -> write p c d = Ok d' -> sound d'.
Proof.
  intros M p c d d' SD E. unfold write in E. destruct (d (fst p)) as [[|]|] eqn:D; try discriminate. destruct (d (whole p)) as [[|]|] eqn:N; try discriminate; injection E as <-; apply sound_put; auto; intros X; unfold whole in N; congruence.
Qed.
Lemma save_plain_sound : forall M p out (w w' : world M), sound (files w) -> save_plain p out w = Ok w' -> sound (files w').
Proof.
  intros M p out w w' SD E. unfold save_plain in E. destruct (create_directory _ _) as [d|] eqn:C; [|discriminate]. apply create_sound in C; auto. cbn [bind] in E. unfold savefig in E.
  destruct (savefig_target out) as [q|]; [|discriminate]. cbn [bind] in E. destruct (write _ _ _) as [d2|] eqn:W; [|discriminate]. apply write_sound in W; auto. injection E as <-. exact W.
Qed.
Lemma save_sound : forall M b p out (w w' : world M), sound (files w) -> save b p out w = Ok w' -> sound (files w').
Proof.
  intros M b p out w w' SD E. unfold save in E. assert (C : p_kind p = Camera \/ save_plain p out w = Ok w') by (destruct (p_kind p); auto). destruct C as [C|C]; [rewrite C in E|now apply save_plain_sound in C].
  unfold save_camera in E. destruct (save_plain p out w) as [w1|] eqn:P; [|discriminate]. apply save_plain_sound in P; auto. cbn [bind] in E. destruct (ends_with _ _); [|now injection E as <-].
  destruct (crop b out (files w1)) as [d|[]] eqn:K; try discriminate; injection E as <-; auto. cbn [files with_files]. unfold crop in K. destruct b; [|discriminate].
  destruct (read _ _) as [c|]; [|discriminate]. cbn [bind] in K. now apply write_sound in K.
Qed.
Lemma make_next : forall M k o (w : world M), ready w -> match o_ax o with Some f => f < next w | None => True end ->
  ready (fst (make k o w)) /\ next w <= next (fst (make k o w)).
Proof.
  intros M k o w (SD & FR & DR) AX.
  assert (R1 : forall n, In n (figs w ++ [next w]) -> n < S (next w)) by (intros n I; apply in_app_or in I as [I|[<-|[]]]; [specialize (FR n I); lia|lia]).
  assert (R2 : forall n, In n ((figs w ++ [next w]) ++ [S (next w)]) -> n < S (S (next w))) by (intros n I; apply in_app_or in I as [I|[<-|[]]]; [specialize (R1 n I); lia|lia]).
  destruct k; unfold make, init_camera, init; destruct (o_ax o) as [f|]; cbn [new_figure restyle close with_files figs next drawn rc files o_ax default fst];
    (split; [split; [exact SD|split; [|intros g L; apply DR; cbn in L; lia]]|cbn; lia]); intros g I; cbn [figs next new_figure restyle close with_files] in *; auto.
  - apply in_app_or in I as [I|[<-|[]]]; [|lia]. apply filter_In in I as [I _]. specialize (FR g I). lia.
  - apply in_app_or in I as [I|[<-|[]]]; [|lia]. apply filter_In in I as [I _]. specialize (R1 g I). lia.
Qed.
Lemma reached_ready : forall M b (w : world M), reached b w -> ready w.
Proof.
  intros M b w H. induction H as [s d SD|k o w H IH AX|p steps w H IH P1 P2|p out w w' H IH E].
  - repeat split; cbn; auto; try apply SD; tauto.
  - now apply make_next.
  - destruct IH as (SD & FR & DR). destruct (drawing_figs M p steps w) as (A & B & C & _). split; [now rewrite C|split; [rewrite A, B; exact FR|]]. rewrite B. intros g L.
    rewrite drawing_drawn, DR by auto. rewrite map_filter_none; auto. intros [[] m] _; cbn [fst]; apply Nat.eqb_neq; lia.
  - destruct IH as (SD & FR & DR). pose proof (save_sound M b p out w w' SD E) as S1. apply save_inv in E. split; [exact S1|]. rewrite E. cbn [figs next drawn close with_files]. split; [|exact DR].
    intros g I. apply filter_In in I as [I _]. auto.
Qed.

(** ** Style *)
Definition ticks_out : style := [("xtick.direction", Word "out"); ("ytick.direction", Word "out")]%string.
Definition settings (k : kind) (o : options) : list style :=
  match k with
  | Plain | Imshow | SpectrumFit => [own_style o]
  | Camera => [own_style o; ticks_out]
  | SpeCamera => [own_style default; own_style default; ticks_out; own_style default; ticks_out]
  | ModuleWaveforms => [own_style default]
  | PixelWaveforms => [own_style default; [("axes.linewidth", Num (1 # 10))]%string]
  end.
Lemma make_rc : forall M k o (w : world M), rc (fst (make k o w)) = fold_left dupdate (settings k o) (rc w).
Proof.
  intros M k o w. destruct k; unfold make, init_camera, init; destruct (o_ax o); cbn [new_figure restyle close with_files figs next drawn rc files o_ax default fst settings fold_left]; reflexivity.
Qed.
Lemma nodup_base : forall b, NoDup (dkeys (base_style b)).
Proof.
  intros b. assert (X : nodup string_dec (dkeys (base_style b)) = dkeys (base_style b)) by (destruct b; vm_compute; reflexivity).
  rewrite <- X. apply NoDup_nodup.
Qed.
Lemma nodup_own : forall o, NoDup (dkeys (own_style o)).
Proof. intros o. unfold own_style. destruct (o_talk o); [apply NoDup_dupdate|]; apply nodup_base. Qed.
Lemma nodup_settings : forall k o s, In s (settings k o) -> NoDup (dkeys s).
Proof.
  intros k o s I. assert (C : s = own_style o \/ s = own_style default \/ s = ticks_out \/ s = [("axes.linewidth", Num (1 # 10))]%string) by (destruct k; cbn in I; intuition).
  destruct C as [-> |[-> |[-> | ->]]]; try apply nodup_own; repeat constructor; cbn; intuition discriminate.
Qed.
Lemma settled : forall l key (s1 s2 : style), (forall s, In s l -> NoDup (dkeys s)) -> (exists s v, In s l /\ dget key s = Some v) -> dget key (fold_left dupdate l s1) = dget key (fold_left dupdate l s2).
Proof.
  assert (SAME : forall l key (s1 s2 : style), (forall s, In s l -> NoDup (dkeys s)) -> dget key s1 = dget key s2 -> dget key (fold_left dupdate l s1) = dget key (fold_left dupdate l s2)).
  { induction l as [|s l IH]; intros key s1 s2 N E; cbn; auto. apply IH; [intros x I; apply N; now right|]. rewrite !dget_dupdate by (apply N; now left). now rewrite E. }
  induction l as [|s l IH]; intros key s1 s2 N (x & v & I & V); [easy|]. cbn. destruct I as [-> |I].
  - apply SAME; [intros y J; apply N; now right|]. rewrite !dget_dupdate by (apply N; now left). now rewrite V.
  - apply IH; [intros y J; apply N; now right|]. now exists x, v.
Qed.
Lemma styled_has : forall o key, In key styled -> exists v, dget key (own_style o) = Some v.
Proof.
  intros [ax side talk] key I. assert (X : forallb (fun k => match dget k (own_style {| o_ax := ax; o_side := side; o_talk := talk |}) with Some _ => true | None => false end) styled = true) by (destruct side, talk; vm_compute; reflexivity).
  rewrite forallb_forall in X. specialize (X key I). destruct (dget key _) as [v|]; [now exists v|discriminate].
Qed.
