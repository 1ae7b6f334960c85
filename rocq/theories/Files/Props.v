(** Properties C44-C48: pixel masks, natural sorting, HV configuration files. *)
From Coq Require Import List ZArith NArith Bool Arith String Ascii Lia Permutation Sorted.
From Verif.Base Require Import Py Lex.
From Verif.Files Require Import Model Proofs Proofs2 Proofs3.
Import ListNotations.
Local Open Scope list_scope.

(** ** C44. [wf n m]: the masks have 4n, 4n and n entries (n = 512 in the code). *)
Theorem C44_round_trip : forall n_sp m m0, wf n_sp m ->
  exists f, to_csv m = Ok f /\ load_csv n_sp m0 f false = Ok m.
Proof. exact c44_round_trip. Qed.
Print Assumptions C44_round_trip.

(** Merging any list of files that hold the masks [cs]. *)
Theorem C44_merge_is_or : forall n_sp fs cs, Forall2 (holds n_sp) fs cs -> forall m, wf n_sp m ->
  exists m', foldM (fun m f => load_csv n_sp m f true) fs m = Ok m' /\ wf n_sp m' /\
  forall i, nth i (dead m') false = existsb (fun c => nth i (dead c) false) (m :: cs) /\
            nth i (low m') false = existsb (fun c => nth i (low c) false) (m :: cs) /\
            nth i (bad_hv m') false = existsb (fun c => nth i (bad_hv c) false) (m :: cs).
Proof. exact merge_all. Qed.
Print Assumptions C44_merge_is_or.

Theorem C44_merge_never_unmasks : forall n_sp fs cs m m' i, Forall2 (holds n_sp) fs cs -> wf n_sp m ->
  foldM (fun m f => load_csv n_sp m f true) fs m = Ok m' ->
  (nth i (dead m) false = true -> nth i (dead m') false = true) /\
  (nth i (low m) false = true -> nth i (low m') false = true) /\
  (nth i (bad_hv m) false = true -> nth i (bad_hv m') false = true).
Proof.
  intros n_sp fs cs m m' i F W E. destruct (merge_all n_sp fs cs F m W) as (m2 & E2 & _ & G). rewrite E in E2. injection E2 as <-.
  destruct (G i) as (-> & -> & ->). cbn [existsb]. repeat split; intros ->; reflexivity.
Qed.
Print Assumptions C44_merge_never_unmasks.

Theorem C44_merge_order : forall n_sp fs cs fs' cs' m, wf n_sp m -> Forall2 (holds n_sp) fs cs -> Forall2 (holds n_sp) fs' cs' ->
  Permutation cs cs' ->
  foldM (fun m f => load_csv n_sp m f true) fs m = foldM (fun m f => load_csv n_sp m f true) fs' m.
Proof. exact merge_order. Qed.
Print Assumptions C44_merge_order.

(** Saved files hold their masks, so the merge theorems apply to them. *)
Theorem C44_saved_files_hold : forall n_sp m f, wf n_sp m -> to_csv m = Ok f -> holds n_sp f m.
Proof. intros n_sp m f W E. split; auto. intro m0. destruct (c44_round_trip n_sp m m0 W) as (f' & E' & L). congruence. Qed.
Print Assumptions C44_saved_files_hold.

(** So does every file with boolean columns of those names, in any order and among others: a superpixel is bad when any
    of its four rows says so, also when the rows differ (a saved file never has that). *)
Theorem C44_file_rows : forall n_sp f kd kl kh, List.length (rows f) = (4 * n_sp)%nat ->
  column_at f (T "dead") kd -> column_at f (T "low") kl -> column_at f (T "bad_hv") kh ->
  boolean_column f kd -> boolean_column f kl -> boolean_column f kh ->
  exists m, holds n_sp f m /\
  (forall i, nth i (dead m) false = true <-> cell f i kd = Some (T "True")) /\
  (forall i, nth i (low m) false = true <-> cell f i kl = Some (T "True")) /\
  (forall s, (s < n_sp)%nat -> (nth s (bad_hv m) false = true <-> exists j, (j < 4)%nat /\ cell f (4 * s + j) kh = Some (T "True"))).
Proof. exact file_rows. Qed.
Print Assumptions C44_file_rows.
Example C44_file_rows_ex : load_csv 1 (Masks [] [] []) (Csv [T "bad_hv"; T "low"; T "note"; T "dead"]
   [[T "False"; T "True"; T "x"; T "False"]; [T "False"; T "False"; T ""; T "True"]; [T "True"; T "False"; T "y"; T "False"]; [T "False"; T "False"; T ""; T "False"]]) false
  = Ok (Masks [false; true; false; false] [true; false; false; false] [true]).
Proof. vm_compute. reflexivity. Qed.

(** Only such files are accepted: a missing column, a row too short or a field other than True and False is refused. *)
Lemma index_of_found : forall h name k, index_of name h = Some k -> nth_error h k = Some name /\ ~ In name (firstn k h).
Proof.
  assert (TE : forall a b : text, text_eqb a b = true <-> a = b).
  { induction a as [|x a IH]; intros [|y b]; cbn [text_eqb]; try (split; [discriminate|discriminate]); [tauto|]. rewrite andb_true_iff, IH, Ascii.eqb_eq. split; [intros [-> ->]; reflexivity|intros E; injection E; auto]. }
  induction h as [|x h IH]; intros name k E; cbn [index_of] in E; [discriminate|]. destruct (text_eqb x name) eqn:X.
  - injection E as <-. apply TE in X. subst. cbn. auto.
  - destruct (index_of name h) as [j|] eqn:J; [|discriminate]. injection E as <-. destruct (IH _ _ J) as [N I]. split; [exact N|]. cbn [firstn]. intros [<-|H]; [|now apply I].
    assert (text_eqb x x = true) by now apply TE. congruence.
Qed.
Lemma column_accepted : forall f name l, column f name = Ok l -> exists k, column_at f name k /\ boolean_column f k /\ List.length l = List.length (rows f).
Proof.
  intros f name l E. unfold column in E. destruct (index_of name (header f)) as [k|] eqn:K; [|discriminate]. exists k. split; [now apply index_of_found|].
  unfold boolean_column, cell. revert l E. induction (rows f) as [|r rs IH]; intros l E.
  - injection E as <-. split; [intros i I; cbn in I; lia|reflexivity].
  - cbn [mapM] in E. unfold bind in E. destruct (nth_error r k) as [t|] eqn:N; [|discriminate]. destruct (parse_bool t) as [b|] eqn:B; [|discriminate].
    match type of E with context [mapM ?g rs] => destruct (mapM g rs) as [l'|] eqn:M end; [|discriminate]. injection E as <-. destruct (IH _ eq_refl) as [P L]. split; [|cbn; now rewrite L].
    intros [|i] I; [|apply P; cbn in I; lia]. cbn [nth_error]. rewrite N. unfold parse_bool in B.
    assert (TE : forall a b : text, text_eqb a b = true -> a = b).
    { clear. induction a as [|x a IH]; intros [|y b]; cbn [text_eqb]; try discriminate; [reflexivity|]. rewrite andb_true_iff, Ascii.eqb_eq. intros [-> E]. now rewrite (IH _ E). }
    destruct (text_eqb t (T "True")) eqn:T1; [left; now rewrite (TE _ _ T1)|]. destruct (text_eqb t (T "False")) eqn:T2; [right; now rewrite (TE _ _ T2)|discriminate].
Qed.
Theorem C44_accepted : forall n_sp m f merge m', load_csv n_sp m f merge = Ok m' ->
  List.length (rows f) = (4 * n_sp)%nat /\ forall name, In name [T "dead"; T "low"; T "bad_hv"] -> exists k, column_at f name k /\ boolean_column f k.
Proof.
  intros n_sp m f merge m' E. unfold load_csv, bind in E.
  destruct (column f (T "dead")) as [d|] eqn:D; [|discriminate]. destruct (column f (T "low")) as [l|] eqn:L; [|discriminate]. destruct (column f (T "bad_hv")) as [h|] eqn:H; [|discriminate].
  destruct (column_accepted _ _ _ D) as (kd & D1 & D2 & _), (column_accepted _ _ _ L) as (kl & L1 & L2 & _), (column_accepted _ _ _ H) as (kh & H1 & H2 & H3).
  unfold reshape_any in E. destruct (Nat.eqb_spec (List.length h) (4 * n_sp)) as [S|S]; [|discriminate]. split; [congruence|].
  intros name [<-|[<-|[<-|[]]]]; eauto.
Qed.
Print Assumptions C44_accepted.
Example C44_accepted_ex : load_csv 1 (Masks [] [] []) (Csv [T "dead"; T "bad_hv"] (repeat [T "False"; T "False"] 4)) false = Raise KeyError /\
  load_csv 1 (Masks [] [] []) (Csv [T "dead"; T "low"; T "bad_hv"] (repeat [T "False"; T "no"; T "False"] 4)) false = Raise ValueError.
Proof. split; vm_compute; reflexivity. Qed.

(** What a saved file looks like: four columns, the first counts the pixels in decimal. *)
Theorem C44_saved_layout : forall m f, to_csv m = Ok f ->
  header f = [T "pixel"; T "dead"; T "low"; T "bad_hv"] /\ List.length (rows f) = List.length (dead m) /\
  (forall i r, nth_error (rows f) i = Some r -> List.length r = 4%nat) /\
  forall i, (i < List.length (dead m))%nat -> exists s, cell f i 0 = Some (T s) /\ Str.undec s = Some (N.of_nat i).
Proof.
  intros m f E. unfold to_csv in E. destruct (_ && _); [|discriminate]. injection E as <-. cbn [header rows]. split; [reflexivity|].
  split; [now rewrite map_length, seq_length|]. split.
  - intros i r N. rewrite nth_error_map in N. destruct (nth_error (seq _ _) i); [|discriminate]. injection N as <-. reflexivity.
  - intros i I. exists (Str.dec (N.of_nat i)). unfold cell. cbn [rows]. rewrite nth_error_map, (nth_error_nth' _ 0%nat) by (now rewrite seq_length).
    rewrite seq_nth by exact I. split; [reflexivity|apply Str.undec_dec].
Qed.
Print Assumptions C44_saved_layout.
Example C44_saved_layout_ex : (do f <- to_csv (Masks (repeat false 12) (repeat false 12) [true; false; false]); Ok (cell f 11 0, cell f 3 3, cell f 4 3))%py = Ok (Some (T "11"), Some (T "True"), Some (T "False")).
Proof. vm_compute. reflexivity. Qed.

Theorem C44_all_mask : forall n_sp m, wf n_sp m -> exists a, all_mask m = Ok a /\ List.length a = (4 * n_sp)%nat /\
  forall i, nth i a false = nth i (dead m) false || nth i (low m) false || nth (i / 4) (bad_hv m) false.
Proof. exact all_mask_spec. Qed.
Print Assumptions C44_all_mask.

Definition mA := Masks [true; false; false; false; false; false; false; false] (repeat false 8) [false; true].
Definition mB := Masks (repeat false 8) [false; false; true; false; false; false; false; false] [false; false].
Example C44_ex : (do f <- to_csv mA; load_csv 2 mB f false)%py = Ok mA /\
  (do f <- to_csv mA; load_csv 2 mB f true)%py =
    Ok (Masks [true; false; false; false; false; false; false; false] [false; false; true; false; false; false; false; false] [false; true]) /\
  all_mask mA = Ok [true; false; false; false; true; true; true; true].
Proof. repeat match goal with |- _ /\ _ => split; [vm_compute; reflexivity|] end; vm_compute; reflexivity. Qed.

(** ** C45. [prefix] is the path of the pixel_masks directory with its separator; [listing] the order in which glob
    lists the files. The files there before the first commit sort before it or are the file it replaces. *)
Theorem C45_last_commit_is_default : forall n_sp prefix d d' cs c listing,
  plain prefix -> cs <> [] -> last cs c = c ->
  Forall (fun c => valid (fst c) /\ same_century (fst c) (fst (hd c cs))) cs ->
  StronglySorted (fun a b => (clock_num (fst a) <= clock_num (fst b))%N) cs ->
  (forall n, In n (map fst d) -> not_newer prefix (fst (hd c cs)) n) ->
  wf n_sp (snd c) -> commits d cs = Ok d' -> Permutation listing (map fst d') ->
  new_masks n_sp prefix d' listing = Ok (snd c).
Proof. exact c45. Qed.
Print Assumptions C45_last_commit_is_default.

(** Files of earlier commits are not newer. *)
Theorem C45_earlier_commits_not_newer : forall prefix a b, plain prefix -> valid a -> valid b -> same_century a b ->
  (clock_num a <= clock_num b)%N -> not_newer prefix b (file_name a).
Proof.
  intros prefix a b PL VA VB C L. split; [apply plain_not_bad, plain_app; auto; now apply plain_file|]. now apply file_order.
Qed.
Print Assumptions C45_earlier_commits_not_newer.

(** The century matters: a commit in 2100 is sorted before one in 2099. *)
Definition t2099 := Clock 2099 12 31 23 59.
Definition t2100 := Clock 2100 1 1 0 0.
Example C45_ex :
  (do d <- commits [] [(Clock 2019 4 17 13 9, mA); (Clock 2019 4 28 21 49, mB)];
   new_masks 2 (T "/py3.7/pixel_masks/") d [T "d190428T2149.dat"; T "d190417T1309.dat"])%py = Ok mB /\
  (do d <- commits [] [(t2099, mA); (t2100, mB)];
   new_masks 2 (T "/py3.7/pixel_masks/") d [T "d991231T2359.dat"; T "d000101T0000.dat"])%py = Ok mA.
Proof. split; vm_compute; reflexivity. Qed.

(** ** C46 *)
Theorem C46_superpixels : forall l, convert_superpixels_to_pixels l = flat_map (fun s => [4 * s; 4 * s + 1; 4 * s + 2; 4 * s + 3]%Z) l.
Proof.
  intro l. unfold convert_superpixels_to_pixels. rewrite expand_spec by lia. induction l as [|s l IH]; auto. cbn [flat_map]. rewrite IH. f_equal.
  cbn [seq map]. replace (s * Z.of_nat 4 + Z.of_nat 0)%Z with (4 * s)%Z by lia. replace (s * Z.of_nat 4)%Z with (4 * s)%Z by lia. reflexivity.
Qed.
Print Assumptions C46_superpixels.

Theorem C46_modules : forall l, convert_module_to_pixels l = flat_map (fun m => map (fun i => 64 * m + Z.of_nat i)%Z (seq 0 64)) l.
Proof.
  intro l. unfold convert_module_to_pixels. rewrite expand_spec by lia. induction l as [|s l IH]; auto. cbn [flat_map]. rewrite IH. f_equal.
  apply map_ext. intro. lia.
Qed.
Print Assumptions C46_modules.

(** The pixels of the set superpixels are those set in np.repeat(mask, 4). *)
Theorem C46_agrees_with_repeat : forall mask i, (i < 4 * List.length mask)%nat ->
  (In (Z.of_nat i) (convert_superpixels_to_pixels (map Z.of_nat (filter (fun s => nth s mask false) (seq 0 (List.length mask)))))
   <-> nth i (np_repeat mask 4) false = true).
Proof. intros mask i I. apply expand_mask; lia. Qed.
Print Assumptions C46_agrees_with_repeat.

Example C46_ex : convert_superpixels_to_pixels [3; 0]%Z = [12; 13; 14; 15; 0; 1; 2; 3]%Z.
Proof. vm_compute. reflexivity. Qed.

(** ** C47. [bad_name s]: a maximal run of non-digits of [s] consists of superscript digits only. *)
Theorem C47_sort : forall l, existsb bad_name l = false ->
  exists l', sort_file_list l = Ok l' /\ Permutation l' l /\
  StronglySorted (fun a b => exists ka kb, natural_keys a = Ok ka /\ natural_keys b = Ok kb /\ key_lt kb ka = Ok false) l' /\
  forall k, filter (fun s => match natural_keys s with Ok k' => match lexc kcmp k' k with Eq => true | _ => false end | Raise _ => false end) l' =
            filter (fun s => match natural_keys s with Ok k' => match lexc kcmp k' k with Eq => true | _ => false end | Raise _ => false end) l.
Proof.
  intros l H. rewrite sort_ok by auto. eexists. split; [reflexivity|]. destruct (srt_spec _ _ nkey lkcmp lk_total l) as (P & S & F). set (l' := srt nkey lkcmp l) in *.
  assert (forall s, In s l -> bad_name s = false) as B.
  { intros s I. destruct (bad_name s) eqn:E; auto. assert (existsb bad_name l = true) by (apply existsb_exists; eauto). congruence. }
  split; auto. split.
  - assert (forall s, In s l' -> bad_name s = false) as B' by (intros s I; apply B; now rewrite <- P). clear - S B'.
    induction S as [|a l' S IH F]; constructor; auto.
    + apply IH. intros s I. apply B'. now right.
    + rewrite Forall_forall in *. intros b I. destruct (natural_keys_ok a) as [KA AA]; [apply B'; now left|]. destruct (natural_keys_ok b) as [KB AB]; [apply B'; now right|].
      exists (nkey a), (nkey b). repeat split; auto. rewrite (key_lt_alt _ _ true) by auto. f_equal. specialize (F b I). unfold le in F.
      rewrite (tc_anti _ lk_total (nkey a) (nkey b)). destruct (lkcmp (nkey a) (nkey b)); try reflexivity. congruence.
  - intro k.
    assert (forall l0, (forall s, In s l0 -> bad_name s = false) -> filter (fun s => match natural_keys s with Ok k' => match lexc kcmp k' k with Eq => true | _ => false end | Raise _ => false end) l0 = filter (same nkey lkcmp k) l0) as X.
    { induction l0 as [|s l0 IH]; intros B0; auto. cbn [filter]. rewrite IH by (intros; apply B0; now right).
      destruct (natural_keys_ok s) as [KS _]; [apply B0; now left|]. rewrite KS. reflexivity. }
    rewrite !X; auto. intros s I. apply B. now rewrite <- P.
Qed.
Print Assumptions C47_sort.

(** The only failure: the int() of a run of superscript digits. *)
Theorem C47_failure : forall l, existsb bad_name l = true -> sort_file_list l = Raise ValueError.
Proof. exact sort_bad. Qed.
Print Assumptions C47_failure.
Theorem C47_plain_names : forall l, Forall plain l -> existsb bad_name l = false.
Proof.
  intros l F. destruct (existsb bad_name l) eqn:E; auto. apply existsb_exists in E as (s & I & B). rewrite Forall_forall in F.
  rewrite (plain_not_bad s (F s I)) in B. discriminate.
Qed.
Print Assumptions C47_plain_names.

(** Two names equal up to a number: the number decides, by value and whatever its leading zeros; if the numbers have
    the same value, the rest decides. *)
Theorem C47_numbers_by_value : forall p a b s1 s2, ends_text p -> digits a -> digits b -> starts_text s1 -> starts_text s2 ->
  existsb bad_name [p ++ a ++ s1; p ++ b ++ s2; s1; s2] = false ->
  exists ka kb k1 k2, natural_keys (p ++ a ++ s1) = Ok ka /\ natural_keys (p ++ b ++ s2) = Ok kb /\
    natural_keys s1 = Ok k1 /\ natural_keys s2 = Ok k2 /\
    key_lt ka kb = if (digits_val a =? digits_val b)%N then key_lt k1 k2 else Ok (digits_val a <? digits_val b)%N.
Proof.
  intros p a b s1 s2 P A B S1 S2 H. cbn [existsb] in H. apply orb_false_iff in H as [H1 H]. apply orb_false_iff in H as [H2 H].
  apply orb_false_iff in H as [H3 H]. apply orb_false_iff in H as [H4 _].
  destruct (natural_keys_ok _ H1) as [E1 A1], (natural_keys_ok _ H2) as [E2 A2], (natural_keys_ok _ H3) as [E3 A3], (natural_keys_ok _ H4) as [E4 A4].
  do 4 eexists. repeat split; eauto. rewrite !(key_lt_alt _ _ true) by auto. rewrite nkey_number_order by auto.
  destruct (N.compare_spec (digits_val a) (digits_val b)) as [->|L|L].
  - now rewrite N.eqb_refl.
  - rewrite (proj2 (N.eqb_neq _ _)) by lia. now rewrite (proj2 (N.ltb_lt _ _) L).
  - rewrite (proj2 (N.eqb_neq _ _)) by lia. now rewrite (proj2 (N.ltb_ge _ _)) by lia.
Qed.
Print Assumptions C47_numbers_by_value.

Example C47_ex : sort_file_list [T "Run10_r1.tio"; T "Run9_r1.tio"; T "Run009_dl1.h5"; T "Run2_r1.tio"] =
  Ok [T "Run2_r1.tio"; T "Run009_dl1.h5"; T "Run9_r1.tio"; T "Run10_r1.tio"].
Proof. vm_compute. reflexivity. Qed.
(** A superscript two between digits. *)
Example C47_ex_failure : sort_file_list [T "1" ++ [ascii_of_N 178] ++ T "3"] = Raise ValueError.
Proof. vm_compute. reflexivity. Qed.

(** ** C48 *)
Theorem C48_configuration : forall items, Forall item_ok items ->
  exists dac hvon, extract_hv_cfg (map render items) = Ok (dac, hvon) /\
  forall tm sp, (tm < 32)%nat -> (sp < 16)%nat ->
    get2 dac tm sp = last_value false items tm sp /\ get2 hvon tm sp = last_value true items tm sp.
Proof. exact c48. Qed.
Print Assumptions C48_configuration.

Definition cfg := [Set_ false (T "  ") (T "3") (T "15") (T "120") [ascii_of_N 10]; Other (T "# M:3/F/S:15|HV=none");
                   Set_ true [] (T "3") (T "15") (T "1") (T " "); Set_ false [] (T "03") (T "15") (T "100") []].
Example C48_ex : Forall item_ok cfg /\ last_value false cfg 3 15 = 100%Z /\ last_value true cfg 3 15 = 1%Z /\ last_value false cfg 0 0 = 0%Z.
Proof.
  split; [|vm_compute; auto]. assert (forall a, forallb is_d a = true -> negb (match a with [] => true | _ => false end) = true -> digits a) as D.
  { intros [|c a] H1 H2; [discriminate|]. split; auto. discriminate. }
  repeat apply Forall_cons; try apply Forall_nil; cbn [item_ok].
  - repeat split; try (apply D; vm_compute; reflexivity); try (vm_compute; reflexivity); intros _; vm_compute; reflexivity.
  - intros p g1 g2 g3 q E D1 D2 D3 S. refine (re_search_none_inv _ _ _ p g1 g2 g3 q E D1 D2 D3 S). vm_compute. reflexivity.
  - repeat split; try (apply D; vm_compute; reflexivity); try (vm_compute; reflexivity); intros X; discriminate X.
  - repeat split; try (apply D; vm_compute; reflexivity); try (vm_compute; reflexivity); intros _; vm_compute; reflexivity.
Qed.
