(** The charge columns and the merging of pulses. *)
From Coq Require Import List ZArith QArith Qcanon Bool Arith Lia.
From Verif.Base Require Import Num Lst.
From Verif.Reducers Require Import Model Proofs Proofs2.
From Verif.Nnls Require Import Model Proofs.
Import ListNotations.
Local Open Scope list_scope.
Local Open Scope Qc_scope.

Lemma qsum_partition : forall (f : Qc * Qc -> bool) l, qsum (map snd l) = qsum (map snd (filter f l)) + qsum (map snd (filter (fun x => negb (f x)) l)).
Proof.
  intros f l. induction l as [|h t IH]; cbn [filter map]; [reflexivity|]. rewrite qsum_cons, IH. destruct (f h); cbn [negb map]; rewrite qsum_cons; ring.
Qed.
Lemma positive_pulses_pos : forall bt x p, In p (positive_pulses bt x) -> 0 < snd p.
Proof.
  intros bt x p I. unfold positive_pulses in I. apply in_flat_map in I as ([t o] & _ & I). cbn [fst snd] in I. destruct o as [v|]; [|easy].
  destruct (qltb_spec 0 (v * qz 7)); [|easy]. destruct I as [<-|[]]. auto.
Qed.
Lemma seven : forall v, 0 < v * qz 7 <-> 0 < v.
Proof. intros. assert (0 < qz 7) as H by reflexivity. revert H. generalize (qz 7). intros c C. split; intros; [destruct (Qclt_le_dec 0 v); auto; exfalso|]; qnra. Qed.
Definition is_pulse (o : option Qc) : bool := match o with Some v => qltb 0 v | None => false end.
Definition value (o : option Qc) : Qc := match o with Some v => v | None => 0 end.
Lemma positive_pulses_count : forall bt x, List.length bt = List.length x -> List.length (positive_pulses bt x) = List.length (filter is_pulse x).
Proof.
  induction bt as [|t bt IH]; intros [|o x] L; try discriminate; auto. injection L as L. unfold positive_pulses in *. cbn [combine flat_map filter]. rewrite app_length, IH by auto. cbn [fst snd].
  unfold is_pulse at 2. destruct o as [v|]; auto. destruct (qltb_spec 0 (v * qz 7)) as [A|A], (qltb_spec 0 v) as [B|B]; auto; exfalso; [apply B; now apply (proj1 (seven v))|apply A; now apply (proj2 (seven v))].
Qed.
Lemma positive_pulses_sum : forall bt x, List.length bt = List.length x -> qsum (map snd (positive_pulses bt x)) = qz 7 * qsum (map value (filter is_pulse x)).
Proof.
  induction bt as [|t bt IH]; intros [|o x] L; try discriminate; [reflexivity|]. injection L as L. unfold positive_pulses in *. cbn [combine flat_map filter]. rewrite map_app, qsum_app, IH by auto. cbn [fst snd].
  unfold is_pulse at 2. destruct o as [v|]; [|cbn [map]; unfold qsum at 1; cbn [fold_right]; ring]. destruct (qltb_spec 0 (v * qz 7)) as [A|A], (qltb_spec 0 v) as [B|B].
  - cbn [map value snd]. rewrite !qsum_cons. unfold qsum at 1. cbn [fold_right]. ring.
  - exfalso. apply B. now apply (proj1 (seven v)).
  - exfalso. apply A, seven, B.
  - cbn [map]. unfold qsum at 1. cbn [fold_right]. ring.
Qed.
Lemma filter_all : forall A (f : A -> bool) l, (forall x, In x l -> f x = true) -> filter f l = l.
Proof. induction l as [|h t IH]; cbn [filter In]; auto. intros H. rewrite H by auto. f_equal. auto. Qed.
Lemma pos_filter : forall c : list (Qc * Qc), (forall p, In p c -> 0 < snd p) -> filter (fun tc => qltb 0 (snd tc)) c = c.
Proof. intros c H. apply filter_all. intros p P. destruct (qltb_spec 0 (snd p)) as [|N]; [auto|]. exfalso. auto. Qed.
Lemma qsum_pos_le : forall l v, (forall x, In x l -> 0 <= x) -> In v l -> v <= qsum l.
Proof.
  induction l as [|h t IH]; cbn [In]; [easy|]. intros v N [->|I]; rewrite qsum_cons.
  - assert (0 <= qsum t) by (apply qsum_nonneg; auto). qlra.
  - assert (v <= qsum t) by auto. assert (0 <= h) by auto. qlra.
Qed.

Lemma pixel_columns_spec : forall save av c, (forall p, In p c -> 0 < snd p) ->
  let row := pixel_columns save av c in
  charge_nnls row = qsum (map snd c) /\ charge_nnls row = nnls_tcharge row + nnls_tccharge row /\
  0 <= nnls_tmcharge row /\ nnls_tmcharge row <= nnls_tcharge row /\ 0 <= nnls_tccharge row /\
  nnls_npulses row = List.length c /\ pulses row = (if save then c else []) /\
  (nnls_tcharge row = 0 <-> forall p, In p c -> ~ qabs (fst p - av) <= window_ns) /\
  (nnls_tcharge row <> 0 -> (exists p, In p c /\ qabs (fst p - av) <= window_ns /\ snd p = nnls_tmcharge row) /\
                            forall p, In p c -> qabs (fst p - av) <= window_ns -> snd p <= nnls_tmcharge row).
Proof.
  intros save av c P row. unfold row, pixel_columns. cbn [charge_nnls nnls_tcharge nnls_tmcharge nnls_tccharge nnls_npulses pulses]. rewrite pos_filter by auto.
  set (tm := fun tc : Qc * Qc => qleb (qabs (fst tc - av)) window_ns && qltb 0 (snd tc)).
  change (fun tc : Qc * Qc => negb (qleb (qabs (fst tc - av)) window_ns && qltb 0 (snd tc))) with (fun tc => negb (tm tc)).
  assert (TM : forall p, In p (filter tm c) <-> In p c /\ qabs (fst p - av) <= window_ns).
  { intros p. rewrite filter_In. unfold tm. destruct (qleb_spec (qabs (fst p - av)) window_ns), (qltb_spec 0 (snd p)); cbn [andb]; split; intros [A B]; try easy; auto. }
  assert (PS : forall v, In v (map snd (filter tm c)) -> 0 < v) by (intros v V; apply in_map_iff in V as (p & <- & I); apply P, TM, I).
  assert (TC : (if negb (List.length (filter (fun tc => negb (tm tc)) c) =? 0)%nat then qsum (map snd (filter (fun tc => negb (tm tc)) c)) else 0) = qsum (map snd (filter (fun tc => negb (tm tc)) c))).
  { destruct (filter (fun tc => negb (tm tc)) c); reflexivity. }
  assert (T0 : 0 <= qsum (map snd (filter tm c))) by (apply qsum_nonneg; intros v V; apply PS in V; qlra).
  split; [auto|]. split; [rewrite TC; apply qsum_partition|].
  assert (Z : qsum (map snd (filter tm c)) = 0 <-> forall p, In p c -> ~ qabs (fst p - av) <= window_ns).
  { split.
    - intros E p I L. assert (In (snd p) (map snd (filter tm c))) as I2 by (apply in_map, TM; auto). pose proof (PS _ I2).
      apply qsum_pos_le in I2; [|intros v V; apply PS in V; qlra]. rewrite E in I2. qlra.
    - intros H. destruct (filter tm c) as [|p l] eqn:E; [reflexivity|]. exfalso. apply (H p); apply TM; left; auto. }
  assert (MX : qsum (map snd (filter tm c)) <> 0 -> qltb 0 (qsum (map snd (filter tm c))) = true /\ map snd (filter tm c) <> []).
  { intros N. split; [destruct (qltb_spec 0 (qsum (map snd (filter tm c)))) as [|B]; auto; exfalso; apply N; qlra|]. intro E. apply N. now rewrite E. }
  assert (IN : qsum (map snd (filter tm c)) <> 0 -> exists p, In p c /\ qabs (fst p - av) <= window_ns /\ snd p = qmax (map snd (filter tm c))).
  { intros N. destruct (MX N) as [_ NE]. destruct (qmax_spec _ NE) as [(k & K & E) _]. assert (In (qmax (map snd (filter tm c))) (map snd (filter tm c))) as I by (rewrite E; now apply nth_In).
    apply in_map_iff in I as (p & E2 & I). exists p. apply TM in I as [I1 I2]. auto. }
  destruct (Qc_eq_dec (qsum (map snd (filter tm c))) 0) as [E|N].
  - rewrite E. assert (qltb 0 0 = false) as -> by reflexivity. split; [apply Qcle_refl|]. split; [apply Qcle_refl|]. rewrite TC.
    split; [apply qsum_nonneg; intros v V; apply in_map_iff in V as (p & <- & I); apply filter_In in I as [I _]; apply P in I; qlra|].
    split; [auto|]. split.
    + destruct save; auto. destruct c; auto.
    + rewrite E in Z. split; [exact Z|]. intros X. now destruct X.
  - destruct (MX N) as [-> NE]. destruct (IN N) as (p & I1 & I2 & I3).
    assert (In (qmax (map snd (filter tm c))) (map snd (filter tm c))) as I by (rewrite <- I3; apply in_map, TM; auto).
    split; [apply PS in I; qlra|]. split; [apply qsum_pos_le; [intros v V; apply PS in V; qlra|auto]|]. rewrite TC.
    split; [apply qsum_nonneg; intros v V; apply in_map_iff in V as (q & <- & J); apply filter_In in J as [J _]; apply P in J; qlra|].
    split; [auto|]. split; [destruct save; auto; destruct c; auto|]. split; [auto|]. intros _. split; [now exists p|].
    intros q Q1 Q2. destruct (qmax_spec _ NE) as [_ MB]. assert (In (snd q) (map snd (filter tm c))) as IQ by (apply in_map, TM; auto).
    apply (In_nth _ _ 0) in IQ as (k & K & <-). auto.
Qed.

(** ** Merging *)
(** The bins that result from groups of consecutive pulses. *)
Definition weighted (g : list (Qc * Qc)) : Qc * Qc := (qsum (map (fun tc => fst tc * snd tc) g) / qsum (map snd g), qsum (map snd g)).
Lemma qsum_pos : forall l, l <> [] -> (forall x, In x l -> 0 < x) -> 0 < qsum l.
Proof.
  intros [|h t] N P; [easy|]. rewrite qsum_cons. assert (0 <= qsum t). { apply qsum_nonneg. intros x X. assert (0 < x) by (apply P; right; auto). qlra. }
  assert (0 < h) by (apply P; left; auto). qlra.
Qed.
Lemma qsum_snoc : forall l a, qsum (l ++ [a]) = qsum l + a.
Proof. intros. rewrite qsum_app. f_equal. unfold qsum. cbn [fold_right]. ring. Qed.
Lemma neq_pos : forall x : Qc, 0 < x -> x <> 0.
Proof. intros x P Z. rewrite Z in P. now apply Qclt_not_eq in P. Qed.
Lemma merge_groups : forall bw ps gs, (forall p, In p ps -> 0 < snd p) -> (forall g, In g gs -> g <> [] /\ forall p, In p g -> 0 < snd p) ->
  exists gs', fold_left (merge_step bw) ps (map weighted gs) = map weighted gs' /\ List.concat (rev gs') = List.concat (rev gs) ++ ps /\
    (forall g, In g gs' -> g <> [] /\ forall p, In p g -> 0 < snd p).
Proof.
  intros bw. induction ps as [|p ps IH]; intros gs P G; [exists gs; now rewrite app_nil_r|]. cbn [fold_left].
  assert (0 < snd p) as PP by (apply P; left; auto).
  destruct gs as [|g gs].
  - cbn [map merge_step]. destruct (IH [[p]]) as (gs' & E & C & N).
    + intros q Q. apply P. now right.
    + intros g [<-|[]]. split; [discriminate|]. intros q [<-|[]]. auto.
    + exists gs'. split; [|split; auto].
      * rewrite <- E. f_equal. cbn [map]. f_equal. unfold weighted. cbn [map]. rewrite !qsum_cons. unfold qsum. cbn [fold_right]. destruct p as [t c]. cbn [fst snd] in *. f_equal; [|ring]. field. now apply neq_pos.
  - cbn [map merge_step]. unfold weighted at 1. set (bc := qsum (map snd g)). set (bt := qsum (map (fun tc => fst tc * snd tc) g) / bc).
    assert (0 < bc) as BC. { destruct (G g (or_introl eq_refl)) as [GN GP]. apply qsum_pos; [destruct g; [easy|discriminate]|]. intros x X. apply in_map_iff in X as (q & <- & Q). auto. }
    destruct (qltb (fst p - bt) bw).
    + destruct (IH ((g ++ [p]) :: gs)) as (gs' & E & C & N).
      * intros q Q. apply P. now right.
      * intros g' [<-|I]; [|apply G; now right]. destruct (G g (or_introl eq_refl)) as [GN GP]. split; [now destruct g|]. intros q Q. apply in_app_or in Q as [Q|[<-|[]]]; auto.
      * exists gs'. split; [|split; auto].
        -- rewrite <- E. f_equal. cbn [map]. f_equal. unfold weighted. rewrite !map_app. cbn [map]. rewrite !qsum_snoc. fold bc. f_equal. f_equal. f_equal.
           unfold bt. field. now apply neq_pos.
        -- rewrite C. cbn [rev]. rewrite !concat_app. cbn [List.concat]. rewrite !app_nil_r, <- !app_assoc. reflexivity.
    + destruct (IH ([p] :: g :: gs)) as (gs' & E & C & N).
      * intros q Q. apply P. now right.
      * intros g' [<-|I]; [|apply G; auto]. split; [discriminate|]. intros q [<-|[]]. auto.
      * exists gs'. split; [|split; auto].
        -- rewrite <- E. f_equal. cbn [map]. f_equal. unfold weighted. cbn [map]. rewrite !qsum_cons. unfold qsum. cbn [fold_right]. destruct p as [t c]. cbn [fst snd] in *. f_equal; [|ring]. field. now apply neq_pos.
        -- rewrite C. cbn [rev]. rewrite !concat_app. cbn [List.concat]. rewrite !app_nil_r, <- !app_assoc. reflexivity.
Qed.
Lemma merge_spec : forall bw ps, (forall p, In p ps -> 0 < snd p) ->
  exists gs, merge_pulses bw ps = map weighted gs /\ List.concat gs = ps /\ (forall g, In g gs -> g <> []).
Proof.
  intros bw ps P. destruct (merge_groups bw ps [] P) as (gs & E & C & N); [easy|]. exists (rev gs). unfold merge_pulses. cbn [map] in E. rewrite E, map_rev. split; [auto|]. split; [auto|].
  intros g G. apply in_rev in G. now apply N.
Qed.
Lemma le_of_mul : forall a b s, 0 < s -> a * s <= b * s -> a <= b.
Proof.
  intros a b s P H. destruct (Qclt_le_dec b a) as [L|]; auto. exfalso. assert (0 < (a - b) * s) as D. { assert (0 < a - b) as D by qlra. revert D P. generalize (a - b). clear. intros. qnra. }
  replace ((a - b) * s) with (a * s - b * s) in D by ring. qlra.
Qed.
Lemma weighted_range : forall g lo hi, g <> [] -> (forall p, In p g -> 0 < snd p /\ lo <= fst p /\ fst p <= hi) -> lo <= fst (weighted g) /\ fst (weighted g) <= hi.
Proof.
  intros g lo hi N H. unfold weighted. cbn [fst]. set (S := qsum (map snd g)).
  assert (0 < S) as SP. { apply qsum_pos; [destruct g; [easy|discriminate]|]. intros x X. apply in_map_iff in X as (q & <- & Q). now apply H. }
  assert (lo * S <= qsum (map (fun tc => fst tc * snd tc) g)) as A.
  { unfold S. rewrite <- qsum_map_scale. apply qsum_le. intros [t c] I. destruct (H _ I) as (X & Y & _). cbn [fst snd] in *. qnra. }
  assert (qsum (map (fun tc => fst tc * snd tc) g) <= hi * S) as B.
  { unfold S. rewrite <- qsum_map_scale. apply qsum_le. intros [t c] I. destruct (H _ I) as (X & _ & Y). cbn [fst snd] in *. qnra. }
  set (T := qsum (map (fun tc => fst tc * snd tc) g)) in *. assert (T / S * S = T) as E by (field; now apply neq_pos). rewrite <- E in A, B. split; eapply le_of_mul; eauto.
Qed.

(** Bins in reverse order that keep a distance. *)
Fixpoint spaced (bw : Qc) (bins : list (Qc * Qc)) : Prop :=
  match bins with
  | a :: (b :: _) as rest => bw <= fst a - fst b /\ spaced bw rest
  | _ => True
  end.
Fixpoint times_increasing (last : Qc) (ps : list (Qc * Qc)) : Prop :=
  match ps with [] => True | p :: rest => last <= fst p /\ times_increasing (fst p) rest end.
Lemma merge_spaced : forall bw ps bins last, (forall p, In p ps -> 0 < snd p) -> times_increasing last ps -> spaced bw bins ->
  (match bins with [] => True | h :: _ => fst h <= last /\ 0 < snd h end) -> spaced bw (fold_left (merge_step bw) ps bins).
Proof.
  intros bw. induction ps as [|p ps IH]; intros bins last P T S H; [exact S|]. cbn [fold_left]. destruct T as [T1 T2]. assert (0 < snd p) as PP by (apply P; left; auto).
  assert (forall q, In q ps -> 0 < snd q) as P' by (intros; apply P; now right).
  destruct bins as [|[bt bc] rest]; cbn [merge_step].
  - apply (IH _ (fst p)); auto. split; [apply Qcle_refl|auto].
  - cbn [fst snd] in H. destruct H as [H1 H2]. set (nt := (bt * bc + fst p * snd p) / (bc + snd p)).
    assert (0 < bc + snd p) as CP by qlra. assert (nt * (bc + snd p) = bt * bc + fst p * snd p) as E by (unfold nt; field; now apply neq_pos).
    assert (bt <= nt /\ nt <= fst p) as [B1 B2].
    { clearbody nt. assert (bt <= fst p) as BP by qlra. clear P IH T2 P' S. destruct p as [t c]. cbn [fst snd] in *. split.
      - destruct (Qclt_le_dec nt bt) as [X|]; auto. exfalso. assert (0 < (bt - nt) * (bc + c)). { assert (0 < bt - nt) as D by qlra. revert D CP. generalize (bt - nt), (bc + c). intros. qnra. }
        replace ((bt - nt) * (bc + c)) with (bt * bc + bt * c - nt * (bc + c)) in H by ring. rewrite E in H. assert (bt * c <= t * c) by (clear -BP PP; qnra). clear -H H0. qlra.
      - destruct (Qclt_le_dec t nt) as [X|]; auto. exfalso. assert (0 < (nt - t) * (bc + c)). { assert (0 < nt - t) as D by qlra. revert D CP. generalize (nt - t), (bc + c). intros. qnra. }
        replace ((nt - t) * (bc + c)) with (nt * (bc + c) - t * bc - t * c) in H by ring. rewrite E in H. assert (bt * bc <= t * bc) by (clear -BP H2; qnra). clear -H H0. qlra. }
    destruct (qltb_spec (fst p - bt) bw) as [L|L].
    + apply (IH _ (fst p)); auto. destruct rest as [|[t2 c2] rest]; [exact I|]. cbn [spaced fst] in *. destruct S as [S1 S2]. split; [clearbody nt; qlra|auto].
    + apply (IH _ (fst p)); auto; [|split; [apply Qcle_refl|auto]]. cbn [spaced fst] in *. split; [qlra|auto].
Qed.
Lemma spaced_nth : forall bw bins i, spaced bw bins -> (S i < List.length bins)%nat -> bw <= fst (nth i bins (0, 0)) - fst (nth (S i) bins (0, 0)).
Proof.
  intros bw bins. induction bins as [|a [|b rest] IH]; intros i S L; cbn [List.length] in L; try lia. destruct S as [S1 S2]. destruct i; [exact S1|].
  change (nth (Datatypes.S i) (a :: b :: rest) (0, 0)) with (nth i (b :: rest) (0, 0)). change (nth (Datatypes.S (Datatypes.S i)) (a :: b :: rest) (0, 0)) with (nth (Datatypes.S i) (b :: rest) (0, 0)). apply IH; auto. cbn [List.length]. lia.
Qed.
Lemma merge_gaps : forall bw ps, (forall p, In p ps -> 0 < snd p) -> (forall i, (S i < List.length ps)%nat -> fst (nth i ps (0, 0)) <= fst (nth (S i) ps (0, 0))) ->
  forall i, (S i < List.length (merge_pulses bw ps))%nat -> fst (nth i (merge_pulses bw ps) (0, 0)) + bw <= fst (nth (S i) (merge_pulses bw ps) (0, 0)).
Proof.
  intros bw ps P T i I. unfold merge_pulses in *. rewrite rev_length in I. rewrite !rev_nth by lia.
  assert (spaced bw (fold_left (merge_step bw) ps [])) as SP.
  { destruct ps as [|p ps]; [exact Logic.I|]. apply (merge_spaced bw (p :: ps) [] (fst p)); auto; try exact Logic.I. split; [apply Qcle_refl|].
    clear -T. revert p T. induction ps as [|q ps IH]; intros p T; [exact Logic.I|]. split; [apply (T 0%nat); cbn [List.length]; lia|]. apply IH. intros i L. apply (T (S i)). cbn [List.length] in *. lia. }
  set (l := fold_left (merge_step bw) ps []) in *. pose proof (spaced_nth bw l (List.length l - S (S i)) SP ltac:(lia)) as B.
  replace (Datatypes.S (List.length l - S (S i))) with (List.length l - S i)%nat in B by lia. qlra.
Qed.
