(** * C116: what combining detectors does to the AUROC. *)
From Coq Require Import List ZArith Lia Bool Reals Lra Arith Permutation.
From Verif Require Import Base Num Spec Model_Core Model_Post Model_Eval Model_Metrics P_Lists P_Stats P_Post P_Utils P_Core P_Eval P_Metrics Prop_Core Prop_Post Prop_Metrics Prop_Units Prop_Direction.
Import ListNotations.
Open Scope R_scope.

(** The labelled scores of several detectors: for every instance its label and one score per detector.  The scores of detector j: *)
Definition labelled (f : list R -> R) (h : list (bool * list R)) : list (bool * R) := map (fun q => (fst q, f (snd q))) h.
Definition detector_scores (j : nat) : list (bool * list R) -> list (bool * R) := labelled (fun r => nth j r 0).
(** Combining the scores of every instance with the ensembler gives scores of this AUROC. *)
Definition combined_auroc (p : Postprocessor (list R) R) (s0 : pp_state p) (h : list (bool * list R)) (v : R) : Prop :=
  exists h', Forall2 (fun q q' => fst q' = fst q /\ ensembled p s0 (snd q) = Ok (VArray [snd q'])) h h' /\ AUROC h' = Ok v.

Lemma combined_by : forall p s0 f h v, (forall q, In q h -> ensembled p s0 (snd q) = Ok (VArray [f (snd q)])) -> AUROC (labelled f h) = Ok v -> combined_auroc p s0 h v.
Proof.
  intros p s0 f h v H E. exists (labelled f h). split; auto. clear E. induction h as [|q h IH]; [constructor|]. cbn [labelled map]. constructor; [cbn; split; auto; apply H; left; reflexivity|]. apply IH. intros; apply H; right; auto.
Qed.
Lemma labelled_in : forall f h y a, In (y, a) (labelled f h) <-> exists r, In (y, r) h /\ a = f r.
Proof.
  intros f h y a. unfold labelled. rewrite in_map_iff. split.
  - intros ([z r] & E & I). cbn in E. injection E as -> <-. eauto.
  - intros (r & I & ->). exists (y, r). auto.
Qed.
Definition both_classes {A} (h : list (bool * A)) : Prop := In true (map fst h) /\ In false (map fst h).
Lemma auroc_exists : forall h : list (bool * R), both_classes h -> exists v, AUROC h = Ok v.
Proof.
  intros h [It If]. eexists. apply C102_auroc; intros Q.
  - apply in_map_iff in It. destruct It as ([y s] & E & I). cbn in E. subst y. apply in_positives in I. rewrite Q in I. destruct I.
  - apply in_map_iff in If. destruct If as ([y s] & E & I). cbn in E. subst y. apply in_negatives in I. rewrite Q in I. destruct I.
Qed.
Lemma auroc_both : forall (h : list (bool * R)) v, AUROC h = Ok v -> both_classes h.
Proof.
  intros h v E. split; apply in_map_iff.
  - destruct (positives h) as [|a P] eqn:EP; [rewrite C102_auroc_undefined in E by auto; discriminate|]. exists (true, a). split; auto. apply in_positives. rewrite EP. left; auto.
  - destruct (negatives h) as [|a P] eqn:EP; [rewrite C102_auroc_undefined in E by auto; discriminate|]. exists (false, a). split; auto. apply in_negatives. rewrite EP. left; auto.
Qed.
Lemma labelled_both : forall f g h, both_classes (labelled f h) -> both_classes (labelled g h).
Proof. intros f g h. unfold both_classes, labelled. rewrite !map_map. auto. Qed.
Lemma auroc_one : forall h : list (bool * R), both_classes h -> (forall a b, In (true, a) h -> In (false, b) h -> b < a) -> AUROC h = Ok 1.
Proof. intros h B H. destruct (auroc_exists h B) as [v E]. rewrite E. f_equal. apply (C102_auroc_range h v E). exact H. Qed.
Lemma auroc_zero : forall h : list (bool * R), both_classes h -> (forall a b, In (true, a) h -> In (false, b) h -> a < b) -> AUROC h = Ok 0.
Proof. intros h B H. destruct (auroc_exists h B) as [v E]. rewrite E. f_equal. apply (C102_auroc_range h v E). exact H. Qed.

(** ** Unanimity *)
(** A monotone aggregate that moves with a common shift of the scores is strictly monotone. *)
Lemma uniform_gap : forall l l' : list R, l <> [] -> Forall2 Rlt l l' -> exists d, 0 < d /\ Forall2 Rle (map (fun v => 1 * v + d) l) l'.
Proof.
  intros l l' N F. clear N. induction F as [|a b l l' H F IH]; [exists 1; split; [lra|constructor]|]. destruct IH as (d & Hd & G). exists (Rmin d (b - a)). split; [apply Rmin_pos; lra|]. constructor.
  - pose proof (Rmin_r d (b - a)). lra.
  - clear - G. revert l' G. induction l as [|x l IH]; intros l' G; inversion G; subst; constructor; [pose proof (Rmin_l d (b - a)); lra|auto].
Qed.
Lemma strictly_monotone : forall f : list R -> R, (forall l l', Forall2 Rle l l' -> f l <= f l') -> (forall l d, l <> [] -> f (map (fun v => 1 * v + d) l) = f l + d) ->
  forall l l', l <> [] -> Forall2 Rlt l l' -> f l < f l'.
Proof. intros f M Sh l l' N F. destruct (uniform_gap l l' N F) as (d & Hd & G). apply M in G. rewrite Sh in G by auto. lra. Qed.
Lemma mean_shift1 : forall l d, l <> [] -> mean (map (fun v => 1 * v + d) l) = mean l + d.
Proof.
  intros l d N. unfold mean, Rlen. rewrite map_length. assert (E : Rsum (map (fun v => 1 * v + d) l) = Rsum l + INR (length l) * d).
  { clear N. induction l as [|a l IH]; [cbn; lra|]. cbn [map]. rewrite !Rsum_cons2, IH. cbn [length]. rewrite S_INR. ring. }
  rewrite E. field. apply not_0_INR. destruct l; [congruence|discriminate].
Qed.
Lemma median_shift1 : forall l d, l <> [] -> median_fn (map (fun v => 1 * v + d) l) = median_fn l + d.
Proof.
  intros l d N. replace (median_fn l + d) with (1 * median_fn l + d) by ring. apply (median_unique _ _ (map (fun v => 1 * v + d) l)).
  - apply median_fn_spec. intros Q. apply map_eq_nil in Q. auto.
  - apply median_affine; [lra|]. apply median_fn_spec; auto.
Qed.
Lemma max_shift1 : forall l d, l <> [] -> Rmaximum (map (fun v => 1 * v + d) l) = Rmaximum l + d.
Proof.
  intros l d N. apply (is_max_unique _ _ (map (fun v => 1 * v + d) l)); [apply Rmaximum_is_max; intros Q; apply map_eq_nil in Q; auto|].
  destruct (Rmaximum_is_max l N) as [I U]. split.
  - apply in_map_iff. exists (Rmaximum l). split; [ring|auto].
  - intros x Ix. apply in_map_iff in Ix. destruct Ix as (y & <- & Iy). apply U in Iy. lra.
Qed.
Definition weighted (ws l : list R) : R := Rsum (map (fun p => fst p * snd p) (combine l ws)) / Rsum ws.
Lemma weighted_strict : forall ws l l', (forall w, In w ws -> 0 <= w) -> 0 < Rsum ws -> length ws = length l -> Forall2 Rlt l l' -> weighted ws l < weighted ws l'.
Proof.
  intros ws l l' W P L F. unfold weighted. apply Rmult_lt_compat_r; [apply Rinv_0_lt_compat; auto|].
  assert (G : Rsum (map (fun p => fst p * snd p) (combine l ws)) <= Rsum (map (fun p => fst p * snd p) (combine l' ws)) /\ (0 < Rsum ws -> Rsum (map (fun p => fst p * snd p) (combine l ws)) < Rsum (map (fun p => fst p * snd p) (combine l' ws)))); [|apply G; auto].
  clear P. revert ws W L. induction F as [|a b l l' H F IH]; intros [|w ws] W L; try discriminate; [cbn; lra|].
  cbn [combine map fst snd]. rewrite !Rsum_cons2. specialize (IH ws (fun v I => W v (or_intror I)) ltac:(cbn in L; lia)). pose proof (W w (or_introl eq_refl)) as Hw. destruct IH as [I1 I2].
  assert (a * w <= b * w) by nra. split; [lra|]. intros P. destruct (Rle_lt_or_eq_dec 0 w Hw) as [Pw|<-]; [assert (a * w < b * w) by nra; lra|]. assert (0 < Rsum ws) by lra. specialize (I2 H1). lra.
Qed.
(** If every detector ranks all anomalies above all normal instances, so do their average (with any non-negative weights, not all zero), their
    maximum and their median. *)
Theorem C116_unanimous_detectors : forall k (h : list (bool * list R)), (1 <= k)%nat -> Forall (fun q => length (snd q) = k) h -> (forall j, (j < k)%nat -> AUROC (detector_scores j h) = Ok 1) ->
  combined_auroc (AverageScoreEnsembler None) tt h 1 /\ combined_auroc MaximumScoreEnsembler tt h 1 /\ combined_auroc MedianScoreEnsembler tt h 1 /\
  forall ws, length ws = k -> (forall w, In w ws -> 0 <= w) -> 0 < Rsum ws -> combined_auroc (AverageScoreEnsembler (Some ws)) tt h 1.
Proof.
  intros k h Hk F A. rewrite Forall_forall in F.
  assert (B : both_classes (detector_scores 0 h)) by (apply auroc_both with 1; apply A; lia).
  assert (Dom : forall a b, In (true, a) h -> In (false, b) h -> Forall2 Rlt b a).
  { intros a b Ia Ib. pose proof (F _ Ia) as La. pose proof (F _ Ib) as Lb. cbn in La, Lb.
    assert (P : forall j, (j < k)%nat -> nth j b 0 < nth j a 0). { intros j Hj. destruct (C102_auroc_range _ _ (A j Hj)) as (_ & [H1 _] & _). apply (H1 eq_refl); apply labelled_in; eauto. }
    clear - La Lb P. revert a b La Lb P. induction k as [|k IH]; intros [|a la] [|b lb] La Lb P; try discriminate; constructor; [apply (P 0%nat); lia|]. apply IH; cbn in *; try lia. intros j Hj. apply (P (S j)). lia. }
  assert (Ne : forall q, In q h -> snd q <> []) by (intros q I Q; apply F in I; rewrite Q in I; cbn in I; lia).
  assert (G : forall f : list R -> R, (forall l l', length l = k -> Forall2 Rlt l l' -> f l < f l') -> AUROC (labelled f h) = Ok 1).
  { intros f Mf. apply auroc_one; [apply (labelled_both (fun r => nth 0 r 0)); exact B|]. intros a b Ia Ib. apply labelled_in in Ia, Ib. destruct Ia as (ra & Ia & ->), Ib as (rb & Ib & ->). apply Mf; [apply (F _ Ib)|auto]. }
  assert (NeL : forall l : list R, length l = k -> l <> []) by (intros [|? ?]; cbn; [lia|discriminate]).
  split; [|split; [|split]].
  - apply (combined_by _ _ mean); [intros q I; apply C40_average_ensembler; auto|]. apply G. intros l l' L. apply strictly_monotone; auto; [apply C40_average_ensembler|apply mean_shift1].
  - apply (combined_by _ _ Rmaximum); [intros q I; apply C40_maximum_ensembler; auto|]. apply G. intros l l' L. apply strictly_monotone; auto; [apply C40_maximum_ensembler|apply max_shift1].
  - apply (combined_by _ _ median_fn); [intros q I; apply C40_median_ensembler; auto|]. apply G. intros l l' L. apply strictly_monotone; auto; [apply C40_median_ensembler|apply median_shift1].
  - intros ws Lw W P. apply (combined_by _ _ (weighted ws)).
    + intros q I. destruct (C40_weighted_average ws (snd q) (- Rsum (map Rabs (snd q))) (Rsum (map Rabs (snd q))) ltac:(rewrite (F _ I); auto) W P) as (v & E & _ & ->); [|exact E].
      intros x Ix. assert (T : Rabs x <= Rsum (map Rabs (snd q))). { clear - Ix. induction (snd q) as [|a l IH]; [destruct Ix|]. cbn [map]. rewrite Rsum_cons2. destruct Ix as [<-|Ix]; [|specialize (IH Ix); pose proof (Rabs_pos a); lra]. assert (0 <= Rsum (map Rabs l)) by (apply Rsum_nonneg; intros y Iy; apply in_map_iff in Iy; destruct Iy as (z & <- & _); apply Rabs_pos). lra. }
      pose proof (Rle_abs x). pose proof (Rle_abs (- x)). rewrite Rabs_Ropp in *. lra.
    + apply G. intros l l' L. apply weighted_strict; auto. lia.
Qed.
Print Assumptions C116_unanimous_detectors.
(** A negative weight is accepted and breaks it: two detectors in full agreement, an ensemble that ranks everything the wrong way round. *)
Theorem C116_negative_weight_refuted : exists h : list (bool * list R), Forall (fun q => length (snd q) = 2%nat) h /\ (forall j, (j < 2)%nat -> AUROC (detector_scores j h) = Ok 1) /\
  combined_auroc (AverageScoreEnsembler (Some [2; -1])) tt h 0.
Proof.
  exists [(true, [1; 3]); (false, [0; 0])]. split; [repeat constructor|]. split.
  - intros j Hj. apply auroc_one; [split; cbn; auto|]. intros a b Ia Ib. apply labelled_in in Ia, Ib. destruct Ia as (ra & Ia & ->), Ib as (rb & Ib & ->). cbn in Ia, Ib. destruct Ia as [Ia|[Ia|[]]], Ib as [Ib|[Ib|[]]]; try discriminate. injection Ia as <-. injection Ib as <-. destruct j as [|[|j]]; cbn; [lra|lra|lia].
  - apply (combined_by _ _ (fun r => nth 0 r 0 * 2 - nth 1 r 0)).
    + intros q I. apply ens_eq. unfold pyod_average. destruct I as [<-|[<-|[]]]; cbn; unfold pydiv; cbn; (destruct (Reqb _ _) eqn:Q; [apply Reqb_eq in Q; lra|f_equal; lra]).
    + apply auroc_zero; [split; cbn; auto|]. intros a b Ia Ib. apply labelled_in in Ia, Ib. destruct Ia as (ra & Ia & ->), Ib as (rb & Ib & ->). cbn in Ia, Ib. destruct Ia as [Ia|[Ia|[]]], Ib as [Ib|[Ib|[]]]; try discriminate. injection Ia as <-. injection Ib as <-. cbn. lra.
Qed.
Print Assumptions C116_negative_weight_refuted.

(** ** Buckets *)
(** AverageOfMaximum and MaximumOfAverage with one order of the detectors for all instances keep unanimity ... *)
Definition ordered (perm : list nat) (l : list R) : list R := map (fun i => nth i l 0) perm.
Definition aom_value (nb : nat) (shuffle : list R -> list R) (l : list R) : R := mean (map (fun k => Rmaximum (block (length l / nb) k (shuffle l))) (seq 0 nb)).
Definition moa_value (nb : nat) (shuffle : list R -> list R) (l : list R) : R := Rmaximum (map (fun k => mean (block (length l / nb) k (shuffle l))) (seq 0 nb)).
Lemma block_nonempty : forall (l : list R) nb k size, length l = (nb * size)%nat -> (1 <= size)%nat -> (k < nb)%nat -> block size k l <> [].
Proof. intros l nb k size L S K Q. apply (f_equal (@length _)) in Q. unfold block in Q. rewrite firstn_length, skipn_length, L in Q. cbn in Q. assert (nb * size - k * size >= size)%nat by nia. lia. Qed.
Lemma bucket_values : forall rg nb shuffle l, rg nb (length l) = true -> (1 <= nb <= length l)%nat -> (length l mod nb = 0)%nat -> length (shuffle l) = length l ->
  ensembled (AverageOfMaximumScoreEnsembler rg nb shuffle) tt l = Ok (VArray [aom_value nb shuffle l]) /\ ensembled (MaximumOfAverageScoreEnsembler rg nb shuffle) tt l = Ok (VArray [moa_value nb shuffle l]).
Proof.
  intros rg nb shuffle l H0 H1 H2 H3. destruct (C41_values rg nb shuffle l H0 H1 H2 H3) as (_ & maxs & moa & F & M & E1 & E2).
  assert (L : length l = (nb * (length l / nb))%nat) by (apply Nat.div_exact; lia).
  assert (Sz : (1 <= length l / nb)%nat) by (destruct (length l / nb)%nat; lia).
  rewrite E1, E2. split; do 3 f_equal.
  - unfold aom_value. f_equal. clear E1 E2 M. set (g := fun k => block (length l / nb) k (shuffle l)) in *.
    assert (Ng : forall k, In k (seq 0 nb) -> g k <> []) by (intros k I; apply in_seq in I; apply (block_nonempty _ nb); lia).
    clear - F Ng. revert maxs F. induction (seq 0 nb) as [|k ks IH]; intros maxs F; cbn [map] in F; inversion F; subst; auto. cbn [map]. f_equal; [|apply IH; auto; intros; apply Ng; right; auto].
    apply (is_max_unique _ _ (g k)); auto. apply Rmaximum_is_max. apply Ng. left; auto.
  - unfold moa_value. apply (is_max_unique _ _ (map mean (map (fun k => block (length l / nb) k (shuffle l)) (seq 0 nb)))); auto. rewrite map_map. apply Rmaximum_is_max. destruct nb; [lia|]. discriminate.
Qed.
Lemma Forall2_firstn : forall A B (P : A -> B -> Prop) n l l', Forall2 P l l' -> Forall2 P (firstn n l) (firstn n l').
Proof. intros A B P n l l' F. revert n. induction F; intros [|n]; cbn; constructor; auto. Qed.
Lemma Forall2_skipn : forall A B (P : A -> B -> Prop) n l l', Forall2 P l l' -> Forall2 P (skipn n l) (skipn n l').
Proof. intros A B P n l l' F. revert n. induction F; intros [|n]; cbn; auto. Qed.
Lemma Forall2_maps : forall A (P : R -> R -> Prop) (f g : A -> R) l, (forall x, In x l -> P (f x) (g x)) -> Forall2 P (map f l) (map g l).
Proof. intros A P f g l H. induction l as [|a l IH]; cbn; constructor; [apply H; left; auto|apply IH; intros; apply H; right; auto]. Qed.
Lemma ordered_lt : forall k perm l l', Permutation perm (seq 0 k) -> length l = k -> Forall2 Rlt l l' -> Forall2 Rlt (ordered perm l) (ordered perm l').
Proof.
  intros k perm l l' P L F. apply Forall2_maps. intros i I. apply (Permutation_in _ P) in I. apply in_seq in I.
  assert (Hi : (i < length l)%nat) by lia. clear - F Hi. revert i Hi. induction F; intros [|i] Hi; cbn in *; try lia; auto. apply IHF. lia.
Qed.
Theorem C116_fixed_buckets : forall rg nb k perm (h : list (bool * list R)), rg nb k = true -> (1 <= nb <= k)%nat -> (k mod nb = 0)%nat -> Permutation perm (seq 0 k) -> Forall (fun q => length (snd q) = k) h ->
  (forall j, (j < k)%nat -> AUROC (detector_scores j h) = Ok 1) ->
  combined_auroc (AverageOfMaximumScoreEnsembler rg nb (ordered perm)) tt h 1 /\ combined_auroc (MaximumOfAverageScoreEnsembler rg nb (ordered perm)) tt h 1.
Proof.
  intros rg nb k perm h H0 H1 H2 P F A. rewrite Forall_forall in F. assert (B : both_classes (detector_scores 0 h)) by (apply auroc_both with 1; apply A; lia).
  assert (Dom : forall a b, In (true, a) h -> In (false, b) h -> Forall2 Rlt b a).
  { intros a b Ia Ib. pose proof (F _ Ia) as La. pose proof (F _ Ib) as Lb. cbn in La, Lb.
    assert (Q : forall j, (j < k)%nat -> nth j b 0 < nth j a 0). { intros j Hj. destruct (C102_auroc_range _ _ (A j Hj)) as (_ & [Q1 _] & _). apply (Q1 eq_refl); apply labelled_in; eauto. }
    clear - La Lb Q. revert a b La Lb Q. induction k as [|k IH]; intros [|a la] [|b lb] La Lb Q; try discriminate; constructor; [apply (Q 0%nat); lia|]. apply IH; cbn in *; try lia. intros j Hj. apply (Q (S j)). lia. }
  assert (G : forall f : list R -> R, (forall l l', length l = k -> Forall2 Rlt l l' -> f l < f l') -> AUROC (labelled f h) = Ok 1).
  { intros f Mf. apply auroc_one; [apply (labelled_both (fun r => nth 0 r 0)); exact B|]. intros a b Ia Ib. apply labelled_in in Ia, Ib. destruct Ia as (ra & Ia & ->), Ib as (rb & Ib & ->). apply Mf; [apply (F _ Ib)|auto]. }
  assert (LP : length perm = k) by (apply Permutation_length in P; rewrite seq_length in P; auto).
  assert (LO : forall l, length (ordered perm l) = k) by (intros; unfold ordered; rewrite map_length; auto).
  assert (E : k = (nb * (k / nb))%nat) by (apply Nat.div_exact; lia). assert (Sz : (1 <= k / nb)%nat) by (destruct (k / nb)%nat; lia).
  assert (BL : forall l l' i, length l = k -> Forall2 Rlt l l' -> Forall2 Rlt (block (k / nb) i (ordered perm l)) (block (k / nb) i (ordered perm l'))) by (intros l l' i L Fl; unfold block; apply Forall2_firstn, Forall2_skipn, (ordered_lt k); auto).
  assert (NB : forall l i, In i (seq 0 nb) -> block (k / nb) i (ordered perm l) <> []) by (intros l i I; apply in_seq in I; apply (block_nonempty _ nb); rewrite ?LO; lia).
  assert (NM : forall g : nat -> R, map g (seq 0 nb) <> []) by (intros g; destruct nb; [lia|discriminate]).
  split.
  - apply (combined_by _ _ (aom_value nb (ordered perm))).
    + intros q I. pose proof (F q I) as Lq. apply bucket_values; rewrite ?Lq; auto.
    + apply G. intros l l' L Fl. unfold aom_value. rewrite L, <- (Forall2_length _ _ _ _ _ Fl), L. apply (strictly_monotone mean); auto; [apply C40_average_ensembler|apply mean_shift1|].
      apply Forall2_maps. intros i I. apply (strictly_monotone Rmaximum); auto; [apply C40_maximum_ensembler|apply max_shift1].
  - apply (combined_by _ _ (moa_value nb (ordered perm))).
    + intros q I. pose proof (F q I) as Lq. apply bucket_values; rewrite ?Lq; auto.
    + apply G. intros l l' L Fl. unfold moa_value. rewrite L, <- (Forall2_length _ _ _ _ _ Fl), L. apply (strictly_monotone Rmaximum); auto; [apply C40_maximum_ensembler|apply max_shift1|].
      apply Forall2_maps. intros i I. apply (strictly_monotone mean); auto; [apply C40_average_ensembler|apply mean_shift1].
Qed.
Print Assumptions C116_fixed_buckets.
(** ... but PyOD shuffles the detectors anew at every call: an anomaly that every one of four detectors puts above a normal instance, by any margin g,
    can end up below it. *)
Definition swap_middle (l : list R) : list R := match l with [a; b; c; d] => [a; c; b; d] | _ => l end.
Lemma swap_middle_perm : forall l, Permutation (swap_middle l) l.
Proof. intros [|a [|b [|c [|d [|e l]]]]]; cbn; auto. apply perm_skip, perm_swap. Qed.
Theorem C116_fresh_buckets_refuted : forall rg g, rg 2%nat 4%nat = true -> 0 < g -> exists (anomaly normal : list R) (sh1 sh2 : list R -> list R) va vn, length anomaly = 4%nat /\ Forall2 (fun n a => n + g <= a) normal anomaly /\
  (forall l, Permutation (sh1 l) l) /\ (forall l, Permutation (sh2 l) l) /\ va < vn /\
  ensembled (AverageOfMaximumScoreEnsembler rg 2 sh1) tt anomaly = Ok (VArray [va]) /\ ensembled (AverageOfMaximumScoreEnsembler rg 2 sh2) tt normal = Ok (VArray [vn]) /\
  ensembled (MaximumOfAverageScoreEnsembler rg 2 sh2) tt anomaly = Ok (VArray [va]) /\ ensembled (MaximumOfAverageScoreEnsembler rg 2 sh1) tt normal = Ok (VArray [vn]).
Proof.
  intros rg g Hrg Hg. exists [g; g; 4 * g; 4 * g], [0; 0; 3 * g; 3 * g], (fun l => l), swap_middle, (5 * g / 2), (3 * g).
  split; [reflexivity|]. split; [repeat constructor; lra|]. split; [auto|]. split; [apply swap_middle_perm|]. split; [lra|].
  assert (V : forall sh l, length l = 4%nat -> length (sh l) = 4%nat -> ensembled (AverageOfMaximumScoreEnsembler rg 2 sh) tt l = Ok (VArray [aom_value 2 sh l]) /\ ensembled (MaximumOfAverageScoreEnsembler rg 2 sh) tt l = Ok (VArray [moa_value 2 sh l])).
  { intros sh l L LS. apply bucket_values; rewrite ?L, ?LS; auto; lia. }
  assert (W : forall sh l a b c d, length l = 4%nat -> sh l = [a; b; c; d] -> aom_value 2 sh l = (Rmax a b + Rmax c d) / 2 /\ moa_value 2 sh l = Rmax ((a + b) / 2) ((c + d) / 2)).
  { intros sh l a b c d L E. unfold aom_value, moa_value. rewrite L, E. change (seq 0 2) with [0%nat; 1%nat]. cbn [map]. change (4 / 2)%nat with 2%nat. change (block 2 0 [a; b; c; d]) with [a; b]. change (block 2 1 [a; b; c; d]) with [c; d].
    unfold Rmaximum, mean, Rlen, Rsum. cbn [fold_left fold_right length INR]. split; [lra|]. f_equal; lra. }
  destruct (V (fun l => l) [g; g; 4 * g; 4 * g] eq_refl eq_refl) as [E1 _]. destruct (V swap_middle [0; 0; 3 * g; 3 * g] eq_refl eq_refl) as [E2 _].
  destruct (V swap_middle [g; g; 4 * g; 4 * g] eq_refl eq_refl) as [_ E3]. destruct (V (fun l => l) [0; 0; 3 * g; 3 * g] eq_refl eq_refl) as [_ E4].
  rewrite E1, E2, E3, E4. destruct (W (fun l => l) [g; g; 4 * g; 4 * g] _ _ _ _ eq_refl eq_refl) as [-> _]. destruct (W swap_middle [0; 0; 3 * g; 3 * g] _ _ _ _ eq_refl eq_refl) as [-> _].
  destruct (W swap_middle [g; g; 4 * g; 4 * g] _ _ _ _ eq_refl eq_refl) as [_ ->]. destruct (W (fun l => l) [0; 0; 3 * g; 3 * g] _ _ _ _ eq_refl eq_refl) as [_ ->].
  repeat split; do 3 f_equal; unfold Rmax; repeat (destruct (Rle_dec _ _)); lra.
Qed.
Print Assumptions C116_fresh_buckets_refuted.

(** ** Many good detectors, a useless average *)
(** One anomaly scoring 1 everywhere and m normal instances; normal instance j fools detector j only. *)
Definition fooled (m j : nat) : list R := repeat 0 j ++ (INR m + 1) :: repeat 0 (m - 1 - j).
Definition one_each (m : nat) : list (bool * list R) := (true, repeat 1 m) :: map (fun j => (false, fooled m j)) (seq 0 m).
Lemma fooled_length : forall m j, (j < m)%nat -> length (fooled m j) = m.
Proof. intros m j H. unfold fooled. rewrite app_length. cbn [length]. rewrite !repeat_length. lia. Qed.
Lemma fooled_nth : forall m j i, (j < m)%nat -> nth i (fooled m j) 0 = if (i =? j)%nat then INR m + 1 else 0.
Proof.
  intros m j i H. unfold fooled. destruct (Nat.eqb_spec i j) as [->|N].
  - rewrite app_nth2; rewrite repeat_length; [|lia]. rewrite Nat.sub_diag. reflexivity.
  - destruct (Nat.lt_ge_cases i j) as [Q|Q]; [rewrite app_nth1 by (rewrite repeat_length; auto); apply nth_repeat|]. rewrite app_nth2; rewrite repeat_length; [|lia]. destruct (i - j)%nat as [|r] eqn:E; [lia|]. cbn [nth]. apply nth_repeat.
Qed.
Lemma fooled_perm : forall m j, (j < m)%nat -> Permutation (fooled m j) (repeat 0 (m - 1) ++ [INR m + 1]).
Proof.
  intros m j H. unfold fooled. rewrite <- Permutation_middle, <- repeat_app. replace (j + (m - 1 - j))%nat with (m - 1)%nat by lia. apply Permutation_cons_append.
Qed.
Lemma one_each_pos : forall f m, positives (labelled f (one_each m)) = [f (repeat 1 m)].
Proof. intros f m. unfold one_each, labelled, positives. cbn [map fst snd filter]. f_equal. induction (seq 0 m) as [|j l IH]; cbn; auto. Qed.
Lemma one_each_neg : forall f m, negatives (labelled f (one_each m)) = map (fun j => f (fooled m j)) (seq 0 m).
Proof. intros f m. unfold one_each, labelled, negatives. cbn [map fst snd filter negb]. induction (seq 0 m) as [|j l IH]; cbn; auto. f_equal. apply IH. Qed.
Lemma one_each_both : forall f m, (1 <= m)%nat -> both_classes (labelled f (one_each m)).
Proof. intros f m H. split; [left; reflexivity|]. right. destruct m; [lia|]. left. reflexivity. Qed.
Theorem C116_averaging_helps_refuted : forall m, (2 <= m)%nat -> exists h : list (bool * list R), Forall (fun q => length (snd q) = m) h /\
  (forall j, (j < m)%nat -> AUROC (detector_scores j h) = Ok ((INR m - 1) / INR m)) /\
  combined_auroc (AverageScoreEnsembler None) tt h 0 /\ combined_auroc MaximumScoreEnsembler tt h 0 /\ ((3 <= m)%nat -> combined_auroc MedianScoreEnsembler tt h 1).
Proof.
  intros m Hm. exists (one_each m). assert (Pm : 2 <= INR m) by (apply (le_INR 2) in Hm; cbn in Hm; lra).
  assert (LF : Forall (fun q : bool * list R => length (snd q) = m) (one_each m)).
  { constructor; [apply repeat_length|]. apply Forall_map, Forall_forall. intros j I. apply in_seq in I. apply fooled_length. lia. }
  assert (Ne : forall q, In q (one_each m) -> snd q <> []) by (intros q I Q; rewrite Forall_forall in LF; apply LF in I; rewrite Q in I; cbn in I; lia).
  assert (IT : forall f a, In (true, a) (labelled f (one_each m)) -> a = f (repeat 1 m)) by (intros f a I; apply in_positives in I; rewrite one_each_pos in I; destruct I as [<-|[]]; reflexivity).
  assert (IF' : forall f a, In (false, a) (labelled f (one_each m)) -> exists j, (j < m)%nat /\ a = f (fooled m j)) by (intros f a I; apply in_negatives in I; rewrite one_each_neg in I; apply in_map_iff in I; destruct I as (j & <- & I); apply in_seq in I; exists j; split; [lia|reflexivity]).
  split; auto. split; [|split; [|split]].
  - intros j Hj. unfold detector_scores. rewrite C102_auroc; rewrite ?one_each_pos, ?one_each_neg; [|discriminate|destruct m; [lia|discriminate]]. f_equal. unfold pair_wins. rewrite map_map.
    rewrite (map_ext_in _ (fun i => 1 - (if (i =? j)%nat then 1 else 0))).
    + assert (S : forall n s, Rsum (map (fun i => 1 - (if (i =? j)%nat then 1 else 0)) (seq s n)) = INR n - (if (s <=? j)%nat && (j <? s + n)%nat then 1 else 0)).
      { clear. induction n as [|n IH]; intros s; [cbn [seq map]; change (Rsum []) with 0; cbn [INR]; destruct (Nat.leb_spec s j), (Nat.ltb_spec j (s + 0)); cbn; try lra; lia|].
        cbn [seq map]. rewrite Rsum_cons2, IH, S_INR. destruct (Nat.eqb_spec s j), (Nat.leb_spec s j), (Nat.leb_spec (S s) j), (Nat.ltb_spec j (S s + n)), (Nat.ltb_spec j (s + S n)); cbn [andb]; try lra; lia. }
      rewrite S. destruct (Nat.ltb_spec j (0 + m)); [|lia]. cbn [Nat.leb andb]. unfold Rlen. rewrite map_length, seq_length. cbn [length INR]. field. lra.
    + intros i I. apply in_seq in I. cbn [map]. rewrite Rsum_cons2. change (Rsum []) with 0. rewrite fooled_nth by lia. rewrite Nat.eqb_sym. assert (N1 : nth j (repeat 1 m) 0 = 1) by (apply (repeat_spec m); apply nth_In; rewrite repeat_length; auto). rewrite N1.
      unfold beats. destruct (Nat.eqb_spec i j); [destruct (Rlt_dec (INR m + 1) 1), (Req_EM_T 1 (INR m + 1)); lra|destruct (Rlt_dec 0 1), (Req_EM_T 1 0); lra].
  - apply (combined_by _ _ mean); [intros q I; apply C40_average_ensembler; auto|]. apply auroc_zero; [apply one_each_both; lia|]. intros a b Ia Ib. apply IT in Ia. apply IF' in Ib. destruct Ib as (j & Hj & ->). subst a.
    rewrite (mean_perm _ _ (fooled_perm m j Hj)). unfold mean, Rlen. rewrite Rsum_app, app_length, !repeat_length, !Rsum_repeat, Rsum_cons2. change (Rsum []) with 0. cbn [length]. replace (m - 1 + 1)%nat with m by lia. apply (Rmult_lt_reg_r (INR m)); [lra|]. unfold Rdiv. rewrite !Rmult_assoc, Rinv_l by lra. lra.
  - apply (combined_by _ _ Rmaximum); [intros q I; apply C40_maximum_ensembler; auto|]. apply auroc_zero; [apply one_each_both; lia|]. intros a b Ia Ib. apply IT in Ia. apply IF' in Ib. destruct Ib as (j & Hj & ->). subst a.
    assert (Nr : repeat 1 m <> []) by (destruct m; [lia|discriminate]). assert (Nf : fooled m j <> []) by (unfold fooled; destruct (repeat 0 j); discriminate).
    destruct (Rmaximum_is_max _ Nr) as [I1 _]. apply repeat_spec in I1. rewrite I1. destruct (Rmaximum_is_max _ Nf) as [_ U]. specialize (U (INR m + 1) ltac:(unfold fooled; apply in_or_app; right; left; reflexivity)). lra.
  - intros H3. apply (combined_by _ _ median_fn); [intros q I; apply C40_median_ensembler; auto|]. apply auroc_one; [apply one_each_both; lia|]. intros a b Ia Ib. apply IT in Ia. apply IF' in Ib. destruct Ib as (j & Hj & ->). subst a.
    rewrite (median_perm _ _ (fooled_perm m j Hj)). rewrite (median_unique _ _ _ (median_fn_spec (repeat 0 (m - 1) ++ [INR m + 1]) ltac:(destruct (m - 1)%nat; discriminate)) (median_most 0 (INR m + 1) (m - 1) ltac:(lia))).
    rewrite (median_unique _ _ _ (median_fn_spec (repeat 1 m) ltac:(destruct m; [lia|discriminate])) (median_repeat 1 m ltac:(lia))). lra.
Qed.
Print Assumptions C116_averaging_helps_refuted.

(** ** The loudest detector decides *)
Definition louder (c : R) (j : nat) (r : list R) : list R := map (fun p => if (fst p =? j)%nat then c * snd p else snd p) (combine (seq 0 (length r)) r).
Lemma auroc_pairwise : forall f g h, (forall a b, In (true, a) h -> In (false, b) h -> (f b < f a <-> g b < g a) /\ (f a < f b <-> g a < g b)) -> AUROC (labelled f h) = AUROC (labelled g h).
Proof.
  intros f g h H. assert (EP : forall f, positives (labelled f h) = map f (map snd (filter fst h))). { intros f'. unfold positives, labelled. clear H. induction h as [|[[] r] h IH]; cbn [map filter fst snd negb]; [reflexivity| |]; first [exact IH | f_equal; exact IH]. }
  assert (EN : forall f, negatives (labelled f h) = map f (map snd (filter (fun q => negb (fst q)) h))). { intros f'. unfold negatives, labelled. clear H EP. induction h as [|[[] r] h IH]; cbn [map filter fst snd negb]; [reflexivity| |]; first [exact IH | f_equal; exact IH]. }
  set (P := map snd (filter fst h)) in *. set (N := map snd (filter (fun q => negb (fst q)) h)) in *.
  assert (IP : forall a, In a P -> In (true, a) h). { intros a I. unfold P in I. apply in_map_iff in I. destruct I as ([y r] & <- & I). apply filter_In in I. destruct I as [I E]. cbn in E. subst y. exact I. }
  assert (IN : forall a, In a N -> In (false, a) h). { intros a I. unfold N in I. apply in_map_iff in I. destruct I as ([y r] & <- & I). apply filter_In in I. destruct I as [I E]. cbn in E. destruct y; [discriminate|]. exact I. }
  destruct P as [|p P]; [rewrite !C102_auroc_undefined; auto; rewrite EP; auto|]. destruct N as [|n N]; [rewrite !C102_auroc_undefined; auto; rewrite EN; auto|].
  rewrite !C102_auroc by (rewrite ?EP, ?EN; discriminate). rewrite !EP, !EN. f_equal. unfold pair_wins, Rlen. rewrite !map_length. f_equal. rewrite !map_map. f_equal. apply map_ext_in. intros b Ib. rewrite !map_map. f_equal. apply map_ext_in. intros a Ia.
  destruct (H a b (IP a Ia) (IN b Ib)) as [[H1 H2] [H3 H4]]. unfold beats. destruct (Rlt_dec (f b) (f a)), (Rlt_dec (g b) (g a)), (Req_EM_T (f a) (f b)), (Req_EM_T (g a) (g b)); try lra; exfalso; intuition lra.
Qed.
Lemma louder_length : forall c j r, length (louder c j r) = length r.
Proof. intros. unfold louder. rewrite map_length, combine_length, seq_length. lia. Qed.
Lemma louder_sum : forall c j r, (j < length r)%nat -> Rsum (louder c j r) = Rsum r + (c - 1) * nth j r 0.
Proof.
  intros c j r H. unfold louder. assert (G : forall s, Rsum (map (fun p => if (fst p =? j)%nat then c * snd p else snd p) (combine (seq s (length r)) r)) = Rsum r + (if (s <=? j)%nat then (c - 1) * nth (j - s) r 0 else 0)).
  { clear H. induction r as [|a r IH]; intros s; cbn [length seq combine map fst snd]; [change (Rsum []) with 0; destruct (s <=? j)%nat; [destruct (j - s)%nat; cbn|]; lra|].
    rewrite !Rsum_cons2, IH. destruct (Nat.eqb_spec s j) as [->|N].
    - rewrite Nat.leb_refl, Nat.sub_diag. destruct (Nat.leb_spec (S j) j); [lia|]. cbn [nth]. lra.
    - destruct (Nat.leb_spec s j), (Nat.leb_spec (S s) j); try lia; [|lra]. replace (j - s)%nat with (S (j - S s)) by lia. cbn [nth]. lra. }
  rewrite (G 0%nat). cbn [Nat.leb]. rewrite Nat.sub_0_r. reflexivity.
Qed.
Lemma dominated : forall L : list (R * R), (forall p, In p L -> snd p <> 0) -> exists c0, forall c, c0 <= c -> forall p, In p L -> (0 < fst p + (c - 1) * snd p <-> 0 < snd p) /\ (fst p + (c - 1) * snd p < 0 <-> snd p < 0).
Proof.
  induction L as [|[x d] L IH]; intros H; [exists 0; intros c _ p []|]. destruct IH as [c1 I1]; [intros; apply H; right; auto|]. pose proof (H (x, d) (or_introl eq_refl)) as Hd. cbn in Hd.
  exists (Rmax c1 (2 + Rabs x / Rabs d)). intros c Hc p [<-|I]; [|apply I1; auto; eapply Rle_trans; [apply Rmax_l|eauto]]. cbn [fst snd]. pose proof (Rle_trans _ _ _ (Rmax_r _ _) Hc) as Hc2.
  assert (Pd : 0 < Rabs d) by (apply Rabs_pos_lt; auto). assert (Q : Rabs x < (c - 1) * Rabs d). { apply (Rlt_le_trans _ ((1 + Rabs x / Rabs d) * Rabs d)); [|apply Rmult_le_compat_r; lra]. replace ((1 + Rabs x / Rabs d) * Rabs d) with (Rabs d + Rabs x) by (field; lra). lra. }
  pose proof (Rle_abs x). pose proof (Rle_abs (- x)). rewrite Rabs_Ropp in *. unfold Rabs in Q at 2. destruct (Rcase_abs d); split; split; intros; nra.
Qed.
(** Multiply the scores of one detector by a large enough factor (its own ranking is not affected): the ranking of the average is then the ranking
    of that detector alone, whatever the others say.  Ties of that detector between an anomaly and a normal instance are excluded. *)
Theorem C116_loudest_detector_decides : forall k j (h : list (bool * list R)), (j < k)%nat -> Forall (fun q => length (snd q) = k) h ->
  (forall a b, In (true, a) h -> In (false, b) h -> nth j a 0 <> nth j b 0) ->
  exists c0, forall c v, c0 <= c -> AUROC (detector_scores j h) = Ok v -> combined_auroc (AverageScoreEnsembler None) tt (map (fun q => (fst q, louder c j (snd q))) h) v.
Proof.
  intros k j h Hj F NT. rewrite Forall_forall in F.
  destruct (dominated (map (fun pq => (Rsum (snd (fst pq)) - Rsum (snd (snd pq)), nth j (snd (fst pq)) 0 - nth j (snd (snd pq)) 0)) (list_prod (filter fst h) (filter (fun q => negb (fst q)) h)))) as [c0 D].
  { intros p I. apply in_map_iff in I. destruct I as ([[y a] [z b]] & <- & I). apply in_prod_iff in I. destruct I as [I1 I2]. apply filter_In in I1, I2. destruct I1 as [I1 E1], I2 as [I2 E2]. cbn in E1, E2. subst y. destruct z; [discriminate|]. cbn. specialize (NT a b I1 I2). lra. }
  exists c0. intros c v Hc E. apply (combined_by _ _ mean).
  - intros q I. apply in_map_iff in I. destruct I as (q0 & <- & I). apply C40_average_ensembler. intros Q. apply (f_equal (@length _)) in Q. cbn [snd] in Q. rewrite louder_length, (F _ I) in Q. cbn in Q. lia.
  - assert (EL : labelled mean (map (fun q => (fst q, louder c j (snd q))) h) = labelled (fun r => mean (louder c j r)) h) by (unfold labelled; rewrite map_map; reflexivity). rewrite EL, <- E. apply auroc_pairwise.
    intros a b Ia Ib. pose proof (F _ Ia) as La. pose proof (F _ Ib) as Lb. cbn in La, Lb. unfold mean, Rlen. rewrite !louder_length, La, Lb, !louder_sum by lia.
    destruct (D c Hc (Rsum a - Rsum b, nth j a 0 - nth j b 0)) as [[D1 D2] [D3 D4]]; [apply in_map_iff; exists ((true, a), (false, b)); split; [reflexivity|]; apply in_prod; apply filter_In; auto|]. cbn [fst snd] in *.
    assert (Pk : 0 < / INR k) by (apply Rinv_0_lt_compat, lt_0_INR; lia). unfold Rdiv. set (A1 := Rsum a + (c - 1) * nth j a 0) in *. set (B1 := Rsum b + (c - 1) * nth j b 0) in *.
    assert (M : forall x y, x * / INR k < y * / INR k <-> x < y) by (intros; split; [apply Rmult_lt_reg_r; auto|apply Rmult_lt_compat_r; auto]).
    rewrite !M. assert (EA : Rsum a - Rsum b + (c - 1) * (nth j a 0 - nth j b 0) = A1 - B1) by (unfold A1, B1; ring). rewrite EA in *. clearbody A1 B1. split; split; intros; [assert (0 < A1 - B1) as T by lra; specialize (D1 T); lra|assert (0 < nth j a 0 - nth j b 0) as T by lra; specialize (D2 T); lra|assert (A1 - B1 < 0) as T by lra; specialize (D3 T); lra|assert (nth j a 0 - nth j b 0 < 0) as T by lra; specialize (D4 T); lra].
Qed.
Print Assumptions C116_loudest_detector_decides.

(** The hypotheses are met by two detectors in agreement, with three instances. *)
Example C116_ex : let h := [(true, [2; 10]); (false, [1; 7]); (false, [0; 9])] in Forall (fun q : bool * list R => length (snd q) = 2%nat) h /\ (forall j, (j < 2)%nat -> AUROC (detector_scores j h) = Ok 1) /\
  Permutation [1%nat; 0%nat] (seq 0 2) /\ (forall a b, In (true, a) h -> In (false, b) h -> nth 0 a 0 <> nth 0 b 0).
Proof.
  intros h. split; [repeat constructor|]. split; [|split; [apply perm_swap|]].
  - intros j Hj. apply auroc_one; [split; cbn; auto|]. intros a b Ia Ib. apply labelled_in in Ia, Ib. destruct Ia as (ra & Ia & ->), Ib as (rb & Ib & ->). cbn in Ia, Ib. destruct Ia as [Ia|[Ia|[Ia|[]]]], Ib as [Ib|[Ib|[Ib|[]]]]; try discriminate; injection Ia as <-; injection Ib as <-; destruct j as [|[|j]]; cbn; try lra; lia.
  - intros a b Ia Ib. cbn in Ia, Ib. destruct Ia as [Ia|[Ia|[Ia|[]]]], Ib as [Ib|[Ib|[Ib|[]]]]; try discriminate; injection Ia as <-; injection Ib as <-; cbn; lra.
Qed.
