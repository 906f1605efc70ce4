(** * C102: what the four evaluation metrics measure. *)
From Coq Require Import List ZArith Lia Bool Reals Lra Arith Permutation Sorted.
From Verif Require Import Base Num Spec Model_Stats Model_Eval Model_Metrics P_Lists P_Eval P_Metrics.
Import ListNotations.
Open Scope R_scope.

(** The area under the ROC curve as a statistic of pairs: how often a positive is scored above a negative, a tie counting one half. *)
Definition beats (a b : R) : R := if Rlt_dec b a then 1 else if Req_EM_T a b then 1 / 2 else 0.
Definition pair_wins (P N : list R) : R := Rsum (map (fun b => Rsum (map (fun a => beats a b) P)) N) / (Rlen P * Rlen N).
(** The share of positives among the instances scored at least [t]. *)
Definition precision_at (h : list (bool * R)) (t : R) : R := fraction fst (filter (fun q => Rleb t (snd q)) h).

Definition AUROC (h : list (bool * R)) : res R := metric_value (AUROCMetric (K := Empty_set) bool_dec roc_auc_score) [] h.
Definition AUPR (h : list (bool * R)) : res R := metric_value (AUPRMetric (K := Empty_set) average_precision_score) [] h.
Definition Precision (h : list (bool * R)) : res R := metric_value (PrecisionMetric (K := Empty_set) precision_score) [] h.
Definition Recall (h : list (bool * R)) : res R := metric_value (RecallMetric (K := Empty_set) recall_score) [] h.

Lemma combine_split2 : forall A B (h : list (A * B)), combine (map fst h) (map snd h) = h.
Proof. intros A B h. induction h as [|[a b] h IH]; auto. cbn. rewrite IH. reflexivity. Qed.
Lemma tied_beats : forall P s, tied P s = 2 * Rsum (map (fun a => beats a s) P).
Proof.
  intros P s. unfold tied, number. induction P as [|a P IH]; [cbn; lra|]. cbn [map Rsum fold_right filter]. fold (Rsum (map (fun a => beats a s) P)).
  unfold Rltb, Reqb in *. unfold beats at 1. destruct (Rlt_dec s a), (Req_EM_T a s); subst; try lra; cbn [length]; rewrite ?S_INR; lra.
Qed.
Lemma nodup_two : forall h : list (bool * R), positives h <> [] -> negatives h <> [] -> (length (nodup bool_dec (map fst h)) <=? 1)%nat = false.
Proof.
  intros h HP HN. apply Nat.leb_gt. destruct (positives h) as [|a P] eqn:EP; [contradiction|]. destruct (negatives h) as [|b N] eqn:EN; [contradiction|].
  assert (Ia : In (true, a) h) by (apply in_positives; rewrite EP; left; auto). assert (Ib : In (false, b) h) by (apply in_negatives; rewrite EN; left; auto).
  apply (in_map fst) in Ia, Ib. cbn in Ia, Ib. apply (nodup_In bool_dec) in Ia, Ib.
  assert (I : incl [true; false] (nodup bool_dec (map fst h))) by (intros x [<-|[<-|[]]]; auto).
  apply NoDup_incl_length in I; [cbn in I; lia|]. repeat constructor; cbn; intuition discriminate.
Qed.
Lemma nodup_one : forall h : list (bool * R), positives h = [] \/ negatives h = [] -> (length (nodup bool_dec (map fst h)) <=? 1)%nat = true.
Proof.
  intros h H. apply Nat.leb_le. set (c := match positives h with [] => false | _ => true end).
  assert (I : incl (nodup bool_dec (map fst h)) [c]).
  { intros y Iy. apply nodup_In, in_map_iff in Iy. destruct Iy as ([y' s] & <- & I). cbn [fst]. left. unfold c. destruct y'.
    - apply in_positives in I. destruct (positives h); [destruct I|reflexivity].
    - apply in_negatives in I. destruct H as [H|H]; rewrite H in *; [reflexivity|destruct I]. }
  apply NoDup_incl_length in I; auto. apply NoDup_nodup.
Qed.
Lemma thr_cover : forall L, forall s, In s (positives L) \/ In s (negatives L) -> In s (thr L).
Proof. intros L s H. apply thr_in, in_scores. tauto. Qed.
Lemma thr_cons : forall L, L <> [] -> exists t ts, thr L = t :: ts.
Proof.
  intros [|[y s] L] N; [contradiction|]. destruct (thr ((y, s) :: L)) as [|t ts] eqn:E; eauto.
  assert (I : In s (thr ((y, s) :: L))) by (apply thr_in; left; auto). rewrite E in I. destruct I.
Qed.
(** A threshold above all scores. *)
Lemma thr_top : forall L t ts, StronglySorted desc L -> thr L = t :: ts -> StronglySorted Rgt (t + 1 :: thr L) /\ (forall s, In s (positives L) \/ In s (negatives L) -> s < t + 1).
Proof.
  intros L t ts S E. pose proof (thr_sorted L S) as S1. rewrite E in S1. inversion S1 as [|? ? S2 F]; subst. rewrite Forall_forall in F.
  assert (B : forall s, In s (thr L) -> s < t + 1). { rewrite E. intros s [<-|I]; [lra|]. pose proof (F s I). lra. }
  split.
  - rewrite E. constructor; auto. rewrite <- E. apply Forall_forall. intros s I. pose proof (B s I). lra.
  - intros s I. apply B, thr_cover; auto.
Qed.

(** ** AUROC *)
Theorem C102_auroc : forall h : list (bool * R), positives h <> [] -> negatives h <> [] -> AUROC h = Ok (pair_wins (positives h) (negatives h)).
Proof.
  intros h HP HN. unfold AUROC, AUROCMetric. rewrite sk_value. unfold auroc_evaluate. rewrite nodup_two by auto.
  unfold roc_auc_score, binary_clf_curve. rewrite combine_split2. set (L := by_score_desc h).
  assert (PL : Permutation L h) by apply by_score_perm. assert (SL : StronglySorted desc L) by apply by_score_sorted.
  assert (NL : L <> []). { intros E. rewrite E in PL. apply Permutation_nil in PL. subst h. apply HP. reflexivity. }
  rewrite drop_last, curve_last by auto. cbn [Nat.add].
  pose proof (positives_perm _ _ PL) as PP. pose proof (negatives_perm _ _ PL) as PN.
  assert (LP : (0 < length (positives L))%nat). { rewrite (Permutation_length PP). destruct (positives h); [contradiction|cbn; lia]. }
  assert (LN : (0 < length (negatives L))%nat). { rewrite (Permutation_length PN). destruct (negatives h); [contradiction|cbn; lia]. }
  replace (length (negatives L) =? 0)%nat with false by (symmetry; apply Nat.eqb_neq; lia). replace (length (positives L) =? 0)%nat with false by (symmetry; apply Nat.eqb_neq; lia).
  cbn [orb]. f_equal. rewrite trapezoid_area by auto. rewrite drop_area_all.
  pose proof (curve_points L [] SL) as C. cbn [app] in C. change (length (negatives [])) with 0%nat in C. change (length (positives [])) with 0%nat in C. rewrite C.
  destruct (thr_cons L NL) as (t & ts & ET). destruct (thr_top L t ts SL ET) as [ST BT].
  assert (Z1 : at_least (t + 1) (negatives L) = 0%nat) by (apply at_least_none; auto). assert (Z2 : at_least (t + 1) (positives L) = 0%nat) by (apply at_least_none; auto).
  replace ((0, 0)%nat :: map (fun t => (at_least t (negatives L), at_least t (positives L))) (thr L)) with (map (fun t => (at_least t (negatives L), at_least t (positives L))) (t + 1 :: thr L)) by (cbn [map]; rewrite Z1, Z2; reflexivity).
  rewrite roc_area; auto; [|intros s I; right; apply thr_cover; auto|intros s I; right; apply thr_cover; auto].
  rewrite below_sum by auto. unfold pair_wins, Rlen. rewrite <- (Permutation_length PP), <- (Permutation_length PN).
  rewrite (Rsum_map_perm _ _ _ _ PN). rewrite (map_ext (tied (positives L)) (fun s => 2 * Rsum (map (fun a => beats a s) (positives h)))).
  - rewrite Rsum_map_scal. field. split; apply not_0_INR; lia.
  - intros s. rewrite tied_beats, (Rsum_map_perm _ _ _ _ PP). reflexivity.
Qed.
Theorem C102_auroc_undefined : forall h : list (bool * R), positives h = [] \/ negatives h = [] -> AUROC h = Raise ValueError.
Proof. intros h H. unfold AUROC, AUROCMetric. rewrite sk_value. unfold auroc_evaluate. rewrite nodup_one by auto. reflexivity. Qed.

Lemma beats_range : forall a b, 0 <= beats a b <= 1.
Proof. intros. unfold beats. destruct (Rlt_dec b a), (Req_EM_T a b); lra. Qed.
Lemma wins_bounds : forall P N : list R, P <> [] -> N <> [] -> 0 < Rlen P * Rlen N /\ forall b, 0 <= Rsum (map (fun a => beats a b) P) <= Rlen P.
Proof.
  intros P N HP HN. split.
  - apply Rmult_lt_0_compat; apply lt_0_INR; [destruct P|destruct N]; try contradiction; cbn; lia.
  - intros b. split.
    + apply Rsum_nonneg. intros x I. apply in_map_iff in I. destruct I as (a & <- & _). apply beats_range.
    + replace (Rlen P) with (Rsum (map (fun _ : R => 1) P)) by (rewrite Rsum_map_const; unfold Rlen; lra). apply Rsum_le. intros; apply beats_range.
Qed.
Lemma Rsum_len_eq : forall A (f : A -> R) c l, (forall x, In x l -> f x <= c) -> Rsum (map f l) = INR (length l) * c -> forall x, In x l -> f x = c.
Proof.
  intros A f c l H E x I. assert (Z : Rsum (map (fun x => c - f x) l) = 0) by (rewrite Rsum_map_minus, Rsum_map_const, E; lra).
  enough (X : c - f x = 0) by lra. apply (Rsum_zero (map (fun x => c - f x) l)); auto; [|apply (in_map (fun x => c - f x)); auto].
  intros y Iy. apply in_map_iff in Iy. destruct Iy as (z & <- & Iz). specialize (H z Iz). lra.
Qed.
Theorem C102_auroc_range : forall h v, AUROC h = Ok v -> 0 <= v <= 1 /\
  (v = 1 <-> forall a b, In (true, a) h -> In (false, b) h -> b < a) /\ (v = 0 <-> forall a b, In (true, a) h -> In (false, b) h -> a < b).
Proof.
  intros h v E. destruct (positives h) as [|p P] eqn:EP; [rewrite C102_auroc_undefined in E by auto; discriminate|].
  destruct (negatives h) as [|q N] eqn:EN; [rewrite C102_auroc_undefined in E by auto; discriminate|].
  rewrite C102_auroc in E by (rewrite ?EP, ?EN; discriminate). injection E as <-.
  assert (HP : positives h <> []) by (rewrite EP; discriminate). assert (HN : negatives h <> []) by (rewrite EN; discriminate). clear EP EN.
  destruct (wins_bounds _ _ HP HN) as [D B]. unfold pair_wins. set (W := fun b => Rsum (map (fun a => beats a b) (positives h))) in *.
  assert (U : Rsum (map W (negatives h)) <= Rlen (positives h) * Rlen (negatives h)).
  { rewrite Rmult_comm. unfold Rlen at 1. rewrite <- (Rsum_map_const R (Rlen (positives h)) (negatives h)). apply Rsum_le. intros; apply B. }
  assert (L : 0 <= Rsum (map W (negatives h))) by (apply Rsum_nonneg; intros x I; apply in_map_iff in I; destruct I as (b & <- & _); apply B).
  split; [|split; split].
  - split; [apply Rmult_le_pos; auto; apply Rlt_le, Rinv_0_lt_compat; auto|]. apply (Rmult_le_reg_r (Rlen (positives h) * Rlen (negatives h))); auto.
    unfold Rdiv. rewrite Rmult_assoc, Rinv_l by lra. lra.
  - intros E1 a b Ia Ib. assert (E2 : Rsum (map W (negatives h)) = INR (length (negatives h)) * Rlen (positives h)).
    { replace (Rsum (map W (negatives h))) with (Rsum (map W (negatives h)) / (Rlen (positives h) * Rlen (negatives h)) * (Rlen (positives h) * Rlen (negatives h))) by (field; split; intros Z; rewrite Z in D; lra). rewrite E1. unfold Rlen. ring. }
    pose proof (Rsum_len_eq _ W (Rlen (positives h)) (negatives h) (fun x _ => proj2 (B x)) E2 b (proj2 (in_negatives h b) Ib)) as E3.
    pose proof (Rsum_len_eq _ (fun a => beats a b) 1 (positives h) (fun x _ => proj2 (beats_range x b)) ltac:(rewrite Rmult_1_r; exact E3) a (proj2 (in_positives h a) Ia)) as E4.
    unfold beats in E4. destruct (Rlt_dec b a), (Req_EM_T a b); lra.
  - intros H. replace (Rsum (map W (negatives h))) with (Rlen (positives h) * Rlen (negatives h)); [field; split; intros Z; rewrite Z in D; lra|].
    rewrite Rmult_comm. unfold Rlen at 1. rewrite <- (Rsum_map_const R (Rlen (positives h)) (negatives h)). f_equal. apply map_ext_in. intros b Ib. unfold W.
    rewrite <- (Rmult_1_r (Rlen (positives h))). unfold Rlen. rewrite <- (Rsum_map_const R 1 (positives h)). f_equal. apply map_ext_in. intros a Ia.
    apply in_positives in Ia. apply in_negatives in Ib. specialize (H a b Ia Ib). unfold beats. destruct (Rlt_dec b a); lra.
  - intros E1 a b Ia Ib. assert (E2 : Rsum (map W (negatives h)) = 0).
    { replace (Rsum (map W (negatives h))) with (Rsum (map W (negatives h)) / (Rlen (positives h) * Rlen (negatives h)) * (Rlen (positives h) * Rlen (negatives h))) by (field; split; intros Z; rewrite Z in D; lra). rewrite E1. ring. }
    assert (E3 : W b = 0). { apply (Rsum_zero (map W (negatives h))); auto; [|apply in_map, in_negatives; auto]. intros x I; apply in_map_iff in I; destruct I as (c & <- & _); apply B. }
    assert (E4 : beats a b = 0). { apply (Rsum_zero (map (fun a => beats a b) (positives h))); auto; [|apply (in_map (fun a => beats a b)), in_positives; auto]. intros x I; apply in_map_iff in I; destruct I as (c & <- & _); apply beats_range. }
    unfold beats in E4. destruct (Rlt_dec b a), (Req_EM_T a b); lra.
  - intros H. rewrite (Rsum_map_zero _ W); [unfold Rdiv; ring|]. intros b Ib. unfold W. apply Rsum_map_zero. intros a Ia.
    apply in_positives in Ia. apply in_negatives in Ib. specialize (H a b Ia Ib). unfold beats. destruct (Rlt_dec b a), (Req_EM_T a b); lra.
Qed.

(** Only the order of the scores matters. *)
Definition rescore (f : R -> R) (h : list (bool * R)) : list (bool * R) := map (fun q => (fst q, f (snd q))) h.
Lemma positives_rescore : forall f h, positives (rescore f h) = map f (positives h).
Proof. intros f h. unfold positives, rescore. induction h as [|[[] s] h IH]; auto; cbn; rewrite IH; reflexivity. Qed.
Lemma negatives_rescore : forall f h, negatives (rescore f h) = map f (negatives h).
Proof. intros f h. unfold negatives, rescore. induction h as [|[[] s] h IH]; auto; cbn; rewrite IH; reflexivity. Qed.
Definition same_order (f : R -> R) (h : list (bool * R)) : Prop := forall q q', In q h -> In q' h -> snd q < snd q' -> f (snd q) < f (snd q').
Definition opposite_order (f : R -> R) (h : list (bool * R)) : Prop := forall q q', In q h -> In q' h -> snd q < snd q' -> f (snd q') < f (snd q).
Theorem C102_auroc_order_only : forall f h, same_order f h -> AUROC (rescore f h) = AUROC h.
Proof.
  intros f h Hf. destruct (positives h) as [|p P] eqn:EP; [rewrite !C102_auroc_undefined; auto; rewrite positives_rescore, EP; auto|].
  destruct (negatives h) as [|q N] eqn:EN; [rewrite !C102_auroc_undefined; auto; rewrite negatives_rescore, EN; auto|].
  rewrite (C102_auroc h) by (rewrite ?EP, ?EN; discriminate). rewrite C102_auroc by (rewrite ?positives_rescore, ?negatives_rescore, ?EP, ?EN; discriminate).
  rewrite positives_rescore, negatives_rescore. f_equal. unfold pair_wins, Rlen. rewrite !map_length, map_map. f_equal. f_equal. apply map_ext_in. intros b Ib.
  rewrite map_map. f_equal. apply map_ext_in. intros a Ia. apply in_positives in Ia. apply in_negatives in Ib. pose proof (Hf _ _ Ia Ib) as H1. pose proof (Hf _ _ Ib Ia) as H2. cbn in H1, H2.
  unfold beats. destruct (Rlt_dec b a), (Rlt_dec (f b) (f a)), (Req_EM_T a b), (Req_EM_T (f a) (f b)); subst; try lra; exfalso; try (apply n; auto; fail); destruct (Rtotal_order a b) as [?|[?|?]]; try lra; try (specialize (H1 ltac:(lra)); lra).
Qed.
Lemma beats_swap : forall a b, beats a b = 1 - beats b a.
Proof. intros. unfold beats. destruct (Rlt_dec b a), (Rlt_dec a b), (Req_EM_T a b), (Req_EM_T b a); lra. Qed.
Lemma wins_complement : forall P N (g : R -> R -> R), P <> [] -> N <> [] -> (forall a b, In a P -> In b N -> g a b = 1 - beats a b) ->
  Rsum (map (fun b => Rsum (map (fun a => g a b) P)) N) / (Rlen P * Rlen N) = 1 - pair_wins P N.
Proof.
  intros P N g HP HN H. destruct (wins_bounds P N HP HN) as [D _].
  rewrite (map_ext_in _ (fun b => Rlen P - Rsum (map (fun a => beats a b) P))).
  - rewrite Rsum_map_minus, Rsum_map_const. unfold pair_wins. fold (Rlen N). field. split; intros Z; rewrite Z in D; lra.
  - intros b Ib. replace (Rlen P) with (Rsum (map (fun _ : R => 1) P)) by (rewrite Rsum_map_const; unfold Rlen; lra). rewrite <- Rsum_map_minus. f_equal. apply map_ext_in. auto.
Qed.
Theorem C102_auroc_reversed : forall f h v, opposite_order f h -> AUROC h = Ok v -> AUROC (rescore f h) = Ok (1 - v).
Proof.
  intros f h v Hf E. destruct (positives h) as [|p P] eqn:EP; [rewrite C102_auroc_undefined in E by auto; discriminate|].
  destruct (negatives h) as [|q N] eqn:EN; [rewrite C102_auroc_undefined in E by auto; discriminate|].
  rewrite (C102_auroc h) in E by (rewrite ?EP, ?EN; discriminate). injection E as <-.
  rewrite C102_auroc by (rewrite ?positives_rescore, ?negatives_rescore, ?EP, ?EN; discriminate).
  rewrite positives_rescore, negatives_rescore. f_equal. rewrite <- (wins_complement _ _ (fun a b => beats (f a) (f b))).
  - unfold pair_wins, Rlen. rewrite !map_length, map_map. f_equal. f_equal. apply map_ext. intros b. rewrite map_map. reflexivity.
  - rewrite EP; discriminate.
  - rewrite EN; discriminate.
  - intros a b Ia Ib. apply in_positives in Ia. apply in_negatives in Ib. pose proof (Hf _ _ Ia Ib) as H1. pose proof (Hf _ _ Ib Ia) as H2. cbn in H1, H2.
    unfold beats. destruct (Rlt_dec b a), (Rlt_dec (f b) (f a)), (Req_EM_T a b), (Req_EM_T (f a) (f b)); subst; try lra; exfalso; try (apply n; auto; fail); destruct (Rtotal_order a b) as [?|[?|?]]; try lra; try (specialize (H1 ltac:(lra)); lra); try (specialize (H2 ltac:(lra)); lra).
Qed.
(** Swapping the two classes. *)
Definition flip (h : list (bool * R)) : list (bool * R) := map (fun q => (negb (fst q), snd q)) h.
Lemma positives_flip : forall h, positives (flip h) = negatives h.
Proof. intros h. unfold positives, negatives, flip. induction h as [|[[] s] h IH]; auto; cbn; rewrite IH; reflexivity. Qed.
Lemma negatives_flip : forall h, negatives (flip h) = positives h.
Proof. intros h. unfold positives, negatives, flip. induction h as [|[[] s] h IH]; auto; cbn; rewrite IH; reflexivity. Qed.
Lemma Rsum_swap : forall (g : R -> R -> R) P N, Rsum (map (fun b => Rsum (map (fun a => g a b) P)) N) = Rsum (map (fun a => Rsum (map (fun b => g a b) N)) P).
Proof.
  intros g P N. induction N as [|b N IH]; cbn [map].
  - change (Rsum []) with 0. symmetry. apply Rsum_map_zero. reflexivity.
  - change (Rsum (?x :: ?l)) with (x + Rsum l). rewrite IH. rewrite <- Rsum_map_plus. reflexivity.
Qed.
Theorem C102_auroc_classes_swapped : forall h v, AUROC h = Ok v -> AUROC (flip h) = Ok (1 - v).
Proof.
  intros h v E. destruct (positives h) as [|p P] eqn:EP; [rewrite C102_auroc_undefined in E by auto; discriminate|].
  destruct (negatives h) as [|q N] eqn:EN; [rewrite C102_auroc_undefined in E by auto; discriminate|].
  rewrite (C102_auroc h) in E by (rewrite ?EP, ?EN; discriminate). injection E as <-.
  rewrite C102_auroc by (rewrite ?positives_flip, ?negatives_flip, ?EP, ?EN; discriminate). rewrite positives_flip, negatives_flip. f_equal.
  rewrite <- (wins_complement _ _ (fun a b => beats b a)); [|rewrite EP; discriminate|rewrite EN; discriminate|intros a b _ _; apply beats_swap].
  unfold pair_wins. rewrite (Rmult_comm (Rlen (negatives h))). f_equal. rewrite (Rsum_swap (fun a b => beats a b)). reflexivity.
Qed.

(** ** AUPR *)
Lemma precision_counts : forall h t, precision_at h t = INR (at_least t (positives h)) / INR (at_least t (negatives h) + at_least t (positives h)).
Proof.
  intros h t. unfold precision_at, fraction, Rlen. f_equal; [|f_equal]; f_equal; unfold at_least, positives, negatives; induction h as [|[[] s] h IH]; auto; cbn [filter map snd fst negb]; destruct (Rleb t s); cbn [filter map snd fst negb length]; lia.
Qed.
Lemma precision_perm : forall h h' t, Permutation h h' -> precision_at h t = precision_at h' t.
Proof. intros h h' t H. rewrite !precision_counts. rewrite (at_least_perm t _ _ (positives_perm _ _ H)), (at_least_perm t _ _ (negatives_perm _ _ H)). reflexivity. Qed.
Theorem C102_aupr : forall h : list (bool * R), positives h <> [] -> AUPR h = Ok (mean (map (precision_at h) (positives h))).
Proof.
  intros h HP. unfold AUPR, AUPRMetric. rewrite sk_value. unfold average_precision_score. destruct (map fst h) as [|y0 r0] eqn:E0; [destruct h; [destruct (HP eq_refl)|discriminate]|]. rewrite <- E0. clear E0.
  unfold binary_clf_curve. rewrite combine_split2. set (L := by_score_desc h).
  assert (PL : Permutation L h) by apply by_score_perm. assert (SL : StronglySorted desc L) by apply by_score_sorted.
  assert (NL : L <> []). { intros E. rewrite E in PL. apply Permutation_nil in PL. subst h. apply HP. reflexivity. }
  rewrite curve_last by auto. cbn [Nat.add snd]. f_equal.
  pose proof (positives_perm _ _ PL) as PP.
  assert (LP : (0 < length (positives L))%nat). { rewrite (Permutation_length PP). destruct (positives h); [contradiction|cbn; lia]. }
  pose proof (curve_points L [] SL) as C. cbn [app] in C. change (length (negatives [])) with 0%nat in C. change (length (positives [])) with 0%nat in C. rewrite C.
  destruct (thr_cons L NL) as (t & ts & ET). destruct (thr_top L t ts SL ET) as [ST BT].
  assert (Z2 : at_least (t + 1) (positives L) = 0%nat) by (apply at_least_none; auto).
  replace (@n0 R NumR) with (INR (at_least (t + 1) (positives L)) / INR (length (positives L))) by (rewrite Z2; cbn; unfold Rdiv; ring).
  rewrite ap_area; auto; [|intros s I; right; apply thr_cover; auto]. rewrite below_sum by auto.
  unfold mean, Rlen. rewrite map_length, <- (Permutation_length PP). f_equal.
  rewrite (Rsum_map_perm _ _ _ _ PP). f_equal. apply map_ext. intros s. rewrite <- precision_counts. apply precision_perm. auto.
Qed.
Theorem C102_aupr_without_positives : forall h : list (bool * R), h <> [] -> positives h = [] -> AUPR h = Ok 0.
Proof.
  intros h HN HP. unfold AUPR, AUPRMetric. rewrite sk_value. unfold average_precision_score. destruct (map fst h) as [|y0 r0] eqn:E0; [destruct h; [destruct (HN eq_refl)|discriminate]|]. rewrite <- E0. clear E0.
  unfold binary_clf_curve. rewrite combine_split2. set (L := by_score_desc h).
  assert (PL : Permutation L h) by apply by_score_perm. assert (SL : StronglySorted desc L) by apply by_score_sorted.
  assert (NL : L <> []). { intros E. rewrite E in PL. apply Permutation_nil in PL. contradiction. }
  rewrite curve_last by auto. cbn [Nat.add snd]. f_equal.
  assert (EP : positives L = []). { apply Permutation_nil. rewrite <- HP. symmetry. apply positives_perm. auto. }
  pose proof (curve_points L [] SL) as C. cbn [app] in C. change (length (negatives [])) with 0%nat in C. change (length (positives [])) with 0%nat in C. rewrite C, EP.
  apply ap_area_none. left; reflexivity.
Qed.
Lemma precision_own : forall h a, In (true, a) h -> 0 < precision_at h a <= 1 /\ (precision_at h a = 1 <-> forall b, In (false, b) h -> b < a).
Proof.
  intros h a I. rewrite precision_counts. set (p := at_least a (positives h)). set (n := at_least a (negatives h)).
  assert (Hp : (0 < p)%nat).
  { unfold p, at_least. destruct (filter (fun s => Rleb a s) (positives h)) eqn:E; [|cbn; lia]. assert (X : In a (filter (fun s => Rleb a s) (positives h))). { apply filter_In. split; [apply in_positives; auto|apply Rleb_le; lra]. } rewrite E in X. destruct X. }
  apply lt_0_INR in Hp. pose proof (pos_INR n) as Hn. rewrite plus_INR. split; [split|split].
  - apply Rdiv_lt_0_compat; lra.
  - apply (Rmult_le_reg_r (INR n + INR p)); [lra|]. unfold Rdiv. rewrite Rmult_assoc, Rinv_l by lra. lra.
  - intros E b Ib. assert (N0 : INR n = 0). { apply (f_equal (fun v => v * (INR n + INR p))) in E. unfold Rdiv in E. rewrite Rmult_assoc, Rinv_l in E by lra. lra. }
    apply INR_eq with (m := 0%nat) in N0. destruct (Rlt_dec b a) as [?|Hb]; auto. exfalso. unfold n, at_least in N0.
    assert (X : In b (filter (fun s => Rleb a s) (negatives h))). { apply filter_In. split; [apply in_negatives; auto|apply Rleb_le; lra]. }
    destruct (filter (fun s => Rleb a s) (negatives h)); [destruct X|discriminate].
  - intros H. assert (N0 : n = 0%nat). { apply at_least_none. intros s Is. apply H. apply in_negatives. auto. } rewrite N0. cbn [INR]. field. lra.
Qed.
Theorem C102_aupr_range : forall h v, positives h <> [] -> AUPR h = Ok v -> 0 < v <= 1 /\ (v = 1 <-> forall a b, In (true, a) h -> In (false, b) h -> b < a).
Proof.
  intros h v HP E. rewrite C102_aupr in E by auto. injection E as <-. unfold mean, Rlen. rewrite map_length.
  assert (LP : 0 < INR (length (positives h))) by (apply lt_0_INR; destruct (positives h); [contradiction|cbn; lia]).
  assert (B : forall a, In a (positives h) -> 0 < precision_at h a <= 1) by (intros a I; apply precision_own, in_positives; auto).
  split; [split|split].
  - apply Rdiv_lt_0_compat; auto. destruct (positives h) as [|a P] eqn:EP; [contradiction|]. cbn [map]. change (Rsum (?x :: ?l)) with (x + Rsum l).
    pose proof (B a (or_introl eq_refl)). assert (0 <= Rsum (map (precision_at h) P)); [|lra]. apply Rsum_nonneg. intros x I. apply in_map_iff in I. destruct I as (c & <- & Ic). specialize (B c (or_intror Ic)). lra.
  - apply (Rmult_le_reg_r (INR (length (positives h)))); auto. unfold Rdiv. rewrite Rmult_assoc, Rinv_l by lra. rewrite Rmult_1_l, Rmult_1_r.
    replace (INR (length (positives h))) with (Rsum (map (fun _ : R => 1) (positives h))) by (rewrite Rsum_map_const; lra). apply Rsum_le. intros a I. apply B; auto.
  - intros E a b Ia Ib. assert (E2 : Rsum (map (precision_at h) (positives h)) = INR (length (positives h)) * 1).
    { apply (f_equal (fun v => v * INR (length (positives h)))) in E. unfold Rdiv in E. rewrite Rmult_assoc, Rinv_l in E by lra. lra. }
    pose proof (Rsum_len_eq _ (precision_at h) 1 (positives h) (fun x I => proj2 (B x I)) E2 a (proj2 (in_positives h a) Ia)) as E3.
    apply (proj1 (proj2 (precision_own h a Ia)) E3). auto.
  - intros H. rewrite (map_ext_in _ (fun _ => 1)).
    + rewrite Rsum_map_const. field. lra.
    + intros a Ia. apply in_positives in Ia. apply (proj2 (precision_own h a Ia)). intros b Ib. apply (H a b); auto.
Qed.
Lemma at_least_rescore : forall f h t l, same_order f h -> In t (map snd h) -> incl l (map snd h) -> at_least (f t) (map f l) = at_least t l.
Proof.
  intros f h t l Hf It Il. unfold at_least. induction l as [|s l IH]; auto. cbn [map filter].
  assert (E : Rleb (f t) (f s) = Rleb t s).
  { assert (Is : In s (map snd h)) by (apply Il; left; auto). apply in_map_iff in It, Is. destruct It as (qt & <- & It). destruct Is as (qs & <- & Is).
    pose proof (Hf _ _ It Is) as H1. pose proof (Hf _ _ Is It) as H2. unfold Rleb. destruct (Rle_dec (f (snd qt)) (f (snd qs))), (Rle_dec (snd qt) (snd qs)); auto; exfalso.
    - specialize (H2 ltac:(lra)). lra.
    - destruct (Req_EM_T (snd qt) (snd qs)) as [E|E]; [rewrite E in *; lra|]. specialize (H1 ltac:(lra)). lra. }
  rewrite E. destruct (Rleb t s); cbn [length]; rewrite IH; auto; intros x I; apply Il; right; auto.
Qed.
Theorem C102_aupr_order_only : forall f h, same_order f h -> AUPR (rescore f h) = AUPR h.
Proof.
  intros f h Hf. destruct h as [|q0 h0] eqn:E0; [reflexivity|]. rewrite <- E0 in *. assert (N : h <> []) by (rewrite E0; discriminate). clear E0.
  destruct (positives h) as [|p P] eqn:EP.
  - rewrite !C102_aupr_without_positives; auto; [destruct h; [contradiction|discriminate]|rewrite positives_rescore, EP; auto].
  - rewrite (C102_aupr h) by (rewrite EP; discriminate). rewrite C102_aupr by (rewrite positives_rescore, EP; discriminate). rewrite positives_rescore. f_equal.
    rewrite map_map. f_equal. apply map_ext_in. intros a Ia. rewrite !precision_counts, positives_rescore, negatives_rescore.
    assert (X : In a (map snd h)) by (apply in_scores; auto).
    rewrite !(at_least_rescore f h a); auto; intros s Is; apply in_scores; auto.
Qed.
(** Scores that say nothing. *)
Theorem C102_constant_scores : forall h c, (forall q, In q h -> snd q = c) ->
  (positives h <> [] -> negatives h <> [] -> AUROC h = Ok (1 / 2)) /\ (h <> [] -> AUPR h = Ok (fraction fst h)).
Proof.
  intros h c Hc. split.
  - intros HP HN. rewrite C102_auroc by auto. f_equal. destruct (wins_bounds _ _ HP HN) as [D _]. unfold pair_wins.
    rewrite (map_ext_in _ (fun _ => Rlen (positives h) * (1 / 2))).
    + rewrite Rsum_map_const. fold (Rlen (negatives h)). field. split; intros Z; rewrite Z in D; lra.
    + intros b Ib. unfold Rlen. rewrite <- Rsum_map_const. f_equal. apply map_ext_in. intros a Ia. apply in_positives, Hc in Ia. apply in_negatives, Hc in Ib. cbn in Ia, Ib. subst. unfold beats. destruct (Rlt_dec c c), (Req_EM_T c c); lra.
  - intros N. assert (A : filter (fun q => Rleb c (snd q)) h = h).
    { clear N. induction h as [|q h IH]; auto. cbn [filter]. rewrite (Hc q (or_introl eq_refl)). unfold Rleb at 1. destruct (Rle_dec c c); [|lra]. f_equal. apply IH. intros; apply Hc; right; auto. }
    destruct (positives h) as [|p P] eqn:EP.
    + rewrite C102_aupr_without_positives by auto. f_equal. unfold fraction. unfold positives in EP. apply map_eq_nil in EP. rewrite EP. unfold Rlen at 1. cbn. unfold Rdiv. ring.
    + rewrite C102_aupr by (rewrite EP; discriminate). f_equal. unfold mean. rewrite (map_ext_in _ (fun _ => fraction fst h)).
      * rewrite Rsum_map_const. unfold Rlen. rewrite map_length. field. apply not_0_INR. rewrite EP. discriminate.
      * intros a Ia. apply in_positives, Hc in Ia. cbn in Ia. subst a. unfold precision_at. rewrite A. reflexivity.
Qed.

(** ** Precision and recall *)
Definition decision (b : bool) : R := if b then 1 else 0.
Definition decided (h : list (bool * bool)) : list (bool * R) := map (fun q => (fst q, decision (snd q))) h.
Definition share {A} (f : A -> bool) (l : list A) : R := match l with [] => 0 | _ => fraction f l end.
Lemma classes_ok : forall l : list bool, classes (map decision l) = Ok l.
Proof.
  intros l. induction l as [|b l IH]; auto. cbn [map classes]. rewrite IH. cbn [oeqb num_ord NumR OrdR nofZ n0]. unfold decision, Reqb. destruct b.
  - destruct (Req_EM_T 1 1); [reflexivity|lra].
  - destruct (Req_EM_T 0 1); [lra|]. destruct (Req_EM_T 0 0); [reflexivity|lra].
Qed.
Lemma safe_ratio_R : forall a b, @safe_ratio R NumR a b = if (b =? 0)%nat then 0 else INR a / INR b.
Proof. intros. unfold safe_ratio. rewrite ratio_R. reflexivity. Qed.
Theorem C102_precision : forall h : list (bool * bool), Precision (decided h) = Ok (share fst (filter snd h)).
Proof.
  intros h. unfold Precision, PrecisionMetric. rewrite sk_value. unfold precision_score, decided. rewrite !map_map. cbn [fst snd].
  rewrite <- (map_map snd decision), classes_ok. cbn [rmap]. f_equal. unfold agreements. rewrite combine_split2. rewrite safe_ratio_R.
  assert (E1 : length (filter fst (filter snd h)) = length (filter (fun q : bool * bool => fst q && snd q) h)) by (induction h as [|[[] []] h IH]; cbn; auto).
  assert (E2 : length (filter snd h) = (length (filter (fun q : bool * bool => fst q && snd q) h) + length (filter (fun q => negb (fst q) && snd q) h))%nat) by (clear; induction h as [|[[] []] h IH]; cbn in *; lia).
  rewrite <- E2, <- E1. unfold share, fraction, Rlen. destruct (filter snd h); reflexivity.
Qed.
Theorem C102_recall : forall h : list (bool * bool), Recall (decided h) = Ok (share snd (filter fst h)).
Proof.
  intros h. unfold Recall, RecallMetric. rewrite sk_value. unfold recall_score, decided. rewrite !map_map. cbn [fst snd].
  rewrite <- (map_map snd decision), classes_ok. cbn [rmap]. f_equal. unfold agreements. rewrite combine_split2. rewrite safe_ratio_R.
  assert (E1 : length (filter snd (filter fst h)) = length (filter (fun q : bool * bool => fst q && snd q) h)) by (induction h as [|[[] []] h IH]; cbn; auto).
  assert (E2 : length (filter fst h) = (length (filter (fun q : bool * bool => fst q && snd q) h) + length (filter (fun q => fst q && negb (snd q)) h))%nat) by (clear; induction h as [|[[] []] h IH]; cbn in *; lia).
  rewrite <- E2, <- E1. unfold share, fraction, Rlen. destruct (filter fst h); reflexivity.
Qed.
Lemma classes_bad : forall l : list R, (exists s, In s l /\ s <> 0 /\ s <> 1) -> classes l = Raise ValueError.
Proof.
  intros l. induction l as [|a l IH]; intros (s & I & H0 & H1); [destruct I|]. cbn [classes]. cbn [oeqb num_ord NumR OrdR nofZ n0]. unfold Reqb. destruct I as [->|I].
  - destruct (Req_EM_T s 1); [contradiction|]. destruct (Req_EM_T s 0); [contradiction|reflexivity].
  - rewrite IH by eauto. destruct (Req_EM_T a 1); [reflexivity|]. destruct (Req_EM_T a 0); reflexivity.
Qed.
Theorem C102_scores_are_not_decisions : forall h s, In s (map snd h) -> s <> 0 -> s <> 1 -> Precision h = Raise ValueError /\ Recall h = Raise ValueError.
Proof.
  intros h s I H0 H1. unfold Precision, Recall, PrecisionMetric, RecallMetric. rewrite !sk_value. unfold precision_score, recall_score. rewrite classes_bad by eauto. auto.
Qed.
(** Scores cut at a threshold: the precision is the one the AUPR averages, and the recall does not grow with the threshold. *)
Definition cut (t : R) (h : list (bool * R)) : list (bool * bool) := map (fun q => (fst q, Rleb t (snd q))) h.
Theorem C102_aupr_averages_precisions : forall h : list (bool * R), positives h <> [] ->
  exists vs, Forall2 (fun a v => Precision (decided (cut a h)) = Ok v) (positives h) vs /\ AUPR h = Ok (mean vs).
Proof.
  intros h HP. exists (map (precision_at h) (positives h)). split; [|apply C102_aupr; auto].
  assert (G : forall l, incl l (positives h) -> Forall2 (fun a v => Precision (decided (cut a h)) = Ok v) l (map (precision_at h) l)); [|apply G, incl_refl].
  induction l as [|a l IH]; intros Il; [constructor|]. cbn [map]. constructor; [|apply IH; intros x I; apply Il; right; auto].
  rewrite C102_precision. f_equal. unfold precision_at.
  assert (E : filter snd (cut a h) = map (fun q => (fst q, true)) (filter (fun q => Rleb a (snd q)) h)).
  { unfold cut. clear. induction h as [|q h IH]; auto. cbn [map filter snd]. destruct (Rleb a (snd q)) eqn:E; cbn [map]; rewrite IH; auto. }
  rewrite E. assert (N : filter (fun q => Rleb a (snd q)) h <> []).
  { intros Z. assert (X : In (true, a) (filter (fun q => Rleb a (snd q)) h)). { apply filter_In. split; [apply in_positives, Il; left; auto|apply Rleb_le; cbn; lra]. } rewrite Z in X. destruct X. }
  revert N. generalize (filter (fun q => Rleb a (snd q)) h). intros k N. unfold share. destruct (map (fun q => (fst q, true)) k) eqn:Ek; [destruct k; [contradiction|discriminate]|]. rewrite <- Ek. clear.
  unfold fraction, Rlen. rewrite map_length. f_equal. f_equal. induction k as [|q k IH]; auto. cbn [map filter fst]. destruct (fst q); cbn [length]; rewrite IH; auto.
Qed.
Theorem C102_recall_antitone : forall (h : list (bool * R)) t t' v v', t <= t' -> Recall (decided (cut t h)) = Ok v -> Recall (decided (cut t' h)) = Ok v' -> v' <= v.
Proof.
  intros h t t' v v' Ht. rewrite !C102_recall. intros [= <-] [= <-].
  assert (E : forall t, filter fst (cut t h) = map (fun q => (fst q, Rleb t (snd q))) (filter fst h)).
  { intros u. unfold cut. induction h as [|q h IH]; auto. cbn [map filter fst]. destruct (fst q) eqn:E; cbn [map]; rewrite IH, ?E; auto. }
  rewrite !E. generalize (filter fst h). intros k. unfold share. destruct k as [|q k']; [cbn; lra|]. cbn [map]. set (k := q :: k').
  change ((fst q, Rleb t' (snd q)) :: map (fun q => (fst q, Rleb t' (snd q))) k') with (map (fun q => (fst q, Rleb t' (snd q))) k).
  change ((fst q, Rleb t (snd q)) :: map (fun q => (fst q, Rleb t (snd q))) k') with (map (fun q => (fst q, Rleb t (snd q))) k).
  unfold fraction, Rlen. rewrite !map_length. apply Rmult_le_compat_r; [apply Rlt_le, Rinv_0_lt_compat, lt_0_INR; cbn; lia|]. apply le_INR. clear E. clearbody k.
  induction k as [|x k IH]; auto. cbn [map filter snd]. destruct (Rleb t' (snd x)) eqn:E1, (Rleb t (snd x)) eqn:E2; cbn [length]; try lia. apply Rleb_le in E1. apply Rleb_nle in E2. lra.
Qed.
(** Raising the threshold can lower the precision. *)
Theorem C102_precision_monotone_refuted : exists (h : list (bool * R)) t t' v v', t <= t' /\ Precision (decided (cut t h)) = Ok v /\ Precision (decided (cut t' h)) = Ok v' /\ v' < v.
Proof.
  exists [(true, 1); (false, 2)], 1, 2, (1 / 2), 0. rewrite !C102_precision. unfold cut, Rleb. cbn [map fst snd].
  destruct (Rle_dec 1 1), (Rle_dec 1 2), (Rle_dec 2 1), (Rle_dec 2 2); try lra. unfold share, fraction, Rlen. cbn. repeat split; try lra; f_equal; lra.
Qed.

(** ** The order in which the pairs arrive does not matter *)
Lemma classes_in : forall l k, @classes R NumR l = Ok k -> l = map decision k.
Proof.
  intros l. induction l as [|a l IH]; intros k E; cbn [classes] in E; [injection E as <-; auto|]. cbn [oeqb num_ord NumR OrdR nofZ n0] in E. unfold Reqb in E.
  destruct (Req_EM_T a 1) as [->|].
  - destruct (classes l) eqn:El; [|discriminate]. injection E as <-. cbn [map]. rewrite (IH _ eq_refl). reflexivity.
  - destruct (Req_EM_T a 0) as [->|]; [|discriminate]. destruct (classes l) eqn:El; [|discriminate]. injection E as <-. cbn [map]. rewrite (IH _ eq_refl). reflexivity.
Qed.
Lemma decided_or_not : forall h : list (bool * R), (exists k, h = decided k) \/ (exists s, In s (map snd h) /\ s <> 0 /\ s <> 1).
Proof.
  intros h. induction h as [|[y s] h IH]; [left; exists []; auto|]. destruct IH as [[k ->]|(u & I & H)]; [|right; exists u; split; auto; right; auto].
  destruct (Req_EM_T s 1) as [->|]; [left; exists ((y, true) :: k); auto|]. destruct (Req_EM_T s 0) as [->|]; [left; exists ((y, false) :: k); auto|].
  right. exists s. split; auto. left; auto.
Qed.
Lemma share_perm : forall A (f : A -> bool) l l', Permutation l l' -> share f l = share f l'.
Proof.
  intros A f l l' H. unfold share, fraction, Rlen. rewrite (Permutation_length (filter_perm _ f _ _ H)), (Permutation_length H).
  destruct l; [apply Permutation_nil in H; subst; auto|]. destruct l'; [symmetry in H; apply Permutation_nil in H; discriminate|auto].
Qed.
Theorem C102_arrival_order : forall h h' : list (bool * R), Permutation h h' -> AUROC h = AUROC h' /\ AUPR h = AUPR h' /\ Precision h = Precision h' /\ Recall h = Recall h'.
Proof.
  intros h h' H. pose proof (positives_perm _ _ H) as HP. pose proof (negatives_perm _ _ H) as HN.
  assert (NP : positives h = [] <-> positives h' = []) by (split; intros E; apply Permutation_nil; rewrite <- E; [|symmetry]; auto).
  assert (NN : negatives h = [] <-> negatives h' = []) by (split; intros E; apply Permutation_nil; rewrite <- E; [|symmetry]; auto).
  split; [|split].
  - destruct (positives h) as [|p P] eqn:EP; [rewrite !C102_auroc_undefined; auto; left; apply NP; auto|].
    destruct (negatives h) as [|q N] eqn:EN; [rewrite !C102_auroc_undefined; auto; right; apply NN; auto|].
    rewrite !C102_auroc by (rewrite ?EP, ?EN; intros Z; first [discriminate | apply NP in Z; discriminate | apply NN in Z; discriminate]). rewrite EP, EN. f_equal. unfold pair_wins, Rlen.
    rewrite (Permutation_length HP), (Permutation_length HN), (Rsum_map_perm _ _ _ _ HN). f_equal. f_equal. apply map_ext. intros b. apply Rsum_map_perm; auto.
  - destruct h as [|q0 h0] eqn:E0; [apply Permutation_nil in H; subst; auto|]. rewrite <- E0 in *. assert (N : h <> []) by (rewrite E0; discriminate). clear E0.
    assert (N' : h' <> []) by (intros ->; symmetry in H; apply Permutation_nil in H; contradiction).
    destruct (positives h) as [|p P] eqn:EP; [rewrite !C102_aupr_without_positives; auto; apply NP; auto|].
    rewrite !C102_aupr by (rewrite ?EP; intros Z; first [discriminate | apply NP in Z; discriminate]). rewrite EP. f_equal. unfold mean, Rlen. rewrite !map_length, (Permutation_length HP). f_equal.
    rewrite (Rsum_map_perm _ _ _ _ HP). f_equal. apply map_ext. intros t. apply precision_perm; auto.
  - destruct (decided_or_not h) as [[k ->]|(s & I & H0 & H1)].
    + assert (Hk : exists k', Permutation k k' /\ h' = decided k'). { symmetry in H. apply Permutation_map_inv in H. destruct H as (k' & -> & Hk). exists k'. auto. }
      destruct Hk as (k' & Hk & ->). rewrite !C102_precision, !C102_recall. rewrite (share_perm _ fst _ _ (filter_perm _ snd _ _ Hk)), (share_perm _ snd _ _ (filter_perm _ fst _ _ Hk)). auto.
    + destruct (C102_scores_are_not_decisions h s I H0 H1) as [-> ->]. apply (Permutation_in _ (Permutation_map snd H)) in I. destruct (C102_scores_are_not_decisions h' s I H0 H1) as [-> ->]. auto.
Qed.

Example C102_ex : AUROC [(true, 3); (false, 1); (true, 2); (false, 2)] = Ok (7 / 8) /\ AUPR [(true, 3); (false, 1); (true, 2); (false, 2)] = Ok (5 / 6) /\ Precision (decided [(true, true); (false, true); (true, false)]) = Ok (1 / 2).
Proof.
  split; [|split].
  - rewrite C102_auroc by discriminate. f_equal. unfold positives, negatives, pair_wins, Rlen, beats. cbn [filter map fst snd negb length].
    destruct (Rlt_dec 1 3), (Rlt_dec 1 2), (Rlt_dec 2 3), (Rlt_dec 2 2), (Req_EM_T 2 2); try lra. cbn. lra.
  - rewrite C102_aupr by discriminate. f_equal. unfold positives, mean, Rlen, precision_at, fraction, Rleb. cbn [filter map fst snd negb length].
    destruct (Rle_dec 3 3), (Rle_dec 3 1), (Rle_dec 3 2), (Rle_dec 2 3), (Rle_dec 2 1), (Rle_dec 2 2); try lra. cbn. field.
  - rewrite C102_precision. reflexivity.
Qed.

Print Assumptions C102_auroc.
Print Assumptions C102_auroc_undefined.
Print Assumptions C102_auroc_range.
Print Assumptions C102_auroc_order_only.
Print Assumptions C102_auroc_reversed.
Print Assumptions C102_auroc_classes_swapped.
Print Assumptions C102_aupr.
Print Assumptions C102_aupr_without_positives.
Print Assumptions C102_aupr_range.
Print Assumptions C102_aupr_order_only.
Print Assumptions C102_constant_scores.
Print Assumptions C102_precision.
Print Assumptions C102_recall.
Print Assumptions C102_scores_are_not_decisions.
Print Assumptions C102_aupr_averages_precisions.
Print Assumptions C102_recall_antitone.
Print Assumptions C102_precision_monotone_refuted.
Print Assumptions C102_arrival_order.
