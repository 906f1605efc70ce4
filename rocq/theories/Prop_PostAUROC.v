(** * C112: what postprocessing the scores does to the AUROC that is reported for them. *)
From Coq Require Import List ZArith Lia Bool Reals Lra Arith.
From Verif Require Import Base Num Spec Model_Stats Model_Utils Model_Core Model_Post Model_Eval Model_Metrics P_Lists P_Stats P_Utils P_Core P_Post P_Eval P_Metrics Prop_Post Prop_Metrics Prop_Direction Prop_WinAUROC.
Import ListNotations.
Open Scope R_scope.

(** transform() on the scores of a labelled test set, after any history h of fit_partial and transform_partial calls. *)
Definition held_out {A} (p : Postprocessor R A) (s0 : pp_state p) (h : list (pop R)) (data : list (bool * R)) : res (list (npres A)) :=
  eval (Post_transform p (map snd data)) (post_run p s0 h).
(** The labels with the postprocessed scores. *)
Definition relabelled (data : list (bool * R)) (vs : list R) : list (bool * R) := combine (map fst data) vs.

Lemma held_out_law : forall A (p : Postprocessor R A) s0 spec h data (g : R -> A), history_law p s0 spec ->
  (forall x, spec (fitted h) x = Ok (VScalar (g x))) -> held_out p s0 h data = Ok (map (fun q => FinV (g (snd q))) data).
Proof.
  intros A p s0 spec h data g HL Hg. unfold held_out, Post_transform, eval. rewrite map_gen_none. cbn [fst].
  assert (G : forall xs h', fitted h' = fitted h -> fst (mapM (fun x => bind (pp_transform p x) (fun v => lift (store v))) xs (post_run p s0 h')) = Ok (map (fun x => FinV (g x)) xs)).
  { induction xs as [|x xs IH]; intros h' E; auto. cbn [mapM map]. pose proof (HL h' x) as V. rewrite E, Hg in V. unfold eval in V.
    specialize (IH (h' ++ [PTransform x])). unfold post_run in IH at 1. rewrite fold_left_app in IH. fold (post_run p s0 h') in IH. cbn [fold_left post_do] in IH. unfold exec in IH.
    unfold bind in *. destruct (pp_transform p x (post_run p s0 h')) as [r s1]. cbn [fst snd] in *. subst r. cbn [store]. unfold lift in *. cbn [fst snd].
    assert (F' : fitted (h' ++ [PTransform x]) = fitted h) by (unfold fitted; rewrite flat_map_app; cbn [flat_map]; rewrite app_nil_r; exact E). specialize (IH F').
    destruct (mapM _ xs s1) as [r2 s2]. cbn [fst] in IH. subst r2. reflexivity. }
  rewrite G by auto. rewrite map_map. reflexivity.
Qed.
Lemma relabelled_map : forall (f : R -> R) data, relabelled data (map (fun q => f (snd q)) data) = rescore f data.
Proof. intros f data. unfold relabelled, rescore. induction data as [|[b s] data IH]; auto. cbn. f_equal. exact IH. Qed.

Lemma all_ties : forall c data, both data -> AUROC (rescore (fun _ => c) data) = Ok (1 / 2).
Proof.
  intros c data [HP HN]. assert (E : exists v, AUROC data = Ok v) by (eexists; apply C102_auroc; auto). destruct E as [v E].
  rewrite C102_auroc; rewrite ?positives_rescore, ?negatives_rescore; try (intros Q; apply map_eq_nil in Q; auto; fail). f_equal. unfold pair_wins.
  assert (B : beats c c = 1 / 2) by (unfold beats; destruct (Rlt_dec c c), (Req_EM_T c c); try lra; congruence).
  assert (SC : forall (x : R) l, Rsum (map (fun _ : R => x) l) = INR (length l) * x). { intros x l. induction l as [|y l IH]; [cbn; lra|]. cbn [map]. change (Rsum (x :: map (fun _ : R => x) l)) with (x + Rsum (map (fun _ : R => x) l)). rewrite IH. cbn [length]. rewrite S_INR. lra. }
  unfold Rlen. rewrite !map_length, !map_map.
  rewrite B, !SC. field. split; apply not_0_INR; intros L; apply length_zero_iff_nil in L; auto.
Qed.

(** transform of AveragePostprocessor, MedianPostprocessor and their running versions gives every instance of a test set one and the same score,
    so the AUROC measured on it is 1/2 whatever the detector. *)
Theorem C112_averages_erase : forall w h data, (1 <= w)%Z -> fitted h <> [] -> both data ->
  exists ra rm, RunningPost_init (AverageMeter (A := R)) w = Ok ra /\ RunningPost_init (MedianMeter (A := R)) w = Ok rm /\
  Forall (fun out => exists vs, out = Ok (map FinV vs) /\ length vs = length data /\ AUROC (relabelled data vs) = Ok (1 / 2))
    [held_out AveragePostprocessor (mt_init AverageMeter) h data; held_out MedianPostprocessor (mt_init MedianMeter) h data;
     held_out RunningAveragePostprocessor ra h data; held_out RunningMedianPostprocessor rm h data].
Proof.
  intros w h data Hw Nh B. destruct (C34_running_average w) as (ra & Ea & La & _). destruct (C34_running_median w) as (rm & Em & Lm & _). exists ra, rm. split; auto. split; auto.
  assert (G : forall (p : Postprocessor R R) s0 spec c, history_law p s0 spec -> (forall x, spec (fitted h) x = Ok (VScalar c)) -> exists vs, held_out p s0 h data = Ok (map FinV vs) /\ length vs = length data /\ AUROC (relabelled data vs) = Ok (1 / 2)).
  { intros p s0 spec c HL Hc. exists (map (fun q => (fun _ => c) (snd q)) data). split; [|split].
    - rewrite map_map. exact (held_out_law R p s0 spec h data (fun _ => c) HL Hc).
    - apply map_length.
    - rewrite (relabelled_map (fun _ => c)). apply all_ties; auto. }
  assert (NL : lastn (Z.to_nat w) (fitted h) <> []). { intros Q. apply (f_equal (@length _)) in Q. rewrite lastn_length in Q. cbn [length] in Q. destruct (fitted h); [congruence|cbn [length] in Q; lia]. }
  repeat constructor.
  - destruct C33_average_postprocessor as [L _]. apply (G _ _ _ (mean (fitted h)) L). intros x. cbn. destruct (fitted h); [congruence|reflexivity].
  - destruct C33_median_postprocessor as [L _]. apply (G _ _ _ (median_fn (fitted h)) L). intros x. cbn. destruct (fitted h); [congruence|reflexivity].
  - apply (G _ _ _ (mean (lastn (Z.to_nat w) (fitted h))) La). intros x. cbn. destruct (lastn (Z.to_nat w) (fitted h)); [congruence|reflexivity].
  - apply (G _ _ _ (median_fn (lastn (Z.to_nat w) (fitted h))) Lm). intros x. cbn. destruct (lastn (Z.to_nat w) (fitted h)); [congruence|reflexivity].
Qed.
Print Assumptions C112_averages_erase.

Definition two_values (l : list R) : Prop := exists a b, In a l /\ In b l /\ a <> b.
Lemma zscore_rescore : forall l data, two_values l -> exists f, (forall x, zscore l x = FinV (f x)) /\ AUROC (rescore f data) = AUROC data.
Proof.
  intros l data T. assert (Nl : l <> []) by (destruct T as (a & _ & I & _); destruct l; [destruct I|congruence]).
  destruct C35_zscore_closed_form as (_ & _ & Z & _). exists (fun x => (x - mean l) / std l). split; [intros; apply Z; auto|].
  assert (P : 0 < std l). { pose proof (Z l 0 Nl T) as E. unfold zscore in E. destruct (Req_EM_T (variance l) 0) as [Q|Q]; [discriminate|]. unfold std. apply sqrt_lt_R0. pose proof (variance_nonneg l). lra. }
  apply C102_auroc_order_only. intros q q' _ _ L. unfold Rdiv. apply Rmult_lt_compat_r; [apply Rinv_0_lt_compat; auto|lra].
Qed.
(** A fitted z-score, running z-score or Gaussian tail probability leaves the AUROC of a test set unchanged. *)
Theorem C112_scaling_preserves : forall w h data erfc running, (1 <= w)%Z -> two_values (lastn (Z.to_nat w) (fitted h)) -> (forall a b, a < b -> erfc b < erfc a) ->
  exists rz g, RunningZScore_init (A := R) w = Ok rz /\ Gaussian_init (A := R) running w = Ok g /\
  (exists vs, held_out ZScorePostprocessor z_fresh h data = Ok (map (fun v => FinV (FinV v)) vs) /\ AUROC (relabelled data vs) = AUROC data) /\
  (exists vs, held_out RunningZScorePostprocessor rz h data = Ok (map (fun v => FinV (FinV v)) vs) /\ AUROC (relabelled data vs) = AUROC data) /\
  (exists vs, held_out (GaussianTailProbabilityCalibrator erfc (/ 2) 1 (sqrt 2)) g h data = Ok (map FinV vs) /\ AUROC (relabelled data vs) = AUROC data).
Proof.
  intros w h data erfc running Hw T Er. destruct (C34_running_zscore w) as (rz & Ez & Lz & _). destruct (C38_gaussian_tail_closed_form erfc running w) as (g & Eg & Lg). exists rz, g. split; auto. split; auto.
  assert (Tl : two_values (fitted h)) by (destruct T as (a & b & Ia & Ib & D); exists a, b; repeat split; auto; eapply In_lastn; eauto).
  assert (Nh : fitted h <> []) by (destruct Tl as (a & _ & I & _); destruct (fitted h); [destruct I|congruence]).
  assert (NL : lastn (Z.to_nat w) (fitted h) <> []) by (destruct T as (a & _ & I & _); destruct (lastn _ _); [destruct I|congruence]).
  split; [|split].
  - destruct C35_zscore_closed_form as (L & _). destruct (zscore_rescore _ data Tl) as (f & Ef & Af). exists (map (fun q => f (snd q)) data). rewrite relabelled_map. split; auto. rewrite map_map.
    eapply (held_out_law (npres R) ZScorePostprocessor _ _ h data (fun x => FinV (f x)) L). intros x. cbn. rewrite <- Ef. destruct (fitted h); [congruence|reflexivity].
  - destruct (zscore_rescore _ data T) as (f & Ef & Af). exists (map (fun q => f (snd q)) data). rewrite relabelled_map. split; auto. rewrite map_map.
    eapply (held_out_law (npres R) RunningZScorePostprocessor _ _ h data (fun x => FinV (f x)) Lz). intros x. cbn. rewrite <- Ef. destruct (lastn (Z.to_nat w) (fitted h)); [congruence|reflexivity].
  - set (mu := mean (if running then lastn (Z.to_nat w) (fitted h) else fitted h)). set (sd := safe_std (lastn (Z.to_nat w) (fitted h))).
    exists (map (fun q => gauss_cdf erfc mu sd (snd q)) data). rewrite (relabelled_map (gauss_cdf erfc mu sd)). split.
    + rewrite map_map. refine (held_out_law R (GTail erfc) g _ h data (gauss_cdf erfc mu sd) Lg _). intros x. unfold gt_spec, mu, sd. destruct (lastn (Z.to_nat w) (fitted h)); [congruence|reflexivity].
    + assert (P : 0 < sd). { unfold sd, safe_std. destruct (Rlt_dec 0 (variance (lastn (Z.to_nat w) (fitted h)))); [apply sqrt_lt_R0; auto|lra]. }
      apply C102_auroc_order_only. intros q q' _ _ L. unfold gauss_cdf. assert (erfc ((snd q' - mu) / sd / sqrt 2) < erfc ((snd q - mu) / sd / sqrt 2)); [|lra]. apply Er.
      assert (0 < sqrt 2) by (apply sqrt_lt_R0; lra). unfold Rdiv. apply Rmult_lt_compat_r; [apply Rinv_0_lt_compat; auto|]. apply Rmult_lt_compat_r; [apply Rinv_0_lt_compat; auto|lra].
Qed.
Print Assumptions C112_scaling_preserves.

(** Conformal calibration turns the ranking over: a perfect detector gets at most 1/2, and if the calibration scores separate the scores of the
    test set the AUROC v becomes 1 - v. *)
Theorem C112_conformal_reverses : forall windowed w h data v, let W := conf_window windowed w (fitted h) in W <> [] -> AUROC data = Ok v ->
  exists vs v', held_out ConformalProbabilityCalibrator (Conformal_init windowed w) h data = Ok (map (fun u => FinV (FinV u)) vs) /\ AUROC (relabelled data vs) = Ok v' /\
  (v = 1 -> v' <= 1 / 2) /\
  ((forall q q', In q data -> In q' data -> snd q < snd q' -> exists c, In c W /\ snd q < c <= snd q') -> v' = 1 - v).
Proof.
  intros windowed w h data v W NW E. set (f := fun x => fraction (above x) W).
  assert (B : both data). { destruct (both_dec data) as [B|B]; auto. rewrite C102_auroc_undefined in E by auto. discriminate. }
  assert (Bf : both (rescore f data)). { destruct B as [B1 B2]. split; rewrite ?positives_rescore, ?negatives_rescore; intros Q; apply map_eq_nil in Q; auto. }
  exists (map (fun q => f (snd q)) data). rewrite relabelled_map. destruct Bf as [Bf1 Bf2]. pose proof (C102_auroc _ Bf1 Bf2) as E'. exists (pair_wins (positives (rescore f data)) (negatives (rescore f data))). split; [|split; [exact E'|]].
  { rewrite map_map. refine (held_out_law (npres R) ConformalProbabilityCalibrator _ _ h data (fun x => FinV (f x)) (C36_conformal_fraction_above windowed w) _). intros x. unfold f, W in *. destruct (conf_window windowed w (fitted h)); [congruence|reflexivity]. }
  assert (PW : 0 < Rlen W) by (apply INR_length_pos; auto).
  assert (An : forall s t, s <= t -> f t <= f s). { intros s t L. unfold f, fraction. apply Rmult_le_compat_r; [left; apply Rinv_0_lt_compat; auto|]. apply le_INR, filter_impl_length. unfold above. intros x _. destruct (Rlt_dec t x), (Rlt_dec s x); auto; try discriminate. lra. }
  split.
  - intros ->. pose proof (proj1 (proj1 (proj2 (C102_auroc_range data 1 E))) eq_refl) as PF. unfold pair_wins. set (P := positives (rescore f data)) in *. set (N := negatives (rescore f data)) in *.
    assert (Q : forall a b, In a P -> In b N -> beats a b <= 1 / 2).
    { intros a b Ia Ib. unfold P, N in *. rewrite positives_rescore in Ia. rewrite negatives_rescore in Ib. apply in_map_iff in Ia. apply in_map_iff in Ib. destruct Ia as (a0 & <- & Ia). destruct Ib as (b0 & <- & Ib). apply in_positives in Ia. apply in_negatives in Ib.
      pose proof (PF _ _ Ia Ib) as L. pose proof (An b0 a0 ltac:(lra)). unfold beats. destruct (Rlt_dec (f b0) (f a0)); [lra|]. destruct (Req_EM_T (f a0) (f b0)); lra. }
    assert (S1 : forall b, In b N -> Rsum (map (fun a => beats a b) P) <= Rlen P * (1 / 2)).
    { intros b Ib. assert (Q' : forall a, In a P -> beats a b <= 1 / 2) by (intros; apply Q; auto). clear - Q'. unfold Rlen. induction P as [|a P IH]; [cbn; lra|]. cbn [map length]. rewrite S_INR. change (Rsum (beats a b :: map (fun a => beats a b) P)) with (beats a b + Rsum (map (fun a => beats a b) P)). pose proof (Q' a (or_introl eq_refl)). specialize (IH (fun x I => Q' x (or_intror I))). lra. }
    assert (S2 : Rsum (map (fun b => Rsum (map (fun a => beats a b) P)) N) <= Rlen N * (Rlen P * (1 / 2))).
    { clear - S1. revert S1. generalize (Rlen P * (1 / 2)). intros c S1. unfold Rlen. induction N as [|b N IH]; [cbn; lra|]. cbn [map length]. rewrite S_INR. change (Rsum (Rsum (map (fun a => beats a b) P) :: map (fun b => Rsum (map (fun a => beats a b) P)) N)) with (Rsum (map (fun a => beats a b) P) + Rsum (map (fun b => Rsum (map (fun a => beats a b) P)) N)). pose proof (S1 b (or_introl eq_refl)). specialize (IH (fun x I => S1 x (or_intror I))). lra. }
    assert (0 < Rlen P) by (apply INR_length_pos; auto). assert (0 < Rlen N) by (apply INR_length_pos; auto). assert (0 < Rlen P * Rlen N) by (apply Rmult_lt_0_compat; auto).
    apply (Rmult_le_reg_r (Rlen P * Rlen N)); auto. unfold Rdiv. rewrite Rmult_assoc, Rinv_l by lra. lra.
  - intros Sep. assert (OO : opposite_order f data).
    { intros q q' I I' L. destruct (Sep q q' I I' L) as (c & Ic & L1 & L2). unfold f, fraction. apply Rmult_lt_compat_r; [apply Rinv_0_lt_compat; auto|]. apply lt_INR.
      clear - Ic L1 L2. induction W as [|x W IH]; [destruct Ic|]. cbn [filter].
      assert (LE : (length (filter (above (snd q')) W) <= length (filter (above (snd q)) W))%nat). { apply filter_impl_length. unfold above. intros y _. destruct (Rlt_dec (snd q') y), (Rlt_dec (snd q) y); auto; try discriminate. lra. }
      destruct (above (snd q') x) eqn:A1, (above (snd q) x) eqn:A2; unfold above in A1, A2; destruct (Rlt_dec (snd q') x), (Rlt_dec (snd q) x); try discriminate; destruct Ic as [->|Ic]; try lra; try specialize (IH Ic); cbn [length]; lia. }
    pose proof (C102_auroc_reversed f data v OO E) as Rv. rewrite E' in Rv. injection Rv as Rv. exact Rv.
Qed.
Print Assumptions C112_conformal_reverses.

(** ** Smoothing a stream *)
(** fit_transform on the scores of a labelled stream. *)
Definition smoothed {A} (p : Postprocessor R A) (s0 : pp_state p) (data : list (bool * R)) : res (list (npres A)) := eval (Post_fit_transform p (map snd data)) s0.
(** w normal instances scoring 0, an anomaly scoring 2 and k normal instances scoring 3/2. *)
Definition drift_after (w k : nat) : list (bool * R) := repeat (false, 0) w ++ (true, 2) :: repeat (false, 3 / 2) k.

Lemma prefixes_app2 : forall A (a b : list A), prefixes (a ++ b) = prefixes a ++ map (app a) (prefixes b).
Proof.
  intros A a b. rewrite !prefixes_spec, app_length, seq_app, map_app, map_map. f_equal.
  - apply map_ext_in. intros i I. apply in_seq in I. rewrite firstn_app. replace (S i - length a)%nat with 0%nat by lia. cbn [firstn]. apply app_nil_r.
  - replace (seq (0 + length a) (length b)) with (map (fun i => (length a + i)%nat) (seq 0 (length b))).
    + rewrite map_map. apply map_ext. intros i. replace (S (length a + i)) with (length a + S i)%nat by lia. apply firstn_app_2.
    + generalize (length b). intros n. generalize 0%nat at 1 2. induction n as [|n IH]; intros m; auto. cbn [seq map]. f_equal; try lia. rewrite IH. try (f_equal; lia).
Qed.
Lemma skipn_repeat : forall A (c : A) i n, skipn i (repeat c n) = repeat c (n - i).
Proof. intros A c i. induction i as [|i IH]; intros [|n]; auto. cbn [repeat skipn Nat.sub]. apply IH. Qed.
Lemma repeat_of_all : forall A (c : A) l, Forall (eq c) l -> l = repeat c (length l).
Proof. intros A c l F. induction F as [|x l <- F IH]; auto. cbn. f_equal. exact IH. Qed.
Lemma in_prefix_repeat : forall A (c : A) n p, In p (prefixes (repeat c n)) -> p <> [] /\ p = repeat c (length p).
Proof.
  intros A c n p I. split; [eapply prefixes_nonempty; eauto|]. apply repeat_of_all. rewrite prefixes_spec in I. apply in_map_iff in I. destruct I as (i & <- & _).
  apply Forall_forall. intros x Hx. apply In_firstn in Hx. apply repeat_spec in Hx. auto.
Qed.
Lemma pair_wins_one : forall a (L G : list R), Forall (fun b => b < a) L -> Forall (fun b => a < b) G -> (L ++ G) <> [] -> pair_wins [a] (L ++ G) = INR (length L) / INR (length L + length G).
Proof.
  intros a L G FL FG N. unfold pair_wins, Rlen. rewrite app_length. cbn [length]. rewrite map_app, Rsum_app2.
  assert (SL : Rsum (map (fun b => Rsum (map (fun a => beats a b) [a])) L) = INR (length L)).
  { induction FL as [|b L Hb FL IH]; auto. cbn [map length]. rewrite S_INR. change (Rsum (Rsum [beats a b] :: map (fun b => Rsum [beats a b]) L)) with (Rsum [beats a b] + Rsum (map (fun b => Rsum [beats a b]) L)).
    assert (L <> [] \/ L = []) as [Q|Q] by (destruct L; [right; auto|left; discriminate]).
    - cbn [map] in IH. rewrite IH by (destruct L; [congruence|discriminate]). unfold beats. cbn. destruct (Rlt_dec b a); lra.
    - subst L. unfold beats. cbn. destruct (Rlt_dec b a); lra. }
  assert (SG : Rsum (map (fun b => Rsum (map (fun a => beats a b) [a])) G) = 0).
  { clear - FG. induction FG as [|b G Hb FG IH]; auto. cbn [map] in *. change (Rsum (Rsum [beats a b] :: map (fun b => Rsum [beats a b]) G)) with (Rsum [beats a b] + Rsum (map (fun b => Rsum [beats a b]) G)). rewrite IH. unfold beats. cbn. destruct (Rlt_dec b a); [lra|]. destruct (Req_EM_T a b); lra. }
  rewrite SL, SG, Rplus_0_r. change (INR 1) with 1. rewrite Rmult_1_l. reflexivity.
Qed.
Lemma smoothing_means : forall w k, (2 <= w)%nat -> exists M,
  map (fun p => mean (lastn w p)) (prefixes (repeat 0 w ++ 2 :: repeat (3 / 2) k)) = repeat 0 w ++ (2 / INR w) :: M /\ length M = k /\ Forall (fun v => 2 / INR w < v) M.
Proof.
  intros w k Hw. assert (Pw : 0 < INR w) by (apply lt_0_INR; lia). assert (P2 : 2 <= INR w) by (change 2 with (INR 2); apply le_INR; auto).
  change (2 :: repeat (3 / 2) k) with ([2] ++ repeat (3 / 2) k). rewrite !prefixes_app2, !map_app, !map_map.
  exists (map (fun p => mean (lastn w (repeat 0 w ++ [2] ++ p))) (prefixes (repeat (3 / 2) k))). split; [|split].
  - f_equal; [|cbn [prefixes map app]; f_equal].
    + assert (EQ : map (fun p => mean (lastn w p)) (prefixes (repeat 0 w)) = map (fun _ => 0) (prefixes (repeat 0 w))).
      { apply map_ext_in. intros p I. apply in_prefix_repeat in I. destruct I as [Np ->]. unfold mean, lastn. rewrite repeat_length. rewrite skipn_repeat, Rsum_repeat. unfold Rdiv. ring. }
      rewrite EQ. rewrite prefixes_spec, map_map, repeat_length. clear. generalize 0%nat. induction w as [|w IH]; intros m; auto. cbn [seq map repeat]. f_equal. apply IH.
    + unfold mean, lastn. rewrite app_length, repeat_length. cbn [length]. replace (w + 1 - w)%nat with 1%nat by lia. destruct w as [|w']; [lia|]. cbn [repeat app skipn]. rewrite Rsum_app2, Rsum_repeat. unfold Rlen. rewrite app_length, repeat_length. cbn [length]. rewrite Nat.add_1_r. cbn [Rsum fold_right]. unfold Rdiv. f_equal. change (Rsum [2]) with (2 + 0). ring.
  - rewrite map_length, prefixes_spec, map_length, seq_length, repeat_length. reflexivity.
  - rewrite Forall_map, Forall_forall. intros p I. apply in_prefix_repeat in I. destruct I as [Np Ep]. rewrite Ep. set (j := length p) in *. assert (Hj : (1 <= j)%nat) by (unfold j; destruct p; [congruence|cbn [length]; lia]).
    clearbody j. clear Ep Np p. set (L := lastn w (repeat 0 w ++ [2] ++ repeat (3 / 2) j)).
    assert (LL : length L = w) by (unfold L; rewrite lastn_length, !app_length, !repeat_length; cbn [length]; lia).
    assert (SL : 2 < Rsum L).
    { unfold L, lastn. rewrite !app_length, !repeat_length. cbn [length]. replace (w + (1 + j) - w)%nat with (1 + j)%nat by lia. assert (1 <= INR j) by (change 1 with (INR 1); apply le_INR; auto).
      rewrite !skipn_app, !skipn_repeat, repeat_length. cbn [length]. destruct (le_lt_dec w j) as [C|C].
      - replace (w - (1 + j))%nat with 0%nat by lia. replace (1 + j - w - 1)%nat with (j - w)%nat by lia. destruct (1 + j - w)%nat as [|q] eqn:Q; [lia|]. replace (skipn (S q) [2]) with (@nil R) by (destruct q; reflexivity). cbn [repeat app]. rewrite Rsum_repeat.
        replace (j - (j - w))%nat with w by lia. lra.
      - replace (1 + j - w)%nat with 0%nat by lia. cbn [skipn Nat.sub]. rewrite Nat.sub_0_r, !Rsum_app2, !Rsum_repeat. change (Rsum [2]) with (2 + 0). lra. }
    unfold mean, Rlen. rewrite LL. unfold Rdiv. apply Rmult_lt_compat_r; [apply Rinv_0_lt_compat; auto|auto].
Qed.
Lemma combine_app2 : forall A B (a a' : list A) (b b' : list B), length a = length b -> combine (a ++ a') (b ++ b') = combine a b ++ combine a' b'.
Proof. induction a as [|x a IH]; intros a' [|y b] b' L; try discriminate; auto. cbn. f_equal. apply IH. cbn in L. lia. Qed.
Lemma all_negative : forall vs, positives (combine (repeat false (length vs)) vs) = [] /\ negatives (combine (repeat false (length vs)) vs) = vs.
Proof. induction vs as [|v vs [I1 I2]]; split; [reflexivity|reflexivity|exact I1|]. cbn. f_equal. exact I2. Qed.

(** A running average of any window w >= 2 can turn a perfect ranking (AUROC 1) into one with AUROC w / (w + k), for any k. *)
Theorem C112_smoothing_keeps_the_ranking_refuted : forall w k, (2 <= w)%nat ->
  AUROC (drift_after w k) = Ok 1 /\
  exists s0 vs, RunningPost_init (AverageMeter (A := R)) (Z.of_nat w) = Ok s0 /\ smoothed RunningAveragePostprocessor s0 (drift_after w k) = Ok (map FinV vs) /\
  AUROC (relabelled (drift_after w k) vs) = Ok (INR w / INR (w + k)).
Proof.
  intros w k Hw. assert (MR : forall A B (f : A -> B) x n, map f (repeat x n) = repeat (f x) n) by (intros A B f x n; induction n as [|n IH]; auto; cbn; f_equal; exact IH).
  assert (F : map fst (drift_after w k) = repeat false w ++ true :: repeat false k) by (unfold drift_after; rewrite map_app; cbn [map fst]; rewrite !MR; reflexivity).
  assert (S : map snd (drift_after w k) = repeat 0 w ++ 2 :: repeat (3 / 2) k) by (unfold drift_after; rewrite map_app; cbn [map snd]; rewrite !MR; reflexivity).
  assert (G : forall (L M : list R) a, length L = w -> length M = k -> combine (repeat false w ++ true :: repeat false k) (L ++ a :: M) = combine (repeat false w) L ++ (true, a) :: combine (repeat false k) M).
  { intros L M a HL HM. rewrite combine_app2 by (rewrite repeat_length; auto). reflexivity. }
  assert (PN : forall (L M : list R) a, length L = w -> length M = k -> let h := combine (repeat false w ++ true :: repeat false k) (L ++ a :: M) in positives h = [a] /\ negatives h = L ++ M).
  { intros L M a HL HM. cbv zeta. rewrite G by auto. rewrite positives_app, negatives_app. destruct (all_negative L) as [A1 A2]. destruct (all_negative M) as [B1 B2]. rewrite HL in A1, A2. rewrite HM in B1, B2. rewrite A1, A2.
    unfold positives, negatives in *. cbn [filter fst negb map app]. rewrite B1. split; [reflexivity|]. cbn [snd]. rewrite B2. reflexivity. }
  split.
  - assert (E : drift_after w k = combine (repeat false w ++ true :: repeat false k) (repeat 0 w ++ 2 :: repeat (3 / 2) k)) by (rewrite <- F, <- S; symmetry; apply combine_split2).
    destruct (PN (repeat 0 w) (repeat (3 / 2) k) 2 (repeat_length _ _) (repeat_length _ _)) as [P N]. rewrite <- E in P, N.
    assert (NN : repeat 0 w ++ repeat (3 / 2) k <> []) by (destruct w; [lia|discriminate]).
    rewrite C102_auroc; rewrite ?P, ?N; [|discriminate|auto]. f_equal. rewrite <- (app_nil_r (repeat 0 w ++ repeat (3 / 2) k)). rewrite pair_wins_one; [|apply Forall_app; split; apply Forall_forall; intros b Ib; apply repeat_spec in Ib; lra|constructor|rewrite app_nil_r; auto].
    cbn [length]. rewrite Nat.add_0_r. apply Rinv_r. apply not_0_INR. rewrite app_length, repeat_length. lia.
  - destruct (C34_running_average (Z.of_nat w)) as (s0 & E0 & _ & St). specialize (St ltac:(lia)). destruct (smoothing_means w k Hw) as (M & EM & LM & FM). exists s0, (repeat 0 w ++ (2 / INR w) :: M). split; auto. split.
    + unfold smoothed. rewrite (St (map snd (drift_after w k))), S. rewrite <- EM, map_map, Nat2Z.id. reflexivity.
    + unfold relabelled. rewrite F. destruct (PN (repeat 0 w) M (2 / INR w) (repeat_length _ _) LM) as [P N]. assert (NN : repeat 0 w ++ M <> []) by (destruct w; [lia|discriminate]).
      assert (Pw : 0 < 2 / INR w) by (apply Rdiv_lt_0_compat; [lra|apply lt_0_INR; lia]).
      rewrite C102_auroc; rewrite ?P, ?N; [|discriminate|auto]. f_equal. rewrite pair_wins_one; auto; [rewrite repeat_length, LM; reflexivity|apply Forall_forall; intros b Ib; apply repeat_spec in Ib; lra].
Qed.
Print Assumptions C112_smoothing_keeps_the_ranking_refuted.
(** The hypotheses are met: calibration scores 0, 1, 2, 3 and the test set (normal, 1), (anomaly, 3). *)
Example C112_ex : let h := map PFit [0; 1; 2; 3] in let data := [(false, 1); (true, 3)] in
  fitted h <> [] /\ two_values (lastn 3 (fitted h)) /\ both data /\ AUROC data = Ok 1 /\
  (forall q q', In q data -> In q' data -> snd q < snd q' -> exists c, In c (conf_window false 300 (fitted h)) /\ snd q < c <= snd q') /\
  exists erfc : R -> R, forall a b, a < b -> erfc b < erfc a.
Proof.
  cbv zeta. split; [discriminate|]. split; [exists 1, 2; repeat split; cbn; auto; lra|]. assert (B : both [(false, 1); (true, 3)]) by (split; discriminate). split; auto. split.
  - rewrite C102_auroc by apply B. f_equal. unfold pair_wins, positives, negatives, beats, Rlen. cbn. destruct (Rlt_dec 1 3); lra.
  - split; [|exists Ropp; intros; lra]. intros q q' [<-|[<-|[]]] [<-|[<-|[]]] L; cbn [snd] in *; try lra. exists 2. split; [cbn; auto|lra].
Qed.
