(** * C109: a standardised score that counts the value itself is capped by the number of values. *)
From Coq Require Import List ZArith Lia Bool Reals Lra Arith.
From Verif Require Import Base Num Spec Model_Core Model_Stats Model_Utils Model_Simple Model_Post P_Lists P_Core P_Stats P_Post P_Models Prop_Simple Prop_Post Prop_Direction.
Import ListNotations.
Open Scope R_scope.

(** ** Samuelson's inequality *)
Lemma cauchy_one : forall l : list R, (Rsum l) ^ 2 <= INR (length l) * Rsum (map (fun x => x ^ 2) l).
Proof.
  assert (S2 : forall l : list R, 0 <= Rsum (map (fun x => x ^ 2) l)) by (induction l as [|a l IH]; cbn [map]; [change (Rsum []) with 0; lra|rewrite Rsum_cons2; pose proof (pow2_ge_0 a); lra]).
  assert (G : forall (l : list R) a, 2 * a * Rsum l <= INR (length l) * a ^ 2 + Rsum (map (fun x => x ^ 2) l)).
  { induction l as [|b l IH]; intros a; [cbn [length map INR]; change (Rsum []) with 0; lra|]. cbn [length map]. rewrite !Rsum_cons2, S_INR. specialize (IH a). pose proof (pow2_ge_0 (a - b)). nra. }
  induction l as [|a l IH]; [cbn; lra|]. cbn [length map]. rewrite !Rsum_cons2, S_INR. specialize (G l a). pose proof (pow2_ge_0 a). nra.
Qed.
Lemma Rsum_dev : forall l c, Rsum (map (fun x => x - c) l) = Rsum l - INR (length l) * c.
Proof. induction l as [|a l IH]; intros c; cbn [map length]; [change (Rsum []) with 0; cbn; ring|]. rewrite !Rsum_cons2, IH, S_INR. ring. Qed.
Lemma samuelson : forall l x, In x l -> (x - mean l) ^ 2 <= (INR (length l) - 1) * variance l.
Proof.
  intros l x I. destruct (in_split _ _ I) as (l1 & l2 & ->). set (l := l1 ++ x :: l2) in *. set (r := map (fun y => y - mean l) (l1 ++ l2)).
  assert (N : 0 < INR (length l)) by (apply lt_0_INR; destruct l; [destruct I|cbn; lia]).
  assert (Z : Rsum (map (fun y => y - mean l) l) = 0). { rewrite Rsum_dev. unfold mean, Rlen. field. lra. }
  assert (E1 : Rsum (map (fun y => y - mean l) l) = (x - mean l) + Rsum r). { unfold r. unfold l at 2. rewrite !map_app, !Rsum_app2. cbn [map]. rewrite Rsum_cons2. ring. }
  assert (E2 : INR (length l) * variance l = (x - mean l) ^ 2 + Rsum (map (fun y => y ^ 2) r)).
  { unfold variance. unfold mean at 1, Rlen. rewrite map_length. unfold r. rewrite map_map. unfold Rdiv. replace (Rsum (map (fun y => (y - mean l) ^ 2) l)) with ((x - mean l) ^ 2 + Rsum (map (fun y => (y - mean l) ^ 2) (l1 ++ l2))).
    - field. lra.
    - unfold l at 4. rewrite !map_app, !Rsum_app2. cbn [map]. rewrite Rsum_cons2. ring. }
  assert (L : INR (length r) = INR (length l) - 1). { unfold r, l. rewrite map_length, !app_length. cbn [length]. rewrite <- minus_INR with (m := 1%nat) by lia. f_equal. lia. }
  pose proof (cauchy_one r) as C. rewrite L in C. set (n := INR (length l)) in *. set (d := x - mean l) in *. set (q := Rsum (map (fun y => y ^ 2) r)) in *. assert (Rsum r = - d) by lra. rewrite H in C.
  assert (n * (d ^ 2) <= n * ((n - 1) * variance l)) by nra. apply Rmult_le_reg_l in H0; auto.
Qed.
Lemma samuelson_abs : forall l x, In x l -> Rabs (x - mean l) <= sqrt (INR (length l) - 1) * std l.
Proof.
  intros l x I. assert (1 <= INR (length l)) by (apply (le_INR 1); destruct l; [destruct I|cbn; lia]).
  unfold std. rewrite <- sqrt_mult_alt by lra. rewrite <- sqrt_Rsqr_abs. apply sqrt_le_1_alt. unfold Rsqr. pose proof (samuelson l x I). lra.
Qed.
Lemma variance_spike : forall u v k, variance (repeat u k ++ [v]) = INR k * ((v - u) / (INR k + 1)) ^ 2.
Proof.
  intros u v k. unfold variance. rewrite mean_spike. unfold mean, Rlen. rewrite map_length, app_length, repeat_length, plus_INR, map_app, Rsum_app2. cbn [length INR map]. rewrite Rsum_cons2. change (Rsum []) with 0.
  assert (M : forall (f : R -> R), map f (repeat u k) = repeat (f u) k) by (intros f; induction k; cbn [repeat map]; congruence). rewrite M, Rsum_repeat. pose proof (pos_INR k). field. lra.
Qed.

(** ** The postprocessors *)
(** What fit_transform_partial(x) returns after any history of fit_partial and transform_partial calls. *)
Lemma fit_transform_law : forall X A (p : Postprocessor X A) s0 spec (Rl : list X -> pp_state p -> Prop),
  Rl [] s0 ->
  (forall l s x, Rl l s -> exists s', pp_fit p x s = (Ok tt, s') /\ Rl (l ++ [x]) s') ->
  (forall l s x, Rl l s -> exists s', pp_transform p x s = (spec l x, s') /\ Rl l s') ->
  forall h x, eval (pp_fit_transform p x) (post_run p s0 h) = spec (fitted h ++ [x]) x.
Proof.
  intros X A p s0 spec Rl H0 Hf Ht h x.
  assert (G : forall h l s, Rl l s -> Rl (l ++ fitted h) (post_run p s h)).
  { clear h. induction h as [|[y|y] h IH]; intros l s Hs; [cbn; rewrite app_nil_r; auto| |]; unfold post_run; cbn [fold_left]; fold (post_run p); unfold post_do, exec.
    - destruct (Hf l s y Hs) as (s' & E & Hs'). rewrite E. cbn [snd]. change (fitted (PFit y :: h)) with ([y] ++ fitted h). rewrite app_assoc. apply (IH _ _ Hs').
    - destruct (Ht l s y Hs) as (s' & E & Hs'). rewrite E. cbn [snd]. apply (IH _ _ Hs'). }
  specialize (G h [] s0 H0). cbn [app] in G. destruct (Hf _ _ x G) as (s1 & E1 & R1). destruct (Ht _ _ x R1) as (s2 & E2 & _).
  unfold eval, pp_fit_transform, bind. rewrite E1, E2. reflexivity.
Qed.
Lemma zscore_cap : forall l x z, In x l -> zscore l x = FinV z -> Rabs z <= sqrt (INR (length l) - 1).
Proof.
  intros l x z I E. unfold zscore in E. destruct (Req_EM_T (variance l) 0) as [|NZ]; [discriminate|]. injection E as <-.
  assert (P : 0 < std l). { unfold std. destruct (Rle_lt_dec (variance l) 0) as [L|L]; [|apply sqrt_lt_R0; auto]. pose proof (samuelson l x I). pose proof (variance_nonneg l). lra. }
  unfold Rdiv. rewrite Rabs_mult, (Rabs_pos_eq (/ std l)) by (left; apply Rinv_0_lt_compat; auto). apply (Rmult_le_reg_r (std l)); auto. rewrite Rmult_assoc, Rinv_l, Rmult_1_r by lra. apply samuelson_abs. auto.
Qed.
Lemma in_lastn_snoc : forall A n (l : list A) x, (1 <= n)%nat -> In x (lastn n (l ++ [x])).
Proof.
  intros A n l x H. unfold lastn. rewrite app_length. cbn [length]. rewrite skipn_app. apply in_or_app. right. replace (length l + 1 - n - length l)%nat with 0%nat by lia. left. reflexivity.
Qed.
Lemma lastn_len : forall A n (l : list A), length (lastn n l) = Nat.min n (length l).
Proof. intros. unfold lastn. rewrite skipn_length. lia. Qed.
(** After k fitted scores, |z| is at most sqrt k. *)
Theorem C109_zscore : forall h x, exists r, eval (pp_fit_transform ZScorePostprocessor x) (post_run ZScorePostprocessor z_fresh h) = Ok (VScalar r) /\
  forall z, r = FinV z -> Rabs z <= sqrt (INR (length (fitted h))).
Proof.
  intros h x. destruct z_inv as [F T]. exists (zscore (fitted h ++ [x]) x).
  rewrite (fit_transform_law _ _ ZScorePostprocessor z_fresh _ ZRel ZRel_init F T). split.
  - pose proof (snoc_nonempty _ (fitted h) x). destruct (fitted h ++ [x]); [congruence|reflexivity].
  - intros z E. apply zscore_cap in E; [|apply in_or_app; right; left; auto]. rewrite app_length, plus_INR in E. cbn [length INR] in E. replace (INR (length (fitted h)) + 1 - 1) with (INR (length (fitted h))) in E by ring. exact E.
Qed.
Print Assumptions C109_zscore.
(** With a window of w scores, |z| is at most sqrt (w - 1), for ever. *)
Theorem C109_running_zscore : forall (w : Z) h x, (1 <= w)%Z -> exists s0 r, RunningZScore_init (A := R) w = Ok s0 /\
  eval (pp_fit_transform RunningZScorePostprocessor x) (post_run RunningZScorePostprocessor s0 h) = Ok (VScalar r) /\
  forall z, r = FinV z -> Rabs z <= sqrt (INR (Nat.min (Z.to_nat w - 1) (length (fitted h)))).
Proof.
  intros w h x Hw. eexists. exists (zscore (lastn (Z.to_nat w) (fitted h ++ [x])) x). split; [reflexivity|].
  assert (I : RZRel w [] (mkRun (mt_init VarianceMeter) w [], mkRun (mt_init AverageMeter) w [])) by (split; [apply (running_init _ _ _ var_rep)|apply (running_init _ _ _ avg_rep)]).
  assert (T : forall l s x, RZRel w l s -> exists s', pp_transform RunningZScorePostprocessor x s = (match lastn (Z.to_nat w) l with [] => Raise ZeroDivisionError | win => Ok (VScalar (zscore win x)) end, s') /\ RZRel w l s').
  { intros l s y Hs. destruct (lastn (Z.to_nat w) l) as [|a win] eqn:E.
    - destruct s as [v a]. destruct Hs as [Hv Ha]. cbn [fst snd] in *. destruct (running_get _ _ _ avg_rep w l a Ha) as (a' & E2 & H2). rewrite E in E2. cbn [avg_spec] in E2.
      exists (v, a'). cbn [pp_transform RunningZScorePostprocessor]. unfold bind, zoom. cbn [fst snd]. rewrite E2. split; [reflexivity|]. split; auto.
    - rewrite <- E. apply rz_transform; auto; try lia. intros ->. rewrite lastn_nil in E. discriminate. }
  pose proof (fit_transform_law _ _ RunningZScorePostprocessor _ _ _ I (rz_fit w) T h x) as L.
  pose proof (in_lastn_snoc _ (Z.to_nat w) (fitted h) x ltac:(lia)) as IL. split.
  - etransitivity; [exact L|]. destruct (lastn (Z.to_nat w) (fitted h ++ [x])); [destruct IL|reflexivity].
  - intros z E. apply zscore_cap in E; auto. rewrite lastn_len, app_length in E. cbn [length] in E.
    replace (INR (Nat.min (Z.to_nat w) (length (fitted h) + 1)) - 1) with (INR (Nat.min (Z.to_nat w - 1) (length (fitted h)))) in E; auto.
    rewrite <- minus_INR with (m := 1%nat) by lia. f_equal. lia.
Qed.
Print Assumptions C109_running_zscore.
(** The cap is reached by any spike, and the size of the spike does not matter. *)
Theorem C109_any_spike_gets_the_cap : forall h u v, fitted h = repeat u (length (fitted h)) -> (1 <= length (fitted h))%nat -> v <> u ->
  eval (pp_fit_transform ZScorePostprocessor v) (post_run ZScorePostprocessor z_fresh h) = Ok (VScalar (FinV (if Rlt_dec u v then sqrt (INR (length (fitted h))) else - sqrt (INR (length (fitted h)))))).
Proof.
  intros h u v E K N. destruct z_inv as [F T]. rewrite (fit_transform_law _ _ ZScorePostprocessor z_fresh _ ZRel ZRel_init F T). set (k := length (fitted h)) in *. rewrite E. clearbody k. clear E. apply le_INR in K. cbn [INR] in K.
  assert (E : zscore (repeat u k ++ [v]) v = FinV (if Rlt_dec u v then sqrt (INR k) else - sqrt (INR k))).
  { unfold zscore. unfold std. rewrite variance_spike, mean_spike. set (d := (v - u) / (INR k + 1)).
    assert (DE : v - (u + d) = INR k * d) by (unfold d; field; lra). assert (DV : d * (INR k + 1) = v - u) by (unfold d; field; lra).
    assert (DN : d <> 0) by (intros Z0; rewrite Z0 in DV; lra). assert (Q : 0 < d ^ 2) by (rewrite <- Rsqr_pow2; apply Rsqr_pos_lt; auto).
    destruct (Req_EM_T _ 0) as [Z0|_]; [nra|]. f_equal. rewrite DE, sqrt_mult_alt by lra. rewrite <- Rsqr_pow2, sqrt_Rsqr_abs.
    assert (SK : 0 < sqrt (INR k)) by (apply sqrt_lt_R0; lra). pose proof (sqrt_sqrt (INR k) ltac:(lra)) as SS. set (r := sqrt (INR k)) in *. rewrite <- SS. destruct (Rlt_dec u v).
    - rewrite Rabs_pos_eq by nra. field. lra.
    - rewrite Rabs_left1 by nra. field. lra. }
  rewrite E. destruct (repeat u k ++ [v]) eqn:Q; [destruct (repeat u k); discriminate|reflexivity].
Qed.
Print Assumptions C109_any_spike_gets_the_cap.

(** ** GaussianTailProbabilityCalibrator with running statistics: the probability stays below that of sqrt (w - 1) deviations. *)
Theorem C109_gaussian_tail : forall erfc (w : Z) h x, erfc_like erfc -> (1 <= w)%Z -> exists s0 p, Gaussian_init true w = Ok s0 /\
  eval (pp_fit_transform (GTail erfc) x) (post_run (GTail erfc) s0 h) = Ok (VScalar p) /\
  p <= 1 - / 2 * erfc (sqrt (INR (Nat.min (Z.to_nat w - 1) (length (fitted h)))) / sqrt 2).
Proof.
  intros erfc w h x (Dec & _ & _) Hw. destruct (gt_inv erfc true w) as ((s0 & E & I) & F & T). set (win := lastn (Z.to_nat w) (fitted h ++ [x])).
  pose proof (in_lastn_snoc _ (Z.to_nat w) (fitted h) x ltac:(lia)) as IL. fold win in IL. exists s0, (gauss_cdf erfc (mean win) (safe_std win) x). split; auto. split.
  - rewrite (fit_transform_law _ _ (GTail erfc) s0 _ _ I F T). unfold gt_spec. fold win. destruct win; [destruct IL|reflexivity].
  - unfold gauss_cdf. apply Rplus_le_compat_l, Ropp_le_contravar, Rmult_le_compat_l; [lra|]. apply Dec. unfold Rdiv. apply Rmult_le_compat_r; [left; apply Rinv_0_lt_compat, sqrt2_pos|].
    pose proof (samuelson_abs win x IL) as S. replace (INR (length win) - 1) with (INR (Nat.min (Z.to_nat w - 1) (length (fitted h)))) in S.
    2:{ unfold win. rewrite lastn_len, app_length. cbn [length]. rewrite <- minus_INR with (m := 1%nat) by lia. f_equal. lia. }
    set (c := sqrt (INR _)) in *. assert (0 <= c) by apply sqrt_pos. pose proof (safe_std_pos win) as P. apply (Rmult_le_reg_r (safe_std win)); auto. rewrite Rmult_assoc, Rinv_l, Rmult_1_r by lra.
    pose proof (Rle_abs (x - mean win)). assert (std win <= safe_std win). { unfold safe_std, std in *. destruct (Rlt_dec 0 (variance win)); [lra|]. pose proof (variance_nonneg win). replace (variance win) with 0 by lra. rewrite sqrt_0. lra. }
    nra.
Qed.
Print Assumptions C109_gaussian_tail.

(** ** StandardAbsoluteDeviation around the mean *)
Theorem C109_standard_deviation : forall Y eps ab (h : list (mcall (list R) Y)) v, 0 < eps ->
  exists s, next_score (StandardAbsoluteDeviation eps ab AverageMeter) (SAD_init AverageMeter) h [v] = Ok (VArray [FinV s]) /\
    Rabs s <= sqrt (INR (length (univariate h))) /\ (univariate h <> [] -> Rabs s < sqrt (INR (length (univariate h)))).
Proof.
  intros Y eps ab h v He. set (l := univariate h ++ [v]).
  assert (G : next_score (StandardAbsoluteDeviation eps ab AverageMeter) (SAD_init AverageMeter) h [v] = Ok (VArray [FinV (maybe_abs ab ((v - mean l) / (std l + eps)))])).
  { rewrite next_after_fit; [|reflexivity|apply (sad_fits Y eps ab NMean); reflexivity].
    rewrite (C71_score Y eps ab NMean AverageMeter _ _ (mean l) He eq_refl); rewrite univariate_snoc; [reflexivity|]. constructor. apply snoc_nonempty. }
  eexists. split; [exact G|]. set (c := sqrt (INR (length (univariate h)))). assert (IL : In v l) by (apply in_or_app; right; left; auto).
  pose proof (samuelson_abs l v IL) as S. replace (INR (length l) - 1) with (INR (length (univariate h))) in S by (unfold l; rewrite app_length, plus_INR; cbn [length INR]; ring). fold c in S.
  pose proof (std_nonneg l) as P. assert (C0 : 0 <= c) by apply sqrt_pos.
  assert (E : Rabs (maybe_abs ab ((v - mean l) / (std l + eps))) * (std l + eps) = Rabs (v - mean l)).
  { assert (D : Rabs ((v - mean l) / (std l + eps)) * (std l + eps) = Rabs (v - mean l)). { unfold Rdiv. rewrite Rabs_mult, (Rabs_pos_eq (/ _)) by (left; apply Rinv_0_lt_compat; lra). field. lra. }
    destruct ab; cbn [maybe_abs]; rewrite ?Rabs_Rabsolu; exact D. }
  split; [|intros NE; assert (0 < c) by (apply sqrt_lt_R0, lt_0_INR; destruct (univariate h); [congruence|cbn; lia])]; [apply Rnot_lt_le; intros Q|apply Rnot_le_lt; intros Q]; nra.
Qed.
Print Assumptions C109_standard_deviation.

(** An alarm "more than 3 standard deviations" is silent for the first ten scores of any stream, and for ever with a window of ten. *)
Theorem C109_three_sigma_silent : forall h x z, (length (fitted h) <= 9)%nat -> eval (pp_fit_transform ZScorePostprocessor x) (post_run ZScorePostprocessor z_fresh h) = Ok (VScalar (FinV z)) -> Rabs z <= 3.
Proof.
  intros h x z L E. destruct (C109_zscore h x) as (r & E' & B). rewrite E in E'. injection E' as <-. specialize (B z eq_refl). eapply Rle_trans; [exact B|].
  replace 3 with (sqrt (3 * 3)) by (apply sqrt_square; lra). apply sqrt_le_1_alt. apply le_INR in L. replace (INR 9) with 9 in L by (cbn; ring). lra.
Qed.
Print Assumptions C109_three_sigma_silent.
Theorem C109_three_sigma_silent_window : forall (w : Z) h x s0 z, (1 <= w <= 10)%Z -> RunningZScore_init (A := R) w = Ok s0 ->
  eval (pp_fit_transform RunningZScorePostprocessor x) (post_run RunningZScorePostprocessor s0 h) = Ok (VScalar (FinV z)) -> Rabs z <= 3.
Proof.
  intros w h x s0 z W I E. destruct (C109_running_zscore w h x ltac:(lia)) as (s0' & r & I' & E' & B). rewrite I in I'. injection I' as <-. rewrite E in E'. injection E' as <-. specialize (B z eq_refl). eapply Rle_trans; [exact B|].
  replace 3 with (sqrt (3 * 3)) by (apply sqrt_square; lra). apply sqrt_le_1_alt. replace (3 * 3) with (INR 9) by (cbn; ring). apply le_INR. lia.
Qed.
Print Assumptions C109_three_sigma_silent_window.
(** Four scores of 1 and then 1000000: the z-score is 2. *)
Example C109_ex : eval (pp_fit_transform ZScorePostprocessor 1000000) (post_run ZScorePostprocessor z_fresh [PFit 1; PFit 1; PTransform 7; PFit 1; PFit 1]) = Ok (VScalar (FinV 2)).
Proof.
  rewrite (C109_any_spike_gets_the_cap _ 1) by (cbn; try reflexivity; try lia; lra). cbn [fitted flat_map app length]. destruct (Rlt_dec 1 1000000); [|lra]. do 3 f_equal. replace (INR 4) with (2 * 2) by (cbn; ring). apply sqrt_square. lra.
Qed.
