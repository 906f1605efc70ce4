(** * C130: a window at least as long as the stream makes no difference. *)
From Coq Require Import String.
From Coq Require Import List ZArith Lia Bool Reals Lra Arith.
From Verif Require Import Base Num Spec Model_Core Model_Stats Model_Utils Model_Trans Model_Simple Model_Post Model_Eval Model_Integrations Model_Sketch Model_HST Model_XStream P_Lists P_Core P_Stats P_Utils P_Post P_Eval P_Models
  Prop_Stats Prop_Trans Prop_Simple Prop_Post Prop_Eval Prop_HST Prop_Sketch Prop_Quant Prop_XStream Prop_Integrations Prop_Direction Prop_Familiar Prop_Constant.
Import ListNotations.
Open Scope R_scope.
Local Notation length := List.length.

(** What a postprocessor answers to x after a history. *)
Definition answer_after {A B} (p : Postprocessor A B) (s0 : pp_state p) (h : list (pop A)) (x : A) : res (pyval B) := eval (pp_transform p x) (post_run p s0 h).
Lemma whole_window : forall X (l : list X) w, (Z.of_nat (length l) <= w)%Z -> lastn (Z.to_nat w) l = l.
Proof. intros. apply lastn_all. lia. Qed.

(** ** Statistics *)
(** A RunningStatistic over all values given so far is the statistic itself. *)
Theorem C130_running_statistics : forall (w : Z) (xs : list R), (Z.of_nat (length xs) <= w)%Z ->
  let same {A B} (m : Meter A B) (l : list A) := exists s0 s1, RunningStatistic_init m false w (@nil unit) = Ok s0 /\ iterM (RunningStatistic_update m) l s0 = (Ok tt, s1) /\ eval (RunningStatistic_get m) s1 = mt_answer m (map (@Upd A) l) in
  same (CountMeter R) xs /\ same (SumMeter (A := R)) xs /\ same (SumSquaresMeter (A := R)) xs /\ same (AverageMeter (A := R)) xs /\ same (VarianceMeter (A := R)) xs /\ same (MedianMeter (A := R)) xs /\
  same (MaxMeter (MInf : ext R)) (map Fin xs) /\ same (MinMeter (PInf : ext R)) (map Fin xs).
Proof.
  intros w xs H same. destruct C22_running_statistic as (L1 & L2 & L3 & L4 & L5 & L6 & L7 & L8).
  assert (G : forall A B (m : Meter A B) l, windowed_law m -> length l = length xs -> same A B m l). { intros A B m l L E. destruct (L w l) as (s0 & s1 & E0 & E1 & E2). exists s0, s1. split; auto. split; auto. rewrite E2, whole_window by lia. reflexivity. }
  repeat split; apply G; auto; apply map_length.
Qed.
Print Assumptions C130_running_statistics.

(** ** Postprocessors and calibrators *)
Theorem C130_postprocessors : forall (w : Z) (h : list (pop R)) (x : R), (Z.of_nat (length (fitted h)) <= w)%Z ->
  (exists s0, RunningPost_init AverageMeter w = Ok s0 /\ answer_after RunningAveragePostprocessor s0 h x = answer_after AveragePostprocessor (mt_init AverageMeter) h x) /\
  (exists s0, RunningPost_init MedianMeter w = Ok s0 /\ answer_after RunningMedianPostprocessor s0 h x = answer_after MedianPostprocessor (mt_init MedianMeter) h x) /\
  (exists s0, RunningZScore_init w = Ok s0 /\ answer_after RunningZScorePostprocessor s0 h x = answer_after ZScorePostprocessor z_fresh h x).
Proof.
  intros w h x H. unfold answer_after. split; [|split].
  - destruct (C34_running_average w) as (s0 & E & L & _). exists s0. split; auto. rewrite (L h x), (proj1 C33_average_postprocessor h x), whole_window by auto. destruct (fitted h); reflexivity.
  - destruct (C34_running_median w) as (s0 & E & L & _). exists s0. split; auto. rewrite (L h x), (proj1 C33_median_postprocessor h x), whole_window by auto. destruct (fitted h); reflexivity.
  - destruct (C34_running_zscore w) as (s0 & E & L & _). exists s0. split; auto. rewrite (L h x), (proj1 C35_zscore_closed_form h x), whole_window by auto. destruct (fitted h); reflexivity.
Qed.
Print Assumptions C130_postprocessors.
Theorem C130_max_postprocessor : forall (w : Z) (h : list (pop (ext R))) (x : ext R), (Z.of_nat (length (fitted h)) <= w)%Z ->
  exists s0, RunningPost_init (MaxMeter (MInf : ext R)) w = Ok s0 /\ answer_after (RunningMaxPostprocessor MInf) s0 h x = answer_after (MaxPostprocessor MInf) (mt_init (MaxMeter MInf)) h x.
Proof.
  intros w h x H. unfold answer_after. destruct (C34_running_max w) as (s0 & E & L & _). exists s0. split; auto. rewrite (L h x), (proj1 C33_max_postprocessor h x), whole_window by auto. destruct (fitted h); reflexivity.
Qed.
Print Assumptions C130_max_postprocessor.
Theorem C130_calibrators : forall erfc (w : Z) (h : list (pop R)) (x : R), (Z.of_nat (length (fitted h)) <= w)%Z ->
  (forall v, answer_after ConformalProbabilityCalibrator (Conformal_init true w) h x = answer_after ConformalProbabilityCalibrator (Conformal_init false v) h x) /\
  (exists s1 s2, Gaussian_init true w = Ok s1 /\ Gaussian_init false w = Ok s2 /\ answer_after (GTail erfc) s1 h x = answer_after (GTail erfc) s2 h x) /\
  (forall w' running, (Z.of_nat (length (fitted h)) <= w')%Z -> exists s1 s2, Gaussian_init running w = Ok s1 /\ Gaussian_init running w' = Ok s2 /\ answer_after (GTail erfc) s1 h x = answer_after (GTail erfc) s2 h x).
Proof.
  intros erfc w h x H. unfold answer_after. split; [|split].
  - intros v. rewrite (C36_conformal_fraction_above true w h x), (C36_conformal_fraction_above false v h x). unfold conf_window. rewrite whole_window by auto. reflexivity.
  - destruct (C38_gaussian_tail_closed_form erfc true w) as (s1 & E1 & L1). destruct (C38_gaussian_tail_closed_form erfc false w) as (s2 & E2 & L2). exists s1, s2. split; auto. split; auto. rewrite (L1 h x), (L2 h x). unfold gt_spec. rewrite whole_window by auto. destruct (fitted h); reflexivity.
  - intros w' running H'. destruct (C38_gaussian_tail_closed_form erfc running w) as (s1 & E1 & L1). destruct (C38_gaussian_tail_closed_form erfc running w') as (s2 & E2 & L2). exists s1, s2. split; auto. split; auto. rewrite (L1 h x), (L2 h x). unfold gt_spec. rewrite !whole_window by auto. reflexivity.
Qed.
Print Assumptions C130_calibrators.
(** No shorter window will do: one score more than the window holds, and some stream tells them apart. *)
Theorem C130_shorter_refuted : forall w : Z, (1 <= w)%Z -> exists h : list (pop R), Z.of_nat (length (fitted h)) = (w + 1)%Z /\
  (exists s0, RunningPost_init AverageMeter w = Ok s0 /\ forall x : R, answer_after RunningAveragePostprocessor s0 h x <> answer_after AveragePostprocessor (mt_init AverageMeter) h x) /\
  (exists x : R, forall v, answer_after ConformalProbabilityCalibrator (Conformal_init true w) h x <> answer_after ConformalProbabilityCalibrator (Conformal_init false v) h x).
Proof.
  intros w Hw. remember (Z.to_nat w) as n eqn:En0. exists (map PFit (1 :: repeat 0 n)).
  assert (F : fitted (map PFit (1 :: repeat 0 n)) = 1 :: repeat 0 n) by (generalize (1 :: repeat 0 n); induction l as [|a l IH]; [reflexivity|]; cbn [map fitted flat_map app]; f_equal; exact IH). rewrite F. split; [cbn [length]; rewrite repeat_length; lia|].
  assert (Ln : lastn n (1 :: repeat 0 n) = repeat 0 n). { unfold lastn. cbn [length]. rewrite repeat_length. replace (S n - n)%nat with 1%nat by lia. reflexivity. }
  assert (Hn : (1 <= n)%nat) by (lia). assert (P : 0 < INR (S n)) by (apply lt_0_INR; lia). unfold answer_after. split.
  - destruct (C34_running_average w) as (s0 & E & L & _). exists s0. split; auto. intros x. rewrite (L _ x), (proj1 C33_average_postprocessor _ x), F. rewrite <- ?En0. rewrite Ln.
    assert (M : mean (1 :: repeat 0 n) = 1 / INR (S n)). { unfold mean, Rlen. rewrite Rsum_cons2, Rsum_repeat. cbn [length]. rewrite repeat_length. f_equal. ring. } rewrite M. assert (M0 := mean_same 0 n Hn). destruct n as [|k]; [lia|]. cbn [repeat] in *. rewrite M0. intros Q. injection Q as Q. change (0 = 1 / INR (S (S k))) in Q. assert (0 < 1 / INR (S (S k))) by (apply Rdiv_lt_0_compat; lra). lra.
  - exists (1 / 2). intros v. rewrite (C36_conformal_fraction_above true w _ (1 / 2)), (C36_conformal_fraction_above false v _ (1 / 2)), F. unfold conf_window. rewrite <- ?En0. rewrite Ln.
    assert (Z : filter (above (1 / 2)) (repeat 0 n) = []). { clear. induction n as [|i IH]; auto. cbn [repeat filter]. unfold above at 1. destruct (Rlt_dec (1 / 2) 0); [lra|exact IH]. }
    destruct n as [|k]; [lia|]. cbn [repeat]. cbn [repeat] in Z. unfold fraction. rewrite Z. cbn [filter]. cbn [filter] in Z. rewrite Z. unfold above. destruct (Rlt_dec (1 / 2) 1); [|lra]. intros Q. injection Q as Q. unfold Rlen in Q. cbn [length INR] in Q. rewrite repeat_length in Q. unfold Rdiv in Q at 1. rewrite Rmult_0_l in Q. symmetry in Q. revert Q. apply Rgt_not_eq, Rdiv_lt_0_compat; [lra|]. exact P.
Qed.
Print Assumptions C130_shorter_refuted.

(** ** WindowedMetric *)
Theorem C130_windowed_metric : forall Y P K (m : Metric Y P R K) ignore_last w kw m1 s0 h, total_updates m -> (1 <= w)%nat -> me_init m [] = Ok m1 -> WindowedMetric_init m (Z.of_nat w) ignore_last kw = Ok s0 -> (length h <= w)%nat ->
  forall v, metric_value m kw h = Ok v -> exists s, updates m h s0 = (Ok tt, s) /\ eval (WindowedMetric_get m) s = Ok v.
Proof.
  intros Y P K m ig w kw m1 s0 h T Hw Em E0 L v Hv. destruct (Nat.eq_dec (length h) w) as [Q|Q].
  - destruct (C30_windowed_metric Y P K m ig w kw m1 s0 h [v] T Hw Em E0) as (s & Es & _ & H & _).
    + rewrite Q, Nat.div_same by lia. reflexivity.
    + intros [|i] u E; cbn in E; [|destruct i; discriminate]. injection E as <-. cbn [Nat.eqb]. unfold block. cbn [Nat.mul skipn]. rewrite firstn_all2 by lia. exact Hv.
    + exists s. split; auto. rewrite H; [|lia|right; rewrite Q; apply Nat.mod_same; lia]. f_equal. unfold mean, Rlen, Rsum. cbn [fold_right length INR]. field.
  - destruct (C30_windowed_metric Y P K m ig w kw m1 s0 h [] T Hw Em E0) as (s & Es & H & _).
    + rewrite Nat.div_small by lia. reflexivity.
    + intros i u E. destruct i; discriminate.
    + exists s. split; auto. rewrite H by lia. exact Hv.
Qed.
Print Assumptions C130_windowed_metric.

(** ** Detectors retrained on windows *)
(** With an initial window, until sliding_size instances have arrived, ReferenceWindowModel is OneFitModel. *)
Theorem C130_before_retraining : forall X Y A (d : Detector X Y A) W sl lab init (h : list (mcall X Y)) ps x, (length ps < sl)%nat -> stream_of lab ps h ->
  eval (md_score (ReferenceWindowModel d W sl) x) (model_run (ReferenceWindowModel d W sl) (snd (RW_init d (Some (map fst init)) (labels_of lab init))) h) =
  eval (md_score (OneFitModel d) x) (model_run (OneFitModel d) (snd (OneFit_init d (map fst init) (labels_of lab init))) h).
Proof.
  intros X Y A d W sl lab init h ps x L S. rewrite C60_one_fit_scores_frozen. rewrite (C57_warm_start_schedule X Y A d W sl lab init h ps x) by (auto; lia).
  replace (training_steps (due_warm sl) (length ps)) with (@nil nat); [reflexivity|]. unfold training_steps. symmetry.
  assert (G : forall k, In k (seq 1 (length ps)) -> due_warm sl k = false). { intros k I. apply in_seq in I. unfold due_warm. rewrite Nat.mod_small by lia. apply Nat.eqb_neq. lia. }
  revert G. generalize (seq 1 (length ps)). induction l as [|k l IH]; intros G; auto. cbn [filter]. rewrite G by (left; auto). apply IH. intros; apply G; right; auto.
Qed.
Print Assumptions C130_before_retraining.
(** Without one, as long as the window is not full, the score is that of a detector newly trained on everything seen. *)
Theorem C130_reference_window : forall X Y A (d : Detector X Y A) W sl lab y0 (h : list (mcall X Y)) ps x, (1 <= sl)%nat -> (1 <= length ps < W)%nat -> stream_of lab ps h ->
  eval (md_score (ReferenceWindowModel d W sl) x) (model_run (ReferenceWindowModel d W sl) (snd (RW_init d None y0)) h) = trained_score d (length ps - 1) lab ps x.
Proof.
  intros X Y A d W sl lab y0 h ps x Hs L S. rewrite (C57_cold_start_schedule X Y A d W sl lab y0 h ps x) by (auto; lia).
  replace (training_steps (due_cold W sl) (length ps)) with (seq 1 (length ps)).
  - destruct (length ps) as [|n] eqn:E; [lia|]. cbn [seq]. change (1%nat :: seq 2 n) with (seq 1 (Datatypes.S n)). rewrite seq_length, seq_S, last_last. replace (1 + n)%nat with (length ps) by lia. rewrite firstn_all, lastn_all by lia. f_equal; lia.
  - unfold training_steps. assert (G : forall k, In k (seq 1 (length ps)) -> due_cold W sl k = true). { intros k I. apply in_seq in I. unfold due_cold. replace (k <? W)%nat with true by (symmetry; apply Nat.ltb_lt; lia). reflexivity. }
    revert G. generalize (seq 1 (length ps)). induction l as [|k l IH]; intros G; auto. cbn [filter]. rewrite G by (left; auto). f_equal. apply IH. intros; apply G; right; auto.
Qed.
Print Assumptions C130_reference_window.

(** ** ExactStorm, HalfSpaceTrees, xStream: two windows at least as long as the stream agree *)
Theorem C130_exact_storm : forall Y radius w w' (h : list (mcall (list R) Y)) x, (forall r, In r (fitted_instances h) -> length r = length x) -> let n := Z.of_nat (length (fitted_instances h)) in (n <= w)%Z -> (n <= w')%Z ->
  let score w := eval (md_score (ExactStorm radius) x) (model_run (ExactStorm radius) (Window_init w) h) in score w = score w'.
Proof. intros Y radius w w' h x H n L L' score. subst score. cbv beta. rewrite !C51_near_fraction, !whole_window by auto. reflexivity. Qed.
Print Assumptions C130_exact_storm.
Lemma first_reference : forall X (l : list X) W, (length l <= W)%nat -> (1 <= W)%nat -> (if (length l <? W)%nat then l else block W (length l / W - 1) l) = l.
Proof.
  intros X l W L HW. destruct (Nat.ltb_spec (length l) W) as [|G]; auto. replace (length l) with W by lia. rewrite Nat.div_same by lia. unfold block. cbn [Nat.sub Nat.mul skipn]. apply firstn_all2. lia.
Qed.
Theorem C130_half_space_trees : forall Y cast draw mins maxes W W' T D (h : list (mcall (list R) Y)) x, let dim := length maxes in let n := length (fitted_instances h) in
  length mins = dim -> (1 <= dim)%nat -> (forall i, (draw i < dim)%nat) -> (1 <= W)%nat -> (1 <= W')%nat -> Forall (fun x => (dim <= length x)%nat) (fitted_instances h) -> (dim <= length x)%nat -> (n <= W)%nat -> (n <= W')%nat ->
  exists s0, HST_init (Y := Y) cast draw mins maxes W T D IWNone = Ok s0 /\ HST_init (Y := Y) cast draw mins maxes W' T D IWNone = Ok s0 /\
  eval (md_score (HalfSpaceTrees (Y := Y) W D) x) (model_run (HalfSpaceTrees W D) s0 h) = eval (md_score (HalfSpaceTrees (Y := Y) W' D) x) (model_run (HalfSpaceTrees W' D) s0 h).
Proof.
  intros Y cast draw mins maxes W W' T D h x dim n HL Hdim Hq HW HW' F Hx L L'.
  destruct (C54_score Y cast draw mins maxes W T D h x HL Hdim Hq HW F Hx) as (s0 & E0 & S). destruct (C54_score Y cast draw mins maxes W' T D h x HL Hdim Hq HW' F Hx) as (s1 & E1 & S').
  assert (Q : HST_init (Y := Y) cast draw mins maxes W' T D IWNone = HST_init (Y := Y) cast draw mins maxes W T D IWNone) by reflexivity. rewrite Q, E0 in E1. injection E1 as <-. exists s0. split; auto. split; [rewrite Q; auto|].
  cbv zeta in S, S'. unfold eval. rewrite S, S'. cbn [fst]. rewrite !first_reference by auto. reflexivity.
Qed.
Print Assumptions C130_half_space_trees.
Lemma is_min_same : forall l m m', is_min m l -> is_min m' l -> m = m'.
Proof. intros l m m' [I U] [I' U']. apply Rle_antisym; auto. Qed.
Theorem C130_xstream : forall Y mmh3 k density p floor W W' draws (h : list (mcall (list R) Y)) x, (1 <= k)%Z -> Streamhash_init 1 k density = Ok p -> let K := Z.to_nat k in let n := length (fitted_instances h) in chain_draws K draws -> (n < W)%nat -> (n < W')%nat ->
  let score W := eval (md_score (XStream mmh3 p floor K W) x) (model_run (XStream mmh3 p floor K W) (xstream_new K draws) h) in score W = score W'.
Proof.
  intros Y mmh3 k density p floor W W' draws h x Hk Ep K n D L L' score.
  destruct (C75_score Y mmh3 k density p floor W draws h x Hk Ep ltac:(lia) D) as (zs & z & dref & delta & mins & Fz & Hz & R1 & R2 & F & S & _).
  destruct (C75_score Y mmh3 k density p floor W' draws h x Hk Ep ltac:(lia) D) as (zs' & z' & dref' & delta' & mins' & Fz' & Hz' & R1' & R2' & F' & S' & _).
  unfold score, eval. fold K in S, S'. rewrite S, S'. cbn [fst]. fold n in R1, R2, R1', R2', F, F'. rewrite !Nat.div_small in * by lia. cbn [Nat.sub ranges_after] in *. subst.
  rewrite (projects_unique _ _ _ _ _ Hz' Hz) in F'. assert (Ez : zs' = zs). { clear - Fz Fz'. revert zs' Fz'. induction Fz; intros zs' F'; inversion F'; subst; auto. f_equal; auto. eapply projects_unique; eauto. } rewrite Ez in F'.
  replace (n <? W)%nat with true in F by (symmetry; apply Nat.ltb_lt; auto). replace (n <? W')%nat with true in F' by (symmetry; apply Nat.ltb_lt; auto).
  assert (Em : mins' = mins). { revert F F'. generalize mins', mins. clear. intros a b F. revert a. induction F; intros a G; inversion G; subst; auto. f_equal; auto. eapply is_min_same; eauto. } rewrite Em. reflexivity.
Qed.
Print Assumptions C130_xstream.
(** For xStream the window must be longer than the stream: with as many instances as the window holds a constant stream
    already looks new, with room for one more it does not. *)
Theorem C130_xstream_boundary_refuted : forall W, (1 <= W)%nat -> exists p z (h : list (mcall (list R) unit)), Streamhash_init 1 1 1 = Ok p /\ length (fitted_instances h) = W /\
  let score W := eval (md_score (XStream (fun _ _ => 0%Z) p Int_part 1 W) z) (model_run (XStream (fun _ _ => 0%Z) p Int_part 1 W) (xstream_new 1 [([0%nat], [0])]) h) in
  score W = Ok (VArray [-1]) /\ score (S W) = Ok (VArray [- (1 + log2 (1 + INR W))]) /\ - (1 + log2 (1 + INR W)) < -1.
Proof.
  intros W HW. destruct C77_ex as (p & Ep & HF & Hz & D). exists p, [-3], (fits (repeat (-3) W)). split; [exact Ep|]. assert (F : fitted_instances (fits (Y := unit) (repeat (-3) W)) = repeat [-3] W) by (rewrite fitted_fits; apply map_same). split; [rewrite F; apply repeat_length|]. intros score.
  assert (H3 : projects (fun _ _ => 0%Z) p [-3] [3]). { pose proof (C42_linear (fun _ _ => 0%Z) 1 1 p [-3/4] [-3/4] [3/4] [3/4] 4 0 ltac:(lia) Ep eq_refl Hz Hz) as H. cbn [length seq map nth] in H. replace (4 * (-3 / 4) + 0 * (-3 / 4)) with (-3) in H by field. replace (4 * (3 / 4) + 0 * (3 / 4)) with 3 in H by field. exact H. }
  assert (A : Forall (fun v => 1 <= Rabs v) [3]) by (constructor; [rewrite Rabs_right; lra|constructor]).
  destruct (C129_xstream unit (fun _ _ => 0%Z) 1 1 p Int_part W [([0%nat], [0])] _ [-3] W [3] ltac:(lia) Ep HW HF D F H3) as (_ & _ & C1). destruct (C129_xstream unit (fun _ _ => 0%Z) 1 1 p Int_part (S W) [([0%nat], [0])] _ [-3] W [3] ltac:(lia) Ep ltac:(lia) HF D F H3) as (C2 & _).
  split; [apply C1; auto; lia|]. split; [apply C2; lia|]. assert (0 < log2 (1 + INR W)); [|lra]. unfold log2. apply Rdiv_lt_0_compat; [|rewrite <- ln_1; apply ln_increasing; lra]. rewrite <- ln_1 at 1. apply ln_increasing; [lra|]. assert (0 < INR W) by (apply lt_0_INR; lia). lra.
Qed.
Print Assumptions C130_xstream_boundary_refuted.

(** ** Examples *)
Example C130_ex_retraining : let d := recorder nat nat in let h := [CFit 5%nat None; CScore 7%nat; CFit 6%nat None] in
  let m k := ReferenceWindowModel d 4 k in let score k := eval (md_score (m k) 9%nat) (model_run (m k) (snd (RW_init d (Some [1; 2]%nat) None)) h) in
  score 3%nat = Ok (VScalar (0%nat, [1; 2]%nat, None)) /\ score 2%nat = Ok (VScalar (1%nat, [1; 2; 5; 6]%nat, None)) /\
  eval (md_score (OneFitModel d) 9%nat) (model_run (OneFitModel d) (snd (OneFit_init d [1; 2]%nat None)) h) = Ok (VScalar (0%nat, [1; 2]%nat, None)) /\
  eval (md_score (m 2%nat) 9%nat) (model_run (m 2%nat) (snd (RW_init d None None)) (h ++ [CFitScore 8%nat None])) = Ok (VScalar (2%nat, [5; 6; 8]%nat, None)).
Proof. repeat split; reflexivity. Qed.
Example C130_ex_post : exists s0, RunningPost_init AverageMeter 2 = Ok s0 /\ answer_after RunningAveragePostprocessor s0 [PFit 1; PFit 3] 0 = Ok (VScalar 2) /\ answer_after AveragePostprocessor (mt_init AverageMeter) [PFit 1; PFit 3] 0 = Ok (VScalar 2).
Proof.
  destruct (C130_postprocessors 2 [PFit 1; PFit 3] 0 ltac:(cbn; lia)) as ((s0 & E & H) & _). exists s0. split; [exact E|]. rewrite H. unfold answer_after. rewrite (proj1 C33_average_postprocessor [PFit 1; PFit 3] 0). cbn [fitted flat_map app]. assert (M : mean [1; 3] = 2) by (unfold mean, Rlen, Rsum; cbn [fold_right length INR]; field). rewrite M. split; reflexivity.
Qed.
Example C130_ex_trees : exists s0, HST_init (Y := unit) (fun a : R => a) (fun _ => 0%nat) [0] [1] 3 2 1 IWNone = Ok s0 /\
  let score W := eval (md_score (HalfSpaceTrees (Y := unit) W 1) [0]) (model_run (HalfSpaceTrees W 1) s0 (fits [0; 1; 0])) in score 3%nat = score 7%nat.
Proof.
  destruct (C130_half_space_trees unit (fun a => a) (fun _ => 0%nat) [0] [1] 3 7 2 1 (fits [0; 1; 0]) [0] eq_refl ltac:(cbn; lia) (fun _ => Nat.lt_0_1) ltac:(lia) ltac:(lia) ltac:(rewrite fitted_fits; repeat constructor) ltac:(cbn; lia) ltac:(cbn; lia) ltac:(cbn; lia)) as (s0 & E & _ & S). exists s0. split; [exact E|exact S].
Qed.
