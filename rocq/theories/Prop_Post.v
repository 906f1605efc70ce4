(** * Properties of postprocessing, probability calibration and score ensembles (C33-C41). *)
From Coq Require Import List ZArith Lia Bool Reals Lra Permutation Sorted Arith.
From Verif Require Import Base Num Spec Model_Stats Model_Utils Model_Core Model_Post P_Lists P_Stats P_Utils P_Core P_Post.
Import ListNotations.
Open Scope R_scope.

(** Vocabulary (P_Post): a history [h] is any sequence of fit_partial ([PFit]) and transform_partial
    ([PTransform]) calls on a fresh object; [fitted h] are the fitted values in order; [history_law p s0 spec]
    says transform_partial(x) after [h] returns/raises [spec (fitted h) x]; [stream_law p s0 f] says
    fit_transform(xs) on a fresh object writes [f p] for each non-empty prefix [p] of xs. *)

(** ** C33 *)
Theorem C33_average_postprocessor :
  history_law AveragePostprocessor (mt_init AverageMeter)
    (fun l _ => match l with [] => Raise ZeroDivisionError | _ => Ok (VScalar (mean l)) end) /\
  stream_law AveragePostprocessor (mt_init AverageMeter) (fun p => FinV (mean p)).
Proof.
  destruct (meterpost_inv _ _ _ _ avg_rep) as (I & F & T). split.
  - pose proof (history_of_inv _ _ (MeterPost AverageMeter) _ (fun l _ => rmap VScalar (avg_spec l)) _ I F T) as H.
    intros h x. unfold AveragePostprocessor. rewrite (H h x). destruct (fitted h); reflexivity.
  - eapply (stream_of_inv _ _ (MeterPost AverageMeter)); [exact I|exact F|exact T|]. intros l x. simpl.
    rewrite avg_spec_ok by apply snoc_nonempty. reflexivity.
Qed.
Print Assumptions C33_average_postprocessor.
Theorem C33_median_postprocessor :
  history_law MedianPostprocessor (mt_init MedianMeter)
    (fun l _ => match l with [] => Raise IndexError | _ => Ok (VScalar (median_fn l)) end) /\
  stream_law MedianPostprocessor (mt_init MedianMeter) (fun p => FinV (median_fn p)) /\
  forall l, l <> [] -> is_median (median_fn l) l.
Proof.
  destruct (meterpost_inv _ _ _ _ med_rep) as (I & F & T). split; [|split].
  - pose proof (history_of_inv _ _ (MeterPost MedianMeter) _ (fun l _ => rmap VScalar (med_spec l)) _ I F T) as H.
    intros h x. unfold MedianPostprocessor. rewrite (H h x). destruct (fitted h); reflexivity.
  - eapply (stream_of_inv _ _ (MeterPost MedianMeter)); [exact I|exact F|exact T|]. intros l x. simpl.
    rewrite med_spec_ok by apply snoc_nonempty. reflexivity.
  - exact median_fn_spec.
Qed.
Print Assumptions C33_median_postprocessor.
(** Maximum over the doubles other than NaN. *)
Lemma MInf_least : forall a : ext R, oleb MInf a = true.
Proof. intros [|a|]; reflexivity. Qed.
Definition max_of (l : list (ext R)) : ext R := fold_right (fun a b => if ext_leb a b then b else a) MInf l.
Lemma max_of_ext_max : forall l, l <> [] -> ext_max (max_of l) l.
Proof.
  intros l H. induction l as [|a l IH]; [congruence|]. destruct l as [|b l].
  - unfold max_of; simpl. split.
    + destruct a; simpl; auto.
    + intros x [<-|[]]. destruct a; simpl; auto. apply Rleb_le; lra.
  - destruct IH as [I1 I2]; [congruence|]. change (max_of (a :: b :: l)) with (if ext_leb a (max_of (b :: l)) then max_of (b :: l) else a).
    destruct (ext_leb a (max_of (b :: l))) eqn:E.
    + split; [right; auto|]. intros x [<-|Hx]; auto.
    + split; [left; auto|]. intros x [<-|Hx]; [apply ole_refl|].
      apply ole_trans with (max_of (b :: l)); auto. apply oleb_false; auto.
Qed.
Lemma max_spec_of : forall l : list (ext R), max_spec MInf l = Ok (max_of l).
Proof.
  intros [|a l]; auto. unfold max_spec. destruct (np_max_ok (a :: l)) as (m & E & H); [congruence|].
  rewrite E. f_equal. eapply ext_max_unique; [exact H|apply max_of_ext_max; congruence].
Qed.
Theorem C33_max_postprocessor :
  history_law (MaxPostprocessor MInf) (mt_init (MaxMeter MInf)) (fun l _ => Ok (VScalar (max_of l))) /\
  stream_law (MaxPostprocessor MInf) (mt_init (MaxMeter MInf)) (fun p => FinV (max_of p)) /\
  max_of [] = MInf /\ (forall l, l <> [] -> In (max_of l) l /\ forall x, In x l -> ext_leb x (max_of l) = true).
Proof.
  destruct (meterpost_inv _ _ _ _ (max_rep MInf MInf_least)) as (I & F & T). split; [|split; [|split]].
  - pose proof (history_of_inv _ _ (MeterPost (MaxMeter MInf)) _ (fun l _ => rmap VScalar (max_spec MInf l)) _ I F T) as H.
    intros h x. unfold MaxPostprocessor. rewrite (H h x), max_spec_of. reflexivity.
  - eapply (stream_of_inv _ _ (MeterPost (MaxMeter MInf))); [exact I|exact F|exact T|]. intros l x. cbn beta. rewrite max_spec_of. reflexivity.
  - reflexivity.
  - exact max_of_ext_max.
Qed.
Print Assumptions C33_max_postprocessor.
Example C33_ex : eval (Post_fit_transform AveragePostprocessor [4; 2; 9]) (mt_init AverageMeter) = Ok [FinV 4; FinV 3; FinV 5].
Proof.
  destruct C33_average_postprocessor as [_ S]. rewrite S. unfold mean, Rlen; simpl.
  f_equal. f_equal; [f_equal; lra|]. f_equal; [f_equal; lra|]. f_equal. f_equal. lra.
Qed.
Example C33_ex_max : eval (Post_fit_transform (MaxPostprocessor MInf) [Fin 4; Fin 2; Fin 9]) (mt_init (MaxMeter MInf))
  = Ok [FinV (Fin 4); FinV (Fin 4); FinV (Fin 9)].
Proof.
  destruct C33_max_postprocessor as (_ & S & _). rewrite S. simpl. unfold ext_leb; simpl.
  unfold Rleb. repeat (destruct (Rle_dec _ _); try lra). reflexivity.
Qed.

(** ** C34 *)
Theorem C34_running_average : forall w : Z,
  exists s0, RunningPost_init AverageMeter w = Ok s0 /\
  history_law RunningAveragePostprocessor s0
    (fun l _ => match lastn (Z.to_nat w) l with [] => Raise ZeroDivisionError | win => Ok (VScalar (mean win)) end) /\
  ((1 <= w)%Z -> stream_law RunningAveragePostprocessor s0 (fun p => FinV (mean (lastn (Z.to_nat w) p)))).
Proof.
  intros w. eexists. split; [reflexivity|].
  destruct (runpost_inv _ _ _ _ w avg_rep) as (I & F & T). split.
  - pose proof (history_of_inv _ _ (RunningPost AverageMeter) _ (fun l _ => rmap VScalar (avg_spec (lastn (Z.to_nat w) l))) _ I F T) as H.
    intros h x. unfold RunningAveragePostprocessor. etransitivity; [exact (H h x)|]. destruct (lastn (Z.to_nat w) (fitted h)); reflexivity.
  - intros Hw. eapply (stream_of_inv _ _ (RunningPost AverageMeter)); [exact I|exact F|exact T|]. intros l x. cbn beta.
    rewrite avg_spec_ok by (apply lastn_nonempty; [lia|apply snoc_nonempty]). reflexivity.
Qed.
Print Assumptions C34_running_average.
Theorem C34_running_median : forall w : Z,
  exists s0, RunningPost_init MedianMeter w = Ok s0 /\
  history_law RunningMedianPostprocessor s0
    (fun l _ => match lastn (Z.to_nat w) l with [] => Raise IndexError | win => Ok (VScalar (median_fn win)) end) /\
  ((1 <= w)%Z -> stream_law RunningMedianPostprocessor s0 (fun p => FinV (median_fn (lastn (Z.to_nat w) p)))).
Proof.
  intros w. eexists. split; [reflexivity|].
  destruct (runpost_inv _ _ _ _ w med_rep) as (I & F & T). split.
  - pose proof (history_of_inv _ _ (RunningPost MedianMeter) _ (fun l _ => rmap VScalar (med_spec (lastn (Z.to_nat w) l))) _ I F T) as H.
    intros h x. unfold RunningMedianPostprocessor. etransitivity; [exact (H h x)|]. destruct (lastn (Z.to_nat w) (fitted h)); reflexivity.
  - intros Hw. eapply (stream_of_inv _ _ (RunningPost MedianMeter)); [exact I|exact F|exact T|]. intros l x. cbn beta.
    rewrite med_spec_ok by (apply lastn_nonempty; [lia|apply snoc_nonempty]). reflexivity.
Qed.
Print Assumptions C34_running_median.
Theorem C34_running_max : forall w : Z,
  exists s0, RunningPost_init (MaxMeter MInf) w = Ok s0 /\
  history_law (RunningMaxPostprocessor MInf) s0 (fun l _ => Ok (VScalar (max_of (lastn (Z.to_nat w) l)))) /\
  stream_law (RunningMaxPostprocessor MInf) s0 (fun p => FinV (max_of (lastn (Z.to_nat w) p))).
Proof.
  intros w. eexists. split; [reflexivity|].
  destruct (runpost_inv _ _ _ _ w (max_rep MInf MInf_least)) as (I & F & T). split.
  - pose proof (history_of_inv _ _ (RunningPost (MaxMeter MInf)) _ (fun l _ => rmap VScalar (max_spec MInf (lastn (Z.to_nat w) l))) _ I F T) as H.
    intros h x. unfold RunningMaxPostprocessor. etransitivity; [exact (H h x)|]. cbn beta. rewrite max_spec_of. reflexivity.
  - eapply (stream_of_inv _ _ (RunningPost (MaxMeter MInf))); [exact I|exact F|exact T|]. intros l x. cbn beta. rewrite max_spec_of. reflexivity.
Qed.
Print Assumptions C34_running_max.
(** z-score of x with respect to l (Spec: mean, variance, std): [zscore l x] is [FinV ((x - mean l) / std l)],
    or [NonFin] (numpy nan/inf) when the variance is 0. *)
Theorem C34_running_zscore : forall w : Z,
  exists s0, RunningZScore_init (A := R) w = Ok s0 /\
  history_law RunningZScorePostprocessor s0
    (fun l x => match lastn (Z.to_nat w) l with [] => Raise ZeroDivisionError | win => Ok (VScalar (zscore win x)) end) /\
  ((1 <= w)%Z -> stream_law RunningZScorePostprocessor s0
     (fun p => FinV (zscore (lastn (Z.to_nat w) p) (last p 0)))).
Proof.
  intros w. eexists. split; [reflexivity|].
  assert (I : RZRel w [] (mkRun (mt_init VarianceMeter) w [], mkRun (mt_init AverageMeter) w [])).
  { split; [apply (running_init _ _ _ var_rep)|apply (running_init _ _ _ avg_rep)]. }
  assert (T : forall l s x, RZRel w l s -> exists s', pp_transform RunningZScorePostprocessor x s =
     (match lastn (Z.to_nat w) l with [] => Raise ZeroDivisionError | win => Ok (VScalar (zscore win x)) end, s') /\ RZRel w l s').
  { intros l s x Hs. destruct (lastn (Z.to_nat w) l) as [|a win] eqn:E.
    - destruct s as [v a]. destruct Hs as [Hv Ha]. cbn [fst snd] in *.
      destruct (running_get _ _ _ avg_rep w l a Ha) as (a' & E2 & H2). rewrite E in E2. cbn [avg_spec] in E2.
      exists (v, a'). cbn [pp_transform RunningZScorePostprocessor]. unfold bind, zoom. cbn [fst snd]. rewrite E2.
      split; [reflexivity|]. split; auto.
    - rewrite <- E. apply rz_transform; auto.
      + destruct (Z.to_nat w) eqn:Q; [|lia]. rewrite lastn_0 in E. discriminate.
      + intros ->. rewrite lastn_nil in E. discriminate. }
  split.
  - exact (history_of_inv _ _ RunningZScorePostprocessor _ _ _ I (rz_fit w) T).
  - intros Hw. eapply (stream_of_inv _ _ RunningZScorePostprocessor); [exact I|exact (rz_fit w)|exact T|]. intros l x. cbn beta.
    pose proof (lastn_nonempty _ (Z.to_nat w) (l ++ [x]) ltac:(lia) (snoc_nonempty _ l x)).
    rewrite last_last. destruct (lastn (Z.to_nat w) (l ++ [x])); [congruence|reflexivity].
Qed.
Print Assumptions C34_running_zscore.
Example C34_ex : exists s0, RunningPost_init AverageMeter 2%Z = Ok s0 /\
  eval (Post_fit_transform RunningAveragePostprocessor [4; 2; 8]) s0 = Ok [FinV 4; FinV 3; FinV 5].
Proof.
  destruct (C34_running_average 2%Z) as (s0 & E & _ & S). exists s0. split; auto. rewrite S by lia.
  unfold mean, Rlen, lastn; simpl. f_equal. f_equal; [f_equal; lra|]. f_equal; [f_equal; lra|]. f_equal. f_equal. lra.
Qed.

(** ** C35 *)
Definition z_fresh : pp_state (ZScorePostprocessor (A := R)) := (mt_init VarianceMeter, mt_init AverageMeter).
Lemma z_inv : 
  (forall l s x, ZRel l s -> exists s', pp_fit ZScorePostprocessor x s = (Ok tt, s') /\ ZRel (l ++ [x]) s') /\
  (forall l s x, ZRel l s -> exists s', pp_transform ZScorePostprocessor x s =
     (match l with [] => Raise ZeroDivisionError | _ => Ok (VScalar (zscore l x)) end, s') /\ ZRel l s').
Proof.
  split.
  - intros l s x H. destruct (zscore_fit l s x H) as (s' & E & H'). exists s'. split; auto.
    eapply ZRel_perm; [|exact H']. apply Permutation_cons_append.
  - intros l s x H. destruct l as [|a l].
    + destruct s as [v a]. destruct H as [Hv Ha]. cbn [fst snd] in *.
      destruct (rep_get _ _ _ avg_rep _ _ Ha) as (a' & E2 & H2). exists (v, a').
      cbn [pp_transform ZScorePostprocessor]. unfold bind, zoom. cbn [fst snd]. rewrite E2. split; [reflexivity|]. split; auto.
    + apply zscore_transform; auto. congruence.
Qed.
Theorem C35_zscore_closed_form :
  history_law ZScorePostprocessor z_fresh
    (fun l x => match l with [] => Raise ZeroDivisionError | _ => Ok (VScalar (zscore l x)) end) /\
  stream_law ZScorePostprocessor z_fresh (fun p => FinV (zscore p (last p 0))) /\
  (forall l x, l <> [] -> (exists a b, In a l /\ In b l /\ a <> b) -> zscore l x = FinV ((x - mean l) / std l)) /\
  (forall l x, l <> [] -> (forall a b, In a l -> In b l -> a = b) -> zscore l x = NonFin).
Proof.
  destruct z_inv as [F T]. split; [|split; [|split]].
  - exact (history_of_inv _ _ ZScorePostprocessor _ _ _ ZRel_init F T).
  - eapply (stream_of_inv _ _ ZScorePostprocessor); [exact ZRel_init|exact F|exact T|]. intros l x. cbn beta. rewrite last_last.
    pose proof (snoc_nonempty _ l x). destruct (l ++ [x]); [congruence|reflexivity].
  - intros l x H D. pose proof (std_pos l H D) as P. unfold zscore. destruct (Req_EM_T (variance l) 0) as [E|E]; auto.
    exfalso. unfold std in P. rewrite E, sqrt_0 in P. lra.
  - intros l x H D. unfold zscore. destruct (Req_EM_T (variance l) 0) as [E|E]; auto.
    exfalso. apply E. apply (proj2 (variance_zero_iff l H)). auto.
Qed.
Print Assumptions C35_zscore_closed_form.
(** Rescaling every fitted score and the queried score by a > 0, b changes nothing, after any history. *)
Definition affine_op (a b : R) (o : pop R) : pop R :=
  match o with PFit x => PFit (a * x + b) | PTransform x => PTransform (a * x + b) end.
Lemma fitted_map : forall X Y (f : X -> Y) h, fitted (map (fun o => match o with PFit x => PFit (f x) | PTransform x => PTransform (f x) end) h) = map f (fitted h).
Proof. intros X Y f h. induction h as [|[x|x] h IH]; unfold fitted in *; cbn [map flat_map app]; auto; rewrite IH; reflexivity. Qed.
Theorem C35_zscore_affine_invariant : forall a b h x, 0 < a ->
  eval (pp_transform ZScorePostprocessor (a * x + b)) (post_run ZScorePostprocessor z_fresh (map (affine_op a b) h)) =
  eval (pp_transform ZScorePostprocessor x) (post_run ZScorePostprocessor z_fresh h).
Proof.
  intros a b h x Ha. destruct C35_zscore_closed_form as [H _]. rewrite !H.
  unfold affine_op. rewrite (fitted_map _ _ (fun x => a * x + b)). destruct (fitted h) eqn:E; auto.
  cbn [map]. f_equal. f_equal. change (a * r + b :: map (fun x0 => a * x0 + b) l) with (map (fun x0 => a * x0 + b) (r :: l)).
  apply zscore_affine; [congruence|auto].
Qed.
Print Assumptions C35_zscore_affine_invariant.
Example C35_ex : eval (Post_fit_transform ZScorePostprocessor [1; 3]) z_fresh = Ok [FinV NonFin; FinV (FinV 1)].
Proof.
  destruct C35_zscore_closed_form as (_ & S & D & Q). rewrite S. cbn [prefixes map last]. f_equal. f_equal; [|f_equal].
  - f_equal. apply Q; [congruence|]. intros a b [<-|[]] [<-|[]]. reflexivity.
  - f_equal. rewrite D; [|congruence|exists 1, 3; simpl; repeat split; auto; lra].
    unfold std, variance, mean, Rlen; simpl. f_equal.
    replace ((((1 - (1 + (3 + 0)) / (1 + 1)) * ((1 - (1 + (3 + 0)) / (1 + 1)) * 1)) + (((3 - (1 + (3 + 0)) / (1 + 1)) * ((3 - (1 + (3 + 0)) / (1 + 1)) * 1)) + 0)) / (1 + 1)) with 1 by field.
    rewrite sqrt_1. field.
Qed.

(** ** C36 *)
Definition conf_window (windowed : bool) (w : Z) (l : list R) : list R := if windowed then lastn (Z.to_nat w) l else l.
Definition above (s v : R) : bool := if Rlt_dec s v then true else false.
Lemma conformal_inv : forall (windowed : bool) (w : Z),
  let Rl := fun (l : list R) (c : pp_state (ConformalProbabilityCalibrator (A := R))) =>
    if windowed then exists w0, c = CW w0 /\ wd_size w0 = w /\ wd_items w0 = lastn (Z.to_nat w) l else c = CU l in
  Rl [] (Conformal_init windowed w) /\
  (forall l s x, Rl l s -> exists s', pp_fit ConformalProbabilityCalibrator x s = (Ok tt, s') /\ Rl (l ++ [x]) s') /\
  (forall l s x, Rl l s -> exists s', pp_transform ConformalProbabilityCalibrator x s =
     (Ok (VScalar (match conf_window windowed w l with [] => NonFin | win => FinV (fraction (above x) win) end)), s') /\ Rl l s').
Proof.
  intros windowed w. cbv zeta.
  assert (D : forall (x : R) (win : list R), npdiv (nofZ (Z.of_nat (length (filter (fun s => oltb x s) win)))) (nofZ (Z.of_nat (length win))) =
     match win with [] => NonFin | _ => FinV (fraction (above x) win) end).
  { intros x win. unfold npdiv. cbn [oeqb oltb num_ord NumR OrdR n0 nofZ ndiv]. rewrite !INR_Zof_nat. destruct win as [|a win].
    - simpl. destruct (Reqb 0 0) eqn:Q; auto. apply Reqb_neq in Q. lra.
    - destruct (Reqb (INR (length (a :: win))) 0) eqn:Q.
      + apply Reqb_eq in Q. pose proof (INR_length_pos _ (a :: win) ltac:(congruence)). lra.
      + reflexivity. }
  unfold conf_window. destruct windowed; split; [|split| |split].
  - exists (Window_init w). simpl. rewrite lastn_nil. auto.
  - intros l s x (w0 & -> & S & I). cbn [pp_fit ConformalProbabilityCalibrator].
    destruct (window_update_step _ x w0 l) as (w1 & E & S1 & I1); [rewrite I, S; auto|].
    rewrite E. eexists. split; [reflexivity|]. exists w1. rewrite S1, I1, S. auto.
  - intros l s x (w0 & -> & S & I). eexists. split; [|exists w0; eauto].
    cbn [pp_transform ConformalProbabilityCalibrator]. unfold bind, gets, ret. cbn [cwin_get]. rewrite I, D. destruct (lastn (Z.to_nat w) l); reflexivity.
  - reflexivity.
  - intros l s x ->. eexists. split; reflexivity.
  - intros l s x ->. eexists. split; [|reflexivity].
    cbn [pp_transform ConformalProbabilityCalibrator]. unfold bind, gets, ret. cbn [cwin_get]. rewrite D. destruct l; reflexivity.
Qed.
Theorem C36_conformal_fraction_above : forall windowed w,
  history_law ConformalProbabilityCalibrator (Conformal_init windowed w)
    (fun l s => Ok (VScalar (match conf_window windowed w l with [] => NonFin | win => FinV (fraction (above s) win) end))).
Proof.
  intros. destruct (conformal_inv windowed w) as (I & F & T). exact (history_of_inv _ _ ConformalProbabilityCalibrator _ _ _ I F T).
Qed.
Print Assumptions C36_conformal_fraction_above.
Lemma fraction_range : forall P (l : list R), l <> [] -> 0 <= fraction P l <= 1.
Proof.
  intros P l H. unfold fraction, Rlen. pose proof (INR_length_pos _ l H).
  pose proof (le_INR _ _ (filter_length_le _ P l)). pose proof (pos_INR (length (filter P l))).
  split.
  - apply Rmult_le_pos; auto. left. apply Rinv_0_lt_compat; auto.
  - apply Rmult_le_reg_r with (INR (length l)); auto. unfold Rdiv. rewrite Rmult_assoc, Rinv_l; lra.
Qed.
(** After any history the output is a probability, unless nothing is in the window. *)
Theorem C36_conformal_range : forall windowed w h s,
  let out := eval (pp_transform ConformalProbabilityCalibrator s) (post_run ConformalProbabilityCalibrator (Conformal_init windowed w) h) in
  (conf_window windowed w (fitted h) = [] /\ out = Ok (VScalar NonFin)) \/
  (exists q, out = Ok (VScalar (FinV q)) /\ 0 <= q <= 1).
Proof.
  intros windowed w h s out.
  assert (E0 := C36_conformal_fraction_above windowed w h s). fold out in E0. clearbody out. subst out. destruct (conf_window windowed w (fitted h)) eqn:E.
  - left. auto.
  - right. eexists. split; [reflexivity|]. apply fraction_range. congruence.
Qed.
Print Assumptions C36_conformal_range.
(** fit_transform_partial: the score itself is in the window, so the output is at most (n-1)/n. *)
Theorem C36_conformal_fit_transform_below_one : forall windowed w h s, (windowed = true -> (1 <= w)%Z) ->
  let st := post_run ConformalProbabilityCalibrator (Conformal_init windowed w) h in
  let n := length (conf_window windowed w (fitted h ++ [s])) in
  exists q, eval (pp_fit_transform ConformalProbabilityCalibrator s) st = Ok (VScalar (FinV q)) /\
    0 <= q <= (INR n - 1) / INR n /\ q < 1.
Proof.
  intros windowed w h s Hw st n.
  assert (E : eval (pp_fit_transform ConformalProbabilityCalibrator s) st =
              eval (pp_transform ConformalProbabilityCalibrator s) (post_run ConformalProbabilityCalibrator (Conformal_init windowed w) (h ++ [PFit s]))).
  { unfold post_run. rewrite fold_left_app. fold (post_run ConformalProbabilityCalibrator (Conformal_init windowed w) h). fold st.
    unfold pp_fit_transform, bind, eval. cbn [fold_left post_do]. unfold exec.
    destruct st as [w0|l0]; cbn [pp_fit ConformalProbabilityCalibrator]; unfold Window_update, UnlimitedWindow_update, bind, modify; reflexivity. }
  rewrite E, C36_conformal_fraction_above.
  assert (FE : fitted (h ++ [PFit s]) = fitted h ++ [s]) by (unfold fitted; rewrite flat_map_app; reflexivity).
  rewrite FE.
  assert (IN : In s (conf_window windowed w (fitted h ++ [s]))).
  { unfold conf_window. destruct windowed.
    - specialize (Hw eq_refl). destruct (Z.to_nat w) eqn:Q; [lia|]. rewrite lastn_snoc. apply in_or_app. right. left. auto.
    - apply in_or_app. right. left. auto. }
  subst n. destruct (conf_window windowed w (fitted h ++ [s])) as [|a win] eqn:EW; [contradiction|]. rewrite <- EW in *.
  set (W := conf_window windowed w (fitted h ++ [s])) in *. assert (WN : W <> []) by (rewrite EW; congruence). clearbody W.
  eexists. split; [reflexivity|].
  assert (L : (length (filter (above s) W) < length W)%nat).
  { apply filter_lt_length with s; auto. unfold above. destruct (Rlt_dec s s); auto. lra. }
  pose proof (INR_length_pos _ W WN).
  assert (L' : INR (length (filter (above s) W)) <= INR (length W) - 1).
  { apply le_INR in L. rewrite S_INR in L. lra. }
  pose proof (fraction_range (above s) W WN). unfold fraction, Rlen in *.
  assert (0 < / INR (length W)) by (apply Rinv_0_lt_compat; auto).
  assert (INR (length (filter (above s) W)) / INR (length W) <= (INR (length W) - 1) / INR (length W)).
  { apply Rmult_le_compat_r; lra. }
  split; [lra|]. eapply Rle_lt_trans; [eassumption|]. unfold Rdiv. rewrite Rmult_minus_distr_r, Rinv_r; lra.
Qed.
Print Assumptions C36_conformal_fit_transform_below_one.
Example C36_ex : exists q, eval (pp_transform ConformalProbabilityCalibrator 3)
  (post_run ConformalProbabilityCalibrator (Conformal_init true 3%Z) [PFit 9; PFit 1; PFit 4; PFit 5]) = Ok (VScalar (FinV q)) /\ q = 2 / 3.
Proof.
  eexists. rewrite C36_conformal_fraction_above. split; [reflexivity|]. unfold fraction, above, Rlen. simpl.
  repeat (destruct (Rlt_dec _ _); try lra). simpl. lra.
Qed.

(** ** C37 *)
(** The output reverses the order of the scores ... *)
Theorem C37_conformal_antitone : forall windowed w h s t, s <= t -> conf_window windowed w (fitted h) <> [] ->
  exists p q, 
    eval (pp_transform ConformalProbabilityCalibrator s) (post_run ConformalProbabilityCalibrator (Conformal_init windowed w) h) = Ok (VScalar (FinV p)) /\
    eval (pp_transform ConformalProbabilityCalibrator t) (post_run ConformalProbabilityCalibrator (Conformal_init windowed w) h) = Ok (VScalar (FinV q)) /\
    q <= p.
Proof.
  intros windowed w h s t L N. rewrite !C36_conformal_fraction_above.
  set (W := conf_window windowed w (fitted h)) in *. clearbody W. destruct W as [|a win]; [congruence|].
  do 2 eexists. split; [reflexivity|]. split; [reflexivity|].
  unfold fraction. apply Rmult_le_compat_r.
  - left. apply Rinv_0_lt_compat, INR_length_pos. congruence.
  - apply le_INR, filter_impl_length. unfold above. intros x _. destruct (Rlt_dec t x), (Rlt_dec s x); auto; try discriminate. lra.
Qed.
Print Assumptions C37_conformal_antitone.
(** ... and the most anomalous score ever seen gets 0. *)
Theorem C37_conformal_maximum_gets_zero : forall windowed w h s, conf_window windowed w (fitted h) <> [] ->
  (forall x, In x (fitted h) -> x <= s) ->
  eval (pp_transform ConformalProbabilityCalibrator s) (post_run ConformalProbabilityCalibrator (Conformal_init windowed w) h) = Ok (VScalar (FinV 0)).
Proof.
  intros windowed w h s N B. rewrite C36_conformal_fraction_above.
  assert (B' : forall x, In x (conf_window windowed w (fitted h)) -> x <= s).
  { intros x Hx. apply B. unfold conf_window in Hx. destruct windowed; auto. eapply In_lastn; eauto. }
  set (W := conf_window windowed w (fitted h)) in *. clearbody W. destruct W as [|a win]; [congruence|].
  f_equal. f_equal. f_equal. unfold fraction.
  replace (filter (above s) (a :: win)) with (@nil R).
  - unfold Rlen. simpl length at 1. simpl INR at 1. unfold Rdiv. ring.
  - symmetry. clear N. induction (a :: win) as [|x l IH]; auto. simpl. unfold above at 1.
    destruct (Rlt_dec s x) as [Q|Q]; [specialize (B' x (or_introl eq_refl)); lra|]. apply IH. intros; apply B'; right; auto.
Qed.
Print Assumptions C37_conformal_maximum_gets_zero.
(** Refuted: a higher score does not get a higher calibrated value. *)
Theorem C37_conformal_order_preserving_refuted :
  exists h s t p q, s < t /\
    eval (pp_transform ConformalProbabilityCalibrator s) (post_run ConformalProbabilityCalibrator (Conformal_init true 300%Z) h) = Ok (VScalar (FinV p)) /\
    eval (pp_transform ConformalProbabilityCalibrator t) (post_run ConformalProbabilityCalibrator (Conformal_init true 300%Z) h) = Ok (VScalar (FinV q)) /\
    p = 1 /\ q = 0.
Proof.
  exists [PFit 5; PFit 6], 0, 10. do 2 eexists. split; [lra|]. rewrite !C36_conformal_fraction_above.
  split; [reflexivity|]. split; [reflexivity|]. unfold fraction, above, Rlen. simpl.
  repeat (destruct (Rlt_dec _ _); try lra). simpl. split; lra.
Qed.
Print Assumptions C37_conformal_order_preserving_refuted.

(** ** C38 *)
(** What is assumed of math.erfc. *)
Definition erfc_like (erfc : R -> R) : Prop :=
  (forall a b, a <= b -> erfc b <= erfc a) /\ (forall a, 0 <= erfc a <= 2) /\ erfc 0 = 1.
(** The Gaussian probability of scores at most x, in terms of erfc. *)
Definition gauss_cdf (erfc : R -> R) (mu sd x : R) : R := 1 - / 2 * erfc ((x - mu) / sd / sqrt 2).
Definition safe_std (l : list R) : R := if Rlt_dec 0 (variance l) then std l else 1.
Notation GTail erfc := (GaussianTailProbabilityCalibrator erfc (/ 2) 1 (sqrt 2)).
Definition gt_spec (erfc : R -> R) (running : bool) (w : Z) (l : list R) (x : R) : res (pyval R) :=
  match lastn (Z.to_nat w) l with
  | [] => Raise ZeroDivisionError
  | win => Ok (VScalar (gauss_cdf erfc (mean (if running then win else l)) (safe_std win) x))
  end.
Definition GTRel (running : bool) (w : Z) (l : list R) (s : avgst R * runst (varst R) R) : Prop :=
  (if running then exists a, fst s = AvRun a /\ RunRep AverageMeter sum_R w l a else exists a, fst s = AvAll a /\ sum_R l a) /\
  RunRep VarianceMeter var_R w l (snd s).
Lemma gt_inv : forall erfc running w,
  (exists s0, Gaussian_init running w = Ok s0 /\ GTRel running w [] s0) /\
  (forall l s x, GTRel running w l s -> exists s', pp_fit (GTail erfc) x s = (Ok tt, s') /\ GTRel running w (l ++ [x]) s') /\
  (forall l s x, GTRel running w l s -> exists s', pp_transform (GTail erfc) x s = (gt_spec erfc running w l x, s') /\ GTRel running w l s').
Proof.
  intros erfc running w.
  assert (S : forall l, (if oltb n0 (variance l) then nsqrt (variance l) else 1) = safe_std l).
  { intros l. unfold safe_std, std. cbn [oltb num_ord NumR OrdR n0 nsqrt]. unfold Rltb. destruct (Rlt_dec 0 (variance l)); reflexivity. }
  split; [|split].
  - destruct running; (eexists; split; [reflexivity|]); (split; [|apply (running_init _ _ _ var_rep)]); cbn [fst].
    + eexists. split; [reflexivity|]. apply (running_init _ _ _ avg_rep).
    + eexists. split; [reflexivity|]. apply (rep_init _ _ _ avg_rep).
  - intros l [a v] x [Ha Hv]. cbn [pp_fit GaussianTailProbabilityCalibrator]. unfold bind, zoom. cbn [fst snd] in *.
    destruct (running_step _ _ _ var_rep w l v x Hv) as (v' & Ev & Hv').
    destruct running; destruct Ha as (a0 & -> & Ha); unfold avg_update.
    + destruct (running_step _ _ _ avg_rep w l a0 x Ha) as (a' & Ea & Ha'). rewrite Ea. cbn [fst snd]. rewrite Ev.
      eexists. split; [reflexivity|]. split; auto. exists a'. auto.
    + destruct (rep_upd _ _ _ avg_rep l a0 x Ha) as (a' & Ea & Ha'). rewrite Ea. cbn [fst snd]. rewrite Ev.
      eexists. split; [reflexivity|]. split; auto. exists a'. split; auto.
      eapply (rep_perm _ _ _ avg_rep); [|exact Ha']. apply Permutation_cons_append.
  - intros l [a v] x [Ha Hv]. cbn [pp_transform GaussianTailProbabilityCalibrator]. unfold bind, zoom, gt_spec, ret. cbn [fst snd] in *.
    destruct (running_get _ _ _ var_rep w l v Hv) as (v' & Ev & Hv').
    destruct (lastn (Z.to_nat w) l) as [|b win] eqn:EW.
    + destruct running; destruct Ha as (a0 & -> & Ha); unfold avg_get.
      * destruct (running_get _ _ _ avg_rep w l a0 Ha) as (a' & Ea & Ha'). rewrite EW in Ea. rewrite Ea.
        eexists. split; [reflexivity|]. split; [exists a'; auto|]; auto.
      * destruct (rep_get _ _ _ avg_rep l a0 Ha) as (a' & Ea & Ha'). rewrite Ea. destruct l as [|c l].
        { eexists. split; [reflexivity|]. split; [exists a'; auto|]; auto. }
        cbn [avg_spec fst snd]. rewrite Ev. eexists. split; [reflexivity|]. split; [exists a'; auto|]; auto.
    + destruct running; destruct Ha as (a0 & -> & Ha); unfold avg_get.
      * destruct (running_get _ _ _ avg_rep w l a0 Ha) as (a' & Ea & Ha'). rewrite EW in Ea. rewrite Ea. cbn [avg_spec var_spec fst snd] in *.
        rewrite Ev, S. eexists. split; [reflexivity|]. split; [exists a'; auto|]; auto.
      * destruct (rep_get _ _ _ avg_rep l a0 Ha) as (a' & Ea & Ha'). rewrite Ea.
        assert (NL : l <> []) by (intros ->; rewrite lastn_nil in EW; discriminate).
        rewrite avg_spec_ok by auto. cbn [var_spec fst snd] in *.
        rewrite Ev, S. eexists. split; [reflexivity|]. split; [exists a'; auto|]; auto.
Qed.
Theorem C38_gaussian_tail_closed_form : forall erfc running w, exists s0, Gaussian_init running w = Ok s0 /\
  history_law (GTail erfc) s0 (gt_spec erfc running w).
Proof.
  intros. destruct (gt_inv erfc running w) as ((s0 & E & I) & F & T). exists s0. split; auto.
  exact (history_of_inv _ _ (GTail erfc) _ _ _ I F T).
Qed.
Print Assumptions C38_gaussian_tail_closed_form.
Lemma safe_std_pos : forall l, 0 < safe_std l.
Proof. intros. unfold safe_std, std. destruct (Rlt_dec 0 (variance l)); [apply sqrt_lt_R0; auto|lra]. Qed.
Lemma sqrt2_pos : 0 < sqrt 2. Proof. apply sqrt_lt_R0; lra. Qed.
Theorem C38_gaussian_tail_probability : forall erfc running w h, erfc_like erfc -> (1 <= w)%Z -> fitted h <> [] ->
  exists s0 F mu, Gaussian_init running w = Ok s0 /\
    (forall x, eval (pp_transform (GTail erfc) x) (post_run (GTail erfc) s0 h) = Ok (VScalar (F x))) /\
    (forall x, 0 <= F x <= 1) /\ (forall x y, x <= y -> F x <= F y) /\
    mu = mean (if running then lastn (Z.to_nat w) (fitted h) else fitted h) /\ F mu = 1 / 2.
Proof.
  intros erfc running w h (Dec & Rg & Z0) Hw N.
  destruct (C38_gaussian_tail_closed_form erfc running w) as (s0 & E & H).
  pose proof (lastn_nonempty _ (Z.to_nat w) (fitted h) ltac:(lia) N) as NW.
  set (mu := mean (if running then lastn (Z.to_nat w) (fitted h) else fitted h)).
  exists s0, (gauss_cdf erfc mu (safe_std (lastn (Z.to_nat w) (fitted h)))), mu. split; auto.
  split; [|split; [|split; [|split]]].
  - intros x. rewrite H. unfold gt_spec. subst mu. destruct (lastn (Z.to_nat w) (fitted h)) eqn:EW; [congruence|]. reflexivity.
  - intros x. unfold gauss_cdf. specialize (Rg ((x - mu) / safe_std (lastn (Z.to_nat w) (fitted h)) / sqrt 2)). lra.
  - intros x y L. unfold gauss_cdf. 
    assert (erfc ((y - mu) / safe_std (lastn (Z.to_nat w) (fitted h)) / sqrt 2) <= erfc ((x - mu) / safe_std (lastn (Z.to_nat w) (fitted h)) / sqrt 2)); [|lra].
    apply Dec. pose proof (safe_std_pos (lastn (Z.to_nat w) (fitted h))). pose proof sqrt2_pos.
    unfold Rdiv. apply Rmult_le_compat_r; [left; apply Rinv_0_lt_compat; auto|].
    apply Rmult_le_compat_r; [left; apply Rinv_0_lt_compat; auto|]. lra.
  - reflexivity.
  - unfold gauss_cdf. replace ((mu - mu) / safe_std (lastn (Z.to_nat w) (fitted h)) / sqrt 2) with 0; [rewrite Z0; lra|].
    unfold Rdiv. rewrite Rminus_diag_eq by auto. ring.
Qed.
Print Assumptions C38_gaussian_tail_probability.
(** The hypotheses on erfc are satisfiable (by a strictly decreasing function). *)
Definition erfc_toy (x : R) : R := 1 - x / (1 + Rabs x).
Lemma erfc_toy_strict : forall a b, a < b -> erfc_toy b < erfc_toy a.
Proof.
  intros a b L. unfold erfc_toy. assert (a / (1 + Rabs a) < b / (1 + Rabs b)); [|lra].
  assert (Pa : 0 < 1 + Rabs a) by (pose proof (Rabs_pos a); lra). assert (Pb : 0 < 1 + Rabs b) by (pose proof (Rabs_pos b); lra).
  apply Rmult_lt_reg_r with ((1 + Rabs a) * (1 + Rabs b)); [apply Rmult_lt_0_compat; auto|].
  replace (a / (1 + Rabs a) * ((1 + Rabs a) * (1 + Rabs b))) with (a * (1 + Rabs b)) by (field; lra).
  replace (b / (1 + Rabs b) * ((1 + Rabs a) * (1 + Rabs b))) with (b * (1 + Rabs a)) by (field; lra).
  unfold Rabs in *. destruct (Rcase_abs a), (Rcase_abs b); nra.
Qed.
Example C38_erfc_exists : erfc_like erfc_toy.
Proof.
  split; [|split].
  - intros a b [L| ->]; [left; apply erfc_toy_strict; auto|right; auto].
  - intros a. unfold erfc_toy. assert (-1 <= a / (1 + Rabs a) <= 1); [|lra].
    assert (Pa : 0 < 1 + Rabs a) by (pose proof (Rabs_pos a); lra).
    split; apply Rmult_le_reg_r with (1 + Rabs a); auto; unfold Rdiv; rewrite Rmult_assoc, Rinv_l by lra;
      unfold Rabs in *; destruct (Rcase_abs a); lra.
  - unfold erfc_toy. unfold Rdiv. ring.
Qed.
Example C38_ex : exists s0, Gaussian_init true 2%Z = Ok s0 /\
  eval (pp_transform (GTail erfc_toy) 4) (post_run (GTail erfc_toy) s0 [PFit 100; PTransform 7; PFit 3; PFit 5]) = Ok (VScalar (1 / 2)).
Proof.
  destruct (C38_gaussian_tail_probability erfc_toy true 2%Z [PFit 100; PTransform 7; PFit 3; PFit 5] C38_erfc_exists) as (s0 & F & mu & E & H & _ & _ & M & Q);
    [lia|discriminate|].
  exists s0. split; auto. assert (M4 : mu = 4) by (rewrite M; unfold mean, Rlen, lastn; simpl; lra).
  rewrite H, <- M4, Q. reflexivity.
Qed.

(** ** C39 *)
(** The exact law is [C38_gaussian_tail_closed_form] with running = false: mean over everything, variance over
    the last [w].  So window_size is not ignored: *)
Theorem C39_window_size_ignored_refuted : forall erfc, erfc_like erfc -> (forall a b, a < b -> erfc b < erfc a) ->
  exists h x s1 s2 p1 p2, Gaussian_init false 1%Z = Ok s1 /\ Gaussian_init false 2%Z = Ok s2 /\
    eval (pp_transform (GTail erfc) x) (post_run (GTail erfc) s1 h) = Ok (VScalar p1) /\
    eval (pp_transform (GTail erfc) x) (post_run (GTail erfc) s2 h) = Ok (VScalar p2) /\ p1 <> p2.
Proof.
  intros erfc _ Strict.
  destruct (C38_gaussian_tail_closed_form erfc false 1%Z) as (s1 & E1 & H1).
  destruct (C38_gaussian_tail_closed_form erfc false 2%Z) as (s2 & E2 & H2).
  exists [PFit 0; PFit 4], 10, s1, s2. rewrite H1, H2. unfold gt_spec. simpl. do 2 eexists.
  split; auto. split; auto. split; [reflexivity|]. split; [reflexivity|].
  assert (V1 : variance [4] = 0) by (unfold variance, mean, Rlen; simpl; field).
  assert (V2 : variance [0; 4] = 4) by (unfold variance, mean, Rlen; simpl; field).
  assert (S1 : safe_std [4] = 1) by (unfold safe_std; rewrite V1; destruct (Rlt_dec 0 0); lra).
  assert (S2 : safe_std [0; 4] = 2).
  { unfold safe_std, std. rewrite V2. destruct (Rlt_dec 0 4); [|lra]. replace 4 with (2 * 2) by lra. apply sqrt_square. lra. }
  unfold lastn. cbn -[mean safe_std gauss_cdf]. rewrite S1, S2. unfold gauss_cdf.
  assert (M : mean [0; 4] = 2) by (unfold mean, Rlen; simpl; field). rewrite M.
  assert (L : (10 - 2) / 2 / sqrt 2 < (10 - 2) / 1 / sqrt 2).
  { unfold Rdiv. apply Rmult_lt_compat_r; [apply Rinv_0_lt_compat, sqrt2_pos|]. lra. }
  apply Strict in L. lra.
Qed.
Print Assumptions C39_window_size_ignored_refuted.
(** The windowed variance still shapes the output although running_statistics is False: the law for every history. *)
Theorem C39_mean_of_all_variance_of_window : forall erfc w h x, (1 <= w)%Z -> fitted h <> [] ->
  exists s0, Gaussian_init false w = Ok s0 /\
    eval (pp_transform (GTail erfc) x) (post_run (GTail erfc) s0 h) =
    Ok (VScalar (gauss_cdf erfc (mean (fitted h)) (safe_std (lastn (Z.to_nat w) (fitted h))) x)).
Proof.
  intros erfc w h x Hw N. destruct (C38_gaussian_tail_closed_form erfc false w) as (s0 & E & H). exists s0. split; auto.
  rewrite H. unfold gt_spec. pose proof (lastn_nonempty _ (Z.to_nat w) (fitted h) ltac:(lia) N).
  destruct (lastn (Z.to_nat w) (fitted h)); [congruence|reflexivity].
Qed.
Print Assumptions C39_mean_of_all_variance_of_window.

(** ** C40 *)
(** Fitting is a no-op: whatever was fitted or transformed before, the result is the combination of the given scores. *)
Theorem C40_ensembler_stateless : forall A (combine : list A -> res A) h scores,
  eval (pp_transform (ScoreEnsembler combine) scores) (post_run (ScoreEnsembler combine) tt h) = rmap (fun v => VArray [v]) (combine scores).
Proof.
  intros. destruct (post_run (ScoreEnsembler combine) tt h). cbn. unfold eval, bind, lift, ret. destruct (combine scores); reflexivity.
Qed.
Print Assumptions C40_ensembler_stateless.
Definition ensembled (p : Postprocessor (list R) R) (s0 : pp_state p) (scores : list R) : res (pyval R) := eval (pp_transform p scores) s0.
Lemma ens_eq : forall (combine : list R -> res R) scores v, combine scores = Ok v ->
  ensembled (ScoreEnsembler combine) tt scores = Ok (VArray [v]).
Proof. intros c s v E. unfold ensembled, eval. cbn. unfold bind, lift, ret. rewrite E. reflexivity. Qed.
(** The aggregate is a well-defined number of the scores: exact value, range, order independence, monotonicity. *)
Definition good_aggregate (p : Postprocessor (list R) R) (s0 : pp_state p) (value : list R -> R) : Prop :=
  (forall l, l <> [] -> ensembled p s0 l = Ok (VArray [value l])) /\
  (forall l lo hi, l <> [] -> (forall x, In x l -> lo <= x <= hi) -> lo <= value l <= hi) /\
  (forall l l', Permutation l l' -> value l = value l') /\
  (forall l l', Forall2 Rle l l' -> value l <= value l').
Definition Rmaximum (l : list R) : R := match l with [] => 0 | a :: l' => fold_left Rmax l' a end.
Lemma fold_omax_Rmax : forall l (a : R), fold_left omax l a = fold_left Rmax l a.
Proof.
  induction l as [|b l IH]; intros a; simpl; auto. rewrite IH. f_equal. unfold omax. simpl.
  unfold Rmax. destruct (Rltb a b) eqn:E, (Rle_dec a b) as [Q|Q]; auto.
  - apply Rltb_lt in E. lra.
  - apply Rltb_nlt in E. lra.
Qed.
Lemma np_max_R : forall l : list R, l <> [] -> np_max l = Ok (Rmaximum l).
Proof. intros [|a l] H; [congruence|]. unfold np_max, Rmaximum. rewrite fold_omax_Rmax. reflexivity. Qed.
Lemma Rmaximum_is_max : forall l, l <> [] -> is_max (Rmaximum l) l.
Proof.
  intros l H. destruct (np_max_ok l H) as (m & E & I1 & I2). rewrite np_max_R in E by auto. injection E as <-.
  split; auto. intros x Hx. apply Rleb_le. apply I2; auto.
Qed.
Lemma is_max_unique : forall m m' l, is_max m l -> is_max m' l -> m = m'.
Proof. intros m m' l [A B] [C D]. apply B in C. apply D in A. lra. Qed.
Theorem C40_maximum_ensembler : good_aggregate MaximumScoreEnsembler tt Rmaximum.
Proof.
  split; [|split; [|split]].
  - intros l H. apply ens_eq, np_max_R; auto.
  - intros l lo hi H B. apply B. apply Rmaximum_is_max; auto.
  - intros l l' P. destruct l as [|a l].
    + apply Permutation_nil in P. subst. reflexivity.
    + assert (N : l' <> []) by (intros ->; apply Permutation_sym, Permutation_nil in P; discriminate).
      apply is_max_unique with (a :: l); [apply Rmaximum_is_max; congruence|].
      destruct (Rmaximum_is_max l' N) as [I1 I2]. split.
      * eapply Permutation_in; [symmetry; exact P|auto].
      * intros x Hx. apply I2. eapply Permutation_in; [exact P|auto].
  - intros l l' F. destruct l as [|a l]; [inversion F; subst; right; auto|].
    destruct (Rmaximum_is_max (a :: l) ltac:(congruence)) as [I1 _].
    assert (N : l' <> []) by (inversion F; congruence). destruct (Rmaximum_is_max l' N) as [_ J2].
    assert (G : forall x, In x (a :: l) -> exists y, In y l' /\ x <= y).
    { clear -F. induction F; intros z Hz; [contradiction|]. destruct Hz as [<-|Hz].
      - exists y. simpl; auto.
      - destruct (IHF z Hz) as (y0 & Hy & L). exists y0. simpl; auto. }
    destruct (G _ I1) as (y & Hy & L). specialize (J2 y Hy). lra.
Qed.
Print Assumptions C40_maximum_ensembler.
Lemma Rsum_mono : forall l l', Forall2 Rle l l' -> Rsum l <= Rsum l'.
Proof. intros l l' F. induction F as [|a b l l' H F IH]; [right; auto|]. change (a + Rsum l <= b + Rsum l'). lra. Qed.
Theorem C40_average_ensembler : good_aggregate (AverageScoreEnsembler None) tt mean.
Proof.
  split; [|split; [|split]].
  - intros l H. apply ens_eq. apply np_mean_R; auto.
  - apply mean_bounds.
  - apply mean_perm.
  - intros l l' F. unfold mean, Rlen. rewrite <- (Forall2_length _ _ _ _ _ F). destruct l as [|a l].
    + inversion F; subst. simpl. lra.
    + apply Rmult_le_compat_r; [left; apply Rinv_0_lt_compat, INR_length_pos; congruence|]. apply Rsum_mono; auto.
Qed.
Print Assumptions C40_average_ensembler.
Theorem C40_median_ensembler : good_aggregate MedianScoreEnsembler tt median_fn /\ (forall l, l <> [] -> is_median (median_fn l) l).
Proof.
  split; [split; [|split; [|split]]|].
  - intros l H. apply ens_eq, np_median_R; auto.
  - apply median_bounds.
  - apply median_perm.
  - apply median_mono.
  - apply median_fn_spec.
Qed.
Print Assumptions C40_median_ensembler.
(** Weighted average: for non-negative weights with a positive sum the result is in the score range. *)
Theorem C40_weighted_average : forall ws l lo hi, length ws = length l -> (forall w, In w ws -> 0 <= w) -> 0 < Rsum ws ->
  (forall x, In x l -> lo <= x <= hi) ->
  exists v, ensembled (AverageScoreEnsembler (Some ws)) tt l = Ok (VArray [v]) /\ lo <= v <= hi /\
    v = Rsum (map (fun p => fst p * snd p) (combine l ws)) / Rsum ws.
Proof.
  intros ws l lo hi L W P B. eexists. split; [|split; [|reflexivity]].
  - apply ens_eq. unfold pyod_average. rewrite (proj2 (Nat.eqb_eq _ _) L). unfold pydiv. rewrite !nsum_Rsum.
    cbn [oeqb num_ord NumR OrdR n0 ndiv]. destruct (Reqb (Rsum ws) 0) eqn:Q; [apply Reqb_eq in Q; lra|]. reflexivity.
  - assert (G : forall l ws, length ws = length l -> (forall w, In w ws -> 0 <= w) -> (forall x, In x l -> lo <= x <= hi) ->
      lo * Rsum ws <= Rsum (map (fun p => fst p * snd p) (combine l ws)) <= hi * Rsum ws).
    { clear. induction l as [|x l IH]; intros [|w ws] L W B; try discriminate; [simpl; lra|].
      injection L as L. assert (I := IH ws L (fun v H => W v (or_intror H)) (fun v H => B v (or_intror H))).
      cbn [combine map fst snd]. change (Rsum (w :: ws)) with (w + Rsum ws).
      match goal with |- context [Rsum (?a :: ?b)] => change (Rsum (a :: b)) with (a + Rsum b) end.
      pose proof (B x (or_introl eq_refl)). pose proof (W w (or_introl eq_refl)). split; nra. }
    specialize (G l ws L W B).
    split; apply Rmult_le_reg_r with (Rsum ws); auto; unfold Rdiv; rewrite Rmult_assoc, Rinv_l by lra; lra.
Qed.
Print Assumptions C40_weighted_average.
Theorem C40_weighted_average_wrong_length : forall ws l, length ws <> length l ->
  ensembled (AverageScoreEnsembler (Some ws)) tt l = Raise ValueError.
Proof.
  intros ws l L. unfold ensembled, eval. cbn. unfold bind, lift, pyod_average.
  destruct (Nat.eqb_spec (length ws) (length l)); [contradiction|reflexivity].
Qed.
Print Assumptions C40_weighted_average_wrong_length.
Example C40_ex : ensembled MaximumScoreEnsembler tt [1; 7; 3] = Ok (VArray [7]) /\ ensembled (AverageScoreEnsembler None) tt [1; 7; 4] = Ok (VArray [4]).
Proof.
  destruct C40_maximum_ensembler as [M _]. destruct C40_average_ensembler as [A _]. split.
  - rewrite M by congruence. unfold Rmaximum; simpl. unfold Rmax. repeat (destruct (Rle_dec _ _); try lra). reflexivity.
  - rewrite A by congruence. unfold mean, Rlen; simpl. do 3 f_equal. lra.
Qed.
Example C40_ex_weighted : exists v, ensembled (AverageScoreEnsembler (Some [1; 3])) tt [0; 8] = Ok (VArray [v]) /\ v = 6.
Proof.
  destruct (C40_weighted_average [1; 3] [0; 8] 0 8) as (v & E & _ & V); simpl; auto; try lra.
  - intros w [<-|[<-|[]]]; lra.
  - intros w [<-|[<-|[]]]; lra.
  - exists v. split; auto. rewrite V. simpl. lra.
Qed.

(** ** C41 *)
Lemma buckets_ok : forall rg nb (l : list R), rg nb (length l) = true -> (1 <= nb)%nat -> (nb <= length l)%nat -> (length l mod nb = 0)%nat ->
  exists size, (0 < size)%nat /\ length l = (nb * size)%nat /\ pyod_buckets rg nb l = Ok (slices nb size l).
Proof.
  intros rg nb l H0 H1 H2 H3. exists (length l / nb)%nat.
  assert (E : length l = (nb * (length l / nb))%nat) by (apply Nat.div_exact; lia).
  split; [|split; auto].
  - destruct (length l / nb)%nat; lia.
  - unfold pyod_buckets. rewrite H0, (proj2 (Nat.eqb_eq _ _) H3). reflexivity.
Qed.
Lemma res_map_ok : forall A B (f : A -> res B) (g : A -> B) l, (forall x, In x l -> f x = Ok (g x)) -> res_map f l = Ok (map g l).
Proof.
  intros A B f g l. induction l as [|a l IH]; intros H; simpl; auto.
  rewrite (H a) by (simpl; auto). simpl. rewrite IH; [reflexivity|]. intros; apply H; simpl; auto.
Qed.
Lemma slices_in : forall A n size (l : list A) b x, In b (slices n size l) -> In x b -> In x l.
Proof.
  induction n; intros size l b x Hb Hx; simpl in *; [contradiction|]. destruct Hb as [<-|Hb].
  - rewrite <- (firstn_skipn size l). apply in_or_app; auto.
  - rewrite <- (firstn_skipn size l). apply in_or_app. right. eapply IHn; eauto.
Qed.
(** [shuffle] is whatever order sklearn.utils.shuffle puts the detectors in; [rg] says which numbers of buckets PyOD accepts for
    how many detectors. *)
Theorem C41_aom_moa_between_mean_and_max : forall rg nb shuffle l, rg nb (length l) = true -> (1 <= nb <= length l)%nat -> (length l mod nb = 0)%nat ->
  Permutation (shuffle l) l ->
  exists aom moa, ensembled (AverageOfMaximumScoreEnsembler rg nb shuffle) tt l = Ok (VArray [aom]) /\
    ensembled (MaximumOfAverageScoreEnsembler rg nb shuffle) tt l = Ok (VArray [moa]) /\
    (forall m, is_max m l -> mean l <= aom <= m /\ mean l <= moa <= m).
Proof.
  intros rg nb shuffle l H0 [H1 H2] H3 P.
  rewrite <- (Permutation_length P) in H0, H2, H3. rewrite <- (mean_perm _ _ P).
  destruct (buckets_ok rg nb (shuffle l) H0 H1 H2 H3) as (size & S0 & L & B).
  set (bs := slices nb size (shuffle l)) in *.
  assert (NB : forall b, In b bs -> b <> []).
  { intros b Hb ->. apply (slices_sizes _ nb size _ L) in Hb. simpl in Hb. lia. }
  assert (NBS : bs <> []) by (intros Q; pose proof (slices_length _ nb size (shuffle l)) as SL; fold bs in SL; rewrite Q in SL; simpl in SL; lia).
  assert (MX : res_map np_max bs = Ok (map Rmaximum bs)) by (apply res_map_ok; intros; apply np_max_R; auto).
  assert (MN : res_map np_mean bs = Ok (map mean bs)) by (apply res_map_ok; intros; apply np_mean_R; auto).
  assert (NM : forall f : list R -> R, map f bs <> []) by (intros f Q; apply map_eq_nil in Q; contradiction).
  exists (mean (map Rmaximum bs)), (Rmaximum (map mean bs)). split; [|split].
  - apply ens_eq. unfold pyod_aom. rewrite B. simpl. rewrite MX. simpl. apply np_mean_R; auto.
  - apply ens_eq. unfold pyod_moa. rewrite B. simpl. rewrite MN. simpl. apply np_max_R; auto.
  - intros m [Im Bm].
    assert (BB : forall b x, In b bs -> In x b -> x <= m).
    { intros b x Hb Hx. apply Bm. eapply Permutation_in; [exact P|]. eapply slices_in; eauto. }
    assert (MM : mean (map mean bs) = mean (shuffle l)) by (apply mean_of_means; lia).
    assert (BND : forall b, In b bs -> mean b <= Rmaximum b <= m).
    { intros b Hb. destruct (Rmaximum_is_max b (NB b Hb)) as [J1 J2]. split; [|eapply BB; eauto].
      assert (NBb := NB b Hb).
      destruct (np_min_ok b NBb) as (mn & _ & K1 & K2).
      apply (mean_bounds b mn (Rmaximum b) NBb). intros x Hx. split; [apply Rleb_le, K2; auto|auto]. }
    assert (UP : forall l0 c, l0 <> [] -> (forall x, In x l0 -> x <= c) -> mean l0 <= c).
    { intros l0 c N0 Hc. destruct (np_min_ok l0 N0) as (mn & _ & K1 & K2).
      apply (mean_bounds l0 mn c N0). intros x Hx. split; [apply Rleb_le, K2; auto|auto]. }
    rewrite <- MM. split.
    + split; [apply mean_mono; auto; intros; apply BND; auto|].
      apply UP; auto. intros x Hx. apply in_map_iff in Hx. destruct Hx as (b & <- & Hb). apply BND; auto.
    + destruct (Rmaximum_is_max (map mean bs) (NM mean)) as [J1 J2]. split; [apply UP; auto|].
      apply in_map_iff in J1. destruct J1 as (b & <- & Hb). pose proof (BND b Hb). lra.
Qed.
Print Assumptions C41_aom_moa_between_mean_and_max.
Theorem C41_bad_bucket_count : forall rg nb (shuffle : list R -> list R) l, length (shuffle l) = length l ->
  (rg nb (length l) = false \/ (length l mod nb)%nat <> 0%nat) ->
  ensembled (AverageOfMaximumScoreEnsembler rg nb shuffle) tt l = Raise ValueError /\
  ensembled (MaximumOfAverageScoreEnsembler rg nb shuffle) tt l = Raise ValueError.
Proof.
  intros rg nb shuffle l L H.
  assert (E : pyod_buckets rg nb (shuffle l) = Raise ValueError).
  { unfold pyod_buckets. rewrite L. destruct H as [->|H]; [reflexivity|]. rewrite (proj2 (Nat.eqb_neq _ _) H), andb_false_r. reflexivity. }
  split; unfold ensembled, eval; cbn; unfold bind, lift, pyod_aom, pyod_moa; rewrite E; reflexivity.
Qed.
Print Assumptions C41_bad_bucket_count.
Example C41_ex : ensembled (AverageOfMaximumScoreEnsembler (fun nb n => (2 <=? nb) && (nb <=? n))%nat 2 (fun l => l)) tt [1; 3; 5; 9] = Ok (VArray [6]).
Proof.
  apply ens_eq. change (pyod_aom (fun nb n => (2 <=? nb) && (nb <=? n))%nat 2 (fun l => l) [1; 3; 5; 9]) with (rbind (res_map np_max [[1; 3]; [5; 9]]) np_mean).
  rewrite (res_map_ok _ _ np_max Rmaximum) by (intros x [<-|[<-|[]]]; apply np_max_R; congruence).
  cbn [rbind map]. rewrite np_mean_R by congruence. f_equal. unfold Rmaximum, mean, Rlen; simpl. unfold Rmax.
  repeat (destruct (Rle_dec _ _); try lra).
Qed.
(** The exact values: cut the shuffled scores into nb consecutive blocks of equal size; the mean of the block maxima, and
    the maximum of the block means. *)
Lemma slices_blocks : forall A n size (l : list A), slices n size l = map (fun k => block size k l) (seq 0 n).
Proof.
  intros A n. induction n as [|n IH]; intros size l; auto. cbn [slices seq map]. f_equal. rewrite IH, <- seq_shift, map_map. apply map_ext. intros k. unfold block. f_equal. rewrite skipn_skipn. f_equal. lia.
Qed.
Theorem C41_values : forall rg nb shuffle l, rg nb (length l) = true -> (1 <= nb <= length l)%nat -> (length l mod nb = 0)%nat -> length (shuffle l) = length l ->
  let blocks := map (fun k => block (length l / nb) k (shuffle l)) (seq 0 nb) in
  concat blocks = shuffle l /\
  exists maxs moa, Forall2 is_max maxs blocks /\ is_max moa (map mean blocks) /\
    ensembled (AverageOfMaximumScoreEnsembler rg nb shuffle) tt l = Ok (VArray [mean maxs]) /\
    ensembled (MaximumOfAverageScoreEnsembler rg nb shuffle) tt l = Ok (VArray [moa]).
Proof.
  intros rg nb shuffle l H0 [H1 H2] H3 P blocks.
  assert (E : length l = (nb * (length l / nb))%nat) by (apply Nat.div_exact; lia).
  assert (EB : pyod_buckets rg nb (shuffle l) = Ok blocks).
  { unfold pyod_buckets. rewrite P, H0, (proj2 (Nat.eqb_eq _ _) H3). cbn [andb]. f_equal. apply slices_blocks. }
  assert (S0 : (0 < length l / nb)%nat) by (destruct (length l / nb)%nat; lia).
  assert (LB : forall b, In b blocks -> b <> []).
  { intros b Hb. unfold blocks in Hb. apply in_map_iff in Hb. destruct Hb as (k & <- & Hk). apply in_seq in Hk. intros Q. apply (f_equal (@length R)) in Q. unfold block in Q. rewrite firstn_length, skipn_length, P in Q. cbn [length] in Q. set (q := (length l / nb)%nat) in *. nia. }
  assert (NE : blocks <> []) by (unfold blocks; destruct nb; [lia|discriminate]).
  split.
  - unfold blocks. rewrite <- slices_blocks. set (q := (length l / nb)%nat) in *. clearbody q. rewrite <- P in E. clear - E. revert E. generalize (shuffle l). induction nb as [|n IH]; intros l0 E.
    + destruct l0; [reflexivity|discriminate].
    + cbn [slices concat]. rewrite IH; [apply firstn_skipn|]. rewrite skipn_length, E, Nat.mul_succ_l. lia.
  - exists (map Rmaximum blocks), (Rmaximum (map mean blocks)). split; [|split; [|split]].
    + clear - LB. induction blocks as [|b bs IH]; constructor; [apply Rmaximum_is_max, LB; left; auto|]. apply IH. intros; apply LB; right; auto.
    + apply Rmaximum_is_max. intros Q. apply map_eq_nil in Q. auto.
    + apply ens_eq. unfold pyod_aom. rewrite EB. cbn [rbind]. rewrite (res_map_ok _ _ np_max Rmaximum) by (intros; apply np_max_R; auto). cbn [rbind]. apply np_mean_R. intros Q. apply map_eq_nil in Q. auto.
    + apply ens_eq. unfold pyod_moa. rewrite EB. cbn [rbind]. rewrite (res_map_ok _ _ np_mean mean) by (intros; apply np_mean_R; auto). cbn [rbind]. apply np_max_R. intros Q. apply map_eq_nil in Q. auto.
Qed.
Print Assumptions C41_values.
