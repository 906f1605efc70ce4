(** * C133: which calls fail, for every history of calls with acceptable instances. *)
From Coq Require Import String.
From Coq Require Import List ZArith Lia Bool Reals Lra Arith Permutation Sorted.
From Verif Require Import Base Num Spec Model_Core Model_Stats Model_Utils Model_Trans Model_Simple Model_Sketch Model_HST Model_Loda Model_KNN Model_SESD Model_XStream Model_KitNET Model_Integrations
  P_Lists P_Core P_Stats P_Utils P_Models Prop_Core Prop_Trans Prop_Simple Prop_HST Prop_RSHash Prop_Sketch Prop_Loda Prop_KNN Prop_SESD Prop_XStream Prop_KitNET Prop_Integrations.
Import ListNotations.
Open Scope R_scope.
Local Notation length := List.length.

(** ** Specification *)
(** Every instance passed to the calls is acceptable. *)
Definition acceptable {X Y} (good : X -> Prop) (h : list (mcall X Y)) : Prop :=
  Forall (fun o => match o with CFit x _ | CScore x | CFitScore x _ => good x end) h.
(** What the call o returns, or raises, after the calls h. *)
Definition outcome {X Y A} (m : Model X Y A) (s0 : md_state m) (h : list (mcall X Y)) (o : mcall X Y) : res (option (pyval A)) :=
  eval (model_call m o) (model_run m s0 h).
(** fit_partial returns, score_partial and fit_score_partial return one number. *)
Definition succeeds {X Y A} (o : mcall X Y) (r : res (option (pyval A))) : Prop :=
  match o with CFit _ _ => r = Ok None | _ => exists a, r = Ok (Some (VScalar a)) \/ r = Ok (Some (VArray [a])) end.
(** No call ever fails. *)
Definition never_fails {X Y A} (good : X -> Prop) (m : Model X Y A) (s0 : md_state m) : Prop :=
  forall h o, acceptable good (h ++ [o]) -> succeeds o (outcome m s0 h o).
(** The calls of score_partial made before anything was fitted end with r; all others succeed. *)
Definition needs_a_fit {X Y A} (r : res (option (pyval A))) (good : X -> Prop) (m : Model X Y A) (s0 : md_state m) : Prop :=
  forall h o, acceptable good (h ++ [o]) ->
  match o with
  | CScore _ => match fitted_instances h with [] => outcome m s0 h o = r | _ => succeeds o (outcome m s0 h o) end
  | _ => succeeds o (outcome m s0 h o)
  end.

(** ** Proofs *)
Lemma acceptable_app : forall X Y good (h1 h2 : list (mcall X Y)), acceptable good (h1 ++ h2) <-> acceptable good h1 /\ acceptable good h2.
Proof. intros. apply Forall_app. Qed.
Lemma acceptable_fitted : forall X Y good (h : list (mcall X Y)), acceptable good h -> Forall good (fitted_instances h).
Proof.
  intros X Y good h H. induction H as [|o h Ho H IH]; [constructor|]. change (o :: h) with ([o] ++ h). rewrite fitted_instances_app. apply Forall_app. split; auto.
  destruct o as [x y|x|x y]; cbn; repeat constructor; exact Ho.
Qed.
Lemma run_snoc : forall X Y A (m : Model X Y A) s0 h o, model_run m s0 (h ++ [o]) = exec (model_call m o) (model_run m s0 h).
Proof. intros. rewrite model_run_app. reflexivity. Qed.
Definition number {A} (v : pyval A) : Prop := exists a, v = VScalar a \/ v = VArray [a].
Section Generic.
Variables (X Y A : Type) (m : Model X Y A) (s0 : md_state m) (good : X -> Prop).
Hypothesis Hfs : forall x y s, md_fit_score m x y s = (md_fit m x y ;;; md_score m x) s.
Hypothesis HF : forall h x y, Forall good (fitted_instances h) -> good x -> eval (md_fit m x y) (model_run m s0 h) = Ok tt.
Hypothesis HS : forall h x, Forall good (fitted_instances h) -> good x -> fitted_instances h <> [] -> exists v, number v /\ eval (md_score m x) (model_run m s0 h) = Ok v.
Lemma fit_or_both : forall h o, acceptable good (h ++ [o]) -> (forall x, o = CScore x -> fitted_instances h <> []) -> succeeds o (outcome m s0 h o).
Proof.
  intros h o G N. apply acceptable_app in G. destruct G as [G Go]. apply Forall_inv in Go. pose proof (acceptable_fitted _ _ _ _ G) as GF.
  unfold outcome, eval. destruct o as [x y|x|x y]; cbn [model_call succeeds].
  - pose proof (HF h x y GF Go) as E. unfold eval in E. destruct (md_fit m x y _) as [r s]. cbn [fst] in *. subst r. reflexivity.
  - destruct (HS h x GF Go (N x eq_refl)) as (v & (a & V) & E). unfold eval in E. destruct (md_score m x _) as [r s]. cbn [fst] in *. subst r. exists a. destruct V as [-> | ->]; auto.
  - rewrite Hfs. unfold bind. pose proof (HF h x y GF Go) as E. destruct (md_fit m x y (model_run m s0 h)) as [r s] eqn:EF. unfold eval in E. cbn [fst] in E.  rewrite EF in E. cbn [fst] in E. subst r.
    assert (ES : s = model_run m s0 (h ++ [CFit x y])). { rewrite run_snoc. unfold exec. cbn [model_call]. rewrite EF. reflexivity. }
    destruct (HS (h ++ [CFit x y]) x) as (v & (a & V) & E).
    + rewrite fitted_instances_app. apply Forall_app. split; auto. repeat constructor. exact Go.
    + exact Go.
    + rewrite fitted_instances_app. cbn. destruct (fitted_instances h); discriminate.
    + rewrite <- ES in E. unfold eval in E. destruct (md_score m x s) as [r s']. cbn [fst] in *. subst r. exists a. destruct V as [-> | ->]; auto.
Qed.
Lemma needs_from : forall r, (forall h x, Forall good (fitted_instances h) -> good x -> fitted_instances h = [] -> rmap Some (eval (md_score m x) (model_run m s0 h)) = r) -> needs_a_fit r good m s0.
Proof.
  intros r H h o G. destruct o as [x y|x|x y]; try (apply fit_or_both; [exact G|discriminate]).
  destruct (fitted_instances h) as [|x0 xs] eqn:E.
  - apply acceptable_app in G. destruct G as [G Go]. apply Forall_inv in Go. rewrite <- (H h x); auto; [|apply acceptable_fitted; auto].
    unfold outcome, eval. cbn [model_call]. destruct (md_score m x _) as [q s]. reflexivity.
  - apply fit_or_both; auto. rewrite E. discriminate.
Qed.
Lemma never_from : (forall h x, Forall good (fitted_instances h) -> good x -> fitted_instances h = [] -> exists v, number v /\ eval (md_score m x) (model_run m s0 h) = Ok v) -> never_fails good m s0.
Proof.
  intros H h o G. destruct o as [x y|x|x y]; try (apply fit_or_both; [exact G|discriminate]).
  destruct (fitted_instances h) as [|x0 xs] eqn:E.
  - apply acceptable_app in G. destruct G as [G Go]. apply Forall_inv in Go. destruct (H h x) as (v & (a & V) & Ev); auto; [apply acceptable_fitted; auto|].
    unfold outcome, eval in *. cbn [model_call succeeds]. destruct (md_score m x _) as [q s]. cbn [fst] in *. subst q. exists a. destruct V as [-> | ->]; auto.
  - apply fit_or_both; auto. rewrite E. discriminate.
Qed.
End Generic.

(** ** NullModel and RandomModel *)
Theorem C133_null_and_random : forall X Y A (half : A) (draw : nat -> A) k, never_fails (fun _ : X => True) (NullModel (Y := Y) half) tt /\ never_fails (fun _ : X => True) (RandomModel (Y := Y) draw) k.
Proof.
  intros X Y A half draw k. split; (apply never_from; [reflexivity|reflexivity| |]); intros h x _ _ _; eexists; (split; [eexists; left; reflexivity|reflexivity]).
Qed.
Print Assumptions C133_null_and_random.

(** ** ExactStorm *)
Theorem C133_exact_storm : forall Y radius w n, never_fails (fun x : list R => length x = n) (ExactStorm (Y := Y) radius) (Window_init w).
Proof.
  intros Y radius w n.
  assert (G : forall (h : list (mcall (list R) Y)) x, Forall (fun x => length x = n) (fitted_instances h) -> length x = n ->
    exists v, number v /\ eval (md_score (ExactStorm radius) x) (model_run (ExactStorm radius) (Window_init w) h) = Ok v).
  { intros h x F Hx. eexists. split; [|apply C51_near_fraction; intros r Hr; rewrite Forall_forall in F; rewrite (F r Hr); auto]. eexists. left. reflexivity. }
  apply never_from; auto.
Qed.
Print Assumptions C133_exact_storm.

(** ** MedianAbsoluteDeviation and StandardAbsoluteDeviation *)
Lemma one_feature : forall Y (h : list (mcall (list R) Y)), Forall (fun x => length x = 1%nat) (fitted_instances h) -> fitted_instances h = map (fun v => [v]) (univariate h).
Proof.
  intros Y h. unfold fitted_instances, univariate. induction (fitted_calls h) as [|[x y] l IH]; intros F; auto. cbn [map fst flat_map] in *. inversion F as [|? ? Fx F']; subst.
  destruct x as [|v [|? ?]]; cbn in Fx; try discriminate. rewrite map_app. cbn [map app]. f_equal. auto.
Qed.
Lemma one_feature_nil : forall Y (h : list (mcall (list R) Y)), Forall (fun x => length x = 1%nat) (fitted_instances h) -> (fitted_instances h = [] <-> univariate h = []).
Proof. intros Y h F. rewrite (one_feature Y h F). split; intros E; [destruct (univariate h); auto; discriminate|rewrite E; reflexivity]. Qed.
Theorem C133_median_absolute_deviation : forall Y eps b ab, 0 < eps -> 0 <= b ->
  needs_a_fit (Raise IndexError) (fun x => length x = 1%nat) (MedianAbsoluteDeviation (Y := Y) eps b ab) MAD_init.
Proof.
  intros Y eps b ab He Hb. apply needs_from.
  - reflexivity.
  - intros h x y F Hx. destruct x as [|v [|? ?]]; cbn in Hx; try discriminate. destruct (mad_fit_step Y eps b ab _ _ v y (mad_run Y eps b ab h)) as (s' & E & _). unfold eval. rewrite E. reflexivity.
  - intros h x F Hx NE. destruct (C70_finite_and_absolute_nonneg Y eps b ab h x He Hb) as (l & E & L & _). { intros Q. apply NE, one_feature_nil; auto. }
    destruct l as [|a [|? ?]]; cbn in L; try lia. eexists. split; [|exact E]. eexists. right. reflexivity.
  - intros h x F Hx E. rewrite C70_no_value_no_score; [reflexivity|]. apply one_feature_nil; auto.
Qed.
Print Assumptions C133_median_absolute_deviation.
Theorem C133_standard_absolute_deviation : forall Y eps ab, 0 < eps ->
  needs_a_fit (Raise ZeroDivisionError) (fun x => length x = 1%nat) (StandardAbsoluteDeviation (Y := Y) eps ab AverageMeter) (SAD_init AverageMeter) /\
  needs_a_fit (Raise IndexError) (fun x => length x = 1%nat) (StandardAbsoluteDeviation (Y := Y) eps ab MedianMeter) (SAD_init MedianMeter).
Proof.
  intros Y eps ab He.
  assert (G : forall n m (spec : list R -> res R) (Rl : list R -> mt_state m -> Prop) e, Rep m spec Rl -> SAD_statistic n = Ok m -> (n = NMean \/ n = NMedian) ->
    (forall h x, univariate h = [] -> eval (md_score (StandardAbsoluteDeviation (Y := Y) eps ab m) x) (model_run (StandardAbsoluteDeviation (Y := Y) eps ab m) (SAD_init m) h) = Raise e) ->
    needs_a_fit (Raise e) (fun x => length x = 1%nat) (StandardAbsoluteDeviation (Y := Y) eps ab m) (SAD_init m)).
  { intros n m spec Rl e HR Hn Hn' H0. apply needs_from.
    - reflexivity.
    - intros h x y F Hx. destruct x as [|v [|? ?]]; cbn in Hx; try discriminate. destruct (sad_run Y eps ab m spec Rl HR h) as [H1 H2]. set (s := model_run _ _ h) in *. clearbody s. destruct s as [sv ss]. cbn [fst snd] in *.
      unfold eval. cbn [md_fit StandardAbsoluteDeviation plain_model the_value]. unfold bind, lift, zoom. cbn [fst snd].
      destruct (rep_upd _ _ _ var_rep _ sv v H1) as (s1 & E1 & _). rewrite E1. cbn [fst snd]. destruct (rep_upd _ _ _ HR _ ss v H2) as (s2 & E2 & _). rewrite E2. reflexivity.
    - intros h x F Hx NE. assert (NU : univariate h <> []) by (intros Q; apply NE, one_feature_nil; auto).
      assert (C : exists c, center n (univariate h) c). { destruct Hn' as [-> | ->]; [exists (mean (univariate h)); constructor; auto|]. destruct (running_stats_exist _ NU) as (med & _ & _ & M & _). exists med. constructor. auto. }
      destruct C as [c C]. eexists. split; [|apply (C71_score Y eps ab n m h x c He Hn C)]. destruct x as [|v [|? ?]]; cbn in Hx; try discriminate. eexists. right. reflexivity.
    - intros h x F Hx E. rewrite H0; [reflexivity|]. apply one_feature_nil; auto. }
  split.
  - apply (G NMean AverageMeter avg_spec sum_R); auto using avg_rep. intros h x E. apply C71_no_value_no_score. exact E.
  - apply (G NMedian MedianMeter med_spec med_R); auto using med_rep. intros h x E. apply C71_no_value_no_score. exact E.
Qed.
Print Assumptions C133_standard_absolute_deviation.

(** ** RelativeEntropy *)
Theorem C133_relative_entropy : forall Y ceil thr min_val step N W, (1 <= N)%nat -> (1 <= W)%nat -> step <> 0 ->
  never_fails (fun x => length x = 1%nat) (RelativeEntropy (Y := Y) ln ceil thr min_val step N W) RE_init.
Proof.
  intros Y ceil thr min_val step N W HN HW Hs.
  assert (G : forall (h : list (mcall (list R) Y)) x, exists v, number v /\ eval (md_score (RelativeEntropy (Y := Y) ln ceil thr min_val step N W) x) (model_run (RelativeEntropy (Y := Y) ln ceil thr min_val step N W) RE_init h) = Ok v).
  { intros h x. destruct (C72_score_is_0_or_minus_1 Y R _ ln ceil thr min_val step N W h x) as [E|[E|E]]; cbv zeta in E; rewrite E; eexists; (split; [eexists; left; reflexivity|reflexivity]). }
  apply never_from; auto. intros h x y F Hx. destruct x as [|v [|? ?]]; cbn in Hx; try discriminate.
  destruct (re_fit_step Y ceil thr min_val step N W HN HW Hs (univariate h) _ v y (re_run Y ceil thr min_val step N W HN HW Hs h (univariate h) (one_feature Y h F))) as (s' & E & _). unfold eval. rewrite E. reflexivity.
Qed.
Print Assumptions C133_relative_entropy.

(** ** HalfSpaceTrees *)
Theorem C133_half_space_trees : forall Y cast draw mins maxes W T D, length mins = length maxes -> (1 <= length maxes)%nat -> (forall i, (draw i < length maxes)%nat) -> (1 <= W)%nat ->
  exists s0, HST_init (A := R) (Y := Y) cast draw mins maxes W T D IWNone = Ok s0 /\ never_fails (fun x => (length maxes <= length x)%nat) (HalfSpaceTrees (Y := Y) W D) s0.
Proof.
  intros Y cast draw mins maxes W T D HL Hd Hq HW.
  destruct (C53_masses R Y _ cast draw mins maxes W T D [] HL Hd Hq HW (Forall_nil _)) as (s0 & E0 & _). exists s0. split; [exact E0|].
  assert (G : forall (h : list (mcall (list R) Y)) x, Forall (fun x => (length maxes <= length x)%nat) (fitted_instances h) -> (length maxes <= length x)%nat ->
    exists v, number v /\ eval (md_score (HalfSpaceTrees (Y := Y) W D) x) (model_run (HalfSpaceTrees (Y := Y) W D) s0 h) = Ok v).
  { intros h x F Hx. destruct (C54_score Y cast draw mins maxes W T D h x HL Hd Hq HW F Hx) as (s1 & E1 & E). replace s1 with s0 in * by congruence. cbv zeta in E. unfold eval. rewrite E. eexists. split; [eexists; left; reflexivity|reflexivity]. }
  apply never_from; auto. intros h x y F Hx. destruct (C53_masses R Y _ cast draw mins maxes W T D h HL Hd Hq HW F) as (s1 & E1 & _ & _ & E). replace s1 with s0 in * by congruence. apply E. exact Hx.
Qed.
Print Assumptions C133_half_space_trees.

(** ** LODA *)
Theorem C133_loda : forall Y randn perms nb c d, (1 <= nb)%nat -> (1 <= c)%nat ->
  needs_a_fit (Raise AttributeError) (fun x => length x = d) (Loda randn perms nb c : Model (list R) Y R) LODA_init.
Proof.
  intros Y randn perms nb c d Hnb Hc. apply needs_from.
  - reflexivity.
  - intros h x y F Hx. assert (F' : Forall (fun x => length x = d) (fitted_instances h ++ [x])) by (apply Forall_app; split; auto).
    destruct (lo_fit_step Y randn perms nb c d Hnb (fitted_instances h) _ x y F' (lo_run Y randn perms nb c d Hnb h)) as (s' & E & _). unfold eval. rewrite E. reflexivity.
  - intros h x F Hx NE. destruct (exists_last NE) as (xs & xl & E). rewrite E in F. eexists. split; [|apply (C68_score Y randn perms nb c d h xs xl x Hnb Hc E F Hx)]. eexists. right. reflexivity.
  - intros h x F Hx E. destruct (C68_failures Y randn perms nb c d h x Hnb Hc F) as [H _]. rewrite (H E). reflexivity.
Qed.
Print Assumptions C133_loda.

(** ** RSHash: before the first fit score_partial returns None *)
Theorem C133_rshash : forall Y floor decay comps sp w, comps <> [] -> (1 <= w)%nat ->
  needs_a_fit (Ok (Some VNone)) (fits_components comps) (RSHash (Y := Y) (Rpower 2) ln floor decay comps) (RSHash_init sp w).
Proof.
  intros Y floor decay comps sp w HC Hw. apply needs_from.
  - reflexivity.
  - intros h x y F Hx. apply (C74_score Y floor decay comps sp w h x HC Hw F). exact Hx.
  - intros h x F Hx NE. destruct (exists_last NE) as (xs & xl & E). destruct (C74_score Y floor decay comps sp w h x HC Hw F) as (_ & H & _). specialize (H xs xl E). cbv zeta in H. unfold eval. rewrite H. eexists. split; [eexists; left; reflexivity|reflexivity].
  - intros h x F Hx E. destruct (C74_score Y floor decay comps sp w h x HC Hw F) as (H & _). specialize (H E). unfold eval. rewrite H. reflexivity.
Qed.
Print Assumptions C133_rshash.

(** ** xStream: instances of any width *)
Theorem C133_xstream : forall Y mmh3 n density p floor W draws, (1 <= n)%Z -> Streamhash_init 1 n density = Ok p -> (1 <= W)%nat -> chain_draws (Z.to_nat n) draws ->
  never_fails (fun _ => True) (XStream mmh3 p floor (Z.to_nat n) W : Model (list R) Y R) (xstream_new (Z.to_nat n) draws).
Proof.
  intros Y mmh3 n density p floor W draws Hn Hp HW HD.
  assert (G : forall (h : list (mcall (list R) Y)) x, exists v, number v /\ eval (md_score (XStream mmh3 p floor (Z.to_nat n) W : Model (list R) Y R) x) (model_run (XStream mmh3 p floor (Z.to_nat n) W : Model (list R) Y R) (xstream_new (Z.to_nat n) draws) h) = Ok v).
  { intros h x. destruct (C75_score Y mmh3 n density p floor W draws h x Hn Hp HW HD) as (zs & z & dref & delta & mins & _ & _ & _ & _ & _ & E & _). unfold eval. rewrite E. eexists. split; [eexists; right; reflexivity|reflexivity]. }
  apply never_from; auto. intros h x y _ _. destruct (C75_score Y mmh3 n density p floor W draws h x Hn Hp HW HD) as (zs & z & dref & delta & mins & _ & _ & _ & _ & _ & _ & E). apply E.
Qed.
Print Assumptions C133_xstream.

(** ** KNNCAD *)
Theorem C133_knncad : forall Y inverse P, (48 <= P)%nat -> needs_a_fit (Raise AttributeError) (fun x => x <> []) (KNN inverse P : Model (list R) Y R) KNNCAD_init.
Proof.
  intros Y inverse P HP. apply needs_from.
  - reflexivity.
  - intros h x y F Hx. destruct (C66_reference_sets Y inverse P h HP F) as [H _]. apply H. exact Hx.
  - intros h x F Hx NE. destruct (C66_score Y inverse P h x HP F) as (_ & H1 & H2). destruct (le_lt_dec P (length (fitted_instances h))) as [L|L].
    + destruct (H2 L) as [E _]. rewrite E. eexists. split; [eexists; left; reflexivity|reflexivity].
    + rewrite H1; [|split; [destruct (fitted_instances h); [congruence|cbn; lia]|exact L]]. eexists. split; [eexists; left; reflexivity|reflexivity].
  - intros h x F Hx E. destruct (C66_score Y inverse P h x HP F) as (H0 & _). rewrite H0; [reflexivity|]. rewrite E. reflexivity.
Qed.
Print Assumptions C133_knncad.

(** ** KitNet, when every sample of the grace period can be clustered *)
Theorem C133_kitnet : forall A Y (NA : Num A) p n, (2 <= n)%nat -> let FM := match kp_fm p with Some f => f | None => kp_ad p end in
  (forall xs, length xs = S FM -> Forall (fun x => length x = n) xs -> exists t, clustered p n xs t) ->
  needs_a_fit (Raise AttributeError) (fun x => length x = n) (KitNet p : Model (list A) Y A) None.
Proof.
  intros A Y NA p n Hn FM HC.
  assert (K : forall xs, Forall (fun x => length x = n) xs -> kit_ok p n xs). { intros xs F. split; [exact F|]. intros L. change (FM < length xs)%nat in L. change (exists t, clustered p n (firstn (S FM) xs) t). apply HC; [rewrite firstn_length; lia|]. apply Forall_forall. intros x Hx. rewrite Forall_forall in F. apply F. rewrite <- (firstn_skipn (S FM) xs). apply in_or_app. auto. }
  apply needs_from.
  - reflexivity.
  - intros h x y F Hx. apply (C61_fit_never_fails A Y NA p n h x y Hn). apply K. apply Forall_app. split; auto.
  - intros h x F Hx NE. destruct (le_lt_dec (length (fitted_instances h)) FM) as [L|L].
    + destruct (C61_before_the_map A Y NA p n h x Hn (K _ F) Hx) as [_ H]. eexists. split; [|apply H; split; [destruct (fitted_instances h); [congruence|cbn; lia]|exact L]]. eexists. left. reflexivity.
    + destruct (C61_score A Y NA p n h x Hn (K _ F) Hx L) as (v & st0 & _ & _ & E). eexists. split; [|exact E]. eexists. left. reflexivity.
  - intros h x F Hx E. destruct (C61_before_the_map A Y NA p n h x Hn (K _ F) Hx) as [H _]. rewrite H; [reflexivity|]. rewrite E. reflexivity.
Qed.
Print Assumptions C133_kitnet.

(** ** SeasonalESD, when the decomposition of a window does not raise *)
Theorem C133_seasonal_esd : forall Y eps cs CS ppf stl period w m alpha s0, SESD_init period w m alpha = Ok s0 -> 0 <= eps ->
  (forall l, (2 <= length l)%nat -> exists c s, cs l = Ok (c, s) /\ CS l c s) -> (forall x, exists sn, stl x = Ok sn /\ length sn = length x) ->
  never_fails (fun x : list R => length x = 1%nat) (SeasonalESD (Y := Y) eps cs ppf stl) s0.
Proof.
  intros Y eps cs CS ppf stl period w m alpha s0 H0 He Hcs Hstl h o G. apply acceptable_app in G. destruct G as [_ Go]. apply Forall_inv in Go. unfold outcome, eval.
  destruct o as [x y|x|x y]; destruct x as [|v [|? ?]]; cbn in Go; try discriminate.
  - pose proof (se_run Y eps cs ppf stl period w m alpha s0 h H0) as I. cbn [model_call succeeds md_fit SeasonalESD]. destruct (se_fit_step _ _ _ _ _ _ [v] I) as (s' & E & _); rewrite E; reflexivity.
  - destruct (C79_score Y eps cs CS ppf stl period w m alpha s0 h v H0 He Hcs Hstl) as (r & E & _). unfold eval in E. cbn [model_call succeeds]. destruct (md_score _ [v] _) as [q s]. cbn [fst] in *. subst q. exists r. left. reflexivity.
  - destruct (C79_score Y eps cs CS ppf stl period w m alpha s0 h v H0 He Hcs Hstl) as (r & E & _). destruct (C79_preview Y eps cs ppf stl period w m alpha s0 h [v] y H0) as [P _]. rewrite P in E. unfold eval in E. cbn [model_call succeeds].
    destruct (md_fit_score _ [v] y _) as [q s]. cbn [fst] in *. subst q. exists r. left. reflexivity.
Qed.
Print Assumptions C133_seasonal_esd.

(** ** The PyOD wrappers, around a detector that can be trained on any non-empty window and then scores *)
Definition reliable {X Y A} (d : Detector X Y A) : Prop := forall k xs ys, xs <> [] ->
  eval (dt_fit d xs ys) (dt_new d k) = Ok tt /\ forall x, exists a, dt_score d x (exec (dt_fit d xs ys) (dt_new d k)) = Ok a.
(** The labels of a history: given with every fit, or with none. *)
Definition labels_given {X Y} (lab : bool) (h : list (mcall X Y)) : Prop :=
  Forall (fun o => match o with CFit _ y | CFitScore _ y => if lab then y <> None else y = None | CScore _ => True end) h.
Theorem C133_one_fit : forall X Y A (d : Detector X Y A) x0 y0, reliable d -> x0 <> [] ->
  fst (OneFit_init d x0 y0) = Ok tt /\ never_fails (fun _ => True) (OneFitModel d) (snd (OneFit_init d x0 y0)).
Proof.
  intros X Y A d x0 y0 Hd NE. destruct (Hd 0%nat x0 y0 NE) as [HF HS]. split.
  - unfold OneFit_init. unfold eval in HF. destruct (dt_fit d x0 y0 (dt_new d 0)) as [r s]. exact HF.
  - assert (G : forall (h : list (mcall X Y)) x, exists v, number v /\ eval (md_score (OneFitModel d) x) (model_run (OneFitModel d) (snd (OneFit_init d x0 y0)) h) = Ok v).
    { intros h x. rewrite C60_one_fit_scores_frozen. destruct (HS x) as [a E]. rewrite E. eexists. split; [eexists; left; reflexivity|reflexivity]. }
    apply never_from; auto.
Qed.
Print Assumptions C133_one_fit.
Lemma labelled_stream : forall X Y (y0 : Y) lab (h : list (mcall X Y)), labels_given lab h -> exists ps, stream_of lab ps h.
Proof.
  intros X Y y0 lab h H. unfold stream_of. induction H as [|o h Ho H [ps IH]]; [exists []; reflexivity|].
  change (fitted_calls (o :: h)) with (call_fit o ++ fitted_calls h). rewrite IH. destruct o as [x y|x|x y]; cbn [call_fit app].
  - destruct lab; [destruct y as [y|]; [|congruence]; exists ((x, y) :: ps); reflexivity|subst y; exists ((x, y0) :: ps); reflexivity].
  - exists ps. reflexivity.
  - destruct lab; [destruct y as [y|]; [|congruence]; exists ((x, y) :: ps); reflexivity|subst y; exists ((x, y0) :: ps); reflexivity].
Qed.
Lemma stream_length : forall X Y lab ps (h : list (mcall X Y)), stream_of lab ps h -> length (fitted_instances h) = length ps.
Proof. intros X Y lab ps h H. unfold fitted_instances. rewrite H, !map_length. reflexivity. Qed.
(** Without an initial window: score_partial raises AttributeError until something was fitted, and nothing else fails. *)
Theorem C133_reference_window : forall X Y A (d : Detector X Y A) W sl lab (y0 : Y) h o, reliable d -> (2 <= W)%nat -> (1 <= sl)%nat -> labels_given lab (h ++ [o]) ->
  let s0 := snd (RW_init d None None) in let r := outcome (ReferenceWindowModel d W sl) s0 h o in
  match o with
  | CScore _ => match fitted_instances h with [] => r = Raise AttributeError | _ => succeeds o r end
  | _ => succeeds o r
  end.
Proof.
  intros X Y A d W sl lab y0 h o Hd HW Hs G s0 r. subst r.
  assert (F : forall h x y, labels_given lab (h ++ [CFit x y]) -> eval (md_fit (ReferenceWindowModel d W sl) x y) (model_run (ReferenceWindowModel d W sl) s0 h) = Ok tt).
  { clear h o G. intros h x y G. apply Forall_app in G. destruct G as [G Go]. apply Forall_inv in Go. destruct (labelled_stream X Y y0 lab h G) as [ps P].
    assert (L : exists p, fst p = x /\ label lab p = y). { destruct lab; [destruct y as [y|]; [|congruence]; exists (x, y); auto|subst y; exists (x, y0); auto]. }
    destruct L as (p & <- & <-). destruct (C57_fit_outcome X Y A d W sl lab [] h ps p Hs P) as [H _]. destruct (H HW) as [k E]. unfold s0. rewrite E.
    destruct (due_cold _ _ _); auto. cbv zeta. apply Hd. intros Q. apply map_eq_nil in Q. apply (f_equal (@List.length _)) in Q. unfold lastn in Q. rewrite skipn_length, app_length in Q. cbn [length] in Q. lia. }
  assert (T : forall h x, labels_given lab h -> fitted_instances h <> [] -> exists a, eval (md_score (ReferenceWindowModel d W sl) x) (model_run (ReferenceWindowModel d W sl) s0 h) = Ok (VScalar a)).
  { clear h o G. intros h x G NE. destruct (labelled_stream X Y y0 lab h G) as [ps P]. unfold s0. rewrite (C57_cold_start_schedule X Y A d W sl lab None h ps x HW Hs P).
    assert (1 <= length ps)%nat. { rewrite <- (stream_length _ _ _ _ _ P). destruct (fitted_instances h); [congruence|cbn; lia]. }
    assert (I1 : In 1%nat (training_steps (due_cold W sl) (length ps))). { unfold training_steps. apply filter_In. split; [apply in_seq; lia|]. unfold due_cold. destruct (Nat.ltb_spec 1 W); [reflexivity|lia]. }
    destruct (training_steps (due_cold W sl) (length ps)) as [|n l] eqn:ET; [destruct I1|]. cbv zeta.
    assert (IL : In (last (n :: l) 0%nat) (training_steps (due_cold W sl) (length ps))). { rewrite ET. destruct (exists_last (l := n :: l)) as (q & z & Eq); [discriminate|]. rewrite Eq, last_last. apply in_or_app. right. left. reflexivity. }
    apply filter_In in IL. destruct IL as [IL _]. apply in_seq in IL. unfold trained_score. destruct (Hd (length (n :: l) - 1)%nat (map fst (lastn W (firstn (last (n :: l) 0%nat) ps))) (labels_of lab (lastn W (firstn (last (n :: l) 0%nat) ps)))) as [_ HS].
    { intros Q. apply map_eq_nil in Q. apply (f_equal (@List.length _)) in Q. unfold lastn in Q. rewrite skipn_length, firstn_length in Q. cbn [length] in Q. lia. }
    destruct (HS x) as [a E]. exists a. rewrite E. reflexivity. }
  unfold outcome. destruct o as [x y|x|x y]; cbn [model_call succeeds].
  - pose proof (F h x y G) as E. unfold eval in *. destruct (md_fit _ x y _) as [q s]. cbn [fst] in *. subst q. reflexivity.
  - apply Forall_app in G. destruct G as [G _]. destruct (fitted_instances h) as [|x1 xs] eqn:E.
    + destruct (labelled_stream X Y y0 lab h G) as [ps P]. assert (length ps = 0%nat) by (rewrite <- (stream_length _ _ _ _ _ P), E; reflexivity).
      pose proof (C57_cold_start_schedule X Y A d W sl lab None h ps x HW Hs P) as C. rewrite H in C. cbn [training_steps seq filter] in C. unfold eval in *. fold s0 in C. destruct (md_score _ x _) as [q s]. cbn [fst] in *. subst q. reflexivity.
    + destruct (T h x G) as [a Ea]; [rewrite E; discriminate|]. unfold eval in *. destruct (md_score _ x _) as [q s]. cbn [fst] in *. subst q. exists a. left. reflexivity.
  - assert (G' : labels_given lab (h ++ [CFit x y])). { apply Forall_app in G. destruct G as [G Go]. apply Forall_app. split; auto. apply Forall_inv in Go. repeat constructor. exact Go. }
    pose proof (F h x y G') as E. destruct (T (h ++ [CFit x y]) x G') as [a Ea]. { rewrite fitted_instances_app. cbn. destruct (fitted_instances h); discriminate. }
    rewrite run_snoc in Ea. unfold exec in Ea. cbn [model_call] in Ea. change (md_fit_score (ReferenceWindowModel d W sl) x y) with (md_fit (ReferenceWindowModel d W sl) x y ;;; md_score (ReferenceWindowModel d W sl) x). unfold bind, eval in *.
    destruct (md_fit _ x y _) as [q s]. cbn [fst snd] in *. subst q. destruct (md_score _ x s) as [q s']. cbn [fst] in *. subst q. exists a. left. reflexivity.
Qed.
Print Assumptions C133_reference_window.

(** ** PerfectModel: a call of fit_partial fails exactly without a label, and a call of score_partial exactly when no label is left *)
Definition after_call {X Y} (l : list Y) (o : mcall X Y) : list Y :=
  match o with CFit _ (Some y) => l ++ [y] | CFitScore _ (Some y) => tl (l ++ [y]) | CScore _ => tl l | _ => l end.
Definition labels_left {X Y} (h : list (mcall X Y)) : list Y := fold_left after_call h [].
Theorem C133_perfect_model : forall X Y (h : list (mcall X Y)) o, outcome PerfectModel [] h o =
  match o with
  | CFit _ None | CFitScore _ None => Raise ValueError
  | CFit _ (Some _) => Ok None
  | CScore _ => match labels_left h with [] => Raise IndexError | y :: _ => Ok (Some (VScalar y)) end
  | CFitScore _ (Some y) => Ok (Some (VScalar (hd y (labels_left h))))
  end.
Proof.
  intros X Y h o.
  assert (E : model_run (PerfectModel (X := X) (Y := Y)) [] h = labels_left h).
  { unfold labels_left, model_run. generalize (@nil Y). induction h as [|c h IH]; intros l; cbn [fold_left]; auto. rewrite <- IH. f_equal.
    unfold after_call. destruct c as [x [y|]|x|x [y|]]; try reflexivity; unfold model_do, exec, PerfectModel, plain_model, default_fit_score; cbn [model_call md_fit md_score md_fit_score]; unfold bind, gets, lift, modify, ret, py_index; [destruct l; reflexivity|].
    destruct l; reflexivity. }
  unfold outcome. rewrite E. generalize (labels_left h). intros l. destruct o as [x [y|]|x|x [y|]]; try reflexivity; unfold eval, PerfectModel, plain_model, default_fit_score; cbn [model_call md_fit md_score md_fit_score]; unfold bind, gets, lift, modify, ret, py_index; destruct l; reflexivity.
Qed.
Print Assumptions C133_perfect_model.

(** ** Whole streams: BaseModel.fit_score on any number of acceptable rows returns one score per row *)
Theorem C133_whole_stream : forall X Y A (good : X -> Prop) (m : Model X Y A) s0 xs (ys : option (list Y)), never_fails good m s0 \/ (exists r, needs_a_fit r good m s0) -> Forall good xs ->
  match ys with Some l => length l = length xs | None => True end ->
  exists scores, eval (BaseModel_fit_score m xs ys) s0 = Ok (map FinV scores) /\ length scores = length xs.
Proof.
  intros X Y A good m s0 xs ys HM HX HY.
  assert (ST : forall h x y, acceptable good (h ++ [CFitScore x y]) -> succeeds (CFitScore x y) (outcome m s0 h (CFitScore x y))). { intros h x y G. destruct HM as [HM|[r HM]]; apply (HM h (CFitScore x y) G). }
  assert (L : forall ps h, acceptable good h -> Forall good (map fst ps) -> exists scores,
    fst (mapM (fun p : X * option Y => v <- md_fit_score m (fst p) (snd p) ;; lift (store v)) ps (model_run m s0 h)) = Ok (map FinV scores) /\ length scores = length ps).
  { induction ps as [|[x y] ps IH]; intros h Gh Gx; [exists []; split; reflexivity|]. cbn [map fst] in Gx. inversion Gx as [|? ? Hx Gx']; subst.
    assert (Gs : acceptable good (h ++ [CFitScore x y])) by (apply acceptable_app; split; auto; repeat constructor; exact Hx).
    destruct (IH (h ++ [CFitScore x y]) Gs Gx') as (sc & E & Ls). destruct (ST h x y Gs) as (a & V). unfold outcome, eval in V. rewrite run_snoc in E. unfold exec in E. cbn [model_call] in V, E. cbn [mapM fst snd]. unfold bind at 1. unfold bind at 1.
    destruct (md_fit_score m x y (model_run m s0 h)) as [q s]. cbn [fst snd] in *. destruct q as [v|e]; [|cbn [rmap] in V; destruct V; discriminate].
    assert (EV : store v = Ok (FinV a)). { destruct V as [V|V]; cbn [rmap] in V; injection V as ->; reflexivity. }
    unfold lift. rewrite EV. unfold bind. destruct (mapM _ ps s) as [q' s']. cbn [fst] in E. subst q'. exists (a :: sc). split; [reflexivity|]. cbn. lia. }
  unfold BaseModel_fit_score, eval. destruct ys as [l|].
  - rewrite map_gen_some by lia. destruct (L (map (fun p => (fst p, Some (snd p))) (combine xs l)) []) as (sc & E & Ls).
    + constructor.
    + rewrite map_map. cbn [fst]. clear - HX HY. revert l HY. induction xs as [|x xs IH]; intros [|y l] HY; cbn in *; try constructor; inversion HX; auto.
    + rewrite mapM_map in E. exists sc. split; [exact E|]. rewrite Ls, map_length, combine_length. lia.
  - rewrite map_gen_none. destruct (L (map (fun x => (x, None)) xs) []) as (sc & E & Ls).
    + constructor.
    + rewrite map_map. cbn [fst]. rewrite map_id. exact HX.
    + rewrite mapM_map in E. exists sc. split; [exact E|]. rewrite Ls, map_length. lia.
Qed.
Print Assumptions C133_whole_stream.
(** ** Concrete cases *)
Example C133_deviation_ex : let m := StandardAbsoluteDeviation (Y := unit) (1 / 10) true MedianMeter in
  outcome m (SAD_init _) [CScore [4]] (CScore [2]) = Raise IndexError /\ (exists a, outcome m (SAD_init _) [CScore [4]; CFit [3] None] (CScore [2]) = Ok (Some (VArray [a]))) /\
  exists scores, eval (BaseModel_fit_score m [[1]; [5]; [2]] None) (SAD_init _) = Ok (map FinV scores) /\ length scores = 3%nat.
Proof.
  intros m. assert (N : needs_a_fit (Raise IndexError) (fun x => length x = 1%nat) m (SAD_init MedianMeter)) by (apply C133_standard_absolute_deviation; lra). split; [|split].
  - assert (G : acceptable (fun x : list R => length x = 1%nat) ([CScore [4]] ++ [CScore (Y := unit) [2]])) by repeat constructor. exact (N _ _ G).
  - assert (G : acceptable (fun x : list R => length x = 1%nat) ([CScore [4]; CFit [3] None] ++ [CScore (Y := unit) [2]])) by repeat constructor. pose proof (N _ _ G) as (a & [E|E]); [|exists a; exact E].
    exfalso. unfold outcome, eval in E. cbn [model_call] in E. cbn [md_score m StandardAbsoluteDeviation plain_model] in E. unfold bind at 1 in E. destruct (zoom _ _ _ _) as [[c|e] s] in E; [|discriminate]. unfold bind, ret in E. destruct (zoom _ _ _ _) as [[c'|e] s'] in E; discriminate.
  - apply (C133_whole_stream _ _ _ (fun x => length x = 1%nat)); [right; eauto|repeat constructor|exact I].
Qed.
Example C133_perfect_ex : outcome PerfectModel [] [CFit tt (Some 4%nat); CFit tt (Some 6%nat); CScore tt; CFitScore tt None] (CScore tt) = Ok (Some (VScalar 6%nat)) /\
  outcome PerfectModel [] [CFit tt (Some 4%nat); CScore tt] (CScore tt) = Raise IndexError.
Proof. split; reflexivity. Qed.
Example C133_hypotheses_ex :
  reliable (mkDetector R unit R (list R) (fun _ => []) (fun xs _ => modify (fun _ => xs)) (fun x s => Ok (x - hd 0 s))) /\
  (let p := mkKP exp (fun _ => 0) (fun n => n) (fun n _ => Ok (Node (Leaf 0) (Leaf 1))) 0 0 0 0 0 2%Z (Some 1%nat) 1%nat in
   forall xs, length xs = 2%nat -> Forall (fun x => length x = 2%nat) xs -> exists t, clustered p 2 xs t) /\
  fits_components [mkComp [0%nat; 1%nat] [1 / 2; 1 / 3] (1 / 2)] [4; 5] /\ labels_given true [CFit 1 (Some tt); CScore 2; CFitScore 3 (Some tt)].
Proof.
  split; [|split; [|split]].
  - intros k xs ys _. split; [reflexivity|]. intros x. eexists. reflexivity.
  - intros p xs _ _. eexists. split; [reflexivity|]. repeat constructor.
  - repeat constructor.
  - repeat constructor; discriminate.
Qed.
