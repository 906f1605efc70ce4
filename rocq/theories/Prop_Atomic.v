(** * C97: a rejected call leaves no trace. *)
From Coq Require Import List ZArith Lia Bool Arith Permutation String Floats Reals Lra.
From Verif Require Import Base Num Spec Model_Stats Model_Utils Model_Core Model_Post Model_Trans Model_Simple Model_Integrations Model_HST Model_Sketch Model_Loda Model_KNN Model_XStream Model_SESD Model_KitNET Model_Inqmad P_Models P_Stats P_Lists Prop_Stats Prop_Simple Prop_Hyper Prop_Inqmad.
Import ListNotations.
Open Scope nat_scope.
Local Notation length := List.length.

(** ** Specification *)
(** After the two histories every continuation answers the same. *)
Definition same_after {X Y A} (m : Model X Y A) (s0 : md_state m) (h1 h2 : list (mcall X Y)) : Prop :=
  forall t c, eval (model_call m c) (model_run m s0 (h1 ++ t)) = eval (model_call m c) (model_run m s0 (h2 ++ t)).
Definition instance {X Y} (o : mcall X Y) : X := match o with CFit x _ => x | CScore x => x | CFitScore x _ => x end.
(** A call that raises, after any history, might as well not have been made; fit_score_partial, which is two calls, may
    raise in the second one and then counts as the first one.  [ok] restricts the instance of the call that raises. *)
Definition no_trace_for {X Y A} (ok : X -> Prop) (m : Model X Y A) (s0 : md_state m) : Prop :=
  forall h o e, ok (instance o) -> eval (model_call m o) (model_run m s0 h) = Raise e ->
  match o with
  | CFitScore x y => same_after m s0 (h ++ [o]) h \/ same_after m s0 (h ++ [o]) (h ++ [CFit x y])
  | _ => same_after m s0 (h ++ [o]) h
  end.
Definition no_trace {X Y A} := @no_trace_for X Y A (fun _ => True).

(** ** Lemmas *)
Definition same_from {X Y A} (m : Model X Y A) (s s' : md_state m) : Prop := forall t c, eval (model_call m c) (model_run m s t) = eval (model_call m c) (model_run m s' t).
Lemma same_after_from : forall X Y A (m : Model X Y A) s0 h1 h2, same_from m (model_run m s0 h1) (model_run m s0 h2) -> same_after m s0 h1 h2.
Proof. intros X Y A m s0 h1 h2 H t c. rewrite !model_run_app. apply H. Qed.
Lemma silent_same : forall X Y A (m : Model X Y A), (forall s, scoring_is_silent m s) -> forall s x, same_from m (model_do m s (CScore x)) s.
Proof.
  intros X Y A m H s x t c. transitivity (eval (model_call m c) (model_run m s (flat_map quiet t))); [|symmetry; apply H]. exact (H s (CScore x :: t) c).
Qed.
Lemma run_snoc : forall X Y A (m : Model X Y A) s0 h o, model_run m s0 (h ++ [o]) = model_do m (model_run m s0 h) o.
Proof. intros. rewrite model_run_app. reflexivity. Qed.
(** Detectors whose scores are silent, where a fit that raises has changed nothing. *)
Lemma atomic_plain : forall X Y A S (fit : X -> option Y -> M S unit) (score : X -> M S (pyval A)) (ok : X -> Prop) s0,
  (forall s, scoring_is_silent (plain_model S fit score) s) ->
  (forall h x y e, ok x -> eval (fit x y) (model_run (plain_model S fit score) s0 h) = Raise e -> exec (fit x y) (model_run (plain_model S fit score) s0 h) = model_run (plain_model S fit score) s0 h) ->
  no_trace_for ok (plain_model S fit score) s0.
Proof.
  intros X Y A S fit score ok s0 HS HF h o e Ho E. set (m := plain_model S fit score) in *. set (s := model_run m s0 h) in *. destruct o as [x y|x|x y]; cbn [instance] in Ho.
  - apply same_after_from. rewrite run_snoc. fold s. assert (Q : model_do m s (CFit x y) = s). { specialize (HF h x y e Ho). fold m s in HF. unfold model_do, exec, eval in *. cbn [model_call md_fit plain_model m] in *. destruct (fit x y s) as [[u|e'] s1]; cbn [fst snd rmap] in *; [discriminate|]. apply HF. congruence. } rewrite Q. intros t c. reflexivity.
  - apply same_after_from. rewrite run_snoc. fold s. apply silent_same. exact HS.
  - unfold eval in E. cbn [model_call md_fit_score plain_model m] in E. unfold default_fit_score, bind in E. destruct (fit x y s) as [[u|e'] s1] eqn:F.
    + right. apply same_after_from. rewrite !run_snoc. fold s. pose proof (silent_same _ _ _ m HS s1 x) as K. intros t c. specialize (K t c). unfold model_do, exec in *. cbn [model_call md_fit md_score md_fit_score plain_model m] in *. unfold default_fit_score, bind. rewrite F. destruct (score x s1). cbn [snd] in *. exact K.
    + left. apply same_after_from. rewrite run_snoc. fold s. assert (Q : model_do m s (CFitScore x y) = s). { specialize (HF h x y e' Ho). fold m s in HF. unfold model_do, exec, eval in *. cbn [model_call md_fit_score plain_model m] in *. unfold default_fit_score, bind. rewrite F in *. cbn [fst snd] in *. auto. } rewrite Q. intros t c. reflexivity.
Qed.
Lemma the_value_fails : forall (x : list R) e, the_value x = Raise e -> Datatypes.length x <> 1.
Proof. intros [|v [|w x]] e H; cbn in *; try discriminate; lia. Qed.
Lemma atomic_mad : forall Y eps b absolute, no_trace (MedianAbsoluteDeviation (Y := Y) (A := R) eps b absolute) MAD_init.
Proof.
  intros Y eps b ab. apply atomic_plain; [intros; apply silent_mad|]. intros h x y e _ E. pose proof (mad_run Y eps b ab h) as I. change (plain_model (madst R) _ _) with (MedianAbsoluteDeviation (Y := Y) eps b ab) in *. set (s := model_run _ _ h) in *.
  destruct (the_value x) as [v|e'] eqn:V.
  - exfalso. destruct x as [|w [|]]; try discriminate. injection V as ->. destruct (mad_fit_step Y eps b ab _ s v y I) as (s' & F & _). change (fst (md_fit (MedianAbsoluteDeviation (Y := Y) eps b ab) [v] y s) = Raise e) in E. rewrite F in E. discriminate.
  - reflexivity.
Qed.
Lemma atomic_sad : forall Y eps absolute n m, SAD_statistic n = Ok m -> no_trace (StandardAbsoluteDeviation (Y := Y) (A := R) eps absolute m) (SAD_init m).
Proof.
  intros Y eps ab n m Hn. apply atomic_plain; [intros; eapply silent_sad; eauto|]. intros h x y e _ E. revert E. generalize (model_run (plain_model (varst R * mt_state m) (fun x _ => v <- lift (the_value x) ;; zoom fst (fun t s => (t, snd s)) (mt_update VarianceMeter v) ;;; zoom snd (fun t s => (fst s, t)) (mt_update m v)) (fun x => c <- zoom snd (fun t s => (fst s, t)) (mt_get m) ;; q <- zoom fst (fun t s => (t, snd s)) (mt_get VarianceMeter) ;; ret (deviation_score eps ab x c (nsqrt q)))) (SAD_init m) h). intros s E.
  unfold exec, eval, bind, lift in *. destruct (the_value x) as [v|e']; [|reflexivity]. exfalso. destruct n; inversion Hn; subst m; destruct s as [[[a b] [c d] k] t]; cbn in E; discriminate.
Qed.
(** Detectors where a fit or a score that raises has changed nothing at all. *)
Lemma atomic_exact : forall X Y A S (fit : X -> option Y -> M S unit) (score : X -> M S (pyval A)) (ok : X -> Prop) s0,
  (forall x y s e, ok x -> eval (fit x y) s = Raise e -> exec (fit x y) s = s) -> (forall x s e, eval (score x) s = Raise e -> exec (score x) s = s) ->
  no_trace_for ok (plain_model S fit score) s0.
Proof.
  intros X Y A S fit score ok s0 HF HS h o e Ho E. set (m := plain_model S fit score) in *. set (s := model_run m s0 h) in *. destruct o as [x y|x|x y]; cbn [instance] in Ho.
  - apply same_after_from. rewrite run_snoc. fold s. assert (Q : model_do m s (CFit x y) = s). { specialize (HF x y s e Ho). unfold model_do, exec, eval in *. cbn [model_call md_fit plain_model m] in *. destruct (fit x y s) as [[u|e'] s1]; cbn [fst snd rmap] in *; [discriminate|]. apply HF. congruence. } rewrite Q. intros t c. reflexivity.
  - apply same_after_from. rewrite run_snoc. fold s. assert (Q : model_do m s (CScore x) = s). { specialize (HS x s e). unfold model_do, exec, eval in *. cbn [model_call md_score plain_model m] in *. destruct (score x s) as [[u|e'] s1]; cbn [fst snd rmap] in *; [discriminate|]. apply HS. congruence. } rewrite Q. intros t c. reflexivity.
  - unfold eval in E. cbn [model_call md_fit_score plain_model m] in E. unfold default_fit_score, bind in E. destruct (fit x y s) as [[u|e'] s1] eqn:F.
    + right. apply same_after_from. rewrite !run_snoc. fold s. assert (Q : model_do m s (CFitScore x y) = model_do m s (CFit x y)). { specialize (HS x s1 e). unfold model_do, exec, eval in *. cbn [model_call md_fit md_fit_score plain_model m] in *. unfold default_fit_score, bind. rewrite F in *. destruct (score x s1) as [[v|e'] s2]; cbn [fst snd rmap] in *; [discriminate|]. apply HS. congruence. } rewrite Q. intros t c. reflexivity.
    + left. apply same_after_from. rewrite run_snoc. fold s. assert (Q : model_do m s (CFitScore x y) = s). { specialize (HF x y s e' Ho). unfold model_do, exec, eval in *. cbn [model_call md_fit_score plain_model m] in *. unfold default_fit_score, bind. rewrite F in *. cbn [fst snd] in *. auto. } rewrite Q. intros t c. reflexivity.
Qed.
Lemma iq_batch_in : forall X b (rows r : list X), In r (iq_batches b rows) -> incl r rows.
Proof.
  intros X b rows r H. unfold iq_batches in H. apply in_map_iff in H. destruct H as (i & <- & _). intros x Hx. apply In_firstn in Hx. apply In_skipn in Hx. exact Hx.
Qed.
Lemma atomic_inq : forall Y A (NA : Num A) p b, no_trace_for (fun rows : list (list A) => forall r, In r rows -> length r = length (hd [] rows)) (Inqmad (Y := Y) p b) Inq_init.
Proof.
  intros Y A NA p b. apply atomic_exact.
  - intros rows y s e W E. unfold iq_initial_train in *. unfold exec, eval in *. unfold bind at 1 in E. unfold bind at 1. destruct (Nat.eqb_spec b 0) as [B|B]; [reflexivity|]. cbn [ret] in *.
    destruct rows as [|r0 rows]; [cbn in E|]. { unfold iq_batches in *. cbn [length] in *. rewrite Nat.div_0_l, Nat.mod_0_l in * by auto. cbn in E. discriminate. }
    cbn [hd] in W. destruct (Nat.eqb_spec (length r0) (rf_input p)) as [L|L].
    + exfalso. assert (G : forall bs s, (forall r, In r bs -> incl r (r0 :: rows)) -> exists s', iterM (fun batch => s <- gets (fun s => s) ;; r <- lift (iq_train p (nofZ 1) (iq_rho s) batch) ;; modify (fun s => mkInq (Some r) (iq_num s) (iq_cache s))) bs s = (Ok tt, s')).
      { clear E. induction bs as [|r bs IH]; intros t Hi; [eexists; reflexivity|]. cbn [iterM]. unfold bind, gets, lift. assert (T : exists v, iq_train p (nofZ 1) (iq_rho t) r = Ok v).
        { unfold iq_train. assert (K : forall l, incl l (r0 :: rows) -> exists us, res_map (rff_call p) l = Ok us). { induction l as [|x l IHl]; intros Hl; [eexists; reflexivity|]. cbn [res_map]. unfold rff_call at 1, rff_compute. rewrite (W x), L, Nat.eqb_refl by (apply Hl; left; auto). cbn [rbind]. destruct IHl as [us ->]; [intros z Hz; apply Hl; right; auto|]. eexists. reflexivity. }
          destruct (K r) as [us ->]; [apply Hi; left; auto|]. eexists. reflexivity. } destruct T as [v ->]. unfold modify. apply IH. intros r' Hr'. apply Hi. right. exact Hr'. }
      destruct (G (iq_batches b (r0 :: rows)) s (fun r Hr => iq_batch_in _ _ _ _ Hr)) as [s' G']. unfold bind in E at 1. rewrite G' in E. discriminate.
    + destruct (batches_last _ b (r0 :: rows) ltac:(lia) ltac:(congruence)) as (bs & EB & FB & NL). assert (H0 : exists r1 bs', iq_batches b (r0 :: rows) = r1 :: bs' /\ r1 <> []). { rewrite EB. destruct bs as [|r1 bs']; cbn [app]; eexists; eexists; split; eauto. inversion FB; tauto. }
      destruct H0 as (r1 & bs' & EB' & N1). pose proof (iq_batch_in _ b (r0 :: rows) r1) as I1. rewrite EB' in *. specialize (I1 (or_introl eq_refl)). unfold bind at 1. cbn [iterM]. unfold bind at 1. cbn [gets]. unfold bind, lift. destruct r1 as [|x r1]; [congruence|].
      assert (F : iq_train p (nofZ 1) (iq_rho s) (x :: r1) = Raise TypeError). { unfold iq_train. cbn [res_map]. unfold rff_call at 1, rff_compute. rewrite (W x) by (apply I1; left; auto). destruct (Nat.eqb_spec (length r0) (rf_input p)); [congruence|]. reflexivity. }
      unfold gets at 1. cbv beta iota. rewrite F. reflexivity.
  - intros x s e E. unfold iq_predict, exec, eval, bind, gets, lift, ret, raise, modify in *. destruct (find _ _) as [[? [? ?]]|]; auto. destruct (b =? 0)%nat; auto. destruct (iq_rho s); auto. destruct (iq_predict_with _ _ _ _); auto. discriminate.
Qed.
Lemma atomic_sesd : forall Y A (NA : Num A) eps cs ppf stl s, no_trace (SeasonalESD (Y := Y) (A := A) eps cs ppf stl) s.
Proof.
  intros Y A NA eps cs ppf stl s0 h o e _ E. set (m := SeasonalESD (Y := Y) eps cs ppf stl) in *. set (s := model_run m s0 h) in *.
  assert (FT : forall x e' s1, se_fit x s = (Raise e', s1) -> s1 = s). { intros x e' s1 H. unfold se_fit, bind, lift in H. destruct (se_value x); [|congruence]. unfold zoom, Window_update, bind, modify, gets in H. cbn in H. destruct (_ <? _)%Z; cbn in H; discriminate. }
  destruct o as [x y|x|x y]; unfold eval in E; cbn [model_call md_fit md_score md_fit_score SeasonalESD m] in E.
  - apply same_after_from. rewrite run_snoc. fold s. assert (Q : model_do m s (CFit x y) = s). { unfold model_do, exec. cbn [model_call md_fit SeasonalESD m]. destruct (se_fit x s) as [[u|e'] s1] eqn:F; [cbn in E; discriminate|]. cbn [snd]. eapply FT. exact F. } rewrite Q. intros t c. reflexivity.
  - apply same_after_from. rewrite run_snoc. fold s. assert (Q : model_do m s (CScore x) = s). { unfold model_do, exec. cbn [model_call md_score SeasonalESD m]. unfold bind, gets, lift. destruct (se_value x); auto. destruct (se_score_window _ _ _ _ _ _); reflexivity. } rewrite Q. intros t c. reflexivity.
  - unfold bind at 1 in E. destruct (se_fit x s) as [[u|e'] s1] eqn:F.
    + right. apply same_after_from. rewrite !run_snoc. fold s. assert (Q : model_do m s (CFitScore x y) = model_do m s (CFit x y)). { unfold model_do, exec. cbn [model_call md_fit md_fit_score SeasonalESD m]. unfold bind at 1. rewrite F. unfold bind, gets, lift. destruct (se_score_window _ _ _ _ _ _); reflexivity. } rewrite Q. intros t c. reflexivity.
    + left. apply same_after_from. rewrite run_snoc. fold s. assert (Q : model_do m s (CFitScore x y) = s). { unfold model_do, exec. cbn [model_call md_fit_score SeasonalESD m]. unfold bind at 1. rewrite F. cbn [snd]. eapply FT. exact F. } rewrite Q. intros t c. reflexivity.
Qed.

(** ** C97 *)
Theorem C97_rejected_calls_leave_no_trace :
  (forall X Y (s : list Y), no_trace (PerfectModel (X := X) (Y := Y)) s) /\
  (forall Y A (NA : Num A) radius s, no_trace (ExactStorm (Y := Y) (A := A) radius) s) /\
  (forall Y eps b absolute, no_trace (MedianAbsoluteDeviation (Y := Y) (A := R) eps b absolute) MAD_init) /\
  (forall Y eps absolute n m, SAD_statistic n = Ok m -> no_trace (StandardAbsoluteDeviation (Y := Y) (A := R) eps absolute m) (SAD_init m)) /\
  (forall X Y A (d : Detector X Y A) s, no_trace (OneFitModel d) s) /\
  (forall Y A (NA : Num A) eps cs ppf stl s, no_trace (SeasonalESD (Y := Y) (A := A) eps cs ppf stl) s) /\
  (forall Y A (NA : Num A) p b, no_trace_for (fun rows : list (list A) => forall r, In r rows -> length r = length (hd [] rows)) (Inqmad (Y := Y) p b) Inq_init).
Proof.
  split; [|split; [|split; [|split; [|split; [|split]]]]]; intros.
  - apply atomic_exact. { intros x [y|] s1 e _ E; [discriminate|reflexivity]. } intros x s1 e E. unfold exec, eval, bind, gets, lift, modify, ret in *. destruct (py_index s1 0); [discriminate|reflexivity].
  - apply atomic_exact. { intros x y s1 e _ E. unfold eval, Window_update, bind, modify, gets in E. cbn in E. discriminate. } intros x s1 e E. run_pure.
  - apply atomic_mad.
  - eapply atomic_sad; eauto.
  - apply atomic_exact. { intros; discriminate. } intros x s1 e E. run_pure.
  - apply atomic_sesd.
  - apply atomic_inq.
Qed.
Print Assumptions C97_rejected_calls_leave_no_trace.

(** RelativeEntropy: an instance that is not a single number is remembered: every fit_partial raises while it is among the last
    window_size instances, and works again afterwards. *)
Definition single {A} (x : list A) : bool := (length x =? 1)%nat.
Theorem C97_relative_entropy_blocked : forall Y A (NA : Num A) log ceil thr min_val step num_bins W (h : list (mcall (list A) Y)) x y, oeqb step n0 = false -> 1 <= W ->
  eval (md_fit (RelativeEntropy log ceil thr min_val step num_bins W) x y) (model_run (RelativeEntropy log ceil thr min_val step num_bins W) RE_init h) =
  if (length (fitted_instances h) + 1 <? W)%nat then Ok tt else if forallb single (lastn W (fitted_instances h ++ [x])) then Ok tt else Raise ValueError.
Proof.
  intros Y A NA log ceil thr min_val step num_bins W h x y Hs HW. set (m := RelativeEntropy log ceil thr min_val step num_bins W).
  assert (U : re_util (model_run m RE_init h) = fitted_instances h).
  { refine (plain_run_all _ _ _ _ _ _ (fun l (s : rest A) => re_util s = l) _ _ h _ _); [| |reflexivity].
    - intros l s x0 y0 <-. unfold exec, bind, modify, gets, lift, ret. cbn [re_util re_m]. destruct (W <=? _)%nat; [|reflexivity]. destruct (res_map _ _); [|reflexivity]. destruct (re_m s =? 0)%nat; reflexivity.
    - intros l s x0 <-. unfold exec, bind, gets, ret. destruct (re_hat s); auto. destruct (_ && _)%bool; auto. }
  set (s := model_run m RE_init h) in *. clearbody s. unfold eval. cbn [md_fit RelativeEntropy plain_model m]. unfold bind, modify, gets, lift, ret. cbn [re_util re_m]. rewrite U, app_length. cbn [length].
  destruct (Nat.ltb_spec (length (fitted_instances h) + 1) W) as [L|L]; destruct (Nat.leb_spec W (length (fitted_instances h) + 1)) as [L'|L']; try lia; [reflexivity|].
  replace (py_last W (fitted_instances h ++ [x])) with (lastn W (fitted_instances h ++ [x])) by (unfold py_last, lastn; destruct (Nat.eqb_spec W 0); [lia|reflexivity]).
  assert (Q : forall l, exists zs, res_map (re_quantize ceil min_val step) l = if forallb single l then Ok zs else Raise ValueError).
  { clear - Hs. induction l as [|v l [zs IH]]; [exists []; reflexivity|]. cbn [res_map forallb]. destruct v as [|a [|a' v]]; cbn [re_quantize single length Nat.eqb andb rbind]; try (exists []; reflexivity). unfold pydiv. rewrite Hs. cbn [rmap rbind]. rewrite IH. destruct (forallb single l); [eexists; cbv; reflexivity|exists []; reflexivity]. }
  destruct (Q (lastn W (fitted_instances h ++ [x]))) as [zs ->]. destruct (forallb single _); [|reflexivity]. destruct (re_m s =? 0)%nat; reflexivity.
Qed.
Print Assumptions C97_relative_entropy_blocked.
(** ExactStorm accepts an instance of any length; score_partial raises exactly while an instance of another length is stored. *)
Theorem C97_exact_storm_blocked : forall Y A (NA : Num A) radius w (h : list (mcall (list A) Y)) x e,
  eval (md_score (ExactStorm radius) x) (model_run (ExactStorm radius) (Window_init w) h) = Raise e <->
  e = ValueError /\ exists r, In r (removelast (lastn (Z.to_nat w) (fitted_instances h))) /\ length r <> length x.
Proof.
  intros Y A NA radius w h x e.
  assert (R : wd_size (model_run (ExactStorm radius) (Window_init w) h) = w /\ wd_items (model_run (ExactStorm radius) (Window_init w) h) = lastn (Z.to_nat w) (fitted_instances h)).
  { refine (plain_run_all _ _ _ _ _ _ (fun l (s : window (list A)) => wd_size s = w /\ wd_items s = lastn (Z.to_nat w) l) _ _ h _ _).
    - intros l s y v [E1 E2]. destruct (P_Utils.window_update_step _ y s l) as (s' & E & S1 & I1); [rewrite E1; auto|]. unfold exec. rewrite E. cbn [snd]. rewrite S1, I1, E1. auto.
    - intros l s y R0. unfold exec, bind, Window_get, gets, lift, ret. destruct (storm_score _ _ _); auto.
    - split; auto. }
  destruct R as [_ R]. unfold eval. cbn [md_score ExactStorm plain_model]. unfold bind, Window_get, gets, lift, ret. rewrite R. set (st := removelast (lastn (Z.to_nat w) (fitted_instances h))). unfold storm_score. fold st.
  destruct (Nat.eqb_spec (length st) 0) as [Z0|NZ].
  - split; [discriminate|]. intros (_ & r & Hr & _). destruct st; [contradiction|discriminate].
  - destruct (forallb (fun r => length r =? length x) st) eqn:F; cbn [fst].
    + split; [discriminate|]. intros (_ & r & Hr & N). rewrite forallb_forall in F. specialize (F r Hr). apply Nat.eqb_eq in F. congruence.
    + split; [|intros [-> _]; reflexivity]. intros E. split; [congruence|]. clear - F. induction st as [|r st IH]; [discriminate|]. cbn [forallb] in F. destruct (Nat.eqb_spec (length r) (length x)) as [L|L]; [|exists r; split; [left; auto|exact L]]. cbn [andb] in F. destruct (IH F) as (r' & Hr' & N). exists r'. split; [right; auto|exact N].
Qed.
Print Assumptions C97_exact_storm_blocked.

(** ** Refutations: what a rejected instance leaves behind *)
Local Open Scope float_scope.
(** HalfSpaceTrees, 2 features: an instance with one feature is rejected and still changes the score of others. *)
Definition hst_s0 : hstst float := match HST_init (Y := unit) (fun a => a) (fun i => i mod 2) [0; 0] [4; 4] 2 1 2 IWNone with Ok s => s | Raise _ => mkHST [] true 0 end.
Theorem C97_half_space_trees_refuted : let m := HalfSpaceTrees (Y := unit) 2 2 in
  eval (model_call m (CFit [1] None)) hst_s0 = Raise IndexError /\
  eval (model_call m (CScore [1; 1])) hst_s0 = Ok (Some (VScalar (-0))) /\
  eval (model_call m (CScore [1; 1])) (model_run m hst_s0 [CFit [1] None]) = Ok (Some (VScalar (-3))) /\ ~ no_trace m hst_s0.
Proof.
  intros m. assert (E1 : eval (model_call m (CFit [1] None)) hst_s0 = Raise IndexError) by (vm_compute; reflexivity).
  assert (E2 : eval (model_call m (CScore [1; 1])) hst_s0 = Ok (Some (VScalar (-0)))) by (vm_compute; reflexivity).
  assert (E3 : eval (model_call m (CScore [1; 1])) (model_run m hst_s0 [CFit [1] None]) = Ok (Some (VScalar (-3)))) by (vm_compute; reflexivity).
  split; [exact E1|]. split; [exact E2|]. split; [exact E3|]. intros N. specialize (N [] (CFit [1] None) IndexError I E1 [] (CScore [1; 1])). cbn [app model_run fold_left] in N. change (model_do m hst_s0 (CFit [1] None)) with (model_run m hst_s0 [CFit [1] None]) in N. rewrite E2, E3 in N.
  assert (B : PrimFloat.eqb (-3) (-0) = true) by (injection N as ->; vm_compute; reflexivity). vm_compute in B. discriminate.
Qed.
Print Assumptions C97_half_space_trees_refuted.
Lemma trace_left : forall X Y A (m : Model X Y A) (s0 : md_state m) h x y e t c, eval (model_call m (CFit x y)) (model_run m s0 h) = Raise e ->
  eval (model_call m c) (model_run m s0 ((h ++ [CFit x y]) ++ t)) <> eval (model_call m c) (model_run m s0 (h ++ t)) -> ~ no_trace m s0.
Proof. intros X Y A m s0 h x y e t c E D N. apply D. exact (N h (CFit x y) e I E t c). Qed.
Local Ltac float_neq := let K := fresh in intros K; injection K as K; match type of K with ?a = ?b => assert (B : PrimFloat.eqb a b = true) by (rewrite K; vm_compute; reflexivity); vm_compute in B; discriminate end.
(** RSHash: a component sampled feature 0 and another one feature 1; an instance with one feature is rejected but counted by the first. *)
Definition rs_comps : list (rscomp float) := [mkComp [0%nat] [0] 1; mkComp [1%nat] [0] 1].
Theorem C97_rshash_refuted : let m := RSHash (Y := unit) (fun _ => 1) (fun a => a) (fun _ => 0%Z) 0.5 rs_comps in let s0 := RSHash_init 1 2 in
  eval (model_call m (CFit [5] None)) s0 = Raise IndexError /\
  eval (model_call m (CFitScore [5; 5] None)) s0 = Ok (Some (VScalar 1)) /\
  eval (model_call m (CFitScore [5; 5] None)) (model_run m s0 [CFit [5] None]) = Ok (Some (VScalar 1.5)) /\ ~ no_trace m s0.
Proof.
  intros m s0. assert (E1 : eval (model_call m (CFit [5] None)) s0 = Raise IndexError) by (vm_compute; reflexivity).
  assert (E2 : eval (model_call m (CFitScore [5; 5] None)) s0 = Ok (Some (VScalar 1))) by (vm_compute; reflexivity).
  assert (E3 : eval (model_call m (CFitScore [5; 5] None)) (model_run m s0 [CFit [5] None]) = Ok (Some (VScalar 1.5))) by (vm_compute; reflexivity).
  split; [exact E1|]. split; [exact E2|]. split; [exact E3|]. apply (trace_left _ _ _ m s0 [] [5] None IndexError [] (CFitScore [5; 5] None) E1). cbn [app]. change (model_run m s0 []) with s0. rewrite E2, E3. float_neq.
Qed.
Print Assumptions C97_rshash_refuted.
(** LODA: an instance with another number of features is rejected after one more component of the projection was set to zero. *)
Theorem C97_loda_refuted : let m := LODA (Y := unit) 0.5 0x1p-10 (fun a => a) (fun _ _ => 1) (fun k => if (k =? 0)%nat then [0%nat; 1%nat] else [1%nat; 0%nat]) 2 1 in let h := [CFit [1; 1] None] in
  eval (model_call m (CFit [1] None)) (model_run m LODA_init h) = Raise ValueError /\
  eval (model_call m (CScore [1; 1])) (model_run m LODA_init h) <> eval (model_call m (CScore [1; 1])) (model_run m LODA_init (h ++ [CFit [1] None])) /\ ~ no_trace m LODA_init.
Proof.
  intros m h. assert (E1 : eval (model_call m (CFit [1] None)) (model_run m LODA_init h) = Raise ValueError) by (vm_compute; reflexivity).
  assert (D : eval (model_call m (CScore [1; 1])) (model_run m LODA_init (h ++ [CFit [1] None])) <> eval (model_call m (CScore [1; 1])) (model_run m LODA_init h)) by (vm_compute; float_neq).
  split; [exact E1|]. split; [intros Q; apply D; symmetry; exact Q|]. apply (trace_left _ _ _ m LODA_init h [1] None ValueError [] (CScore [1; 1]) E1). rewrite !app_nil_r. exact D.
Qed.
Print Assumptions C97_loda_refuted.
(** KNNCAD: a rejected first instance turns the AttributeError of score_partial into the answer 0. *)
Theorem C97_knncad_refuted : forall inverse, let m := KNNCAD (Y := unit) 0.5 0.95 inverse 100 in
  eval (model_call m (CFit [] None)) KNNCAD_init = Raise IndexError /\ eval (model_call m (CScore [1])) KNNCAD_init = Raise AttributeError /\
  eval (model_call m (CScore [1])) (model_run m KNNCAD_init [CFit [] None]) = Ok (Some (VScalar 0)) /\ ~ no_trace m KNNCAD_init.
Proof.
  intros inverse m. assert (E1 : eval (model_call m (CFit [] None)) KNNCAD_init = Raise IndexError) by reflexivity.
  assert (E2 : eval (model_call m (CScore [1])) KNNCAD_init = Raise AttributeError) by reflexivity.
  assert (E3 : eval (model_call m (CScore [1])) (model_run m KNNCAD_init [CFit [] None]) = Ok (Some (VScalar 0))) by reflexivity.
  split; [exact E1|]. split; [exact E2|]. split; [exact E3|]. apply (trace_left _ _ _ m KNNCAD_init [] [] None IndexError [] (CScore [1]) E1). cbn [app]. change (model_run m KNNCAD_init []) with (@KNNCAD_init float). rewrite E2, E3. discriminate.
Qed.
Print Assumptions C97_knncad_refuted.
(** ReferenceWindowModel over a detector that refuses negative data: the rejected instance stays in the window. *)
Definition picky : Detector Z unit Z := mkDetector Z unit Z unit (fun _ => tt) (fun xs _ s => (if forallb (fun v => 0 <=? v)%Z xs then Ok tt else Raise ValueError, s)) (fun x _ => Ok x).
Theorem C97_reference_window_refuted : let m := ReferenceWindowModel picky 4 2 in let s0 := snd (RW_init picky None None) in
  eval (model_call m (CFit (-1)%Z None)) s0 = Raise ValueError /\ eval (model_call m (CFit 1%Z None)) s0 = Ok None /\
  eval (model_call m (CFit 1%Z None)) (model_run m s0 [CFit (-1)%Z None]) = Raise ValueError /\ ~ no_trace m s0.
Proof.
  intros m s0. assert (E1 : eval (model_call m (CFit (-1)%Z None)) s0 = Raise ValueError) by reflexivity.
  assert (E2 : eval (model_call m (CFit 1%Z None)) s0 = Ok None) by reflexivity.
  assert (E3 : eval (model_call m (CFit 1%Z None)) (model_run m s0 [CFit (-1)%Z None]) = Raise ValueError) by reflexivity.
  split; [exact E1|]. split; [exact E2|]. split; [exact E3|]. apply (trace_left _ _ _ m s0 [] (-1)%Z None ValueError [] (CFit 1%Z None) E1). cbn [app]. change (model_run m s0 []) with s0. rewrite E2, E3. discriminate.
Qed.
Print Assumptions C97_reference_window_refuted.
(** KitNet: a rejected first instance has already fixed the number of features: well formed instances are then refused. *)
Definition kit_par0 : kitpar float := mkKP (fun x => x) (fun _ => 0.5) (fun k => k) (fun _ _ => Ok (Node (Leaf 0) (Leaf 1))) neg_infinity infinity 0x1p-53 0x1p-300 0x1p-3 2 (Some 0%nat) 5.
Theorem C97_kitnet_refuted : let m := KitNet (Y := unit) kit_par0 in
  eval (model_call m (CFit [1] None)) None = Raise ValueError /\ eval (model_call m (CFit [1; 2] None)) None = Ok None /\
  eval (model_call m (CFit [1; 2] None)) (model_run m None [CFit [1] None]) = Raise ValueError /\ ~ no_trace m (None : md_state m).
Proof.
  intros m. assert (E1 : eval (model_call m (CFit [1] None)) None = Raise ValueError) by (vm_compute; reflexivity).
  assert (E2 : eval (model_call m (CFit [1; 2] None)) None = Ok None) by (vm_compute; reflexivity).
  assert (E3 : eval (model_call m (CFit [1; 2] None)) (model_run m None [CFit [1] None]) = Raise ValueError) by (vm_compute; reflexivity).
  split; [exact E1|]. split; [exact E2|]. split; [exact E3|]. apply (trace_left _ _ _ m None [] [1] None ValueError [] (CFit [1; 2] None) E1). cbn [app]. change (model_run m None []) with (None : md_state m). rewrite E2, E3. discriminate.
Qed.
Print Assumptions C97_kitnet_refuted.

(** ** Concrete cases *)
(** PerfectModel without a label, and a refused score of ExactStorm. *)
Example C97_ex_rejected : eval (model_call (PerfectModel (X := nat) (Y := nat)) (CFit 1%nat None)) [4%nat] = Raise ValueError /\
  eval (model_call (ExactStorm (Y := unit) 2) (CScore [1])) (model_run (ExactStorm (Y := unit) 2) (Window_init 3) [CFit [1; 2] None; CFit [1; 2] None]) = Raise ValueError.
Proof. vm_compute. auto. Qed.
Example C97_ex_storm : let h := [CFit [1; 2] (None : option unit); CFit [3] None] in exists r, In r (removelast (lastn (Z.to_nat 3) (fitted_instances h))) /\ length r <> length [1].
Proof. exists [1; 2]. split; [left; reflexivity|discriminate]. Qed.
(** window_size = 2: the instance with two numbers blocks the next call, and not the one after. *)
Example C97_ex_entropy : let m := RelativeEntropy (Y := unit) (fun a => a) (fun _ => 0%Z) 1 0 1 3 2 in let h := [CFit [1; 2] None] in
  map (fun k => eval (md_fit m [5] None) (model_run m RE_init (h ++ repeat (CFit [1] None) k))) [0%nat; 1%nat; 2%nat] = [Raise ValueError; Ok tt; Ok tt].
Proof. vm_compute. reflexivity. Qed.
