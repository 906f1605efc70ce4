(** * C111: when the alerting loop of example_probability_calibration.py raises an alert. *)
From Coq Require Import List ZArith Lia Bool Reals Lra Arith.
From Verif Require Import Base Num Spec Model_Stats Model_Utils Model_Core Model_Post Model_Trans Model_XStream Model_Simple Model_Examples P_Lists P_Stats P_Utils P_Core P_Post P_Models Prop_Core Prop_Trans Prop_Post Prop_XStream Prop_Direction.
Import ListNotations.
Open Scope R_scope.

(** The detector returns, for the instances in order, one-element arrays holding these scores. *)
Definition returns {X Y} (m : Model X Y R) (s0 : md_state m) (xs : list X) (ss : list R) : Prop :=
  length ss = length xs /\ model_scores m s0 (map (fun x => CFitScore x None) xs) = map (fun s => VArray [s]) ss.
(** How many of the scores in l exceed s. *)
Definition exceeding (s : R) (l : list R) : nat := length (filter (above s) l).

Lemma model_scores_length : forall X Y A (m : Model X Y A) h s, (length (model_scores m s h) <= length h)%nat.
Proof.
  intros X Y A m h. induction h as [|o h IH]; intros s; cbn [model_scores length]; auto. rewrite app_length. specialize (IH (model_do m s o)).
  destruct (eval (model_call m o) s) as [[?|]|]; cbn [length]; lia.
Qed.
Lemma returns_cons : forall X Y (m : Model X Y R) s0 x xs ss, returns m s0 (x :: xs) ss ->
  exists s ss' s1, ss = s :: ss' /\ md_fit_score m x None s0 = (Ok (VArray [s]), s1) /\ returns m s1 xs ss'.
Proof.
  intros X Y m s0 x xs ss [L E]. destruct ss as [|s ss']; [discriminate|]. cbn [map model_scores length] in *.
  unfold eval, model_do, exec in E. cbn [model_call] in E. destruct (md_fit_score m x None s0) as [[v|e] s1] eqn:F; cbn [rmap fst snd app] in E.
  - inversion E. subst. exists s, ss', s1. split; auto. split; auto. split; auto.
  - exfalso. apply (f_equal (@length _)) in E. cbn [length] in E. pose proof (model_scores_length _ _ _ m (map (fun x => CFitScore x None) xs) s1) as P. rewrite E, !map_length in P. lia.
Qed.
Lemma conformal_fit : forall (w : Z) (pre : list R) (s : R), exists c,
  post_run ConformalProbabilityCalibrator (Conformal_init true w) (map PFit (pre ++ [s])) = c /\
  pp_fit ConformalProbabilityCalibrator s (post_run ConformalProbabilityCalibrator (Conformal_init true w) (map PFit pre)) = (Ok tt, c).
Proof.
  intros w pre s. eexists. split; [reflexivity|]. rewrite map_app. unfold post_run at 2. rewrite fold_left_app. fold (post_run ConformalProbabilityCalibrator (Conformal_init true w) (map PFit pre)).
  cbn [map fold_left post_do]. unfold exec. destruct (post_run _ _ _) as [w0|l0]; reflexivity.
Qed.
Lemma fitted_map : forall l : list R, fitted (map PFit l) = l.
Proof. induction l as [|x l IH]; auto. cbn. f_equal. exact IH. Qed.
Lemma alert_step : forall X Y (m : Model X Y R) thr w x s0 s s1 pre, (1 <= w)%Z -> md_fit_score m x None s0 = (Ok (VArray [s]), s1) ->
  let W := lastn (Z.to_nat w) (pre ++ [s]) in
  calibration_step m thr x (s0, post_run ConformalProbabilityCalibrator (Conformal_init true w) (map PFit pre)) =
  (Ok (if Rlt_dec thr (fraction (above s) W) then true else false), (s1, post_run ConformalProbabilityCalibrator (Conformal_init true w) (map PFit (pre ++ [s])))).
Proof.
  intros X Y m thr w x s0 s s1 pre Hw F W.
  assert (PT : Post_fit_transform ConformalProbabilityCalibrator [s] (post_run ConformalProbabilityCalibrator (Conformal_init true w) (map PFit pre)) =
    (Ok [FinV (FinV (fraction (above s) W))], post_run ConformalProbabilityCalibrator (Conformal_init true w) (map PFit (pre ++ [s])))).
  { unfold Post_fit_transform. rewrite iterate_none. unfold map_gen, bind. cbn [fst snd map mapM]. unfold bind, pp_fit_transform, bind. cbn [fst snd].
    destruct (conformal_fit w pre s) as (c & Ec & Ef). rewrite Ef.
    pose proof (C36_conformal_fraction_above true w (map PFit (pre ++ [s])) s) as T. rewrite fitted_map in T. cbn [conf_window] in T. fold W in T.
    assert (NW : W <> []). { unfold W. intros E. apply (f_equal (@length _)) in E. rewrite lastn_length, app_length in E. cbn [length] in E. lia. }
    assert (PU : forall c0, exists r, pp_transform (ConformalProbabilityCalibrator (A := R)) s c0 = (r, c0)). { intros c0. eexists. reflexivity. }
    destruct (PU c) as [r Er]. rewrite Ec in *. unfold eval in T. rewrite Er in T. cbn [fst] in T. rewrite Er, T. destruct W as [|w0 W'] eqn:EW; [congruence|]. reflexivity. }
  unfold calibration_step, bind, zoom, lift. cbn [fst snd]. rewrite F. cbn [fst snd]. rewrite PT. reflexivity.
Qed.
Lemma alerts_from : forall X Y (m : Model X Y R) thr w xs s0 ss pre, (1 <= w)%Z -> returns m s0 xs ss ->
  exists bs, eval (mapM (calibration_step m thr) xs) (s0, post_run ConformalProbabilityCalibrator (Conformal_init true w) (map PFit pre)) = Ok bs /\ length bs = length xs /\
  forall i s, nth_error ss i = Some s -> nth_error bs i = Some (if Rlt_dec thr (fraction (above s) (lastn (Z.to_nat w) (pre ++ firstn (S i) ss))) then true else false).
Proof.
  intros X Y m thr w xs. induction xs as [|x xs IH]; intros s0 ss pre Hw Rt.
  - exists []. destruct Rt as [L _]. destruct ss; [|discriminate]. split; auto. split; auto. intros [|i] s; discriminate.
  - apply returns_cons in Rt. destruct Rt as (s & ss' & s1 & -> & F & Rt). destruct (IH s1 ss' (pre ++ [s]) Hw Rt) as (bs & E & L & N).
    eexists (_ :: bs). split; [|split].
    + unfold eval in *. cbn [mapM]. unfold bind. rewrite (alert_step X Y m thr w x s0 s s1 pre Hw F). destruct (mapM _ xs _) as [r c'] eqn:EM. cbn [fst] in E. subst r. unfold ret. reflexivity.
    + cbn [length]. lia.
    + intros [|i] t Ht; cbn [nth_error] in *.
      * inversion Ht. subst. cbn [firstn]. reflexivity.
      * rewrite (N i t Ht). rewrite <- app_assoc. reflexivity.
Qed.

(** An alert is printed for an instance exactly when more than the given share of the last w scores, its own included, exceed its own score. *)
Theorem C111_alert_iff : forall X Y (m : Model X Y R) s0 w threshold xs ss, (1 <= w)%Z -> returns m s0 xs ss ->
  exists bs, calibration_example m s0 w threshold xs = Ok bs /\ length bs = length xs /\
  forall i s, nth_error ss i = Some s -> let W := lastn (Z.to_nat w) (firstn (S i) ss) in
    nth_error bs i = Some true <-> threshold * INR (length W) < INR (exceeding s W).
Proof.
  intros X Y m s0 w thr xs ss Hw Rt. destruct (alerts_from X Y m thr w xs s0 ss [] Hw Rt) as (bs & E & L & N). exists bs. split; [exact E|]. split; auto.
  intros i s Hs W. rewrite (N i s Hs). cbn [app]. fold W. unfold fraction, exceeding, Rlen.
  assert (P : 0 < INR (length W)). { apply lt_0_INR. unfold W. rewrite lastn_length. assert (H := nth_error_Some ss i). rewrite Hs in H. rewrite firstn_length. assert (i < length ss)%nat by (apply H; discriminate). lia. }
  destruct (Rlt_dec thr (INR (length (filter (above s) W)) / INR (length W))) as [Q|Q].
  - split; auto. intros _. apply (Rmult_lt_compat_r (INR (length W))) in Q; auto. unfold Rdiv in Q. rewrite Rmult_assoc, Rinv_l in Q by lra. lra.
  - split; [discriminate|]. intros Q'. exfalso. apply Q. apply (Rmult_lt_reg_r (INR (length W))); auto. unfold Rdiv. rewrite Rmult_assoc, Rinv_l by lra. lra.
Qed.
Print Assumptions C111_alert_iff.

Lemma exceeding_self : forall s l, In s l -> (S (exceeding s l) <= length l)%nat.
Proof.
  intros s l. unfold exceeding. induction l as [|x l IH]; intros I; [destruct I|]. cbn [filter length]. destruct I as [->|I].
  - unfold above at 1. destruct (Rlt_dec s s); [lra|]. pose proof (filter_length_le _ (above s) l). lia.
  - specialize (IH I). destruct (above s x); cbn [length]; lia.
Qed.
Lemma newest_in : forall (ss : list R) i s w, (1 <= w)%Z -> nth_error ss i = Some s -> In s (lastn (Z.to_nat w) (firstn (S i) ss)).
Proof.
  intros ss i s w Hw Hs. assert (E : exists p, firstn (S i) ss = p ++ [s]).
  { revert ss Hs. induction i as [|i IH]; intros [|x ss] Hs; try discriminate; cbn [nth_error] in Hs.
    - inversion Hs. exists []. reflexivity.
    - destruct (IH ss Hs) as [p E]. exists (x :: p). change (firstn (S (S i)) (x :: ss)) with (x :: firstn (S i) ss). rewrite E. reflexivity. }
  destruct E as [p ->]. unfold lastn. rewrite app_length. cbn [length]. rewrite skipn_app. apply in_or_app. right.
  replace (length p + 1 - Z.to_nat w - length p)%nat with 0%nat by lia. left. reflexivity.
Qed.

(** With the threshold 0.95 of the example the first twenty instances of a stream are never announced. *)
Theorem C111_first_twenty : forall X Y (m : Model X Y R) s0 w xs ss bs i, (1 <= w)%Z -> returns m s0 xs ss ->
  calibration_example m s0 w (19 / 20) xs = Ok bs -> (i < 20)%nat -> nth_error bs i <> Some true.
Proof.
  intros X Y m s0 w xs ss bs i Hw Rt E Hi A. destruct (C111_alert_iff X Y m s0 w (19/20) xs ss Hw Rt) as (bs' & E' & L & N). rewrite E in E'. inversion E'. subst bs'.
  assert (Hb : (i < length bs)%nat) by (apply nth_error_Some; congruence). destruct Rt as [Ls _]. destruct (nth_error ss i) as [s|] eqn:Hs; [|apply nth_error_None in Hs; lia].
  pose proof (newest_in ss i s w Hw Hs) as I. apply (N i s Hs) in A. apply exceeding_self in I. set (W := lastn (Z.to_nat w) (firstn (S i) ss)) in *.
  assert (LW : (length W <= 20)%nat) by (unfold W; rewrite lastn_length, firstn_length; lia). apply le_INR in I, LW. rewrite S_INR in I. change (INR 20) with (INR (20 * 1)) in LW. rewrite mult_INR in LW. replace (INR 20) with 20 in LW by (cbn; lra). cbn [INR] in LW. lra.
Qed.
Print Assumptions C111_first_twenty.

(** An instance scoring at least as high as everything in the window is never announced, whatever the (non-negative) threshold. *)
Theorem C111_highest_score_is_silent : forall X Y (m : Model X Y R) s0 w threshold xs ss bs i s, (1 <= w)%Z -> 0 <= threshold -> returns m s0 xs ss ->
  calibration_example m s0 w threshold xs = Ok bs -> nth_error ss i = Some s ->
  (forall t, In t (lastn (Z.to_nat w) (firstn (S i) ss)) -> t <= s) -> nth_error bs i <> Some true.
Proof.
  intros X Y m s0 w thr xs ss bs i s Hw Ht Rt E Hs Mx A. destruct (C111_alert_iff X Y m s0 w thr xs ss Hw Rt) as (bs' & E' & _ & N). rewrite E in E'. inversion E'. subst bs'.
  apply (N i s Hs) in A. set (W := lastn (Z.to_nat w) (firstn (S i) ss)) in *. clearbody W. replace (exceeding s W) with 0%nat in A.
  - cbn [INR] in A. pose proof (pos_INR (length W)). nra.
  - clear - Mx. unfold exceeding. induction W as [|x W IH]; auto. cbn [filter]. unfold above at 1. destruct (Rlt_dec s x) as [Q|Q]; [specialize (Mx x (or_introl eq_refl)); lra|]. apply IH. intros; apply Mx; right; auto.
Qed.
Print Assumptions C111_highest_score_is_silent.

(** A detector that returns a bare number stops the program at the first instance. *)
Theorem C111_scalar_scores_raise : forall X Y (m : Model X Y R) s0 w threshold x xs, (forall v, eval (md_fit_score m x None) s0 = Ok v -> exists a, v = VScalar a) ->
  exists e, calibration_example m s0 w threshold (x :: xs) = Raise e.
Proof.
  intros X Y m s0 w thr x xs G. unfold calibration_example, eval in *. cbn [mapM]. unfold bind, calibration_step, bind, zoom, lift. cbn [fst snd].
  destruct (md_fit_score m x None s0) as [[v|e] s1]; [|exists e; reflexivity]. destruct (G v eq_refl) as [a ->]. exists IndexError. reflexivity.
Qed.
Print Assumptions C111_scalar_scores_raise.

(** ** The detector of the example *)
Lemma count_all : forall floor rand d hits (z : list R) zs, Forall (eq z) zs -> bin_count floor rand d d hits zs z = length zs.
Proof. intros floor rand d hits z zs F. unfold bin_count. induction F as [|x l <- F IH]; auto. cbn [filter]. destruct (list_eq_dec Z.eq_dec _ _); [cbn [length]; lia|congruence]. Qed.
Lemma only_first_window : forall Y mmh3 n density p floor W draws (h : list (mcall (list R) Y)) a, (1 <= n)%Z -> Streamhash_init 1 n density = Ok p ->
  let K := Z.to_nat n in chain_draws K draws -> Forall (eq a) (fitted_instances h) -> (S (length (fitted_instances h)) < W)%nat ->
  next_score (XStream mmh3 p floor K W) (xstream_new K draws) h a = Ok (VArray [- (log2 (INR (S (S (length (fitted_instances h))))) + 1)]).
Proof.
  intros Y mmh3 n density p floor W draws h a Hn E K DR F LW. set (m := XStream mmh3 p floor K W).
  destruct (C75_score Y mmh3 n density p floor W draws h a Hn E ltac:(lia) DR) as (_ & _ & _ & _ & _ & _ & _ & _ & _ & _ & _ & Fit).
  destruct (C75_score Y mmh3 n density p floor W draws (h ++ [CFit a None]) a Hn E ltac:(lia) DR) as (zs & z & dref & delta & mins & Fz & Pz & R1 & R2 & FM & S & _).
  rewrite fitted_instances_app in *. change (fitted_instances [CFit a (@None Y)]) with [a] in *. pose proof (Forall2_length _ _ _ _ _ Fz) as L. rewrite app_length in *. cbn [length] in *. replace (length (fitted_instances h) + 1)%nat with (Datatypes.S (length (fitted_instances h))) in * by lia.
  rewrite Nat.div_small in * by auto. cbn [Nat.sub ranges_after] in R1, R2. subst dref delta. destruct (Nat.ltb_spec (Datatypes.S (length (fitted_instances h))) W); [|lia].
  assert (FZ : Forall (eq z) zs). { assert (FA : Forall (eq a) (fitted_instances h ++ [a])) by (apply Forall_app; split; auto). clear - Fz Pz FA. revert FA. generalize dependent (fitted_instances h ++ [a]). intros l Fz FA. induction Fz; constructor; inversion FA; subst; auto. eapply projects_unique; eauto. }
  fold m in S. rewrite next_after_fit; [|reflexivity|apply Fit]. unfold eval. fold K in S. fold m in S. rewrite S. cbn [fst]. f_equal. f_equal. f_equal.
  set (N := length (fitted_instances h)) in *. set (v := log2 (INR (Datatypes.S (Datatypes.S N))) + 1).
  assert (MV : Forall (eq v) mins).
  { destruct DR as [_ FD]. clear - FM FZ L FD. revert FD. induction FM as [|d mn l l' [Im Mm] FM IH]; intros FD; constructor; inversion FD as [|? ? [D1 _] FD']; subst; auto.
    assert (DV : depth_values floor (fst d) (snd d) (repeat (1 / 2) K) (repeat (1 / 2) K) zs z = map (fun k => log2 (INR (Datatypes.S (Datatypes.S N))) + INR k) (seq 1 (length (fst d)))).
    { unfold depth_values. apply map_ext. intros k. rewrite count_all by auto. rewrite <- L, (S_INR (Datatypes.S N)). do 2 f_equal. lra. }
    fold K in Im, Mm. rewrite DV in Im, Mm. apply in_map_iff in Im. destruct Im as (k & Ek & Ik). apply in_seq in Ik.
    assert (B : mn <= v). { apply Mm. apply in_map_iff. exists 1%nat. split; [unfold v; cbn [INR]; reflexivity|]. apply in_seq. destruct (fst d); [congruence|cbn [length]; lia]. }
    assert (B' : v <= mn). { rewrite <- Ek. unfold v. apply Rplus_le_compat_l. change 1 with (INR 1). apply le_INR. lia. }
    lra. }
  assert (NM : mins <> []). { destruct DR as [DN _]. intros ->. inversion FM. subst. congruence. }
  assert (MM : map Ropp mins = repeat (- v) (length mins)). { clear - MV. induction MV as [|x l <- MV IH]; auto. cbn [map repeat length]. f_equal; auto. }
  rewrite MM. unfold mean, Rlen. rewrite Rsum_repeat, repeat_length. field. apply not_0_INR. destruct mins; [congruence|discriminate].
Qed.
Lemma xstream_returns : forall Y mmh3 n density p floor W draws (a : list R) k, (1 <= n)%Z -> Streamhash_init 1 n density = Ok p ->
  let K := Z.to_nat n in chain_draws K draws -> (k < W)%nat ->
  returns (XStream mmh3 p floor K W : Model (list R) Y R) (xstream_new K draws) (repeat a k) (map (fun j => - (log2 (INR (S (S j))) + 1)) (seq 0 k)).
Proof.
  intros Y mmh3 n density p floor W draws a k Hn E K DR Hk. split; [rewrite map_length, seq_length, repeat_length; reflexivity|].
  assert (G : forall j h, (length (fitted_instances h) + j < W)%nat -> Forall (eq a) (fitted_instances h) ->
    model_scores (XStream mmh3 p floor K W : Model (list R) Y R) (model_run (XStream mmh3 p floor K W) (xstream_new K draws) h) (map (fun x => CFitScore x None) (repeat a j)) =
    map (fun i => VArray [- (log2 (INR (S (S i))) + 1)]) (seq (length (fitted_instances h)) j)).
  { induction j as [|j IH]; intros h L F; cbn [repeat map seq model_scores]; auto.
    pose proof (only_first_window Y mmh3 n density p floor W draws h a Hn E DR F ltac:(lia)) as N. fold K in N. unfold next_score in N.
    set (m := XStream mmh3 p floor K W) in *. set (s := model_run m (xstream_new K draws) h) in *.
    assert (C : eval (model_call m (CFitScore a (@None Y))) s = Ok (Some (VArray [- (log2 (INR (S (S (length (fitted_instances h))))) + 1)]))).
    { unfold eval in *. cbn [model_call]. destruct (md_fit_score m a None s) as [r s1]. cbn [fst] in N. subst r. reflexivity. }
    rewrite C. cbn [app]. f_equal. assert (D : model_do m s (CFitScore a None) = model_run m (xstream_new K draws) (h ++ [CFitScore a None])) by (unfold s, model_run; rewrite fold_left_app; reflexivity).
    rewrite D, IH.
    - rewrite fitted_instances_app. change (fitted_instances [CFitScore a (@None Y)]) with [a]. rewrite app_length. cbn [length]. rewrite Nat.add_1_r. reflexivity.
    - rewrite fitted_instances_app, app_length. cbn. lia.
    - rewrite fitted_instances_app. apply Forall_app. split; auto. constructor; auto. }
  specialize (G k [] ltac:(cbn; lia) ltac:(constructor)). cbn [model_run fold_left] in G. rewrite map_map. exact G.
Qed.
Lemma log2_lt : forall x y, 0 < x -> x < y -> log2 x < log2 y.
Proof. intros x y P L. unfold log2, Rdiv. apply Rmult_lt_compat_r; [apply Rinv_0_lt_compat; rewrite <- ln_1; apply ln_increasing; lra|]. apply ln_increasing; auto. Qed.
Lemma all_exceed : forall v l, Forall (fun t => v < t) l -> exceeding v (l ++ [v]) = length l.
Proof.
  intros v l F. unfold exceeding. rewrite filter_app, app_length. replace (length (filter (above v) [v])) with 0%nat.
  - rewrite Nat.add_0_r. f_equal. induction F as [|t l Ht F IH]; auto. cbn [filter]. unfold above at 1. destruct (Rlt_dec v t); [f_equal; auto|lra].
  - cbn [filter]. unfold above. destruct (Rlt_dec v v); [lra|reflexivity].
Qed.

(** On a stream of identical instances the example announces the 21st to the 24th as anomalous (and none before): xStream, in its first
    window of 25, finds each repetition more normal than the one before, and the loop alerts on the most normal 5%. *)
Theorem C111_constant_stream_raises_alerts : forall Y mmh3 n density p floor W draws (a : list R) k w, (1 <= n)%Z -> Streamhash_init 1 n density = Ok p ->
  let K := Z.to_nat n in chain_draws K draws -> (k < W)%nat -> (Z.of_nat k <= w)%Z -> (1 <= w)%Z ->
  exists bs, calibration_example (XStream mmh3 p floor K W : Model (list R) Y R) (xstream_new K draws) w (19 / 20) (repeat a k) = Ok bs /\ length bs = k /\
  forall i, nth_error bs i = Some true <-> (20 <= i < k)%nat.
Proof.
  intros Y mmh3 n density p floor W draws a k w Hn E K DR Hk Hw Hw1. pose proof (xstream_returns Y mmh3 n density p floor W draws a k Hn E DR Hk) as Rt. fold K in Rt.
  destruct (C111_alert_iff _ Y _ _ w (19/20) _ _ Hw1 Rt) as (bs & Eb & L & N). exists bs. split; auto. rewrite repeat_length in L. split; auto.
  set (ss := map (fun j => - (log2 (INR (S (S j))) + 1)) (seq 0 k)) in *.
  assert (NS : forall i, (i < k)%nat -> nth_error ss i = Some (- (log2 (INR (S (S i))) + 1))).
  { intros i Hi. unfold ss. rewrite nth_error_map. rewrite (nth_error_nth' _ 0%nat) by (rewrite seq_length; auto). rewrite seq_nth by auto. reflexivity. }
  assert (G : forall i, (i < k)%nat -> let V := lastn (Z.to_nat w) (firstn (S i) ss) in length V = S i /\ exceeding (- (log2 (INR (S (S i))) + 1)) V = i).
  { intros i Hi V. assert (EV : V = map (fun j => - (log2 (INR (S (S j))) + 1)) (seq 0 i) ++ [- (log2 (INR (S (S i))) + 1)]).
    { unfold V. assert (LF : length (firstn (S i) ss) = S i) by (rewrite firstn_length; unfold ss; rewrite map_length, seq_length; lia).
      unfold lastn. rewrite LF. replace (S i - Z.to_nat w)%nat with 0%nat by lia. cbn [skipn]. unfold ss. rewrite firstn_map.
      assert (Kr : exists r, k = (i + S r)%nat) by (exists (k - S i)%nat; lia). destruct Kr as [r Kr]. rewrite Kr, seq_app. replace (firstn (S i)) with (@firstn nat (length (seq 0 i) + 1)) by (f_equal; rewrite seq_length; lia). rewrite firstn_app_2, map_app. reflexivity. }
    rewrite EV. split; [rewrite app_length, map_length, seq_length; cbn [length]; lia|].
    rewrite all_exceed; [rewrite map_length, seq_length; reflexivity|]. apply Forall_forall. intros t Ht. apply in_map_iff in Ht. destruct Ht as (j & <- & Ij). apply in_seq in Ij.
    apply Ropp_lt_contravar, Rplus_lt_compat_r, log2_lt; [apply lt_0_INR; lia|apply lt_INR; lia]. }
  intros i. split.
  - intros A. assert (Hi : (i < k)%nat) by (rewrite <- L; apply nth_error_Some; congruence). split; auto. apply (N i _ (NS i Hi)) in A. destruct (G i Hi) as [G1 G2]. rewrite G1, G2, S_INR in A.
    apply INR_le. replace (INR 20) with 20 by (cbn; lra). apply Rnot_lt_le. intros Q. assert (Q' : (i < 20)%nat) by (apply INR_lt; replace (INR 20) with 20 by (cbn; lra); auto). assert (i <= 19)%nat as Q2 by lia. apply le_INR in Q2. replace (INR 19) with 19 in Q2 by (cbn; lra). lra.
  - intros [H1 H2]. apply (N i _ (NS i H2)). destruct (G i H2) as [G1 G2]. rewrite G1, G2, S_INR. apply le_INR in H1. replace (INR 20) with 20 in H1 by (cbn; lra). lra.
Qed.
Print Assumptions C111_constant_stream_raises_alerts.

(** The loop is meant to announce the anomalous instances: a detector that reports the instance itself, twenty ones and then a zero -- the
    announced instance is the one with the lowest score, and a final instance scoring 1000 is not announced. *)
Definition echo : Model R R R := mkModel R R R unit (fun _ _ => ret tt) (fun x => ret (VArray [x])) (fun x _ => ret (VArray [x])).
Lemma echo_returns : forall xs, returns echo tt xs xs.
Proof. intros xs. split; auto. generalize (@eq_refl _ tt). induction xs as [|x xs IH]; intros _; auto. cbn [map model_scores]. cbn. f_equal. exact (IH eq_refl). Qed.
Theorem C111_alerts_on_anomalies_refuted : exists xs bs,
  calibration_example echo tt 300 (19 / 20) xs = Ok bs /\
  nth_error xs 20 = Some 0 /\ nth_error bs 20 = Some true /\ (forall x, In x xs -> 0 <= x) /\
  nth_error xs 21 = Some 1000 /\ nth_error bs 21 = Some false /\ (forall x, In x xs -> x <= 1000).
Proof.
  exists (repeat 1 20 ++ [0; 1000]). destruct (C111_alert_iff _ _ echo tt 300 (19/20) _ _ ltac:(lia) (echo_returns (repeat 1 20 ++ [0; 1000]))) as (bs & E & L & N). exists bs. split; auto.
  split; [reflexivity|]. split.
  { apply (N 20%nat 0 eq_refl). change (lastn (Z.to_nat 300) (firstn 21 (repeat 1 20 ++ [0; 1000]))) with (repeat 1 20 ++ [0]). rewrite all_exceed by (apply Forall_forall; intros t I; apply repeat_spec in I; lra).
    rewrite app_length, repeat_length. cbn [length]. rewrite plus_INR. replace (INR 20) with 20 by (cbn; lra). cbn [INR]. lra. }
  split; [intros x I; apply in_app_or in I; destruct I as [I|[<-|[<-|[]]]]; try lra; apply repeat_spec in I; lra|]. split; [reflexivity|]. split.
  { pose proof (C111_highest_score_is_silent _ _ echo tt 300 (19/20) _ _ bs 21 1000 ltac:(lia) ltac:(lra) (echo_returns (repeat 1 20 ++ [0; 1000])) E eq_refl) as S.
    destruct (nth_error bs 21) as [[]|] eqn:B; auto; [exfalso; apply S; auto|apply nth_error_None in B; rewrite L in B; cbn in B; lia].
    intros t I. cbn in I. repeat (destruct I as [<-|I]; [lra|]). destruct I. }
  intros x I; apply in_app_or in I; destruct I as [I|[<-|[<-|[]]]]; try lra; apply repeat_spec in I; lra.
Qed.
Print Assumptions C111_alerts_on_anomalies_refuted.
(** The hypotheses of the theorems are met: one projected component, one chain of depth 1, and 24 instances. *)
Example C111_ex : exists p bs, Streamhash_init 1 1 1 = Ok p /\ chain_draws 1 [([0%nat], [0])] /\
  calibration_example (XStream (fun _ _ => 0%Z) p Int_part 1 25 : Model (list R) R R) (xstream_new 1 [([0%nat], [0])]) 300 (19 / 20) (repeat [3] 24) = Ok bs /\
  nth_error bs 19 <> Some true /\ nth_error bs 23 = Some true.
Proof.
  destruct C77_ex as (p & Ep & _ & _ & D). exists p. destruct (C111_constant_stream_raises_alerts R (fun _ _ => 0%Z) 1 1 p Int_part 25 [([0%nat], [0])] [3] 24 300 ltac:(lia) Ep D ltac:(lia) ltac:(lia) ltac:(lia)) as (bs & E & L & N).
  exists bs. split; auto. split; auto. split; [exact E|]. split; [rewrite N; lia|apply N; lia].
Qed.
(** NullModel is one of the detectors that return a bare number. *)
Example C111_scalar_ex : exists e, calibration_example (NullModel (1 / 2) : Model R R R) tt 300 (19 / 20) [7; 8] = Raise e.
Proof. apply C111_scalar_scores_raise. intros v E. inversion E. eexists. reflexivity. Qed.
