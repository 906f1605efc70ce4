(** * C108: does an obvious anomaly score higher than the instance it interrupts? *)
From Coq Require Import List ZArith Lia Bool Reals Lra Arith Permutation Sorted.
From Verif Require Import Base Num Spec Model_Core Model_Stats Model_Utils Model_Simple Model_Eval Model_Metrics Model_HST Model_Sketch Model_XStream Model_Trans P_Lists P_Core P_Eval P_Metrics P_Models P_Stats Prop_Metrics Prop_Pipeline Prop_Baselines Prop_Simple Prop_HST Prop_RSHash Prop_XStream Prop_Forget P_Post P_Utils Prop_Trans.
Import ListNotations.
Open Scope R_scope.

(** ** Specification *)
(** A history in which every fitted instance was a, at least once. *)
Definition only {Y} (a : list R) (h : list (mcall (list R) Y)) : Prop := fitted_instances h <> [] /\ Forall (eq a) (fitted_instances h).
(** What fit_score_partial returns for the next instance x. *)
Definition next_score {Y A} (m : Model (list R) Y A) (s0 : md_state m) (h : list (mcall (list R) Y)) (x : list R) : res (pyval A) :=
  eval (md_fit_score m x None) (model_run m s0 h).
(** A stream of k normal copies of a, then one anomaly b, and the AUROC the usual evaluation loop reports for it. *)
Definition spike (k : nat) (a b : list R) : list (list R * bool) := repeat (a, false) k ++ [(b, true)].
Definition spike_auroc (m : Model (list R) R R) (s0 : md_state m) (k : nat) (a b : list R) : res R := evaluated m s0 auroc [] (spike k a b).

(** ** The evaluation loop on such a stream *)
Lemma loop_scores : forall X (m : Model X R R) (d0 : X * bool) (data : list (X * bool)) scores s, length scores = length data ->
  (forall i, (i < length data)%nat -> eval (md_fit_score m (fst (nth i data d0)) (Some (decision (snd (nth i data d0))))) (model_run m s (map (fun q => CFitScore (fst q) (Some (decision (snd q)))) (firstn i data))) = Ok (VScalar (nth i scores 0))) ->
  exists s', mapM (fun q => md_fit_score m (fst q) (Some (decision (snd q)))) data s = (Ok (map VScalar scores), s').
Proof.
  intros X m d0 data. induction data as [|q data IH]; intros scores s L H.
  - destruct scores; [|discriminate]. exists s. reflexivity.
  - destruct scores as [|v scores]; [discriminate|]. pose proof (H 0%nat ltac:(cbn; lia)) as H0. cbn [firstn map nth model_run fold_left] in H0. unfold eval in H0.
    destruct (md_fit_score m (fst q) (Some (decision (snd q))) s) as [r s1] eqn:E. cbn [fst] in H0. subst r.
    destruct (IH scores s1) as [s' E']; [cbn in L; lia| |].
    { intros i Hi. specialize (H (S i) ltac:(cbn; lia)). cbn [firstn map nth] in H. rewrite <- H. f_equal. unfold model_run at 2. cbn [fold_left]. unfold model_do at 2, exec. cbn [model_call]. rewrite E. reflexivity. }
    exists s'. cbn [mapM map]. unfold bind, ret. rewrite E, E'. reflexivity.
Qed.
Lemma loop_value : forall X (m : Model X R R) (d0 : X * bool) (data : list (X * bool)) scores s, length scores = length data ->
  (forall i, (i < length data)%nat -> eval (md_fit_score m (fst (nth i data d0)) (Some (decision (snd (nth i data d0))))) (model_run m s (map (fun q => CFitScore (fst q) (Some (decision (snd q)))) (firstn i data))) = Ok (VScalar (nth i scores 0))) ->
  evaluated m s auroc [] data = AUROC (combine (map snd data) scores).
Proof.
  intros X m d0 data scores s L H. destruct (loop_scores X m d0 data scores s L H) as [s' E]. unfold evaluated, AUROC, metric_value. destruct (me_init auroc []) as [e0|e]; auto.
  rewrite (loop_run _ _ m auroc data scores s s' e0 E). destruct (iterM _ _ e0) as [[u|e] se]; reflexivity.
Qed.
Lemma spike_value : forall (m : Model (list R) R R) s0 k a b (g : nat -> R) z,
  (forall i, (i < k)%nat -> forall h, fitted_instances h = repeat a i -> eval (md_fit_score m a (Some 0)) (model_run m s0 h) = Ok (VScalar (g i))) ->
  (forall h, fitted_instances h = repeat a k -> eval (md_fit_score m b (Some 1)) (model_run m s0 h) = Ok (VScalar z)) ->
  (1 <= k)%nat -> spike_auroc m s0 k a b = Ok (Rsum (map (fun i => beats z (g i)) (seq 0 k)) / INR k).
Proof.
  intros m s0 k a b g z Ha Hb K. unfold spike_auroc.
  assert (LS : length (spike k a b) = S k) by (unfold spike; rewrite app_length, repeat_length; cbn; lia).
  assert (FI : forall i, (i <= k)%nat -> fitted_instances (map (fun q : list R * bool => CFitScore (fst q) (Some (decision (snd q)))) (firstn i (spike k a b))) = repeat a i).
  { intros i Hi. unfold spike. rewrite firstn_app, repeat_length. replace (i - k)%nat with 0%nat by lia. rewrite firstn_O, app_nil_r.
    replace k with (i + (k - i))%nat by lia. rewrite repeat_app, firstn_app, repeat_length, Nat.sub_diag, firstn_O, app_nil_r, firstn_all2 by (rewrite repeat_length; lia).
    generalize i at 1 2. clear. intros j. induction j as [|j IH]; auto. unfold fitted_instances in *. cbn. f_equal. exact IH. }
  rewrite (loop_value _ m (a, false) (spike k a b) (map g (seq 0 k) ++ [z]) s0).
  - assert (E : combine (map snd (spike k a b)) (map g (seq 0 k) ++ [z]) = map (fun v => (false, v)) (map g (seq 0 k)) ++ [(true, z)]).
    { unfold spike. rewrite map_app. cbn [map snd]. generalize (seq_length k 0). generalize (seq 0 k). clear. induction k as [|k IH]; intros [|i l] L; cbn in L; try discriminate; auto. cbn [repeat map combine app]. f_equal. apply IH. lia. }
    rewrite E. assert (P : positives (map (fun v => (false, v)) (map g (seq 0 k)) ++ [(true, z)]) = [z] /\ negatives (map (fun v => (false, v)) (map g (seq 0 k)) ++ [(true, z)]) = map g (seq 0 k)).
    { generalize (map g (seq 0 k)). clear. induction l as [|v l [I1 I2]]; [split; reflexivity|]. unfold positives, negatives in *. cbn. rewrite I2. split; [exact I1|reflexivity]. }
    destruct P as [P1 P2]. rewrite C102_auroc; [rewrite P1, P2|rewrite P1; discriminate|rewrite P2; destruct k; [lia|discriminate]]. f_equal. unfold pair_wins, Rlen. rewrite map_map, map_length, seq_length. cbn [length INR map]. f_equal; [|lra].
    f_equal. apply map_ext. intros i. unfold Rsum. cbn. lra.
  - rewrite LS, app_length, map_length, seq_length. cbn. lia.
  - rewrite LS. intros i Hi. destruct (Nat.eq_dec i k) as [->|Ne].
    + unfold spike at 1 2. rewrite app_nth2, repeat_length, Nat.sub_diag by (rewrite repeat_length; lia). cbn [nth fst snd decision].
      rewrite app_nth2, map_length, seq_length, Nat.sub_diag by (rewrite map_length, seq_length; lia). apply Hb. apply FI. lia.
    + unfold spike at 1 2. rewrite app_nth1 by (rewrite repeat_length; lia). rewrite nth_repeat. cbn [fst snd decision].
      rewrite app_nth1 by (rewrite map_length, seq_length; lia). rewrite (nth_indep _ 0 (g 0%nat)) by (rewrite map_length, seq_length; lia). rewrite map_nth, seq_nth by lia. apply Ha; [lia|]. apply FI. lia.
Qed.
(** If the first instance ties with the anomaly and all others beat it, the AUROC is 1/(2k). *)
Lemma spike_worst : forall k (g : nat -> R) z, (1 <= k)%nat -> g 0%nat = z -> (forall i, (1 <= i < k)%nat -> z < g i) -> Rsum (map (fun i => beats z (g i)) (seq 0 k)) / INR k = 1 / (2 * INR k).
Proof.
  intros k g z K G0 G. destruct k as [|k]; [lia|]. cbn [seq map]. change (Rsum (beats z (g 0%nat) :: map (fun i => beats z (g i)) (seq 1 k))) with (beats z (g 0%nat) + Rsum (map (fun i => beats z (g i)) (seq 1 k))).
  assert (Z0 : Rsum (map (fun i => beats z (g i)) (seq 1 k)) = 0).
  { assert (F : forall i, In i (seq 1 k) -> z < g i) by (intros i I; apply in_seq in I; apply G; lia). revert F. generalize (seq 1 k). clear. induction l as [|i l IH]; intros F; [reflexivity|]. cbn [map]. change (Rsum (beats z (g i) :: map (fun i => beats z (g i)) l)) with (beats z (g i) + Rsum (map (fun i => beats z (g i)) l)).
    rewrite IH by (intros; apply F; right; auto). pose proof (F i (or_introl eq_refl)). unfold beats. destruct (Rlt_dec (g i) z); [lra|]. destruct (Req_EM_T z (g i)); lra. }
  rewrite Z0, G0. unfold beats. destruct (Rlt_dec z z); [lra|]. destruct (Req_EM_T z z); [|congruence]. field. apply not_0_INR. lia.
Qed.

(** ** ExactStorm *)
Lemma Rltb_spec : forall a b, BoolSpec (a < b) (b <= a) (Rltb a b).
Proof. intros. unfold Rltb. destruct (Rlt_dec a b); constructor; lra. Qed.
Lemma dist_self : forall x, dist x x = 0.
Proof. intros x. unfold dist. rewrite <- sqrt_0. f_equal. induction x as [|v x IH]; [reflexivity|]. cbn [combine map fst snd]. change (Rsum ((v - v) ^ 2 :: map (fun p => (fst p - snd p) ^ 2) (combine x x))) with ((v - v) ^ 2 + Rsum (map (fun p => (fst p - snd p) ^ 2) (combine x x))). rewrite IH. ring. Qed.
Lemma near_all : forall radius x win c, (forall r, In r win -> near radius x r = c) -> near_fraction radius x win = match win with [] => 0 | _ => if c then 1 else 0 end.
Proof.
  intros radius x win c H. unfold near_fraction. destruct win as [|r win]; auto. unfold fraction, Rlen.
  assert (E : filter (near radius x) (r :: win) = if c then r :: win else []).
  { revert H. generalize (r :: win). clear. induction l as [|r l IH]; intros H; [destruct c; reflexivity|]. cbn [filter]. rewrite (H r) by (left; auto). rewrite IH by (intros; apply H; right; auto). destruct c; reflexivity. }
  rewrite E. destruct c; [|cbn; unfold Rdiv; ring]. field. apply not_0_INR. cbn. lia.
Qed.
Lemma in_same : forall A (a : A) l r, Forall (eq a) l -> In r l -> r = a.
Proof. intros A a l r F I. rewrite Forall_forall in F. symmetry. auto. Qed.
Lemma storm_next : forall Y radius w (h : list (mcall (list R) Y)) a x y, 0 < radius -> (2 <= w)%Z -> only a h -> length x = length a ->
  eval (md_fit_score (ExactStorm radius) x y) (model_run (ExactStorm radius) (Window_init w) h) = Ok (VScalar (if near radius x a then 1 else 0)).
Proof.
  intros Y radius w h a x y Hr Hw [N F] L. rewrite C51_fit_score_excludes_itself by (try lia; intros r I; rewrite (in_same _ _ _ _ F I); auto).
  rewrite (near_all _ _ _ (near radius x a)).
  - destruct (lastn (Z.to_nat w - 1) (fitted_instances h)) eqn:E; [|reflexivity]. apply lastn_nonempty in E; [contradiction|lia|auto].
  - intros r I. apply In_lastn in I. rewrite (in_same _ _ _ _ F I). reflexivity.
Qed.
(** The familiar instance gets the highest possible score, 1, and an instance at distance radius or more the lowest, 0. *)
Theorem C108_exact_storm_refuted : forall Y radius w (h : list (mcall (list R) Y)) a b, 0 < radius -> (2 <= w)%Z -> only a h -> length b = length a -> radius <= dist a b ->
  next_score (ExactStorm radius) (Window_init w) h a = Ok (VScalar 1) /\ next_score (ExactStorm radius) (Window_init w) h b = Ok (VScalar 0).
Proof.
  intros Y radius w h a b Hr Hw O L D. unfold next_score. rewrite !(storm_next Y radius w h a) by auto. unfold near. rewrite dist_self.
  destruct (Rltb_spec 0 radius); [|lra]. destruct (Rltb_spec (dist a b) radius); [lra|]. auto.
Qed.
Print Assumptions C108_exact_storm_refuted.
Lemma only_repeat : forall Y a i (h : list (mcall (list R) Y)), (1 <= i)%nat -> fitted_instances h = repeat a i -> only a h.
Proof. intros Y a i h I E. split; rewrite E; [destruct i; [lia|discriminate]|]. apply Forall_forall. intros r H. apply repeat_spec in H. auto. Qed.
Theorem C108_exact_storm_auroc : forall radius w k a b, 0 < radius -> (2 <= w)%Z -> (1 <= k)%nat -> length b = length a -> radius <= dist a b ->
  spike_auroc (ExactStorm radius) (Window_init w) k a b = Ok (1 / (2 * INR k)).
Proof.
  intros radius w k a b Hr Hw K L D.
  assert (NA : near radius a a = true) by (unfold near; rewrite dist_self; destruct (Rltb_spec 0 radius); [auto|lra]).
  assert (NB : near radius b a = false) by (unfold near; destruct (Rltb_spec (dist a b) radius); [lra|auto]).
  rewrite (spike_value _ _ k a b (fun i => match i with O => 0 | S _ => 1 end) 0); auto.
  - f_equal. apply spike_worst; auto. intros [|i] Hi; [lia|lra].
  - intros i Hi h E. destruct i as [|i].
    + cbn [repeat] in E. rewrite C51_fit_score_excludes_itself by (try lia; rewrite E; intros r []). rewrite E, lastn_nil. reflexivity.
    + rewrite (storm_next R radius w h a) by (auto; apply (only_repeat R a (S i)); auto; lia). rewrite NA. reflexivity.
  - intros h E. rewrite (storm_next R radius w h a) by (auto; apply (only_repeat R a k); auto). rewrite NB. reflexivity.
Qed.
Print Assumptions C108_exact_storm_auroc.

(** ** RSHash *)
Lemma rshash_next : forall Y floor decay comps sp w (h : list (mcall (list R) Y)) x y, comps <> [] -> (1 <= w)%nat -> Forall (fits_components comps) (fitted_instances h) -> fits_components comps x ->
  let m := RSHash (Rpower 2) ln floor decay comps in
  exists v, eval (md_fit_score m x y) (model_run m (RSHash_init sp w) h) = Ok (VScalar v) /\
  ((forall c p, In c comps -> In p (fitted_instances h) -> cell_of floor c p <> cell_of floor c x) -> v = 0) /\
  ((exists c p, In c comps /\ In p (fitted_instances h) /\ cell_of floor c p = cell_of floor c x) -> 0 < v).
Proof.
  intros Y floor decay comps sp w h x y HC Hw F Fx m.
  destruct (C74_new_instance_scores_higher_refuted Y floor decay comps sp w (h ++ [CFit x y]) (fitted_instances h) x x HC Hw) as (v & E & V1 & V2).
  { rewrite fitted_instances_app. apply Forall_app. split; auto. repeat constructor. exact Fx. }
  { rewrite fitted_instances_app. reflexivity. }
  exists v. split; [|split; auto]. rewrite <- E. fold m. rewrite model_run_app. destruct (C74_score Y floor decay comps sp w h x HC Hw F) as (_ & _ & Fit). specialize (Fit x y Fx). fold m in Fit.
  set (s := model_run m (RSHash_init sp w) h) in *. clearbody s. unfold eval in *. change (md_fit_score m x y s) with ((md_fit m x y ;;; md_score m x) s). unfold bind.
  unfold model_run. cbn [fold_left]. unfold model_do, exec. cbn [model_call]. destruct (md_fit m x y s) as [r s1]. cbn [fst] in Fit. subst r. reflexivity.
Qed.
(** The familiar instance scores strictly higher than one that no component has seen. *)
Theorem C108_rshash_refuted : forall Y floor decay comps sp w (h : list (mcall (list R) Y)) a b, comps <> [] -> (1 <= w)%nat -> fits_components comps a -> fits_components comps b -> only a h ->
  (forall c, In c comps -> cell_of floor c a <> cell_of floor c b) ->
  let m := RSHash (Rpower 2) ln floor decay comps in
  exists u, next_score m (RSHash_init sp w) h a = Ok (VScalar u) /\ next_score m (RSHash_init sp w) h b = Ok (VScalar 0) /\ 0 < u.
Proof.
  intros Y floor decay comps sp w h a b HC Hw Fa Fb [N F] D m. unfold next_score.
  assert (FC : Forall (fits_components comps) (fitted_instances h)) by (eapply Forall_impl; [|exact F]; intros ? <-; auto).
  destruct (rshash_next Y floor decay comps sp w h a None HC Hw FC Fa) as (u & Eu & _ & U). destruct (rshash_next Y floor decay comps sp w h b None HC Hw FC Fb) as (v & Ev & V & _).
  exists u. unfold m. rewrite Eu, Ev, V. { repeat split; auto. apply U. destruct comps as [|c comps']; [congruence|]. destruct (fitted_instances h) as [|p l]; [congruence|]. exists c, p. split; [left; auto|]. split; [left; auto|]. inversion F; subst; auto. }
  intros c p Ic Ip. rewrite (in_same _ _ _ _ F Ip). auto.
Qed.
Print Assumptions C108_rshash_refuted.
Theorem C108_rshash_auroc : forall floor decay comps sp w k a b, comps <> [] -> (1 <= w)%nat -> fits_components comps a -> fits_components comps b -> (1 <= k)%nat ->
  (forall c, In c comps -> cell_of floor c a <> cell_of floor c b) ->
  spike_auroc (RSHash (Rpower 2) ln floor decay comps) (RSHash_init sp w) k a b = Ok (1 / (2 * INR k)).
Proof.
  intros floor decay comps sp w k a b HC Hw Fa Fb K D. set (m := RSHash (Rpower 2) ln floor decay comps).
  assert (FR : forall i (h : list (mcall (list R) R)), fitted_instances h = repeat a i -> Forall (fits_components comps) (fitted_instances h)).
  { intros i h E. rewrite E. apply Forall_forall. intros r H. apply repeat_spec in H. subst. auto. }
  set (g := fun i => mean (map (fun c => ln (1 + decayed_count floor decay c (repeat a i) a)) comps)).
  assert (GS : forall i (h : list (mcall (list R) R)) y, fitted_instances h = repeat a i -> eval (md_fit_score m a y) (model_run m (RSHash_init sp w) h) = Ok (VScalar (g i)) /\ (i = 0%nat -> g i = 0) /\ ((1 <= i)%nat -> 0 < g i)).
  { intros i h y E. destruct (rshash_next R floor decay comps sp w h a y HC Hw (FR i h E) Fa) as (v & Ev & V0 & V1). fold m in Ev.
    assert (Eg : v = g i).
    { destruct (C74_score R floor decay comps sp w (h ++ [CFit a y]) a HC Hw) as (_ & S & _). { rewrite fitted_instances_app. apply Forall_app. split; [eapply FR; eauto|]. repeat constructor. exact Fa. }
      specialize (S (repeat a i) a). rewrite fitted_instances_app, E in S. specialize (S eq_refl). fold m in S. rewrite model_run_app in S.
      destruct (C74_score R floor decay comps sp w h a HC Hw (FR i h E)) as (_ & _ & Fit). specialize (Fit a y Fa). fold m in Fit.
      set (s := model_run m (RSHash_init sp w) h) in *. clearbody s. unfold eval in *. change (md_fit_score m a y s) with ((md_fit m a y ;;; md_score m a) s) in Ev. unfold bind in Ev.
      unfold model_run in S. cbn [fold_left] in S. unfold model_do, exec in S. cbn [model_call] in S. destruct (md_fit m a y s) as [r s1]. cbn [fst] in Fit. subst r. cbn [snd] in S. rewrite S in Ev. cbn [fst] in Ev. injection Ev as <-. reflexivity. }
    subst v. split; [exact Ev|]. split.
    - intros ->. apply V0. rewrite E. intros c p _ [].
    - intros I. apply V1. destruct comps as [|c comps']; [congruence|]. exists c, a. split; [left; auto|]. split; auto. rewrite E. destruct i; [lia|left; auto]. }
  assert (H0 : g 0%nat = 0). { destruct (GS 0%nat [] None eq_refl) as (_ & G & _). auto. }
  rewrite (spike_value m _ k a b g 0); auto.
  - f_equal. apply spike_worst; auto. intros i Hi. destruct (GS i (repeat (CFit a None) i) None) as (_ & _ & G); [|apply G; lia].
    clear. induction i as [|i IH]; auto. unfold fitted_instances in *. cbn. f_equal. exact IH.
  - intros i Hi h E. apply GS; auto.
  - intros h E. destruct (rshash_next R floor decay comps sp w h b (Some 1) HC Hw (FR k h E) Fb) as (v & Ev & V0 & _). fold m in Ev. rewrite Ev, V0; auto.
    intros c p Ic Ip. rewrite E in Ip. apply repeat_spec in Ip. subst. auto.
Qed.
Print Assumptions C108_rshash_auroc.

(** ** Detectors for which the anomaly scores higher *)
Lemma next_after_fit : forall Y A (m : Model (list R) Y A) s0 h x, (forall s, md_fit_score m x None s = bind (md_fit m x None) (fun _ => md_score m x) s) ->
  eval (md_fit m x None) (model_run m s0 h) = Ok tt -> next_score m s0 h x = eval (md_score m x) (model_run m s0 (h ++ [CFit x None])).
Proof.
  intros Y A m s0 h x D F. unfold next_score. rewrite model_run_app. set (s := model_run m s0 h) in *. clearbody s. unfold eval in *. rewrite D. unfold bind.
  unfold model_run. cbn [fold_left]. unfold model_do, exec. cbn [model_call]. destruct (md_fit m x None s) as [r s1]. cbn [fst] in F. subst r. reflexivity.
Qed.
Lemma Rsum_cons2 : forall a l, Rsum (a :: l) = a + Rsum l.
Proof. reflexivity. Qed.
Lemma Rsum_map_le : forall A (f g : A -> R) l, (forall x, In x l -> f x <= g x) -> Rsum (map f l) <= Rsum (map g l) /\ ((exists x, In x l /\ f x < g x) -> Rsum (map f l) < Rsum (map g l)).
Proof.
  intros A f g l. induction l as [|a l IH]; intros H.
  - split; [cbn; lra|]. intros (x & [] & _).
  - destruct IH as [I1 I2]; [intros; apply H; right; auto|]. pose proof (H a (or_introl eq_refl)) as Ha. cbn [map]. rewrite !Rsum_cons2. split; [lra|].
    intros (x & [<-|I] & L); [lra|]. assert (Rsum (map f l) < Rsum (map g l)) by (apply I2; eauto). lra.
Qed.
Lemma all_share : forall t d ref a, Forall (eq a) ref -> sharing t d ref a = INR (length ref).
Proof. intros t d ref a F. unfold sharing. do 2 f_equal. induction F as [|x ref <- F IH]; auto. cbn [filter]. destruct (list_eq_dec bool_dec _ _); [|congruence]. f_equal. auto. Qed.
Lemma filter_less : forall A (f : A -> bool) l a, In a l -> f a = false -> (length (filter f l) < length l)%nat.
Proof.
  intros A f l a. induction l as [|x l IH]; intros I E; [destruct I|]. cbn [filter]. destruct I as [->|I].
  - rewrite E. cbn. pose proof (filter_length_le _ f l). lia.
  - specialize (IH I E). destruct (f x); cbn; lia.
Qed.
Lemma not_all_share : forall t d ref a b, In a ref -> route d t a <> route d t b -> sharing t d ref b < INR (length ref).
Proof. intros t d ref a b I N. unfold sharing. apply lt_INR. apply (filter_less _ _ _ a); auto. destruct (list_eq_dec bool_dec _ _); congruence. Qed.
Lemma In_skipn : forall X n (l : list X) a, In a (skipn n l) -> In a l.
Proof. intros X n. induction n; intros [|x l] a H; cbn [skipn] in H; auto. right. auto. Qed.
Lemma In_firstn : forall X n (l : list X) a, In a (firstn n l) -> In a l.
Proof. intros X n. induction n; intros [|x l] a H; cbn [firstn] in H; try (destruct H; fail). destruct H as [->|H]; [left; auto|right; auto]. Qed.
Definition hst_ref (W : nat) (xs : list (list R)) : list (list R) := if (length xs <? W)%nat then xs else block W (length xs / W - 1) xs.
Lemma ref_length : forall W xs, (1 <= W)%nat -> length (hst_ref W xs) = Nat.min W (length xs).
Proof.
  intros W xs HW. unfold hst_ref. destruct (Nat.ltb_spec (length xs) W); [lia|]. unfold block. rewrite firstn_length, skipn_length.
  pose proof (Nat.div_mod (length xs) W ltac:(lia)). pose proof (Nat.div_le_mono W (length xs) W ltac:(lia) H). rewrite Nat.div_same in H1 by lia.
  assert ((length xs / W - 1) * W + W <= length xs)%nat by nia. lia.
Qed.
Lemma ref_incl : forall W xs x, In x (hst_ref W xs) -> In x xs.
Proof. intros W xs x I. unfold hst_ref in I. destruct (_ <? _)%nat; auto. unfold block in I. apply In_firstn in I. apply In_skipn in I. auto. Qed.
Lemma ref_has_old : forall W l (a b : list R), (2 <= W)%nat -> l <> [] -> Forall (eq a) l -> In a (hst_ref W (l ++ [b])).
Proof.
  intros W l a b HW NE F. unfold hst_ref. destruct (Nat.ltb_spec (length (l ++ [b])) W) as [H|H].
  - apply in_or_app. left. destruct l; [congruence|]. inversion F; subst. left; auto.
  - rewrite app_length in *. cbn [length] in *. set (n := (length l + 1)%nat) in *. pose proof (Nat.div_mod n W ltac:(lia)). pose proof (Nat.div_le_mono W n W ltac:(lia) H). rewrite Nat.div_same in H1 by lia.
    assert (B : ((n / W - 1) * W + W <= n)%nat) by nia. unfold block.
    rewrite skipn_app. destruct (skipn ((n / W - 1) * W) l) as [|c r] eqn:E.
    { apply (f_equal (@length _)) in E. rewrite skipn_length in E. cbn in E. lia. }
    assert (c = a). { rewrite Forall_forall in F. symmetry. apply F. apply (In_skipn _ ((n / W - 1) * W)). rewrite E. left; auto. }
    subst c. destruct W; [lia|]. left. reflexivity.
Qed.
Theorem C108_half_space_trees : forall Y cast draw mins maxes W T D (h : list (mcall (list R) Y)) a b, let dim := length maxes in
  length mins = dim -> (1 <= dim)%nat -> (forall i, (draw i < dim)%nat) -> (1 <= W)%nat -> only a h -> (dim <= length a)%nat -> (dim <= length b)%nat ->
  exists s0 u v, HST_init (Y := Y) cast draw mins maxes W T D IWNone = Ok s0 /\
    next_score (HalfSpaceTrees W D) s0 h a = Ok (VScalar u) /\ next_score (HalfSpaceTrees W D) s0 h b = Ok (VScalar v) /\ u <= v /\
    ((2 <= W)%nat -> (exists t d, In t (hs_roots s0) /\ (d <= D)%nat /\ route d t a <> route d t b) -> u < v).
Proof.
  intros Y cast draw mins maxes W T D h a b dim Hl Hd Hq HW [N F] La Lb.
  assert (Fh : Forall (fun x => (dim <= length x)%nat) (fitted_instances h)) by (eapply Forall_impl; [|exact F]; intros ? <-; auto).
  destruct (C53_masses R Y NumR cast draw mins maxes W T D h Hl Hd Hq HW Fh) as (s0 & E0 & _ & _ & Fit). exists s0.
  assert (G : forall x, (dim <= length x)%nat -> next_score (HalfSpaceTrees W D) s0 h x = Ok (VScalar (- Rsum (map (fun t => cell_sum D t (hst_ref W (fitted_instances h ++ [x])) x) (hs_roots s0))))).
  { intros x Lx. rewrite next_after_fit; [|reflexivity|apply Fit; auto].
    destruct (C54_score Y cast draw mins maxes W T D (h ++ [CFit x None]) x Hl Hd Hq HW) as (s0' & E0' & S); auto.
    { rewrite fitted_instances_app. apply Forall_app. split; auto. repeat constructor. exact Lx. }
    rewrite E0 in E0'. injection E0' as <-. unfold eval. cbv zeta in S. rewrite S. cbn [fst]. rewrite fitted_instances_app. reflexivity. }
  do 2 eexists. split; [exact E0|]. split; [apply G; auto|]. split; [apply G; auto|].
  set (ra := hst_ref W (fitted_instances h ++ [a])). set (rb := hst_ref W (fitted_instances h ++ [b])).
  assert (LR : length ra = length rb) by (unfold ra, rb; rewrite !ref_length, !app_length by auto; reflexivity).
  assert (Fa : Forall (eq a) ra). { apply Forall_forall. intros x I. apply ref_incl in I. apply in_app_or in I. destruct I as [I|[<-|[]]]; auto. rewrite Forall_forall in F. auto. }
  assert (S1 : forall t d, sharing t d rb b <= sharing t d ra a). { intros t d. rewrite (all_share t d ra a Fa), LR. apply sharing_le. }
  assert (C1 : forall t, cell_sum D t rb b <= cell_sum D t ra a /\ ((exists d, (d <= D)%nat /\ sharing t d rb b < sharing t d ra a) -> cell_sum D t rb b < cell_sum D t ra a)).
  { intros t. unfold cell_sum. destruct (Rsum_map_le _ (fun d => 2 ^ d * sharing t d rb b) (fun d => 2 ^ d * sharing t d ra a) (seq 0 (S D))) as [L1 L2].
    - intros d _. apply Rmult_le_compat_l; auto. apply pow_le. lra.
    - split; auto. intros (d & Hd' & Hs). apply L2. exists d. split; [apply in_seq; lia|]. apply Rmult_lt_compat_l; auto. apply pow_lt. lra. }
  destruct (Rsum_map_le _ (fun t => cell_sum D t rb b) (fun t => cell_sum D t ra a) (hs_roots s0)) as [M1 M2]; [intros; apply C1|].
  split; [lra|]. intros W2 (t & d & It & Hd' & NR). apply Ropp_lt_contravar. apply M2. exists t. split; auto. apply C1. exists d. split; auto.
  rewrite (all_share t d ra a Fa), LR. apply (not_all_share t d rb a b); auto. apply ref_has_old; auto.
Qed.
Print Assumptions C108_half_space_trees.

(** xStream: proved during the first window; C77 shows what happens when a window has been completed. *)
Lemma mean_le_map2 : forall (l l' : list R), Forall2 Rle l l' -> mean l <= mean l'.
Proof.
  intros l l' F. unfold mean, Rlen. rewrite (Forall2_length _ _ _ _ _ F). unfold Rdiv. destruct l' as [|v l'].
  - inversion F; subst. lra.
  - apply Rmult_le_compat_r; [left; apply Rinv_0_lt_compat, lt_0_INR; cbn; lia|]. revert F. generalize (v :: l'). clear. intros l' F. induction F; [cbn; lra|]. rewrite !Rsum_cons2. lra.
Qed.
Lemma log2_le : forall x y, 0 < x -> x <= y -> log2 x <= log2 y.
Proof. intros x y P [L| ->]; [|lra]. unfold log2, Rdiv. apply Rmult_le_compat_r; [left; apply Rinv_0_lt_compat; rewrite <- ln_1; apply ln_increasing; lra|]. left. apply ln_increasing; auto. Qed.
Theorem C108_xstream : forall Y mmh3 n density p floor W draws (h : list (mcall (list R) Y)) a b, (1 <= n)%Z -> Streamhash_init 1 n density = Ok p ->
  let K := Z.to_nat n in chain_draws K draws -> only a h -> (S (length (fitted_instances h)) < W)%nat ->
  exists u v, next_score (XStream mmh3 p floor K W) (xstream_new K draws) h a = Ok (VArray [u]) /\ next_score (XStream mmh3 p floor K W) (xstream_new K draws) h b = Ok (VArray [v]) /\ u <= v.
Proof.
  intros Y mmh3 n density p floor W draws h a b Hn E K DR [N F] LW. set (m := XStream mmh3 p floor K W).
  assert (G : forall x, exists zs z mins, length zs = S (length (fitted_instances h)) /\ (Forall (eq a) (fitted_instances h ++ [x]) -> Forall (eq z) zs) /\
    Forall2 (fun d mn => is_min mn (depth_values floor (fst d) (snd d) (repeat (1 / 2) K) (repeat (1 / 2) K) zs z)) draws mins /\
    next_score m (xstream_new K draws) h x = Ok (VArray [mean (map Ropp mins)])).
  { intros x. destruct (C75_score Y mmh3 n density p floor W draws h x Hn E ltac:(lia) DR) as (_ & _ & _ & _ & _ & _ & _ & _ & _ & _ & _ & Fit).
    destruct (C75_score Y mmh3 n density p floor W draws (h ++ [CFit x None]) x Hn E ltac:(lia) DR) as (zs & z & dref & delta & mins & Fz & Pz & R1 & R2 & FM & S & _).
    rewrite fitted_instances_app in *. change (fitted_instances [CFit x (@None Y)]) with [x] in *. pose proof (Forall2_length _ _ _ _ _ Fz) as L. rewrite app_length in *. cbn [length] in *. replace (length (fitted_instances h) + 1)%nat with (Datatypes.S (length (fitted_instances h))) in * by lia.
    rewrite Nat.div_small in * by auto. cbn [Nat.sub ranges_after] in R1, R2. subst dref delta. destruct (Nat.ltb_spec (Datatypes.S (length (fitted_instances h))) W); [|lia].
    exists zs, z, mins. split; [lia|]. split; [|split; [exact FM|]].
    - intros FA. apply Forall_app in FA as FA'. destruct FA' as [_ FX]. inversion FX as [|? ? EX _]. subst x.
      clear - Fz Pz FA. revert FA. generalize dependent (fitted_instances h ++ [a]). intros l Fz FA. induction Fz; constructor; inversion FA; subst; auto. eapply projects_unique; eauto.
    - rewrite next_after_fit; [|reflexivity|apply Fit]. unfold eval. fold K in S. fold m in S. rewrite S. reflexivity. }
  destruct (G a) as (za & z & ma & La & Fa & Ma & Ea). destruct (G b) as (zb & z' & mb & Lb & _ & Mb & Eb).
  exists (mean (map Ropp ma)), (mean (map Ropp mb)). split; auto. split; auto. apply mean_le_map2.
  assert (FA : Forall (eq z) za) by (apply Fa, Forall_app; split; auto). clear Fa Ea Eb G N F.
  assert (DV : forall fs rand, Forall2 Rle (depth_values floor fs rand (repeat (1 / 2) K) (repeat (1 / 2) K) zb z') (depth_values floor fs rand (repeat (1 / 2) K) (repeat (1 / 2) K) za z)).
  { intros fs rand. unfold depth_values. generalize (seq 1 (length fs)). intros l. induction l as [|k l IH]; cbn [map]; constructor; auto. apply Rplus_le_compat_r. apply log2_le; [pose proof (pos_INR (bin_count floor rand (repeat (1 / 2) K) (repeat (1 / 2) K) (firstn k fs) zb z')); lra|].
    apply Rplus_le_compat_l, le_INR. unfold bin_count. transitivity (length zb); [apply filter_length_le|]. rewrite Lb, <- La. clear - FA. induction FA as [|x l <- FA IH]; auto. cbn [filter]. destruct (list_eq_dec Z.eq_dec _ _); [cbn; lia|congruence]. }
  clear DR. revert ma Ma mb Mb. induction draws as [|d draws IH]; intros ma Ma mb Mb; inversion Ma as [|d1 y1 l1 l1' Ia]; inversion Mb as [|d2 y2 l2 l2' Ib]; subst; cbn [map]; constructor; [|apply IH; auto].
  apply Ropp_le_contravar. destruct Ia as [Ia _]. destruct Ib as [_ Ib]. specialize (DV (fst d) (snd d)). revert Ia Ib.
  generalize dependent (depth_values floor (fst d) (snd d) (repeat (1 / 2) K) (repeat (1 / 2) K) za z). generalize (depth_values floor (fst d) (snd d) (repeat (1 / 2) K) (repeat (1 / 2) K) zb z').
  intros lb la DV Ia Ib. assert (X : exists w, In w lb /\ w <= y1). { clear - DV Ia. induction DV; [destruct Ia|]. destruct Ia as [<-|Ia]; [exists x; split; [left|]; auto|]. destruct (IHDV Ia) as (w & I & L). exists w. split; [right|]; auto. }
  destruct X as (w & Iw & Lw). specialize (Ib w Iw). lra.
Qed.
Print Assumptions C108_xstream.

(** The univariate detectors: the value they expect scores 0, every other value scores more. *)
Lemma fitted_univariate : forall Y (h : list (mcall (list R) Y)), univariate h = flat_map (fun x : list R => match x with [v] => [v] | _ => [] end) (fitted_instances h).
Proof. intros Y h. unfold univariate, fitted_instances. rewrite !flat_map_concat_map, map_map. reflexivity. Qed.
Lemma only_univariate : forall Y u (h : list (mcall (list R) Y)), only [u] h -> univariate h = repeat u (length (fitted_instances h)).
Proof. intros Y u h [_ F]. rewrite fitted_univariate. induction F as [|x l <- F IH]; auto. cbn [flat_map app length repeat]. f_equal; auto. Qed.
Lemma univariate_snoc : forall Y v (h : list (mcall (list R) Y)) y, univariate (h ++ [CFit [v] y]) = univariate h ++ [v].
Proof. intros. rewrite !fitted_univariate, fitted_instances_app, flat_map_app. reflexivity. Qed.
Lemma sad_fits : forall Y eps ab n m (h : list (mcall (list R) Y)) v y, SAD_statistic n = Ok m ->
  eval (md_fit (StandardAbsoluteDeviation eps ab m) [v] y) (model_run (StandardAbsoluteDeviation eps ab m) (SAD_init m) h) = Ok tt.
Proof.
  assert (G : forall Y eps ab m spec Rl (HR : Rep m spec Rl) (h : list (mcall (list R) Y)) v y, eval (md_fit (StandardAbsoluteDeviation eps ab m) [v] y) (model_run (StandardAbsoluteDeviation eps ab m) (SAD_init m) h) = Ok tt).
  { intros. destruct (sad_run Y eps ab m spec Rl HR h) as [H1 H2]. set (s := model_run _ _ h) in *. clearbody s. destruct s as [sv ss]. cbn [fst snd] in *.
    unfold eval. cbn [md_fit StandardAbsoluteDeviation plain_model]. unfold the_value, zoom, bind, lift. cbn [fst snd].
    destruct (rep_upd _ _ _ var_rep _ sv v H1) as (s1 & E1 & _). rewrite E1. cbn [fst snd]. destruct (rep_upd _ _ _ HR _ ss v H2) as (s2 & E2 & _). rewrite E2. reflexivity. }
  intros Y eps ab [| |] m h v y Hn; cbn in Hn; inversion Hn; [exact (G Y eps ab _ _ _ med_rep h v y)|exact (G Y eps ab _ _ _ avg_rep h v y)].
Qed.
Lemma Rsum_repeat : forall u k, Rsum (repeat u k) = INR k * u.
Proof. induction k; [cbn; ring|]. cbn [repeat]. rewrite Rsum_cons2, IHk, S_INR. ring. Qed.
Lemma Rsum_app2 : forall l l', Rsum (l ++ l') = Rsum l + Rsum l'.
Proof. induction l as [|a l IH]; intros l'; cbn [app]; [change (Rsum []) with 0; ring|]. rewrite !Rsum_cons2, IH. ring. Qed.
Lemma mean_spike : forall u v k, mean (repeat u k ++ [v]) = u + (v - u) / (INR k + 1).
Proof. intros. unfold mean, Rlen. rewrite Rsum_app2, Rsum_repeat, app_length, repeat_length, plus_INR. cbn [length INR]. rewrite Rsum_cons2. change (Rsum []) with 0. field. pose proof (pos_INR k). lra. Qed.
Lemma std_nonneg : forall l, 0 <= std l.
Proof. intros. apply sqrt_pos. Qed.
Theorem C108_standard_deviation : forall Y eps (h : list (mcall (list R) Y)) u v, 0 < eps -> only [u] h -> v <> u ->
  exists s, next_score (StandardAbsoluteDeviation eps true AverageMeter) (SAD_init AverageMeter) h [u] = Ok (VArray [FinV 0]) /\
    next_score (StandardAbsoluteDeviation eps true AverageMeter) (SAD_init AverageMeter) h [v] = Ok (VArray [FinV s]) /\ 0 < s.
Proof.
  intros Y eps h u v He O NE. set (k := length (fitted_instances h)). pose proof (only_univariate Y u h O) as EU. fold k in EU. assert (K : (1 <= k)%nat) by (destruct O as [N _]; unfold k; destruct (fitted_instances h); [congruence|cbn; lia]). apply le_INR in K. cbn [INR] in K.
  assert (G : forall w, next_score (StandardAbsoluteDeviation eps true AverageMeter) (SAD_init AverageMeter) h [w] = Ok (VArray [FinV (Rabs ((w - (u + (w - u) / (INR k + 1))) / (std (repeat u k ++ [w]) + eps)))])).
  { intros w. rewrite next_after_fit; [|reflexivity|apply (sad_fits Y eps true NMean); reflexivity].
    rewrite (C71_score Y eps true NMean AverageMeter _ _ (mean (repeat u k ++ [w])) He eq_refl).
    - rewrite univariate_snoc, EU, mean_spike. reflexivity.
    - rewrite univariate_snoc, EU. constructor. destruct (repeat u k); discriminate. }
  exists (Rabs ((v - (u + (v - u) / (INR k + 1))) / (std (repeat u k ++ [v]) + eps))). split; [|split; [apply G|]].
  - rewrite G. replace (u - (u + (u - u) / (INR k + 1))) with 0 by (field; lra). unfold Rdiv. rewrite Rmult_0_l, Rabs_R0. reflexivity.
  - apply Rabs_pos_lt. pose proof (std_nonneg (repeat u k ++ [v])). replace (v - (u + (v - u) / (INR k + 1))) with ((v - u) * (INR k / (INR k + 1))) by (field; lra).
    unfold Rdiv. repeat apply Rmult_integral_contrapositive_currified; try lra; apply Rinv_neq_0_compat; lra.
Qed.
Print Assumptions C108_standard_deviation.
Lemma median_most : forall u v k, (2 <= k)%nat -> is_median u (repeat u k ++ [v]).
Proof.
  assert (S1 : forall u k, Sorted Rle (repeat u k)). { intros u. induction k as [|k IH]; cbn [repeat]; constructor; auto. destruct k; cbn [repeat]; constructor. lra. }
  assert (NR : forall (u : R) k i, (i < k)%nat -> nth i (repeat u k) 0 = u). { intros u k. induction k; intros i H; [lia|]. destruct i; cbn [repeat nth]; auto. apply IHk. lia. }
  intros u v k K. destruct (Rle_dec v u) as [L|L].
  - exists (v :: repeat u k). split; [apply Permutation_cons_append|]. split; [constructor; auto; destruct k; cbn [repeat]; constructor; auto|]. split; [destruct k; [lia|discriminate]|]. rewrite app_length, repeat_length. cbn [length].
    assert (D : (2 <= (k + 1) / 2 + (if Nat.odd (k + 1) then 1 else 0) /\ (k + 1) / 2 <= k)%nat).
    { pose proof (Nat.div_mod (k + 1) 2 ltac:(lia)). pose proof (Nat.mod_upper_bound (k + 1) 2 ltac:(lia)). destruct (Nat.odd (k + 1)) eqn:O; [lia|]. rewrite <- Nat.negb_even, negb_false_iff, Nat.even_spec in O. destruct O as [j O]. lia. }
    destruct (Nat.odd (k + 1)).
    + destruct ((k + 1) / 2)%nat as [|j]; [lia|]. cbn [nth]. rewrite NR by lia. reflexivity.
    + destruct ((k + 1) / 2)%nat as [|[|j]]; [lia|lia|]. cbn [nth Nat.sub]. rewrite !NR by lia. lra.
  - exists (repeat u k ++ [v]). split; [reflexivity|]. split.
    { clear K. induction k as [|k IH]; cbn [repeat app]; [repeat constructor|]. constructor; auto. destruct k; cbn [repeat app]; constructor; lra. }
    split; [destruct k; [lia|discriminate]|]. rewrite app_length, repeat_length. cbn [length].
    assert (D : ((k + 1) / 2 < k)%nat). { pose proof (Nat.div_mod (k + 1) 2 ltac:(lia)). pose proof (Nat.mod_upper_bound (k + 1) 2 ltac:(lia)). lia. }
    rewrite !app_nth1 by (rewrite repeat_length; lia). rewrite !NR by lia. destruct (Nat.odd _); lra.
Qed.
Lemma median_repeat : forall u k, (1 <= k)%nat -> is_median u (repeat u k).
Proof.
  assert (S1 : forall u k, Sorted Rle (repeat u k)). { intros u. induction k as [|k IH]; cbn [repeat]; constructor; auto. destruct k; cbn [repeat]; constructor. lra. }
  assert (NR : forall (u : R) k i, (i < k)%nat -> nth i (repeat u k) 0 = u). { intros u k. induction k; intros i H; [lia|]. destruct i; cbn [repeat nth]; auto. apply IHk. lia. }
  intros u k K. exists (repeat u k). split; [reflexivity|]. split; [auto|]. split; [destruct k; [lia|discriminate]|]. rewrite repeat_length. pose proof (Nat.div_mod k 2 ltac:(lia)). pose proof (Nat.mod_upper_bound k 2 ltac:(lia)). rewrite !NR by lia. destruct (Nat.odd k); lra.
Qed.
Lemma devs_repeat : forall u k, devs_fn (repeat u k) = repeat 0 k.
Proof.
  intros u. induction k as [|k IH]; [reflexivity|]. replace (repeat u (S k)) with (repeat u k ++ [u]) by (symmetry; apply repeat_cons). rewrite devs_fn_snoc, IH, <- repeat_cons.
  rewrite (median_unique (median_fn (u :: repeat u k)) u (u :: repeat u k)); [|apply median_fn_spec; discriminate|apply (median_repeat u (S k)); lia].
  unfold Rminus. rewrite Rplus_opp_r, Rabs_R0. symmetry. apply (repeat_cons k 0).
Qed.
Theorem C108_median_deviation : forall Y eps b (h : list (mcall (list R) Y)) u v, 0 < eps -> 0 <= b -> only [u] h -> (2 <= length (fitted_instances h))%nat ->
  next_score (MedianAbsoluteDeviation eps b true) MAD_init h [v] = Ok (VArray [FinV (Rabs (v - u) / eps)]).
Proof.
  intros Y eps b h u v He Hb O K. set (k := length (fitted_instances h)) in *. pose proof (only_univariate Y u h O) as EU. fold k in EU.
  rewrite next_after_fit; [|reflexivity|].
  2:{ destruct (mad_fit_step Y eps b true _ _ v None (mad_run Y eps b true h)) as (s' & E & _). unfold eval. rewrite E. reflexivity. }
  assert (M : median_fn (repeat u k ++ [v]) = u). { eapply median_unique; [apply median_fn_spec; destruct k; [lia|discriminate]|apply median_most; auto]. }
  rewrite (C70_score Y eps b true _ _ u (repeat 0 k ++ [Rabs (v - u)]) 0 He Hb).
  - cbn [map maybe_abs]. do 4 f_equal. replace (b * 0 + eps) with eps by ring. unfold Rdiv. rewrite Rabs_mult. f_equal. apply Rabs_pos_eq. left. apply Rinv_0_lt_compat. auto.
  - rewrite univariate_snoc, EU. apply median_most. auto.
  - apply running_devs_fn. rewrite univariate_snoc, EU, devs_fn_snoc, devs_repeat, M. reflexivity.
  - apply median_most. auto.
Qed.
Print Assumptions C108_median_deviation.

(** Three normal instances at 0, then one at 5: ExactStorm ranks the anomaly last; a detector of a median deviation ranks it first; a half-space tree separates the two. *)
Example C108_ex : spike_auroc (ExactStorm 1) (Window_init 10) 3 [0] [5] = Ok (1 / (2 * INR 3)) /\
  next_score (MedianAbsoluteDeviation 1 1 true) MAD_init [CFit [0] None; CFitScore [0] (@None unit); CScore [9]] [5] = Ok (VArray [FinV (Rabs (5 - 0) / 1)]) /\
  (forall fl, fl ((0 + 0) / 1) = 0%Z -> fl ((5 + 0) / 1) = 5%Z -> spike_auroc (RSHash (Rpower 2) ln fl 1 [mkComp [0%nat] [0] 1]) (RSHash_init 1000 2) 3 [0] [5] = Ok (1 / (2 * INR 3))) /\
  exists s0 t, HST_init (A := R) (Y := unit) (fun a => a) (fun _ => 0%nat) [0] [4] 2 1 1 IWNone = Ok s0 /\ In t (hs_roots s0) /\ route 1 t [0] <> route 1 t [5].
Proof.
  split; [|split; [|split]].
  - apply C108_exact_storm_auroc; try lra; try lia; auto. unfold dist. cbn [combine map fst snd]. rewrite Rsum_cons2. change (Rsum []) with 0. replace ((0 - 5) ^ 2 + 0) with (5 * 5) by ring. rewrite sqrt_square; lra.
  - apply C108_median_deviation; try lra; [|cbn; lia]. split; [discriminate|]. repeat constructor.
  - intros fl F0 F5. apply C108_rshash_auroc; try lia; try discriminate; try (repeat constructor; fail). intros c [<-|[]]. unfold cell_of. cbn [rs_V rs_alpha rs_f combine map fst snd nth]. rewrite F0, F5. discriminate.
  - eexists. eexists. split; [reflexivity|]. split; [left; reflexivity|]. cbn [route nth]. match goal with |- context [Rltb ?p 0] => replace p with 2 by (cbn; lra) end.
    destruct (Rltb_spec 2 0); [lra|]. destruct (Rltb_spec 2 5); [discriminate|lra].
Qed.
