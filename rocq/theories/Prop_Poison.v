(** * C114: one nan or infinity in the data, on IEEE-754 binary64. *)
From Flocq Require Import Core BinarySingleNaN PrimFloat.
From Coq Require Import List ZArith Lia Bool Arith.
From Coq Require Import Floats Reals Lra.
From Verif Require Import Base Num Spec Model_Stats Model_Utils Model_Core Model_Post Model_Simple P_Lists P_Stats P_Float P_Utils P_Core P_Post P_Models Prop_Stats.
Import ListNotations.
Open Scope R_scope.

(** ** Arithmetic: a finite result has finite operands *)
Ltac cases a b := destruct (Prim2B a) as [[]|[]| |? ? ? ?], (Prim2B b) as [[]|[]| |? ? ? ?].
Lemma add_inv : forall a b, finite (a + b)%float -> finite a /\ finite b.
Proof. intros a b H. destruct (add_real a b H) as (F1 & F2 & _). auto. Qed.
Lemma sub_inv : forall a b, finite (a - b)%float -> finite a /\ finite b.
Proof. intros a b. rewrite !finite_B, sub_equiv. cases a b; intros H; try discriminate H; split; reflexivity. Qed.
Lemma mul_inv : forall a b, finite (a * b)%float -> finite a /\ finite b.
Proof. intros a b. rewrite !finite_B, mul_equiv. cases a b; intros H; try discriminate H; split; reflexivity. Qed.
Lemma div_inv : forall a b, finite (a / b)%float -> finite a.
Proof. intros a b. rewrite !finite_B, div_equiv. cases a b; intros H; try discriminate H; reflexivity. Qed.
Lemma abs_inv : forall a, finite (abs a) -> finite a.
Proof. intros a. rewrite !finite_B, abs_equiv, is_finite_Babs. auto. Qed.

(** ** Statistics *)
(** The statistic m has a condition, met after any non-finite value was added or removed, that no call repairs and under which get() gives no finite number. *)
Definition poisonable (m : Meter float float) : Prop := exists bad : mt_state m -> Prop,
  (forall x s, ~ finite x \/ bad s -> bad (exec (mt_update m x) s)) /\ (forall x s, ~ finite x \/ bad s -> bad (exec (mt_remove m x) s)) /\
  (forall s, bad s -> bad (exec (mt_get m) s)) /\ (forall s v, bad s -> eval (mt_get m) s = Ok v -> ~ finite v).
Definition bad_sum (s : sumst float) : Prop := ~ finite (ss_sum s).
Lemma sum_poison : poisonable SumMeter.
Proof.
  exists bad_sum. unfold bad_sum. split; [|split; [|split]].
  - intros x s H F. cbn in F. apply add_inv in F. tauto.
  - intros x s H F. cbn in F. apply sub_inv in F. tauto.
  - intros s H. exact H.
  - intros s v H E. inversion E. subst. exact H.
Qed.
Lemma sumsq_poison : poisonable SumSquaresMeter.
Proof.
  exists bad_sum. unfold bad_sum. split; [|split; [|split]].
  - intros x s H F. cbn in F. apply add_inv in F. destruct F as [F1 F2]. unfold nsq in F2. cbn in F2. apply mul_inv in F2. tauto.
  - intros x s H F. cbn in F. apply sub_inv in F. destruct F as [F1 F2]. unfold nsq in F2. cbn in F2. apply mul_inv in F2. tauto.
  - intros s H. exact H.
  - intros s v H E. inversion E. subst. exact H.
Qed.
Lemma div_int_inv : forall (a : float) n v, div_int a n = Ok v -> finite v -> finite a.
Proof. intros a n v E F. unfold div_int in E. destruct (n =? 0)%Z; [discriminate|]. inversion E. subst. cbn in F. apply div_inv in F. exact F. Qed.
Lemma avg_poison : poisonable AverageMeter.
Proof.
  exists bad_sum. unfold bad_sum. split; [|split; [|split]].
  - intros x s H F. cbn in F. apply add_inv in F. tauto.
  - intros x s H F. cbn in F. apply sub_inv in F. tauto.
  - intros s H. unfold exec. cbn. unfold bind, gets, lift. cbn. exact H.
  - intros s v H E F. unfold eval in E. cbn in E. unfold bind, gets, lift in E. cbn in E. apply H. eapply div_int_inv; eauto.
Qed.
Lemma var_poison : poisonable VarianceMeter.
Proof.
  exists (fun s => bad_sum (vs_sum s)). unfold bad_sum. split; [|split; [|split]].
  - intros x s H F. unfold exec in F. cbn in F. unfold bind, zoom, modify in F. cbn in F. apply add_inv in F. tauto.
  - intros x s H F. unfold exec in F. cbn in F. unfold bind, zoom, modify in F. cbn in F. apply sub_inv in F. tauto.
  - intros s H. unfold exec. cbn. unfold bind, zoom, gets, lift. cbn. destruct (div_int _ (vs_cnt s)); [destruct (div_int _ _)|]; exact H.
  - intros s v H E F. unfold eval in E. cbn in E. unfold bind, zoom, gets, lift in E. cbn in E. match type of E with context [div_int ?z (vs_cnt s)] => destruct (div_int z (vs_cnt s)) as [q|] eqn:Q end; cbn in E; [|inversion E].
    apply (div_int_inv _ _ _ E) in F. apply sub_inv in F. destruct F as [_ F]. apply (div_int_inv _ _ _ Q) in F. unfold nsq in F. cbn in F. apply mul_inv in F. tauto.
Qed.

(** After any history in which a non-finite value was added or removed, get() never gives a finite number again. *)
Theorem C114_statistics_never_recover : forall h x, In (Upd x) h \/ In (Rem x) h -> ~ finite x ->
  (forall v, mt_answer SumMeter h = Ok v -> ~ finite v) /\ (forall v, mt_answer SumSquaresMeter h = Ok v -> ~ finite v) /\
  (forall v, mt_answer AverageMeter h = Ok v -> ~ finite v) /\ (forall v, mt_answer VarianceMeter h = Ok v -> ~ finite v).
Proof.
  intros h x I N. assert (G : forall m, poisonable m -> forall v, mt_answer m h = Ok v -> ~ finite v).
  { intros m (bad & U & R & Ge & A) v E. refine (A _ v _ E). unfold mt_run. clear E v. 
    assert (K : forall h s, bad s -> bad (fold_left (mt_do m) h s)). { clear - U R Ge. induction h as [|o h IH]; intros s B; auto. cbn [fold_left]. apply IH. destruct o; cbn [mt_do]; auto. }
    generalize (mt_init m). induction h as [|o h IH]; intros s; [destruct I as [[]|[]]|]. cbn [fold_left]. destruct I as [[->|I]|[->|I]]; [apply K; cbn [mt_do]; auto|apply IH; auto|apply K; cbn [mt_do]; auto|apply IH; auto]. }
  split; [apply G, sum_poison|]. split; [apply G, sumsq_poison|]. split; [apply G, avg_poison|apply G, var_poison].
Qed.
Print Assumptions C114_statistics_never_recover.

Lemma running_bad : forall (m : Meter float float) (bad : mt_state m -> Prop), (forall x s, ~ finite x \/ bad s -> bad (exec (mt_update m x) s)) -> (forall x s, ~ finite x \/ bad s -> bad (exec (mt_remove m x) s)) ->
  forall x (s : runst (mt_state m) float), ~ finite x \/ bad (rn_stat s) -> bad (rn_stat (exec (RunningStatistic_update m x) s)).
Proof.
  intros m bad U R x s H. unfold RunningStatistic_update, exec, bind, modify, zoom, gets. cbn [fst snd rn_stat rn_size rn_win].
  specialize (U x (rn_stat s) H). unfold exec in U. destruct (mt_update m x (rn_stat s)) as [[t|e] st]; cbn [fst snd rn_stat rn_size rn_win] in *; auto.
  destruct (rn_size s <? Z.of_nat (length (rn_win s ++ [x])))%Z; cbn; auto. unfold lift. destruct (py_index (rn_win s ++ [x]) 0) as [x0|e]; cbn [fst snd rn_stat]; auto.
  specialize (R x0 st (or_intror U)). unfold exec in R. destruct (mt_remove m x0 st) as [[t0|e] st2]; cbn in *; auto.
Qed.
Lemma running_run : forall (m : Meter float float), poisonable m -> forall xs x (s : runst (mt_state m) float), In x xs -> ~ finite x -> 
  exists bad : mt_state m -> Prop, bad (rn_stat (fold_left (fun s x => exec (RunningStatistic_update m x) s) xs s)) /\ forall st v, bad st -> eval (mt_get m) st = Ok v -> ~ finite v.
Proof.
  intros m (bad & U & R & Ge & A) xs x s I N. exists bad. split; auto.
  assert (K : forall xs (s : runst (mt_state m) float), bad (rn_stat s) -> bad (rn_stat (fold_left (fun s x => exec (RunningStatistic_update m x) s) xs s))). { induction xs0 as [|y xs0 IH]; intros s0 B; auto. cbn [fold_left]. apply IH. apply running_bad; auto. }
  revert s. induction xs as [|y xs IH]; intros s; [destruct I|]. cbn [fold_left]. destruct I as [->|I]; [apply K, running_bad; auto|apply IH; auto].
Qed.
(** A sliding window does not help: RunningStatistic never gives a finite number again, however far the value is behind the window. *)
Theorem C114_running_statistics_never_recover : forall (w : Z) xs x, In x xs -> ~ finite x ->
  forall m : Meter float float, In m [SumMeter; SumSquaresMeter; AverageMeter; VarianceMeter] -> forall s0 v, RunningStatistic_init m false w (@nil unit) = Ok s0 ->
  eval (RunningStatistic_get m) (fold_left (fun s y => exec (RunningStatistic_update m y) s) xs s0) = Ok v -> ~ finite v.
Proof.
  intros w xs x I N m Im s0 v E0 E. assert (P : poisonable m) by (destruct Im as [<-|[<-|[<-|[<-|[]]]]]; [apply sum_poison|apply sumsq_poison|apply avg_poison|apply var_poison]).
  destruct (running_run m P xs x s0 I N) as (bad & B & A). apply (A _ v B). unfold RunningStatistic_get, eval, zoom in *. destruct (mt_get m _) as [r st]. exact E.
Qed.
Print Assumptions C114_running_statistics_never_recover.

(** ** Postprocessors and models *)
(** What a caller can see is not a finite number (numpy's own nan or infinity from a division by zero is NonFin in the model). *)
Definition useless (v : npres float) : Prop := match v with FinV q => ~ finite q | NonFin => True end.
Definition all_useless (v : pyval (npres float)) : Prop :=
  match v with VScalar q => useless q | VArray l => Forall useless l | VNone => False end.

Section Post.
  Context {A : Type} (p : Postprocessor float A) (bad : pp_state p -> Prop) (poor : pyval A -> Prop).
  Hypothesis F : forall x s, ~ finite x \/ bad s -> bad (exec (pp_fit p x) s).
  Hypothesis T : forall x s, bad s -> bad (exec (pp_transform p x) s).
  Hypothesis E : forall x s v, bad s -> eval (pp_transform p x) s = Ok v -> poor v.
  Lemma post_poison : forall h s x y v, In x (fitted h) -> ~ finite x -> eval (pp_transform p y) (post_run p s h) = Ok v -> poor v.
  Proof.
    intros h s x y v I N Ev. apply (E y _ v) in Ev; auto. clear Ev v y. unfold post_run.
    assert (K : forall h s, bad s -> bad (fold_left (post_do p) h s)). { clear h s x I N. induction h as [|o h IH]; intros s B; auto. cbn [fold_left]. apply IH. destruct o; cbn [post_do]; auto. }
    revert s I. induction h as [|o h IH]; intros s I; [destruct I|]. cbn [fold_left]. destruct o as [y|y].
    - cbn in I. destruct I as [->|I]; [apply K; cbn [post_do]; auto|apply IH; auto].
    - apply IH. exact I.
  Qed.
End Post.

Lemma get_run_bad : forall (m : Meter float float) (bad : mt_state m -> Prop), (forall s, bad s -> bad (exec (mt_get m) s)) ->
  forall s : runst (mt_state m) float, bad (rn_stat s) -> bad (rn_stat (exec (RunningStatistic_get m) s)).
Proof. intros m bad G s B. unfold RunningStatistic_get, exec, zoom. specialize (G _ B). unfold exec in G. destruct (mt_get m (rn_stat s)). exact G. Qed.
Lemma eval_run_get : forall (m : Meter float float) (s : runst (mt_state m) float), eval (RunningStatistic_get m) s = eval (mt_get m) (rn_stat s).
Proof. intros m s. unfold RunningStatistic_get, eval, zoom. destruct (mt_get m (rn_stat s)). reflexivity. Qed.

Lemma npdiv_useless : forall a b : float, ~ finite a -> useless (npdiv a b).
Proof. intros a b H. unfold npdiv. destruct (oeqb b n0); cbn; auto. intros F. apply div_inv in F. auto. Qed.

Lemma running_var_ok : forall x (s : runst (varst float) float), exists s', RunningStatistic_update VarianceMeter x s = (Ok tt, s').
Proof.
  intros x s. unfold RunningStatistic_update, bind, modify, zoom, gets, lift. cbn [fst snd rn_stat rn_size rn_win mt_update VarianceMeter]. unfold bind, zoom. cbn [mt_update SumSquaresMeter SumMeter CountMeter modify fst snd].
  unfold modify. cbn. destruct (rn_size s <? Z.of_nat (length (rn_win s ++ [x])))%Z; [|eexists; reflexivity].
  destruct (rn_win s) as [|a l] eqn:W; cbn; unfold py_index; cbn; eexists; reflexivity.
Qed.

(** Whatever is fitted later, and whatever the window, the postprocessors never give a finite score again. *)
Theorem C114_postprocessors_never_recover : forall h x, In x (fitted h) -> ~ finite x -> forall y,
  (forall v, eval (pp_transform AveragePostprocessor y) (post_run AveragePostprocessor (mt_init AverageMeter) h) = Ok v -> exists q, v = VScalar q /\ ~ finite q) /\
  (forall v, eval (pp_transform ZScorePostprocessor y) (post_run ZScorePostprocessor (mt_init VarianceMeter, mt_init AverageMeter) h) = Ok v -> all_useless v) /\
  (forall w s0 v, RunningPost_init AverageMeter w = Ok s0 -> eval (pp_transform RunningAveragePostprocessor y) (post_run RunningAveragePostprocessor s0 h) = Ok v -> exists q, v = VScalar q /\ ~ finite q) /\
  (forall w s0 v, RunningZScore_init w = Ok s0 -> eval (pp_transform RunningZScorePostprocessor y) (post_run RunningZScorePostprocessor s0 h) = Ok v -> all_useless v).
Proof.
  intros h x I N y. destruct avg_poison as (bad & U & R & Ge & A). split; [|split; [|split]].
  - intros v E. refine (post_poison AveragePostprocessor bad (fun v => exists q, v = VScalar q /\ ~ finite q) U _ _ h _ x y v I N E).
    + intros z s B. specialize (Ge s B). unfold exec in *. cbn [pp_transform AveragePostprocessor MeterPost]. unfold bind. destruct (mt_get AverageMeter s) as [[r|e] s']; exact Ge.
    + intros z s v' B Ev. specialize (A s). unfold eval in *. cbn [pp_transform AveragePostprocessor MeterPost] in Ev. unfold bind in Ev. destruct (mt_get AverageMeter s) as [[r|e] s']; cbn [fst ret] in *; inversion Ev; subst. exists r. split; auto.
  - intros v E. refine (post_poison ZScorePostprocessor (fun s => bad (snd s)) all_useless _ _ _ h _ x y v I N E).
    + intros z [s1 s2] B. specialize (U z s2 B). unfold exec in *. cbn [pp_fit ZScorePostprocessor]. unfold bind, zoom. cbn [fst snd] in *. 
      destruct (mt_update VarianceMeter z s1) as [[r|e] s'] eqn:V; cbn [fst snd]; [|discriminate V]. destruct (mt_update AverageMeter z s2) as [[r2|e2] s'2]; exact U.
    + intros z [s1 s2] B. specialize (Ge s2 B). unfold exec in *. cbn [pp_transform ZScorePostprocessor]. unfold bind, zoom. cbn [fst snd] in *. 
      destruct (mt_get AverageMeter s2) as [[r2|e2] s'2]; cbn [fst snd] in *; auto. destruct (mt_get VarianceMeter s1) as [[r|e] s']; exact Ge.
    + intros z [s1 s2] v' B Ev. specialize (A s2). unfold eval in *. cbn [pp_transform ZScorePostprocessor] in Ev. unfold bind, zoom in Ev. cbn [fst snd] in *.
      destruct (mt_get AverageMeter s2) as [[r2|e2] s'2]; cbn [fst snd] in *; [|inversion Ev]. destruct (mt_get VarianceMeter s1) as [[r|e] s']; cbn [fst snd ret] in Ev; inversion Ev; subst.
      cbn [all_useless]. unfold np_div_by. destruct (np_sqrt r); cbn [useless]; auto. apply npdiv_useless. cbn. intros Fi. apply sub_inv in Fi. apply (A r2 B eq_refl). tauto.
  - intros w s0 v E0 E. refine (post_poison RunningAveragePostprocessor (fun s => bad (rn_stat s)) (fun v => exists q, v = VScalar q /\ ~ finite q) _ _ _ h _ x y v I N E).
    + intros z s B. apply (running_bad AverageMeter bad U R z s B).
    + intros z s B. assert (B' := get_run_bad AverageMeter bad Ge s B). unfold exec in *. cbn [pp_transform RunningAveragePostprocessor RunningPost]. unfold bind. destruct (RunningStatistic_get AverageMeter s) as [[r|e] s']; exact B'.
    + intros z s v' B Ev. specialize (A (rn_stat s)). rewrite <- (eval_run_get AverageMeter s) in A. unfold eval in *. cbn [pp_transform RunningAveragePostprocessor RunningPost] in Ev. unfold bind in Ev. destruct (RunningStatistic_get AverageMeter s) as [[r|e] s']; cbn [fst ret] in *; inversion Ev; subst. exists r. split; auto.
  - intros w s0 v E0 E. refine (post_poison RunningZScorePostprocessor (fun s => bad (rn_stat (snd s))) all_useless _ _ _ h _ x y v I N E).
    + intros z [s1 s2] B. cbn [snd] in B. assert (B' := running_bad AverageMeter bad U R z s2 B). destruct (running_var_ok z s1) as [s1' V]. unfold exec in *. cbn [pp_fit RunningZScorePostprocessor]. unfold bind, zoom. cbn [fst snd].
      rewrite V. cbn [fst snd]. destruct (RunningStatistic_update AverageMeter z s2) as [[r2|e2] s2']; exact B'.
    + intros z [s1 s2] B. assert (B' := get_run_bad AverageMeter bad Ge s2 B). unfold exec in *. cbn [pp_transform RunningZScorePostprocessor]. unfold bind, zoom. cbn [fst snd] in *. 
      destruct (RunningStatistic_get AverageMeter s2) as [[r2|e2] s'2]; cbn [fst snd] in *; auto. destruct (RunningStatistic_get VarianceMeter s1) as [[r|e] s']; exact B'.
    + intros z [s1 s2] v' B Ev. specialize (A (rn_stat s2)). rewrite <- (eval_run_get AverageMeter s2) in A. unfold eval in *. cbn [pp_transform RunningZScorePostprocessor] in Ev. unfold bind, zoom in Ev. cbn [fst snd] in *.
      destruct (RunningStatistic_get AverageMeter s2) as [[r2|e2] s'2]; cbn [fst snd] in *; [|inversion Ev]. destruct (RunningStatistic_get VarianceMeter s1) as [[r|e] s']; cbn [fst snd ret] in Ev; inversion Ev; subst.
      cbn [all_useless]. unfold np_div_by. destruct (np_sqrt r); cbn [useless]; auto. apply npdiv_useless. cbn. intros Fi. apply sub_inv in Fi. apply (A r2 B eq_refl). tauto.
Qed.
Print Assumptions C114_postprocessors_never_recover.

Lemma sad_fit : forall Y eps ab z (y : option Y) s, ~ finite z \/ bad_sum (snd s) -> bad_sum (snd (exec (md_fit (StandardAbsoluteDeviation (Y := Y) eps ab AverageMeter) [z] y) s)).
Proof. intros Y eps ab z y [s1 s2] H. unfold exec. cbn. unfold bind, zoom, modify, lift. cbn. unfold bad_sum. cbn. intros F. apply add_inv in F. unfold bad_sum in H. cbn in H. tauto. Qed.
Lemma sad_fit_keep : forall Y eps ab l (y : option Y) s, bad_sum (snd s) -> bad_sum (snd (exec (md_fit (StandardAbsoluteDeviation (Y := Y) eps ab AverageMeter) l y) s)).
Proof. intros Y eps ab l y s B. destruct l as [|z [|z' l]]; [exact B|apply sad_fit; auto|exact B]. Qed.
Lemma sad_score_state : forall Y eps ab l s, exec (md_score (StandardAbsoluteDeviation (Y := Y) eps ab AverageMeter) l) s = s.
Proof.
  intros Y eps ab l [[a b c] s2]. unfold exec. cbn. unfold bind, zoom, gets, lift. cbn. destruct (div_int (ss_sum s2) (ss_n s2)); cbn; auto.
  match goal with |- context [div_int ?z c] => destruct (div_int z c) end; cbn; auto. match goal with |- context [div_int ?z c] => destruct (div_int z c) end; reflexivity.
Qed.
Lemma sad_do : forall Y eps ab o s, snd (model_do (StandardAbsoluteDeviation (Y := Y) eps ab AverageMeter) s o) =
  match o with CFit l y => snd (exec (md_fit (StandardAbsoluteDeviation (Y := Y) eps ab AverageMeter) l y) s) | CScore _ => snd s | CFitScore l y => snd (exec (md_fit (StandardAbsoluteDeviation (Y := Y) eps ab AverageMeter) l y) s) end.
Proof.
  intros Y eps ab o s. unfold model_do, model_call. destruct o as [l y|l|l y].
  - unfold exec. destruct (md_fit _ l y s). reflexivity.
  - pose proof (sad_score_state Y eps ab l s) as Hs. unfold exec in *. destruct (md_score _ l s) as [r s']. cbn [snd] in *. now rewrite Hs.
  - change (md_fit_score (StandardAbsoluteDeviation (Y := Y) eps ab AverageMeter) l y) with (bind (md_fit (StandardAbsoluteDeviation (Y := Y) eps ab AverageMeter) l y) (fun _ => md_score (StandardAbsoluteDeviation (Y := Y) eps ab AverageMeter) l)).
    unfold exec, bind. destruct (md_fit _ l y s) as [[r|e] s']; cbn [fst snd]; auto. pose proof (sad_score_state Y eps ab l s') as Hs. unfold exec in Hs. destruct (md_score _ l s') as [r' s'']. cbn [snd] in *. now rewrite Hs.
Qed.
(** StandardAbsoluteDeviation that subtracts the mean never gives a finite score again either. *)
Theorem C114_standard_deviation_scores_never_recover : forall Y eps ab (h : list (mcall (list float) Y)) x, In [x] (fitted_instances h) -> ~ finite x ->
  forall y v, eval (md_score (StandardAbsoluteDeviation eps ab AverageMeter) y) (model_run (StandardAbsoluteDeviation eps ab AverageMeter) (SAD_init AverageMeter) h) = Ok v -> all_useless v.
Proof.
  intros Y eps ab h x I N y v E. assert (B : bad_sum (snd (model_run (StandardAbsoluteDeviation (Y := Y) eps ab AverageMeter) (SAD_init AverageMeter) h))).
  { clear E. unfold model_run. assert (K : forall h s, bad_sum (snd s) -> bad_sum (snd (fold_left (model_do (StandardAbsoluteDeviation (Y := Y) eps ab AverageMeter)) h s))).
    { clear. induction h as [|o h IH]; intros s B; auto. cbn [fold_left]. apply IH. rewrite sad_do. destruct o; auto using sad_fit_keep. }
    generalize (SAD_init (A := float) AverageMeter). induction h as [|o h IH]; intros s; [destruct I|]. cbn [fold_left]. destruct o as [l y'|l|l y']; cbn in I.
    - destruct I as [->|I]; [apply K; rewrite sad_do; apply sad_fit; auto|apply IH; exact I].
    - apply IH; exact I.
    - destruct I as [->|I]; [apply K; rewrite sad_do; apply sad_fit; auto|apply IH; exact I]. }
  revert B E. generalize (model_run (StandardAbsoluteDeviation (Y := Y) eps ab AverageMeter) (SAD_init AverageMeter) h). intros [[a b c] s2] B E. unfold bad_sum in B. cbn [snd] in B.
  unfold eval in E. cbn in E. unfold bind, zoom, gets, lift in E. cbn in E. destruct (div_int (ss_sum s2) (ss_n s2)) as [q|] eqn:Q; cbn in E; [|inversion E].
  assert (Nq : ~ finite q) by (intros F; apply B; eapply div_int_inv; eauto).
  match type of E with context [div_int ?z c] => destruct (div_int z c) as [q2|] end; cbn in E; [|inversion E]. match type of E with context [div_int ?z c] => destruct (div_int z c) as [q3|] end; cbn in E; inversion E.
  subst v. clear E. cbn [all_useless deviation_score]. apply Forall_forall. intros r Ir. apply in_map_iff in Ir. destruct Ir as (z & <- & _).
  assert (Nz : ~ finite (z - q)%float) by (intros F; apply sub_inv in F; tauto). cbn [nsub NumF]. unfold npdiv. destruct ab; destruct (oeqb _ _); cbn; auto.
  - intros F. apply abs_inv, div_inv in F. auto.
  - intros F. apply div_inv in F. auto.
Qed.
Print Assumptions C114_standard_deviation_scores_never_recover.

(** ConformalProbabilityCalibrator keeps the last scores themselves: it forgets a nan with the window, and answers as if other values had stood there. *)
Lemma conformal_float : forall w, history_law (ConformalProbabilityCalibrator (A := float)) (Conformal_init true w)
  (fun l x => let win := lastn (Z.to_nat w) l in Ok (VScalar (npdiv (nofZ (Z.of_nat (length (filter (fun s => oltb x s) win)))) (nofZ (Z.of_nat (length win)))))).
Proof.
  intros w. apply (history_of_inv _ _ (ConformalProbabilityCalibrator (A := float)) _ _ (fun l (c : cwin float) => exists w0, c = CW w0 /\ wd_size w0 = w /\ wd_items w0 = lastn (Z.to_nat w) l)).
  - exists (Window_init w). split; [reflexivity|]. split; [reflexivity|]. rewrite lastn_nil. reflexivity.
  - intros l s x (w0 & -> & S & I). cbn [pp_fit ConformalProbabilityCalibrator]. destruct (window_update_step _ x w0 l) as (w1 & E & S1 & I1); [rewrite I, S; auto|].
    rewrite E. eexists. split; [reflexivity|]. exists w1. rewrite S1, I1, S. auto.
  - intros l s x (w0 & -> & S & I). eexists. split; [|exists w0; eauto]. cbn [pp_transform ConformalProbabilityCalibrator]. unfold bind, gets, ret. cbn [cwin_get]. rewrite I. reflexivity.
Qed.
Theorem C114_conformal_recovers : forall w (pre pre' post : list (pop float)) y, (w <= Z.of_nat (length (fitted post)))%Z ->
  eval (pp_transform ConformalProbabilityCalibrator y) (post_run ConformalProbabilityCalibrator (Conformal_init true w) (pre ++ post)) =
  eval (pp_transform ConformalProbabilityCalibrator y) (post_run ConformalProbabilityCalibrator (Conformal_init true w) (pre' ++ post)).
Proof.
  intros w pre pre' post y L. rewrite !(conformal_float w). unfold fitted in *. rewrite !flat_map_app, !lastn_app_ge by lia. reflexivity.
Qed.
Print Assumptions C114_conformal_recovers.

(** A window of two over nan, 1, 2, 3, 4: the running average and z-score of 4 are nan, the conformal probability of 2 is 1. *)
Example C114_ex : let xs := [nan; 1; 2; 3; 4]%float in
  ~ finite nan /\
  (exists s0 q, RunningPost_init (AverageMeter (A := float)) 2 = Ok s0 /\ eval (pp_transform RunningAveragePostprocessor 4%float) (post_run RunningAveragePostprocessor s0 (map PFit xs)) = Ok (VScalar q) /\ ~ finite q) /\
  (exists s0 q, RunningZScore_init (A := float) 2 = Ok s0 /\ eval (pp_transform RunningZScorePostprocessor 4%float) (post_run RunningZScorePostprocessor s0 (map PFit xs)) = Ok (VScalar (FinV q)) /\ ~ finite q) /\
  eval (pp_transform ConformalProbabilityCalibrator 2%float) (post_run ConformalProbabilityCalibrator (Conformal_init true 2%Z) (map PFit xs)) = Ok (VScalar (FinV 1%float)).
Proof.
  assert (N : ~ finite nan) by (intros F; rewrite finite_B in F; vm_compute in F; discriminate F).
  split; [exact N|]. split; [|split; [|vm_compute; reflexivity]].
  - eexists. eexists. split; [reflexivity|]. split; [vm_compute; reflexivity|exact N].
  - eexists. eexists. split; [reflexivity|]. split; [vm_compute; reflexivity|exact N].
Qed.
Print Assumptions C114_ex.
