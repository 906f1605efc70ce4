(** * C103: the evaluation loop and the three baseline detectors. *)
From Coq Require Import List ZArith Lia Bool Reals Lra Arith.
From Verif Require Import Base Num Spec Model_Core Model_Stats Model_Simple Model_Eval Model_Metrics P_Lists P_Core P_Eval P_Metrics Prop_Metrics Prop_JL Prop_Pipeline.
Import ListNotations.
Open Scope R_scope.

(** The loop of every example script: for each instance and its label, score the instance and hand label and score to the metric.
    A score that is not a number cannot be used by the metrics. *)
Definition evaluate_one {X K} (m : Model X R R) (me : Metric bool R R K) (q : X * bool) : M (md_state m * me_state me) unit := fun s =>
  let '(r, sm) := md_fit_score m (fst q) (Some (decision (snd q))) (fst s) in
  match r with
  | Ok (VScalar a) => let '(u, se) := me_update me (snd q) a (snd s) in (u, (sm, se))
  | Ok _ => (Raise ValueError, (sm, snd s))
  | Raise e => (Raise e, (sm, snd s))
  end.
Definition evaluated {X K} (m : Model X R R) (s0 : md_state m) (me : Metric bool R R K) (kw : list K) (data : list (X * bool)) : res R :=
  match me_init me kw with
  | Raise e => Raise e
  | Ok e0 => match iterM (evaluate_one m me) data (s0, e0) with
             | (Ok _, s) => eval (me_get me) (snd s)
             | (Raise e, _) => Raise e
             end
  end.
Notation auroc := (AUROCMetric (K := Empty_set) bool_dec roc_auc_score).
Notation aupr := (AUPRMetric (K := Empty_set) average_precision_score).
Notation precision := (PrecisionMetric (K := Empty_set) precision_score).
Notation recall := (RecallMetric (K := Empty_set) recall_score).

(** What the loop reports is the metric of the labels paired with the scores of the batch call. *)
Lemma loop_run : forall X K (m : Model X R R) (me : Metric bool R R K) (data : list (X * bool)) scores sm sm' se,
  mapM (fun q => md_fit_score m (fst q) (Some (decision (snd q)))) data sm = (Ok (map VScalar scores), sm') ->
  iterM (evaluate_one m me) data (sm, se) = (let '(r, se') := iterM (fun q => me_update me (fst q) (snd q)) (combine (map snd data) scores) se in
     (r, (match r with Ok _ => sm' | Raise _ => fst (snd (iterM (evaluate_one m me) data (sm, se))) end, se'))).
Proof.
  intros X K m me data. induction data as [|q data IH]; intros scores sm sm' se E.
  - cbn in E. injection E as E <-. destruct scores; [|discriminate]. reflexivity.
  - apply mapM_cons_ok in E. destruct E as (o & os & s1 & E1 & E2 & Eo). destruct scores as [|a scores]; [discriminate|]. cbn [map] in Eo. injection Eo as <- <-.
    cbn [map combine iterM fst snd]. unfold bind at 1. unfold evaluate_one at 1. cbn [fst snd]. rewrite E1. unfold bind at 1.
    destruct (me_update me (snd q) a se) as [[u|e] se1] eqn:Eu.
    + rewrite (IH _ _ _ se1 E2). cbn [iterM]. unfold bind at 1. unfold evaluate_one at 2. cbn [fst snd]. rewrite E1, Eu.
      destruct (iterM _ (combine (map snd data) scores) se1) as [[v|e] se2]; reflexivity.
    + cbn [iterM]. unfold bind at 1. unfold evaluate_one at 1. cbn [fst snd]. rewrite E1, Eu. reflexivity.
Qed.
Theorem C103_loop_is_metric_of_batch : forall X K (m : Model X R R) (me : Metric bool R R K) kw (data : list (X * bool)) scores s0 s',
  BaseModel_fit_score m (map fst data) (Some (map decision (map snd data))) s0 = (Ok (map FinV scores), s') ->
  (forall x y s a sm, md_fit_score m x y s = (Ok a, sm) -> exists v, a = VScalar v) ->
  evaluated m s0 me kw data = metric_value me kw (combine (map snd data) scores).
Proof.
  intros X K m me kw data scores s0 s' E Hs.
  assert (B : mapM (fun q => md_fit_score m (fst q) (Some (decision (snd q)))) data s0 = (Ok (map VScalar scores), s')).
  { unfold BaseModel_fit_score in E. rewrite map_gen_some in E by (rewrite !map_length; auto). rewrite map_map in E. clear me kw.
    revert scores s0 E. induction data as [|q data IH]; intros scores s0 E.
    - cbn in E. injection E as E <-. destruct scores; [reflexivity|discriminate].
    - cbn [map combine] in E. apply mapM_cons_ok in E. destruct E as (o & os & s1 & E1 & E2 & Eo). destruct scores as [|v scores]; [discriminate|]. cbn [map] in Eo. injection Eo as <- <-.
      unfold bind in E1. cbn [fst snd] in E1. destruct (md_fit_score m (fst q) (Some (decision (snd q))) s0) as [[a|e] sm] eqn:Em; [|discriminate].
      destruct (Hs _ _ _ _ _ Em) as [w ->]. cbn in E1. injection E1 as -> ->.
      apply mapM_cons_ok. exists (VScalar v), (map VScalar scores), s1. split; auto. }
  unfold evaluated, metric_value. destruct (me_init me kw) as [e0|e]; auto. rewrite (loop_run _ _ m me data scores s0 s' e0 B).
  destruct (iterM _ (combine (map snd data) scores) e0) as [[u|e] se]; reflexivity.
Qed.

Lemma in_combine_same : forall (ys : list bool) q, In q (combine ys (map decision ys)) -> snd q = decision (fst q).
Proof. intros ys. induction ys as [|y ys IH]; intros q I; [destruct I|]. destruct I as [<-|I]; auto. Qed.
Lemma combine_fst : forall A B (l : list A) (k : list B), length l = length k -> map fst (combine l k) = l.
Proof. intros A B l. induction l as [|a l IH]; intros [|b k] E; try discriminate; auto. cbn. f_equal. apply IH. cbn in E. lia. Qed.
Lemma some_positive : forall (ys : list bool) ps, length ys = length ps -> In true ys -> positives (combine ys ps) <> [].
Proof.
  intros ys ps L I E. rewrite <- (combine_fst _ _ ys ps L) in I. apply in_map_iff in I. destruct I as ([y s] & Ey & I). cbn in Ey. subst y. apply in_positives in I. rewrite E in I. destruct I.
Qed.
Lemma some_negative : forall (ys : list bool) ps, length ys = length ps -> In false ys -> negatives (combine ys ps) <> [].
Proof.
  intros ys ps L I E. rewrite <- (combine_fst _ _ ys ps L) in I. apply in_map_iff in I. destruct I as ([y s] & Ey & I). cbn in Ey. subst y. apply in_negatives in I. rewrite E in I. destruct I.
Qed.

(** ** PerfectModel *)
Lemma perfect_loop : forall X K (me : Metric bool R R K) kw (data : list (X * bool)), evaluated PerfectModel [] me kw data = metric_value me kw (combine (map snd data) (map decision (map snd data))).
Proof.
  intros. unfold evaluated, metric_value. destruct (me_init me kw) as [e0|e]; auto.
  assert (B : mapM (fun q : X * bool => md_fit_score PerfectModel (fst q) (Some (decision (snd q)))) data [] = (Ok (map VScalar (map decision (map snd data))), [])).
  { induction data as [|q data IH]; auto. apply mapM_cons_ok. exists (VScalar (decision (snd q))), (map VScalar (map decision (map snd data))), []. auto. }
  rewrite (loop_run _ _ PerfectModel me data _ [] [] e0 B). destruct (iterM _ (combine (map snd data) _) e0) as [[u|e] se]; reflexivity.
Qed.
Theorem C103_perfect_model : forall X (data : list (X * bool)), In true (map snd data) ->
  evaluated PerfectModel [] aupr [] data = Ok 1 /\ evaluated PerfectModel [] precision [] data = Ok 1 /\ evaluated PerfectModel [] recall [] data = Ok 1 /\
  evaluated PerfectModel [] auroc [] data = if in_dec bool_dec false (map snd data) then Ok 1 else Raise ValueError.
Proof.
  intros X data HT. rewrite !perfect_loop. set (ys := map snd data) in *. set (h := combine ys (map decision ys)).
  assert (L : length ys = length (map decision ys)) by (rewrite map_length; auto).
  assert (HP : positives h <> []) by (apply some_positive; auto).
  assert (S0 : forall a b, In (true, a) h -> In (false, b) h -> b < a).
  { intros a b Ia Ib. apply in_combine_same in Ia, Ib. cbn in Ia, Ib. subst. lra. }
  assert (D : h = decided (map (fun y => (y, y)) ys)). { unfold h, decided. rewrite map_map. cbn [fst snd]. clear. induction ys as [|y ys IH]; auto. cbn. rewrite IH. reflexivity. }
  assert (NP : filter fst (map (fun y : bool => (y, y)) ys) <> []).
  { intros E. assert (I : In (true, true) (filter fst (map (fun y : bool => (y, y)) ys))). { apply filter_In. split; auto. apply (in_map (fun y => (y, y))). auto. } rewrite E in I. destruct I. }
  assert (SH : forall l : list (bool * bool), l <> [] -> (forall q, In q l -> fst q = true /\ snd q = true) -> share fst l = 1 /\ share snd l = 1).
  { intros l N H. unfold share, fraction, Rlen. assert (E : filter fst l = l /\ filter snd l = l).
    { clear N. induction l as [|q l IH]; auto. destruct (H q (or_introl eq_refl)) as [E1 E2]. cbn [filter]. rewrite E1, E2. destruct IH as [I1 I2]; [intros; apply H; right; auto|]. rewrite I1, I2. auto. }
    destruct E as [E1 E2]. rewrite E1, E2. destruct l as [|q l]; [contradiction|]. split; field; apply not_0_INR; discriminate. }
  assert (FS : filter snd (map (fun y : bool => (y, y)) ys) = filter fst (map (fun y : bool => (y, y)) ys)) by (clear; induction ys as [|[] ys IH]; cbn; auto; rewrite IH; auto).
  assert (FA : forall q, In q (filter fst (map (fun y : bool => (y, y)) ys)) -> fst q = true /\ snd q = true).
  { intros q I. apply filter_In in I. destruct I as [I E]. apply in_map_iff in I. destruct I as (y & <- & _). cbn in *. auto. }
  split; [|split; [|split]].
  - fold (AUPR h). destruct (C102_aupr h HP). pose proof (C102_aupr h HP) as E. destruct (C102_aupr_range h _ HP E) as [_ [_ R1]]. rewrite (R1 S0) in E. exact E.
  - fold (Precision h). rewrite D, C102_precision, FS. f_equal. apply (SH _ NP FA).
  - fold (Recall h). rewrite D, C102_recall. f_equal. apply (SH _ NP FA).
  - fold (AUROC h). destruct (in_dec bool_dec false ys) as [I|I].
    + assert (HN : negatives h <> []) by (apply some_negative; auto). pose proof (C102_auroc h HP HN) as E. destruct (C102_auroc_range h _ E) as [_ [[_ R1] _]]. rewrite (R1 S0) in E. exact E.
    + apply C102_auroc_undefined. right. destruct (negatives h) as [|b N] eqn:EN; auto. exfalso. apply I. assert (J : In (false, b) h) by (apply in_negatives; rewrite EN; left; auto).
      apply (in_map fst) in J. unfold h in J. rewrite combine_fst in J; auto.
Qed.

(** ** NullModel *)
Lemma null_loop : forall X K (me : Metric bool R R K) kw half (data : list (X * bool)), evaluated (NullModel half) tt me kw data = metric_value me kw (map (fun q => (snd q, half)) data).
Proof.
  intros. unfold evaluated, metric_value. destruct (me_init me kw) as [e0|e]; auto.
  assert (B : mapM (fun q : X * bool => md_fit_score (NullModel half) (fst q) (Some (decision (snd q)))) data tt = (Ok (map VScalar (map (fun _ => half) data)), tt)).
  { induction data as [|q data IH]; auto. apply mapM_cons_ok. exists (VScalar half), (map VScalar (map (fun _ => half) data)), tt. auto. }
  rewrite (loop_run _ _ (NullModel half) me data _ tt tt e0 B).
  replace (combine (map snd data) (map (fun _ => half) data)) with (map (fun q => (snd q, half)) data) by (clear; induction data as [|q data IH]; auto; cbn; f_equal; auto).
  destruct (iterM _ (map (fun q => (snd q, half)) data) e0) as [[u|e] se]; reflexivity.
Qed.
Theorem C103_null_model : forall X half (data : list (X * bool)),
  (In true (map snd data) -> In false (map snd data) -> evaluated (NullModel half) tt auroc [] data = Ok (1 / 2)) /\
  (data <> [] -> evaluated (NullModel half) tt aupr [] data = Ok (fraction snd data)).
Proof.
  intros X half data. rewrite !null_loop. set (h := map (fun q => (snd q, half)) data).
  destruct (C102_constant_scores h half) as [A1 A2]. { intros q I. apply in_map_iff in I. destruct I as (x & <- & _). auto. }
  split.
  - intros HT HF. apply A1.
    + apply in_map_iff in HT. destruct HT as (q & E & I). intros Z. assert (J : In half (positives h)) by (apply in_positives; rewrite <- E; apply (in_map (fun q => (snd q, half))); auto). rewrite Z in J. destruct J.
    + apply in_map_iff in HF. destruct HF as (q & E & I). intros Z. assert (J : In half (negatives h)) by (apply in_negatives; rewrite <- E; apply (in_map (fun q => (snd q, half))); auto). rewrite Z in J. destruct J.
  - intros N. fold (AUPR h). rewrite A2 by (unfold h; destruct data; [contradiction|discriminate]). f_equal. unfold fraction, Rlen, h. rewrite map_length. f_equal. f_equal.
    clear. induction data as [|q data IH]; auto. cbn [map filter fst]. destruct (snd q); cbn [length]; auto.
Qed.

(** ** RandomModel: every AUROC is possible, the average over all draws is 1/2 *)
Lemma random_scores : forall X (draw : nat -> R) (data : list (X * bool)) k (t : list R), length t = length data -> (forall i, (i < length t)%nat -> draw (k + i)%nat = nth i t 0) ->
  mapM (fun q : X * bool => md_fit_score (RandomModel draw) (fst q) (Some (decision (snd q)))) data k = (Ok (map VScalar t), (k + length data)%nat).
Proof.
  intros X draw data. induction data as [|q data IH]; intros k [|a t] L H; try discriminate.
  - cbn. rewrite Nat.add_0_r. reflexivity.
  - apply mapM_cons_ok. exists (VScalar a), (map VScalar t), (S k). split; [|split; auto].
    + pose proof (H 0%nat ltac:(cbn; lia)) as H0. rewrite Nat.add_0_r in H0. cbn in H0. cbn. unfold bind, gets, modify, ret. rewrite H0. reflexivity.
    + cbn [length]. replace (k + S (length data))%nat with (S k + length data)%nat by lia. apply IH; [cbn in L; lia|]. intros i Hi. pose proof (H (S i) ltac:(cbn; lia)) as Hs. cbn [nth] in Hs. rewrite <- Hs. f_equal. lia.
Qed.
Lemma random_loop : forall X K (me : Metric bool R R K) kw (data : list (X * bool)) t, length t = length data ->
  evaluated (RandomModel (fun i => nth i t 0)) 0%nat me kw data = metric_value me kw (combine (map snd data) t).
Proof.
  intros X K me kw data t L. unfold evaluated, metric_value. destruct (me_init me kw) as [e0|e]; auto.
  pose proof (random_scores X (fun i => nth i t 0) data 0%nat t L (fun i _ => eq_refl)) as B.
  rewrite (loop_run _ _ _ me data t _ _ e0 B). destruct (iterM _ (combine (map snd data) t) e0) as [[u|e] se]; reflexivity.
Qed.
Definition wins (P N : list R) : R := Rsum (map (fun b => Rsum (map (fun a => beats a b) P)) N).
Lemma ex_swap : forall A B (sp : list A) (sp' : list B) (g : A -> B -> R), expectation sp (fun a => expectation sp' (fun b => g a b)) = expectation sp' (fun b => expectation sp (fun a => g a b)).
Proof.
  intros A B sp sp' g. unfold expectation, mean, Rlen. rewrite !map_length.
  rewrite (map_ext (fun a => Rsum (map (fun b => g a b) sp') / INR (length (map (fun b => g a b) sp'))) (fun a => / INR (length sp') * Rsum (map (fun b => g a b) sp'))) by (intros; rewrite map_length; unfold Rdiv; ring).
  rewrite (map_ext (fun b => Rsum (map (fun a => g a b) sp) / INR (length (map (fun a => g a b) sp))) (fun b => / INR (length sp) * Rsum (map (fun a => g a b) sp))) by (intros; rewrite map_length; unfold Rdiv; ring).
  rewrite !Rsum_map_scal. assert (E : Rsum (map (fun a => Rsum (map (fun b => g a b) sp')) sp) = Rsum (map (fun b => Rsum (map (fun a => g a b) sp)) sp')).
  { induction sp as [|a sp IH]; cbn [map].
    - symmetry. apply Rsum_map_zero. reflexivity.
    - change (Rsum (?x :: ?l)) with (x + Rsum l). rewrite IH, <- Rsum_map_plus. reflexivity. }
  rewrite E. unfold Rdiv. ring.
Qed.
Lemma half_on_average : forall vals : list R, vals <> [] -> expectation vals (fun a => expectation vals (fun b => beats a b)) = 1 / 2.
Proof.
  intros vals NE. set (E := expectation vals (fun a => expectation vals (fun b => beats a b))).
  assert (E2 : expectation vals (fun a => expectation vals (fun b => beats b a)) = E) by (unfold E; apply (ex_swap R R vals vals (fun a b => beats b a))).
  assert (E3 : expectation vals (fun a => expectation vals (fun b => beats a b)) = expectation vals (fun a => 1 + -1 * expectation vals (fun b => beats b a))).
  { apply ex_ext. intros a _. rewrite <- (ex_const vals 1 NE). rewrite <- ex_scal, <- ex_plus. apply ex_ext. intros b _. rewrite beats_swap. ring. }
  rewrite ex_plus, ex_scal, ex_const, E2 in E3 by auto. fold E in E3. lra.
Qed.
Lemma ex_sum_negatives : forall (vals : list R) (g : R -> R) ys, vals <> [] ->
  expectation (tuples (length ys) vals) (fun t => Rsum (map g (negatives (combine ys t)))) = INR (length (filter negb ys)) * expectation vals g.
Proof.
  intros vals g ys NE. induction ys as [|y ys IH]; cbn [length].
  - transitivity 0; [unfold expectation, mean, Rlen; cbn; field|cbn [filter length INR]; ring].
  - rewrite ex_tuples by auto. destruct y.
    + rewrite (ex_ext vals _ (fun _ => INR (length (filter negb ys)) * expectation vals g)) by (intros; exact IH). apply ex_const; auto.
    + rewrite (ex_ext vals _ (fun v => g v + INR (length (filter negb ys)) * expectation vals g)).
      * rewrite ex_plus, ex_const by auto. cbn [filter negb length]. rewrite S_INR. ring.
      * intros v _. rewrite <- IH. rewrite <- (ex_const (tuples (length ys) vals) (g v)) by (apply tuples_nonempty; auto). rewrite <- ex_plus. apply ex_ext. reflexivity.
Qed.
Lemma ex_sum_positives : forall (vals : list R) (g : R -> R) ys, vals <> [] ->
  expectation (tuples (length ys) vals) (fun t => Rsum (map g (positives (combine ys t)))) = INR (length (filter (fun y => y) ys)) * expectation vals g.
Proof.
  intros vals g ys NE. induction ys as [|y ys IH]; cbn [length].
  - transitivity 0; [unfold expectation, mean, Rlen; cbn; field|cbn [filter length INR]; ring].
  - rewrite ex_tuples by auto. destruct y.
    + rewrite (ex_ext vals _ (fun v => g v + INR (length (filter (fun y => y) ys)) * expectation vals g)).
      * rewrite ex_plus, ex_const by auto. cbn [filter negb length]. rewrite S_INR. ring.
      * intros v _. rewrite <- IH. rewrite <- (ex_const (tuples (length ys) vals) (g v)) by (apply tuples_nonempty; auto). rewrite <- ex_plus. apply ex_ext. reflexivity.
    + rewrite (ex_ext vals _ (fun _ => INR (length (filter (fun y => y) ys)) * expectation vals g)) by (intros; exact IH). apply ex_const; auto.
Qed.
Lemma ex_wins : forall (vals : list R) ys, vals <> [] ->
  expectation (tuples (length ys) vals) (fun t => wins (positives (combine ys t)) (negatives (combine ys t))) = INR (length (filter (fun y => y) ys)) * INR (length (filter negb ys)) * (1 / 2).
Proof.
  intros vals ys NE. induction ys as [|y ys IH]; cbn [length].
  - transitivity 0; [unfold expectation, mean, Rlen; cbn; field|cbn [filter length INR]; ring].
  - rewrite ex_tuples by auto. pose proof (half_on_average vals NE) as HA.
    assert (NT : tuples (length ys) vals <> []) by (apply tuples_nonempty; auto). destruct y.
    + rewrite (ex_ext vals _ (fun a => INR (length (filter negb ys)) * expectation vals (fun b => beats a b) + INR (length (filter (fun y => y) ys)) * INR (length (filter negb ys)) * (1 / 2))).
      * rewrite ex_plus, ex_const, ex_scal, HA by auto. cbn [filter negb length]. rewrite S_INR. ring.
      * intros a _. rewrite <- IH, <- ex_sum_negatives, <- ex_plus by auto. apply ex_ext. intros t _. cbn [combine].
        change (positives ((true, a) :: combine ys t)) with (a :: positives (combine ys t)). change (negatives ((true, a) :: combine ys t)) with (negatives (combine ys t)).
        unfold wins. rewrite <- Rsum_map_plus. reflexivity.
    + rewrite (ex_ext vals _ (fun b => INR (length (filter (fun y => y) ys)) * expectation vals (fun a => beats a b) + INR (length (filter (fun y => y) ys)) * INR (length (filter negb ys)) * (1 / 2))).
      * rewrite ex_plus, ex_const, ex_scal by auto. rewrite ex_swap, HA. cbn [filter negb length]. rewrite S_INR. ring.
      * intros b _. rewrite <- IH. rewrite <- (ex_sum_positives vals (fun a => beats a b) ys), <- ex_plus by auto. apply ex_ext. intros t _. cbn [combine].
        change (positives ((false, b) :: combine ys t)) with (positives (combine ys t)). change (negatives ((false, b) :: combine ys t)) with (b :: negatives (combine ys t)).
        unfold wins. cbn [map]. change (Rsum (?x :: ?l)) with (x + Rsum l). reflexivity.
Qed.
Lemma count_classes : forall (ys : list bool) (t : list R), length ys = length t -> length (positives (combine ys t)) = length (filter (fun y => y) ys) /\ length (negatives (combine ys t)) = length (filter negb ys).
Proof.
  intros ys. unfold positives, negatives. induction ys as [|y ys IH]; intros [|a t] L; try discriminate; auto. cbn in L. destruct (IH t ltac:(lia)) as [I1 I2]. rewrite map_length in *.
  destruct y; cbn [combine filter fst negb length map]; rewrite ?map_length; auto.
Qed.
Theorem C103_random_model : forall X (data : list (X * bool)) (vals : list R), vals <> [] -> In true (map snd data) -> In false (map snd data) ->
  exists value, (forall t, In t (tuples (length data) vals) -> evaluated (RandomModel (fun i => nth i t 0)) 0%nat auroc [] data = Ok (value t)) /\
    expectation (tuples (length data) vals) value = 1 / 2.
Proof.
  intros X data vals NE HT HF. set (ys := map snd data) in *. assert (Ly : length ys = length data) by apply map_length.
  exists (fun t => pair_wins (positives (combine ys t)) (negatives (combine ys t))). split.
  - intros t It. apply tuples_length in It. rewrite random_loop by auto. apply C102_auroc; [apply some_positive|apply some_negative]; auto; lia.
  - rewrite (ex_ext _ _ (fun t => / (INR (length (filter (fun y => y) ys)) * INR (length (filter negb ys))) * wins (positives (combine ys t)) (negatives (combine ys t)))).
    + rewrite ex_scal, <- Ly, ex_wins by auto. field. split; apply not_0_INR; intros Z.
      * apply length_zero_iff_nil in Z. assert (I : In false (filter negb ys)) by (apply filter_In; auto). rewrite Z in I. destruct I.
      * apply length_zero_iff_nil in Z. assert (I : In true (filter (fun y => y) ys)) by (apply filter_In; auto). rewrite Z in I. destruct I.
    + intros t It. apply tuples_length in It. destruct (count_classes ys t ltac:(lia)) as [E1 E2]. unfold pair_wins, wins, Rlen. rewrite E1, E2. unfold Rdiv. ring.
Qed.

Example C103_ex : let data := [(tt, true); (tt, false); (tt, true)] in
  evaluated PerfectModel [] auroc [] data = Ok 1 /\ evaluated (NullModel (1 / 2)) tt aupr [] data = Ok (2 / 3) /\
  exists value, (forall t, In t (tuples 3 [0; 1]) -> evaluated (RandomModel (fun i => nth i t 0)) 0%nat auroc [] data = Ok (value t)) /\ expectation (tuples 3 [0; 1]) value = 1 / 2.
Proof.
  intros data. split; [|split].
  - destruct (C103_perfect_model unit data) as (_ & _ & _ & ->); cbn; auto.
  - destruct (C103_null_model unit (1 / 2) data) as [_ H]. rewrite H by discriminate. apply (f_equal Ok). unfold fraction, Rlen. cbn. field.
  - apply (C103_random_model unit data [0; 1]); cbn; auto. discriminate.
Qed.

Print Assumptions C103_loop_is_metric_of_batch.
Print Assumptions C103_perfect_model.
Print Assumptions C103_null_model.
Print Assumptions C103_random_model.
