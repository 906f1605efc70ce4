(** * Properties of pysad/statistics (C15-C23, C26, C27).

    A history [h] is any list of client calls update / remove / get on a fresh object;
    [replay dec h] is the multiset of values updated and not removed (Spec.v);
    [mt_answer m h] is what the modelled get() answers after [h]. *)
From Coq Require Import List ZArith Lia Bool Reals Lra Permutation Sorted.
From Verif Require Import Base Num Spec Model_Stats P_Lists P_Stats.
Import ListNotations.
Open Scope R_scope.

Notation Rdec := Req_EM_T.

(** A sample history used by the examples: 3, 1, 4, 1 in, one 1 out, get in between. *)
Definition sample_history : list (mop R) := [Upd 3; Upd 1; Get; Upd 4; Upd 1; Rem 1; Get].
Ltac rdecide := repeat (match goal with |- context [Req_EM_T ?a ?b] => destruct (Req_EM_T a b); try lra end).
Lemma sample_valid : valid Rdec sample_history.
Proof. unfold valid, sample_history; simpl. repeat split; auto. Qed.
Lemma sample_replay : replay Rdec sample_history = [4; 1; 3].
Proof. unfold replay, sample_history; simpl. rdecide. reflexivity. Qed.

(** ** C15 *)
Theorem C15_count_meter : forall A (dec : forall a b : A, {a = b} + {a <> b}) h, valid dec h ->
  mt_answer (CountMeter A) h = Ok (Z.of_nat (length (replay dec h))).
Proof. intros. exact (rep_answer _ _ _ (count_rep A) dec h H). Qed.
Print Assumptions C15_count_meter.
Theorem C15_sum_meter : forall h, valid Rdec h ->
  mt_answer SumMeter h = Ok (Rsum (replay Rdec h)).
Proof. intros. exact (rep_answer _ _ _ sum_rep Rdec h H). Qed.
Print Assumptions C15_sum_meter.
Theorem C15_sum_squares_meter : forall h, valid Rdec h ->
  mt_answer SumSquaresMeter h = Ok (Rsum (map (fun x => x * x) (replay Rdec h))).
Proof. intros. exact (rep_answer _ _ _ sumsq_rep Rdec h H). Qed.
Print Assumptions C15_sum_squares_meter.
(** Without any validity assumption (removals of values that were never added included). *)
Definition pushed {A} (h : list (mop A)) : list A := flat_map (fun o => match o with Upd x => [x] | _ => [] end) h.
Definition pulled {A} (h : list (mop A)) : list A := flat_map (fun o => match o with Rem x => [x] | _ => [] end) h.
Lemma pushed_cons : forall A o (h : list (mop A)), pushed (o :: h) = match o with Upd x => x :: pushed h | _ => pushed h end.
Proof. intros A [x|x|] h; reflexivity. Qed.
Lemma pulled_cons : forall A o (h : list (mop A)), pulled (o :: h) = match o with Rem x => x :: pulled h | _ => pulled h end.
Proof. intros A [x|x|] h; reflexivity. Qed.
Theorem C15_count_any_history : forall A (h : list (mop A)),
  mt_answer (CountMeter A) h = Ok (Z.of_nat (length (pushed h)) - Z.of_nat (length (pulled h)))%Z.
Proof.
  intros A h. unfold mt_answer, mt_run.
  assert (G : forall h (c : Z), fold_left (mt_do (CountMeter A)) h c =
    (c + Z.of_nat (length (pushed h)) - Z.of_nat (length (pulled h)))%Z).
  { clear. induction h as [|o h IH]; intros c.
    - simpl. lia.
    - cbn [fold_left]. rewrite IH. destruct o; unfold pushed, pulled; cbn -[Z.of_nat length]; simpl length; rewrite ?Nat2Z.inj_succ; lia. }
  rewrite G. reflexivity.
Qed.
Print Assumptions C15_count_any_history.
Theorem C15_sums_any_history : forall h,
  mt_answer SumMeter h = Ok (Rsum (pushed h) - Rsum (pulled h)) /\
  mt_answer SumSquaresMeter h = Ok (Rsum (map (fun x => x * x) (pushed h)) - Rsum (map (fun x => x * x) (pulled h))).
Proof.
  assert (G1 : forall h (s : sumst R), ss_sum (fold_left (mt_do SumMeter) h s) = ss_sum s + Rsum (pushed h) - Rsum (pulled h)).
  { induction h as [|o h IH]; intros s.
    - simpl. lra.
    - cbn [fold_left]. rewrite IH. destruct o; cbn -[pushed pulled Rsum]; rewrite ?pushed_cons, ?pulled_cons; cbn -[pushed pulled]; fold (Rsum (pushed h)); fold (Rsum (pulled h)); lra. }
  assert (G2 : forall h (s : sumst R), ss_sum (fold_left (mt_do SumSquaresMeter) h s) =
    ss_sum s + Rsum (map (fun x => x * x) (pushed h)) - Rsum (map (fun x => x * x) (pulled h))).
  { induction h as [|o h IH]; intros s.
    - simpl. lra.
    - cbn [fold_left]. rewrite IH. destruct o; cbn -[pushed pulled Rsum map]; rewrite ?pushed_cons, ?pulled_cons; unfold nsq; cbn -[pushed pulled]; unfold Rsum; lra. }
  intros h. unfold mt_answer, mt_run, eval, mt_get, gets. simpl. split; f_equal.
  - rewrite G1. simpl. lra.
  - rewrite G2. simpl. lra.
Qed.
Print Assumptions C15_sums_any_history.
Example C15_ex_any : mt_answer (CountMeter R) [Rem 1; Upd 2; Rem 3] = Ok (-1)%Z.
Proof. rewrite C15_count_any_history. reflexivity. Qed.
Example C15_ex : mt_answer SumMeter sample_history = Ok 8 /\ mt_answer SumSquaresMeter sample_history = Ok 26
  /\ mt_answer (CountMeter R) sample_history = Ok 3%Z.
Proof.
  rewrite C15_sum_meter, C15_sum_squares_meter, (C15_count_meter R Rdec) by apply sample_valid.
  rewrite sample_replay. simpl. repeat split; f_equal; lra.
Qed.

(** ** C16 *)
Theorem C16_average_meter : forall h, valid Rdec h ->
  (replay Rdec h <> [] -> mt_answer AverageMeter h = Ok (mean (replay Rdec h))) /\
  (replay Rdec h = [] -> mt_answer AverageMeter h = Raise ZeroDivisionError).
Proof.
  intros h V. pose proof (rep_answer _ _ _ avg_rep Rdec h V) as E. rewrite E.
  unfold avg_spec. destruct (replay Rdec h); split; congruence.
Qed.
Print Assumptions C16_average_meter.
Theorem C16_average_between_extremes : forall h lo hi, valid Rdec h -> replay Rdec h <> [] ->
  (forall x, In x (replay Rdec h) -> lo <= x <= hi) ->
  exists a, mt_answer AverageMeter h = Ok a /\ lo <= a <= hi.
Proof.
  intros. eexists. split; [apply C16_average_meter; auto|]. apply mean_bounds; auto.
Qed.
Print Assumptions C16_average_between_extremes.
Example C16_ex : mt_answer AverageMeter sample_history = Ok (8 / 3) /\
  mt_answer AverageMeter [Upd 2; Rem 2] = Raise ZeroDivisionError.
Proof.
  split.
  - destruct (C16_average_meter sample_history sample_valid) as [E _].
    rewrite sample_replay in E. rewrite E by congruence. unfold mean, Rlen. simpl. f_equal. lra.
  - apply C16_average_meter.
    + unfold valid; simpl; auto.
    + unfold replay; simpl. rdecide. reflexivity.
Qed.

(** ** C17 *)
Theorem C17_variance_meter : forall h, valid Rdec h ->
  (replay Rdec h <> [] -> mt_answer VarianceMeter h = Ok (variance (replay Rdec h))) /\
  (replay Rdec h = [] -> mt_answer VarianceMeter h = Raise ZeroDivisionError).
Proof.
  intros h V. pose proof (rep_answer _ _ _ var_rep Rdec h V) as E. rewrite E.
  unfold var_spec. destruct (replay Rdec h); split; congruence.
Qed.
Print Assumptions C17_variance_meter.
Theorem C17_variance_sign : forall h, valid Rdec h -> replay Rdec h <> [] ->
  exists v, mt_answer VarianceMeter h = Ok v /\ 0 <= v /\
    (v = 0 <-> forall x y, In x (replay Rdec h) -> In y (replay Rdec h) -> x = y).
Proof.
  intros. eexists. split; [apply C17_variance_meter; auto|].
  split; [apply variance_nonneg | apply variance_zero_iff; auto].
Qed.
Print Assumptions C17_variance_sign.
Example C17_ex : mt_answer VarianceMeter [Upd 1; Upd 7; Upd 3; Rem 7] = Ok 1.
Proof.
  assert (V : valid Rdec [Upd 1; Upd 7; Upd 3; Rem 7]) by (unfold valid; simpl; auto 10).
  assert (E : replay Rdec [Upd 1; Upd 7; Upd 3; Rem 7] = [3; 1]) by (unfold replay; simpl; rdecide; reflexivity).
  destruct (C17_variance_meter _ V) as [H _]. rewrite E in H. rewrite H by congruence.
  unfold variance, mean, Rlen; simpl. f_equal. lra.
Qed.

(** ** C18: any total order with a least (greatest) element; e.g. the extended reals. *)
Theorem C18_max_meter : forall A (O : Ord A) (OL : OrdLaws A) (minf : A),
  (forall a, oleb minf a = true) -> forall h,
  (replay ord_dec h = [] -> mt_answer (MaxMeter minf) h = Ok minf) /\
  (replay ord_dec h <> [] -> exists mx, mt_answer (MaxMeter minf) h = Ok mx /\
     In mx (replay ord_dec h) /\ forall x, In x (replay ord_dec h) -> oleb x mx = true).
Proof.
  intros A O OL minf Hm h.
  pose proof (rep_answer_strict _ _ _ (max_rep minf Hm) ord_dec (max_strict minf) h) as E.
  rewrite E. split; intros HE.
  - rewrite HE. reflexivity.
  - destruct (np_max_ok _ HE) as (mx & E1 & E2). exists mx. split; auto.
    unfold max_spec. destruct (replay ord_dec h); congruence.
Qed.
Print Assumptions C18_max_meter.
Theorem C18_min_meter : forall A (O : Ord A) (OL : OrdLaws A) (pinf : A),
  (forall a, oleb a pinf = true) -> forall h,
  (replay ord_dec h = [] -> mt_answer (MinMeter pinf) h = Ok pinf) /\
  (replay ord_dec h <> [] -> exists mn, mt_answer (MinMeter pinf) h = Ok mn /\
     In mn (replay ord_dec h) /\ forall x, In x (replay ord_dec h) -> oleb mn x = true).
Proof.
  intros A O OL pinf Hm h.
  pose proof (rep_answer_strict _ _ _ (min_rep pinf Hm) ord_dec (min_strict pinf) h) as E.
  rewrite E. split; intros HE.
  - rewrite HE. reflexivity.
  - destruct (np_min_ok _ HE) as (mx & E1 & E2). exists mx. split; auto.
    unfold min_spec. destruct (replay ord_dec h); congruence.
Qed.
Print Assumptions C18_min_meter.
(** The extended reals satisfy the hypothesis. *)
Lemma ext_least : forall A (O : Ord A) (a : ext A), oleb MInf a = true.
Proof. intros A O [| |]; reflexivity. Qed.
Lemma ext_greatest : forall A (O : Ord A) (a : ext A), oleb a PInf = true.
Proof. intros A O [| |]; reflexivity. Qed.
Example C18_ex :
  mt_answer (MaxMeter (MInf : ext Z)) [Upd (Fin 3%Z); Upd (Fin 8%Z); Upd (Fin 5%Z); Rem (Fin 8%Z)] = Ok (Fin 5%Z)
  /\ mt_answer (MinMeter (PInf : ext Z)) [Upd (Fin 3%Z); Upd (Fin 8%Z); Upd (Fin 5%Z); Rem (Fin 3%Z)] = Ok (Fin 5%Z)
  /\ mt_answer (MaxMeter (MInf : ext Z)) [Upd (Fin 3%Z); Rem (Fin 3%Z)] = Ok MInf.
Proof. repeat split; vm_compute; reflexivity. Qed.

(** ** C19 *)
Theorem C19_median_meter : forall h : list (mop R),
  (replay Rdec h = [] -> mt_answer MedianMeter h = Raise IndexError) /\
  (replay Rdec h <> [] -> exists md, mt_answer MedianMeter h = Ok md /\ is_median md (replay Rdec h)).
Proof.
  intros h.
  pose proof (rep_answer_strict _ _ _ med_rep Rdec med_strict h) as E.
  rewrite E. split; intros HE.
  - rewrite HE. reflexivity.
  - exists (median_fn (replay Rdec h)). split; [|apply median_fn_spec; auto].
    unfold med_spec. destruct (replay Rdec h); congruence.
Qed.
Print Assumptions C19_median_meter.
Theorem C19_median_well_defined : forall m m' l, is_median m l -> is_median m' l -> m = m'.
Proof. exact median_unique. Qed.
Print Assumptions C19_median_well_defined.
Example C19_ex : mt_answer MedianMeter sample_history = Ok 3.
Proof.
  destruct (C19_median_meter sample_history) as [_ H]. rewrite sample_replay in H.
  destruct H as (md & E & HM); [congruence|]. rewrite E. f_equal.
  apply (median_unique _ _ _ HM). exists [1; 3; 4]. split.
  - apply (@Permutation_trans _ _ [1; 4; 3]); [constructor; apply perm_swap | apply perm_swap].
  - split; [repeat constructor; lra|]. split; [congruence|]. reflexivity.
Qed.

(** ** C20: any wrapped statistic over any number type. *)
Lemma abs_run : forall A (N : Num A) (m : Meter A A) h s,
  fold_left (mt_do (AbsStatistic m)) h s = fold_left (mt_do m) h s.
Proof.
  intros A N m h; induction h as [|o h IH]; simpl; intros s; auto.
  rewrite IH. f_equal. destruct o; simpl; auto.
  unfold exec, bind, ret. destruct (mt_get m s) as [[v|e] s']; reflexivity.
Qed.
Theorem C20_abs_statistic : forall A (N : Num A) (m : Meter A A) h,
  mt_answer (AbsStatistic m) h =
  match mt_answer m h with Ok v => Ok (nabs v) | Raise e => Raise e end.
Proof.
  intros. unfold mt_answer.
  assert (E : mt_run (AbsStatistic m) h = mt_run m h) by apply abs_run. rewrite E.
  unfold eval. simpl. unfold bind, ret. destruct (mt_get m _) as [[v|e] s']; reflexivity.
Qed.
Print Assumptions C20_abs_statistic.
Example C20_ex : mt_answer (AbsStatistic AverageMeter) [Upd (-3); Upd (-5)] = Ok 4
  /\ mt_answer (AbsStatistic (AverageMeter (A := R))) [] = Raise ZeroDivisionError.
Proof.
  split.
  - rewrite C20_abs_statistic.
    destruct (C16_average_meter [Upd (-3); Upd (-5)]) as [E _]; [unfold valid; simpl; auto|].
    rewrite E by (unfold replay; simpl; congruence). unfold replay, mean, Rlen; simpl.
    f_equal. rewrite Rabs_left; lra.
  - rewrite C20_abs_statistic. unfold mt_answer, mt_run; simpl. reflexivity.
Qed.

(** ** C21: remove undoes update. *)
Definition undo_law {A B} (dec : forall a b : A, {a = b} + {a <> b}) (m : Meter A B) : Prop :=
  forall h1 h2 h3 x, valid dec (h1 ++ h2 ++ h3) ->
    mt_answer m (h1 ++ [Upd x] ++ h2 ++ [Rem x] ++ h3) = mt_answer m (h1 ++ h2 ++ h3).
Theorem C21_remove_undoes_update :
  undo_law Rdec (CountMeter R) /\ undo_law Rdec (SumMeter (A := R)) /\ undo_law Rdec (SumSquaresMeter (A := R)) /\
  undo_law Rdec (AverageMeter (A := R)) /\ undo_law Rdec (VarianceMeter (A := R)) /\
  undo_law Rdec (MedianMeter (A := R)) /\
  undo_law ord_dec (MaxMeter (MInf : ext R)) /\ undo_law ord_dec (MinMeter (PInf : ext R)).
Proof.
  repeat split; unfold undo_law; intros h1 h2 h3 x V.
  - exact (rep_undo _ _ _ (count_rep R) Rdec _ _ _ _ V).
  - exact (rep_undo _ _ _ sum_rep Rdec _ _ _ _ V).
  - exact (rep_undo _ _ _ sumsq_rep Rdec _ _ _ _ V).
  - exact (rep_undo _ _ _ avg_rep Rdec _ _ _ _ V).
  - exact (rep_undo _ _ _ var_rep Rdec _ _ _ _ V).
  - exact (rep_undo _ _ _ med_rep Rdec _ _ _ _ V).
  - exact (rep_undo _ _ _ (max_rep MInf (ext_least R OrdR)) ord_dec _ _ _ _ V).
  - exact (rep_undo _ _ _ (min_rep PInf (ext_greatest R OrdR)) ord_dec _ _ _ _ V).
Qed.
Print Assumptions C21_remove_undoes_update.
(** Removing an absent value: ValueError, and the object is unchanged. *)
Theorem C21_remove_absent_max : forall A (O : Ord A) (OL : OrdLaws A) (minf : A),
  (forall a, oleb minf a = true) -> forall h x, ~ In x (replay ord_dec h) ->
  mt_remove (MaxMeter minf) x (mt_run (MaxMeter minf) h) = (Raise ValueError, mt_run (MaxMeter minf) h).
Proof.
  intros. eapply max_strict; eauto.
  exact (rep_run_strict _ _ _ (max_rep minf H) ord_dec (max_strict minf) h).
Qed.
Print Assumptions C21_remove_absent_max.
Theorem C21_remove_absent_min : forall A (O : Ord A) (OL : OrdLaws A) (pinf : A),
  (forall a, oleb a pinf = true) -> forall h x, ~ In x (replay ord_dec h) ->
  mt_remove (MinMeter pinf) x (mt_run (MinMeter pinf) h) = (Raise ValueError, mt_run (MinMeter pinf) h).
Proof.
  intros. eapply min_strict; eauto.
  exact (rep_run_strict _ _ _ (min_rep pinf H) ord_dec (min_strict pinf) h).
Qed.
Print Assumptions C21_remove_absent_min.
Theorem C21_remove_absent_median : forall h x, ~ In x (replay Rdec h) ->
  mt_remove MedianMeter x (mt_run MedianMeter h) = (Raise ValueError, mt_run MedianMeter h).
Proof.
  intros. eapply med_strict; eauto.
  exact (rep_run_strict _ _ _ med_rep Rdec med_strict h).
Qed.
Print Assumptions C21_remove_absent_median.
Example C21_ex :
  mt_answer AverageMeter ([Upd 3] ++ [Upd 10] ++ [Upd 5] ++ [Rem 10] ++ [Get]) = Ok 4 /\
  mt_remove (MaxMeter (MInf : ext Z)) (Fin 4%Z) (mt_run (MaxMeter MInf) [Upd (Fin 3%Z)]) =
    (Raise ValueError, mkMax (Fin 3%Z) [Fin 3%Z]).
Proof.
  split; [|vm_compute; reflexivity].
  destruct C21_remove_undoes_update as (_ & _ & _ & U & _).
  rewrite (U [Upd 3] [Upd 5] [Get] 10); [|unfold valid; simpl; auto].
  destruct (C16_average_meter ([Upd 3] ++ [Upd 5] ++ [Get])) as [E _]; [unfold valid; simpl; auto|].
  rewrite E by (unfold replay; simpl; congruence). unfold replay, mean, Rlen; simpl. f_equal. lra.
Qed.

(** ** C22: windowed = fresh meter fed the last window_size values.  [w] is any integer
    (w <= 0 keeps nothing). *)
Definition windowed_law {A B} (m : Meter A B) : Prop :=
  forall (w : Z) xs, exists s0 s1,
    RunningStatistic_init m false w (@nil unit) = Ok s0 /\
    iterM (RunningStatistic_update m) xs s0 = (Ok tt, s1) /\
    eval (RunningStatistic_get m) s1 = mt_answer m (map (@Upd A) (lastn (Z.to_nat w) xs)).
Lemma windowed_of_rep : forall A B (m : Meter A B) spec Rl
  (dec : forall a b : A, {a = b} + {a <> b}), Rep m spec Rl -> windowed_law m.
Proof.
  intros A B m spec Rl dec HR w xs. exists (mkRun (mt_init m) w []).
  destruct (running_steps m spec Rl HR w xs) as (s1 & E & Hs).
  exists s1. split; [reflexivity|]. split; auto.
  rewrite <- (running_fresh m spec Rl HR dec). unfold exec. rewrite E. reflexivity.
Qed.
Theorem C22_running_statistic :
  windowed_law (CountMeter R) /\ windowed_law (SumMeter (A := R)) /\ windowed_law (SumSquaresMeter (A := R)) /\
  windowed_law (AverageMeter (A := R)) /\ windowed_law (VarianceMeter (A := R)) /\
  windowed_law (MedianMeter (A := R)) /\
  windowed_law (MaxMeter (MInf : ext R)) /\ windowed_law (MinMeter (PInf : ext R)).
Proof.
  repeat split.
  - exact (windowed_of_rep _ _ _ _ _ Rdec (count_rep R)).
  - exact (windowed_of_rep _ _ _ _ _ Rdec sum_rep).
  - exact (windowed_of_rep _ _ _ _ _ Rdec sumsq_rep).
  - exact (windowed_of_rep _ _ _ _ _ Rdec avg_rep).
  - exact (windowed_of_rep _ _ _ _ _ Rdec var_rep).
  - exact (windowed_of_rep _ _ _ _ _ Rdec med_rep).
  - exact (windowed_of_rep _ _ _ _ _ ord_dec (max_rep MInf (ext_least R OrdR))).
  - exact (windowed_of_rep _ _ _ _ _ ord_dec (min_rep PInf (ext_greatest R OrdR))).
Qed.
Print Assumptions C22_running_statistic.
(** Spelled out for the average: the mean of the last w values. *)
Theorem C22_running_average : forall (w : Z) xs, (1 <= w)%Z -> xs <> [] -> exists s0 s1,
  RunningStatistic_init AverageMeter false w (@nil unit) = Ok s0 /\
  iterM (RunningStatistic_update AverageMeter) xs s0 = (Ok tt, s1) /\
  eval (RunningStatistic_get AverageMeter) s1 = Ok (mean (lastn (Z.to_nat w) xs)).
Proof.
  intros w xs Hw Hx. destruct C22_running_statistic as (_ & _ & _ & U & _).
  destruct (U w xs) as (s0 & s1 & E0 & E1 & E2). exists s0, s1. split; auto. split; auto.
  rewrite E2, (rep_fed _ _ _ avg_rep Rdec). unfold avg_spec.
  pose proof (lastn_nonempty _ (Z.to_nat w) xs ltac:(lia) Hx). destruct (lastn _ _); congruence.
Qed.
Print Assumptions C22_running_average.
Example C22_ex : exists s0 s1,
  RunningStatistic_init AverageMeter false 2%Z (@nil unit) = Ok s0 /\
  iterM (RunningStatistic_update AverageMeter) [10; 20; 3; 5] s0 = (Ok tt, s1) /\
  eval (RunningStatistic_get AverageMeter) s1 = Ok 4.
Proof.
  destruct (C22_running_average 2%Z [10; 20; 3; 5]) as (s0 & s1 & A1 & A2 & A3); [lia|congruence|].
  exists s0, s1. split; auto. split; auto. rewrite A3. unfold lastn, mean, Rlen; simpl. f_equal. lra.
Qed.

(** ** C23 *)
Definition order_independent {A B} (m : Meter A B) : Prop :=
  forall l l', Permutation l l' -> mt_answer m (map (@Upd A) l) = mt_answer m (map (@Upd A) l').
Lemma order_independent_of_rep : forall A B (m : Meter A B) spec Rl
  (dec : forall a b : A, {a = b} + {a <> b}), Rep m spec Rl -> order_independent m.
Proof.
  intros A B m spec Rl dec HR l l' P. rewrite !(rep_fed _ _ _ HR dec). eapply rep_spec_perm; eauto.
Qed.
Theorem C23_order_independent :
  order_independent (CountMeter R) /\ order_independent (SumMeter (A := R)) /\ order_independent (SumSquaresMeter (A := R)) /\
  order_independent (AverageMeter (A := R)) /\ order_independent (VarianceMeter (A := R)) /\
  order_independent (MedianMeter (A := R)) /\
  order_independent (MaxMeter (MInf : ext R)) /\ order_independent (MinMeter (PInf : ext R)).
Proof.
  repeat split.
  - exact (order_independent_of_rep _ _ _ _ _ Rdec (count_rep R)).
  - exact (order_independent_of_rep _ _ _ _ _ Rdec sum_rep).
  - exact (order_independent_of_rep _ _ _ _ _ Rdec sumsq_rep).
  - exact (order_independent_of_rep _ _ _ _ _ Rdec avg_rep).
  - exact (order_independent_of_rep _ _ _ _ _ Rdec var_rep).
  - exact (order_independent_of_rep _ _ _ _ _ Rdec med_rep).
  - exact (order_independent_of_rep _ _ _ _ _ ord_dec (max_rep MInf (ext_least R OrdR))).
  - exact (order_independent_of_rep _ _ _ _ _ ord_dec (min_rep PInf (ext_greatest R OrdR))).
Qed.
Print Assumptions C23_order_independent.
Example C23_ex : mt_answer SumMeter [Upd 1; Upd 2] = mt_answer SumMeter [Upd 2; Upd 1].
Proof. destruct C23_order_independent as (_ & S & _). apply (S [1; 2] [2; 1]). apply perm_swap. Qed.

(** ** C26 (refuted expectation): keyword arguments never reach the wrapped class. *)
Theorem C26_running_kwargs_rejected : forall A B K (m : Meter A B) required w (k : K) kwargs,
  RunningStatistic_init m required w (k :: kwargs) = Raise TypeError.
Proof. reflexivity. Qed.
Print Assumptions C26_running_kwargs_rejected.
Theorem C26_running_abs_statistic_impossible_refuted : forall A B K (m : Meter A B) w (kwargs : list K),
  RunningStatistic_init m true w kwargs = Raise TypeError.
Proof. intros. destruct kwargs; reflexivity. Qed.
Print Assumptions C26_running_abs_statistic_impossible_refuted.
Example C26_ex : RunningStatistic_init (SumMeter (A := R)) false 5%Z [tt] = Raise TypeError
  /\ RunningStatistic_init (AbsStatistic (SumMeter (A := R))) true 5%Z (@nil unit) = Raise TypeError.
Proof. split; reflexivity. Qed.

(** ** C27: the internal list. *)
Theorem C27_internal_list_is_current_multiset : forall A (O : Ord A) (OL : OrdLaws A) (minf : A),
  (forall a, oleb minf a = true) -> forall h,
  Permutation (mx_lst (mt_run (MaxMeter minf) h)) (replay ord_dec h).
Proof.
  intros. exact (proj1 (rep_run_strict _ _ _ (max_rep minf H) ord_dec (max_strict minf) h)).
Qed.
Print Assumptions C27_internal_list_is_current_multiset.
Theorem C27_median_internal_list : forall h,
  Permutation (md_lst (mt_run MedianMeter h)) (replay Rdec h) /\
  md_n (mt_run MedianMeter h) = Z.of_nat (length (replay Rdec h)).
Proof. intros. exact (rep_run_strict _ _ _ med_rep Rdec med_strict h). Qed.
Print Assumptions C27_median_internal_list.
(** While nothing was removed the list is a binary heap: every element is at least its
    parent, so the first element is a minimum. *)
Theorem C27_heap_while_growing : forall A (O : Ord A) (OL : OrdLaws A) (minf : A) xs,
  let l := mx_lst (mt_run (MaxMeter minf) (map (@Upd A) xs)) in
  (forall i x p, (0 < i)%nat -> nth_error l i = Some x -> nth_error l ((i - 1) / 2) = Some p -> oleb p x = true) /\
  (forall a, nth_error l 0 = Some a -> forall x, In x l -> oleb a x = true).
Proof.
  intros A O OL minf xs l.
  assert (HO : heap_ordered l).
  { subst l. unfold mt_run. generalize (heap_ordered_nil (A := A)). change [] with (mx_lst (mt_init (MaxMeter minf))) at 1.
    generalize (mt_init (MaxMeter minf)) as s. induction xs as [|x xs IH]; simpl; intros s Hs; auto.
    apply IH. simpl. unfold exec; simpl. apply heappush_heap; auto. }
  split; [exact HO|].
  intros a Ha x Hx. destruct l as [|b l'] eqn:E; [destruct Hx|]. simpl in Ha. inversion Ha; subst b.
  apply In_nth_error in Hx. destruct Hx as [i Hi]. eapply (heap_root_min (a :: l')); eauto.
Qed.
Print Assumptions C27_heap_while_growing.
Example C27_ex : mx_lst (mt_run (MaxMeter (-100)%Z) (map (@Upd Z) [5; 3; 8; 1; 2]%Z)) = [1; 2; 8; 5; 3]%Z.
Proof. vm_compute. reflexivity. Qed.
