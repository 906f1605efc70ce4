(** * C94: a change of units of the features. *)
From Coq Require Import List ZArith Lia Bool Arith Reals Lra Permutation Sorted.
From Verif Require Import Base Num Spec Model_Stats Model_Utils Model_Core Model_Post Model_Simple Model_HST Model_Sketch P_Models P_Stats P_Lists P_Utils P_Post Prop_Stats Prop_Simple Prop_HST.
Import ListNotations.
Open Scope R_scope.

(** ** Specification *)
(** The same history with every instance changed. *)
Definition call_map {X X' Y} (f : X -> X') (o : mcall X Y) : mcall X' Y :=
  match o with CFit x y => CFit (f x) y | CScore x => CScore (f x) | CFitScore x y => CFitScore (f x) y end.
(** Feature i is multiplied by a i and shifted by b i. *)
Definition rescale (a b : nat -> R) (x : list R) : list R := map (fun i => a i * nth i x 0 + b i) (seq 0 (length x)).

(** ** Lemmas *)
Lemma fitted_call_map : forall X X' Y (f : X -> X') (h : list (mcall X Y)), fitted_calls (map (call_map f) h) = map (fun c => (f (fst c), snd c)) (fitted_calls h).
Proof. intros X X' Y f h. unfold fitted_calls. induction h as [|o h IH]; auto. cbn [map flat_map]. rewrite map_app, IH. destruct o; reflexivity. Qed.
Lemma fitted_instances_map : forall X X' Y (f : X -> X') (h : list (mcall X Y)), fitted_instances (map (call_map f) h) = map f (fitted_instances h).
Proof. intros. unfold fitted_instances. rewrite fitted_call_map, !map_map. reflexivity. Qed.
Lemma rescale_length : forall a b x, length (rescale a b x) = length x.
Proof. intros. unfold rescale. rewrite map_length, seq_length. reflexivity. Qed.
Lemma rescale_nth : forall a b x i, (i < length x)%nat -> nth i (rescale a b x) 0 = a i * nth i x 0 + b i.
Proof. intros a b x i H. unfold rescale. rewrite (nth_indep _ 0 (a 0%nat * nth 0 x 0 + b 0%nat)) by (rewrite map_length, seq_length; auto). rewrite (map_nth (fun i => a i * nth i x 0 + b i)), seq_nth; auto. Qed.

(** ** Univariate detectors *)
Lemma sorted_affine : forall a t s, 0 < a -> Sorted Rle s -> Sorted Rle (map (fun v => a * v + t) s).
Proof. intros a t s Ha H. induction H as [|v s H IH Hd]; cbn [map]; constructor; auto. inversion Hd; subst; cbn [map]; constructor. apply Rplus_le_compat_r. apply Rmult_le_compat_l; lra. Qed.
Lemma median_affine : forall a t m l, 0 < a -> is_median m l -> is_median (a * m + t) (map (fun v => a * v + t) l).
Proof.
  intros a t m l Ha (s & P & S & NE & E). exists (map (fun v => a * v + t) s). split; [apply Permutation_map; auto|]. split; [apply sorted_affine; auto|]. split; [destruct l; [congruence|discriminate]|]. rewrite map_length.
  assert (L : length s = length l) by (apply Permutation_length; auto). assert (0 < length l)%nat by (destruct l; [congruence|cbn; lia]).
  assert (Q : forall k, (k < length l)%nat -> nth k (map (fun v => a * v + t) s) 0 = a * nth k s 0 + t). { intros k Hk. rewrite (nth_indep _ 0 (a * 0 + t)) by (rewrite map_length; lia). apply (map_nth (fun v => a * v + t)). }
  assert (D : (length l / 2 < length l)%nat) by (apply Nat.div_lt; lia). destruct (Nat.odd (length l)); subst m; rewrite ?Q by lia; lra.
Qed.
Lemma last_map : forall X Z (f : X -> Z) l d, l <> [] -> last (map f l) (f d) = f (last l d).
Proof. intros X Z f l d H. induction l as [|x l IH]; [congruence|]. destruct l as [|y l]; auto. cbn [map] in *. change (last (f x :: f y :: map f l) (f d)) with (last (f y :: map f l) (f d)). rewrite IH by discriminate. reflexivity. Qed.
Lemma prefixes_map : forall X Z (f : X -> Z) l, prefixes (map f l) = map (map f) (prefixes l).
Proof. intros X Z f l. induction l as [|x l IH]; auto. cbn [map prefixes]. rewrite IH, !map_map. reflexivity. Qed.
Lemma last_indep : forall X (l : list X) d d', l <> [] -> last l d = last l d'.
Proof. intros X l d d' H. induction l as [|x l IH]; [congruence|]. destruct l as [|y l]; auto. cbn [last] in *. apply IH. discriminate. Qed.
Lemma devs_affine : forall a t vs, 0 < a -> devs_fn (map (fun v => a * v + t) vs) = map (fun d => a * d) (devs_fn vs).
Proof.
  intros a t vs Ha. unfold devs_fn. rewrite prefixes_map, !map_map. apply map_ext_in. intros p Hp. assert (NE : p <> []) by (eapply prefixes_nonempty; eauto).
  assert (NM : map (fun v => a * v + t) p <> []) by (destruct p; [congruence|discriminate]).
  rewrite (last_indep _ _ 0 (a * 0 + t)) by auto. rewrite (last_map _ _ (fun v => a * v + t)) by auto. rewrite (median_unique _ (a * median_fn p + t) _ (median_fn_spec _ NM)) by (apply median_affine; auto; apply median_fn_spec; auto).
  replace (a * last p 0 + t - (a * median_fn p + t)) with (a * (last p 0 - median_fn p)) by ring. rewrite Rabs_mult, (Rabs_pos_eq a) by lra. reflexivity.
Qed.
Lemma univariate_map : forall Y (f : R -> R) (h : list (mcall (list R) Y)), univariate (map (call_map (map f)) h) = map f (univariate h).
Proof.
  intros Y f h. unfold univariate. rewrite fitted_call_map. induction (fitted_calls h) as [|[x y] l IH]; auto. cbn [map flat_map fst]. rewrite map_app, IH. destruct x as [|v [|? ?]]; reflexivity.
Qed.
Lemma score_affine : forall a t ab v m d, 0 < a -> 0 < d -> maybe_abs ab ((a * v + t - (a * m + t)) / (a * d)) = maybe_abs ab ((v - m) / d).
Proof. intros a t ab v m d Ha Hd. f_equal. field. lra. Qed.
(** The literal 1e-10 in the denominator is the only thing that sees the unit: if it is scaled too, nothing changes. *)
Theorem C94_median_absolute_deviation : forall Y eps b ab (h : list (mcall (list R) Y)) x a t, 0 < eps -> 0 <= b -> 0 < a ->
  eval (md_score (MedianAbsoluteDeviation (a * eps) b ab) (map (fun v => a * v + t) x)) (model_run (MedianAbsoluteDeviation (a * eps) b ab) MAD_init (map (call_map (map (fun v => a * v + t))) h)) =
  eval (md_score (MedianAbsoluteDeviation eps b ab) x) (model_run (MedianAbsoluteDeviation eps b ab) MAD_init h).
Proof.
  intros Y eps b ab h x a t He Hb Ha. destruct (univariate h) as [|v0 l0] eqn:U.
  - rewrite !C70_no_value_no_score; auto. rewrite univariate_map, U. reflexivity.
  - assert (NE : univariate h <> []) by congruence. clear v0 l0 U. set (vs := univariate h) in *. assert (ND : devs_fn vs <> []). { unfold devs_fn. intros Q. apply map_eq_nil in Q. destruct vs; [congruence|discriminate]. }
    pose proof (median_fn_spec vs NE) as M1. pose proof (median_fn_spec (devs_fn vs) ND) as M2. assert (D0 : 0 <= median_fn (devs_fn vs)). { apply (median_nonneg _ _ M2). intros d Hd. unfold devs_fn in Hd. apply in_map_iff in Hd. destruct Hd as (p & <- & _). apply Rabs_pos. }
    rewrite (C70_score Y eps b ab h x (median_fn vs) (devs_fn vs) (median_fn (devs_fn vs))); auto; [|apply running_devs_fn; auto].
    rewrite (C70_score Y (a * eps) b ab _ _ (a * median_fn vs + t) (devs_fn (map (fun v => a * v + t) vs)) (a * median_fn (devs_fn vs))); auto.
    + do 2 f_equal. rewrite map_map. apply map_ext. intros v. f_equal. replace (b * (a * median_fn (devs_fn vs)) + a * eps) with (a * (b * median_fn (devs_fn vs) + eps)) by ring. apply score_affine; auto. assert (0 <= b * median_fn (devs_fn vs)) by (apply Rmult_le_pos; auto). lra.
    + apply Rmult_lt_0_compat; auto.
    + rewrite univariate_map. apply median_affine; auto.
    + rewrite univariate_map. apply running_devs_fn. reflexivity.
    + rewrite devs_affine by auto. pose proof (median_affine a 0 _ _ Ha M2) as Q. rewrite Rplus_0_r in Q. rewrite (map_ext (fun d => a * d) (fun v => a * v + 0)) by (intros; ring). exact Q.
Qed.
Print Assumptions C94_median_absolute_deviation.
Theorem C94_standard_absolute_deviation : forall Y eps ab n m (h : list (mcall (list R) Y)) x a t, 0 < eps -> SAD_statistic n = Ok m -> 0 < a ->
  eval (md_score (StandardAbsoluteDeviation (a * eps) ab m) (map (fun v => a * v + t) x)) (model_run (StandardAbsoluteDeviation (a * eps) ab m) (SAD_init m) (map (call_map (map (fun v => a * v + t))) h)) =
  eval (md_score (StandardAbsoluteDeviation eps ab m) x) (model_run (StandardAbsoluteDeviation eps ab m) (SAD_init m) h).
Proof.
  intros Y eps ab n m h x a t He Hm Ha. destruct (univariate h) as [|v0 l0] eqn:U.
  - assert (U' : univariate (map (call_map (map (fun v => a * v + t))) h) = []) by (rewrite univariate_map, U; reflexivity).
    destruct (C71_no_value_no_score Y eps ab h x U) as [Q1 Q2]. destruct (C71_no_value_no_score Y (a * eps) ab _ (map (fun v => a * v + t) x) U') as [Q1' Q2']. destruct n; cbn in Hm; inversion Hm; subst m; congruence.
  - assert (NE : univariate h <> []) by congruence. clear v0 l0 U. assert (C : exists c, center n (univariate h) c /\ center n (map (fun v => a * v + t) (univariate h)) (a * c + t)).
    { destruct n; cbn in Hm; try discriminate.
      - exists (median_fn (univariate h)). split; constructor; [apply median_fn_spec; auto|apply median_affine; auto; apply median_fn_spec; auto].
      - exists (mean (univariate h)). split; [constructor; auto|]. rewrite <- mean_affine by auto. constructor. destruct (univariate h); [congruence|discriminate]. }
    destruct C as (c & C1 & C2). rewrite (C71_score Y eps ab n m h x c He Hm C1).
    rewrite (C71_score Y (a * eps) ab n m _ _ (a * c + t)); auto.
    + do 2 f_equal. rewrite map_map. apply map_ext. intros v. f_equal. rewrite univariate_map, std_affine by auto. rewrite <- Rmult_plus_distr_l. apply score_affine; auto. pose proof (sqrt_pos (variance (univariate h))) as Q. unfold std. lra.
    + apply Rmult_lt_0_compat; auto.
    + rewrite univariate_map. exact C2.
Qed.
Print Assumptions C94_standard_absolute_deviation.
(** With the fixed literal a change of unit changes the scores. *)
Theorem C94_unit_free_refuted : forall Y eps, 0 < eps -> exists (h : list (mcall (list R) Y)) x a, 0 < a /\
  eval (md_score (StandardAbsoluteDeviation eps true AverageMeter) (map (fun v => a * v) x)) (model_run (StandardAbsoluteDeviation eps true AverageMeter) (SAD_init AverageMeter) (map (call_map (map (fun v => a * v))) h)) <>
  eval (md_score (StandardAbsoluteDeviation eps true AverageMeter) x) (model_run (StandardAbsoluteDeviation eps true AverageMeter) (SAD_init AverageMeter) h).
Proof.
  intros Y eps He. exists [CFit [1] None], [2], 2. split; [lra|]. intros Q.
  assert (S0 : forall v, std [v] = 0). { intros v. unfold std, variance, mean, Rlen, Rsum. cbn. replace ((v - (v + 0) / 1) * ((v - (v + 0) / 1) * 1) + 0) with 0 by field. unfold Rdiv. rewrite Rmult_0_l. apply sqrt_0. }
  assert (C : forall v, center NMean [v] v). { intros v. replace v with (mean [v]) at 2 by (unfold mean, Rlen, Rsum; cbn; field). constructor. discriminate. }
  pose proof (C71_score Y eps true NMean AverageMeter [CFit [1] None] [2] 1 He eq_refl (C 1)) as E1. pose proof (C71_score Y eps true NMean AverageMeter [CFit [2 * 1] None] [2 * 2] (2 * 1) He eq_refl (C (2 * 1))) as E2.
  cbn [map call_map] in Q. rewrite E1 in Q. change (map (fun v => 2 * v) [2]) with [2 * 2] in Q. rewrite E2 in Q. cbn [map] in Q. injection Q as Q.
  change (univariate [CFit (Y := Y) [2 * 1] None]) with [2 * 1] in Q. change (univariate [CFit (Y := Y) [1] None]) with [1] in Q. rewrite !S0, !Rplus_0_l in Q. unfold maybe_abs in Q. assert (P : 0 < / eps) by (apply Rinv_0_lt_compat; auto). unfold Rdiv in Q. rewrite !Rabs_pos_eq in Q by nra. nra.
Qed.
Print Assumptions C94_unit_free_refuted.

(** ** ExactStorm: any change of the instances that multiplies all distances by a, with the radius multiplied too. *)
Theorem C94_exact_storm : forall Y radius w (h : list (mcall (list R) Y)) x f a, 0 < a -> (forall r, In r (fitted_instances h) -> length r = length x /\ length (f r) = length (f x) /\ dist (f r) (f x) = a * dist r x) ->
  eval (md_score (ExactStorm (a * radius)) (f x)) (model_run (ExactStorm (a * radius)) (Window_init w) (map (call_map f) h)) =
  eval (md_score (ExactStorm radius) x) (model_run (ExactStorm radius) (Window_init w) h).
Proof.
  intros Y radius w h x f a Ha H. rewrite !C51_near_fraction.
  - rewrite fitted_instances_map, lastn_map. do 2 f_equal. assert (RL : forall l : list (list R), removelast (map f l) = map f (removelast l)). { induction l as [|u l IH]; auto. cbn [map removelast] in *. destruct l; auto. cbn [map] in *. rewrite IH. reflexivity. }
    rewrite RL. set (win := removelast _). assert (W : forall r, In r win -> dist (f r) (f x) = a * dist r x). { intros r Hr. apply H. apply In_removelast, In_lastn in Hr. auto. } clearbody win. clear - Ha W.
    assert (N : forall r, In r win -> near (a * radius) (f x) (f r) = near radius x r). { intros r Hr. unfold near. rewrite W by auto. unfold Rltb. destruct (Rlt_dec (a * dist r x) (a * radius)) as [L|L], (Rlt_dec (dist r x) radius) as [L'|L']; auto; exfalso; [apply L'; apply Rmult_lt_reg_l with a; auto|apply L; apply Rmult_lt_compat_l; auto]. }
    assert (F : forall l, (forall r, In r l -> In r win) -> length (filter (near (a * radius) (f x)) (map f l)) = length (filter (near radius x) l)). { induction l as [|r l IH]; intros Hl; auto. cbn [map filter]. rewrite N by (apply Hl; left; auto). destruct (near radius x r); cbn [length]; rewrite IH; auto; intros; apply Hl; right; auto. }
    unfold near_fraction. destruct win as [|r0 win]; auto. cbn [map]. change (f r0 :: map f win) with (map f (r0 :: win)). unfold fraction, Rlen. rewrite F, map_length by auto. reflexivity.
  - intros r Hr. apply H. auto.
  - intros r Hr. rewrite fitted_instances_map in Hr. apply in_map_iff in Hr. destruct Hr as (r' & <- & Hr). apply H. auto.
Qed.
Print Assumptions C94_exact_storm.
(** A common scale and a shift of each feature is such a change; so is a permutation of the features. *)
Theorem C94_rescaling_multiplies_distances : forall a b r x, 0 < a -> length r = length x -> length (rescale (fun _ => a) b r) = length (rescale (fun _ => a) b x) /\ dist (rescale (fun _ => a) b r) (rescale (fun _ => a) b x) = a * dist r x.
Proof.
  intros a b r x Ha L. split; [rewrite !rescale_length; auto|]. unfold dist. match goal with |- _ = a * sqrt ?S0 => replace (a * sqrt S0) with (sqrt (a ^ 2) * sqrt S0) by (rewrite sqrt_pow2; lra) end. rewrite <- sqrt_mult_alt by apply pow2_ge_0. f_equal.
  rewrite <- Rsum_map_scal. unfold rescale. rewrite <- L. clear Ha. revert x b L. induction r as [|v r IH]; intros [|u x] b L; cbn [length] in L; try discriminate; auto.
  cbn [length seq map nth combine fst snd]. rewrite <- seq_shift, !map_map. unfold Rsum in *. cbn [fold_right]. f_equal; [ring|]. apply (IH x (fun i => b (S i))). lia.
Qed.
Print Assumptions C94_rescaling_multiplies_distances.

(** ** HalfSpaceTrees: every feature may have its own unit, if the bounds given to the constructor are changed with it. *)
Lemma nth_set : forall X q (v : X) l i d, (q < length l)%nat -> nth i (set_nth q v l) d = if (i =? q)%nat then v else nth i l d.
Proof.
  intros X q v l. revert q. induction l as [|u l IH]; intros q i d H; cbn [length] in H; [lia|]. destruct q as [|q]; cbn [set_nth].
  - destruct i; reflexivity.
  - destruct i as [|i]; cbn [nth Nat.eqb]; auto. apply IH. lia.
Qed.
Lemma set_nth_rescale : forall a b q v l, (q < length l)%nat -> set_nth q (a q * v + b q) (rescale a b l) = rescale a b (set_nth q v l).
Proof.
  intros a b q v l H. apply (nth_ext _ _ 0 0). { rewrite set_nth_length, !rescale_length, set_nth_length. reflexivity. }
  intros i Hi. rewrite set_nth_length, rescale_length in Hi. rewrite rescale_nth by (rewrite set_nth_length; auto). rewrite !nth_set by (rewrite ?rescale_length; auto). destruct (Nat.eqb_spec i q) as [->|N]; auto. apply rescale_nth. auto.
Qed.
Section HST.
Variables (a b : nat -> R) (dim : nat).
Hypothesis (Ha : forall i, 0 < a i) (Hdim : (1 <= dim)%nat).
Definition same_routes (n : nat) (t t' : hst R) : Prop := forall d x, (d <= n)%nat -> (dim <= length x)%nat -> route d t' (rescale a b x) = route d t x.
Lemma build_rescale : forall draw n mins maxes k i, length mins = dim -> length maxes = dim -> (forall i, (draw i < dim)%nat) ->
  exists t t' i', hs_build (fun v : R => v) draw n mins maxes k i = (Ok t, i') /\ hs_build (fun v : R => v) draw n (rescale a b mins) (rescale a b maxes) k i = (Ok t', i') /\ same_routes n t t'.
Proof.
  intros draw n. induction n as [|n IH]; intros mins maxes k i L1 L2 Hq.
  - cbn [hs_build]. unfold ret. do 3 eexists. split; [reflexivity|]. split; [reflexivity|]. intros d x Hd Hx. replace d with 0%nat by lia. reflexivity.
  - cbn [hs_build]. unfold bind, gets, modify, lift. rewrite !rescale_length. destruct (Nat.eqb_spec (length maxes) 0) as [|_]; [lia|]. cbn iota beta.
    assert (Q1 : (draw i < length maxes)%nat) by (rewrite L2; auto). assert (Q2 : (draw i < length mins)%nat) by (rewrite L1; auto).
    rewrite (py_index_nth R NumR maxes), (py_index_nth R NumR (rescale a b maxes)), (py_index_nth R NumR mins), (py_index_nth R NumR (rescale a b mins)) by (rewrite ?rescale_length; auto). cbn iota beta.
    cbn [n0 NumR ndiv nadd nofZ]. rewrite !rescale_nth by auto. set (q := draw i) in *. set (p := (nth q maxes 0 + nth q mins 0) / 2).
    replace ((a q * nth q maxes 0 + b q + (a q * nth q mins 0 + b q)) / 2) with (a q * p + b q) by (unfold p; field). rewrite !set_nth_rescale by auto.
    destruct (IH mins (set_nth q p maxes) (S k) (S i)) as (tl & tl' & i1 & E1 & E1' & S1); rewrite ?set_nth_length; auto. destruct (IH (set_nth q p mins) maxes (S k) i1) as (tr & tr' & i2 & E2 & E2' & S2); rewrite ?set_nth_length; auto.
    rewrite E1, E1'. rewrite E2, E2'. unfold ret. do 3 eexists. split; [reflexivity|]. split; [reflexivity|].
    intros d x Hd Hx. destruct d as [|d]; auto. cbn [route]. rewrite rescale_nth by (specialize (Hq i); fold q in Hq; lia).
    assert (C : Rltb (a q * p + b q) (a q * nth q x 0 + b q) = Rltb p (nth q x 0)).
    { specialize (Ha q). unfold Rltb. destruct (Rlt_dec (a q * p + b q) (a q * nth q x 0 + b q)) as [C|C], (Rlt_dec p (nth q x 0)) as [C'|C']; auto; exfalso; [apply C'; apply Rmult_lt_reg_l with (a q); lra|apply C; apply Rplus_lt_compat_r, Rmult_lt_compat_l; lra]. }
    rewrite C. f_equal. destruct (Rltb p (nth q x 0)); [apply S2|apply S1]; auto; lia.
Qed.
Lemma build_all_rescale : forall draw D mins maxes l i, length mins = dim -> length maxes = dim -> (forall i, (draw i < dim)%nat) ->
  exists ts ts', fst (mapM (fun _ : nat => hs_build (fun v : R => v) draw D mins maxes 0) l i) = Ok ts /\ fst (mapM (fun _ : nat => hs_build (fun v : R => v) draw D (rescale a b mins) (rescale a b maxes) 0) l i) = Ok ts' /\ Forall2 (same_routes D) ts ts'.
Proof.
  intros draw D mins maxes l. induction l as [|u l IH]; intros i L1 L2 Hq; cbn [mapM].
  - exists [], []. auto.
  - destruct (build_rescale draw D mins maxes 0 i L1 L2 Hq) as (t & t' & i' & E & E' & S0). unfold bind, ret. rewrite E, E'. destruct (IH i' L1 L2 Hq) as (ts & ts' & Q1 & Q2 & F). destruct (mapM _ l i') as [o i1]. destruct (mapM (fun _ => hs_build _ draw D (rescale a b mins) _ 0) l i') as [o' i1']. cbn [fst] in *. subst. exists (t :: ts), (t' :: ts'). cbn. auto.
Qed.
Lemma cell_sum_rescale : forall D t t' ref x, same_routes D t t' -> (dim <= length x)%nat -> Forall (fun r => (dim <= length r)%nat) ref -> cell_sum D t' (map (rescale a b) ref) (rescale a b x) = cell_sum D t ref x.
Proof.
  intros D t t' ref x S0 Hx F. unfold cell_sum. f_equal. apply map_ext_in. intros d Hd. apply in_seq in Hd. f_equal. unfold sharing. f_equal. rewrite (S0 d x) by (auto; lia).
  induction F as [|r ref Hr F IH]; auto. cbn [map filter]. rewrite (S0 d r) by (auto; lia). destruct (list_eq_dec _ _ _); cbn [length]; auto.
Qed.
End HST.
Theorem C94_half_space_trees : forall Y draw mins maxes W T D a b (h : list (mcall (list R) Y)) x, let dim := length maxes in
  (forall i, 0 < a i) -> length mins = dim -> (1 <= dim)%nat -> (forall i, (draw i < dim)%nat) -> (1 <= W)%nat -> Forall (fun r => (dim <= length r)%nat) (fitted_instances h) -> (dim <= length x)%nat ->
  exists s0 s0', HST_init (Y := Y) (fun v => v) draw mins maxes W T D IWNone = Ok s0 /\ HST_init (Y := Y) (fun v => v) draw (rescale a b mins) (rescale a b maxes) W T D IWNone = Ok s0' /\
  eval (md_score (HalfSpaceTrees (Y := Y) W D) (rescale a b x)) (model_run (HalfSpaceTrees W D) s0' (map (call_map (rescale a b)) h)) =
  eval (md_score (HalfSpaceTrees (Y := Y) W D) x) (model_run (HalfSpaceTrees W D) s0 h).
Proof.
  intros Y draw mins maxes W T D a b h x dim Ha L1 Hd Hq HW F Hx.
  destruct (C54_score Y (fun v => v) draw mins maxes W T D h x L1 Hd Hq HW F Hx) as (s0 & E & S1).
  destruct (C54_score Y (fun v => v) draw (rescale a b mins) (rescale a b maxes) W T D (map (call_map (rescale a b)) h) (rescale a b x)) as (s0' & E' & S2); rewrite ?rescale_length; auto.
  { rewrite fitted_instances_map. apply Forall_map. eapply Forall_impl; [|exact F]. intros r Hr. rewrite rescale_length. exact Hr. }
  exists s0, s0'. split; [exact E|]. split; [exact E'|]. cbv zeta in S1, S2. unfold eval. rewrite S1, S2. cbn [fst]. do 3 f_equal. clear S1 S2.
  rewrite fitted_instances_map, map_length. set (xs := fitted_instances h) in *.
  set (ref := if (length xs <? W)%nat then xs else block W (length xs / W - 1) xs). replace (if (length xs <? W)%nat then map (rescale a b) xs else block W (length xs / W - 1) (map (rescale a b) xs)) with (map (rescale a b) ref) by (unfold ref, block; destruct (length xs <? W)%nat; [auto|rewrite skipn_map, firstn_map; reflexivity]).
  assert (FR : Forall (fun r => (dim <= length r)%nat) ref). { unfold ref. destruct (length xs <? W)%nat; auto. unfold block. rewrite Forall_forall in *. intros r Hr. apply F. rewrite <- (firstn_skipn ((length xs / W - 1) * W) xs). apply in_or_app. right. rewrite <- (firstn_skipn W (skipn _ xs)). apply in_or_app. left. exact Hr. }
  destruct (build_all_rescale a b dim Ha Hd draw D mins maxes (seq 0 T) 0 L1 eq_refl Hq) as (ts & ts' & B1 & B2 & FS). unfold HST_init in E, E'. rewrite B1 in E. rewrite B2 in E'. cbn [rbind iw_truth] in E, E'. injection E as <-. injection E' as <-. cbn [hs_roots].
  f_equal. clear - FS FR Hx Ha Hd. induction FS as [|t t' ts ts' S0 FS IH]; auto. cbn [map]. f_equal; auto. apply (cell_sum_rescale a b dim); auto.
Qed.
Print Assumptions C94_half_space_trees.

(** Concrete case: one feature in metres and one in degrees Celsius, restated in millimetres and degrees
    Fahrenheit; the premises hold for a window of two and any history of two-feature instances. *)
Example C94_example_half_space_trees : let a := (fun i => if (i =? 0)%nat then 1000 else 9 / 5) in let b := (fun i => if (i =? 0)%nat then 0 else 32) in
  rescale a b [1; 100] = [1000; 212] /\
  exists s0 s0', HST_init (Y := R) (fun v => v) (fun i => i mod 2) [0; 0] [2; 100] 2 3 1 IWNone = Ok s0 /\ HST_init (Y := R) (fun v => v) (fun i => i mod 2) [0; 32] [2000; 212] 2 3 1 IWNone = Ok s0' /\
  eval (md_score (HalfSpaceTrees (Y := R) 2 1) [1500; 68]) (model_run (HalfSpaceTrees 2 1) s0' [CFit [1000; 212] None]) =
  eval (md_score (HalfSpaceTrees (Y := R) 2 1) [3 / 2; 20]) (model_run (HalfSpaceTrees 2 1) s0 [CFit [1; 100] None]).
Proof.
  cbv zeta. assert (Q : forall u v, rescale (fun i => if (i =? 0)%nat then 1000 else 9 / 5) (fun i => if (i =? 0)%nat then 0 else 32) [u; v] = [1000 * u; 9 / 5 * v + 32]).
  { intros u v. apply (nth_ext _ _ 0 0). { rewrite rescale_length. reflexivity. } intros i Hi. rewrite rescale_length in Hi. cbn [length] in Hi. rewrite rescale_nth by (cbn [length]; lia). destruct i as [|[|i]]; cbn [nth Nat.eqb]; [lra|lra|lia]. }
  split. { rewrite Q. f_equal; [lra|]. f_equal. field. }
  destruct (C94_half_space_trees R (fun i => i mod 2)%nat [0; 0] [2; 100] 2 3 1 (fun i => if (i =? 0)%nat then 1000 else 9 / 5) (fun i => if (i =? 0)%nat then 0 else 32) [CFit [1; 100] None] [3 / 2; 20]) as (s0 & s0' & E & E' & S); cbn [length fitted_instances]; auto; try lia.
  { intros i. destruct (i =? 0)%nat; lra. } { intros i. apply Nat.mod_upper_bound. lia. } { repeat constructor; cbn; lia. }
  exists s0, s0'. split; [exact E|]. cbn [map call_map] in S. rewrite !Q in E', S. replace [1000 * 0; 9 / 5 * 0 + 32] with [0; 32] in E' by (repeat f_equal; lra). replace [1000 * 2; 9 / 5 * 100 + 32] with [2000; 212] in E' by (repeat (f_equal; try lra)). split; [exact E'|]. replace [1000 * (3 / 2); 9 / 5 * 20 + 32] with [1500; 68] in S by (repeat (f_equal; try lra)). replace [1000 * 1; 9 / 5 * 100 + 32] with [1000; 212] in S by (repeat (f_equal; try lra)). exact S.
Qed.
Example C94_example_deviation : let kelvin := map (fun v => 1 * v + 27315 / 100) in
  eval (md_score (StandardAbsoluteDeviation (Y := R) (1 * (1 / 100)) true AverageMeter) (kelvin [25])) (model_run (StandardAbsoluteDeviation (1 * (1 / 100)) true AverageMeter) (SAD_init AverageMeter) (map (call_map kelvin) [CFit [20] None; CScore [21]; CFit [22] None])) =
  eval (md_score (StandardAbsoluteDeviation (Y := R) (1 / 100) true AverageMeter) [25]) (model_run (StandardAbsoluteDeviation (Y := R) (1 / 100) true AverageMeter) (SAD_init AverageMeter) [CFit [20] None; CScore [21]; CFit [22] None]).
Proof. cbv zeta. apply (C94_standard_absolute_deviation R (1 / 100) true NMean AverageMeter); [lra|reflexivity|lra]. Qed.
Example C94_example_storm : forall r x, length r = length x -> let f := rescale (fun _ => 1000) (fun i => INR i) in
  eval (md_score (ExactStorm (Y := R) (1000 * (1 / 10))) (f x)) (model_run (ExactStorm (1000 * (1 / 10))) (Window_init 5) (map (call_map f) [CFit r None])) =
  eval (md_score (ExactStorm (Y := R) (1 / 10)) x) (model_run (ExactStorm (1 / 10)) (Window_init 5) [CFit r None]).
Proof.
  intros r x L. cbv zeta. apply (C94_exact_storm R (1 / 10) 5 [CFit r None] x); [lra|]. intros r' [<-|[]]. split; [exact L|]. apply C94_rescaling_multiplies_distances; [lra|exact L].
Qed.
