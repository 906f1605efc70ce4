(** * C134: how long a detector takes to accept a new level. *)
From Coq Require Import String.
From Coq Require Import List ZArith Lia Bool Reals Lra Arith Permutation Sorted.
From Verif Require Import Base Num Spec Model_Core Model_Stats Model_Utils Model_Trans Model_Simple Model_Post Model_Sketch Model_HST Model_Loda Model_XStream P_Lists P_Core P_Stats P_Utils P_Post P_Models
  Prop_Trans Prop_Simple Prop_Post Prop_HST Prop_RSHash Prop_Sketch Prop_Quant Prop_Loda Prop_XStream Prop_Direction Prop_Familiar Prop_Constant.
Import ListNotations.
Open Scope R_scope.
Local Notation length := List.length.

(** ** Specification *)
(** The instances fitted so far: n times a, then k times b. *)
Definition level_shift {Y} (n k : nat) (a b : list R) (h : list (mcall (list R) Y)) : Prop := fitted_instances h = repeat a n ++ repeat b k.

(** ** Two-valued lists *)
Lemma nth_two : forall (a b : R) n k i, (i < n + k)%nat -> nth i (repeat a n ++ repeat b k) 0 = if (i <? n)%nat then a else b.
Proof.
  intros a b n k i H. destruct (Nat.ltb_spec i n) as [L|L]; [rewrite app_nth1 by (rewrite repeat_length; lia); apply nth_same; lia|]. rewrite app_nth2 by (rewrite repeat_length; lia). rewrite repeat_length. apply nth_same. lia.
Qed.
Lemma sorted_two : forall a b n k, a <= b -> Sorted Rle (repeat a n ++ repeat b k).
Proof.
  intros a b n k H. induction n as [|n IH]; cbn [repeat app].
  - induction k as [|k IH]; cbn [repeat]; constructor; auto. destruct k; constructor. lra.
  - constructor; auto. destruct n; cbn [repeat app]; [destruct k; constructor; lra|constructor; lra].
Qed.
Lemma median_two : forall a b n k, (1 <= n + k)%nat -> is_median (if (k <? n)%nat then a else if (k =? n)%nat then (a + b) / 2 else b) (repeat a n ++ repeat b k).
Proof.
  assert (G : forall a b n k, a <= b -> (1 <= n + k)%nat -> is_median (if (k <? n)%nat then a else if (k =? n)%nat then (a + b) / 2 else b) (repeat a n ++ repeat b k)).
  { intros a b n k H N. exists (repeat a n ++ repeat b k). split; [auto|]. split; [apply sorted_two, H|]. split; [destruct n; [destruct k; [lia|discriminate]|discriminate]|].
    rewrite app_length, !repeat_length. destruct (Nat.odd (n + k)) eqn:O.
    - apply Nat.odd_spec in O. destruct O as [q O]. rewrite O. replace ((2 * q + 1) / 2)%nat with q by (apply (Nat.div_unique _ _ _ 1); lia). rewrite nth_two by lia.
      destruct (Nat.ltb_spec k n), (Nat.ltb_spec q n), (Nat.eqb_spec k n); try lia; auto.
    - assert (E : Nat.Even (n + k)) by (apply Nat.even_spec; rewrite <- Nat.negb_odd, O; reflexivity). destruct E as [q E]. rewrite E. replace (2 * q / 2)%nat with q by (apply (Nat.div_unique _ _ _ 0); lia). rewrite !nth_two by lia.
      destruct (Nat.ltb_spec k n), (Nat.ltb_spec (q - 1) n), (Nat.ltb_spec q n), (Nat.eqb_spec k n); try lia; lra. }
  intros a b n k N. destruct (Rle_dec a b) as [H|H]; [apply G; auto|]. assert (H' : b <= a) by lra. pose proof (G b a k n H' ltac:(lia)) as (s & P & S0 & NE & E).
  exists s. split; [rewrite P; apply Permutation_app_comm|]. split; [exact S0|]. split; [destruct n; [destruct k; [lia|discriminate]|discriminate]|]. rewrite app_length, !repeat_length in *. rewrite (Nat.add_comm n k), <- E.
  destruct (Nat.ltb_spec k n), (Nat.ltb_spec n k), (Nat.eqb_spec k n), (Nat.eqb_spec n k); try lia; lra.
Qed.
Lemma mean_two : forall a b n k, (1 <= n + k)%nat -> mean (repeat a n ++ repeat b k) = (INR n * a + INR k * b) / INR (n + k).
Proof. intros a b n k H. unfold mean, Rlen. rewrite Rsum_app, !Rsum_repeat, app_length, !repeat_length. reflexivity. Qed.
Lemma std_two : forall a b n k, (1 <= n + k)%nat -> std (repeat a n ++ repeat b k) = sqrt (INR n * INR k) * Rabs (a - b) / INR (n + k).
Proof.
  intros a b n k H. assert (Hp : 0 < INR (n + k)) by (apply lt_0_INR; lia). unfold std, variance. rewrite map_app, !map_same, !mean_two by auto. rewrite plus_INR in *.
  replace ((INR n * (a - (INR n * a + INR k * b) / (INR n + INR k)) ^ 2 + INR k * (b - (INR n * a + INR k * b) / (INR n + INR k)) ^ 2) / (INR n + INR k)) with (INR n * INR k * Rsqr ((a - b) / (INR n + INR k))) by (unfold Rsqr; field; lra).
  rewrite sqrt_mult; [|apply Rmult_le_pos; apply pos_INR|apply Rle_0_sqr]. rewrite sqrt_Rsqr_abs. unfold Rdiv. rewrite Rabs_mult, (Rabs_pos_eq (/ _)) by (left; apply Rinv_0_lt_compat; lra). ring.
Qed.
Lemma univariate_two : forall Y n k a b (h : list (mcall (list R) Y)), level_shift n k [a] [b] h -> univariate h = repeat a n ++ repeat b k.
Proof.
  intros Y n k a b h. unfold level_shift, univariate, fitted_instances. rewrite <- (map_same R (list R) (fun v => [v]) a n), <- (map_same R (list R) (fun v => [v]) b k), <- map_app. generalize (repeat a n ++ repeat b k). generalize (fitted_calls h). clear.
  intros l. induction l as [|[x y] l IH]; intros [|v vs] E; cbn [map fst] in E; try discriminate; auto. injection E as -> E. cbn [flat_map fst app]. f_equal. apply IH, E.
Qed.

(** ** StandardAbsoluteDeviation *)
(** With the mean, the new level is accepted gradually: its score is n |a - b| / (sqrt (n k) |a - b| + (n + k) eps). *)
Theorem C134_mean : forall Y eps n k a b (h : list (mcall (list R) Y)), 0 < eps -> (1 <= n)%nat -> (1 <= k)%nat -> a <> b -> level_shift n k [a] [b] h ->
  let v := INR n * Rabs (a - b) / (sqrt (INR n * INR k) * Rabs (a - b) + INR (n + k) * eps) in
  eval (md_score (StandardAbsoluteDeviation eps true AverageMeter) [b]) (model_run (StandardAbsoluteDeviation eps true AverageMeter) (SAD_init AverageMeter) h) = Ok (VArray [FinV v]) /\ 0 < v < sqrt (INR n / INR k).
Proof.
  intros Y eps n k a b h He Hn Hk Hab E v. apply univariate_two in E.
  assert (Pn : 0 < INR n) by (apply lt_0_INR; lia). assert (Pk : 0 < INR k) by (apply lt_0_INR; lia). assert (Pnk : 0 < INR (n + k)) by (apply lt_0_INR; lia). assert (Pd : 0 < Rabs (a - b)) by (apply Rabs_pos_lt; lra).
  assert (Ps : 0 < sqrt (INR n * INR k)) by (apply sqrt_lt_R0, Rmult_lt_0_compat; auto). assert (PQ : 0 < sqrt (INR n * INR k) * Rabs (a - b)) by (apply Rmult_lt_0_compat; auto). assert (PE : 0 < INR (n + k) * eps) by (apply Rmult_lt_0_compat; auto). split.
  - rewrite (C71_score Y eps true NMean AverageMeter h [b] (mean (univariate h)) He eq_refl); [|constructor; rewrite E; destruct n; [lia|discriminate]]. cbn [map maybe_abs]. do 4 f_equal. rewrite E, std_two, mean_two by lia.
    replace (b - (INR n * a + INR k * b) / INR (n + k)) with (- (INR n / INR (n + k) * (a - b))) by (rewrite plus_INR in *; field; lra). unfold v. unfold Rdiv at 1. rewrite Rabs_mult, Rabs_Ropp, Rabs_mult. rewrite (Rabs_pos_eq (INR n / INR (n + k))) by (left; apply Rdiv_lt_0_compat; auto).
    assert (Q : 0 < sqrt (INR n * INR k) * Rabs (a - b) / INR (n + k) + eps) by (pose proof (Rdiv_lt_0_compat _ _ PQ Pnk); lra). rewrite (Rabs_pos_eq (/ _)) by (left; apply Rinv_0_lt_compat; exact Q). field. split; lra.
  - split; [apply Rdiv_lt_0_compat; [apply Rmult_lt_0_compat; auto|lra]|]. apply Rlt_le_trans with (INR n * Rabs (a - b) / (sqrt (INR n * INR k) * Rabs (a - b))).
    + apply Rmult_lt_compat_l; [apply Rmult_lt_0_compat; auto|]. set (u := sqrt (INR n * INR k) * Rabs (a - b)) in *. set (w := INR (n + k) * eps) in *. apply Rinv_lt_contravar; [apply Rmult_lt_0_compat; lra|lra].
    + right. rewrite sqrt_mult by lra. rewrite sqrt_div by lra. rewrite <- (sqrt_sqrt (INR n)) at 1 by lra. field. repeat split; try lra; apply Rgt_not_eq, sqrt_lt_R0; auto.
Qed.
Print Assumptions C134_mean.
(** With the median the new level is rejected, at (n + k) / sqrt (n k) deviations or a little less, until it has been seen
    as often as the old one; after that its score is 0. *)
Theorem C134_median : forall Y eps n k a b (h : list (mcall (list R) Y)), 0 < eps -> (1 <= n)%nat -> (1 <= k)%nat -> a <> b -> level_shift n k [a] [b] h ->
  let c := if (k <? n)%nat then 1 else if (k =? n)%nat then 1 / 2 else 0 in
  eval (md_score (StandardAbsoluteDeviation eps true MedianMeter) [b]) (model_run (StandardAbsoluteDeviation eps true MedianMeter) (SAD_init MedianMeter) h) =
  Ok (VArray [FinV (c * INR (n + k) * Rabs (a - b) / (sqrt (INR n * INR k) * Rabs (a - b) + INR (n + k) * eps))]).
Proof.
  intros Y eps n k a b h He Hn Hk Hab E c. apply univariate_two in E.
  assert (Pn : 0 < INR n) by (apply lt_0_INR; lia). assert (Pk : 0 < INR k) by (apply lt_0_INR; lia). assert (Pnk : 0 < INR (n + k)) by (apply lt_0_INR; lia). assert (Pd : 0 < Rabs (a - b)) by (apply Rabs_pos_lt; lra).
  assert (Ps : 0 < sqrt (INR n * INR k)) by (apply sqrt_lt_R0, Rmult_lt_0_compat; auto). assert (PQ : 0 < sqrt (INR n * INR k) * Rabs (a - b)) by (apply Rmult_lt_0_compat; auto). assert (PE : 0 < INR (n + k) * eps) by (apply Rmult_lt_0_compat; auto).
  rewrite (C71_score Y eps true NMedian MedianMeter h [b] (if (k <? n)%nat then a else if (k =? n)%nat then (a + b) / 2 else b) He eq_refl); [|constructor; rewrite E; apply median_two; lia]. cbn [map maybe_abs]. do 4 f_equal. rewrite E, std_two by lia.
  replace (b - (if (k <? n)%nat then a else if (k =? n)%nat then (a + b) / 2 else b)) with (- (c * (a - b))) by (unfold c; destruct (k <? n)%nat; [ring|destruct (k =? n)%nat; field]).
  assert (Q : 0 < sqrt (INR n * INR k) * Rabs (a - b) / INR (n + k) + eps) by (pose proof (Rdiv_lt_0_compat _ _ PQ Pnk); lra). unfold Rdiv at 1. rewrite Rabs_mult, Rabs_Ropp, Rabs_mult, (Rabs_pos_eq c) by (unfold c; destruct (k <? n)%nat; [lra|destruct (k =? n)%nat; lra]).
  rewrite (Rabs_pos_eq (/ _)) by (left; apply Rinv_0_lt_compat; exact Q). field. split; lra.
Qed.
Print Assumptions C134_median.

(** ** MedianAbsoluteDeviation *)
Lemma prefixes_app : forall X (l1 l2 : list X), prefixes (l1 ++ l2) = prefixes l1 ++ map (app l1) (prefixes l2).
Proof.
  intros X l1 l2. induction l1 as [|x l1 IH]; cbn [app prefixes]; [symmetry; apply map_id|]. rewrite IH, map_app, map_map. reflexivity.
Qed.
Lemma prefixes_repeat : forall X (v : X) k, prefixes (repeat v k) = map (repeat v) (seq 1 k).
Proof. intros X v k. induction k as [|k IH]; cbn [repeat prefixes seq map]; auto. rewrite IH. f_equal. rewrite map_map. rewrite <- (seq_shift k 1), map_map. reflexivity. Qed.
Definition shift_dev (n : nat) (d : R) (j : nat) : R := if (j <? n)%nat then d else if (j =? n)%nat then d / 2 else 0.
Lemma devs_two : forall a b n k, (1 <= n)%nat -> running_devs (repeat a n ++ repeat b k) (repeat 0 n ++ map (shift_dev n (Rabs (a - b))) (seq 1 k)).
Proof.
  intros a b n k Hn. unfold running_devs. rewrite prefixes_app, !prefixes_repeat. apply Forall2_app.
  - rewrite <- (seq_length n 1) at 2. assert (G : forall i, In i (seq 1 n) -> (1 <= i)%nat) by (intros i I; apply in_seq in I; lia). revert G. generalize (seq 1 n). clear. induction l as [|i l IH]; intros G; cbn [map length repeat]; constructor.
    + exists a. split; [apply median_same, G; left; auto|]. pose proof (G i (or_introl eq_refl)). destruct i as [|i]; [lia|]. rewrite repeat_snoc, last_last, Rminus_diag_eq by reflexivity. rewrite Rabs_R0. reflexivity.
    + apply IH. intros j I. apply G. right. exact I.
  - rewrite map_map. assert (G : forall i, In i (seq 1 k) -> (1 <= i)%nat) by (intros i I; apply in_seq in I; lia). revert G. generalize (seq 1 k). induction l as [|i l IH]; intros G; cbn [map]; constructor.
    + pose proof (G i (or_introl eq_refl)). eexists. split; [apply median_two; lia|]. destruct i as [|i]; [lia|]. rewrite repeat_snoc, app_assoc, last_last. unfold shift_dev.
      destruct (Nat.ltb_spec (S i) n); [rewrite Rabs_minus_sym; reflexivity|]. destruct (Nat.eqb_spec (S i) n); [|rewrite Rminus_diag_eq, Rabs_R0 by reflexivity; reflexivity]. replace (b - (a + b) / 2) with (- ((a - b) / 2)) by field. rewrite Rabs_Ropp. unfold Rdiv. rewrite Rabs_mult, (Rabs_pos_eq (/ 2)) by lra. reflexivity.
    + apply IH. intros j I. apply G. right. exact I.
Qed.
(** The new level is as extreme as can be, its distance over eps, until it has been seen as often as the old one. *)
Theorem C134_mad : forall Y eps c n k a b (h : list (mcall (list R) Y)), 0 < eps -> 0 <= c -> (1 <= n)%nat -> a <> b -> level_shift n k [a] [b] h ->
  eval (md_score (MedianAbsoluteDeviation eps c true) [b]) (model_run (MedianAbsoluteDeviation eps c true) MAD_init h) =
  Ok (VArray [FinV (if (k <? n)%nat then Rabs (a - b) / eps else if (k =? n)%nat then Rabs (a - b) / 2 / (c * (Rabs (a - b) / 4) + eps) else 0)]).
Proof.
  intros Y eps c n k a b h He Hc Hn Hab E. apply univariate_two in E. set (d := Rabs (a - b)). assert (Pd : 0 < d) by (apply Rabs_pos_lt; lra).
  pose proof (devs_two a b n k Hn) as DV. fold d in DV. pose proof (median_two a b n k ltac:(lia)) as MD. rewrite <- E in DV, MD.
  destruct (Nat.ltb_spec k n) as [L|L]; [|destruct (Nat.eqb_spec k n) as [->|Ne]].
  - assert (D0 : is_median 0 (repeat 0 n ++ map (shift_dev n d) (seq 1 k))).
    { replace (map (shift_dev n d) (seq 1 k)) with (repeat d k).
      - pose proof (median_two 0 d n k ltac:(lia)) as M. destruct (Nat.ltb_spec k n); [exact M|lia].
      - rewrite <- (seq_length k 1) at 1. assert (G : forall i, In i (seq 1 k) -> (i < n)%nat) by (intros i I; apply in_seq in I; lia). revert G. generalize (seq 1 k). clear. induction l as [|i l IH]; intros G; cbn [map length repeat]; auto. rewrite <- IH by (intros j I; apply G; right; auto). f_equal. unfold shift_dev. destruct (Nat.ltb_spec i n); auto. specialize (G i (or_introl eq_refl)). lia. }
    rewrite (C70_score Y eps c true h [b] a _ 0 He Hc MD DV D0). cbn [map maybe_abs]. do 4 f_equal. rewrite Rmult_0_r, Rplus_0_l. unfold Rdiv. rewrite Rabs_mult, (Rabs_pos_eq (/ eps)) by (left; apply Rinv_0_lt_compat; auto). unfold d. rewrite Rabs_minus_sym. reflexivity.
  - assert (D0 : is_median (d / 4) (repeat 0 n ++ map (shift_dev n d) (seq 1 n))).
    { replace (map (shift_dev n d) (seq 1 n)) with (repeat d (n - 1) ++ [d / 2]).
      - exists (repeat 0 n ++ [d / 2] ++ repeat d (n - 1)). split; [apply Permutation_app_head, Permutation_app_comm|]. split.
        + clear - Pd Hn. induction n as [|n IH]; [lia|]. destruct n as [|n].
          * cbn. repeat constructor. lra.
          * replace (S (S n) - 1)%nat with (S n) by lia.
            assert (G : forall m q, Sorted Rle (repeat 0 (S m) ++ [d / 2] ++ repeat d q)). { clear - Pd. induction m as [|m IHm]; intros q; cbn [repeat app]. - constructor; [|constructor; lra]. constructor; [pose proof (sorted_two d d 0 q (Rle_refl d)) as S0; exact S0|]. destruct q; constructor. lra. - constructor; [apply IHm|]. constructor. lra. }
            apply G.
        + split; [destruct n; [lia|discriminate]|]. rewrite !app_length, !repeat_length. cbn [length]. replace (n + (n - 1 + 1))%nat with (2 * n)%nat by lia. rewrite Nat.odd_mul. cbn [Nat.odd Nat.even negb andb]. replace (2 * n / 2)%nat with n by (apply (Nat.div_unique _ _ _ 0); lia).
          rewrite app_nth1 by (rewrite repeat_length; lia). rewrite nth_same by lia. rewrite app_nth2 by (rewrite repeat_length; lia). rewrite repeat_length, Nat.sub_diag. cbn [app nth]. field.
      - replace (seq 1 n) with (seq 1 (n - 1) ++ [(1 + (n - 1))%nat]) by (rewrite <- seq_S; f_equal; lia). rewrite map_app. cbn [map]. f_equal.
        + rewrite <- (seq_length (n - 1) 1) at 1. assert (G : forall i, In i (seq 1 (n - 1)) -> (i < n)%nat) by (intros i I; apply in_seq in I; lia). revert G. generalize (seq 1 (n - 1)). clear. induction l as [|i l IH]; intros G; cbn [map length repeat]; auto. rewrite <- IH by (intros j I; apply G; right; auto). f_equal. unfold shift_dev. destruct (Nat.ltb_spec i n); auto. specialize (G i (or_introl eq_refl)). lia.
        + f_equal. unfold shift_dev. destruct (Nat.ltb_spec (1 + (n - 1)) n); [lia|]. destruct (Nat.eqb_spec (1 + (n - 1)) n); [reflexivity|lia]. }
    rewrite (C70_score Y eps c true h [b] _ _ _ He Hc MD DV D0). cbn [map maybe_abs]. do 4 f_equal. assert (0 <= c * (d / 4)) by (apply Rmult_le_pos; lra). replace (b - (a + b) / 2) with (- ((a - b) / 2)) by field. unfold Rdiv at 1 2. rewrite Rabs_mult, Rabs_Ropp, Rabs_mult, (Rabs_pos_eq (/ 2)), (Rabs_pos_eq (/ _)) by (try lra; left; apply Rinv_0_lt_compat; lra). reflexivity.
  - destruct (running_stats_exist (univariate h)) as (med & devs & D & _ & H2 & H3); [rewrite E; destruct n; [lia|discriminate]|]. rewrite (C70_score Y eps c true h [b] _ _ _ He Hc MD H2 H3). cbn [map maybe_abs]. do 4 f_equal. rewrite Rminus_diag_eq by reflexivity. unfold Rdiv. rewrite Rmult_0_l. apply Rabs_R0.
Qed.
Print Assumptions C134_mad.

(** ** ExactStorm: the new level is accepted gradually, completely after window_size - 1 more instances *)
Lemma lastn_two : forall X (a b : X) n k w, lastn w (repeat a n ++ repeat b k) = repeat a (Nat.min (w - k) n) ++ repeat b (Nat.min w k).
Proof.
  intros X a b n k w. unfold lastn. rewrite skipn_app, app_length, !repeat_length, !skipn_same. f_equal; f_equal; lia.
Qed.
Theorem C134_exact_storm : forall Y radius w n k a b (h : list (mcall (list R) Y)), 0 < radius -> radius <= dist a b -> length a = length b -> (2 <= w)%nat -> (1 <= n)%nat -> (1 <= k)%nat -> level_shift n k a b h ->
  eval (md_score (ExactStorm radius) b) (model_run (ExactStorm radius) (Window_init (Z.of_nat w)) h) = Ok (VScalar (if (k <? w)%nat then INR (k - 1) / INR (Nat.min w (n + k) - 1) else 1)).
Proof.
  intros Y radius w n k a b h Hr Hd HL Hw Hn Hk E. rewrite C51_near_fraction by (rewrite E; intros r I; apply in_app_or in I; destruct I as [I|I]; apply repeat_spec in I; congruence). rewrite E, Nat2Z.id, lastn_two. do 2 f_equal.
  replace (Nat.min w k) with (S (Nat.min w k - 1)) by lia. rewrite repeat_snoc, app_assoc, removelast_last. set (p := Nat.min (w - k) n). set (q := (Nat.min w k - 1)%nat).
  assert (NE : near_fraction radius b (repeat a p ++ repeat b q) = fraction (near radius b) (repeat a p ++ repeat b q)). { unfold near_fraction. destruct (repeat a p ++ repeat b q) eqn:Q; [|reflexivity]. exfalso. apply (f_equal (@List.length _)) in Q. rewrite app_length, !repeat_length in Q. cbn in Q. subst p q. lia. }
  rewrite NE. unfold fraction, Rlen. rewrite filter_app.
  assert (Na : filter (near radius b) (repeat a p) = []). { assert (F : near radius b a = false) by (unfold near; destruct (Rltb (dist a b) radius) eqn:Q; auto; apply Rltb_lt in Q; lra). clear - F. induction p as [|p IH]; cbn [repeat filter]; auto. rewrite F. exact IH. }
  assert (Nb : near radius b b = true). { unfold near. apply Rltb_lt. unfold dist. assert (Z0 : forall l : list R, Rsum (map (fun p => (fst p - snd p) ^ 2) (combine l l)) = 0) by (clear; induction l as [|v l IH]; [reflexivity|]; cbn [combine map fst snd]; rewrite Rsum_cons2, IH, Rminus_diag_eq by reflexivity; ring). rewrite Z0, sqrt_0. exact Hr. }
  rewrite Na, filter_same by exact Nb. rewrite !app_length, !repeat_length. cbn [length Nat.add]. subst p q. destruct (Nat.ltb_spec k w) as [L|L].
  - f_equal; f_equal; lia.
  - replace (Nat.min (w - k) n) with 0%nat by lia. replace (Nat.min w k - 1)%nat with (w - 1)%nat by lia. cbn [Nat.add]. apply Rinv_r. apply not_0_INR. lia.
Qed.
Print Assumptions C134_exact_storm.

(** ** HalfSpaceTrees *)
(** The reference window is the last complete one.  Until it changes nothing is noticed of the new level; once a complete
    window started after the shift, the old level is forgotten and the new one has the lowest score there is. *)
Theorem C134_half_space_trees : forall Y cast draw mins maxes W T D n a b, let dim := length maxes in
  length mins = dim -> (1 <= dim)%nat -> (forall i, (draw i < dim)%nat) -> (1 <= W)%nat -> (dim <= length a)%nat -> (dim <= length b)%nat -> (W <= n)%nat ->
  exists s0, HST_init (Y := Y) cast draw mins maxes W T D IWNone = Ok s0 /\ exists old,
  (forall h k, level_shift n k a b h -> (n + k < W * (n / W) + W)%nat -> eval (md_score (HalfSpaceTrees (Y := Y) W D) b) (model_run (HalfSpaceTrees W D) s0 h) = Ok (VScalar old)) /\
  (forall h k, level_shift n k a b h -> (W * (n / W) + 2 * W <= n + k)%nat -> eval (md_score (HalfSpaceTrees (Y := Y) W D) b) (model_run (HalfSpaceTrees W D) s0 h) = Ok (VScalar (- (INR T * (INR W * (2 ^ S D - 1)))))) /\
  - (INR T * (INR W * (2 ^ S D - 1))) <= old.
Proof.
  intros Y cast draw mins maxes W T D n a b dim HL Hdim Hq HW Ha Hb HnW.
  assert (SC : forall h k, level_shift n k a b h -> exists s0, HST_init (Y := Y) cast draw mins maxes W T D IWNone = Ok s0 /\ length (hs_roots s0) = T /\
    eval (md_score (HalfSpaceTrees (Y := Y) W D) b) (model_run (HalfSpaceTrees W D) s0 h) = Ok (VScalar (- Rsum (map (fun t => cell_sum D t (block W ((n + k) / W - 1) (repeat a n ++ repeat b k)) b) (hs_roots s0))))).
  { intros h k E. assert (F : Forall (fun x => (dim <= length x)%nat) (fitted_instances h)). { rewrite E. apply Forall_forall. intros r I. apply in_app_or in I. destruct I as [I|I]; apply repeat_spec in I; subst r; auto. }
    destruct (C54_score Y cast draw mins maxes W T D h b HL Hdim Hq HW F Hb) as (s0 & E0 & S1). destruct (C53_masses R Y NumR cast draw mins maxes W T D [] HL Hdim Hq HW (Forall_nil _)) as (s1 & E1 & LT & _). exists s0. split; [exact E0|]. replace s1 with s0 in LT by congruence. split; [exact LT|].
    cbv zeta in S1. unfold eval. rewrite S1. cbn [fst]. rewrite E, app_length, !repeat_length. destruct (Nat.ltb_spec (n + k) W); [lia|]. reflexivity. }
  destruct (SC (repeat (CFit a None) n) 0%nat) as (s0 & E0 & LT & _). { unfold level_shift. rewrite app_nil_r. clear. induction n as [|n IH]; [reflexivity|]. cbn [repeat]. change (fitted_instances (CFit a None :: repeat (CFit a (@None Y)) n)) with (a :: fitted_instances (repeat (CFit a (@None Y)) n)). rewrite IH. reflexivity. }
  assert (DM : (n = W * (n / W) + n mod W)%nat) by (apply Nat.div_mod; lia). pose proof (Nat.mod_upper_bound n W ltac:(lia)) as MU. assert (QL : (1 <= n / W)%nat) by (apply Nat.div_le_lower_bound; lia).
  exists s0. split; [exact E0|]. exists (- Rsum (map (fun t => cell_sum D t (repeat a W) b) (hs_roots s0))). split; [|split].
  - intros h k E L. destruct (SC h k E) as (s1 & E1 & _ & V). replace s1 with s0 in V by congruence. rewrite V. replace ((n + k) / W)%nat with (n / W)%nat by (apply (Nat.div_unique _ _ _ (n + k - W * (n / W))); nia).
    do 3 f_equal. f_equal. apply map_ext. intros t. f_equal. unfold block. rewrite skipn_app, skipn_same, firstn_app, firstn_same, !repeat_length. replace (W - (n - (n / W - 1) * W))%nat with 0%nat by nia. rewrite firstn_O, app_nil_r. f_equal. nia.
  - intros h k E L. destruct (SC h k E) as (s1 & E1 & _ & V). replace s1 with s0 in V by congruence. rewrite V. do 3 f_equal.
    assert (Q2 : (n / W + 2 <= (n + k) / W)%nat) by (apply Nat.div_le_lower_bound; nia). pose proof (Nat.div_mod (n + k) W ltac:(lia)) as DM2. set (Q := ((n + k) / W)%nat) in *. pose proof (Nat.mod_upper_bound (n + k) W ltac:(lia)) as MU2.
    replace (block W (Q - 1) (repeat a n ++ repeat b k)) with (repeat b W).
    + rewrite (map_ext _ (fun _ => INR W * (2 ^ S D - 1))) by (intros t; apply cell_sum_same). rewrite <- LT. clear. induction (hs_roots s0) as [|t l IH]; cbn [map length]; [cbn [INR]; rewrite Rmult_0_l; reflexivity|]. rewrite Rsum_cons2, IH, S_INR. ring.
    + unfold block. rewrite skipn_app, !skipn_same, repeat_length. assert (n <= (Q - 1) * W)%nat by nia. replace (n - (Q - 1) * W)%nat with 0%nat by lia. cbn [repeat app]. rewrite firstn_same. f_equal. assert (Q * W <= n + k)%nat by nia. replace ((Q - 1) * W)%nat with (Q * W - W)%nat by nia. assert (W <= Q * W)%nat by nia. lia.
  - apply Ropp_le_contravar. rewrite <- LT. clear. induction (hs_roots s0) as [|t l IH]; cbn [map length]; [cbn [INR]; rewrite Rmult_0_l; change (Rsum []) with 0; lra|]. rewrite Rsum_cons2, S_INR. pose proof (proj2 (cell_sum_bounds D t (repeat a W) b)) as B. rewrite repeat_length in B. lra.
Qed.
Print Assumptions C134_half_space_trees.

(** ** RelativeEntropy: a level in another bin is reported at once, and for ever *)
Theorem C134_relative_entropy : forall Y ceil thr min_val step N W n k a b (h : list (mcall (list R) Y)) x, (1 <= N)%nat -> (1 <= W)%nat -> step <> 0 -> (W <= n)%nat -> (1 <= k)%nat ->
  let bin v := ceil ((v - min_val) / step) in (0 <= bin a <= Z.of_nat N)%Z -> (0 <= bin b <= Z.of_nat N)%Z -> Z.min (bin a) (Z.of_nat N - 1) <> Z.min (bin b) (Z.of_nat N - 1) -> level_shift n k [a] [b] h ->
  eval (md_score (RelativeEntropy ln ceil thr min_val step N W) x) (model_run (RelativeEntropy (Y := Y) ln ceil thr min_val step N W) RE_init h) = Ok (VScalar (-1)).
Proof.
  intros Y ceil thr min_val step N W n k a b h x HN HW Hs HnW Hk bin Ba Bb Bab E.
  assert (E' : fitted_instances h = map (fun v => [v]) (repeat a n ++ repeat b k)) by (rewrite map_app, !map_same; exact E).
  assert (IR : forall z, (0 <= z <= Z.of_nat N)%Z -> in_range N z = true). { intros z Hz. unfold in_range. apply andb_true_intro. split; apply Z.leb_le; lia. }
  assert (DI : forall p q, (1 <= p + q)%nat -> distribution N (map bin (repeat a p ++ repeat b q)) = Some (map (fun i => fraction (fun z => Z.min z (Z.of_nat N - 1) =? Z.of_nat i)%Z (repeat (bin a) p ++ repeat (bin b) q)) (seq 0 N))).
  { intros p q Hpq. unfold distribution. rewrite map_app, !map_same, filter_app, !filter_same by (apply IR; auto). destruct (repeat (bin a) p ++ repeat (bin b) q) eqn:Q; [|reflexivity]. apply (f_equal (@List.length _)) in Q. rewrite app_length, !repeat_length in Q. cbn in Q. lia. }
  set (i := Z.to_nat (Z.min (bin b) (Z.of_nat N - 1))). assert (Hi : (i < N)%nat) by (subst i; lia).
  assert (FW : firstn W (repeat a n ++ repeat b k) = repeat a W ++ repeat b 0). { rewrite firstn_app, firstn_same, repeat_length. replace (W - n)%nat with 0%nat by lia. cbn [firstn repeat]. f_equal. f_equal. lia. }
  pose proof (DI (Nat.min (W - k) n) (Nat.min W k) ltac:(lia)) as D1. rewrite <- lastn_two in D1. pose proof (DI W 0%nat ltac:(lia)) as D2. rewrite <- FW in D2.
  apply (proj2 (C72_same_distribution_0_new_bin_minus_1 Y ceil thr min_val step N W h (repeat a n ++ repeat b k) x _ _ HN HW Hs E' ltac:(rewrite app_length, !repeat_length; lia) D1 D2)). exists i. split; [exact Hi|].
  assert (Ma : (Z.min (bin a) (Z.of_nat N - 1) =? Z.of_nat i)%Z = false) by (apply Z.eqb_neq; subst i; lia). assert (Mb : (Z.min (bin b) (Z.of_nat N - 1) =? Z.of_nat i)%Z = true) by (apply Z.eqb_eq; subst i; lia).
  assert (FR : forall p q, fraction (fun z => (Z.min z (Z.of_nat N - 1) =? Z.of_nat i)%Z) (repeat (bin a) p ++ repeat (bin b) q) = INR q / INR (p + q)).
  { intros p q. unfold fraction, Rlen. rewrite filter_app, !app_length, !repeat_length. replace (filter _ (repeat (bin a) p)) with (@nil Z) by (clear - Ma; induction p as [|p IH]; cbn [repeat filter]; auto; rewrite Ma; exact IH). rewrite filter_same by exact Mb. cbn [length Nat.add]. rewrite repeat_length. reflexivity. }
  assert (NT : forall f : nat -> R, nth i (map f (seq 0 N)) 0 = f i). { intros f. rewrite (nth_indep _ 0 (f 0%nat)) by (rewrite map_length, seq_length; lia). rewrite map_nth, seq_nth by lia. reflexivity. }
  rewrite !NT, !FR. split; [apply Rdiv_lt_0_compat; apply lt_0_INR; lia|]. cbn [INR]. unfold Rdiv. apply Rmult_0_l.
Qed.
Print Assumptions C134_relative_entropy.

(** ** RSHash and LODA: the old level plays no role *)
Lemma decayed_two : forall floor decay c a b n k, same_cell floor c a b = false -> decayed_count floor decay c (repeat a n ++ repeat b k) b = decayed_count floor decay c (repeat b k) b.
Proof.
  intros floor decay c a b n k Hc. unfold decayed_count. rewrite app_length, !repeat_length, seq_app, map_app, Rsum_app. cbn [Nat.add]. rewrite <- (Rplus_0_l (Rsum (map _ (seq 0 k)))). f_equal.
  - rewrite (map_ext_in _ (fun _ => 0)). { clear. induction (seq 0 n) as [|i l IH]; cbn [map]; [reflexivity|]. rewrite Rsum_cons2, IH. ring. }
    intros j I. apply in_seq in I. rewrite app_nth1 by (rewrite repeat_length; lia). replace (nth j (repeat a n) []) with a by (symmetry; apply (repeat_spec n); apply nth_In; rewrite repeat_length; lia). rewrite Hc. reflexivity.
  - replace (seq n k) with (map (Nat.add n) (seq 0 k)). 2:{ rewrite <- (Nat.add_0_r n) at 2. generalize 0%nat. clear. induction k as [|k IH]; intros i; cbn [seq map]; auto. f_equal. rewrite IH. f_equal. lia. }
    rewrite map_map. f_equal. apply map_ext. intros j. rewrite app_nth2 by (rewrite repeat_length; lia). rewrite repeat_length. replace (n + j - n)%nat with j by lia. replace (n + k - (n + j))%nat with (k - j)%nat by lia. reflexivity.
Qed.
Theorem C134_rshash : forall Y floor decay comps sp w n k a b (h : list (mcall (list R) Y)) z, comps <> [] -> (1 <= w)%nat -> fits_components comps a -> fits_components comps b ->
  Forall (fun c => same_cell floor c a b = false) comps -> level_shift n (S k) a b h -> let m := RSHash (Rpower 2) ln floor decay comps in
  eval (md_score m z) (model_run m (RSHash_init sp w) h) = Ok (VScalar (ln (1 + Rsum (map (fun j => Rpower 2 (- decay * INR j)) (seq 1 k))))).
Proof.
  intros Y floor decay comps sp w n k a b h z Hc Hw Fa Fb Hab E m. destruct (C74_score Y floor decay comps sp w h z Hc Hw) as (_ & SC & _).
  - rewrite E. apply Forall_forall. intros r I. apply in_app_or in I. destruct I as [I|I]; apply repeat_spec in I; subst r; auto.
  - unfold eval. subst m. rewrite (SC (repeat a n ++ repeat b k) b) by (rewrite E, repeat_snoc, app_assoc; reflexivity). cbn [fst]. do 2 f_equal.
    rewrite (map_ext_in _ (fun _ => ln (1 + Rsum (map (fun j => Rpower 2 (- decay * INR j)) (seq 1 k))))) by (intros c I; rewrite decayed_two, decayed_same; [reflexivity|rewrite Forall_forall in Hab; auto]).
    set (v := ln _). clearbody v. clear - Hc. replace (map (fun _ => v) comps) with (repeat v (length comps)) by (clear; induction comps as [|c l IH]; cbn [map length repeat]; [reflexivity|rewrite IH; reflexivity]). apply mean_same. destruct comps; [congruence|cbn; lia].
Qed.
Print Assumptions C134_rshash.
Theorem C134_loda : forall Y randn perms nb c n k a b (h : list (mcall (list R) Y)), (1 <= nb)%nat -> (1 <= c)%nat -> Nat.Even nb \/ nb = 1%nat -> length a = length b -> (1 <= k)%nat -> level_shift n k a b h ->
  eval (md_score (Loda randn perms nb c) b) (model_run (Loda randn perms nb c) LODA_init h) = Ok (VArray [- ln ((1 + 1 / 10 ^ 12) / (1 + INR nb / 10 ^ 12)) / INR c]).
Proof.
  intros Y randn perms nb c n k a b h Hnb Hc Hev HL Hk E. assert (E' : fitted_instances h = (repeat a n ++ repeat b (k - 1)) ++ [b]) by (rewrite E, <- app_assoc, <- repeat_snoc; do 2 f_equal; lia).
  apply (C84_even_bins Y randn perms nb c (length b) h (repeat a n ++ repeat b (k - 1)) b Hnb Hc E'); [|exact Hev]. rewrite <- E', E. apply Forall_forall. intros r I. apply in_app_or in I. destruct I as [I|I]; apply repeat_spec in I; congruence.
Qed.
Print Assumptions C134_loda.

(** ** A concrete case: 100 times 1 and 25 times 3 *)
Example C134_ex : let h := repeat (CFit [1] (@None unit)) 100 ++ repeat (CFitScore [3] None) 25 in level_shift 100 25 [1] [3] h /\ sqrt (INR 100 / INR 25) = 2 /\ 2 <= dist [1] [3].
Proof.
  split; [reflexivity|]. split.
  - replace (INR 100 / INR 25) with (2 * 2) by (rewrite !INR_IZR_INZ; cbn [Z.of_nat Pos.of_succ_nat Pos.succ]; field). apply sqrt_square. lra.
  - unfold dist. cbn [combine map fst snd]. rewrite Rsum_cons2. change (Rsum []) with 0. replace ((1 - 3) ^ 2 + 0) with (2 * 2) by ring. rewrite sqrt_square; lra.
Qed.
