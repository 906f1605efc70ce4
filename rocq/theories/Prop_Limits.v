(** * C138: limits of the scores that depend on the parameters only, however long the stream. *)
From Coq Require Import List ZArith Lia Bool Reals Lra Arith.
From Verif Require Import Base Num Spec Model_Core Model_Stats Model_Utils Model_Trans Model_Simple Model_Sketch Model_HST Model_XStream P_Lists P_Core P_Stats P_Utils P_Post P_Models
  Prop_Trans Prop_Simple Prop_Post Prop_HST Prop_RSHash Prop_XStream Prop_Constant.
Import ListNotations.
Open Scope R_scope.

(** ** RSHash *)
Lemma forget_range : forall decay, 0 < decay -> 0 < Rpower 2 (- decay) < 1.
Proof. intros d H. split; [apply exp_pos|]. rewrite <- (Rpower_O 2) by lra. apply Rpower_lt; lra. Qed.
Lemma pow_forget : forall d k, Rpower 2 (- d * INR k) = Rpower 2 (- d) ^ k.
Proof. intros d k. rewrite <- Rpower_mult. apply Rpower_pow, exp_pos. Qed.
Lemma geometric : forall q n, q <> 1 -> 1 + Rsum (map (fun k => q ^ k) (seq 1 n)) = (1 - q ^ S n) / (1 - q).
Proof.
  intros q n H. induction n as [|n IH]; [cbn [seq map pow]; rewrite Rsum_nil; field; lra|]. rewrite seq_S, map_app, Rsum_app, <- Rplus_assoc, IH. cbn [map Nat.add]. rewrite Rsum_cons, Rsum_nil.
  cbn [pow]. field. lra.
Qed.
(** Most that the earlier instances can weigh. *)
Lemma decayed_le : forall floor decay c past x, decayed_count floor decay c past x <= Rsum (map (fun k => Rpower 2 (- decay * INR k)) (seq 1 (length past))).
Proof.
  intros floor decay c past x. induction past as [|p past IH]; [unfold decayed_count; cbn [length seq map]; lra|].
  assert (E : decayed_count floor decay c (p :: past) x = (if same_cell floor c p x then Rpower 2 (- decay * INR (S (length past))) else 0) + decayed_count floor decay c past x).
  { unfold decayed_count. cbn [length seq map]. rewrite Rsum_cons. f_equal. rewrite <- seq_shift, map_map. f_equal. }
  rewrite E. cbn [length]. rewrite seq_S, map_app, Rsum_app. cbn [map Nat.add]. rewrite Rsum_cons, Rsum_nil. assert (0 < Rpower 2 (- decay * INR (S (length past)))) by apply exp_pos. destruct (same_cell _ _ _ _); lra.
Qed.
Lemma constant_weight : forall decay n, 0 < decay -> 1 + Rsum (map (fun k => Rpower 2 (- decay * INR k)) (seq 1 n)) = (1 - Rpower 2 (- decay) ^ S n) * / (1 - Rpower 2 (- decay)).
Proof. intros d n H. rewrite (map_ext _ (fun k => Rpower 2 (- d) ^ k)) by (intros; apply pow_forget). apply geometric. pose proof (forget_range d H). lra. Qed.
(** With a positive decay no history takes the score to the limit -ln(1 - 2^-decay), *)
Theorem C138_rshash : forall Y floor decay comps sp w (h : list (mcall (list R) Y)) z v, comps <> [] -> (1 <= w)%nat -> Forall (fits_components comps) (fitted_instances h) -> 0 < decay ->
  let m := RSHash (Rpower 2) ln floor decay comps in
  eval (md_score m z) (model_run m (RSHash_init sp w) h) = Ok (VScalar v) -> 0 <= v < - ln (1 - Rpower 2 (- decay)).
Proof.
  intros Y floor decay comps sp w h z v HC Hw F Hd m E. pose proof (forget_range decay Hd) as Q. rewrite <- ln_Rinv by lra.
  assert (LO : 0 <= v) by (eapply (C74_score_range Y floor decay comps sp w h z v); eauto; lra). split; [exact LO|]. clear LO.
  destruct (C74_score Y floor decay comps sp w h z HC Hw F) as (E0 & E1 & _). cbv zeta in E0, E1. fold m in E0, E1. unfold eval in E.
  destruct (fitted_instances h) as [|x0 l] eqn:Eh; [rewrite E0 in E by auto; discriminate|].
  destruct (exists_last (l := x0 :: l)) as (past & x & Ex); [congruence|]. rewrite (E1 past x Ex) in E. cbn [fst] in E. injection E as <-.
  set (B := ln ((1 - Rpower 2 (- decay) ^ S (length past)) * / (1 - Rpower 2 (- decay)))).
  assert (I : 0 < / (1 - Rpower 2 (- decay))) by (apply Rinv_0_lt_compat; lra).
  assert (P : 0 < Rpower 2 (- decay) ^ S (length past) < 1) by (split; [apply pow_lt; lra|apply pow_lt_1_compat; [lra|lia]]).
  apply Rle_lt_trans with B.
  - apply mean_bounds with (lo := 0); [destruct comps; [congruence|discriminate]|]. intros y Hy. apply in_map_iff in Hy. destruct Hy as (c & <- & _).
    destruct (decayed_count_bounds floor decay c past x ltac:(lra)) as [D1 D2]. pose proof (decayed_le floor decay c past x) as D3. split; [rewrite <- ln_1; apply ln_le; lra|].
    unfold B. rewrite <- constant_weight by auto. apply ln_le; lra.
  - apply ln_increasing; [apply Rmult_lt_0_compat; lra|]. rewrite <- (Rmult_1_l (/ (1 - Rpower 2 (- decay)))) at 2. apply Rmult_lt_compat_r; lra.
Qed.
Print Assumptions C138_rshash.
(** and enough repetitions of any instance come as close to it as wished. *)
Theorem C138_rshash_limit_is_approached : forall floor decay comps e, comps <> [] -> 0 < decay -> 0 < e ->
  exists n, forall Y sp w (h : list (mcall (list R) Y)) x k z, (1 <= w)%nat -> fits_components comps x -> fitted_instances h = repeat x k -> (n <= k)%nat ->
  let m := RSHash (Rpower 2) ln floor decay comps in
  exists v, eval (md_score m z) (model_run m (RSHash_init sp w) h) = Ok (VScalar v) /\ - ln (1 - Rpower 2 (- decay)) - e < v.
Proof.
  intros floor decay comps e HC Hd He. pose proof (forget_range decay Hd) as Q. set (q := Rpower 2 (- decay)) in *.
  assert (X : 0 < exp (- e) < 1) by (split; [apply exp_pos|rewrite <- exp_0; apply exp_increasing; lra]).
  destruct (pow_lt_1_zero q ltac:(rewrite Rabs_pos_eq; lra) (1 - exp (- e)) ltac:(lra)) as (n & Hn). exists (S n). intros Y sp w h x k z Hw Fx Eh Hk m. destruct k as [|k]; [lia|].
  eexists. split; [apply (C129_rshash Y floor decay comps sp w h x k z HC Hw Fx Eh)|]. rewrite constant_weight by auto. fold q.
  specialize (Hn (S k) ltac:(lia)). rewrite Rabs_pos_eq in Hn by (apply pow_le; lra).
  assert (I : 0 < / (1 - q)) by (apply Rinv_0_lt_compat; lra). rewrite ln_mult by lra. rewrite ln_Rinv by lra.
  assert (- e < ln (1 - q ^ S k)); [|lra]. rewrite <- (ln_exp (- e)) at 1. apply ln_increasing; lra.
Qed.
Print Assumptions C138_rshash_limit_is_approached.
(** Without decay there is no limit. *)
Theorem C138_rshash_without_decay_refuted : forall floor comps B, comps <> [] ->
  exists n, forall Y sp w (h : list (mcall (list R) Y)) x k z, (1 <= w)%nat -> fits_components comps x -> fitted_instances h = repeat x k -> (n <= k)%nat ->
  let m := RSHash (Rpower 2) ln floor 0 comps in
  exists v, eval (md_score m z) (model_run m (RSHash_init sp w) h) = Ok (VScalar v) /\ B < v.
Proof.
  intros floor comps B HC. assert (N : exists n, exp B < INR n) by (destruct (archimed (exp B)) as [A _]; exists (Z.to_nat (up (exp B))); rewrite INR_IZR_INZ, Z2Nat.id; [lra|apply le_IZR; pose proof (exp_pos B); lra]). destruct N as (n & Hn). exists (S n). intros Y sp w h x k z Hw Fx Eh Hk m. destruct k as [|k]; [lia|].
  eexists. split; [apply (C129_rshash Y floor 0 comps sp w h x k z HC Hw Fx Eh)|].
  assert (E : forall l : list nat, Rsum (map (fun j => Rpower 2 (- 0 * INR j)) l) = INR (length l)).
  { induction l as [|j l IH]; cbn [map length]; [reflexivity|]. rewrite Rsum_cons, IH, S_INR. replace (- 0 * INR j) with 0 by ring. rewrite Rpower_O by lra. ring. }
  rewrite E, seq_length. rewrite <- (ln_exp B) at 1. apply ln_increasing; [apply exp_pos|]. assert (INR n <= INR k) by (apply le_INR; lia). lra.
Qed.
Print Assumptions C138_rshash_without_decay_refuted.

(** ** Standard and median absolute deviation *)
(** One-feature instances with values from lo to hi. *)
Definition values_within (lo hi : R) (xs : list (list R)) : Prop := Forall (fun x => exists v, x = [v] /\ lo <= v <= hi) xs.
Lemma within_univariate : forall Y lo hi (h : list (mcall (list R) Y)), values_within lo hi (fitted_instances h) -> forall v, In v (univariate h) -> lo <= v <= hi.
Proof.
  intros Y lo hi h. unfold univariate, fitted_instances, values_within. generalize (fitted_calls h). intros l. induction l as [|[x y] l IH]; intros F v I; [contradiction|]. cbn [map fst] in F.
  inversion F as [|? ? (u & Eu & Hu) F']; subst. cbn [flat_map fst app] in I. destruct I as [<-|I]; auto.
Qed.
Lemma within_nonempty : forall Y lo hi (h : list (mcall (list R) Y)), values_within lo hi (fitted_instances h) -> fitted_instances h <> [] -> univariate h <> [].
Proof.
  intros Y lo hi h. unfold univariate, fitted_instances, values_within. generalize (fitted_calls h). intros [|[x y] l] F N; [exfalso; apply N; reflexivity|]. cbn [map fst] in F. inversion F as [|? ? (u & Eu & Hu) F']; subst. discriminate.
Qed.
Lemma ratio_bound : forall ab eps lo hi u c s, 0 < eps -> 0 <= s -> lo <= u <= hi -> lo <= c <= hi -> Rabs (maybe_abs ab ((u - c) / (s + eps))) <= (hi - lo) / eps.
Proof.
  intros ab eps lo hi u c s He Hs Hu Hc. assert (E : Rabs (maybe_abs ab ((u - c) / (s + eps))) = Rabs (u - c) * / (s + eps)).
  { assert (Rabs ((u - c) / (s + eps)) = Rabs (u - c) * / (s + eps)) by (unfold Rdiv; rewrite Rabs_mult; f_equal; apply Rabs_pos_eq; left; apply Rinv_0_lt_compat; lra). destruct ab; cbn [maybe_abs]; rewrite ?Rabs_Rabsolu; auto. }
  rewrite E. apply Rle_trans with (Rabs (u - c) * / eps).
  - apply Rmult_le_compat_l; [apply Rabs_pos|]. apply Rinv_le_contravar; lra.
  - apply Rmult_le_compat_r; [left; apply Rinv_0_lt_compat; lra|]. apply Rabs_le. lra.
Qed.
(** Values from lo to hi never score further from 0 than (hi - lo) / eps, *)
Theorem C138_standard_deviation : forall Y eps ab st m lo hi (h : list (mcall (list R) Y)) u, 0 < eps -> SAD_statistic st = Ok m -> values_within lo hi (fitted_instances h) -> fitted_instances h <> [] -> lo <= u <= hi ->
  exists v, eval (md_score (StandardAbsoluteDeviation eps ab m) [u]) (model_run (StandardAbsoluteDeviation eps ab m) (SAD_init m) h) = Ok (VArray [FinV v]) /\ Rabs v <= (hi - lo) / eps.
Proof.
  intros Y eps ab st m lo hi h u He Em F N Hu. assert (NE := within_nonempty Y lo hi h F N). assert (W := within_univariate Y lo hi h F).
  assert (C : exists c, center st (univariate h) c /\ lo <= c <= hi).
  { destruct st; cbn in Em; try discriminate.
    - exists (median_fn (univariate h)). split; [constructor; apply median_fn_spec; auto|apply median_bounds; auto].
    - exists (mean (univariate h)). split; [constructor; auto|apply mean_bounds; auto]. }
  destruct C as (c & Hc & Bc). eexists. split; [rewrite (C71_score Y eps ab st m h [u] c He Em Hc); reflexivity|]. apply ratio_bound; auto. apply sqrt_pos.
Qed.
Print Assumptions C138_standard_deviation.
Theorem C138_median_deviation : forall Y eps b ab lo hi (h : list (mcall (list R) Y)) u, 0 < eps -> 0 <= b -> values_within lo hi (fitted_instances h) -> fitted_instances h <> [] -> lo <= u <= hi ->
  exists v, eval (md_score (MedianAbsoluteDeviation eps b ab) [u]) (model_run (MedianAbsoluteDeviation eps b ab) MAD_init h) = Ok (VArray [FinV v]) /\ Rabs v <= (hi - lo) / eps.
Proof.
  intros Y eps b ab lo hi h u He Hb F N Hu. assert (NE := within_nonempty Y lo hi h F N). assert (W := within_univariate Y lo hi h F).
  destruct (running_stats_exist _ NE) as (med & devs & D & Hm & Hd & HD). eexists. split; [rewrite (C70_score Y eps b ab h [u] med devs D He Hb Hm Hd HD); reflexivity|].
  apply ratio_bound; auto.
  - apply Rmult_le_pos; auto. apply (median_nonneg D devs HD). intros d I. apply running_devs_fn in Hd. subst devs. unfold devs_fn in I. apply in_map_iff in I. destruct I as (p & <- & _). apply Rabs_pos.
  - rewrite (median_unique med _ _ Hm (median_fn_spec _ NE)). apply median_bounds; auto.
Qed.
Print Assumptions C138_median_deviation.
(** and the value hi after any number of times lo reaches that bound. *)
Theorem C138_deviation_bounds_are_reached : forall Y eps b ab st m lo hi (h : list (mcall (list R) Y)) n, 0 < eps -> 0 <= b -> SAD_statistic st = Ok m -> lo <= hi -> (1 <= n)%nat -> fitted_instances h = repeat [lo] n ->
  values_within lo hi (fitted_instances h) /\
  eval (md_score (StandardAbsoluteDeviation eps ab m) [hi]) (model_run (StandardAbsoluteDeviation eps ab m) (SAD_init m) h) = Ok (VArray [FinV ((hi - lo) / eps)]) /\
  eval (md_score (MedianAbsoluteDeviation eps b ab) [hi]) (model_run (MedianAbsoluteDeviation eps b ab) MAD_init h) = Ok (VArray [FinV ((hi - lo) / eps)]).
Proof.
  intros Y eps b ab st m lo hi h n He Hb Em L Hn E.
  assert (P : maybe_abs ab ((hi - lo) / eps) = (hi - lo) / eps) by (destruct ab; auto; apply Rabs_pos_eq; apply Rmult_le_pos; [lra|left; apply Rinv_0_lt_compat; lra]).
  split; [rewrite E; apply Forall_forall; intros x I; apply repeat_spec in I; subst x; exists lo; split; [auto|lra]|]. rewrite <- P. split.
  - apply (C129_standard_deviation Y eps ab st m h lo n hi); auto.
  - apply (C129_median_deviation Y eps b ab h lo n hi); auto.
Qed.
Print Assumptions C138_deviation_bounds_are_reached.
(** When the values are not limited neither are the scores. *)
Theorem C138_deviation_of_any_value_refuted : forall eps b ab st m B, 0 < eps -> 0 <= b -> SAD_statistic st = Ok m ->
  let h := [CFit [0] (@None unit)] in exists u v, B < v /\
  eval (md_score (StandardAbsoluteDeviation eps ab m) [u]) (model_run (StandardAbsoluteDeviation eps ab m) (SAD_init m) h) = Ok (VArray [FinV v]) /\
  eval (md_score (MedianAbsoluteDeviation eps b ab) [u]) (model_run (MedianAbsoluteDeviation eps b ab) MAD_init h) = Ok (VArray [FinV v]).
Proof.
  intros eps b ab st m B He Hb Em h. exists ((Rabs B + 1) * eps), (((Rabs B + 1) * eps - 0) / eps). assert (P : 0 <= (Rabs B + 1) * eps) by (pose proof (Rabs_pos B); apply Rmult_le_pos; lra). split.
  - replace (((Rabs B + 1) * eps - 0) / eps) with (Rabs B + 1) by (field; lra). pose proof (Rle_abs B). lra.
  - apply (C138_deviation_bounds_are_reached unit eps b ab st m 0 ((Rabs B + 1) * eps) h 1); auto.
Qed.
Print Assumptions C138_deviation_of_any_value_refuted.

(** ** Half-space trees and xStream: the window limits the scores *)
Theorem C138_half_space_trees : forall Y cast draw mins maxes W T D, let dim := length maxes in length mins = dim -> (1 <= dim)%nat -> (forall i, (draw i < dim)%nat) -> (1 <= W)%nat ->
  exists s0, HST_init (Y := Y) cast draw mins maxes W T D IWNone = Ok s0 /\
  let m := HalfSpaceTrees (Y := Y) W D in let least := - (INR T * (INR W * (2 ^ S D - 1))) in
  (forall h x, Forall (fun x => (dim <= length x)%nat) (fitted_instances h) -> (dim <= length x)%nat -> exists v, eval (md_score m x) (model_run m s0 h) = Ok (VScalar v) /\ least <= v <= 0) /\
  (forall h x n, (dim <= length x)%nat -> fitted_instances h = repeat x n -> (W <= n)%nat -> eval (md_score m x) (model_run m s0 h) = Ok (VScalar least)).
Proof.
  intros Y cast draw mins maxes W T D dim HL Hdim Hq HW. destruct (C53_masses R Y NumR cast draw mins maxes W T D [] HL Hdim Hq HW (Forall_nil _)) as (s0 & E0 & _). exists s0. split; [exact E0|]. intros m least. split.
  - intros h x F Hx. destruct (C54_score_range Y cast draw mins maxes W T D h x HL Hdim Hq HW F Hx) as (s1 & v & E1 & R1). rewrite E0 in E1. injection E1 as <-. cbv zeta in R1. destruct R1 as (E & B1 & B2). exists v. split; [exact E|].
    set (r := if (length (fitted_instances h) <? W)%nat then INR (length (fitted_instances h)) else INR W) in *.
    assert (Hr : 0 <= r <= INR W) by (unfold r; destruct (Nat.ltb_spec (length (fitted_instances h)) W); split; try lra; try apply pos_INR; apply le_INR; lia).
    assert (P2 : 1 <= 2 ^ S D) by (apply pow_R1_Rle; lra). pose proof (pos_INR T) as HT. unfold least. split.
    + apply Rle_trans with (2 := B1). apply Ropp_le_contravar. apply Rmult_le_compat_l; auto. apply Rmult_le_compat_r; lra.
    + assert (0 <= INR T * r) by (apply Rmult_le_pos; lra). lra.
  - intros h x n Hx Eh Hn. destruct (C129_half_space_trees Y cast draw mins maxes W T D h x n HL Hdim Hq HW Hx Eh) as (s1 & E1 & E). rewrite E0 in E1. injection E1 as <-. rewrite Nat.min_r in E by auto. exact E.
Qed.
Print Assumptions C138_half_space_trees.
Theorem C138_xstream : forall Y mmh3 k density p floor W draws, (1 <= k)%Z -> Streamhash_init 1 k density = Ok p -> (1 <= W)%nat -> is_floor floor -> let K := Z.to_nat k in chain_draws K draws ->
  let m := XStream mmh3 p floor K W : Model (list R) Y R in let s0 := xstream_new K draws in let least := - (1 + log2 (1 + INR W)) in
  (forall h x, exists v, eval (md_score m x) (model_run m s0 h) = Ok (VArray [v]) /\ least <= v <= -1) /\
  (forall h x n z, projects mmh3 p x z -> fitted_instances h = repeat x n -> (2 * W <= n)%nat -> eval (md_score m x) (model_run m s0 h) = Ok (VArray [least])).
Proof.
  intros Y mmh3 k density p floor W draws Hk Ep HW HF K D m s0 least. split.
  - intros h x. destruct (C76_score_range Y mmh3 k density p floor W draws h x Hk Ep HW D) as (v & E & B1 & B2). exists v. split; [exact E|]. split; [|exact B2]. apply Rle_trans with (2 := B1). unfold least. apply Ropp_le_contravar, Rplus_le_compat_l.
    unfold log2, Rdiv. apply Rmult_le_compat_r; [left; apply Rinv_0_lt_compat; rewrite <- ln_1; apply ln_increasing; lra|]. apply ln_le; [pose proof (pos_INR (Nat.min W (length (fitted_instances h)))); lra|]. apply Rplus_le_compat_l, le_INR. lia.
  - intros h x n z Hz Eh Hn. destruct (C129_xstream Y mmh3 k density p floor W draws h x n z Hk Ep HW HF D Eh Hz) as (_ & E & _). exact (E Hn).
Qed.
Print Assumptions C138_xstream.

(** ** Examples *)
(** With decay 1 the limit of RSHash is ln 2; the values 0 and 1 with eps = 1/100 never score above 100, and do so. *)
Example C138_ex : let h := [CFit [0] (@None unit); CFitScore [0] None; CScore [1]] in
  - ln (1 - Rpower 2 (- (1))) = ln 2 /\ fitted_instances h = repeat [0] 2 /\ values_within 0 1 (fitted_instances h) /\ (1 - 0) / (1 / 100) = 100.
Proof.
  cbv zeta. split; [|split; [reflexivity|split; [|lra]]].
  - rewrite Rpower_Ropp, Rpower_1 by lra. rewrite <- ln_Rinv by lra. f_equal. lra.
  - cbn [fitted_instances flat_map app]. repeat constructor; eexists; split; try reflexivity; lra.
Qed.
