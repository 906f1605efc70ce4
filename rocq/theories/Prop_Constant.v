(** * C129: what a stream of identical instances scores. *)
From Coq Require Import String.
From Coq Require Import List ZArith Lia Bool Reals Lra Arith Permutation Sorted.
From Verif Require Import Base Num Spec Model_Core Model_Stats Model_Utils Model_Trans Model_Simple Model_Post Model_Sketch Model_HST Model_Loda Model_XStream P_Lists P_Core P_Stats P_Utils P_Post P_Models
  Prop_Trans Prop_Simple Prop_Post Prop_HST Prop_RSHash Prop_Sketch Prop_Quant Prop_Loda Prop_XStream Prop_Direction Prop_Familiar.
Import ListNotations.
Open Scope R_scope.
Local Notation length := List.length.

(** ** Lists with equal items *)
Lemma skipn_same : forall X (x : X) n k, skipn k (repeat x n) = repeat x (n - k).
Proof. intros X x n. induction n as [|n IH]; intros [|k]; cbn [skipn repeat Nat.sub]; auto. Qed.
Lemma firstn_same : forall X (x : X) n k, firstn k (repeat x n) = repeat x (Nat.min k n).
Proof. intros X x n. induction n as [|n IH]; intros [|k]; cbn [firstn repeat Nat.min]; auto. rewrite IH. reflexivity. Qed.
Lemma lastn_same : forall X (x : X) n k, lastn k (repeat x n) = repeat x (Nat.min k n).
Proof. intros. unfold lastn. rewrite repeat_length, skipn_same. f_equal. lia. Qed.
Lemma block_same : forall X (x : X) n w q, (q * w + w <= n)%nat -> block w q (repeat x n) = repeat x w.
Proof. intros. unfold block. rewrite skipn_same, firstn_same. f_equal. lia. Qed.
Lemma repeat_snoc : forall X (x : X) n, repeat x (S n) = repeat x n ++ [x].
Proof. intros. cbn [repeat]. apply repeat_cons. Qed.
Lemma removelast_same : forall X (x : X) n, removelast (repeat x n) = repeat x (n - 1).
Proof. intros X x n. destruct n as [|n]; auto. rewrite repeat_snoc, removelast_last. f_equal. lia. Qed.
Lemma filter_same : forall X (P : X -> bool) x n, P x = true -> filter P (repeat x n) = repeat x n.
Proof. intros X P x n H. induction n as [|n IH]; cbn [repeat filter]; auto. rewrite H, IH. reflexivity. Qed.
Lemma map_same : forall X Z (f : X -> Z) x n, map f (repeat x n) = repeat (f x) n.
Proof. intros X Z f x n. induction n as [|n IH]; cbn [repeat map]; congruence. Qed.
Lemma mean_same : forall v n, (1 <= n)%nat -> mean (repeat v n) = v.
Proof. intros v n H. unfold mean, Rlen. rewrite Rsum_repeat, repeat_length. field. apply not_0_INR. lia. Qed.
Lemma std_same : forall v n, (1 <= n)%nat -> std (repeat v n) = 0.
Proof. intros v n H. unfold std, variance. rewrite map_same, mean_same, mean_same by auto. rewrite Rminus_diag_eq by reflexivity. rewrite pow_i by lia. apply sqrt_0. Qed.
Lemma nth_same : forall (v : R) n i, (i < n)%nat -> nth i (repeat v n) 0 = v.
Proof. intros v n i H. apply (repeat_spec n). apply nth_In. rewrite repeat_length. exact H. Qed.
Lemma median_same : forall v n, (1 <= n)%nat -> is_median v (repeat v n).
Proof.
  intros v n H. apply median_sorted.
  - destruct n; [lia|discriminate].
  - clear. induction n as [|n IH]; cbn [repeat]; constructor; auto. destruct n; cbn [repeat]; constructor. lra.
  - rewrite repeat_length. pose proof (Nat.div_lt n 2 ltac:(lia) ltac:(lia)). rewrite !nth_same by lia. destruct (Nat.odd n); lra.
Qed.
Lemma univariate_same : forall Y (h : list (mcall (list R) Y)) v n, fitted_instances h = repeat [v] n -> univariate h = repeat v n.
Proof.
  intros Y h v n. unfold univariate, fitted_instances. generalize (fitted_calls h). intros l. revert n. induction l as [|[x y] l IH]; intros [|n] E; cbn [map repeat fst] in E; try discriminate; auto. injection E as -> E. cbn [flat_map fst app repeat]. f_equal. apply IH, E.
Qed.

(** ** Statistics-based detectors *)
(** A constant stream has deviation zero: the score of a value is its distance from the constant over eps alone. *)
Theorem C129_standard_deviation : forall Y eps ab st m (h : list (mcall (list R) Y)) v n u, 0 < eps -> SAD_statistic st = Ok m -> fitted_instances h = repeat [v] n -> (1 <= n)%nat ->
  eval (md_score (StandardAbsoluteDeviation eps ab m) [u]) (model_run (StandardAbsoluteDeviation eps ab m) (SAD_init m) h) = Ok (VArray [FinV (maybe_abs ab ((u - v) / eps))]).
Proof.
  intros Y eps ab st m h v n u He Em E Hn. apply univariate_same in E. rewrite (C71_score Y eps ab st m h [u] v He Em).
  - rewrite E, std_same by auto. cbn [map]. rewrite Rplus_0_l. reflexivity.
  - rewrite E. destruct st; cbn in Em; try discriminate.
    + constructor. apply median_same. auto.
    + assert (C : center NMean (repeat v n) (mean (repeat v n))) by (constructor; destruct n; [lia|discriminate]). rewrite mean_same in C by auto. exact C.
Qed.
Print Assumptions C129_standard_deviation.
Lemma prefixes_same : forall (v : R) n p, In p (prefixes (repeat v n)) -> exists k, (1 <= k)%nat /\ p = repeat v k.
Proof.
  intros v n. induction n as [|n IH]; intros p I; cbn [repeat prefixes] in I; [destruct I|]. destruct I as [<- | I]; [exists 1%nat; split; auto|]. apply in_map_iff in I. destruct I as (q & <- & I). destruct (IH q I) as (k & Hk & ->). exists (S k). split; [lia|reflexivity].
Qed.
Theorem C129_median_deviation : forall Y eps b ab (h : list (mcall (list R) Y)) v n u, 0 < eps -> 0 <= b -> fitted_instances h = repeat [v] n -> (1 <= n)%nat ->
  eval (md_score (MedianAbsoluteDeviation eps b ab) [u]) (model_run (MedianAbsoluteDeviation eps b ab) MAD_init h) = Ok (VArray [FinV (maybe_abs ab ((u - v) / eps))]).
Proof.
  intros Y eps b ab h v n u He Hb E Hn. apply univariate_same in E.
  assert (D : running_devs (univariate h) (repeat 0 n)).
  { rewrite E. unfold running_devs. assert (L : length (prefixes (repeat v n)) = n) by (clear; induction n as [|n IH]; cbn [repeat prefixes length]; auto; rewrite map_length, IH; auto). pose proof (prefixes_same v n) as P. revert L P. generalize (prefixes (repeat v n)). clear. intros ps. revert n. induction ps as [|p ps IH]; intros [|n] L P; cbn [length] in L; try lia; constructor.
    - destruct (P p (or_introl eq_refl)) as (k & Hk & ->). exists v. split; [apply median_same, Hk|]. destruct k as [|k]; [lia|]. rewrite repeat_snoc, last_last, Rminus_diag_eq by reflexivity. rewrite Rabs_R0. reflexivity.
    - apply IH; [lia|]. intros q I. apply P. right. exact I. }
  rewrite (C70_score Y eps b ab h [u] v (repeat 0 n) 0 He Hb); [|rewrite E; apply median_same, Hn|exact D|apply median_same, Hn]. cbn [map]. rewrite Rmult_0_r, Rplus_0_l. reflexivity.
Qed.
Print Assumptions C129_median_deviation.

(** ** ExactStorm: every instance but the first one scores 1 *)
Theorem C129_exact_storm : forall Y radius w (h : list (mcall (list R) Y)) x n, 0 < radius -> fitted_instances h = repeat x n ->
  eval (md_score (ExactStorm radius) x) (model_run (ExactStorm radius) (Window_init w) h) = Ok (VScalar (if (Nat.min (Z.to_nat w) n <=? 1)%nat then 0 else 1)).
Proof.
  intros Y radius w h x n Hr E. rewrite C51_near_fraction by (rewrite E; intros r I; apply repeat_spec in I; congruence). rewrite E, lastn_same, removelast_same. do 2 f_equal. unfold near_fraction.
  destruct (Nat.leb_spec (Nat.min (Z.to_nat w) n) 1) as [L|L]; [replace (Nat.min (Z.to_nat w) n - 1)%nat with 0%nat by lia; reflexivity|]. set (k := (Nat.min (Z.to_nat w) n - 1)%nat). assert (Hk : (1 <= k)%nat) by (subst k; lia). clearbody k.
  destruct k as [|k]; [lia|]. cbn [repeat]. change (x :: repeat x k) with (repeat x (S k)). unfold fraction, Rlen. rewrite filter_same; [|unfold near; apply Rltb_lt; unfold dist]. { apply Rinv_r. rewrite repeat_length. apply not_0_INR. lia. }
  assert (Z : forall l : list R, Rsum (map (fun p => (fst p - snd p) ^ 2) (combine l l)) = 0). { clear. induction l as [|a l IH]; [reflexivity|]. cbn [combine map fst snd]. rewrite Rsum_cons2, IH, Rminus_diag_eq by reflexivity. ring. }
  rewrite Z, sqrt_0. exact Hr.
Qed.
Print Assumptions C129_exact_storm.

(** ** HalfSpaceTrees: the lowest possible score *)
Lemma cell_sum_same : forall D t x n, cell_sum D t (repeat x n) x = INR n * (2 ^ S D - 1).
Proof.
  intros D t x n. induction n as [|n IH].
  - cbn [repeat INR]. pose proof (cell_sum_bounds D t [] x) as B. cbn [length INR] in B. lra.
  - rewrite repeat_snoc, cell_sum_again, IH, S_INR. ring.
Qed.
Theorem C129_half_space_trees : forall Y cast draw mins maxes W T D (h : list (mcall (list R) Y)) x n, let dim := length maxes in
  length mins = dim -> (1 <= dim)%nat -> (forall i, (draw i < dim)%nat) -> (1 <= W)%nat -> (dim <= length x)%nat -> fitted_instances h = repeat x n ->
  exists s0, HST_init (Y := Y) cast draw mins maxes W T D IWNone = Ok s0 /\
  eval (md_score (HalfSpaceTrees (Y := Y) W D) x) (model_run (HalfSpaceTrees W D) s0 h) = Ok (VScalar (- (INR T * (INR (Nat.min n W) * (2 ^ S D - 1))))).
Proof.
  intros Y cast draw mins maxes W T D h x n dim HL Hdim Hq HW Hx E.
  assert (F : Forall (fun x => (dim <= length x)%nat) (fitted_instances h)) by (rewrite E; apply Forall_forall; intros r I; apply repeat_spec in I; congruence).
  destruct (C54_score Y cast draw mins maxes W T D h x HL Hdim Hq HW F Hx) as (s0 & E0 & SC). exists s0. split; [exact E0|]. cbv zeta in SC. unfold eval. rewrite SC. cbn [fst]. do 3 f_equal. rewrite E, repeat_length.
  destruct (C53_masses R Y NumR cast draw mins maxes W T D [] HL Hdim Hq HW (Forall_nil _)) as (s1 & E1 & LT & _). rewrite E0 in E1. inversion E1; subst s1.
  assert (LR : length (hs_roots s0) = T). { exact LT. }
  replace (if (n <? W)%nat then repeat x n else block W (n / W - 1) (repeat x n)) with (repeat x (Nat.min n W)).
  - rewrite (map_ext (fun t => cell_sum D t (repeat x (Nat.min n W)) x) (fun _ => INR (Nat.min n W) * (2 ^ S D - 1))) by (intros t; apply cell_sum_same). rewrite <- LR. clear. induction (hs_roots s0) as [|t l IH]; cbn [map length INR]; [rewrite Rmult_0_l; reflexivity|]. rewrite Rsum_cons2, IH. destruct (length l); [cbn [INR]; ring|]. ring.
  - destruct (Nat.ltb_spec n W) as [L|L]; [f_equal; lia|]. rewrite block_same; [f_equal; lia|]. pose proof (Nat.div_mod n W ltac:(lia)). assert (1 <= n / W)%nat by (apply Nat.div_le_lower_bound; lia). nia.
Qed.
Print Assumptions C129_half_space_trees.

(** ** RelativeEntropy: never reported inside the range, always reported outside *)
Theorem C129_relative_entropy : forall Y thr lo hi N W step (h : list (mcall (list R) Y)) v n x, lo < hi -> (1 <= N)%nat -> (1 <= W)%nat -> 0 < thr -> RE_step lo hi N = Ok step -> fitted_instances h = repeat [v] n ->
  let m := RelativeEntropy ln Rceil thr lo step N W in let a := eval (md_score m x) (model_run m RE_init h) in
  (lo - (hi - lo) / INR N < v <= hi -> a = Ok (VScalar 0)) /\ (v <= lo - (hi - lo) / INR N \/ hi < v -> a = Ok (VScalar (if (n <? W)%nat then 0 else -1))).
Proof.
  intros Y thr lo hi N W step h v n x Hr HN HW Ht Es E m a. assert (E' : fitted_instances h = singles (repeat v n)) by (rewrite map_same; exact E). split.
  - intros Hv. destruct (le_lt_dec W n) as [L|L].
    + pose proof Es as Es2. rewrite (step_value lo hi N HN) in Es2. injection Es2 as <-. pose proof (w_pos lo hi N HN Hr) as Hw.
      assert (D : exists p, distribution N (map (fun v => Rceil ((v - lo) / slice lo hi N)) (repeat v W)) = Some p).
      { rewrite (distribution_values lo hi N HN Hr). unfold slot_distribution. rewrite filter_same; [destruct W; [lia|]; cbn [repeat]; eauto|]. unfold counted, slice in *. apply andb_true_intro. split; [apply Rltb_lt|apply Rleb_le]; lra. }
      destruct D as (p & D). pose proof (C72_same_distribution_0_new_bin_minus_1 Y Rceil thr lo (slice lo hi N) N W h (repeat v n) x p p HN HW ltac:(lra) E' ltac:(rewrite repeat_length; lia)) as C. cbv beta zeta in C.
      rewrite lastn_same, firstn_same, Nat.min_l in C by lia. apply (proj1 (C D D)); auto.
    + apply (proj1 (C125_score Y thr lo hi N W step h (repeat v n) x Hr HN HW Es E')). rewrite repeat_length. exact L.
  - intros Hv. destruct (Nat.ltb_spec n W) as [L|L].
    + apply (proj1 (C125_score Y thr lo hi N W step h (repeat v n) x Hr HN HW Es E')). rewrite repeat_length. exact L.
    + apply (C125_out_of_range Y thr lo hi N W step h (repeat v n) x Hr HN HW Es E'); [rewrite repeat_length; exact L|]. left. rewrite lastn_same. apply Forall_forall. intros r I. apply repeat_spec in I. subst r. exact Hv.
Qed.
Print Assumptions C129_relative_entropy.

(** ** LODA: the same score for ever *)
Theorem C129_loda : forall Y randn perms nb c (h : list (mcall (list R) Y)) x n, (1 <= nb)%nat -> (1 <= c)%nat -> Nat.Even nb \/ nb = 1%nat -> fitted_instances h = repeat x n -> (1 <= n)%nat ->
  eval (md_score (Loda randn perms nb c) x) (model_run (Loda randn perms nb c) LODA_init h) = Ok (VArray [- ln ((1 + 1 / 10 ^ 12) / (1 + INR nb / 10 ^ 12)) / INR c]).
Proof.
  intros Y randn perms nb c h x n Hnb Hc Hev E Hn. apply (C84_even_bins Y randn perms nb c (length x) h (repeat x (n - 1)) x Hnb Hc); auto.
  - rewrite E, <- repeat_snoc. f_equal. lia.
  - rewrite <- repeat_snoc. apply Forall_forall. intros r I. apply repeat_spec in I. congruence.
Qed.
Print Assumptions C129_loda.

(** ** RSHash: the highest scores there are *)
Lemma decayed_same : forall floor decay c x n, decayed_count floor decay c (repeat x n) x = Rsum (map (fun k => Rpower 2 (- decay * INR k)) (seq 1 n)).
Proof.
  intros floor decay c x n. induction n as [|n IH]; [reflexivity|]. rewrite repeat_snoc, decayed_again, IH. rewrite <- cons_seq. cbn [map]. rewrite Rsum_cons2. rewrite <- (seq_shift n 1), map_map.
  replace (Rsum (map (fun k => Rpower 2 (- decay * INR (S k))) (seq 1 n))) with (Rpower 2 (- decay) * Rsum (map (fun k => Rpower 2 (- decay * INR k)) (seq 1 n))).
  - replace (Rpower 2 (- decay * INR 1)) with (Rpower 2 (- decay)) by (f_equal; cbn [INR]; ring). ring.
  - clear. induction (seq 1 n) as [|k l IH]; [cbn [map]; change (Rsum []) with 0; ring|]. cbn [map]. rewrite !Rsum_cons2, Rmult_plus_distr_l, IH. f_equal. rewrite <- Rpower_plus. f_equal. rewrite S_INR. ring.
Qed.
Theorem C129_rshash : forall Y floor decay comps sp w (h : list (mcall (list R) Y)) x n z, comps <> [] -> (1 <= w)%nat -> fits_components comps x -> fitted_instances h = repeat x (S n) ->
  let m := RSHash (Rpower 2) ln floor decay comps in
  eval (md_score m z) (model_run m (RSHash_init sp w) h) = Ok (VScalar (ln (1 + Rsum (map (fun k => Rpower 2 (- decay * INR k)) (seq 1 n))))).
Proof.
  intros Y floor decay comps sp w h x n z Hc Hw Hx E m. destruct (C74_score Y floor decay comps sp w h z Hc Hw) as (_ & SC & _).
  - rewrite E. apply Forall_forall. intros r I. apply repeat_spec in I. subst r. exact Hx.
  - unfold eval. subst m. rewrite (SC (repeat x n) x) by (rewrite E; apply repeat_snoc). cbn [fst]. do 2 f_equal. rewrite (map_ext _ (fun _ => ln (1 + Rsum (map (fun k => Rpower 2 (- decay * INR k)) (seq 1 n))))) by (intros c; rewrite decayed_same; reflexivity).
    set (v := ln _). clearbody v. clear - Hc. replace (map (fun _ => v) comps) with (repeat v (length comps)) by (clear; induction comps as [|c l IH]; cbn [map length repeat]; [reflexivity|rewrite IH; reflexivity]). apply mean_same. destruct comps; [congruence|cbn; lia].
Qed.
Print Assumptions C129_rshash.

(** ** xStream: unremarkable at first and from the second complete window on; in between as anomalous as can be *)
Lemma bin_count_same : forall floor rand d hits z n, bin_count floor rand d d hits (repeat z n) z = n.
Proof. intros. unfold bin_count. rewrite filter_same; [apply repeat_length|]. destruct (list_eq_dec _ _ _); congruence. Qed.
Lemma min_same_depths : forall floor fs rand d z n m, fs <> [] -> is_min m (depth_values floor fs rand d d (repeat z n) z) -> m = log2 (1 + INR n) + 1.
Proof.
  intros floor fs rand d z n m Hf [I U]. unfold depth_values in *. rewrite (map_ext _ (fun k => log2 (1 + INR n) + INR k)) in I, U by (intros k; rewrite bin_count_same; reflexivity).
  apply in_map_iff in I. destruct I as (k & <- & Hk). apply in_seq in Hk. assert (B : log2 (1 + INR n) + INR k <= log2 (1 + INR n) + INR 1). { apply U. apply in_map_iff. exists 1%nat. split; auto. apply in_seq. destruct fs; [congruence|]. cbn [length]. lia. }
  assert (INR 1 <= INR k) by (apply le_INR; lia). cbn [INR] in *. lra.
Qed.
Lemma half_ranges_same : forall K z n delta, (1 <= n)%nat -> half_ranges K (repeat z n) delta -> delta = repeat 1 K.
Proof.
  intros K z n delta Hn [L H]. apply (nth_ext _ _ 0 0); [rewrite repeat_length; auto|]. intros j Hj. rewrite L in Hj. rewrite nth_same by auto. destruct (H j Hj) as (mn & mx & [M1 _] & [M2 _] & ->). rewrite map_same in M1, M2. apply repeat_spec in M1, M2. subst. destruct (Rle_dec _ _); [reflexivity|]. exfalso. lra.
Qed.
Lemma projected_same : forall mmh3 p x z n zs, Forall2 (projects mmh3 p) (repeat x n) zs -> projects mmh3 p x z -> zs = repeat z n.
Proof.
  intros mmh3 p x z n. induction n as [|n IH]; intros zs F Hz; cbn [repeat] in *; inversion F; subst; auto. f_equal; [|auto]. eapply projects_unique; eauto.
Qed.
Lemma mean_opp_same : forall draws mins v, draws <> [] -> Forall2 (fun (_ : list nat * list R) m => m = v) draws mins -> mean (map Ropp mins) = - v.
Proof.
  intros draws mins v N F. assert (E : mins = repeat v (length mins)). { clear N. induction F; cbn [length repeat]; congruence. } rewrite E, map_same. apply mean_same. destruct F; [congruence|cbn; lia].
Qed.
Theorem C129_xstream : forall Y mmh3 k density p floor W draws (h : list (mcall (list R) Y)) x n z, (1 <= k)%Z -> Streamhash_init 1 k density = Ok p -> (1 <= W)%nat -> is_floor floor ->
  let K := Z.to_nat k in chain_draws K draws -> fitted_instances h = repeat x n -> projects mmh3 p x z ->
  let score := eval (md_score (XStream mmh3 p floor K W) x) (model_run (XStream mmh3 p floor K W) (xstream_new K draws) h) in
  ((n < W)%nat -> score = Ok (VArray [- (1 + log2 (1 + INR n))])) /\
  ((2 * W <= n)%nat -> score = Ok (VArray [- (1 + log2 (1 + INR W))])) /\
  ((W <= n < 2 * W)%nat -> Forall (fun v => 1 <= Rabs v) z -> score = Ok (VArray [-1])).
Proof.
  intros Y mmh3 k density p floor W draws h x n z Hk Ep HW HF K D E Hz score. destruct (C75_score Y mmh3 k density p floor W draws h x Hk Ep HW D) as (zs & z' & dref & delta & mins & Fz & Hz' & R1 & R2 & F & SC & _). rewrite E in *. rewrite repeat_length in *.
  rewrite (projects_unique _ _ _ _ _ Hz' Hz) in *. clear z' Hz'. apply (fun F => projected_same _ _ _ z n _ F Hz) in Fz. subst zs. unfold eval in score. subst score. fold K in SC. rewrite SC. cbn [fst].
  assert (LZ : length z = K). { pose proof (C42_num_components mmh3 k density p x z Hk Ep Hz). unfold K. lia. } destruct D as [DN FD].
  assert (Q : forall v, (forall d m, In d draws -> is_min m (depth_values floor (fst d) (snd d) dref delta (if (n <? W)%nat then repeat z n else block W (n / W - 1) (repeat z n)) z) -> m = v) -> (Ok (VArray [mean (map Ropp mins)]) : res (pyval R)) = Ok (VArray [- v])).
  { intros v H. do 3 f_equal. apply (mean_opp_same draws); auto. clear - F H. induction F; constructor; [apply (H x y); [left; auto|auto]|]. apply IHF. intros d m I. apply H. right. exact I. }
  split; [|split].
  - intros L. apply Q. intros d m I M. destruct (Nat.ltb_spec n W) as [_|]; [|lia]. rewrite (Nat.div_small n W L) in *. cbn [Nat.sub ranges_after] in R1, R2. subst dref delta. rewrite Forall_forall in FD. destruct (FD d I) as (Nf & _). rewrite (min_same_depths _ _ _ _ _ _ _ Nf M). ring.
  - intros L. apply Q. intros d m I M. assert (2 <= n / W)%nat by (apply Nat.div_le_lower_bound; lia). pose proof (Nat.div_mod n W ltac:(lia)). destruct (Nat.ltb_spec n W) as [|_]; [lia|]. rewrite block_same in M by nia.
    destruct (n / W)%nat as [|[|q]] eqn:Eq; try lia. cbn [Nat.sub ranges_after] in R1, R2. rewrite block_same in R1, R2 by nia. apply half_ranges_same in R1, R2; auto. subst dref delta. rewrite Forall_forall in FD. destruct (FD d I) as (Nf & _). rewrite (min_same_depths _ _ _ _ _ _ _ Nf M). ring.
  - intros L Z. replace (-1) with (- (1)) by ring. apply Q. intros d m I M. assert (Eq : (n / W = 1)%nat) by (symmetry; apply (Nat.div_unique n W 1 (n - W)); lia). rewrite Eq in *. cbn [Nat.sub ranges_after] in *. subst dref. rewrite block_same in R2 by lia. apply half_ranges_same in R2; auto. subst delta. destruct (Nat.ltb_spec n W) as [|_]; [lia|]. rewrite block_same in M by lia.
    rewrite Forall_forall in FD. destruct (FD d I) as (Nf & Ff & Lr). destruct M as [M U]. unfold depth_values in *. apply in_map_iff in M. destruct M as (j & <- & Hj). apply in_seq in Hj.
    assert (G : forall j, 0 <= log2 (1 + INR (bin_count floor (snd d) (repeat (1 / 2) K) (repeat 1 K) (firstn j (fst d)) (repeat z W) z))). { intros i. rewrite <- log2_1. apply log2_le; [lra|]. pose proof (pos_INR (bin_count floor (snd d) (repeat (1 / 2) K) (repeat 1 K) (firstn i (fst d)) (repeat z W) z)). lra. }
    assert (B1 : bin_count floor (snd d) (repeat (1 / 2) K) (repeat 1 K) (firstn 1 (fst d)) (repeat z W) z = 0%nat).
    { destruct (fst d) as [|f fs]; [congruence|]. inversion Ff as [|? ? Hf _]; subst. cbn [firstn]. unfold bin_count. assert (NB : bin floor (snd d) (repeat (1 / 2) K) [f] z <> bin floor (snd d) (repeat 1 K) [f] z).
      { intros EB. apply (f_equal (fun l => nth f l 0%Z)) in EB. unfold bin in EB. rewrite !nth_map_seq in EB by lia. cbn [count_occ] in EB. destruct (Nat.eq_dec f f) as [_|]; [|congruence]. rewrite !nth_same in EB by auto. cbn [pow] in EB.
        rewrite Forall_forall in Z. specialize (Z (nth f z 0) ltac:(apply nth_In; lia)). set (a := nth f z 0) in *. set (r := nth f (snd d) 0) in *. replace (1 * (a / (1 / 2)) + r) with (2 * a + r) in EB by field. replace (1 * (a / 1) + r) with (a + r) in EB by field.
        pose proof (HF (2 * a + r)) as A1. pose proof (HF (a + r)) as A2. rewrite EB in A1. unfold Rabs in Z. destruct (Rcase_abs a); lra. }
      clear - NB. induction W as [|w IH]; cbn [repeat filter]; auto. destruct (list_eq_dec _ _ _); [contradiction|]. exact IH. }
    assert (U1 := U (log2 (1 + INR (bin_count floor (snd d) (repeat (1 / 2) K) (repeat 1 K) (firstn 1 (fst d)) (repeat z W) z)) + INR 1) ltac:(apply in_map_iff; exists 1%nat; split; auto; apply in_seq; lia)). rewrite B1 in U1. cbn [INR] in U1. rewrite Rplus_0_r, log2_1 in U1. specialize (G j). assert (INR 1 <= INR j) by (apply le_INR; lia). cbn [INR] in *. change (Z.to_nat k) with K in U1 |- *. lra.
Qed.
Print Assumptions C129_xstream.

(** ** Calibration: a score that never changes is never exceeded; its z-score is not a number *)
Theorem C129_conformal : forall windowed w h v n, fitted h = repeat v n -> (1 <= n)%nat -> (windowed = true -> (1 <= w)%Z) ->
  eval (pp_transform ConformalProbabilityCalibrator v) (post_run ConformalProbabilityCalibrator (Conformal_init windowed w) h) = Ok (VScalar (FinV 0)).
Proof.
  intros windowed w h v n E Hn Hw. rewrite C36_conformal_fraction_above. unfold conf_window. rewrite E.
  assert (A : forall k, (1 <= k)%nat -> (Ok (VScalar match repeat v k with [] => NonFin | win => FinV (fraction (above v) win) end) : res (pyval (npres R))) = Ok (VScalar (FinV 0))).
  { intros k Hk. destruct k as [|k]; [lia|]. cbn [repeat]. change (v :: repeat v k) with (repeat v (S k)). do 3 f_equal. unfold fraction. assert (Z : filter (above v) (repeat v (S k)) = []). { clear. induction (S k) as [|i IH]; auto. cbn [repeat filter]. unfold above at 1. destruct (Rlt_dec v v); [lra|exact IH]. } rewrite Z. unfold Rlen. cbn [length INR]. unfold Rdiv. ring. }
  destruct windowed; [|apply A, Hn]. rewrite lastn_same. apply A. specialize (Hw eq_refl). lia.
Qed.
Print Assumptions C129_conformal.
Theorem C129_zscore : forall h v n x, fitted h = repeat v n -> (1 <= n)%nat -> eval (pp_transform ZScorePostprocessor x) (post_run ZScorePostprocessor z_fresh h) = Ok (VScalar NonFin).
Proof.
  intros h v n x E Hn. destruct C35_zscore_closed_form as (H & _ & _ & C). rewrite (H h x), E. destruct n as [|n]; [lia|]. cbn [repeat]. change (v :: repeat v n) with (repeat v (S n)). rewrite C; [reflexivity|discriminate|]. intros a b Ia Ib. apply repeat_spec in Ia, Ib. congruence.
Qed.
Print Assumptions C129_zscore.

(** ** Examples *)
Example C129_ex_xstream : exists p, Streamhash_init 1 1 1 = Ok p /\ let m := (XStream (fun _ _ => 0%Z) p Int_part 1 2 : Model (list R) unit R) in let s0 := xstream_new 1 [([0%nat], [0])] in
  map (fun n => eval (md_score m [-3]) (model_run m s0 (fits (Y := unit) (repeat (-3) n)))) [0; 1; 2; 3; 4; 9]%nat =
  map (fun v => Ok (VArray [v])) [- (1 + log2 1); - (1 + log2 2); -1; -1; - (1 + log2 3); - (1 + log2 3)].
Proof.
  destruct C77_ex as (p & Ep & HF & Hz & D). exists p. split; [exact Ep|]. intros m s0.
  assert (H3 : projects (fun _ _ => 0%Z) p [-3] [3]). { pose proof (C42_linear (fun _ _ => 0%Z) 1 1 p [-3/4] [-3/4] [3/4] [3/4] 4 0 ltac:(lia) Ep eq_refl Hz Hz) as H. cbn [length seq map nth] in H. replace (4 * (-3 / 4) + 0 * (-3 / 4)) with (-3) in H by field. replace (4 * (3 / 4) + 0 * (3 / 4)) with 3 in H by field. exact H. }
  assert (F : forall n, fitted_instances (fits (Y := unit) (repeat (-3) n)) = repeat [-3] n) by (intros n; rewrite fitted_fits; apply map_same).
  assert (C := fun n => C129_xstream unit (fun _ _ => 0%Z) 1 1 p Int_part 2 [([0%nat], [0])] (fits (repeat (-3) n)) [-3] n [3] ltac:(lia) Ep ltac:(lia) HF D (F n) H3). change (Z.to_nat 1) with 1%nat in C. cbv zeta in C.
  assert (A : Forall (fun v => 1 <= Rabs v) [3]) by (constructor; [rewrite Rabs_right; lra|constructor]). cbn [map].
  repeat match goal with |- ?a :: _ = ?b :: _ => apply f_equal2 end; try reflexivity; subst m s0.
  - rewrite (proj1 (C 0%nat)) by lia. cbn [INR]. rewrite Rplus_0_r. reflexivity.
  - rewrite (proj1 (C 1%nat)) by lia. cbn [INR]. do 5 f_equal. 
  - rewrite (proj2 (proj2 (C 2%nat))) by (auto; lia). reflexivity.
  - rewrite (proj2 (proj2 (C 3%nat))) by (auto; lia). reflexivity.
  - rewrite (proj1 (proj2 (C 4%nat))) by lia. cbn [INR]. do 5 f_equal.
  - rewrite (proj1 (proj2 (C 9%nat))) by lia. cbn [INR]. do 5 f_equal.
Qed.
Example C129_ex_exact_storm : map (fun n => eval (md_score (ExactStorm (Y := unit) (1 / 2)) [7]) (model_run (ExactStorm (1 / 2)) (Window_init 3) (fits (Y := unit) (repeat 7 n)))) [0; 1; 2; 8]%nat = map (fun v => Ok (VScalar v)) [0; 0; 1; 1].
Proof.
  assert (F : forall n, fitted_instances (fits (Y := unit) (repeat 7 n)) = repeat [7] n) by (intros n; rewrite fitted_fits; apply map_same).
  assert (C := fun n => C129_exact_storm unit (1 / 2) 3 _ [7] n ltac:(lra) (F n)). cbn [map]. rewrite !C. reflexivity.
Qed.
Example C129_ex_relative_entropy : forall Y thr, 0 < thr -> exists step, RE_step 0 10 5 = Ok step /\ let m := RelativeEntropy (Y := Y) ln Rceil thr 0 step 5 3 in
  map (fun v => map (fun n => eval (md_score m [v]) (model_run m RE_init (fits (repeat v n)))) [2; 3; 10]%nat) [10; 11; -1; -2] =
  map (map (fun a => Ok (VScalar a))) [[0; 0; 0]; [0; -1; -1]; [0; 0; 0]; [0; -1; -1]].
Proof.
  intros Y thr Ht. destruct (RE_step 0 10 5) as [step|] eqn:E; [|rewrite (step_value 0 10 5 ltac:(lia)) in E; discriminate]. exists step. split; auto. intros m.
  assert (F : forall v n, fitted_instances (fits (Y := Y) (repeat v n)) = repeat [v] n) by (intros v n; rewrite fitted_fits; apply map_same).
  assert (C := fun v n => C129_relative_entropy Y thr 0 10 5 3 step _ v n [v] ltac:(lra) ltac:(lia) ltac:(lia) Ht E (F v n)). cbv zeta in C. fold m in C. assert (I5 : INR 5 = 5) by (cbn [INR]; ring). rewrite I5 in C.
  cbn [map]. rewrite !(fun v n => proj1 (C v n)) with (v := 10) by lra. rewrite !(fun v n => proj1 (C v n)) with (v := -1) by lra. rewrite !(fun v n => proj2 (C v n)) with (v := 11) by lra. rewrite !(fun v n => proj2 (C v n)) with (v := -2) by lra. reflexivity.
Qed.
Example C129_ex_half_space_trees : exists s0, HST_init (Y := unit) (fun a : R => a) (fun _ => 0%nat) [0] [1] 3 2 1 IWNone = Ok s0 /\
  eval (md_score (HalfSpaceTrees (Y := unit) 3 1) [0]) (model_run (HalfSpaceTrees 3 1) s0 (fits (repeat 0 8))) = Ok (VScalar (-18)).
Proof.
  destruct (C129_half_space_trees unit (fun a => a) (fun _ => 0%nat) [0] [1] 3 2 1 (fits (repeat 0 8)) [0] 8 eq_refl ltac:(cbn; lia) (fun _ => Nat.lt_0_1) ltac:(lia) ltac:(cbn; lia) ltac:(rewrite fitted_fits; apply map_same)) as (s0 & E & S). exists s0. split; [exact E|]. rewrite S. do 2 f_equal. change (Nat.min 8 3) with 3%nat. cbn [INR pow]. ring.
Qed.
Example C129_ex_deviations : forall Y, eval (md_score (MedianAbsoluteDeviation (Y := Y) (1 / 10) 1 true) [4]) (model_run (MedianAbsoluteDeviation (1 / 10) 1 true) MAD_init (fits (repeat 5 7))) = Ok (VArray [FinV 10]) /\
  eval (md_score (StandardAbsoluteDeviation (Y := Y) (1 / 10) true MedianMeter) [5]) (model_run (StandardAbsoluteDeviation (1 / 10) true MedianMeter) (SAD_init MedianMeter) (fits (repeat 5 7))) = Ok (VArray [FinV 0]).
Proof.
  intros Y. assert (F : fitted_instances (fits (Y := Y) (repeat 5 7)) = repeat [5] 7) by (rewrite fitted_fits; apply map_same). split.
  - rewrite (C129_median_deviation Y (1 / 10) 1 true _ 5 7 4 ltac:(lra) ltac:(lra) F ltac:(lia)). do 4 f_equal. unfold maybe_abs. replace ((4 - 5) / (1 / 10)) with (-10) by field. rewrite Rabs_left; lra.
  - rewrite (C129_standard_deviation Y (1 / 10) true NMedian MedianMeter _ 5 7 5 ltac:(lra) eq_refl F ltac:(lia)). do 4 f_equal. unfold maybe_abs. replace ((5 - 5) / (1 / 10)) with 0 by field. apply Rabs_R0.
Qed.
Example C129_ex_rshash : forall fl, let m := RSHash (Y := unit) (Rpower 2) ln fl 1 [mkComp [0%nat] [0] 1; mkComp [0%nat] [1 / 2] 2] in
  eval (md_score m [0]) (model_run m (RSHash_init 10 2) (fits (repeat 7 3))) = Ok (VScalar (ln (1 + 3 / 4))).
Proof.
  intros fl m. subst m. rewrite (C129_rshash unit fl 1 [mkComp [0%nat] [0] 1; mkComp [0%nat] [1 / 2] 2] 10 2 (fits (repeat 7 3)) [7] 2 [0] ltac:(discriminate) ltac:(lia) ltac:(repeat constructor) ltac:(rewrite fitted_fits; apply map_same)). do 4 f_equal.
  cbn [seq map]. rewrite !Rsum_cons2. change (Rsum []) with 0. cbn [INR]. replace (- (1) * 1) with (- (1)) by ring. replace (- (1) * (1 + 1)) with (- (1) + - (1)) by ring. rewrite Rpower_plus, !Rpower_Ropp, Rpower_1 by lra. field.
Qed.
