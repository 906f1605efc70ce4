(** * C127: does an instance that is shown again look more familiar? *)
From Coq Require Import List ZArith Lia Bool Reals Lra Arith Permutation Sorting.Sorted.
From Verif Require Import Base Num Spec Model_Core Model_Stats Model_Utils Model_Trans Model_Simple Model_Post Model_Sketch Model_HST P_Lists P_Core P_Stats P_Utils P_Post P_Models Prop_Simple Prop_Post Prop_HST Prop_RSHash Prop_Direction Prop_Cap.
Import ListNotations.
Open Scope R_scope.

(** The score of x after a history of calls. *)
Definition score_after {Y A} (m : Model (list R) Y A) (s0 : md_state m) (h : list (mcall (list R) Y)) (x : list R) : res (pyval A) := eval (md_score m x) (model_run m s0 h).

(** ** StandardAbsoluteDeviation around the mean: yes *)
Lemma mean_again : forall l v, l <> [] -> v - mean (l ++ [v]) = (v - mean l) * (INR (length l) / (INR (length l) + 1)).
Proof.
  intros l v N. assert (P : 0 < INR (length l)) by (apply lt_0_INR; destruct l; [congruence|cbn; lia]). unfold mean, Rlen. rewrite Rsum_app2, app_length, plus_INR. cbn [length INR]. rewrite Rsum_cons2. change (Rsum []) with 0. field. lra.
Qed.
Lemma moments : forall l, l <> [] -> variance l = (Rsum (map (fun x => x ^ 2) l) - (Rsum l) ^ 2 / INR (length l)) / INR (length l).
Proof.
  intros l Hl. assert (P : 0 < INR (length l)) by (apply lt_0_INR; destruct l; [congruence|cbn; lia]).
  assert (E : forall c l, Rsum (map (fun x => (x - c) ^ 2) l) = Rsum (map (fun x => x ^ 2) l) - 2 * c * Rsum l + INR (length l) * c ^ 2).
  { clear. intros c. induction l as [|x l IH]; [unfold Rsum; cbn; ring|]. cbn [map length]. rewrite !Rsum_cons2, IH, S_INR. ring. }
  unfold variance, mean at 1. unfold Rlen. rewrite map_length, E. unfold mean, Rlen. field. lra.
Qed.
Lemma variance_again : forall l v, l <> [] -> let n := INR (length l) in variance (l ++ [v]) = n / (n + 1) * (variance l + (v - mean l) ^ 2 / (n + 1)).
Proof.
  intros l v N n. assert (P : 0 < n) by (apply lt_0_INR; destruct l; [congruence|cbn; lia]). rewrite !moments by (auto; destruct l; discriminate). unfold mean, Rlen. rewrite app_length, map_app, !Rsum_app2, plus_INR. cbn [length INR map]. rewrite !Rsum_cons2. change (Rsum []) with 0. fold n. field. lra.
Qed.
Lemma variance_nonneg : forall l, 0 <= variance l.
Proof.
  intros l. unfold variance, mean at 1. assert (S : forall m, 0 <= Rsum (map (fun x => (x - m) ^ 2) l)). { intros m. induction l as [|a l IH]; [unfold Rsum; cbn; lra|]. cbn [map]. rewrite Rsum_cons2. pose proof (pow2_ge_0 (a - m)). lra. }
  unfold Rlen. rewrite map_length. destruct l as [|a l]; [unfold Rsum; cbn; lra|]. apply Rmult_le_pos; [apply S|]. left. apply Rinv_0_lt_compat, lt_0_INR. cbn; lia.
Qed.
(** Showing the value once more divides its score at least by sqrt ((n + 1) / n), n being the number of values so far. *)
Theorem C127_standard_deviation : forall Y eps (h : list (mcall (list R) Y)) v y a, 0 < eps -> univariate h <> [] ->
  let m := StandardAbsoluteDeviation eps true AverageMeter in let s0 := SAD_init AverageMeter in let n := INR (length (univariate h)) in
  score_after m s0 h [v] = Ok (VArray [FinV a]) ->
  exists b, score_after m s0 (h ++ [CFit [v] y]) [v] = Ok (VArray [FinV b]) /\ 0 <= b <= a * sqrt (n / (n + 1)).
Proof.
  intros Y eps h v y a He NE m s0 n H. set (l := univariate h) in *. assert (P : 0 < n) by (apply lt_0_INR; destruct l; [congruence|cbn; lia]).
  unfold score_after, m, s0 in *. rewrite (C71_score Y eps true NMean AverageMeter h [v] (mean l) He eq_refl (center_mean l NE)) in H. cbn [map maybe_abs] in H. injection H as <-. fold l.
  exists (Rabs ((v - mean (l ++ [v])) / (std (l ++ [v]) + eps))). split.
  - rewrite (C71_score Y eps true NMean AverageMeter (h ++ [CFit [v] y]) [v] (mean (l ++ [v])) He eq_refl); rewrite univariate_snoc; fold l; [reflexivity|]. apply center_mean. destruct l; discriminate.
  - split; [apply Rabs_pos|]. rewrite mean_again by exact NE. fold n. pose proof (std_nonneg l) as S1. pose proof (std_nonneg (l ++ [v])) as S2.
    set (q := n / (n + 1)). assert (Q : 0 < q < 1). { unfold q. split; [apply Rdiv_lt_0_compat; lra|]. apply Rmult_lt_reg_r with (n + 1); [lra|]. unfold Rdiv. rewrite Rmult_assoc, Rinv_l by lra. lra. }
    assert (SQ : 0 < sqrt q) by (apply sqrt_lt_R0; lra). assert (QQ : sqrt q * sqrt q = q) by (apply sqrt_sqrt; lra). assert (S11 : sqrt q < 1) by (rewrite <- sqrt_1; apply sqrt_lt_1_alt; lra).
    assert (GE : sqrt q * std l <= std (l ++ [v])).
    { unfold std. rewrite <- sqrt_mult_alt by lra. apply sqrt_le_1_alt. rewrite variance_again by exact NE. fold n. fold q. apply Rmult_le_compat_l; [lra|]. assert (0 <= (v - mean l) ^ 2 / (n + 1)). { apply Rmult_le_pos; [apply pow2_ge_0|]. left. apply Rinv_0_lt_compat. lra. } lra. }
    unfold Rdiv. rewrite !Rabs_mult. rewrite (Rabs_pos_eq q) by lra. rewrite !Rabs_inv. rewrite (Rabs_pos_eq (std l + eps)), (Rabs_pos_eq (std (l ++ [v]) + eps)) by lra.
    replace (Rabs (v - mean l) * q * / (std (l ++ [v]) + eps)) with (Rabs (v - mean l) * (q * / (std (l ++ [v]) + eps))) by ring.
    replace (Rabs (v - mean l) * / (std l + eps) * sqrt q) with (Rabs (v - mean l) * (sqrt q * / (std l + eps))) by ring.
    apply Rmult_le_compat_l; [apply Rabs_pos|]. apply Rmult_le_reg_r with (std (l ++ [v]) + eps); [lra|]. rewrite Rmult_assoc, Rinv_l by lra. rewrite Rmult_1_r. apply Rmult_le_reg_r with (std l + eps); [lra|].
    replace (sqrt q * / (std l + eps) * (std (l ++ [v]) + eps) * (std l + eps)) with (sqrt q * (std (l ++ [v]) + eps)) by (field; lra). apply Rle_trans with (sqrt q * (sqrt q * (std l + eps))); [rewrite <- Rmult_assoc, QQ; lra|].
    apply Rmult_le_compat_l; [lra|]. nra.
Qed.
Print Assumptions C127_standard_deviation.
(** ** Around the median, and with MedianAbsoluteDeviation: no *)
Lemma median_sorted : forall l m, l <> [] -> Sorted Rle l -> m = (if Nat.odd (length l) then nth (length l / 2) l 0 else (nth (length l / 2 - 1) l 0 + nth (length l / 2) l 0) / 2) -> is_median m l.
Proof. intros l m N S E. exists l. auto. Qed.
Lemma is_median_perm : forall m l l', Permutation l l' -> is_median m l -> is_median m l'.
Proof.
  intros m l l' P (s & P1 & S & N & E). exists s. split; [rewrite P1; exact P|]. split; auto. rewrite <- (Permutation_length P). split; auto. intros ->. apply Permutation_nil in P || (symmetry in P; apply Permutation_nil in P). congruence.
Qed.
Ltac sorted := repeat (apply Sorted_cons; [|first [apply HdRel_nil|apply HdRel_cons; lra]]); try apply Sorted_nil.
Definition fits {Y} (vs : list R) : list (mcall (list R) Y) := map (fun v => CFit [v] None) vs.
Theorem C127_median_center_refuted : exists vs v, forall Y eps y, 0 < eps -> exists a b, let m := StandardAbsoluteDeviation (Y := Y) eps true MedianMeter in let s0 := SAD_init MedianMeter in
  score_after m s0 (fits vs) [v] = Ok (VArray [FinV a]) /\ score_after m s0 (fits vs ++ [CFit [v] y]) [v] = Ok (VArray [FinV b]) /\ a < b.
Proof.
  exists [0; 0; 0; 0; 10], 2. intros Y eps y He.
  assert (U : univariate (fits (Y := Y) [0; 0; 0; 0; 10]) = [0; 0; 0; 0; 10]) by reflexivity.
  assert (V1 : variance [0; 0; 0; 0; 10] = 16). { rewrite moments by discriminate. unfold Rsum. cbn [fold_right map length INR]. lra. }
  assert (V2 : variance [0; 0; 0; 0; 10; 2] = 40 / 3). { rewrite moments by discriminate. unfold Rsum. cbn [fold_right map length INR]. lra. }
  assert (S1 : std [0; 0; 0; 0; 10] = 4). { unfold std. rewrite V1. replace 16 with (4 * 4) by ring. apply sqrt_square. lra. }
  assert (S2 : std [0; 0; 0; 0; 10; 2] < 4). { unfold std. rewrite V2. apply Rlt_le_trans with (sqrt (4 * 4)); [apply sqrt_lt_1_alt; lra|rewrite sqrt_square; lra]. }
  pose proof (std_nonneg [0; 0; 0; 0; 10; 2]) as S3.
  exists (Rabs ((2 - 0) / (std [0; 0; 0; 0; 10] + eps))), (Rabs ((2 - 0) / (std [0; 0; 0; 0; 10; 2] + eps))). cbv zeta. unfold score_after. split; [|split].
  - rewrite (C71_score Y eps true NMedian MedianMeter _ [2] 0 He eq_refl); rewrite U; [reflexivity|]. apply center_median. apply median_sorted; [discriminate|sorted|cbn; lra].
  - rewrite (C71_score Y eps true NMedian MedianMeter _ [2] 0 He eq_refl); rewrite univariate_snoc, U; [reflexivity|]. apply center_median. apply (is_median_perm _ [0; 0; 0; 0; 2; 10]).
    + cbn [app]. do 4 apply perm_skip. apply perm_swap.
    + apply median_sorted; [discriminate|sorted|cbn; lra].
  - rewrite S1. rewrite !Rabs_pos_eq by (apply Rmult_le_pos; [lra|left; apply Rinv_0_lt_compat; lra]). unfold Rdiv. apply Rmult_lt_compat_l; [lra|]. apply Rinv_lt_contravar; nra.
Qed.
Print Assumptions C127_median_center_refuted.
Theorem C127_median_deviation_refuted : exists vs v, forall Y eps b y, 0 < eps -> 0 < b -> exists a c, let m := MedianAbsoluteDeviation (Y := Y) eps b true in
  score_after m MAD_init (fits vs) [v] = Ok (VArray [FinV a]) /\ score_after m MAD_init (fits vs ++ [CFit [v] y]) [v] = Ok (VArray [FinV c]) /\ a < c.
Proof.
  exists [20; 0; -20; 0], 1. intros Y eps b y He Hb.
  assert (M1 : forall a, is_median a [a]) by (intros a; apply median_sorted; [discriminate|sorted|reflexivity]).
  assert (M2 : is_median 10 [20; 0]) by (apply (is_median_perm _ [0; 20]); [apply perm_swap|]; apply median_sorted; [discriminate|sorted|cbn; lra]).
  assert (M3 : is_median 0 [20; 0; -20]). { apply (is_median_perm _ [-20; 0; 20]); [|apply median_sorted; [discriminate|sorted|cbn; lra]]. apply (Permutation_rev [-20; 0; 20]). }
  assert (P4 : Permutation [-20; 0; 0; 20] [20; 0; -20; 0]). { apply Permutation_trans with (rev [-20; 0; 0; 20]); [apply Permutation_rev|]. cbn [rev app]. do 2 apply perm_skip. apply perm_swap. }
  assert (M4 : is_median 0 [20; 0; -20; 0]). { apply (is_median_perm _ _ _ P4). apply median_sorted; [discriminate|sorted|cbn; lra]. }
  assert (M5 : is_median 0 [20; 0; -20; 0; 1]). { apply (is_median_perm _ ([-20; 0; 0] ++ [1; 20])); [|apply median_sorted; [discriminate|cbn [app]; sorted|cbn; lra]]. apply Permutation_trans with ([-20; 0; 0] ++ [20; 1]); [apply Permutation_app_head; apply perm_swap|]. exact (Permutation_app_tail [1] P4). }
  set (d4 := [Rabs (20 - 20); Rabs (0 - 10); Rabs (-20 - 0); Rabs (0 - 0)]).
  assert (D4 : running_devs [20; 0; -20; 0] d4). { unfold running_devs. cbn [prefixes map]. repeat constructor; eexists; (split; [|reflexivity]); auto. }
  assert (D5 : running_devs [20; 0; -20; 0; 1] (d4 ++ [Rabs (1 - 0)])). { unfold running_devs. cbn [prefixes map]. repeat constructor; eexists; (split; [|reflexivity]); auto. }
  assert (E4 : d4 = [0; 10; 20; 0]). { unfold d4. repeat f_equal; unfold Rabs; destruct (Rcase_abs _); lra. }
  assert (E1 : Rabs (1 - 0) = 1) by (rewrite Rabs_pos_eq; lra).
  assert (X4 : is_median 5 d4). { rewrite E4. apply (is_median_perm _ [0; 0; 10; 20]); [|apply median_sorted; [discriminate|sorted|cbn; lra]]. apply perm_skip. apply Permutation_trans with [10; 0; 20]; [apply perm_swap|apply perm_skip; apply perm_swap]. }
  assert (X5 : is_median 1 (d4 ++ [Rabs (1 - 0)])). { rewrite E4, E1. cbn [app]. apply (is_median_perm _ [0; 0; 1; 10; 20]); [|apply median_sorted; [discriminate|sorted|cbn; lra]]. apply perm_skip. apply Permutation_trans with ([0; 1] ++ [10; 20]); [reflexivity|]. apply Permutation_trans with ([10; 20] ++ [0; 1]); [apply Permutation_app_comm|reflexivity]. }
  exists (Rabs ((1 - 0) / (b * 5 + eps))), (Rabs ((1 - 0) / (b * 1 + eps))). cbv zeta. unfold score_after. split; [|split].
  - rewrite (C70_score Y eps b true (fits [20; 0; -20; 0]) [1] 0 d4 5 He (Rlt_le _ _ Hb) M4 D4 X4). reflexivity.
  - rewrite (C70_score Y eps b true (fits [20; 0; -20; 0] ++ [CFit [1] y]) [1] 0 (d4 ++ [Rabs (1 - 0)]) 1 He (Rlt_le _ _ Hb)); [reflexivity| | |exact X5]; rewrite univariate_snoc; [exact M5|exact D5].
  - rewrite !Rabs_pos_eq by (apply Rmult_le_pos; [lra|left; apply Rinv_0_lt_compat; lra]). unfold Rdiv. apply Rmult_lt_compat_l; [lra|]. apply Rinv_lt_contravar; nra.
Qed.
Print Assumptions C127_median_deviation_refuted.
(** ** HalfSpaceTrees: yes in the first window, by the same amount every time *)
Lemma cell_sum_again : forall D t ref x, cell_sum D t (ref ++ [x]) x = cell_sum D t ref x + (2 ^ S D - 1).
Proof.
  intros D t ref x. unfold cell_sum. assert (E : forall d, sharing t d (ref ++ [x]) x = sharing t d ref x + 1).
  { intros d. unfold sharing. rewrite filter_app, app_length, plus_INR. cbn [filter]. destruct (list_eq_dec bool_dec (route d t x) (route d t x)); [reflexivity|congruence]. }
  induction D as [|D IH]; [unfold Rsum; cbn [seq map fold_right]; rewrite E; cbn [pow]; ring|]. rewrite seq_S, !map_app, !Rsum_app2, IH. cbn [Nat.add map]. rewrite !Rsum_cons2, E. change (Rsum []) with 0. cbn [pow]. ring.
Qed.
Lemma Rsum_shift : forall X (f g : X -> R) c l, (forall x, In x l -> g x = f x + c) -> Rsum (map g l) = Rsum (map f l) + INR (length l) * c.
Proof.
  intros X f g c l H. induction l as [|a l IH]; [unfold Rsum; cbn; ring|]. cbn [map length]. rewrite !Rsum_cons2, S_INR, IH, H by (intros; first [apply H; right; auto|left; auto]). ring.
Qed.
Theorem C127_half_space_trees : forall Y cast draw mins maxes W T D (h : list (mcall (list R) Y)) x y, let dim := length maxes in
  length mins = dim -> (1 <= dim)%nat -> (forall i, (draw i < dim)%nat) -> (1 <= W)%nat -> Forall (fun x => (dim <= length x)%nat) (fitted_instances h) -> (dim <= length x)%nat ->
  let n := length (fitted_instances h) in let m := HalfSpaceTrees W D in
  exists s0 v, HST_init (Y := Y) cast draw mins maxes W T D IWNone = Ok s0 /\ score_after m s0 h x = Ok (VScalar v) /\
  ((n < W)%nat -> score_after m s0 (h ++ [CFit x y]) x = Ok (VScalar (v - INR T * (2 ^ S D - 1)))) /\
  ((W <= n)%nat -> ((n + 1) mod W <> 0)%nat -> score_after m s0 (h ++ [CFit x y]) x = Ok (VScalar v)).
Proof.
  intros Y cast draw mins maxes W T D h x y dim HL Hdim Hq HW F Hx n m.
  destruct (C53_masses R Y NumR cast draw mins maxes W T D h HL Hdim Hq HW F) as (s1 & E1 & LT & _).
  destruct (C54_score Y cast draw mins maxes W T D h x HL Hdim Hq HW F Hx) as (s0 & E0 & E). rewrite E0 in E1. injection E1 as <-.
  assert (F' : Forall (fun x => (dim <= length x)%nat) (fitted_instances (h ++ [CFit x y]))) by (rewrite fitted_instances_app; apply Forall_app; split; [exact F|repeat constructor; exact Hx]).
  destruct (C54_score Y cast draw mins maxes W T D (h ++ [CFit x y]) x HL Hdim Hq HW F' Hx) as (s1 & E1 & E'). rewrite E0 in E1. injection E1 as <-.
  cbv zeta in E, E'. rewrite fitted_instances_app in E'. change (fitted_instances [CFit x y]) with [x] in E'. set (xs := fitted_instances h) in *. exists s0. eexists. split; [exact E0|]. unfold score_after, m, eval. rewrite E, E'. cbn [fst]. split; [reflexivity|]. rewrite app_length. cbn [length]. fold n. split.
  - intros Hn. destruct (Nat.ltb_spec n W) as [_|]; [|lia]. assert (R2 : (if (n + 1 <? W)%nat then xs ++ [x] else block W ((n + 1) / W - 1) (xs ++ [x])) = xs ++ [x]).
    { destruct (Nat.ltb_spec (n + 1) W); [reflexivity|]. assert (n + 1 = W)%nat by lia. rewrite H0, Nat.div_same by lia. unfold block. cbn [Nat.sub Nat.mul skipn]. apply firstn_all2. rewrite app_length. cbn [length]. fold n. lia. }
    rewrite R2. do 2 f_equal. rewrite (Rsum_shift _ (fun t => cell_sum D t xs x) (fun t => cell_sum D t (xs ++ [x]) x) (2 ^ S D - 1)) by (intros; apply cell_sum_again). rewrite LT. ring.
  - intros Hn HM. destruct (Nat.ltb_spec n W) as [|_]; [lia|]. destruct (Nat.ltb_spec (n + 1) W) as [|_]; [lia|]. do 4 f_equal. apply map_ext. intros t. f_equal.
    assert (QD : ((n + 1) / W = n / W)%nat). { pose proof (Nat.div_mod n W ltac:(lia)) as D1. pose proof (Nat.mod_upper_bound n W ltac:(lia)). assert (n mod W + 1 < W \/ n mod W + 1 = W)%nat as [C|C] by lia.
      - symmetry. apply (Nat.div_unique (n + 1) W (n / W) (n mod W + 1)); lia.
      - exfalso. apply HM. replace (n + 1)%nat with ((n / W + 1) * W)%nat by nia. apply Nat.mod_mul. lia. }
    rewrite QD. unfold block. rewrite skipn_app, firstn_app. pose proof (Nat.div_mod n W ltac:(lia)) as D1. assert (1 <= n / W)%nat by (apply Nat.div_le_lower_bound; lia). fold n.
    replace (W - length (skipn ((n / W - 1) * W) xs))%nat with 0%nat; [cbn [firstn]; rewrite app_nil_r; reflexivity|]. rewrite skipn_length. fold n. nia.
Qed.
Print Assumptions C127_half_space_trees.
(** Not when it completes a later window. *)
Lemma fitted_fits : forall Y (vs : list R), fitted_instances (Y := Y) (fits vs) = map (fun v => [v]) vs.
Proof. intros Y vs. unfold fits, fitted_instances, fitted_calls. induction vs as [|v vs IH]; [reflexivity|]. cbn [map flat_map call_fit app fst]. f_equal. exact IH. Qed.
Theorem C127_half_space_trees_refuted : forall Y draw W T D (y : option Y), (forall i, (draw i < 1)%nat) -> (2 <= W)%nat -> (1 <= D)%nat -> (1 <= T)%nat ->
  let h := fits (Y := Y) (repeat 0 W ++ repeat 1 (W - 1)) in let m := HalfSpaceTrees W D in
  exists s0 a b, HST_init (Y := Y) (fun a : R => a) draw [0] [1] W T D IWNone = Ok s0 /\
  score_after m s0 h [0] = Ok (VScalar a) /\ score_after m s0 (h ++ [CFit [0] y]) [0] = Ok (VScalar b) /\ a < b /\ a = - (INR T * (INR W * (2 ^ S D - 1))).
Proof.
  intros Y draw W T D y Hq HW HD HT h m.
  assert (FI : fitted_instances h = repeat [0] W ++ repeat [1] (W - 1)). { unfold h. rewrite fitted_fits, map_app. f_equal; [generalize W|generalize (W - 1)%nat]; intros k; induction k; cbn [repeat map]; congruence. }
  assert (FL : Forall (fun x : list R => (1 <= length x)%nat) (repeat [0] W ++ repeat [1] (W - 1))). { apply Forall_app. split; apply Forall_forall; intros x I; apply repeat_spec in I; subst x; cbn; lia. }
  destruct (C55_trees_halve_the_box Y draw [0] [1] W T D eq_refl ltac:(cbn; lia) Hq) as (s0 & E0 & LT & HV).
  destruct (C54_score Y (fun a => a) draw [0] [1] W T D h [0] eq_refl ltac:(cbn; lia) Hq ltac:(lia) ltac:(rewrite FI; exact FL) ltac:(cbn; lia)) as (s1 & E1 & E). rewrite E0 in E1. injection E1 as <-.
  assert (F' : Forall (fun x : list R => (length [1] <= length x)%nat) (fitted_instances (h ++ [CFit [0] y]))) by (rewrite fitted_instances_app, FI; apply Forall_app; split; [exact FL|repeat constructor]).
  destruct (C54_score Y (fun a => a) draw [0] [1] W T D (h ++ [CFit [0] y]) [0] eq_refl ltac:(cbn; lia) Hq ltac:(lia) F' ltac:(cbn; lia)) as (s1 & E1 & E'). rewrite E0 in E1. injection E1 as <-.
  cbv zeta in E, E'. rewrite fitted_instances_app in E'. change (fitted_instances [CFit [0] y]) with [[0]] in E'. rewrite FI in E, E'.
  assert (L1 : length (repeat [0%R] W ++ repeat [1%R] (W - 1)) = (W + (W - 1))%nat) by (rewrite app_length, !repeat_length; reflexivity).
  assert (Q1 : ((W + (W - 1)) / W = 1)%nat) by (symmetry; apply (Nat.div_unique _ W 1 (W - 1)); lia).
  assert (Q2 : ((W + (W - 1) + 1) / W = 2)%nat) by (symmetry; apply (Nat.div_unique _ W 2 0); lia).
  assert (R1 : (if (length (repeat [0%R] W ++ repeat [1%R] (W - 1)) <? W)%nat then repeat [0%R] W ++ repeat [1%R] (W - 1) else block W (length (repeat [0%R] W ++ repeat [1%R] (W - 1)) / W - 1) (repeat [0%R] W ++ repeat [1%R] (W - 1))) = repeat [0%R] W).
  { rewrite L1. destruct (Nat.ltb_spec (W + (W - 1)) W); [lia|]. rewrite Q1. unfold block. cbn [Nat.sub Nat.mul skipn]. rewrite firstn_app, repeat_length, Nat.sub_diag. cbn [firstn]. rewrite app_nil_r. apply firstn_all2. rewrite repeat_length. lia. }
  assert (R2 : (if (length ((repeat [0%R] W ++ repeat [1%R] (W - 1)) ++ [[0%R]]) <? W)%nat then (repeat [0%R] W ++ repeat [1%R] (W - 1)) ++ [[0%R]] else block W (length ((repeat [0%R] W ++ repeat [1%R] (W - 1)) ++ [[0%R]]) / W - 1) ((repeat [0%R] W ++ repeat [1%R] (W - 1)) ++ [[0%R]])) = repeat [1%R] (W - 1) ++ [[0%R]]).
  { rewrite (app_length _ [[0]]), L1. cbn [length]. destruct (Nat.ltb_spec (W + (W - 1) + 1) W); [lia|]. rewrite Q2. unfold block. replace ((2 - 1) * W)%nat with W by lia. rewrite <- app_assoc, skipn_app, repeat_length, Nat.sub_diag, skipn_all2 by (rewrite repeat_length; lia). cbn [app skipn]. apply firstn_all2. rewrite app_length, repeat_length. cbn [length]. lia. }
  rewrite R1 in E. rewrite R2 in E'. clear R1 R2 L1 Q1 Q2 F' FL FI.
  assert (C1 : forall t, cell_sum D t (repeat [0] W) [0] = INR W * (2 ^ S D - 1)).
  { intros t. clear. induction W as [|W IH]; [unfold cell_sum; cbn [repeat INR]; rewrite Rmult_0_l; generalize (seq 0 (S D)); intros l; induction l as [|d l IH]; [reflexivity|]; cbn [map]; rewrite Rsum_cons2, IH; unfold sharing; cbn; ring|]. replace (repeat [0] (S W)) with (repeat [0] W ++ [[0]]) by (rewrite <- repeat_cons; reflexivity). rewrite cell_sum_again, IH, S_INR. ring. }
  assert (C2 : forall t, In t (hs_roots s0) -> cell_sum D t (repeat [1] (W - 1) ++ [[0]]) [0] = INR W - 1 + (2 ^ S D - 1)).
  { intros t It. rewrite Forall_forall in HV. specialize (HV t It). rewrite cell_sum_again. f_equal. inversion HV as [|k lo hi L Rt q p Hk Hql Hp HLt HRt]; subst; [lia|]. assert (q = 0)%nat by (cbn in Hql; lia). subst q. cbn [nth].
    unfold cell_sum. rewrite <- cons_seq, map_cons, Rsum_cons2, sharing_0, repeat_length. rewrite minus_INR by lia. cbn [INR pow]. replace (Rsum _) with 0; [ring|]. symmetry. generalize D at 1. intros D'. assert (Z : forall l, Forall (fun d => (1 <= d)%nat) l -> Rsum (map (fun d => 2 ^ d * sharing (HNode L Rt 0 0 0 ((1 + 0) / 2) 0) d (repeat [1] (W - 1)) [0]) l) = 0).
    { induction 1 as [|d l Hd _ IH]; [reflexivity|]. cbn [map]. rewrite Rsum_cons2, IH. destruct d as [|d]; [lia|]. rewrite sharing_S. cbn [nth]. destruct (Rltb ((1 + 0) / 2) 0) eqn:B; [apply Rltb_lt in B; lra|]. assert (FE : filter (fun x => negb (Rltb ((1 + 0) / 2) (nth 0 x 0))) (repeat [1] (W - 1)) = []).
      { generalize (W - 1)%nat. intros k. induction k as [|k IHk]; [reflexivity|]. cbn [repeat filter nth]. destruct (Rltb ((1 + 0) / 2) 1) eqn:B1; [exact IHk|apply Rltb_nlt in B1; lra]. }
      rewrite FE. unfold sharing. cbn. ring. }
    apply Z. apply Forall_forall. intros d Id. apply in_seq in Id. lia. }
  exists s0. eexists _, _. split; [exact E0|]. unfold score_after, m, eval. rewrite E, E'. cbn [fst]. split; [reflexivity|]. split; [reflexivity|].
  assert (A1 : Rsum (map (fun t => cell_sum D t (repeat [0] W) [0]) (hs_roots s0)) = INR T * (INR W * (2 ^ S D - 1))).
  { rewrite <- LT. clear - C1. induction (hs_roots s0) as [|t l IH]; [cbn; ring|]. cbn [map length]. rewrite Rsum_cons2, IH, C1, S_INR. ring. }
  assert (A2 : Rsum (map (fun t => cell_sum D t (repeat [1] (W - 1) ++ [[0]]) [0]) (hs_roots s0)) = INR T * (INR W - 1 + (2 ^ S D - 1))).
  { rewrite <- LT. clear - C2. induction (hs_roots s0) as [|t l IH]; [cbn; ring|]. cbn [map length]. rewrite Rsum_cons2, IH, C2, S_INR by (intros; first [apply C2; right; auto|left; auto]). ring. }
  rewrite A1, A2. split; [|reflexivity]. apply Ropp_lt_contravar. apply Rmult_lt_compat_l; [apply lt_0_INR; lia|]. assert (2 <= INR W) by (apply (le_INR 2); exact HW). assert (2 <= 2 ^ D). { replace 2 with (2 ^ 1) at 1 by ring. apply Rle_pow; [lra|exact HD]. } cbn [pow]. nra.
Qed.
Print Assumptions C127_half_space_trees_refuted.
(** ** RSHash: the score strictly grows with every repetition (so that the most familiar instance has the highest score) *)
Lemma decayed_again : forall floor decay c past x, decayed_count floor decay c (past ++ [x]) x = Rpower 2 (- decay) * (decayed_count floor decay c past x + 1).
Proof.
  intros floor decay c past x. unfold decayed_count. rewrite app_length. cbn [length]. replace (length past + 1)%nat with (S (length past)) by lia. rewrite seq_S, map_app, Rsum_app2. cbn [Nat.add map]. rewrite Rsum_cons2. change (Rsum []) with 0.
  rewrite app_nth2, Nat.sub_diag by lia. cbn [nth]. replace (S (length past) - length past)%nat with 1%nat by lia. assert (SC : same_cell floor c x x = true) by (unfold same_cell; destruct (list_eq_dec _ _ _); congruence). rewrite SC. cbn [INR]. rewrite Rmult_1_r.
  assert (G : forall l, Forall (fun j => (j < length past)%nat) l -> Rsum (map (fun j => if same_cell floor c (nth j (past ++ [x]) []) x then Rpower 2 (- decay * INR (S (length past) - j)) else 0) l) = Rpower 2 (- decay) * Rsum (map (fun j => if same_cell floor c (nth j past []) x then Rpower 2 (- decay * INR (length past - j)) else 0) l)).
  { induction 1 as [|j l Hj _ IH]; [unfold Rsum; cbn; ring|]. cbn [map]. rewrite !Rsum_cons2, IH, app_nth1 by exact Hj. destruct (same_cell floor c (nth j past []) x); [|ring]. replace (S (length past) - j)%nat with (S (length past - j)) by lia. rewrite S_INR. replace (- decay * (INR (length past - j) + 1)) with (- decay * INR (length past - j) + - decay) by ring. rewrite Rpower_plus. ring. }
  rewrite G; [ring|]. apply Forall_forall. intros j I. apply in_seq in I. lia.
Qed.
Lemma decayed_bound : forall floor decay c past x, 0 <= decay -> let q := Rpower 2 (- decay) in decayed_count floor decay c past x * (1 - q) < q.
Proof.
  intros floor decay c past x Hd q. assert (Q : 0 < q <= 1). { unfold q, Rpower. split; [apply exp_pos|]. rewrite <- exp_0. destruct (Req_dec decay 0) as [->|N]; [right; f_equal; ring|]. left. apply exp_increasing. pose proof ln_lt_2. assert (0 < ln 2) by lra. nra. }
  induction past as [|z past IH] using rev_ind; [unfold decayed_count, Rsum; cbn; lra|].
  assert (LE : decayed_count floor decay c (past ++ [z]) x <= q * (decayed_count floor decay c past x + 1)).
  { unfold decayed_count. rewrite app_length. cbn [length]. replace (length past + 1)%nat with (S (length past)) by lia. rewrite seq_S, map_app, Rsum_app2. cbn [Nat.add map]. rewrite Rsum_cons2. change (Rsum []) with 0. rewrite app_nth2, Nat.sub_diag by lia. cbn [nth]. replace (S (length past) - length past)%nat with 1%nat by lia. cbn [INR]. rewrite Rmult_1_r. fold q.
    assert (G : forall l, Forall (fun j => (j < length past)%nat) l -> Rsum (map (fun j => if same_cell floor c (nth j (past ++ [z]) []) x then Rpower 2 (- decay * INR (S (length past) - j)) else 0) l) = q * Rsum (map (fun j => if same_cell floor c (nth j past []) x then Rpower 2 (- decay * INR (length past - j)) else 0) l)).
    { induction 1 as [|j l Hj _ IHl]; [unfold Rsum; cbn; ring|]. cbn [map]. rewrite !Rsum_cons2, IHl, app_nth1 by exact Hj. destruct (same_cell floor c (nth j past []) x); [|ring]. replace (S (length past) - j)%nat with (S (length past - j)) by lia. rewrite S_INR. replace (- decay * (INR (length past - j) + 1)) with (- decay * INR (length past - j) + - decay) by ring. rewrite Rpower_plus. unfold q. ring. }
    rewrite G by (apply Forall_forall; intros j I; apply in_seq in I; lia). destruct (same_cell floor c z x); lra. }
  nra.
Qed.
Lemma decayed_pos : forall floor decay c past x, 0 <= decayed_count floor decay c past x.
Proof.
  intros floor decay c past x. unfold decayed_count. generalize (seq 0 (length past)). induction l as [|j l IH]; cbn [map]; rewrite ?Rsum_cons2; [unfold Rsum; cbn; lra|]. destruct (same_cell _ _ _ _); [|lra]. pose proof (exp_pos (- decay * INR (length past - j) * ln 2)). unfold Rpower in *. lra.
Qed.
Theorem C127_rshash : forall Y floor decay comps sp w (h : list (mcall (list R) Y)) past x y z a, comps <> [] -> (1 <= w)%nat -> 0 <= decay -> Forall (fits_components comps) (fitted_instances h) ->
  fitted_instances h = past ++ [x] -> let m := RSHash (Rpower 2) ln floor decay comps in
  score_after m (RSHash_init sp w) h z = Ok (VScalar a) -> exists b, score_after m (RSHash_init sp w) (h ++ [CFit x y]) z = Ok (VScalar b) /\ a < b.
Proof.
  intros Y floor decay comps sp w h past x y z a HC Hw Hd F Ex m H. unfold score_after, m in *. destruct (C74_score Y floor decay comps sp w h z HC Hw F) as (_ & E1 & _). cbv zeta in E1. unfold eval in *. rewrite (E1 past x Ex) in H. cbn [fst] in H. injection H as <-.
  assert (F' : Forall (fits_components comps) (fitted_instances (h ++ [CFit x y]))). { rewrite fitted_instances_app. apply Forall_app. split; [exact F|]. rewrite Ex in F. apply Forall_app in F. exact (proj2 F). }
  destruct (C74_score Y floor decay comps sp w (h ++ [CFit x y]) z HC Hw F') as (_ & E2 & _). cbv zeta in E2. eexists. rewrite (E2 (past ++ [x]) x) by (rewrite fitted_instances_app, Ex; reflexivity). cbn [fst]. split; [reflexivity|].
  unfold mean, Rlen. rewrite !map_length. unfold Rdiv. apply Rmult_lt_compat_r; [apply Rinv_0_lt_compat, lt_0_INR; destruct comps; [congruence|cbn; lia]|].
  assert (S : forall c, ln (1 + decayed_count floor decay c past x) < ln (1 + decayed_count floor decay c (past ++ [x]) x)).
  { intros c. pose proof (decayed_pos floor decay c past x). pose proof (decayed_bound floor decay c past x Hd) as B. cbv zeta in B. apply ln_increasing; [lra|]. rewrite decayed_again. lra. }
  clear - S HC. destruct comps as [|c l]; [congruence|]. clear HC. revert c. induction l as [|c' l IH]; intros c; cbn [map]; rewrite !Rsum_cons2.
  - change (Rsum []) with 0. pose proof (S c). lra.
  - specialize (IH c'). cbn [map] in IH. rewrite !Rsum_cons2 in IH. pose proof (S c). lra.
Qed.
Print Assumptions C127_rshash.
(** ** ExactStorm: the reported fraction of near instances does not fall if the instance fitted last was near too ... *)
Lemma fraction_up : forall (P : list R -> bool) l r, P r = true -> fraction P l <= fraction P (l ++ [r]).
Proof.
  intros P l r Pr. unfold fraction, Rlen. rewrite filter_app, !app_length, !plus_INR. cbn [filter]. rewrite Pr. cbn [length INR]. destruct l as [|a l]; [cbn; lra|]. set (n := INR (length (a :: l))). assert (0 < n) by (apply lt_0_INR; cbn; lia). assert (INR (length (filter P (a :: l))) <= n) by (apply le_INR, filter_length_le). set (k := INR (length (filter P (a :: l)))) in *.
  apply Rmult_le_reg_r with (n * (n + 1)); [nra|]. replace (k / n * (n * (n + 1))) with (k * (n + 1)) by (field; lra). replace ((k + 1) / (n + 1) * (n * (n + 1))) with ((k + 1) * n) by (field; lra). lra.
Qed.
Lemma fraction_swap : forall (P : list R -> bool) a l r, P r = true -> fraction P (a :: l) <= fraction P (l ++ [r]).
Proof.
  intros P a l r Pr. unfold fraction, Rlen. rewrite filter_app, !app_length. cbn [filter]. rewrite Pr. cbn [length]. rewrite !Nat.add_1_r. unfold Rdiv. apply Rmult_le_compat_r; [left; apply Rinv_0_lt_compat, lt_0_INR; lia|]. apply le_INR. destruct (P a); cbn [length]; lia.
Qed.
Theorem C127_exact_storm : forall Y radius w (h : list (mcall (list R) Y)) past r x y, (1 <= w)%Z -> (forall r, In r (fitted_instances h) -> length r = length x) ->
  fitted_instances h = past ++ [r] -> dist r x < radius -> let m := ExactStorm radius in
  exists a b, score_after m (Window_init w) h x = Ok (VScalar a) /\ score_after m (Window_init w) (h ++ [CFit x y]) x = Ok (VScalar b) /\ a <= b.
Proof.
  intros Y radius w h past r x y Hw HL Ex Hr m. eexists _, _. unfold score_after, m. split; [apply C51_near_fraction; exact HL|]. split.
  - apply C51_near_fraction. intros r0 I. rewrite fitted_instances_app in I. apply in_app_iff in I. destruct I as [I|[<-|[]]]; [apply HL; exact I|reflexivity].
  - rewrite fitted_instances_app. change (fitted_instances [CFit x y]) with [x]. rewrite Ex. replace (Z.to_nat w) with (S (Z.to_nat w - 1)) by lia. set (k := (Z.to_nat w - 1)%nat). rewrite !lastn_snoc, !removelast_last.
    assert (Pr : near radius x r = true) by (apply Rltb_lt; exact Hr). destruct k as [|k]; [rewrite !lastn_0; lra|]. rewrite lastn_snoc. unfold near_fraction.
    destruct (lastn k past ++ [r]) as [|b l] eqn:E1; [destruct (lastn k past); discriminate|]. rewrite <- E1. clear b l E1.
    destruct (le_lt_dec (length past) k) as [C|C].
    + rewrite !lastn_all by lia. destruct past as [|b past']; [|apply fraction_up; exact Pr]. unfold fraction, Rlen. cbn [app filter]. rewrite Pr. cbn [length INR]. lra.
    + assert (E2 : exists b, lastn (S k) past = b :: lastn k past). { unfold lastn. destruct (skipn (length past - S k) past) as [|b l] eqn:E2. - apply (f_equal (@length _)) in E2. rewrite skipn_length in E2. cbn in E2. lia. - exists b. f_equal. replace (length past - k)%nat with (1 + (length past - S k))%nat by lia. rewrite <- skipn_skipn, E2. reflexivity. }
      destruct E2 as [b ->]. apply fraction_swap. exact Pr.
Qed.
Print Assumptions C127_exact_storm.
(** ... but may otherwise: the most recent instance is never compared. *)
Theorem C127_exact_storm_refuted : exists (vs : list R) v, forall Y y, let m := ExactStorm (Y := Y) 1 in
  score_after m (Window_init 3) (fits vs) [v] = Ok (VScalar 1) /\ score_after m (Window_init 3) (fits vs ++ [CFit [v] y]) [v] = Ok (VScalar (1 / 2)).
Proof.
  exists [0; 5], 0. intros Y y m. assert (N0 : near 1 [0] [0] = true) by (apply near1; rewrite Rminus_0_r, Rabs_R0; lra). assert (N5 : near 1 [0] [5] = false) by (apply far1; rewrite Rminus_0_r, Rabs_pos_eq; lra).
  unfold score_after, m. rewrite !C51_near_fraction.
  - rewrite fitted_instances_app, fitted_fits. change (fitted_instances [CFit [0] y]) with [[0]]. cbn [map app]. change (Z.to_nat 3) with 3%nat. rewrite !lastn_all by (cbn; lia). cbn [removelast near_fraction]. unfold fraction, Rlen. cbn [filter]. rewrite N0, N5. cbn [length INR]. split; do 2 f_equal; lra.
  - intros r I. rewrite fitted_instances_app, fitted_fits in I. cbn in I. intuition subst; reflexivity.
  - intros r I. rewrite fitted_fits in I. cbn in I. intuition subst; reflexivity.
Qed.
Print Assumptions C127_exact_storm_refuted.
(** ** Conformal probabilities: never higher after the same score has been added. *)
Theorem C127_conformal : forall windowed w (h : list (pop R)) s a, (windowed = true -> (1 <= w)%Z) -> let p := ConformalProbabilityCalibrator in let s0 := Conformal_init windowed w in
  eval (pp_transform p s) (post_run p s0 h) = Ok (VScalar (FinV a)) -> exists b, eval (pp_transform p s) (post_run p s0 (h ++ [PFit s])) = Ok (VScalar (FinV b)) /\ b <= a.
Proof.
  intros windowed w h s a Hw p s0 H. unfold p, s0 in *. rewrite (C36_conformal_fraction_above windowed w h s) in H. rewrite (C36_conformal_fraction_above windowed w (h ++ [PFit s]) s).
  assert (FE : fitted (h ++ [PFit s]) = fitted h ++ [s]) by (unfold fitted; rewrite flat_map_app; reflexivity). rewrite FE. set (l := fitted h) in *.
  assert (A : above s s = false) by (unfold above; destruct (Rlt_dec s s); [lra|reflexivity]).
  assert (UP : forall l, l <> [] -> fraction (above s) (l ++ [s]) <= fraction (above s) l).
  { clear - A. intros l N. unfold fraction, Rlen. rewrite filter_app, !app_length, !plus_INR. cbn [filter]. rewrite A. cbn [length INR]. rewrite Rplus_0_r. unfold Rdiv. apply Rmult_le_compat_l; [apply pos_INR|]. apply Rinv_le_contravar; [apply lt_0_INR; destruct l; [congruence|cbn; lia]|lra]. }
  unfold conf_window in *. destruct windowed.
  - specialize (Hw eq_refl). replace (Z.to_nat w) with (S (Z.to_nat w - 1)) in * by lia. set (k := (Z.to_nat w - 1)%nat) in *. rewrite lastn_snoc. destruct (lastn (S k) l) as [|b t] eqn:E1; [discriminate|]. injection H as <-. destruct (lastn k l ++ [s]) as [|c t'] eqn:E2; [destruct (lastn k l); discriminate|]. rewrite <- E2. eexists. split; [reflexivity|].
    destruct (le_lt_dec (length l) k) as [C|C].
    + rewrite lastn_all in E1 |- * by lia. rewrite E1. apply UP. discriminate.
    + assert (E3 : lastn k l = t). { unfold lastn in *. replace (length l - k)%nat with (1 + (length l - S k))%nat by lia. rewrite <- skipn_skipn, E1. reflexivity. }
      rewrite E3. unfold fraction, Rlen. rewrite filter_app, !app_length. cbn [filter]. rewrite A. cbn [length]. rewrite Nat.add_0_r, !Nat.add_1_r. unfold Rdiv. apply Rmult_le_compat_r; [left; apply Rinv_0_lt_compat, lt_0_INR; lia|]. apply le_INR. destruct (above s b); cbn [length]; lia.
  - destruct l as [|b l]; [discriminate|]. injection H as <-. destruct ((b :: l) ++ [s]) as [|c t] eqn:E; [discriminate|]. rewrite <- E. eexists. split; [reflexivity|]. apply UP. discriminate.
Qed.
Print Assumptions C127_conformal.
(** ** Examples *)
Example C127_standard_deviation_ex : forall Y eps, 0 < eps -> score_after (StandardAbsoluteDeviation (Y := Y) eps true AverageMeter) (SAD_init AverageMeter) (fits [0; 2]) [2] = Ok (VArray [FinV (Rabs ((2 - 1) / (1 + eps)))]) /\ univariate (fits (Y := Y) [0; 2]) <> [].
Proof.
  intros Y eps He. split; [|discriminate]. unfold score_after. assert (M : mean [0; 2] = 1) by (unfold mean, Rlen, Rsum; cbn [fold_right length INR]; lra). assert (S : std [0; 2] = 1). { unfold std, variance. rewrite M. unfold mean, Rlen, Rsum. cbn [map fold_right length INR]. replace (((0 - 1) ^ 2 + ((2 - 1) ^ 2 + 0)) / (1 + 1)) with 1 by field. apply sqrt_1. }
  rewrite (C71_score Y eps true NMean AverageMeter (fits [0; 2]) [2] (mean [0; 2]) He eq_refl (center_mean [0; 2] ltac:(discriminate))). change (univariate (fits (Y := Y) [0; 2])) with [0; 2]. rewrite M, S. reflexivity.
Qed.
(** Two trees of depth 1 over [0, 1], windows of 2: the constant stream 0, 0, ... then one 1. *)
Example C127_half_space_trees_ex : exists s0 a b, HST_init (Y := unit) (fun a : R => a) (fun _ => 0%nat) [0] [1] 2 2 1 IWNone = Ok s0 /\
  score_after (HalfSpaceTrees (Y := unit) 2 1) s0 (fits [0; 0; 1]) [0] = Ok (VScalar a) /\ score_after (HalfSpaceTrees (Y := unit) 2 1) s0 (fits [0; 0; 1] ++ [CFit [0] None]) [0] = Ok (VScalar b) /\ a = -12 /\ a < b.
Proof.
  destruct (C127_half_space_trees_refuted unit (fun _ => 0%nat) 2 2 1 None (fun _ => Nat.lt_0_1) ltac:(lia) ltac:(lia) ltac:(lia)) as (s0 & a & b & E0 & E1 & E2 & L & Ea). exists s0, a, b. split; [exact E0|]. split; [exact E1|]. split; [exact E2|]. split; [rewrite Ea; cbn [pow INR]; lra|exact L].
Qed.
Example C127_exact_storm_ex : exists a b, score_after (ExactStorm (Y := unit) 1) (Window_init 3) (fits [5; 0]) [0] = Ok (VScalar a) /\ score_after (ExactStorm (Y := unit) 1) (Window_init 3) (fits [5; 0] ++ [CFit [0] None]) [0] = Ok (VScalar b) /\ a <= b.
Proof.
  apply (C127_exact_storm unit 1 3 (fits [5; 0]) [[5]] [0] [0] None); [lia| |reflexivity|].
  - intros r I. rewrite fitted_fits in I. cbn in I. intuition subst; reflexivity.
  - rewrite dist1, Rminus_0_r, Rabs_R0. lra.
Qed.
Example C127_conformal_ex : eval (pp_transform ConformalProbabilityCalibrator 1) (post_run ConformalProbabilityCalibrator (Conformal_init true 2) [PFit 3; PFit 5]) = Ok (VScalar (FinV 1)).
Proof.
  rewrite (C36_conformal_fraction_above true 2 [PFit 3; PFit 5] 1). unfold conf_window. change (Z.to_nat 2) with 2%nat. rewrite lastn_all by (cbn; lia). cbn [fitted flat_map app]. unfold fraction, above, Rlen. cbn [filter]. destruct (Rlt_dec 1 3); [|lra]. destruct (Rlt_dec 1 5); [|lra]. cbn [length INR]. do 3 f_equal. lra.
Qed.
