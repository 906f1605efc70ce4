(** * The order in which the training instances arrive (C118). *)
From Coq Require Import String.
From Coq Require Import List ZArith Lia Bool Reals Lra Arith Permutation Sorted.
From Verif Require Import Base Num Spec Model_Stats Model_Utils Model_Core Model_Post Model_Trans Model_Simple Model_Sketch Model_HST Model_XStream Model_Eval Model_Metrics P_Lists P_Stats P_Utils P_Core P_Post P_Trans P_Models P_Eval P_Metrics Prop_Utils Prop_Simple Prop_HST Prop_Trans Prop_XStream Prop_Post Prop_Metrics Prop_Features.
Import ListNotations.
Local Notation length := List.length.

(** ** Specification *)
(** The same stream up to the order inside each stretch of W instances (the first W, the next W, ...; the last may be incomplete). *)
Definition shuffled_in_windows {X} (W : nat) (xs xs' : list X) : Prop :=
  length xs = length xs' /\ forall k, Permutation (block W k xs) (block W k xs').

Lemma in_some_block : forall X W, (1 <= W)%nat -> forall (xs : list X) x, In x xs <-> exists k, In x (block W k xs).
Proof.
  intros X W HW xs x. split.
  - intros H. apply In_nth with (d := x) in H. destruct H as (i & Hi & <-). exists (i / W)%nat. unfold block. pose proof (Nat.div_mod i W ltac:(lia)) as E. pose proof (Nat.mod_upper_bound i W ltac:(lia)) as B.
    rewrite <- (firstn_skipn (i / W * W) xs) at 1. rewrite app_nth2 by (rewrite firstn_length; nia). rewrite firstn_length, Nat.min_l by nia.
    rewrite <- (firstn_skipn W (skipn (i / W * W) xs)) at 1. rewrite app_nth1 by (rewrite firstn_length, skipn_length; nia). apply nth_In. rewrite firstn_length, skipn_length. nia.
  - intros [k H]. unfold block in H. rewrite <- (firstn_skipn (k * W) xs). apply in_or_app. right. rewrite <- (firstn_skipn W (skipn (k * W) xs)). apply in_or_app. auto.
Qed.

(** ** HalfSpaceTrees: the very object is the same. *)
Lemma current_is_block : forall X W (xs : list X), (1 <= W)%nat -> lastn (length xs mod W) xs = block W (length xs / W) xs.
Proof.
  intros X W xs HW. unfold lastn, block. pose proof (Nat.div_mod (length xs) W ltac:(lia)) as E. pose proof (Nat.mod_upper_bound (length xs) W ltac:(lia)).
  rewrite firstn_all2 by (rewrite skipn_length; nia). f_equal. nia.
Qed.
Lemma reference_is_block : forall X W (xs : list X), (1 <= W)%nat -> (if (length xs <? W)%nat then xs else block W (length xs / W - 1) xs) = block W (length xs / W - 1) xs.
Proof.
  intros X W xs HW. destruct (Nat.ltb_spec (length xs) W); auto. rewrite Nat.div_small by auto. unfold block. cbn [Nat.sub Nat.mul skipn]. rewrite firstn_all2; auto. lia.
Qed.
Lemma counted_unique : forall A (NA : Num A) (t t' : hst A) cur ref cur' ref', skeleton t = skeleton t' -> counted t cur ref -> counted t' cur' ref' ->
  Permutation cur cur' -> Permutation ref ref' -> t = t'.
Proof.
  intros A NA t. induction t as [|L IHL R IHR r l q p k]; intros [|L' R' r' l' q' p' k'] cur ref cur' ref' E C C' P1 P2; cbn [skeleton] in E; try discriminate; auto.
  injection E as E1 E2 -> -> ->. cbn [counted] in C, C'. destruct C as (-> & -> & CL & CR), C' as (-> & -> & CL' & CR'). rewrite (Permutation_length P1), (Permutation_length P2). f_equal.
  - eapply IHL; eauto; apply filter_perm; auto.
  - eapply IHR; eauto; apply filter_perm; auto.
Qed.
Theorem C118_half_space_trees : forall A Y (NA : Num A) cast draw mins maxes W T D (h h' : list (mcall (list A) Y)), let dim := length maxes in
  length mins = dim -> (1 <= dim)%nat -> (forall i, (draw i < dim)%nat) -> (1 <= W)%nat -> (1 <= T)%nat ->
  Forall (fun x => (dim <= length x)%nat) (fitted_instances h) -> shuffled_in_windows W (fitted_instances h) (fitted_instances h') ->
  exists s0, HST_init (Y := Y) cast draw mins maxes W T D IWNone = Ok s0 /\ model_run (HalfSpaceTrees W D) s0 h = model_run (HalfSpaceTrees W D) s0 h'.
Proof.
  intros A Y NA cast draw mins maxes W T D h h' dim HL Hdim Hq HW HT F [LEN SH]. destruct (build_all A NA W D dim HW cast draw mins maxes (seq 0 T) 0 HL eq_refl Hq (or_introl Hdim)) as (ts & E & L & FC).
  unfold HST_init. rewrite E. cbn [rbind iw_truth]. eexists. split; [reflexivity|].
  assert (I0 : hs_inv A NA W D dim ts [] (mkHST ts true 0)).
  { intros _. cbn [hs_roots hs_step hs_first length]. split; [|split; [reflexivity|right; symmetry; apply Nat.ltb_lt; lia]].
    unfold tree_ok, current_window, reference_window. cbn [length]. destruct (Nat.ltb_spec 0 W); [|lia]. rewrite lastn_nil. clear - FC. induction FC as [|t ts [C S] FC IH]; constructor; auto. split; [auto|]. split; [auto|]. eapply counted_zero; eauto. }
  assert (F' : Forall (fun x => (dim <= length x)%nat) (fitted_instances h')).
  { apply Forall_forall. intros x Hx. rewrite Forall_forall in F. apply F. apply (in_some_block _ W HW) in Hx. destruct Hx as [k Hk]. apply (in_some_block _ W HW). exists k. apply (Permutation_in _ (Permutation_sym (SH k)) Hk). }
  destruct (hs_run A Y NA W D dim HW ts _ h I0 F) as (R1 & S1 & B1). destruct (hs_run A Y NA W D dim HW ts _ h' I0 F') as (R2 & S2 & B2).
  set (s := model_run _ _ h) in *. set (s' := model_run _ _ h') in *. clearbody s s'. destruct s as [r b n], s' as [r' b' n']. cbn [hs_roots hs_first hs_step] in *.
  assert (ER : r = r').
  { clear - R1 R2 LEN SH HW. revert r' R2. induction R1 as [|t0 t t0s ts (C & S & K) R1 IH]; intros r' R2; inversion R2 as [|? t' ? ts' (C' & S' & K') R2']; subst; auto. f_equal; auto.
    unfold current_window, reference_window in K, K'. rewrite current_is_block, reference_is_block in K, K' by auto. eapply counted_unique; eauto; rewrite LEN; auto. }
  subst r'. subst n n'. rewrite LEN in *. destruct B1 as [-> | ->]; [inversion R1; subst; cbn in L; rewrite seq_length in L; lia|]. destruct B2 as [-> | ->]; [inversion R2; subst; cbn in L; rewrite seq_length in L; lia|]. reflexivity.
Qed.
Print Assumptions C118_half_space_trees.

(** ** xStream *)
Lemma is_max_perm : forall m l l', Permutation l l' -> is_max m l -> is_max m l'.
Proof. intros m l l' P [I U]. split; [eapply Permutation_in; eauto|]. intros x Hx. apply U. eapply Permutation_in; [apply Permutation_sym; eauto|auto]. Qed.
Lemma is_min_perm : forall m l l', Permutation l l' -> is_min m l -> is_min m l'.
Proof. intros m l l' P [I U]. split; [eapply Permutation_in; eauto|]. intros x Hx. apply U. eapply Permutation_in; [apply Permutation_sym; eauto|auto]. Qed.
Lemma is_min_unique : forall m m' l, is_min m l -> is_min m' l -> m = m'.
Proof. intros m m' l [I U] [I' U']. apply Rle_antisym; auto. Qed.
Lemma half_ranges_unique : forall K w w' d d', Permutation w w' -> half_ranges K w d -> half_ranges K w' d' -> d = d'.
Proof.
  intros K w w' d d' P [L H] [L' H']. apply (nth_ext _ _ 0%R 0%R); [congruence|]. intros j Hj. rewrite L in Hj. destruct (H j Hj) as (mn & mx & M1 & M2 & ->). destruct (H' j Hj) as (mn' & mx' & M1' & M2' & ->).
  assert (mn = mn') as -> by (eapply is_min_unique; [eapply is_min_perm; [|exact M1]; apply Permutation_map, P|auto]).
  assert (mx = mx') as -> by (eapply is_max_unique; [eapply is_max_perm; [|exact M2]; apply Permutation_map, P|auto]). reflexivity.
Qed.
Lemma ranges_unique : forall K W q zs zs' d d', (forall k, Permutation (block W k zs) (block W k zs')) -> ranges_after K W q zs d -> ranges_after K W q zs' d' -> d = d'.
Proof. intros K W [|q] zs zs' d d' P H H'; cbn [ranges_after] in *; [congruence|]. eapply half_ranges_unique; eauto. Qed.
Lemma bin_count_perm : forall floor rand dref d hits ref ref' z, Permutation ref ref' -> bin_count floor rand dref d hits ref z = bin_count floor rand dref d hits ref' z.
Proof. intros. unfold bin_count. apply Permutation_length, filter_perm. auto. Qed.
Theorem C118_xstream : forall Y mmh3 n density p floor W draws (h h' : list (mcall (list R) Y)) x, (1 <= n)%Z -> Streamhash_init 1 n density = Ok p -> (1 <= W)%nat ->
  let K := Z.to_nat n in chain_draws K draws -> shuffled_in_windows W (fitted_instances h) (fitted_instances h') ->
  eval (md_score (XStream mmh3 p floor K W) x) (model_run (XStream mmh3 p floor K W) (xstream_new K draws) h) =
  eval (md_score (XStream mmh3 p floor K W) x) (model_run (XStream mmh3 p floor K W) (xstream_new K draws) h').
Proof.
  intros Y mmh3 n density p floor W draws h h' x Hn E HW K D [LEN SH].
  destruct (C75_score Y mmh3 n density p floor W draws h x Hn E HW D) as (zs & z & dref & delta & mins & Fz & Pz & R1 & R2 & F & S & _).
  destruct (C75_score Y mmh3 n density p floor W draws h' x Hn E HW D) as (zs' & z' & dref' & delta' & mins' & Fz' & Pz' & R1' & R2' & F' & S' & _).
  destruct (project_total mmh3 n density p Hn E) as (P & _ & _ & HP).
  assert (EZ : forall xs zs, Forall2 (projects mmh3 p) xs zs -> zs = map P xs) by (intros xs us Fu; induction Fu as [|a b l l' Q Fu IH]; cbn; auto; f_equal; auto; eapply projects_unique; eauto).
  apply EZ in Fz, Fz'. assert (z' = z) as -> by (eapply projects_unique; eauto). 
  assert (PB : forall k, Permutation (block W k zs) (block W k zs')).
  { intros k. subst zs zs'. unfold block. rewrite !skipn_map, !firstn_map. apply Permutation_map. apply SH. }
  rewrite <- LEN in *. assert (dref = dref') as -> by (eapply ranges_unique; eauto). assert (delta = delta') as -> by (eapply ranges_unique; eauto).
  assert (LZ : length zs = length (fitted_instances h)) by (subst; apply map_length). assert (LZ' : length zs' = length (fitted_instances h)) by (subst zs'; rewrite map_length; auto).
  assert (EM : mins = mins').
  { set (ref := if (length (fitted_instances h) <? W)%nat then zs else _) in F. set (ref' := if (length (fitted_instances h) <? W)%nat then zs' else _) in F'.
    assert (PR : Permutation ref ref') by (pose proof (reference_is_block _ W zs HW) as B1; pose proof (reference_is_block _ W zs' HW) as B2; rewrite LZ in B1; rewrite LZ' in B2; unfold ref, ref'; rewrite B1, B2; apply PB).
    clearbody ref ref'. clear - F F' PR. revert mins' F'. induction F as [|d m ds ms H F IH]; intros mins' F'; inversion F' as [|? m' ? ms' H' F2]; subst; auto. f_equal; auto.
    eapply is_min_unique; [exact H|]. replace (depth_values floor (fst d) (snd d) dref' delta' ref z) with (depth_values floor (fst d) (snd d) dref' delta' ref' z); auto.
    unfold depth_values. apply map_ext. intros k. rewrite (bin_count_perm _ _ _ _ _ ref ref'); auto. }
  unfold eval, K. rewrite S, S', EM. reflexivity.
Qed.
Print Assumptions C118_xstream.

(** ** ExactStorm: all but the most recent instance, which it leaves out of every comparison *)
Lemma storm_items : forall A Y (NA : Num A) radius w (h : list (mcall (list A) Y)), wd_items (model_run (ExactStorm radius) (Window_init w) h) = lastn (Z.to_nat w) (fitted_instances h).
Proof.
  intros A Y NA radius w h.
  assert (G : (fun l (s : window (list A)) => wd_size s = w /\ wd_items s = lastn (Z.to_nat w) l) (fitted_instances h) (model_run (ExactStorm radius) (Window_init w) h)); [|apply G].
  refine (plain_run_all _ _ _ _ _ _ (fun l s => wd_size s = w /\ wd_items s = lastn (Z.to_nat w) l) _ _ h _ _).
  - intros l s x y [E1 E2]. subst w. destruct (window_update_step _ x s l E2) as (s' & E & ES & EI). unfold exec. rewrite E. split; auto.
  - intros l s x R0. unfold exec, bind, Window_get, gets, lift, ret. destruct (storm_score _ _ _); auto.
  - split; auto.
Qed.
Lemma forallb_perm : forall A (f : A -> bool) l l', Permutation l l' -> forallb f l = forallb f l'.
Proof. intros A f l l' P. induction P; cbn; auto; [rewrite IHP; auto|destruct (f x), (f y); auto|congruence]. Qed.
Theorem C118_exact_storm : forall A Y (NA : Num A) radius w (h h' : list (mcall (list A) Y)) xs xs' z x,
  fitted_instances h = xs ++ [z] -> fitted_instances h' = xs' ++ [z] -> (Z.of_nat (length xs) < w)%Z -> Permutation xs xs' ->
  eval (md_score (ExactStorm radius) x) (model_run (ExactStorm radius) (Window_init w) h) = eval (md_score (ExactStorm radius) x) (model_run (ExactStorm radius) (Window_init w) h').
Proof.
  intros A Y NA radius w h h' xs xs' z x E E' HL P. pose proof (storm_items A Y NA radius w h) as I. pose proof (storm_items A Y NA radius w h') as I'. rewrite E in I. rewrite E' in I'.
  assert (G : forall l : list (list A), (Z.of_nat (length l) < w)%Z -> lastn (Z.to_nat w) (l ++ [z]) = l ++ [z]).
  { intros l Hl. unfold lastn. rewrite app_length. cbn [length]. replace (length l + 1 - Z.to_nat w)%nat with 0%nat by lia. reflexivity. }
  rewrite G in I, I' by (rewrite <- ?(Permutation_length P); auto).
  unfold eval. cbn [md_score ExactStorm plain_model]. unfold bind, Window_get, gets, lift, ret.
  assert (ES : storm_score radius (xs ++ [z]) x = storm_score radius (xs' ++ [z]) x).
  { unfold storm_score. rewrite !removelast_last, (Permutation_length P), (forallb_perm _ _ _ _ P), (Permutation_length (filter_perm _ _ _ _ P)). reflexivity. }
  rewrite I, I', ES. destruct (storm_score radius (xs' ++ [z]) x); reflexivity.
Qed.
Print Assumptions C118_exact_storm.
Theorem C118_exact_storm_all_refuted : forall Y, exists radius w (h h' : list (mcall (list R) Y)) x, (Z.of_nat (length (fitted_instances h)) <= w)%Z /\ Permutation (fitted_instances h) (fitted_instances h') /\
  eval (md_score (ExactStorm radius) x) (model_run (ExactStorm radius) (Window_init w) h) = Ok (VScalar 1%R) /\
  eval (md_score (ExactStorm radius) x) (model_run (ExactStorm radius) (Window_init w) h') = Ok (VScalar 0%R).
Proof.
  intros Y. exists 1%R, 10%Z, [CFit [0%R] None; CFit [5%R] None], [CFit [5%R] None; CFit [0%R] None], [0%R]. split; [cbn; lia|]. split; [apply perm_swap|]. split.
  - rewrite C51_near_fraction by (intros r [<-|[<-|[]]]; reflexivity). change (removelast _) with [[0%R]]. do 2 f_equal.
    unfold near_fraction, fraction, Rlen. cbn [filter length]. rewrite near1; [cbn; lra|]. rewrite Rminus_0_r, Rabs_R0. lra.
  - rewrite C51_near_fraction by (intros r [<-|[<-|[]]]; reflexivity). change (removelast _) with [[5%R]]. do 2 f_equal.
    unfold near_fraction, fraction, Rlen. cbn [filter length]. rewrite far1; [cbn; lra|]. rewrite Rminus_0_r. rewrite Rabs_pos_eq; lra.
Qed.
Print Assumptions C118_exact_storm_all_refuted.

(** ** The univariate detectors *)
Open Scope R_scope.
Theorem C118_standard_absolute_deviation : forall Y eps ab n m (h h' : list (mcall (list R) Y)) x, 0 < eps -> SAD_statistic n = Ok m -> Permutation (univariate h) (univariate h') ->
  eval (md_score (StandardAbsoluteDeviation eps ab m) x) (model_run (StandardAbsoluteDeviation eps ab m) (SAD_init m) h) =
  eval (md_score (StandardAbsoluteDeviation eps ab m) x) (model_run (StandardAbsoluteDeviation eps ab m) (SAD_init m) h').
Proof.
  intros Y eps ab n m h h' x He Hm P. destruct (univariate h) as [|v vs] eqn:EV.
  - apply Permutation_nil in P. destruct n; cbn in Hm; try discriminate; injection Hm as <-.
    + rewrite (proj2 (C71_no_value_no_score Y eps ab h x EV)), (proj2 (C71_no_value_no_score Y eps ab h' x P)). reflexivity.
    + rewrite (proj1 (C71_no_value_no_score Y eps ab h x EV)), (proj1 (C71_no_value_no_score Y eps ab h' x P)). reflexivity.
  - rewrite <- EV in P. assert (N : univariate h <> []) by (rewrite EV; discriminate). clear EV.
    assert (N' : univariate h' <> []) by (intros Q; rewrite Q in P; apply Permutation_sym, Permutation_nil in P; auto).
    assert (ES : std (univariate h) = std (univariate h')) by (unfold std; rewrite (variance_perm _ _ P); auto).
    assert (HC : exists c, center n (univariate h) c /\ center n (univariate h') c).
    { destruct n; cbn in Hm; try discriminate.
      - exists (median_fn (univariate h)). split; constructor; [apply median_fn_spec; auto|]. rewrite (median_perm _ _ P). apply median_fn_spec; auto.
      - exists (mean (univariate h)). split; [constructor; auto|]. rewrite (mean_perm _ _ P). constructor; auto. }
    destruct HC as (c & C1 & C2). rewrite (C71_score Y eps ab n m h x c He Hm C1), (C71_score Y eps ab n m h' x c He Hm C2), ES. reflexivity.
Qed.
Print Assumptions C118_standard_absolute_deviation.
Theorem C118_median_absolute_deviation_refuted : forall Y eps b ab x, 0 < eps -> 0 < b -> x <> 4 ->
  let score vs := eval (md_score (MedianAbsoluteDeviation eps b ab) [x]) (model_run (MedianAbsoluteDeviation eps b ab) MAD_init (map (fun v => CFit (Y := Y) [v] None) vs)) in
  exists v v', score [0; 4; 10] = Ok (VArray [FinV v]) /\ score [10; 4; 0] = Ok (VArray [FinV v']) /\ v <> v' /\ Rabs v' < Rabs v.
Proof.
  intros Y eps b ab x He Hb Hx score.
  assert (M1 : forall a, is_median a [a]). { intros a. exists [a]. split; [reflexivity|]. split; [repeat constructor|]. split; [discriminate|]. reflexivity. }
  assert (M2 : forall a c l, a <= c -> Permutation [a; c] l -> is_median ((a + c) / 2) l).
  { intros a c l H P. exists [a; c]. split; auto. split; [apply Sorted_cons; [apply Sorted_cons; [apply Sorted_nil|apply HdRel_nil]|apply HdRel_cons; auto]|]. split; [intros ->; apply Permutation_sym, Permutation_nil in P; discriminate|]. rewrite <- (Permutation_length P). reflexivity. }
  assert (M3 : forall a c d l, a <= c <= d -> Permutation [a; c; d] l -> is_median c l).
  { intros a c d l H P. exists [a; c; d]. split; auto. split; [apply Sorted_cons; [apply Sorted_cons; [apply Sorted_cons; [apply Sorted_nil|apply HdRel_nil]|apply HdRel_cons; lra]|apply HdRel_cons; lra]|]. split; [intros ->; apply Permutation_sym, Permutation_nil in P; discriminate|]. rewrite <- (Permutation_length P). reflexivity. }
  assert (A : forall u v, 0 <= u - v -> Rabs (u - v) = u - v) by (intros; apply Rabs_pos_eq; auto). assert (B : forall u v, u - v <= 0 -> Rabs (u - v) = v - u) by (intros; rewrite Rabs_left1; lra).
  assert (S1 : score [0; 4; 10] = Ok (VArray [FinV (maybe_abs ab ((x - 4) / (b * 2 + eps)))])).
  { unfold score. rewrite (C70_score Y eps b ab _ [x] 4 [0; 2; 6] 2); auto; try lra; cbn [map univariate fitted_calls flat_map call_fit app fst].
    - apply (M3 0 4 10); [lra|auto].
    - unfold running_devs. cbn [prefixes map]. constructor; [exists 0; cbn; split; [apply M1|rewrite A; lra]|]. constructor; [exists ((0 + 4) / 2); split; [apply M2; [lra|auto]|cbn; rewrite A; lra]|].
      constructor; [|constructor]. exists 4. split; [apply (M3 0 4 10); [lra|auto]|cbn; rewrite A; lra].
    - apply (M3 0 2 6); [lra|auto]. }
  assert (S2 : score [10; 4; 0] = Ok (VArray [FinV (maybe_abs ab ((x - 4) / (b * 3 + eps)))])).
  { unfold score. rewrite (C70_score Y eps b ab _ [x] 4 [0; 3; 4] 3); auto; try lra; cbn [map univariate fitted_calls flat_map call_fit app fst].
    - apply (M3 0 4 10); [lra|]. apply (Permutation_rev [0; 4; 10]).
    - unfold running_devs. cbn [prefixes map]. constructor; [exists 10; cbn; split; [apply M1|rewrite A; lra]|]. constructor; [exists ((4 + 10) / 2); split; [apply M2; [lra|apply perm_swap]|cbn; rewrite B; lra]|].
      constructor; [|constructor]. exists 4. split; [apply (M3 0 4 10); [lra|apply (Permutation_rev [0; 4; 10])]|cbn; rewrite B; lra].
    - apply (M3 0 3 4); [lra|auto]. }
  eexists _, _. split; [exact S1|]. split; [exact S2|].
  assert (LT : Rabs ((x - 4) / (b * 3 + eps)) < Rabs ((x - 4) / (b * 2 + eps))).
  { unfold Rdiv. rewrite !Rabs_mult. apply Rmult_lt_compat_l; [apply Rabs_pos_lt; lra|]. rewrite !Rabs_inv, !Rabs_pos_eq by nra. apply Rinv_lt_contravar; nra. }
  assert (AB : Rabs (maybe_abs ab ((x - 4) / (b * 3 + eps))) < Rabs (maybe_abs ab ((x - 4) / (b * 2 + eps)))) by (destruct ab; cbn [maybe_abs]; rewrite ?Rabs_Rabsolu; auto).
  split; auto. intros Q. rewrite Q in AB. lra.
Qed.
Print Assumptions C118_median_absolute_deviation_refuted.

(** ** Calibration and evaluation *)
Theorem C118_conformal : forall windowed w h h' s, Permutation (conf_window windowed w (fitted h)) (conf_window windowed w (fitted h')) ->
  eval (pp_transform ConformalProbabilityCalibrator s) (post_run ConformalProbabilityCalibrator (Conformal_init windowed w) h) =
  eval (pp_transform ConformalProbabilityCalibrator s) (post_run ConformalProbabilityCalibrator (Conformal_init windowed w) h').
Proof.
  intros windowed w h h' s P. rewrite (C36_conformal_fraction_above windowed w h s), (C36_conformal_fraction_above windowed w h' s). do 2 f_equal.
  destruct (conf_window windowed w (fitted h)) as [|a l]; [apply Permutation_nil in P; rewrite P; reflexivity|]. destruct (conf_window windowed w (fitted h')) as [|a' l']; [apply Permutation_sym, Permutation_nil in P; discriminate|].
  f_equal. unfold fraction, Rlen. rewrite (Permutation_length P), (Permutation_length (filter_perm _ _ _ _ P)). reflexivity.
Qed.
Print Assumptions C118_conformal.
Lemma share_perm : forall A (f : A -> bool) l l', Permutation l l' -> share f l = share f l'.
Proof.
  intros A f l l' P. unfold share. destruct l as [|a l]; [apply Permutation_nil in P; subst; auto|]. destruct l' as [|a' l']; [apply Permutation_sym, Permutation_nil in P; discriminate|].
  unfold fraction, Rlen. rewrite (Permutation_length P), (Permutation_length (filter_perm _ _ _ _ P)). reflexivity.
Qed.
Theorem C118_metrics : (forall h h' : list (bool * R), Permutation h h' -> AUROC h = AUROC h' /\ AUPR h = AUPR h') /\
  (forall h h' : list (bool * bool), Permutation h h' -> Precision (decided h) = Precision (decided h') /\ Recall (decided h) = Recall (decided h')).
Proof.
  split.
  - intros h h' P. pose proof (positives_perm _ _ P) as PP. pose proof (negatives_perm _ _ P) as PN. split.
    + destruct (positives h) as [|a A] eqn:E1; [apply Permutation_nil in PP; rewrite !C102_auroc_undefined; auto|]. destruct (negatives h) as [|b B] eqn:E2; [apply Permutation_nil in PN; rewrite !C102_auroc_undefined; auto|].
      rewrite <- E1 in PP. rewrite <- E2 in PN. assert (N1 : positives h <> []) by (rewrite E1; discriminate). assert (N2 : negatives h <> []) by (rewrite E2; discriminate). clear E1 E2.
      rewrite !C102_auroc; auto; try (intros Q; rewrite Q in *; match goal with H : Permutation _ [] |- _ => apply Permutation_sym, Permutation_nil in H; contradiction end).
      f_equal. unfold pair_wins, Rlen. rewrite (Permutation_length PP), (Permutation_length PN), (Rsum_map_perm _ _ _ _ PN). f_equal. f_equal. apply map_ext. intros s. apply Rsum_map_perm. auto.
    + destruct h as [|q h]; [apply Permutation_nil in P; subst; auto|]. destruct h' as [|q' h']; [apply Permutation_sym, Permutation_nil in P; discriminate|]. set (H := q :: h) in *. set (H' := q' :: h') in *.
      assert (NH : H <> []) by discriminate. assert (NH' : H' <> []) by discriminate. clearbody H H'.
      destruct (positives H) as [|a A] eqn:E1; [apply Permutation_nil in PP; rewrite !C102_aupr_without_positives; auto|]. rewrite <- E1 in PP. assert (N1 : positives H <> []) by (rewrite E1; discriminate). clear E1.
      rewrite !C102_aupr; auto; [|intros Q; rewrite Q in PP; apply Permutation_sym, Permutation_nil in PP; contradiction]. f_equal. rewrite (map_ext _ (precision_at H')) by (intros t; apply precision_perm; auto). apply mean_perm, Permutation_map, PP.
  - intros h h' P. rewrite !C102_precision, !C102_recall. split; f_equal; apply share_perm, filter_perm, P.
Qed.
Print Assumptions C118_metrics.

(** Concrete cases. *)
Example C118_ex_windows : shuffled_in_windows 2 [1; 2; 3; 4; 5]%nat [2; 1; 4; 3; 5]%nat /\ ~ shuffled_in_windows 2 [1; 2; 3]%nat [1; 3; 2]%nat.
Proof.
  split.
  - split; [reflexivity|]. intros [|[|[|k]]]; unfold block; cbn [Nat.mul Nat.add skipn firstn]; auto using perm_swap.
  - intros [_ H]. specialize (H 0%nat). unfold block in H. cbn in H. apply (Permutation_in 2%nat) in H; [|right; left; auto]. destruct H as [H|[H|[]]]; discriminate.
Qed.
Example C118_ex_trees : exists s0, HST_init (Y := unit) (fun a : R => a) (fun i => (i mod 2)%nat) [0; 0] [1; 1] 2 3 4 IWNone = Ok s0 /\
  model_run (HalfSpaceTrees (Y := unit) 2 4) s0 [CFit [1/8; 1/8] None; CFit [7/8; 1/8] None; CFit [1/8; 7/8] None] =
  model_run (HalfSpaceTrees (Y := unit) 2 4) s0 [CFit [7/8; 1/8] None; CFit [1/8; 1/8] None; CFit [1/8; 7/8] None].
Proof.
  apply C118_half_space_trees; cbn [length]; auto; try lia.
  - intros i. apply Nat.mod_upper_bound. lia.
  - cbn. repeat constructor.
  - split; [reflexivity|]. intros [|[|k]]; unfold block; cbn [Nat.mul Nat.add skipn firstn fitted_instances fitted_calls flat_map call_fit map app fst]; auto using perm_swap.
Qed.
