(** * Properties of projection and preprocessing (C42-C48, C13 for the shipped transformers). *)
From Coq Require Import String.
From Coq Require Import List ZArith Lia Bool Reals Lra Permutation Arith.
From Verif Require Import Base Num Spec Model_Stats Model_Utils Model_Core Model_Post Model_Trans P_Lists P_Stats P_Utils P_Core P_Post P_Trans.
Import ListNotations.
Open Scope R_scope.

(** Vocabulary (P_Trans): a history is a list of fit_partial / transform_partial / fit_transform_partial calls whose
    results and exceptions the client ignores; [trans_run t s0 h] is the object after it; [components] lists the
    entries of a returned vector (a 0-d array has one). *)

(** ** C42 *)
Notation SH mmh3 p := (StreamhashProjector 2 1 mmh3 p).
(** The coefficient of feature [i] in component [k]. *)
Definition sh_weight (mmh3 : string -> nat -> Z) (density c : R) (k i : nat) : R :=
  let u := IZR (mmh3 (py_str i) k) / IZR (2 ^ 32 - 1) in
  if Rle_dec u (density / 2) then - c else if Rle_dec u density then c else 0.
Definition weighted (W : nat -> nat -> R) (k : nat) (x : list R) : R :=
  Rsum (map (fun i => nth i x 0 * W k i) (seq 0 (length x))).
Lemma streamhash_value : forall mmh3 n density p x, (1 <= n)%Z ->
  Streamhash_init 1 n density = Ok p ->
  streamhash_transform 2 1 mmh3 p x =
  Ok (squeeze (map (fun k => weighted (sh_weight mmh3 density (sqrt (1 / density) / sqrt (IZR n))) k x) (seq 0 (Z.to_nat n)))).
Proof.
  intros mmh3 n density p x Hn E. unfold Streamhash_init, pydiv in E.
  destruct (oeqb density n0); [discriminate|]. injection E as <-.
  unfold streamhash_transform. cbn [sh_keys].
  destruct (Z.to_nat n) as [|m] eqn:Em; [lia|].
  set (p0 := {| sh_keys := seq 0 (S m); sh_constant := _; sh_density := density; sh_ncomp := n |}).
  change (seq 0 (S m)) with (0%nat :: seq 1 m). cbn [map].
  f_equal. f_equal. cbn [map]. 
  assert (G : forall k, dot x (map (hash_string 2 1 mmh3 p0 k) (map py_str (seq 0 (length x)))) =
     weighted (sh_weight mmh3 density (sqrt (1 / density) / sqrt (IZR n))) k x).
  { intros k. rewrite dot_sum by (rewrite !map_length, seq_length; auto). unfold weighted. f_equal. apply map_ext_in.
    intros i Hi. apply in_seq in Hi. f_equal. rewrite map_map.
    rewrite (nth_indep _ 0 (hash_string 2 1 mmh3 p0 k (py_str 0))) by (rewrite map_length, seq_length; lia).
    rewrite (map_nth (fun i => hash_string 2 1 mmh3 p0 k (py_str i)) (seq 0 (length x)) 0%nat i).
    rewrite seq_nth by lia. unfold hash_string, sh_weight. cbn [oleb num_ord NumR OrdR ndiv nofZ nmul nneg n0 p0 sh_density sh_constant].
    unfold Rleb. simpl plus.
    destruct (Rle_dec _ (density / 2)); [unfold p0; cbn; ring|]. destruct (Rle_dec _ density); reflexivity. }
  rewrite G. f_equal. rewrite map_map. apply map_ext. exact G.
Qed.
(** One fixed linear map with coefficients -c, 0, c, whatever calls were made before. *)
Theorem C42_streamhash_fixed_linear_map : forall mmh3 n density, (1 <= n)%Z -> 0 < density ->
  exists p W c, Streamhash_init 1 n density = Ok p /\ c = sqrt (1 / density) / sqrt (IZR n) /\ 0 < c /\
    (forall k i, W k i = - c \/ W k i = 0 \/ W k i = c) /\
    (forall k i j, mmh3 (py_str i) k = mmh3 (py_str j) k -> W k i = W k j) /\
    forall h x, eval (tr_transform (SH mmh3 p) (AInst x)) (trans_run (SH mmh3 p) tt h) =
      Ok (squeeze (map (fun k => weighted W k x) (seq 0 (Z.to_nat n)))).
Proof.
  intros mmh3 n density Hn Hd.
  assert (E : exists p, Streamhash_init 1 n density = Ok p).
  { unfold Streamhash_init, pydiv. cbn [oeqb num_ord NumR OrdR n0]. destruct (Reqb density 0) eqn:Q; [apply Reqb_eq in Q; lra|].
    eexists. reflexivity. }
  destruct E as [p E]. exists p, (sh_weight mmh3 density (sqrt (1 / density) / sqrt (IZR n))), (sqrt (1 / density) / sqrt (IZR n)).
  split; auto. split; auto. split; [|split; [|split]].
  - apply Rdiv_lt_0_compat; apply sqrt_lt_R0; [apply Rdiv_lt_0_compat; lra|apply IZR_lt; lia].
  - intros k i. unfold sh_weight. destruct (Rle_dec _ _); auto. destruct (Rle_dec _ _); auto.
  - intros k i j H. unfold sh_weight. rewrite H. reflexivity.
  - intros h x. unfold eval. cbn [tr_transform StreamhashProjector on_instance lift fst].
    unfold lift. cbn [fst]. apply streamhash_value; auto.
Qed.
Print Assumptions C42_streamhash_fixed_linear_map.
Definition projects (mmh3 : string -> nat -> Z) (p : shproj R) (x : list R) (y : list R) : Prop :=
  exists v, eval (tr_transform (SH mmh3 p) (AInst x)) tt = Ok v /\ components v = y.
Lemma projects_unique : forall mmh3 p x y y', projects mmh3 p x y -> projects mmh3 p x y' -> y = y'.
Proof. intros mmh3 p x y y' (v & E & <-) (v' & E' & <-). rewrite E in E'. injection E' as <-. reflexivity. Qed.
Lemma projects_value : forall mmh3 n density p x, (1 <= n)%Z -> Streamhash_init 1 n density = Ok p ->
  projects mmh3 p x (map (fun k => weighted (sh_weight mmh3 density (sqrt (1 / density) / sqrt (IZR n))) k x) (seq 0 (Z.to_nat n))).
Proof.
  intros. eexists. split; [|apply components_squeeze]. unfold eval. cbn [tr_transform StreamhashProjector on_instance]. unfold lift. cbn [fst].
  apply streamhash_value; auto.
Qed.
Theorem C42_num_components : forall mmh3 n density p x y, (1 <= n)%Z -> Streamhash_init 1 n density = Ok p ->
  projects mmh3 p x y -> Z.of_nat (length y) = n.
Proof.
  intros mmh3 n density p x y Hn E P. rewrite (projects_unique _ _ _ _ _ P (projects_value mmh3 n density p x Hn E)).
  rewrite map_length, seq_length. lia.
Qed.
Print Assumptions C42_num_components.
Theorem C42_linear : forall mmh3 n density p x y u v (a b : R), (1 <= n)%Z -> Streamhash_init 1 n density = Ok p ->
  length x = length y -> projects mmh3 p x u -> projects mmh3 p y v ->
  projects mmh3 p (map (fun i => a * nth i x 0 + b * nth i y 0) (seq 0 (length x)))
                  (map (fun k => a * nth k u 0 + b * nth k v 0) (seq 0 (length u))).
Proof.
  intros mmh3 n density p x y u v a b Hn E L Pu Pv.
  rewrite (projects_unique _ _ _ _ _ Pu (projects_value mmh3 n density p x Hn E)).
  rewrite (projects_unique _ _ _ _ _ Pv (projects_value mmh3 n density p y Hn E)).
  set (W := sh_weight mmh3 density (sqrt (1 / density) / sqrt (IZR n))).
  match goal with |- projects _ _ ?x0 _ => pose proof (projects_value mmh3 n density p x0 Hn E) as P end. fold W in P.
  rewrite map_length, seq_length.
  match goal with |- projects _ _ _ ?l => match type of P with projects _ _ _ ?r => replace l with r; [exact P|] end end.
  apply map_ext_in. intros k Hk. apply in_seq in Hk.
  assert (N : forall z, nth k (map (fun k0 => weighted W k0 z) (seq 0 (Z.to_nat n))) 0 = weighted W k z).
  { intros z. rewrite (nth_indep _ 0 (weighted W 0 z)) by (rewrite map_length, seq_length; lia).
    rewrite (map_nth (fun k0 => weighted W k0 z) (seq 0 (Z.to_nat n)) 0%nat k), seq_nth by lia. reflexivity. }
  rewrite !N. unfold weighted. rewrite map_length, seq_length, <- L.
  rewrite <- (Rsum_map_scal _ a), <- (Rsum_map_scal _ b), <- Rsum_map_plus. f_equal. apply map_ext_in. intros i Hi. apply in_seq in Hi.
  rewrite (nth_indep _ 0 (a * nth 0 x 0 + b * nth 0 y 0)) by (rewrite map_length, seq_length; lia).
  rewrite (map_nth (fun i => a * nth i x 0 + b * nth i y 0) (seq 0 (length x)) 0%nat i), seq_nth by lia. simpl. ring.
Qed.
Print Assumptions C42_linear.
(** New features that are zero do not change the projection. *)
Theorem C42_zero_features_are_invisible : forall mmh3 n density p x y m, (1 <= n)%Z -> Streamhash_init 1 n density = Ok p ->
  projects mmh3 p x y -> projects mmh3 p (x ++ repeat 0 m) y.
Proof.
  intros mmh3 n density p x y m Hn E P. rewrite (projects_unique _ _ _ _ _ P (projects_value mmh3 n density p x Hn E)).
  pose proof (projects_value mmh3 n density p (x ++ repeat 0 m) Hn E) as Q.
  match goal with |- projects _ _ _ ?l => match type of Q with projects _ _ _ ?r => replace l with r; [exact Q|] end end.
  apply map_ext. intros k. unfold weighted. rewrite app_length, repeat_length, seq_app, map_app, Rsum_app.
  set (W := sh_weight mmh3 density (sqrt (1 / density) / sqrt (IZR n))).
  rewrite (Rsum_map_zero _ (fun i => nth i (x ++ repeat 0 m) 0 * W k i) (seq (0 + length x) m)).
  - rewrite Rplus_0_r. f_equal. apply map_ext_in. intros i Hi. apply in_seq in Hi. rewrite app_nth1 by lia. reflexivity.
  - intros i Hi. apply in_seq in Hi. rewrite app_nth2 by lia.
    assert (Z : forall q j, nth j (repeat 0 q) 0 = 0) by (induction q; intros [|j]; simpl; auto). rewrite Z. ring.
Qed.
Print Assumptions C42_zero_features_are_invisible.
Theorem C42_feature_names_distinct : forall i j, py_str i = py_str j -> i = j.
Proof. exact py_str_inj. Qed.
Print Assumptions C42_feature_names_distinct.
(** No stretch by more than c times the 1-norm. *)
Theorem C42_bounded : forall mmh3 n density p x y v, (1 <= n)%Z -> 0 < density -> Streamhash_init 1 n density = Ok p ->
  projects mmh3 p x y -> In v y -> Rabs v <= sqrt (1 / density) / sqrt (IZR n) * Rsum (map Rabs x).
Proof.
  intros mmh3 n density p x y v Hn Hd E P Hv. rewrite (projects_unique _ _ _ _ _ P (projects_value mmh3 n density p x Hn E)) in Hv.
  apply in_map_iff in Hv. destruct Hv as (k & <- & _). unfold weighted.
  set (c := sqrt (1 / density) / sqrt (IZR n)).
  assert (Hc : 0 <= c) by (apply Rlt_le, Rdiv_lt_0_compat; apply sqrt_lt_R0; [apply Rdiv_lt_0_compat; lra|apply IZR_lt; lia]).
  set (W := sh_weight mmh3 density c).
  assert (HW : forall i, Rabs (W k i) <= c).
  { intros i. unfold W, sh_weight. destruct (Rle_dec _ _); [rewrite Rabs_Ropp, Rabs_pos_eq; lra|].
    destruct (Rle_dec _ _); [rewrite Rabs_pos_eq; lra|rewrite Rabs_R0; lra]. }
  replace (map Rabs x) with (map (fun i => Rabs (nth i x 0)) (seq 0 (length x)))
    by (rewrite <- (map_map (fun i => nth i x 0) Rabs), <- (list_as_map x (length x) eq_refl); reflexivity).
  rewrite <- Rsum_map_scal.
  generalize (seq 0 (length x)). intros l. induction l as [|i l IH]; [simpl; rewrite Rabs_R0; lra|].
  cbn [map]. match goal with |- Rabs (Rsum (?a :: ?b)) <= Rsum (?c0 :: ?d) => change (Rabs (a + Rsum b) <= c0 + Rsum d) end.
  eapply Rle_trans; [apply Rabs_triang|]. apply Rplus_le_compat; auto.
  rewrite Rabs_mult, Rmult_comm. apply Rmult_le_compat_r; [apply Rabs_pos|apply HW].
Qed.
Print Assumptions C42_bounded.
Theorem C42_zero_density_rejected : forall n, Streamhash_init 1 n 0 = Raise ZeroDivisionError.
Proof. intros. unfold Streamhash_init, pydiv. cbn [oeqb num_ord NumR OrdR n0]. destruct (Reqb 0 0) eqn:Q; auto. apply Reqb_neq in Q. lra. Qed.
Print Assumptions C42_zero_density_rejected.
(** A concrete projector: hash 0 for feature 0, maximal hash for the others, one component, density 1. *)
Example C42_ex : exists p, Streamhash_init 1 1 1 = Ok p /\
  projects (fun s _ => if string_dec s "0" then 0%Z else (2 ^ 32 - 1)%Z) p [5; 7] [2] /\
  projects (fun s _ => if string_dec s "0" then 0%Z else (2 ^ 32 - 1)%Z) p [5; 7; 0; 0] [2].
Proof.
  set (mm := fun s (_ : nat) => if string_dec s "0" then 0%Z else (2 ^ 32 - 1)%Z).
  assert (I : exists p, Streamhash_init 1 1 1 = Ok p).
  { unfold Streamhash_init, pydiv. cbn [oeqb num_ord NumR OrdR n0]. destruct (Reqb 1 0) eqn:Q; [apply Reqb_eq in Q; lra|]. eexists; reflexivity. }
  destruct I as [p E]. exists p. split; auto.
  assert (P : projects mm p [5; 7] [2]).
  { pose proof (projects_value mm 1 1 p [5; 7] ltac:(lia) E) as P.
    match type of P with projects _ _ _ ?r => replace [2] with r; [exact P|] end.
    change (Z.to_nat 1) with 1%nat. cbn [seq map length]. f_equal. unfold weighted, sh_weight, mm.
    cbn [seq map length nth].
    destruct (string_dec (py_str 0) "0") as [_|n0]; [|exfalso; apply n0; reflexivity].
    destruct (string_dec (py_str 1) "0") as [e|_]; [discriminate e|].
    replace (1 / 1) with 1 by field. rewrite sqrt_1.
    destruct (Rle_dec (0 / IZR (2 ^ 32 - 1)) (1 / 2)) as [_|n0]; [|exfalso; apply n0; unfold Rdiv; rewrite Rmult_0_l; lra].
    replace (IZR (2 ^ 32 - 1) / IZR (2 ^ 32 - 1)) with 1 by (field; apply not_0_IZR; lia).
    destruct (Rle_dec 1 (1 / 2)); [lra|]. destruct (Rle_dec 1 1); [|lra]. simpl. lra. }
  split; auto. change [5; 7; 0; 0] with ([5; 7] ++ repeat 0 2). eapply C42_zero_features_are_invisible; eauto. lia.
Qed.

(** ** C43 *)
(** The transform calls made so far on instances (each draws a matrix). *)
Definition draws_made {X} (h : list (top X)) : nat :=
  length (filter (fun o => match o with TTransform (AInst _) => true | TFitTransform (AInst _) => true | _ => false end) h).
Lemma random_run : forall (draw : nat -> nat -> nat -> list (list R)) n h s, (1 <= n)%Z ->
  trans_run (RandomProjector draw (DInt n)) s h = (s + draws_made h)%nat.
Proof.
  intros draw n h s Hn. unfold trans_run. revert s. induction h as [|o h IH]; intros s; cbn [fold_left].
  - unfold draws_made. simpl. lia.
  - rewrite IH. assert (Q : (n <=? 0)%Z = false) by (apply Z.leb_gt; lia).
    destruct o as [[x|x]|[x|x]|[x|x]]; unfold draws_made; cbn [filter length]; unfold exec;
      cbn -[Z.leb Nat.add]; unfold random_transform, default_fit_transform, on_instance, bind, gets, modify, ret, raise; cbn -[Z.leb Nat.add];
      try rewrite Q; cbn -[Nat.add]; lia.
Qed.
Theorem C43_fresh_matrix_at_every_call : forall (draw : nat -> nat -> nat -> list (list R)) n h x, (1 <= n)%Z ->
  eval (tr_transform (RandomProjector draw (DInt n)) (AInst x)) (trans_run (RandomProjector draw (DInt n)) O h) =
  Ok (VArray (map (dot x) (draw (draws_made h) (Z.to_nat n) (length x)))).
Proof.
  intros draw n h x Hn. rewrite random_run by auto. unfold eval. cbn. unfold random_transform, bind, gets, modify, ret, raise.
  destruct (n <=? 0)%Z eqn:Q; [apply Z.leb_le in Q; lia|]. reflexivity.
Qed.
Print Assumptions C43_fresh_matrix_at_every_call.
Theorem C43_same_instance_same_image_refuted : exists (draw : nat -> nat -> nat -> list (list R)) x h1 h2 y1 y2,
  learned h1 = learned h2 /\
  eval (tr_transform (RandomProjector draw (DInt 1)) (AInst x)) (trans_run (RandomProjector draw (DInt 1)) O h1) = Ok (VArray y1) /\
  eval (tr_transform (RandomProjector draw (DInt 1)) (AInst x)) (trans_run (RandomProjector draw (DInt 1)) O h2) = Ok (VArray y2) /\ y1 <> y2.
Proof.
  exists (fun i n d => [[if (i =? 0)%nat then 1 else 0]]), [1], [], [TTransform (AInst [1])].
  do 2 eexists. split; [reflexivity|]. rewrite !C43_fresh_matrix_at_every_call by lia.
  split; [reflexivity|]. split; [reflexivity|]. unfold dot. cbn. intros H. injection H. lra.
Qed.
Print Assumptions C43_same_instance_same_image_refuted.
(** Distances are not preserved either: two equal instances of one batch can be mapped apart. *)
Theorem C43_equal_rows_stay_equal_refuted : exists (draw : nat -> nat -> nat -> list (list R)) x y1 y2 s',
  Trans_transform (RandomProjector draw (DInt 1)) (B2 1 [x; x]) O = (Ok [[FinV y1]; [FinV y2]], s') /\ y1 <> y2.
Proof.
  exists (fun i n d => [[if (i =? 0)%nat then 1 else 0]]), [1]. do 3 eexists. split; [reflexivity|]. unfold dot. cbn. lra.
Qed.
Print Assumptions C43_equal_rows_stay_equal_refuted.
(** The default num_components='auto' never works: a single row has Johnson-Lindenstrauss dimension 0. *)
Theorem C43_auto_always_fails : forall (draw : nat -> nat -> nat -> list (list R)) h x,
  tr_transform (RandomProjector draw DAuto) (AInst x) (trans_run (RandomProjector draw DAuto) O h) =
  (Raise ValueError, trans_run (RandomProjector draw DAuto) O h) /\
  forall b s, fst (Trans_transform (RandomProjector draw DAuto) b s) = Raise TypeError.
Proof. intros. split; reflexivity. Qed.
Print Assumptions C43_auto_always_fails.

(** ** C44 *)
Definition nonconstant (x : list R) : Prop := exists a b, In a x /\ In b x /\ a <> b.
Lemma vec_mean_R : forall x : list R, vec_mean x = mean x.
Proof. intros. unfold vec_mean, mean, Rlen. rewrite nsum_Rsum. cbn [ndiv nofZ NumR]. rewrite INR_Zof_nat. reflexivity. Qed.
Lemma vec_std_R : forall x : list R, vec_std x = std x.
Proof.
  intros. unfold vec_std, std, variance. rewrite vec_mean_R. cbn [nsqrt NumR]. f_equal. f_equal. apply map_ext. intros v.
  rewrite vec_mean_R. unfold nsq. cbn [nmul nabs nsub NumR]. 
  replace ((v - mean x) ^ 2) with ((v - mean x) * (v - mean x)) by ring. rewrite <- Rabs_mult, Rabs_pos_eq; [reflexivity|].
  replace ((v - mean x) * (v - mean x)) with ((v - mean x) ^ 2) by ring. apply pow2_ge_0.
Qed.
Definition scales_to (t : Transformer (list R) (npres R)) (s : tr_state t) (x : list R) (out : list (npres R)) : Prop :=
  tr_transform t (AInst x) s = (Ok (VArray out), s).
Lemma standard_scale_R : forall x, std x <> 0 -> standard_scale x = map FinV (map (fun v => (v - mean x) / std x) x).
Proof.
  intros x H. unfold standard_scale. rewrite map_map. apply map_ext. intros v. rewrite vec_mean_R, vec_std_R.
  unfold npdiv. cbn [oeqb num_ord NumR OrdR n0]. destruct (Reqb (std x) 0) eqn:Q; [apply Reqb_eq in Q; contradiction|]. reflexivity.
Qed.
Lemma nonconstant_nonempty : forall x, nonconstant x -> x <> [].
Proof. intros x (a & b & Ha & _) ->. contradiction. Qed.
Theorem C44_standardises : forall x s, nonconstant x ->
  exists y, scales_to InstanceStandardScaler s x (map FinV y) /\ length y = length x /\ mean y = 0 /\ std y = 1 /\
    forall i, (i < length x)%nat -> nth i y 0 = (nth i x 0 - mean x) / std x.
Proof.
  intros x s NC. pose proof (nonconstant_nonempty x NC) as NE. pose proof (std_pos x NE NC) as P.
  exists (map (fun v => (v - mean x) / std x) x).
  assert (A : map (fun v => (v - mean x) / std x) x = map (fun v => / std x * v + - mean x / std x) x).
  { apply map_ext. intros. field. lra. }
  split; [|split; [|split; [|split]]].
  - unfold scales_to. cbn. rewrite standard_scale_R by lra. reflexivity.
  - apply map_length.
  - rewrite A, mean_affine by auto. field. lra.
  - rewrite A, std_affine by (auto; apply Rinv_0_lt_compat; auto). field. lra.
  - intros i Hi. set (f := fun v => (v - mean x) / std x). change (nth i (map f x) 0 = f (nth i x 0)).
    rewrite (nth_indep _ 0 (f 0)) by (rewrite map_length; auto). apply map_nth.
Qed.
Print Assumptions C44_standardises.
Theorem C44_affine_invariant : forall x s a b out, 0 < a -> x <> [] ->
  scales_to InstanceStandardScaler s x out -> scales_to InstanceStandardScaler s (map (fun v => a * v + b) x) out.
Proof.
  intros x s a b out Ha NE H. unfold scales_to in *. cbn in *. injection H as <-. unfold ret. do 2 f_equal. f_equal.
  unfold standard_scale. rewrite map_map. apply map_ext. intros v. rewrite !vec_mean_R, !vec_std_R, mean_affine, std_affine by auto.
  unfold npdiv. cbn [oeqb num_ord NumR OrdR n0 ndiv nsub].
  destruct (Reqb (a * std x) 0) eqn:Q1, (Reqb (std x) 0) eqn:Q2; auto.
  - apply Reqb_eq in Q1. apply Reqb_neq in Q2. exfalso. apply Q2. apply Rmult_integral in Q1. lra.
  - apply Reqb_eq in Q2. apply Reqb_neq in Q1. rewrite Q2 in Q1. lra.
  - apply Reqb_neq in Q2. f_equal. field. lra.
Qed.
Print Assumptions C44_affine_invariant.
Theorem C44_constant_instance_not_finite : forall x s, (forall a b, In a x -> In b x -> a = b) ->
  scales_to InstanceStandardScaler s x (map (fun _ => NonFin) x).
Proof.
  intros x s H. unfold scales_to. cbn. unfold ret. do 2 f_equal. f_equal. unfold standard_scale. apply map_ext_in. intros v Hv.
  rewrite vec_std_R. assert (E : std x = 0).
  { unfold std. replace (variance x) with 0; [apply sqrt_0|]. symmetry. apply variance_zero_iff; auto. intros ->. contradiction. }
  rewrite E. unfold npdiv. cbn [oeqb num_ord NumR OrdR n0]. destruct (Reqb 0 0) eqn:Q; auto. apply Reqb_neq in Q. lra.
Qed.
Print Assumptions C44_constant_instance_not_finite.
Theorem C44_idempotent : forall x s y, nonconstant x -> scales_to InstanceStandardScaler s x (map FinV y) ->
  scales_to InstanceStandardScaler s y (map FinV y).
Proof.
  intros x s y NC H. destruct (C44_standardises x s NC) as (y' & H' & L & M & S & _).
  unfold scales_to in *. rewrite H' in H. injection H as E.
  assert (y' = y). { clear -E. revert y E. induction y'; intros [|b y]; simpl; intros E; try discriminate; auto. injection E as -> E. f_equal; auto. }
  subst y'. cbn. unfold ret. rewrite standard_scale_R by lra. do 2 f_equal. f_equal. f_equal. rewrite M, S.
  rewrite <- (map_id y) at 2. apply map_ext. intros. field.
Qed.
Print Assumptions C44_idempotent.
Example C44_ex : scales_to InstanceStandardScaler tt [1; 3] [FinV (-1); FinV 1].
Proof.
  destruct (C44_standardises [1; 3] tt) as (y & H & L & _ & _ & N).
  - exists 1, 3. simpl. split; auto. split; auto. lra.
  - assert (M : mean [1; 3] = 2) by (unfold mean, Rlen; simpl; lra).
    assert (S : std [1; 3] = 1).
    { unfold std, variance. rewrite M. unfold mean, Rlen; simpl. replace (((1 - 2) * ((1 - 2) * 1) + ((3 - 2) * ((3 - 2) * 1) + 0)) / (1 + 1)) with 1 by field. apply sqrt_1. }
    assert (N0 := N 0%nat ltac:(simpl; lia)). assert (N1 := N 1%nat ltac:(simpl; lia)). rewrite M, S in *. simpl in N0, N1, L.
    destruct y as [|a [|b [|c y]]]; try discriminate. simpl in *. subst. 
    replace (FinV (-1)) with (FinV ((1 - 2) / 1)) by (f_equal; lra). replace (FinV 1) with (FinV ((3 - 2) / 1)) by (f_equal; lra). exact H.
Qed.

(** ** C45 *)
Notation UnitNorm o := (InstanceUnitNormScaler (A := R) 1 2 Rpower o).
(** |v|^p and the p-norm, for every non-zero real p. *)
Definition absp (p v : R) : R := if Req_EM_T v 0 then 0 else Rpower (Rabs v) p.
Definition p_norm (p : R) (x : list R) : R :=
  if Req_EM_T (Rsum (map (absp p) x)) 0 then 0 else Rpower (Rsum (map (absp p) x)) (1 / p).
Lemma absp_nonneg : forall p v, 0 <= absp p v.
Proof. intros. unfold absp. destruct (Req_EM_T v 0); [lra|]. left. apply Rpower_pos. Qed.
Lemma absp_pos : forall p v, v <> 0 -> 0 < absp p v.
Proof. intros. unfold absp. destruct (Req_EM_T v 0); [contradiction|]. apply Rpower_pos. Qed.
Lemma absp_sum_pos : forall p x v, In v x -> v <> 0 -> 0 < Rsum (map (absp p) x).
Proof.
  intros p x v Hv N. apply Rsum_pos.
  - intros y Hy. apply in_map_iff in Hy. destruct Hy as (u & <- & _). apply absp_nonneg.
  - exists (absp p v). split; [apply in_map; auto|apply absp_pos; auto].
Qed.
Lemma p_norm_pos : forall p x v, In v x -> v <> 0 -> 0 < p_norm p x.
Proof. intros p x v Hv N. pose proof (absp_sum_pos p x v Hv N). unfold p_norm. destruct (Req_EM_T _ 0); [lra|]. apply Rpower_pos. Qed.
Lemma absp_scale : forall a p v, 0 < a -> absp p (a * v) = Rpower a p * absp p v.
Proof.
  intros a p v Ha. unfold absp. destruct (Req_EM_T v 0) as [->|N].
  - rewrite Rmult_0_r. destruct (Req_EM_T 0 0); [ring|lra].
  - destruct (Req_EM_T (a * v) 0) as [E|E]; [apply Rmult_integral in E; lra|].
    rewrite Rabs_mult, (Rabs_pos_eq a) by lra. symmetry. apply Rpower_mult_distr; auto. apply Rabs_pos_lt; auto.
Qed.
Lemma p_norm_scale : forall a p x, 0 < a -> p <> 0 -> p_norm p (map (fun v => a * v) x) = a * p_norm p x.
Proof.
  intros a p x Ha Hp. unfold p_norm. rewrite map_map.
  rewrite (map_ext (fun v => absp p (a * v)) (fun v => Rpower a p * absp p v)) by (intros; apply absp_scale; auto).
  rewrite Rsum_map_scal. pose proof (Rpower_pos a p) as PP.
  destruct (Req_EM_T (Rsum (map (absp p) x)) 0) as [E|E], (Req_EM_T (Rpower a p * Rsum (map (absp p) x)) 0) as [F|F].
  - ring.
  - exfalso. apply F. rewrite E. ring.
  - exfalso. apply E. apply Rmult_integral in F. lra.
  - assert (0 < Rsum (map (absp p) x)).
    { assert (0 <= Rsum (map (absp p) x)); [|lra]. apply Rsum_nonneg. intros y Hy. apply in_map_iff in Hy. destruct Hy as (u & <- & _). apply absp_nonneg. }
    rewrite <- Rpower_mult_distr by auto. rewrite Rpower_mult. replace (p * (1 / p)) with 1 by (field; auto). rewrite Rpower_1 by auto. reflexivity.
Qed.
Lemma sum_filter_nz : forall p x, Rsum (map (fun v => Rpower (Rabs v) p) (filter (fun v => negb (Reqb v 0)) x)) = Rsum (map (absp p) x).
Proof.
  intros p x. induction x as [|v x IH]; auto. cbn [filter map]. change (Rsum (absp p v :: map (absp p) x)) with (absp p v + Rsum (map (absp p) x)).
  unfold absp at 1. unfold Reqb at 1. destruct (Req_EM_T v 0); simpl negb; cbn [map].
  - rewrite IH. ring.
  - match goal with |- Rsum (?a :: ?b) = _ => change (Rsum (a :: b)) with (a + Rsum b) end. rewrite IH. reflexivity.
Qed.
Lemma filter_nz_all : forall x, (forall v, In v x -> v <> 0) -> filter (fun v => negb (Reqb v 0)) x = x.
Proof.
  induction x as [|v x IH]; intros H; auto. cbn [filter]. destruct (Reqb v 0) eqn:Q.
  - apply Reqb_eq in Q. exfalso. apply (H v); simpl; auto.
  - simpl. rewrite IH; auto. intros; apply H; right; auto.
Qed.
Lemma filter_nz_nil : forall x, filter (fun v => negb (Reqb v 0)) x = [] -> forall v, In v x -> v = 0.
Proof.
  intros x H v Hv. destruct (Req_EM_T v 0) as [E|E]; auto. exfalso.
  assert (I : In v (filter (fun v => negb (Reqb v 0)) x)) by (apply filter_In; split; auto; rewrite (proj2 (Reqb_neq v 0) E); auto).
  rewrite H in I. contradiction.
Qed.
Lemma np_norm_R : forall p x, p <> 0 -> (0 < p \/ (forall v, In v x -> v <> 0)) ->
  np_norm 1 2 Rpower (OPow p) x = Ok (p_norm p x).
Proof.
  intros p x Hp HC. unfold np_norm. cbn [oeqb oltb num_ord NumR OrdR n0].
  destruct (Reqb p 0) eqn:E0; [apply Reqb_eq in E0; contradiction|].
  destruct (Reqb p 1) eqn:E1; [|destruct (Reqb p 2) eqn:E2].
  - apply Reqb_eq in E1. subst p. f_equal. rewrite nsum_Rsum. cbn [nabs NumR].
    assert (A : map Rabs x = map (absp 1) x).
    { apply map_ext. intros v. unfold absp. destruct (Req_EM_T v 0) as [->|N]; [apply Rabs_R0|]. rewrite Rpower_1; auto. apply Rabs_pos_lt; auto. }
    rewrite A. unfold p_norm. destruct (Req_EM_T _ 0) as [Q|Q]; auto.
    replace (1 / 1) with 1 by field. rewrite Rpower_1; auto.
    assert (0 <= Rsum (map (absp 1) x)); [|lra]. apply Rsum_nonneg. intros y Hy. apply in_map_iff in Hy. destruct Hy as (u & <- & _). apply absp_nonneg.
  - apply Reqb_eq in E2. subst p. f_equal. rewrite nsum_Rsum. cbn [nsqrt NumR].
    assert (A : map nsq x = map (absp 2) x).
    { apply map_ext. intros v. unfold absp, nsq. cbn [nmul NumR]. destruct (Req_EM_T v 0) as [->|N]; [ring|].
      pose proof (Rabs_pos_lt v N). replace 2 with (INR 2) by (simpl; lra). rewrite Rpower_pow by auto.
      rewrite <- (Rabs_pos_eq (v * v)) by nra. rewrite Rabs_mult. simpl. ring. }
    rewrite A. unfold p_norm. destruct (Req_EM_T _ 0) as [Q|Q]; [rewrite Q; apply sqrt_0|].
    replace (1 / 2) with (/ 2) by field. rewrite Rpower_sqrt; auto.
    assert (0 <= Rsum (map (absp 2) x)); [|lra]. apply Rsum_nonneg. intros y Hy. apply in_map_iff in Hy. destruct Hy as (u & <- & _). apply absp_nonneg.
  - assert (NB : Rltb p 0 && negb (length (filter (fun v => negb (Reqb v 0)) x) =? length x)%nat = false).
    { destruct HC as [HC|HC].
      - destruct (Rltb p 0) eqn:Q; auto. apply Rltb_lt in Q. lra.
      - rewrite filter_nz_all, Nat.eqb_refl by auto. apply andb_false_r. }
    rewrite NB. unfold p_norm. rewrite <- (sum_filter_nz p x). cbn [nabs NumR ndiv].
    destruct (filter (fun v => negb (Reqb v 0)) x) as [|u nz] eqn:EF.
    + simpl. destruct (Req_EM_T 0 0); [reflexivity|lra].
    + rewrite nsum_Rsum.
      destruct (Req_EM_T (Rsum (map (fun v => Rpower (Rabs v) p) (u :: nz))) 0) as [Q|Q]; auto. exfalso.
      assert (0 < Rsum (map (fun v => Rpower (Rabs v) p) (u :: nz))); [|lra].
      apply Rsum_pos.
      * intros y Hy. apply in_map_iff in Hy. destruct Hy as (w & <- & _). left. apply Rpower_pos.
      * exists (Rpower (Rabs u) p). split; [left; auto|apply Rpower_pos].
Qed.
Lemma unit_scale_R : forall o x N s, np_norm 1 2 Rpower o x = Ok N -> N <> 0 ->
  scales_to (UnitNorm o) s x (map FinV (map (fun v => v / N) x)).
Proof.
  intros o x N s E HN. unfold scales_to. cbn. unfold bind, lift, ret, unit_scale. rewrite E. cbn [rmap]. do 2 f_equal. f_equal.
  rewrite map_map. apply map_ext. intros v. unfold npdiv. cbn [oeqb num_ord NumR OrdR n0]. destruct (Reqb N 0) eqn:Q; [apply Reqb_eq in Q; contradiction|reflexivity].
Qed.
Theorem C45_unit_p_norm : forall p x s, p <> 0 -> (0 < p /\ (exists v, In v x /\ v <> 0) \/ x <> [] /\ (forall v, In v x -> v <> 0)) ->
  exists y, scales_to (UnitNorm (OPow p)) s x (map FinV y) /\ length y = length x /\ p_norm p y = 1.
Proof.
  intros p x s Hp HC.
  assert (NZ : exists v, In v x /\ v <> 0).
  { destruct HC as [[_ H]|[NE H]]; auto. destruct x as [|v x]; [congruence|]. exists v. simpl. split; auto. apply H. simpl; auto. }
  destruct NZ as (v & Hv & Nv). pose proof (p_norm_pos p x v Hv Nv) as PN.
  exists (map (fun v => v / p_norm p x) x). split; [|split].
  - apply unit_scale_R; [|lra]. apply np_norm_R; auto. destruct HC as [[H _]|[_ H]]; auto.
  - apply map_length.
  - rewrite (map_ext (fun v => v / p_norm p x) (fun v => / p_norm p x * v)) by (intros; unfold Rdiv; ring).
    rewrite p_norm_scale by (auto; apply Rinv_0_lt_compat; auto). apply Rinv_l. lra.
Qed.
Print Assumptions C45_unit_p_norm.
(** pow = infinity: largest absolute value 1; pow = -infinity: smallest absolute value 1. *)
Lemma abs_scale_extreme : forall (x : list R) N, 0 < N -> map Rabs (map (fun v => v / N) x) = map (fun u => u / N) (map Rabs x).
Proof. intros. rewrite !map_map. apply map_ext. intros v. unfold Rdiv. rewrite Rabs_mult, (Rabs_pos_eq (/ N)); auto. left. apply Rinv_0_lt_compat; auto. Qed.
Theorem C45_unit_max_norm : forall x s, (exists v, In v x /\ v <> 0) ->
  exists y, scales_to (UnitNorm OInf) s x (map FinV y) /\ length y = length x /\ is_max 1 (map Rabs y).
Proof.
  intros x s (v & Hv & Nv).
  assert (NE : map Rabs x <> []) by (intros Q; apply map_eq_nil in Q; subst; contradiction).
  destruct (np_max_ok (map Rabs x) NE) as (N & E & I1 & I2).
  assert (PN : 0 < N).
  { specialize (I2 (Rabs v) (in_map _ _ _ Hv)). apply Rleb_le in I2. pose proof (Rabs_pos_lt v Nv). lra. }
  exists (map (fun v => v / N) x). split; [apply unit_scale_R; auto; lra|]. split; [apply map_length|].
  rewrite abs_scale_extreme by auto. split.
  - apply in_map_iff. exists N. split; auto. field. lra.
  - intros u Hu. apply in_map_iff in Hu. destruct Hu as (w & <- & Hw). specialize (I2 w Hw). apply Rleb_le in I2.
    apply Rmult_le_reg_r with N; auto. unfold Rdiv. rewrite Rmult_assoc, Rinv_l; lra.
Qed.
Print Assumptions C45_unit_max_norm.
Theorem C45_unit_min_norm : forall x s, x <> [] -> (forall v, In v x -> v <> 0) ->
  exists y, scales_to (UnitNorm OMInf) s x (map FinV y) /\ length y = length x /\ is_min 1 (map Rabs y).
Proof.
  intros x s NX Hx.
  assert (NE : map Rabs x <> []) by (intros Q; apply map_eq_nil in Q; contradiction).
  destruct (np_min_ok (map Rabs x) NE) as (N & E & I1 & I2).
  assert (PN : 0 < N).
  { apply in_map_iff in I1. destruct I1 as (v & <- & Hv). apply Rabs_pos_lt. auto. }
  exists (map (fun v => v / N) x). split; [apply unit_scale_R; auto; lra|]. split; [apply map_length|].
  rewrite abs_scale_extreme by auto. split.
  - apply in_map_iff. exists N. split; auto. field. lra.
  - intros u Hu. apply in_map_iff in Hu. destruct Hu as (w & <- & Hw). specialize (I2 w Hw). apply Rleb_le in I2.
    apply Rmult_le_reg_r with N; auto. unfold Rdiv. rewrite Rmult_assoc, Rinv_l; lra.
Qed.
Print Assumptions C45_unit_min_norm.
Theorem C45_scale_invariant : forall p x s a out, 0 < p -> 0 < a -> (exists v, In v x /\ v <> 0) ->
  scales_to (UnitNorm (OPow p)) s x out -> scales_to (UnitNorm (OPow p)) s (map (fun v => a * v) x) out.
Proof.
  intros p x s a out Hp Ha (v & Hv & Nv) H. pose proof (p_norm_pos p x v Hv Nv) as PN.
  pose proof (unit_scale_R (OPow p) x (p_norm p x) s (np_norm_R p x ltac:(lra) (or_introl Hp)) ltac:(lra)) as H1.
  unfold scales_to in H, H1. rewrite H1 in H. injection H as <-.
  pose proof (unit_scale_R (OPow p) (map (fun v => a * v) x) (p_norm p (map (fun v => a * v) x)) s (np_norm_R p _ ltac:(lra) (or_introl Hp))) as H2.
  rewrite p_norm_scale in H2 by lra. 
  replace (map (fun v0 => v0 / p_norm p x) x) with (map (fun v0 => v0 / (a * p_norm p x)) (map (fun v0 => a * v0) x)).
  - apply H2. apply Rgt_not_eq. apply Rmult_lt_0_compat; auto.
  - rewrite map_map. apply map_ext. intros u. field. lra.
Qed.
Print Assumptions C45_scale_invariant.
Theorem C45_zero_instance_not_finite : forall p x s, 0 < p -> (forall v, In v x -> v = 0) ->
  scales_to (UnitNorm (OPow p)) s x (map (fun _ => NonFin) x).
Proof.
  intros p x s Hp Hx. unfold scales_to. cbn -[np_norm]. unfold bind, lift, ret, unit_scale. rewrite np_norm_R by (auto; lra).
  assert (E : p_norm p x = 0).
  { unfold p_norm. destruct (Req_EM_T _ 0) as [Q|Q]; auto. exfalso. apply Q. apply Rsum_map_zero. intros v Hv. rewrite (Hx v Hv).
    unfold absp. destruct (Req_EM_T 0 0); lra. }
  rewrite E. cbn [rmap]. do 2 f_equal. f_equal. apply map_ext. intros v. unfold npdiv. cbn [oeqb num_ord NumR OrdR n0].
  destruct (Reqb 0 0) eqn:Q; auto. apply Reqb_neq in Q. lra.
Qed.
Print Assumptions C45_zero_instance_not_finite.
(** pow = 0 divides by the number of non-zero features: the result has the same number of them, not 1. *)
Definition nonzeros (x : list R) : nat := length (filter (fun v => negb (Reqb v 0)) x).
Theorem C45_pow_zero_law : forall x s, nonzeros x <> O -> exists y,
  scales_to (UnitNorm (OPow 0)) s x (map FinV y) /\ y = map (fun v => v / INR (nonzeros x)) x /\ nonzeros y = nonzeros x.
Proof.
  intros x s H. exists (map (fun v => v / INR (nonzeros x)) x). split; [|split; auto].
  - apply unit_scale_R; [|apply not_0_INR; auto]. unfold np_norm. cbn [oeqb num_ord NumR OrdR n0 nofZ].
    destruct (Reqb 0 0) eqn:Q; [|apply Reqb_neq in Q; lra]. rewrite INR_Zof_nat. reflexivity.
  - unfold nonzeros at 1. assert (Hn : INR (nonzeros x) <> 0) by (apply not_0_INR; auto). set (c := INR (nonzeros x)) in *. clearbody c.
    unfold nonzeros. clear H. induction x as [|v x IH]; auto. cbn [map filter].
    destruct (Reqb v 0) eqn:Q, (Reqb (v / c) 0) eqn:Q'; simpl; auto.
    + apply Reqb_eq in Q. apply Reqb_neq in Q'. exfalso. apply Q'. rewrite Q. unfold Rdiv. ring.
    + apply Reqb_neq in Q. apply Reqb_eq in Q'. exfalso. unfold Rdiv in Q'. apply Rmult_integral in Q'. destruct Q' as [?|Q']; auto.
      apply Rinv_neq_0_compat in Hn. auto.
Qed.
Print Assumptions C45_pow_zero_law.
Theorem C45_pow_zero_unit_refuted : exists x y, scales_to (UnitNorm (OPow 0)) tt x (map FinV y) /\ nonzeros y = 2%nat.
Proof.
  assert (N : nonzeros [1; 2] = 2%nat).
  { unfold nonzeros. cbn [filter]. destruct (Reqb 1 0) eqn:Q; [apply Reqb_eq in Q; lra|]. destruct (Reqb 2 0) eqn:Q'; [apply Reqb_eq in Q'; lra|]. reflexivity. }
  destruct (C45_pow_zero_law [1; 2] tt) as (y & H & _ & E); [lia|]. exists [1; 2], y. split; auto. lia.
Qed.
Print Assumptions C45_pow_zero_unit_refuted.
Theorem C45_empty_instance_max_norm_fails : forall s, tr_transform (UnitNorm OInf) (AInst []) s = (Raise ValueError, s).
Proof. reflexivity. Qed.
Print Assumptions C45_empty_instance_max_norm_fails.
Example C45_ex : scales_to (UnitNorm OInf) tt [3; -4] [FinV (3 / 4); FinV (-4 / 4)].
Proof.
  apply (unit_scale_R OInf [3; -4] 4 tt); [|lra]. cbn. unfold omax, Rabs. cbn. destruct (Rcase_abs 3), (Rcase_abs (-4)); try lra.
  unfold Rltb. destruct (Rlt_dec 3 (- -4)); f_equal; lra.
Qed.
