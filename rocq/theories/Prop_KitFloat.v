(** * KitNET on IEEE-754 binary64: the first scores after the feature map is learned (C65). *)
From Coq Require Import List ZArith Lia Bool Arith.
From Coq Require Import Floats.
From Verif Require Import Base Num Model_Stats Model_Core Model_Trans Model_Simple P_Models Model_KitNET Prop_KitNET Prop_KitNET2.
Import ListNotations.

Lemma spec_inj : forall a b, Prim2SF a = Prim2SF b -> a = b.
Proof. intros a b H. rewrite <- (SF2Prim_Prim2SF a), <- (SF2Prim_Prim2SF b), H. reflexivity. Qed.
Lemma spec_nan : forall a, Prim2SF a = S754_nan -> a = nan.
Proof. intros a H. apply spec_inj. rewrite H. reflexivity. Qed.
Lemma nan_sub : forall a, PrimFloat.sub nan a = nan.
Proof. intros a. apply spec_nan. rewrite sub_spec. reflexivity. Qed.
Lemma nan_mul : PrimFloat.mul nan nan = nan. Proof. reflexivity. Qed.
Lemma nan_div : forall a, PrimFloat.div nan a = nan.
Proof. intros a. apply spec_nan. rewrite div_spec. reflexivity. Qed.
Lemma add_nan : forall a, PrimFloat.add a nan = nan.
Proof. intros a. apply spec_nan. rewrite add_spec. destruct (Prim2SF a); reflexivity. Qed.
(** Any double minus +inf is -inf or nan, and divided by -inf that is nan. *)
Lemma normalise_fresh : forall v, PrimFloat.div (PrimFloat.sub v infinity) neg_infinity = nan.
Proof.
  intros v. apply spec_nan. rewrite div_spec, sub_spec. change (Prim2SF infinity) with (S754_infinity false). change (Prim2SF neg_infinity) with (S754_infinity true). destruct (Prim2SF v) as [[]|[]| |[] m e]; reflexivity.
Qed.
Lemma neg_inf_add : forall e, is_finite e = true -> PrimFloat.add neg_infinity e = neg_infinity.
Proof.
  intros e H. apply spec_inj. rewrite add_spec. change (Prim2SF neg_infinity) with (S754_infinity true).
  unfold is_finite, is_nan, is_infinity in H. apply negb_true_iff, orb_false_iff in H. destruct H as [H1 H2]. rewrite eqb_spec in H1, H2. rewrite abs_spec in H2. change (Prim2SF infinity) with (S754_infinity false) in H2.
  destruct (Prim2SF e) as [s|s| |s m x]; try reflexivity; [destruct s; discriminate H2|discriminate H1].
Qed.
(** The parameters as Python sets them. *)
Definition doubles (p : kitpar float) : Prop := kp_ninf p = neg_infinity /\ kp_pinf p = infinity /\ is_finite (kp_eps p) = true.
Lemma fresh_execute : forall p nv d x, doubles p -> da_init p nv = Ok d -> length x = nv -> da_execute p d x = nan.
Proof.
  intros p nv d x (En & Ep & Ee) I Lx. unfold da_init in I. destruct (Nat.eqb_spec nv 0) as [|Nz]; [discriminate|]. match type of I with Ok ?w = _ => assert (E : d = w) by (inversion I; reflexivity) end. clear I.
  assert (Nm : da_normalise p d x = repeat nan nv).
  { subst d. unfold da_normalise. cbn [da_max da_min]. rewrite En, Ep. clear Nz. subst nv. assert (G : nadd (nsub neg_infinity infinity) (kp_eps p) = neg_infinity) by (apply neg_inf_add; auto). induction x as [|v x IH]; [reflexivity|]. unfold map2 in *. cbn [length repeat combine map fst snd]. rewrite IH, G. f_equal. apply normalise_fresh. }
  assert (Lz : length (da_decode p d (da_hidden p d (repeat nan nv))) = nv). { unfold da_decode, vec_matT. rewrite map_length, map2_length, map_length. subst d. cbn [da_W da_vb]. rewrite map_length, seq_length, repeat_length. lia. }
  unfold da_execute. rewrite Nm. set (z := da_decode p d (da_hidden p d (repeat nan nv))) in *. clearbody z. clear Nm E d x Lx.
  assert (E : map nsq (map2 nsub (repeat nan nv) z) = repeat nan nv). { clear Nz. revert z Lz. induction nv as [|nv IH]; intros [|w z] L; try discriminate; auto. unfold map2 in *. cbn [repeat combine map fst snd]. rewrite IH by (cbn in L; lia). f_equal. unfold nsq. cbn [nsub nmul NumF]. rewrite nan_sub. reflexivity. }
  unfold rmse, vec_mean. rewrite E. assert (S0 : nsum (repeat nan nv) = nan). { unfold nsum. destruct nv as [|nv]; [lia|]. cbn [repeat fold_left]. cbn [nadd NumF]. rewrite add_nan. clear. induction nv; auto. }
  rewrite S0. cbn [ndiv nsqrt NumF]. rewrite nan_div. reflexivity.
Qed.
(** As soon as the feature map exists, and until an instance has trained the autoencoders — with grace_anomaly_detector = 0
    forever — the score of every instance is NaN. *)
Theorem C65_scores_are_numbers_refuted : forall Y (p : kitpar float) n (h : list (mcall (list float) Y)) x, doubles p -> (2 <= n)%nat -> kit_ok p n (fitted_instances h) -> length x = n ->
  let FM := match kp_fm p with Some f => f | None => kp_ad p end in (length (fitted_instances h) = FM + 1 \/ kp_ad p = 0 /\ FM < length (fitted_instances h))%nat ->
  eval (md_score (KitNet p) x) (model_run (KitNet p) None h) = Ok (VScalar nan).
Proof.
  intros Y p n h x D Hn K Hx FM Hk. assert (L : (FM < length (fitted_instances h))%nat) by lia. destruct (C61_score _ _ _ p n h x Hn K Hx L) as (v & st0 & [F Fo] & _ & ->). fold FM.
  assert (Eb : firstn (kp_ad p) (skipn (FM + 1) (fitted_instances h)) = []). { destruct Hk as [Hk|[Hk _]]; [rewrite skipn_all2 by lia; apply firstn_nil|rewrite Hk; reflexivity]. }
  rewrite Eb. cbn [fold_left]. unfold run_layers. do 2 f_equal. apply (fresh_execute p (length v)); auto. rewrite map2_length. assert (length (fst st0) = length v) by (clear - F; induction F; cbn [length]; auto). lia.
Qed.
Print Assumptions C65_scores_are_numbers_refuted.

(** A KitNet with four features and grace_feature_mapping = 1 meets the hypotheses: two fits. *)
Definition demo_par : kitpar float :=
  mkKP (fun x => x) (fun _ => 0.5%float) (fun k => k) (fun _ _ => Ok (Node (Node (Leaf 0) (Leaf 2)) (Node (Leaf 1) (Leaf 3)))) neg_infinity infinity 0x1p-53%float 0x1p-300%float 0x1p-3%float 2 (Some 1%nat) 5.
Definition demo_h : list (mcall (list float) unit) := [CFit [1; 2; 3; 4]%float None; CScore [0; 0; 0; 0]%float; CFitScore [2; 3; 1; 0]%float None].
Example C65_ex : doubles demo_par /\ kit_ok demo_par 4 (fitted_instances demo_h) /\ length (fitted_instances demo_h) = 2%nat /\
  eval (md_score (KitNet demo_par) [1; 1; 2; 2]%float) (model_run (KitNet demo_par) None demo_h) = Ok (VScalar nan).
Proof.
  split; [repeat split|]. split; [|split; vm_compute; reflexivity]. split; [repeat constructor|]. intros _. exists (Node (Node (Leaf 0) (Leaf 2)) (Node (Leaf 1) (Leaf 3))). split; [reflexivity|]. cbn [dendro_leaves app seq].
  apply Permutation.perm_skip. apply Permutation.perm_swap.
Qed.
(** One more fit, which trains the autoencoders, and the score is a number. *)
Example C65_ex_trained : match eval (md_score (KitNet demo_par) [1; 1; 2; 2]%float) (model_run (KitNet demo_par) None (demo_h ++ [CFit [1; 2; 3; 4]%float None])) with Ok (VScalar r) => is_nan r | _ => true end = false.
Proof. vm_compute. reflexivity. Qed.
