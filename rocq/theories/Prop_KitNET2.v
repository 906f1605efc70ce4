(** * KitNET over the reals: correlation distances (C63), autoencoders (C64), biases (C87). *)
From Coq Require Import List ZArith Lia Bool Arith Permutation.
From Coq Require Import Reals Lra.
From Verif Require Import Base Num Spec Model_Stats Model_Utils Model_Core Model_Trans Model_Simple P_Lists P_Models Model_KitNET Prop_KitNET.
From Verif Require P_Utils Prop_Post Prop_XStream Prop_RSHash.
Import ListNotations.
Open Scope R_scope.

Lemma nth_map2 : forall B C D (g : B -> C -> D) a b i da db dd, length a = length b -> (i < length a)%nat -> nth i (map2 g a b) dd = g (nth i a da) (nth i b db).
Proof. intros. unfold map2. rewrite (Prop_XStream.combine_nth_gen _ _ _ (fun q => g (fst q) (snd q)) a b i da db dd); auto. Qed.
Lemma map2_snoc : forall B C D (g : B -> C -> D) a b x y, length a = length b -> map2 g (a ++ [x]) (b ++ [y]) = map2 g a b ++ [g x y].
Proof. intros B C D g a. unfold map2. induction a as [|u a IH]; intros [|w b] x y L; try discriminate; cbn; auto. f_equal. apply IH. auto. Qed.
Lemma nth_map_any : forall B C (g : B -> C) l i d d', (i < length l)%nat -> nth i (map g l) d' = g (nth i l d).
Proof. intros B C g l i d d' H. rewrite (nth_indep _ d' (g d)) by (rewrite map_length; auto). apply map_nth. Qed.

(** ** C63 *)
(** The values of feature j, and the residuals: each value minus the mean of the values up to and including it. *)
Definition feature (xs : list (list R)) (j : nat) : list R := map (fun x => nth j x 0) xs.
Definition residuals (col : list R) : list R := map (fun t => nth t col 0 - mean (firstn (t + 1) col)) (seq 0 (length col)).
Definition cosum (a b : list R) : R := Rsum (map2 Rmult a b).
Definition entry (D : list (list R)) (i j : nat) : R := nth j (nth i D []) 0.
Definition correlation_distance (a b : list R) : R :=
  if Reqb (cosum a a) 0 then 1 else if Reqb (cosum b b) 0 then 1 else Rmax 0 (1 - cosum a b / (sqrt (cosum a a) * sqrt (cosum b b))).

Lemma residuals_length : forall col, length (residuals col) = length col.
Proof. intros. unfold residuals. rewrite map_length, seq_length. reflexivity. Qed.
Lemma residuals_snoc : forall col v, residuals (col ++ [v]) = residuals col ++ [v - mean (col ++ [v])].
Proof.
  intros col v. unfold residuals. rewrite app_length. cbn [length]. rewrite seq_app, map_app. f_equal.
  - apply map_ext_in. intros t Ht. apply in_seq in Ht. rewrite app_nth1 by lia. rewrite firstn_app. replace (t + 1 - length col)%nat with 0%nat by lia. cbn [firstn]. rewrite app_nil_r. reflexivity.
  - cbn [seq map]. rewrite Nat.add_0_l, app_nth2, Nat.sub_diag by lia. cbn [nth]. rewrite firstn_all2; auto. rewrite app_length. cbn [length]. lia.
Qed.
Lemma cosum_snoc : forall a b x y, length a = length b -> cosum (a ++ [x]) (b ++ [y]) = cosum a b + x * y.
Proof. intros. unfold cosum. rewrite map2_snoc by auto. rewrite Rsum_app, Prop_RSHash.Rsum_cons, Prop_RSHash.Rsum_nil. ring. Qed.
Lemma cosum_cons : forall a b x y, cosum (x :: a) (y :: b) = x * y + cosum a b.
Proof. reflexivity. Qed.
Lemma cosum_sq_nonneg : forall a, 0 <= cosum a a.
Proof. induction a as [|x a IH]; [unfold cosum; cbn; lra|]. rewrite cosum_cons. nra. Qed.
Lemma cosum_comm : forall a b, cosum a b = cosum b a.
Proof. induction a as [|x a IH]; intros [|y b]; auto. rewrite !cosum_cons, IH. ring. Qed.
Lemma cauchy_schwarz : forall a b, length a = length b -> cosum a b * cosum a b <= cosum a a * cosum b b.
Proof.
  induction a as [|x a IH]; intros [|y b] L; try discriminate; [unfold cosum; cbn; lra|]. rewrite !cosum_cons. specialize (IH b ltac:(cbn in L; lia)).
  pose proof (cosum_sq_nonneg a) as Q. pose proof (cosum_sq_nonneg b) as S0. set (P := cosum a b) in *. set (U := cosum a a) in *. set (W := cosum b b) in *. clearbody P U W.
  assert (G : 2 * P * (x * y) <= U * (y * y) + W * (x * x)).
  { assert (G2 : (2 * P * (x * y)) * (2 * P * (x * y)) <= (U * (y * y) + W * (x * x)) * (U * (y * y) + W * (x * x))).
    { assert (E : (U * (y * y) + W * (x * x)) * (U * (y * y) + W * (x * x)) = (U * (y * y) - W * (x * x)) * (U * (y * y) - W * (x * x)) + 4 * (U * W) * ((x * y) * (x * y))) by ring. rewrite E.
      assert (0 <= (x * y) * (x * y)) by nra. assert (P * P * ((x * y) * (x * y)) <= U * W * ((x * y) * (x * y))) by (apply Rmult_le_compat_r; auto). assert (0 <= (U * (y * y) - W * (x * x)) * (U * (y * y) - W * (x * x))) by apply (Rle_0_sqr (U * (y * y) - W * (x * x))). lra. }
    assert (Z : 0 <= U * (y * y) + W * (x * x)) by (assert (0 <= y * y) by nra; assert (0 <= x * x) by nra; assert (0 <= U * (y * y)) by (apply Rmult_le_pos; auto); assert (0 <= W * (x * x)) by (apply Rmult_le_pos; auto); lra).
    apply Rsqr_incr_0_var; auto. }
  nra.
Qed.
Lemma cosum_zero : forall a, cosum a a = 0 -> Forall (fun x => x = 0) a.
Proof.
  induction a as [|x a IH]; intros H; [constructor|]. rewrite cosum_cons in H. pose proof (cosum_sq_nonneg a). pose proof (Rle_0_sqr x) as Q. unfold Rsqr in Q. constructor; [|apply IH; lra]. destruct (Rmult_integral x x); lra.
Qed.
Lemma cosum_zero_l : forall a b, Forall (fun x => x = 0) a -> cosum a b = 0.
Proof. intros a b F. revert b. induction F as [|x a Hx F IH]; intros [|y b]; auto. rewrite cosum_cons, IH, Hx. ring. Qed.

Section Stats.
Variable n : nat.
Definition stats_ok (xs : list (list R)) (s : ccst R) : Prop :=
  cc_N s = length xs /\ length (cc_c s) = n /\ length (cc_rs s) = n /\ length (cc_C s) = n /\ Forall (fun r => length r = n) (cc_C s) /\
  (forall j, (j < n)%nat -> nth j (cc_c s) 0 = Rsum (feature xs j)) /\
  (forall j, (j < n)%nat -> nth j (cc_rs s) 0 = cosum (residuals (feature xs j)) (residuals (feature xs j))) /\
  (forall i j, (i < n)%nat -> (j < n)%nat -> entry (cc_C s) i j = cosum (residuals (feature xs i)) (residuals (feature xs j))).
Lemma stats_step : forall xs s x, length x = n -> stats_ok xs s -> exists s', cc_update x s = (Ok tt, s') /\ stats_ok (xs ++ [x]) s'.
Proof.
  intros xs s x Hx (N & Lc & Lrs & LC & FC & Ec & Ers & EC). unfold cc_update, bind, modify, gets, lift. cbn [cc_c]. rewrite Lc, Hx, Nat.eqb_refl. eexists. split; [reflexivity|].
  unfold stats_ok. cbn [cc_c cc_r cc_rs cc_C cc_N]. set (c := map2 nadd (cc_c s) x). set (rt := map2 nsub x (map (fun v => ndiv v (nofZ (Z.of_nat (S (cc_N s))))) c)).
  assert (Hc : length c = n) by (unfold c; rewrite map2_length; lia). assert (Hrt : length rt = n) by (unfold rt; rewrite map2_length, map_length; lia).
  assert (Hf : forall j, feature (xs ++ [x]) j = feature xs j ++ [nth j x 0]) by (intros; unfold feature; rewrite map_app; reflexivity).
  assert (Hlf : forall j, length (feature xs j) = length xs) by (intros; unfold feature; apply map_length).
  assert (Vc : forall j, (j < n)%nat -> nth j c 0 = Rsum (feature (xs ++ [x]) j)).
  { intros j Hj. unfold c. rewrite (nth_map2 _ _ _ _ _ _ j 0 0) by lia. rewrite Ec, Hf, Rsum_app, Prop_RSHash.Rsum_cons, Prop_RSHash.Rsum_nil by auto. cbn [nadd NumR]. ring. }
  assert (Vr : forall j, (j < n)%nat -> nth j rt 0 = nth j x 0 - mean (feature (xs ++ [x]) j)).
  { intros j Hj. unfold rt. rewrite (nth_map2 _ _ _ _ _ _ j 0 0) by (rewrite ?map_length; lia). rewrite (nth_map_any _ _ _ _ j 0) by lia. rewrite Vc by auto. cbn [nsub ndiv nofZ NumR]. unfold mean, Rlen. rewrite Hf, app_length, Hlf. cbn [length]. rewrite N, Nat.add_1_r, <- INR_IZR_INZ. reflexivity. }
  split; [rewrite app_length; cbn [length]; lia|]. split; auto. split; [rewrite map2_length, map_length; lia|].
  assert (LO : length (outer rt rt) = n) by (unfold outer; rewrite map_length; auto). assert (FO : Forall (fun r => length r = n) (outer rt rt)) by (unfold outer; apply Forall_forall; intros r Hr; apply in_map_iff in Hr; destruct Hr as (q & <- & _); rewrite map_length; auto).
  split; [rewrite map2_length; lia|]. split.
  { apply Forall_forall. intros r Hr. unfold map2 in Hr at 1. apply in_map_iff in Hr. destruct Hr as ([u w] & <- & Hr). cbn [fst snd]. rewrite map2_length. rewrite Forall_forall in FC, FO. rewrite (FC u), (FO w); [lia|eapply in_combine_r; eauto|eapply in_combine_l; eauto]. }
  split; [exact Vc|]. split.
  - intros j Hj. rewrite (nth_map2 _ _ _ _ _ _ j 0 0) by (rewrite ?map_length; lia). rewrite (nth_map_any _ _ _ _ j 0) by lia. rewrite Ers, Vr, Hf, residuals_snoc, cosum_snoc by auto. unfold nsq. cbn [nadd nmul NumR]. ring.
  - intros i j Hi Hj. unfold entry. rewrite (nth_map2 _ _ _ _ _ _ i [] []) by lia. rewrite (nth_map2 _ _ _ _ _ _ j 0 0).
    2: { rewrite Forall_forall in FC, FO. rewrite FC, FO; auto; apply nth_In; lia. } 2: { rewrite Forall_forall in FC. rewrite FC; auto; apply nth_In; lia. }
    change (nth j (nth i (cc_C s) []) 0) with (entry (cc_C s) i j). rewrite EC by auto. unfold outer. rewrite (nth_map_any _ _ _ _ i 0) by lia. rewrite (nth_map_any _ _ _ _ j 0) by lia. rewrite !Vr, !Hf, !residuals_snoc by auto.
    rewrite cosum_snoc by (rewrite !residuals_length, !Hlf; auto). reflexivity.
Qed.
Lemma statistics_ok : forall xs, Forall (fun x => length x = n) xs -> stats_ok xs (statistics n xs).
Proof.
  intros xs. unfold statistics, exec. induction xs as [|x xs IH] using rev_ind; intros F.
  - unfold stats_ok. cbn [iterM ret snd cc_init cc_c cc_rs cc_C cc_N feature map length]. rewrite !repeat_length. split; auto. split; auto. split; auto. split; auto. split. { apply Forall_forall. intros r Hr. apply repeat_spec in Hr. subst. apply repeat_length. }
    split; [intros; rewrite Prop_XStream.nth_repeat_any; auto|]. split; [intros; rewrite Prop_XStream.nth_repeat_any; auto|]. intros. unfold entry. rewrite (Prop_XStream.nth_repeat_any _ (repeat n0 n)) by auto. rewrite Prop_XStream.nth_repeat_any; auto.
  - apply Forall_app in F. destruct F as [F Fx]. apply Forall_inv in Fx. specialize (IH F). rewrite iterM_app. unfold bind.
    destruct (iterM cc_update xs (cc_init n)) as [r s] eqn:E. cbn [snd] in IH. destruct (stats_step xs s x Fx IH) as (s' & E' & I'). 
    assert (r = Ok tt) as ->. { clear - E F. assert (G : forall xs (s : ccst R), length (cc_c s) = n -> Forall (fun x => length x = n) xs -> exists s', iterM cc_update xs s = (Ok tt, s')).
      { clear. induction xs as [|x xs IH]; intros s Hs F. { eexists. reflexivity. } apply Forall_cons_iff in F. destruct F as [Fx F]. cbn [iterM]. unfold bind at 1. unfold cc_update, bind, modify, gets, lift. cbn [cc_c]. rewrite Hs, Fx, Nat.eqb_refl. apply IH; auto. cbn [cc_c]. rewrite map2_length. lia. }
      destruct (G xs (cc_init n)) as [s' E']; auto. { cbn. apply repeat_length. } rewrite E in E'. congruence. }
    cbn [iterM]. unfold bind. rewrite E'. exact I'.
Qed.
End Stats.
(** The distance that KitNET clusters with, for any stream of n-feature instances; in particular constant features are at
    distance 1 from everything. *)
Theorem C63_distance : forall n xs tiny i j, Forall (fun x => length x = n) xs -> tiny > 0 -> (i < n)%nat -> (j < n)%nat ->
  entry (cc_dist tiny (statistics n xs)) i j = correlation_distance (residuals (feature xs i)) (residuals (feature xs j)).
Proof.
  intros n xs tiny i j F Ht Hi Hj. destruct (statistics_ok n xs F) as (_ & _ & Lrs & LC & FC & _ & Ers & EC). set (s := statistics n xs) in *. unfold cc_dist, entry.
  assert (LO : length (outer (map nsqrt (cc_rs s)) (map nsqrt (cc_rs s))) = n) by (unfold outer; rewrite !map_length; auto).
  rewrite (nth_map2 _ _ _ _ _ _ i [] []) by lia. unfold outer. rewrite (nth_map_any _ _ _ (map nsqrt (cc_rs s)) i 0) by (rewrite map_length; lia).
  assert (LCi : length (nth i (cc_C s) []) = n) by (rewrite Forall_forall in FC; apply FC; apply nth_In; lia).
  rewrite (nth_map2 _ _ _ _ _ _ j 0 0) by (rewrite ?map_length; lia). rewrite (nth_map_any _ _ (nmul _) _ j 0) by (rewrite map_length; lia). rewrite !(nth_map_any _ _ nsqrt _ _ 0) by lia. rewrite !Ers by auto.
  change (nth j (nth i (cc_C s) []) 0) with (entry (cc_C s) i j). rewrite EC by auto. set (a := residuals (feature xs i)). set (b := residuals (feature xs j)). cbn [nsqrt nmul nsub ndiv nofZ NumR oeqb oltb num_ord OrdR n0]. unfold correlation_distance.
  pose proof (cosum_sq_nonneg a) as Qa. pose proof (cosum_sq_nonneg b) as Qb.
  destruct (Reqb (cosum a a) 0) eqn:Ea; [apply Reqb_eq in Ea|apply Reqb_neq in Ea; destruct (Reqb (cosum b b) 0) eqn:Eb; [apply Reqb_eq in Eb|apply Reqb_neq in Eb]].
  - rewrite Ea, sqrt_0, Rmult_0_l. destruct (Reqb 0 0) eqn:Z; [|apply Reqb_neq in Z; congruence]. rewrite (cosum_zero_l a b (cosum_zero a Ea)). replace (1 - 0 / tiny) with 1 by (unfold Rdiv; ring). destruct (Rltb 1 0) eqn:W; auto. apply Rltb_lt in W. lra.
  - rewrite Eb, sqrt_0, Rmult_0_r. destruct (Reqb 0 0) eqn:Z; [|apply Reqb_neq in Z; congruence]. rewrite cosum_comm, (cosum_zero_l b a (cosum_zero b Eb)). replace (1 - 0 / tiny) with 1 by (unfold Rdiv; ring). destruct (Rltb 1 0) eqn:W; auto. apply Rltb_lt in W. lra.
  - pose proof (sqrt_lt_R0 (cosum a a) ltac:(lra)). pose proof (sqrt_lt_R0 (cosum b b) ltac:(lra)). destruct (Reqb (sqrt (cosum a a) * sqrt (cosum b b)) 0) eqn:Z. { apply Reqb_eq in Z. assert (0 < sqrt (cosum a a) * sqrt (cosum b b)) by (apply Rmult_lt_0_compat; auto). lra. }
    match goal with |- (if Rltb ?u 0 then _ else _) = _ => destruct (Rltb u 0) eqn:W end; [apply Rltb_lt in W; rewrite Rmax_left; lra|apply Rltb_nlt in W; rewrite Rmax_right; lra].
Qed.
Print Assumptions C63_distance.
(** The distances are symmetric, between 0 and 2, and a feature that is not constant has distance 0 from itself. *)
Theorem C63_well_formed : forall n xs tiny i j, Forall (fun x => length x = n) xs -> tiny > 0 -> (i < n)%nat -> (j < n)%nat ->
  let D := cc_dist tiny (statistics n xs) in
  0 <= entry D i j <= 2 /\ entry D i j = entry D j i /\ ((exists t, (t < length xs)%nat /\ nth i (nth t xs []) 0 <> nth i (nth 0 xs []) 0) -> entry D i i = 0) /\
  ((forall t, (t < length xs)%nat -> nth i (nth t xs []) 0 = nth i (nth 0 xs []) 0) -> entry D i j = 1).
Proof.
  intros n xs tiny i j F Ht Hi Hj D. unfold D. rewrite !C63_distance by auto. set (a := residuals (feature xs i)). set (b := residuals (feature xs j)).
  assert (L : length a = length b) by (unfold a, b; rewrite !residuals_length; unfold feature; rewrite !map_length; auto). pose proof (cauchy_schwarz a b L) as CS. pose proof (cosum_sq_nonneg a) as Qa. pose proof (cosum_sq_nonneg b) as Qb.
  assert (Nth : forall t, (t < length xs)%nat -> nth t (feature xs i) 0 = nth i (nth t xs []) 0). { intros t H. unfold feature. rewrite (nth_map_any _ _ _ xs t []) by auto. reflexivity. }
  assert (Lf : length (feature xs i) = length xs) by apply map_length.
  split; [|split; [|split]].
  - unfold correlation_distance. destruct (Reqb (cosum a a) 0) eqn:Ea; [lra|]. destruct (Reqb (cosum b b) 0) eqn:Eb; [lra|]. apply Reqb_neq in Ea. apply Reqb_neq in Eb. split; [apply Rmax_l|]. apply Rmax_lub; [lra|].
    pose proof (sqrt_lt_R0 (cosum a a) ltac:(lra)) as Sa. pose proof (sqrt_lt_R0 (cosum b b) ltac:(lra)) as Sb. set (q := sqrt (cosum a a) * sqrt (cosum b b)). assert (Hq : 0 < q) by (apply Rmult_lt_0_compat; auto).
    assert (Eq : q * q = cosum a a * cosum b b). { unfold q. rewrite <- (sqrt_sqrt (cosum a a)) at 3 by auto. rewrite <- (sqrt_sqrt (cosum b b)) at 3 by auto. ring. }
    assert (- q <= cosum a b). { destruct (Rle_or_lt (- q) (cosum a b)); auto. exfalso. assert (q < - cosum a b) by lra. assert (q * q < (- cosum a b) * (- cosum a b)) by (apply Rmult_gt_0_lt_compat; lra). lra. }
    assert (-1 <= cosum a b / q). { apply Rmult_le_reg_r with q; auto. unfold Rdiv. rewrite Rmult_assoc, Rinv_l by lra. lra. } lra.
  - unfold correlation_distance. rewrite (cosum_comm a b), (Rmult_comm (sqrt (cosum a a))). destruct (Reqb (cosum a a) 0), (Reqb (cosum b b) 0); auto.
  - intros (t & Ht' & Ne). unfold correlation_distance. destruct (Reqb (cosum a a) 0) eqn:Ea.
    + exfalso. apply Ne. apply Reqb_eq in Ea. apply cosum_zero in Ea. rewrite <- !Nth by lia. clear - Ea Ht' Lf. unfold a in Ea. clear a. rewrite <- Lf in Ht'. clear Lf. generalize dependent t. generalize dependent (feature xs i). clear. intros l F. induction l as [|v l IH] using rev_ind; intros t Ht; [cbn in Ht; lia|].
      rewrite residuals_snoc in F. apply Forall_app in F. destruct F as [F Fv]. apply Forall_inv in Fv. rewrite app_length in Ht. cbn [length] in Ht.
      destruct l as [|w l]. { cbn [length] in Ht. replace t with 0%nat by lia. reflexivity. } 
      assert (All : forall u, (u < length (w :: l))%nat -> nth u (w :: l) 0 = w) by (intros u Hu; apply (IH F u Hu)).
      rewrite (app_nth1 (w :: l) [v] 0 (n := 0)) by (cbn [length]; lia). destruct (Nat.eq_dec t (length (w :: l))) as [->|]; [|rewrite app_nth1 by lia; rewrite All by lia; reflexivity].
      rewrite app_nth2, Nat.sub_diag by lia. change (nth 0 [v] 0) with v. change (nth 0 (w :: l) 0) with w.
      assert (Es : Rsum (w :: l) = INR (length (w :: l)) * w). { rewrite <- (P_Utils.map_nth_seq _ (w :: l) 0) at 1. rewrite (map_ext_in _ (fun _ => w)) by (intros u Hu; apply in_seq in Hu; apply All; lia). rewrite Rsum_map_const, seq_length. reflexivity. }
      unfold mean, Rlen in Fv. rewrite Rsum_app, Es, Prop_RSHash.Rsum_cons, Prop_RSHash.Rsum_nil, app_length in Fv. change (length [v]) with 1%nat in Fv. rewrite Nat.add_1_r, S_INR in Fv. set (k := INR (length (w :: l))) in *. assert (Hk : 0 < k) by (apply lt_0_INR; cbn [length]; lia).
      assert (E : (v - (k * w + (v + 0)) / (k + 1)) * (k + 1) = k * (v - w)) by (field; lra). rewrite Fv, Rmult_0_l in E. symmetry in E. apply Rmult_integral in E. lra.
    + apply Reqb_neq in Ea. rewrite sqrt_sqrt by auto. replace (1 - cosum a a / cosum a a) with 0 by (field; auto). apply Rmax_left. lra.
  - intros C. assert (Z : cosum a a = 0).
    { apply cosum_zero_l. apply Forall_forall. intros r Hr. unfold a, residuals in Hr. apply in_map_iff in Hr. destruct Hr as (t & <- & Ht'). apply in_seq in Ht'. rewrite Lf in Ht'. rewrite Nth, C by lia.
      assert (E : firstn (t + 1) (feature xs i) = map (fun _ => nth i (nth 0 xs []) 0) (seq 0 (t + 1))).
      { apply (nth_ext _ _ 0 0); [rewrite firstn_length, map_length, seq_length; lia|]. intros u Hu. rewrite firstn_length in Hu. rewrite Prop_XStream.nth_map_seq by lia. rewrite <- (C u) by lia. rewrite <- Nth by lia. rewrite <- (firstn_skipn (t + 1) (feature xs i)) at 2. rewrite app_nth1; auto. rewrite firstn_length. lia. }
      rewrite E. unfold mean, Rlen. rewrite Rsum_map_const, map_length, seq_length. field. apply not_0_INR. lia. }
    unfold correlation_distance. rewrite Z. destruct (Reqb 0 0) eqn:W; auto. apply Reqb_neq in W. congruence.
Qed.
Print Assumptions C63_well_formed.

(** ** C64, C87: the autoencoder *)
(** An autoencoder with [nv] inputs after training on the vectors xs, in order. *)
Definition trained {A} `{Num A} (p : kitpar A) (nv : nat) (xs : list (list A)) (d : dast A) : Prop :=
  exists d0, da_init p nv = Ok d0 /\ d = fold_left (fun d x => snd (da_train p d x)) xs d0.
(** The components lie between -inf and +inf: over the reals the two limits are any numbers beyond the data. *)
Definition bounded (p : kitpar R) (x : list R) : Prop := Forall (fun v => kp_ninf p < v < kp_pinf p) x.
(** x lies in the range seen in training. *)
Definition in_range (nv : nat) (xs : list (list R)) (x : list R) : Prop :=
  length x = nv /\ forall j, (j < nv)%nat -> exists lo hi, In lo (feature xs j) /\ In hi (feature xs j) /\ lo <= nth j x 0 <= hi.

Lemma trained_snoc : forall A (NA : Num A) p nv xs x d, trained p nv (xs ++ [x]) d -> exists d', trained p nv xs d' /\ d = snd (da_train p d' x).
Proof. intros A NA p nv xs x d (d0 & E & ->). eexists. split; [exists d0; eauto|]. rewrite fold_left_app. reflexivity. Qed.
Lemma feature_snoc : forall xs x j, feature (xs ++ [x]) j = feature xs j ++ [nth j x 0].
Proof. intros. unfold feature. rewrite map_app. reflexivity. Qed.
Lemma trained_shape : forall A (NA : Num A) (p : kitpar A) nv xs d, Forall (fun x => length x = nv) xs -> trained p nv xs d ->
  length (da_max d) = nv /\ length (da_min d) = nv /\ da_n d = length xs /\ (1 <= nv)%nat /\ length (da_vb d) = nv /\ length (da_W d) = nv.
Proof.
  intros A NA p nv xs. induction xs as [|x xs IH] using rev_ind; intros d F T.
  - destruct T as (d0 & E & ->). cbn [fold_left]. unfold da_init in E. destruct (Nat.eqb_spec nv 0); [discriminate|]. inversion E. cbn [da_max da_min da_n da_vb da_W length]. rewrite !repeat_length, map_length, seq_length. repeat split; auto; lia.
  - apply Forall_app in F. destruct F as [F Fx]. apply Forall_inv in Fx. apply trained_snoc in T. destruct T as (d' & T & ->). destruct (IH d' F T) as (L1 & L2 & L3 & L4 & L5 & L6).
    unfold da_train. cbn [snd da_max da_min da_n da_norms da_vb da_W]. rewrite app_length. cbn [length]. 
    assert (E1 : length (map2 (fun v m => if oltb m v then v else m) x (da_max d')) = nv) by (rewrite map2_length; lia). assert (E2 : length (map2 (fun v m => if oltb v m then v else m) x (da_min d')) = nv) by (rewrite map2_length; lia).
    split; auto. split; auto. split; [lia|]. split; auto. split; [rewrite map_length; auto|]. rewrite map2_length, map_length, map2_length. unfold outer. rewrite !map_length. unfold da_normalise, da_decode, vec_matT. cbn [da_max da_min da_n da_vb da_W]. repeat (rewrite ?map2_length, ?map_length). cbn [da_max da_min da_n da_vb da_W]. repeat (rewrite ?map2_length, ?map_length). unfold da_norms. cbn [da_max da_min da_n da_vb da_W]. rewrite ?map2_length. lia.
Qed.
(** The normalisation limits are the extremes of the training inputs, per component. *)
Theorem C64_normalisation_limits : forall p nv xs d j, Forall (fun x => length x = nv) xs -> Forall (bounded p) xs -> trained p nv xs d -> xs <> [] -> (j < nv)%nat ->
  is_max (nth j (da_max d) 0) (feature xs j) /\ is_min (nth j (da_min d) 0) (feature xs j).
Proof.
  intros p nv xs d j F B T NE Hj.
  assert (G : (xs = [] -> nth j (da_max d) 0 = kp_ninf p /\ nth j (da_min d) 0 = kp_pinf p) /\ (xs <> [] -> is_max (nth j (da_max d) 0) (feature xs j) /\ is_min (nth j (da_min d) 0) (feature xs j))); [|apply G; auto].
  clear NE. revert d T. induction xs as [|x xs IH] using rev_ind; intros d T.
  - split; [|congruence]. intros _. destruct T as (d0 & E & ->). cbn [fold_left]. unfold da_init in E. destruct (Nat.eqb_spec nv 0); [discriminate|]. inversion E. cbn [da_max da_min]. rewrite !Prop_XStream.nth_repeat_any by auto. auto.
  - split. { intros E. destruct xs; discriminate. } intros _. apply trained_snoc in T. destruct T as (d' & T & ->). pose proof F as F0. apply Forall_app in F. destruct F as [F Fx]. apply Forall_inv in Fx. apply Forall_app in B. destruct B as [B Bx]. apply Forall_inv in Bx.
    destruct (IH F B d' T) as [I0 I1]. destruct (trained_shape R NumR p nv xs d' F T) as (L1 & L2 & _). unfold da_train. cbn [snd da_max da_min da_norms]. rewrite !(nth_map2 _ _ _ _ _ _ j 0 0) by lia. set (v := nth j x 0). rewrite !feature_snoc. fold v.
    assert (Hv : kp_ninf p < v < kp_pinf p) by (unfold bounded in Bx; rewrite Forall_forall in Bx; apply Bx; apply nth_In; lia). cbn [oltb num_ord NumR OrdR].
    destruct xs as [|y ys] eqn:Exs.
    + destruct (I0 eq_refl) as [-> ->]. cbn [feature map app]. destruct (Rltb (kp_ninf p) v) eqn:E1; [|apply Rltb_nlt in E1; lra]. destruct (Rltb v (kp_pinf p)) eqn:E2; [|apply Rltb_nlt in E2; lra].
      split; (split; [left; reflexivity|]); intros w [<-|[]]; lra.
    + destruct (I1 ltac:(discriminate)) as [[M1 M2] [m1 m2]]. split.
      * destruct (Rltb (nth j (da_max d') 0) v) eqn:E1; [apply Rltb_lt in E1|apply Rltb_nlt in E1]; (split; [apply in_or_app|]); [right; left; reflexivity| |left; exact M1|]; intros w Hw; apply in_app_or in Hw; destruct Hw as [Hw|[<-|[]]]; try specialize (M2 w Hw); lra.
      * destruct (Rltb v (nth j (da_min d') 0)) eqn:E1; [apply Rltb_lt in E1|apply Rltb_nlt in E1]; (split; [apply in_or_app|]); [right; left; reflexivity| |left; exact m1|]; intros w Hw; apply in_app_or in Hw; destruct Hw as [Hw|[<-|[]]]; try specialize (m2 w Hw); lra.
Qed.
Print Assumptions C64_normalisation_limits.
(** Every input in the seen range — in particular every training input — is mapped into [0, 1). *)
Theorem C64_normalised : forall p nv xs d x, kp_eps p > 0 -> Forall (fun x => length x = nv) xs -> Forall (bounded p) xs -> trained p nv xs d -> in_range nv xs x ->
  length (da_normalise p d x) = nv /\ Forall (fun v => 0 <= v < 1) (da_normalise p d x).
Proof.
  intros p nv xs d x He F B T [Lx Rx]. destruct (trained_shape R NumR p nv xs d F T) as (L1 & L2 & _ & Hnv & _). assert (L : length (da_normalise p d x) = nv) by (unfold da_normalise; repeat (rewrite ?map2_length, ?map_length); lia). split; auto.
  apply Forall_forall. intros v Hv. apply (In_nth _ _ 0) in Hv. destruct Hv as (j & Hj & <-). rewrite L in Hj. unfold da_normalise. rewrite (nth_map2 _ _ _ _ _ _ j 0 0) by (repeat (rewrite ?map2_length, ?map_length); lia). rewrite (nth_map_any _ _ _ _ j 0) by (rewrite map2_length; lia). rewrite !(nth_map2 _ _ _ _ _ _ j 0 0) by lia.
  destruct (Rx j Hj) as (lo & hi & Ilo & Ihi & Hb). assert (NE : xs <> []) by (intros ->; destruct Ilo). destruct (C64_normalisation_limits p nv xs d j F B T NE Hj) as [[_ M] [_ m]]. specialize (M _ Ihi). specialize (m _ Ilo). cbn [ndiv nsub nadd NumR].
  set (a := nth j (da_min d) 0) in *. set (b := nth j (da_max d) 0) in *. set (u := nth j x 0) in *. assert (0 < b - a + kp_eps p) by lra. split.
  - apply Rmult_le_pos; [lra|]. left. apply Rinv_0_lt_compat; auto.
  - apply Rmult_lt_reg_r with (b - a + kp_eps p); auto. unfold Rdiv. rewrite Rmult_assoc, Rinv_l by lra. lra.
Qed.
Print Assumptions C64_normalised.
Lemma training_in_range : forall nv xs x, Forall (fun x => length x = nv) xs -> In x xs -> in_range nv xs x.
Proof.
  intros nv xs x F I. rewrite Forall_forall in F. split; auto. intros j Hj. exists (nth j x 0), (nth j x 0). assert (In (nth j x 0) (feature xs j)) by (unfold feature; apply in_map_iff; eauto). repeat split; auto; lra.
Qed.
Lemma sigmoid_unit : forall e r, (forall r, 0 < e r) -> 0 < sigmoid e r < 1.
Proof.
  intros e r H. unfold sigmoid. cbn [ndiv nadd nofZ nneg NumR]. pose proof (H (- r)). split; [apply Rdiv_lt_0_compat; lra|]. apply Rmult_lt_reg_r with (1 + e (- r)); [lra|]. unfold Rdiv. rewrite Rmult_assoc, Rinv_l by lra. lra.
Qed.
(** Hidden activations and reconstructions lie strictly between 0 and 1, whatever the weights. *)
Theorem C64_reconstruction : forall p d x y, (forall r, 0 < kp_exp p r) -> Forall (fun v => 0 < v < 1) (da_hidden p d x) /\ Forall (fun v => 0 < v < 1) (da_decode p d y).
Proof. intros p d x y H. split; apply Forall_forall; intros v Hv; unfold da_hidden, da_decode in Hv; apply in_map_iff in Hv; destruct Hv as (r & <- & _); apply sigmoid_unit; auto. Qed.
Print Assumptions C64_reconstruction.
Lemma Rsum_lt_len : forall l, l <> [] -> Forall (fun v => v < 1) l -> Rsum l < INR (length l).
Proof.
  induction l as [|v l IH]; intros NE F; [congruence|]. apply Forall_cons_iff in F. destruct F as [Fv F]. rewrite Prop_RSHash.Rsum_cons. cbn [length]. rewrite S_INR. destruct l as [|w l]; [rewrite Prop_RSHash.Rsum_nil; cbn; lra|]. specialize (IH ltac:(discriminate) F). lra.
Qed.
Lemma rmse_unit : forall l, l <> [] -> Forall (fun v => -1 < v < 1) l -> 0 <= rmse l < 1.
Proof.
  intros l NE F. unfold rmse. cbn [nsqrt NumR]. split; [apply sqrt_pos|]. rewrite <- sqrt_1. assert (P : 0 < INR (length l)) by (apply lt_0_INR; destruct l; [congruence|cbn; lia]).
  assert (G : vec_mean (map nsq l) < 1). { unfold vec_mean. rewrite Prop_XStream.nsum_Rsum, map_length. cbn [ndiv nofZ NumR]. rewrite <- INR_IZR_INZ. apply Rmult_lt_reg_r with (INR (length l)); auto. unfold Rdiv. rewrite Rmult_assoc, Rinv_l, Rmult_1_l, Rmult_1_r by lra.
    pose proof (Rsum_lt_len (map nsq l)) as S0. rewrite map_length in S0. apply S0; [destruct l; [congruence|discriminate]|]. apply Forall_forall. intros v Hv. apply in_map_iff in Hv. destruct Hv as (u & <- & Hu). rewrite Forall_forall in F. specialize (F u Hu). unfold nsq. cbn [nmul NumR]. nra. }
  assert (0 <= vec_mean (map nsq l)). { unfold vec_mean. rewrite Prop_XStream.nsum_Rsum, map_length. cbn [ndiv nofZ NumR]. rewrite <- INR_IZR_INZ. apply Rmult_le_pos; [|left; apply Rinv_0_lt_compat; auto]. apply Rsum_nonneg. intros v Hv. apply in_map_iff in Hv. destruct Hv as (u & <- & Hu). unfold nsq. cbn [nmul NumR]. nra. }
  apply sqrt_lt_1; lra.
Qed.
Lemma diff_unit : forall x z, Forall (fun v => 0 <= v < 1) x -> Forall (fun v => 0 < v < 1) z -> Forall (fun v => -1 < v < 1) (map2 nsub x z).
Proof.
  intros x z Fx Fz. apply Forall_forall. intros v Hv. unfold map2 in Hv. apply in_map_iff in Hv. destruct Hv as ([a b] & <- & Hv). cbn [fst snd nsub NumR]. rewrite Forall_forall in Fx, Fz. specialize (Fx a (in_combine_l _ _ _ _ Hv)). specialize (Fz b (in_combine_r _ _ _ _ Hv)). lra.
Qed.
(** Scores are never negative, and below 1 for inputs in the seen range. *)
Theorem C64_execute_range : forall p nv xs d x, kp_eps p > 0 -> (forall r, 0 < kp_exp p r) -> Forall (fun x => length x = nv) xs -> Forall (bounded p) xs -> trained p nv xs d ->
  0 <= da_execute p d x /\ (in_range nv xs x -> da_execute p d x < 1).
Proof.
  intros p nv xs d x He Hx F B T. split; [unfold da_execute, rmse; cbn [nsqrt NumR]; apply sqrt_pos|]. intros I. destruct (trained_shape R NumR p nv xs d F T) as (_ & _ & _ & Hnv & L5 & L6). destruct (C64_normalised p nv xs d x He F B T I) as [Ln Fn]. unfold da_execute. cbv zeta. apply rmse_unit.
  - intros E. apply (f_equal (@length _)) in E. rewrite map2_length, Ln in E. unfold da_decode, vec_matT in E. rewrite map_length, map2_length, map_length in E. cbn [length] in E. lia.
  - apply diff_unit; auto. apply C64_reconstruction; auto.
Qed.
Print Assumptions C64_execute_range.
(** So are the errors reported during training. *)
Theorem C64_training_error : forall p nv xs d x, kp_eps p > 0 -> (forall r, 0 < kp_exp p r) -> Forall (fun x => length x = nv) (xs ++ [x]) -> Forall (bounded p) (xs ++ [x]) -> trained p nv xs d ->
  0 <= fst (da_train p d x) < 1.
Proof.
  intros p nv xs d x He Hx F B T. assert (T' : trained p nv (xs ++ [x]) (snd (da_train p d x))). { destruct T as (d0 & E & ->). exists d0. split; auto. rewrite fold_left_app. reflexivity. }
  pose proof (training_in_range nv (xs ++ [x]) x F ltac:(apply in_or_app; right; left; reflexivity)) as I. destruct (C64_normalised p nv _ _ x He F B T' I) as [Ln Fn]. pose proof (Forall_app (fun x => length x = nv) xs [x]) as FA. destruct (proj1 FA F) as [F1 Fx]. apply Forall_inv in Fx.
  destruct (trained_shape R NumR p nv xs d F1 T) as (L1 & L2 & _ & Hnv & L5 & L6). unfold da_train. cbn [fst]. unfold da_train in Ln, Fn. cbn [snd] in Ln, Fn. unfold da_normalise in Ln, Fn |- *. cbn [da_max da_min da_norms] in *. apply rmse_unit.
  - intros E. apply (f_equal (@length _)) in E. rewrite map2_length, Ln in E. unfold da_decode, vec_matT in E. rewrite map_length, map2_length, map_length in E. cbn [length da_vb da_W da_norms] in E. lia.
  - apply diff_unit; auto. apply C64_reconstruction; auto.
Qed.
Print Assumptions C64_training_error.

(** Within KitNET: after the feature map exists and training has begun, autoencoder a has as its limits the extremes of
    its features over the training block — the AD instances after the first FM + 1, as far as they have arrived. *)
Theorem C64_kitnet_limits : forall Y p n (h : list (mcall (list R) Y)) a j, (2 <= n)%nat -> kit_ok p n (fitted_instances h) -> Forall (bounded p) (fitted_instances h) ->
  let FM := match kp_fm p with Some f => f | None => kp_ad p end in let block := firstn (kp_ad p) (skipn (FM + 1) (fitted_instances h)) in block <> [] ->
  exists k v, model_run (KitNet p) None h = Some k /\ kt_map k = Some v /\ length (kt_ens k) = length v /\
    ((a < length v)%nat -> (j < length (nth a v []))%nat -> exists d, nth_error (kt_ens k) a = Some d /\ da_n d = length block /\
      is_max (nth j (da_max d) 0) (feature block (nth j (nth a v []) 0%nat)) /\ is_min (nth j (da_min d) 0) (feature block (nth j (nth a v []) 0%nat))).
Proof.
  intros Y p n h a j Hn K B FM block NE. pose proof (run_phase p n Hn Y h K) as I. set (xs := fitted_instances h) in *. unfold phase in I. assert (Eb : block = firstn (kp_ad p) (skipn (S (kit_fmg p)) xs)) by (unfold block; rewrite Nat.add_1_r; reflexivity). clearbody block.
  assert (L : (S (kit_fmg p) < length xs)%nat). { destruct (le_lt_dec (length xs) (S (kit_fmg p))) as [L|L]; auto. exfalso. apply NE. rewrite Eb. rewrite skipn_all2 by lia. apply firstn_nil. }
  destruct (Nat.eqb_spec (length xs) 0); [lia|]. destruct (Nat.leb_spec (length xs) (kit_fmg p)); [lia|]. destruct I as (v & st0 & fm & e & Ev & V & [Fr _] & Ls0 & Ls & ->). rewrite <- Eb in Ls |- *.
  eexists. exists v. split; [reflexivity|]. cbn [kt_map kt_ens]. split; auto. split; auto. intros Ha Hj.
  assert (EF : forall blk st0, fst (fold_left (train_step p v) blk st0) = map2 (fun d f => fold_left (fun d x => snd (da_train p d (pick x f))) blk d) (fst st0) v \/ length (fst st0) <> length v).
  { clear. induction blk as [|x blk IH]; intros st0; cbn [fold_left].
    - destruct (Nat.eq_dec (length (fst st0)) (length v)) as [E|E]; auto. left. clear - E. revert E. generalize (fst st0). induction v as [|f v IH]; intros [|d l] E; try discriminate; auto. unfold map2 in *. cbn [combine map fst]. f_equal. apply IH. auto.
    - destruct (Nat.eq_dec (length (fst st0)) (length v)) as [E|E]; auto. left. destruct (IH (train_step p v st0 x)) as [->|N]. 2: { exfalso. apply N. unfold train_step. cbn [fst]. rewrite map2_length. lia. }
      unfold train_step. cbn [fst]. clear - E. revert E. generalize (fst st0). induction v as [|f v IH]; intros [|d l] E; try discriminate; auto. unfold map2 in *. cbn [combine map fst snd]. f_equal. apply IH. auto. }
  destruct (EF block st0) as [E|E]; [|congruence]. rewrite E. set (f := nth a v []) in *.
  assert (Hd : exists d0, nth_error (fst st0) a = Some d0 /\ da_init p (length f) = Ok d0).
  { unfold f. clear - Fr Ha. revert a Ha. induction Fr as [|g d v l Hd Fr IH]; intros [|a] Ha; cbn [length] in Ha; try lia. - exists d. auto. - apply IH. lia. }
  destruct Hd as (d0 & Nd & Id). set (d := fold_left (fun d x => snd (da_train p d (pick x f))) block d0). exists d. split.
  { unfold map2. rewrite nth_error_map. assert (nth_error (combine (fst st0) v) a = Some (d0, f)) as ->; [|reflexivity]. unfold f. clear - Nd Ls0. revert a Nd Ls0. generalize (fst st0). induction v as [|g v IH]; intros [|c l] a Nd L; try discriminate; [destruct a; discriminate|]. destruct a as [|a]; cbn in Nd |- *; [congruence|]. apply IH; auto. }
  set (ys := map (fun x => pick x f) block).
  assert (T : trained p (length f) ys d). { exists d0. split; auto. unfold d, ys. clear. generalize d0. induction block as [|x b IH]; intros d1; auto. cbn [map fold_left]. apply IH. }
  assert (IB : forall x, In x block -> In x xs). { intros x Hx. rewrite Eb in Hx. rewrite <- (firstn_skipn (S (kit_fmg p)) xs). apply in_or_app. right. rewrite <- (firstn_skipn (kp_ad p) (skipn (S (kit_fmg p)) xs)). apply in_or_app. auto. }
  assert (Fy : Forall (fun x => length x = length f) ys). { apply Forall_forall. intros y Hy. unfold ys in Hy. apply in_map_iff in Hy. destruct Hy as (x & <- & _). unfold pick. apply map_length. }
  assert (By : Forall (bounded p) ys). { apply Forall_forall. intros y Hy. unfold ys in Hy. apply in_map_iff in Hy. destruct Hy as (x & <- & Hx). apply Forall_forall. intros w Hw. unfold pick in Hw. apply in_map_iff in Hw. destruct Hw as (q & <- & Hq). apply IB in Hx.
    rewrite Forall_forall in B. specialize (B x Hx). unfold bounded in B. rewrite Forall_forall in B. apply B. apply nth_In. destruct K as [Kv _]. unfold vectors in Kv. rewrite Forall_forall in Kv. rewrite (Kv x Hx). destruct V as [Pv _]. assert (In q (concat v)) as Iq. { apply in_concat. exists f. split; auto. unfold f. apply nth_In. auto. } apply (Permutation_in _ Pv) in Iq. apply in_seq in Iq. lia. }
  destruct (trained_shape R NumR p (length f) ys d Fy T) as (_ & _ & Dn & _). split; [rewrite Dn; unfold ys; apply map_length|].
  assert (Ef : feature block (nth j f 0%nat) = feature ys j). { unfold feature, ys. rewrite map_map. apply map_ext. intros x. unfold pick. rewrite (nth_map_any _ _ _ f j 0%nat) by auto. reflexivity. }
  rewrite Ef. apply (C64_normalisation_limits p (length f)); auto. unfold ys. destruct block; [congruence|discriminate].
Qed.
Print Assumptions C64_kitnet_limits.
(** The score of KitNet is never negative. *)
Theorem C64_kitnet_score_nonneg : forall Y p n (h : list (mcall (list R) Y)) x, (2 <= n)%nat -> kit_ok p n (fitted_instances h) -> length x = n -> fitted_instances h <> [] ->
  exists r, eval (md_score (KitNet p) x) (model_run (KitNet p) None h) = Ok (VScalar r) /\ 0 <= r.
Proof.
  intros Y p n h x Hn K Hx NE. assert (1 <= length (fitted_instances h))%nat by (destruct (fitted_instances h); [congruence|cbn; lia]). destruct (le_lt_dec (length (fitted_instances h)) (match kp_fm p with Some f => f | None => kp_ad p end)) as [L|L].
  - exists 0. split; [|lra]. destruct (C61_before_the_map R Y NumR p n h x Hn K Hx) as [_ E]. apply E. lia.
  - destruct (C61_score R Y NumR p n h x Hn K Hx L) as (v & st0 & _ & _ & E). eexists. split; [exact E|]. unfold run_layers, da_execute, rmse. cbn [nsqrt NumR]. apply sqrt_pos.
Qed.
Print Assumptions C64_kitnet_score_nonneg.

(** ** C87: all hidden units share one bias, and all visible units share one bias, after any training. *)
Theorem C87_units_learn_their_own_bias_refuted : forall A (NA : Num A) p nv xs d i j k, trained p nv xs d ->
  ((i < length (da_hb d))%nat -> (j < length (da_hb d))%nat -> nth i (da_hb d) k = nth j (da_hb d) k) /\
  ((i < length (da_vb d))%nat -> (j < length (da_vb d))%nat -> nth i (da_vb d) k = nth j (da_vb d) k).
Proof.
  intros A NA p nv xs d i j k T. assert (G : exists a b c e, da_hb d = repeat a b /\ da_vb d = repeat c e).
  { revert d T. induction xs as [|x xs IH] using rev_ind; intros d T.
    - destruct T as (d0 & E & ->). cbn [fold_left]. unfold da_init in E. destruct (nv =? 0)%nat; [discriminate|]. inversion E. cbn [da_hb da_vb]. do 4 eexists. split; reflexivity.
    - apply trained_snoc in T. destruct T as (d' & T & ->). destruct (IH d' T) as (a & b & c & e & E1 & E2). assert (MR : forall B C (g : B -> C) r m, map g (repeat r m) = repeat (g r) m) by (intros; induction m; cbn; congruence). unfold da_train. cbn [snd da_hb da_vb da_norms]. rewrite E1, E2, !MR. do 4 eexists. split; reflexivity. }
  destruct G as (a & b & c & e & -> & ->). rewrite !repeat_length. split; intros Hi Hj; rewrite !Prop_XStream.nth_repeat_any; auto.
Qed.
Print Assumptions C87_units_learn_their_own_bias_refuted.

(** Concrete cases. *)
Definition kit_par : kitpar R := mkKP exp (fun _ => 1 / 2) (fun k => k) (fun n _ => Ok (Node (Node (Leaf 0) (Leaf 2)) (Leaf 1))) (-1000) 1000 (1 / 1000) (1 / 1000) (1 / 10) 2 (Some 1%nat) 2.
Definition kit_h : list (mcall (list R) unit) := [CFit [1; 2; 3] None; CFitScore [2; 3; 5] None; CScore [0; 0; 0]; CFit [7; 8; 9] None; CFit [7; 1; 4] None; CFit [0; 0; 0] None].
Example C61_ex : kit_ok kit_par 3 (fitted_instances kit_h) /\ Forall (bounded kit_par) (fitted_instances kit_h) /\ length (fitted_instances kit_h) = 5%nat /\ kit_fmg kit_par = 1%nat /\
  firstn (kp_ad kit_par) (skipn (kit_fmg kit_par + 1) (fitted_instances kit_h)) = [[7; 8; 9]; [7; 1; 4]].
Proof.
  split; [split|split; [|repeat split]].
  - repeat constructor.
  - intros _. exists (Node (Node (Leaf 0) (Leaf 2)) (Leaf 1)). split; [reflexivity|]. cbn [dendro_leaves app seq]. apply perm_skip. apply perm_swap.
  - unfold bounded, kit_par. cbn [kp_ninf kp_pinf fitted_instances fitted_calls kit_h flat_map call_fit app map fst]. repeat constructor; lra.
Qed.
Example C64_ex : exists d, trained kit_par 2 [[1; 2]; [3; 0]] d /\ nth 0 (da_max d) 0 = 3 /\ nth 1 (da_min d) 0 = 0 /\ in_range 2 [[1; 2]; [3; 0]] [2; 1].
Proof.
  eexists. split; [eexists; split; reflexivity|]. destruct (C64_normalisation_limits kit_par 2 [[1; 2]; [3; 0]] (fold_left (fun d x => snd (da_train kit_par d x)) [[1; 2]; [3; 0]] match da_init kit_par 2 with Ok d => d | Raise _ => mkDA [] [] 0 [] [] [] end) 0) as [[M0 M1] _]; [repeat constructor|unfold bounded; cbn; repeat constructor; lra|eexists; split; reflexivity|discriminate|lia|].
  destruct (C64_normalisation_limits kit_par 2 [[1; 2]; [3; 0]] (fold_left (fun d x => snd (da_train kit_par d x)) [[1; 2]; [3; 0]] match da_init kit_par 2 with Ok d => d | Raise _ => mkDA [] [] 0 [] [] [] end) 1) as [_ [m0 m1]]; [repeat constructor|unfold bounded; cbn; repeat constructor; lra|eexists; split; reflexivity|discriminate|lia|].
  split; [|split].
  - specialize (M1 3 (or_intror (or_introl eq_refl))). destruct M0 as [M0|[M0|[]]]; cbn [nth] in M0; [lra|auto].
  - specialize (m1 0 (or_intror (or_introl eq_refl))). destruct m0 as [m0|[m0|[]]]; cbn [nth] in m0; [lra|auto].
  - split; auto. intros [|[|j]] Hj; [exists 1, 3|exists 0, 2|lia]; cbn; repeat split; auto; lra.
Qed.
Example C63_ex : let xs := [[1; 5]; [3; 5]; [2; 5]] in Forall (fun x => length x = 2%nat) xs /\ (exists t, (t < length xs)%nat /\ nth 0 (nth t xs []) 0 <> nth 0 (nth 0 xs []) 0) /\ (forall t, (t < length xs)%nat -> nth 1 (nth t xs []) 0 = nth 1 (nth 0 xs []) 0).
Proof. cbv zeta. split; [repeat constructor|]. split; [exists 1%nat; cbn; split; [lia|lra]|]. intros [|[|[|t]]] H; cbn in *; auto; lia. Qed.
