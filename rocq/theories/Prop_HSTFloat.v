(** * C135: half-space trees on binary64: the scores are exact, the cuts stay inside the box. *)
From Coq Require Import List ZArith Lia Bool Arith.
From Coq Require Import Reals Lra Psatz.
From Flocq Require Import Core Relative Plus_error Mult_error BinarySingleNaN PrimFloat.
From Coq Require Import Floats Uint63.
From Verif Require Import Base Num Spec Model_Core Model_Stats Model_Utils Model_Simple Model_Sketch Model_HST P_Lists P_Core P_Stats P_Utils P_Models P_Float Prop_Stats Prop_Rounding Prop_VarFloat Prop_HST.
Import ListNotations.
Open Scope R_scope.
Local Notation length := List.length.
Local Notation fmt := (generic_format radix2 (FLT_exp (-1074) 53)).
#[local] Instance prec53 : Prec_gt_0 53 := eq_refl.

(** ** Specification *)
(** The first d decisions that a tree takes for x, true meaning right: a feature is compared with the cut as Python compares two
    doubles (nan goes left). *)
Fixpoint turns (d : nat) (t : hst float) (x : list float) : list bool :=
  match d, t with
  | S d', HNode L Rt _ _ q p _ => let b := (p <? nth q x 0)%float in b :: turns d' (if b then Rt else L) x
  | _, _ => []
  end.
(** How many of the instances take the same d decisions as x. *)
Definition together (t : hst float) (d : nat) (ref : list (list float)) (x : list float) : Z :=
  Z.of_nat (length (filter (fun y => if list_eq_dec bool_dec (turns d t y) (turns d t x) then true else false) ref)).
Definition Zsum (l : list Z) : Z := fold_right Z.add 0%Z l.
(** The sum over depths d of 2^d times that number. *)
Definition familiarity (D : nat) (t : hst float) (ref : list (list float)) (x : list float) : Z :=
  Zsum (map (fun d => 2 ^ Z.of_nat d * together t d ref x)%Z (seq 0 (S D))).
(** The instances that count: the last complete window, or what was fitted so far during the first one. *)
Definition counting {B} (W : nat) (xs : list B) : list B := if (length xs <? W)%nat then xs else block W (length xs / W - 1) xs.

(** ** Exact scores *)
Lemma together_0 : forall t ref x, together t 0 ref x = Z.of_nat (length ref).
Proof.
  intros t ref x. unfold together. f_equal. f_equal. induction ref as [|y ref IH]; auto. cbn [filter turns]. destruct (list_eq_dec bool_dec [] []); [|congruence]. f_equal. auto.
Qed.
Lemma together_S : forall L Rt r l q p k d ref x,
  together (HNode L Rt r l q p k) (S d) ref x = (if (p <? nth q x 0)%float then together Rt d (filter (fun x => (p <? nth q x 0)%float) ref) x else together L d (filter (fun x => negb (p <? nth q x 0)%float) ref) x).
Proof.
  intros L R' r l q p k d ref x. unfold together. rewrite (filter_ext _ (fun x' => (if (p <? nth q x 0)%float then (p <? nth q x' 0)%float else negb (p <? nth q x' 0)%float) &&
     (if list_eq_dec bool_dec (turns d (if (p <? nth q x 0)%float then R' else L) x') (turns d (if (p <? nth q x 0)%float then R' else L) x) then true else false))).
  - destruct (p <? nth q x 0)%float; f_equal; induction ref as [|x' ref IH]; auto; cbn [filter]; destruct (p <? nth q x' 0)%float; cbn [negb andb filter]; auto; destruct (list_eq_dec _ _ _); cbn [length]; auto.
  - intros x'. cbn [turns]. destruct (p <? nth q x 0)%float, (p <? nth q x' 0)%float; cbn [negb andb].
    + destruct (list_eq_dec bool_dec (true :: _) _), (list_eq_dec bool_dec (turns _ _ _) _); congruence.
    + destruct (list_eq_dec bool_dec (false :: _) _); congruence.
    + destruct (list_eq_dec bool_dec (true :: _) _); congruence.
    + destruct (list_eq_dec bool_dec (false :: _) _), (list_eq_dec bool_dec (turns _ _ _) _); congruence.
Qed.
Lemma filter_le : forall B (f : B -> bool) l, (length (filter f l) <= length l)%nat.
Proof. intros B f l. induction l as [|a l IH]; cbn [filter length]; [lia|]. destruct (f a); cbn [length]; lia. Qed.
Lemma together_le : forall t d ref x, (0 <= together t d ref x <= Z.of_nat (length ref))%Z.
Proof. intros t d ref x. unfold together. pose proof (filter_le _ (fun y => if list_eq_dec bool_dec (turns d t y) (turns d t x) then true else false) ref). lia. Qed.
Lemma Zsum_app : forall l l', Zsum (l ++ l') = (Zsum l + Zsum l')%Z.
Proof. induction l as [|a l IH]; intros l'; unfold Zsum in *; cbn [app fold_right]; auto. rewrite IH. lia. Qed.
(** From depth k on. *)
Definition from_depth (k n : nat) (t : hst float) (ref : list (list float)) (x : list float) : Z :=
  Zsum (map (fun d => 2 ^ Z.of_nat (k + d) * together t d ref x)%Z (seq 0 (S n))).
Lemma from_depth_bounds : forall k n t ref x, (0 <= from_depth k n t ref x <= Z.of_nat (length ref) * (2 ^ Z.of_nat (k + S n) - 2 ^ Z.of_nat k))%Z.
Proof.
  intros k n t ref x. unfold from_depth. induction n as [|n IH].
  - cbn [seq map]. unfold Zsum. cbn [fold_right]. rewrite together_0, Nat.add_0_r. replace (Z.of_nat (k + 1)) with (Z.succ (Z.of_nat k)) by lia. rewrite Z.pow_succ_r by lia. pose proof (Z.pow_nonneg 2 (Z.of_nat k) ltac:(lia)). nia.
  - rewrite seq_S, map_app, Zsum_app. cbn [map Nat.add]. unfold Zsum at 2 4. cbn [fold_right]. pose proof (together_le t (S n) ref x) as [B1 B2].
    replace (Z.of_nat (k + S (S n))) with (Z.succ (Z.of_nat (k + S n))) by lia. rewrite Z.pow_succ_r by lia. pose proof (Z.pow_nonneg 2 (Z.of_nat (k + S n)) ltac:(lia)). nia.
Qed.
Lemma integral_zero : integral 0%float /\ real 0%float = 0.
Proof. split; [split; [exact finite_zero|exists 0%Z; exact real_zero]|exact real_zero]. Qed.
Lemma integral_ofZ : forall z, (Z.abs z <= 2 ^ 53)%Z -> integral (float_ofZ z) /\ real (float_ofZ z) = IZR z.
Proof. intros z H. destruct (ofZ_real z H) as [F E]. split; auto. split; eauto. Qed.
Lemma opp_real : forall x, finite x -> finite (- x)%float /\ real (- x)%float = - real x.
Proof.
  intros x F. rewrite finite_B in *. rewrite !real_B2R, opp_equiv. rewrite is_finite_Bopp, B2R_Bopp. auto.
Qed.
Lemma score_tree_exact : forall D dim k t cur ref x, complete D dim k t -> (dim <= length x)%nat -> (1 <= dim)%nat -> counted t cur ref ->
  (Z.of_nat (length ref) * (2 ^ Z.of_nat (S D) - 2 ^ Z.of_nat k) <= 2 ^ 53)%Z ->
  exists v, hs_score_tree x t = Ok v /\ integral v /\ real v = IZR (from_depth k (D - k) t ref x).
Proof.
  intros D dim k t cur ref x C Hx Hdim. revert cur ref. induction C as [r l|k L Rt r l q p Hk Hq CL IHL CR IHR]; intros cur ref Hc HB; cbn [hs_score_tree].
  - destruct Hc as (-> & -> & _). rewrite (py_index_nth float NumF) by lia. cbn [rbind]. rewrite Nat.sub_diag.
    assert (PK : (0 < 2 ^ Z.of_nat D)%Z) by (apply Z.pow_pos_nonneg; lia). rewrite Nat2Z.inj_succ, Z.pow_succ_r in HB by lia.
    destruct (integral_ofZ (Z.of_nat (length ref) * 2 ^ Z.of_nat D)) as [I E]; [nia|]. destruct integral_zero as [IZ EZ].
    destruct (add_int (float_ofZ (Z.of_nat (length ref) * 2 ^ Z.of_nat D)) 0%float I IZ) as [IS ES].
    { rewrite E, EZ, Rplus_0_r, <- pow53, <- abs_IZR. apply IZR_le. nia. }
    exists (float_ofZ (Z.of_nat (length ref) * 2 ^ Z.of_nat D) + 0)%float. split; [destruct (oltb _ _); reflexivity|]. split; [exact IS|]. rewrite ES, E, EZ, Rplus_0_r. f_equal.
    unfold from_depth. cbn [seq map]. unfold Zsum. cbn [fold_right]. rewrite together_0, Nat.add_0_r. lia.
  - destruct Hc as (-> & -> & HL & HR). rewrite (py_index_nth float NumF) by lia. cbn [rbind]. change (oltb p (nth q x n0)) with (p <? nth q x 0)%float.
    assert (PK : (0 < 2 ^ Z.of_nat k)%Z) by (apply Z.pow_pos_nonneg; lia).
    assert (LE : (2 ^ Z.of_nat (S k) <= 2 ^ Z.of_nat (S D))%Z) by (apply Z.pow_le_mono_r; lia).
    assert (P2 : (2 ^ Z.of_nat (S k) = 2 * 2 ^ Z.of_nat k)%Z) by (rewrite Nat2Z.inj_succ, Z.pow_succ_r; lia).
    destruct (integral_ofZ (Z.of_nat (length ref) * 2 ^ Z.of_nat k)) as [I E]; [nia|].
    assert (G : forall sub (f : list float -> bool), (forall cur' ref', counted sub cur' ref' -> (Z.of_nat (length ref') * (2 ^ Z.of_nat (S D) - 2 ^ Z.of_nat (S k)) <= 2 ^ 53)%Z -> exists v, hs_score_tree x sub = Ok v /\ integral v /\ real v = IZR (from_depth (S k) (D - S k) sub ref' x)) ->
      counted sub (filter f cur) (filter f ref) -> (forall d, together (HNode L Rt (Z.of_nat (length ref)) (Z.of_nat (length cur)) q p k) (S d) ref x = together sub d (filter f ref) x) ->
      exists v, rmap (fun s => nadd (nofZ (Z.of_nat (length ref) * 2 ^ Z.of_nat k)) s) (hs_score_tree x sub) = Ok v /\ integral v /\
        real v = IZR (from_depth k (D - k) (HNode L Rt (Z.of_nat (length ref)) (Z.of_nat (length cur)) q p k) ref x)).
    { intros sub f IH HC HT. pose proof (filter_le _ f ref) as FL. destruct (IH _ _ HC) as (v & Ev & Iv & Rv); [nia|]. rewrite Ev. cbn [rmap]. 
      pose proof (from_depth_bounds (S k) (D - S k) sub (filter f ref) x) as FB. replace (S k + S (D - S k))%nat with (S D) in FB by lia.
      destruct (add_int (float_ofZ (Z.of_nat (length ref) * 2 ^ Z.of_nat k)) v I Iv) as [IS ES].
      { rewrite E, Rv, <- plus_IZR, <- pow53, <- abs_IZR. apply IZR_le. nia. }
      eexists. split; [reflexivity|]. split; [exact IS|]. cbn [nadd nofZ NumF]. rewrite ES, E, Rv, <- plus_IZR. f_equal.
      unfold from_depth. replace (D - k)%nat with (S (D - S k)) by lia. rewrite <- (cons_seq (S (D - S k)) 0). rewrite <- seq_shift, map_cons, map_map. unfold Zsum. cbn [fold_right]. rewrite together_0, Nat.add_0_r. f_equal; [lia|]. f_equal. apply map_ext. intros d. rewrite HT. f_equal. f_equal. lia. }
    destruct (p <? nth q x 0)%float eqn:Eb.
    + apply (G Rt (fun x => (p <? nth q x 0)%float)); auto. intros d. rewrite together_S, Eb. reflexivity.
    + apply (G L (fun x => negb (p <? nth q x 0)%float)); auto. intros d. rewrite together_S, Eb. reflexivity.
Qed.
Lemma sum_int : forall (vs : list float) (zs : list Z) a z B, (0 <= B)%Z -> integral a -> real a = IZR z -> (0 <= z)%Z -> Forall2 (fun v k => integral v /\ real v = IZR k /\ (0 <= k <= B)%Z) vs zs -> (z + Z.of_nat (length zs) * B <= 2 ^ 53)%Z ->
  integral (fold_left PrimFloat.add vs a) /\ real (fold_left PrimFloat.add vs a) = IZR (z + Zsum zs).
Proof.
  intros vs zs a z B HB Ia Ea Hz F. revert a z Ia Ea Hz. induction F as [|v k vs zs (Iv & Ev & Bk) F IH]; intros a z Ia Ea Hz H; cbn [fold_left].
  - split; auto. rewrite Ea. f_equal. unfold Zsum. cbn. lia.
  - cbn [length] in H. rewrite Nat2Z.inj_succ in H. destruct (add_int a v Ia Iv) as [IS ES]. { rewrite Ea, Ev, <- plus_IZR, <- pow53, <- abs_IZR. apply IZR_le. nia. }
    rewrite Ea, Ev, <- plus_IZR in ES. destruct (IH _ (z + k)%Z IS ES ltac:(lia) ltac:(nia)) as [I E]. split; auto. rewrite E. f_equal. unfold Zsum. cbn [fold_right]. lia.
Qed.
Lemma block_length_le : forall B W i (xs : list B), (length (block W i xs) <= W)%nat.
Proof. intros. unfold block. rewrite firstn_length. lia. Qed.
Lemma counting_length : forall B W (xs : list B), (length (counting W xs) <= W)%nat.
Proof. intros B W xs. unfold counting. destruct (Nat.ltb_spec (length xs) W); [lia|apply block_length_le]. Qed.
Lemma turns_skeleton : forall d t y, turns d (skeleton t) y = turns d t y.
Proof. induction d as [|d IH]; intros t y; destruct t as [|L R' r l q p k]; cbn [turns skeleton]; auto. destruct (p <? nth q y 0)%float; rewrite IH; reflexivity. Qed.
(** As long as window_size * num_trees * (2^(max_depth + 1) - 1) is at most 2^53, every score is computed without any rounding
    error, whatever doubles the instances contain: it is minus the exact number of the specification. *)
Theorem C135_scores_are_exact : forall Y cast draw mins maxes W T D (h : list (mcall (list float) Y)) x, let dim := length maxes in
  length mins = dim -> (1 <= dim)%nat -> (forall i, (draw i < dim)%nat) -> (1 <= W)%nat -> Forall (fun x => (dim <= length x)%nat) (fitted_instances h) -> (dim <= length x)%nat ->
  (Z.of_nat W * Z.of_nat T * (2 ^ Z.of_nat (S D) - 1) <= 2 ^ 53)%Z ->
  exists s0 v, HST_init (Y := Y) cast draw mins maxes W T D IWNone = Ok s0 /\ length (hs_roots s0) = T /\
  eval (md_score (HalfSpaceTrees (Y := Y) W D) x) (model_run (HalfSpaceTrees W D) s0 h) = Ok (VScalar v) /\
  finite v /\ real v = - IZR (Zsum (map (fun t => familiarity D t (counting W (fitted_instances h)) x) (hs_roots s0))).
Proof.
  intros Y cast draw mins maxes W T D h x dim HL Hdim Hq HW F Hx HB. destruct (C53_masses float Y NumF cast draw mins maxes W T D h HL Hdim Hq HW F) as (s0 & E0 & LT & F2 & _). exists s0. cbv zeta in *. fold (counting W (fitted_instances h)) in F2.
  set (xs := fitted_instances h) in *. pose proof (counting_length _ W xs) as LR. set (ref := counting W xs) in *. set (s := model_run (HalfSpaceTrees W D) s0 h) in *. clearbody s.
  set (B := (Z.of_nat W * (2 ^ Z.of_nat (S D) - 1))%Z). assert (P : (2 <= 2 ^ Z.of_nat (S D))%Z) by (rewrite Nat2Z.inj_succ, Z.pow_succ_r by lia; pose proof (Z.pow_pos_nonneg 2 (Z.of_nat D) ltac:(lia) ltac:(lia)); lia).
  assert (G : exists vs, res_map (hs_score_tree x) (hs_roots s) = Ok vs /\ Forall2 (fun v k => integral v /\ real v = IZR k /\ (0 <= k <= B)%Z) vs (map (fun t => familiarity D t ref x) (hs_roots s0))).
  { assert (HT : (length (hs_roots s0) <= T)%nat) by lia. clear LT E0. induction F2 as [|t0 t t0s ts (C & S & K) F2 IH]; cbn [res_map map].
    - exists []. split; auto.
    - cbn [length] in HT. destruct (IH ltac:(lia)) as (vs & Evs & Fvs).
      destruct (score_tree_exact D dim 0 t _ _ x C Hx Hdim K) as (v & Ev & Iv & Rv). { change (2 ^ Z.of_nat 0)%Z with 1%Z. nia. }
      rewrite Ev. cbn [rbind]. rewrite Evs. cbn [rmap]. exists (v :: vs). split; auto. constructor; auto. split; auto. rewrite Nat.sub_0_r in Rv.
      pose proof (from_depth_bounds 0 D t ref x) as FB. change (2 ^ Z.of_nat 0)%Z with 1%Z in FB. cbn [Nat.add] in FB.
      assert (EF : familiarity D t0 ref x = from_depth 0 D t ref x). { unfold familiarity, from_depth. f_equal. apply map_ext. intros d. cbn [Nat.add]. f_equal. subst t0. unfold together. do 2 f_equal. apply filter_ext. intros y. rewrite !turns_skeleton. reflexivity. }
      rewrite EF. split; [exact Rv|]. unfold B. nia. }
  destruct G as (vs & Evs & Fvs). destruct integral_zero as [IZ EZ].
  destruct (sum_int vs _ 0%float 0%Z B ltac:(unfold B; nia) IZ EZ ltac:(lia) Fvs) as [[FS _] ES]. { rewrite map_length, LT. unfold B. nia. }
  destruct (opp_real _ FS) as [FO EO]. eexists. split; [exact E0|]. split; [exact LT|]. split.
  - unfold eval. cbn [md_score HalfSpaceTrees plain_model]. unfold bind, gets, lift. rewrite Evs. reflexivity.
  - change (nneg (nsum vs)) with (- fold_left PrimFloat.add vs 0)%float. split; [exact FO|]. rewrite EO, ES. f_equal.
Qed.
Print Assumptions C135_scores_are_exact.

(** ** The cuts *)
(** Doubles a <= b, far enough from overflow that their sum is representable. *)
Definition range (a b : float) : Prop := finite a /\ finite b /\ real a <= real b /\ Rabs (real a) <= 2 ^ 1022 /\ Rabs (real b) <= 2 ^ 1022.
Definition box (lo hi : list float) : Prop := length lo = length hi /\ forall i, (i < length lo)%nat -> range (nth i lo 0%float) (nth i hi 0%float).
(** A double in the range, within two roundings of its middle. *)
Definition middle (a b p : float) : Prop :=
  finite p /\ real a <= real p <= real b /\ Rabs (real p - (real a + real b) / 2) <= 3 * u * Rabs ((real a + real b) / 2) + / 2 ^ 1075.
(** A tree whose nodes cut their box at such a double in one feature: the left child has what is below, the right child what is
    above. *)
Inductive cutting (D : nat) : nat -> list float -> list float -> hst float -> Prop :=
| cutting_leaf : forall lo hi, cutting D D lo hi (HNode HNone HNone 0 0 0 0%float D)
| cutting_node : forall k lo hi L Rt q p, (k < D)%nat -> (q < length lo)%nat -> middle (nth q lo 0%float) (nth q hi 0%float) p ->
    cutting D (S k) lo (set_nth q p hi) L -> cutting D (S k) (set_nth q p lo) hi Rt -> cutting D k lo hi (HNode L Rt 0 0 q p k).
Lemma twice_fmt : forall r, fmt r -> fmt (r * 2).
Proof. intros r H. change 2 with (bpow radix2 1). apply mult_bpow_pos_exact_FLT; [exact H|lia]. Qed.
Lemma fl_twice : forall x, fl (real x * 2) = real x * 2.
Proof. intros x. apply fl_fmt, twice_fmt, real_fmt. Qed.
Lemma pow_bound : 2 ^ 1022 + 2 ^ 1022 <= bpow radix2 1023.
Proof.
  replace (2 ^ 1022 + 2 ^ 1022) with (2 ^ 1023) by (change 1023%nat with (S 1022); rewrite <- tech_pow_Rmult; ring).
  change (bpow radix2 1023) with (bpow radix2 (Z.of_nat 1023)). rewrite bpow_powerRZ, <- pow_powerRZ. apply Rle_refl.
Qed.
Lemma two_real : finite 2%float /\ real 2%float = 2.
Proof. apply (ofZ_real 2). lia. Qed.
Lemma cut_middle : forall a b, range a b -> middle a b ((b + a) / 2)%float.
Proof.
  intros a b (Fa & Fb & L & Ba & Bb). destruct two_real as [F2 E2].
  assert (S : finite (b + a)%float /\ real (b + a)%float = fl (real b + real a)).
  { pose proof Fa as Fa'. pose proof Fb as Fb'. rewrite finite_B in Fa', Fb'. rewrite finite_B, !real_B2R, add_equiv.
    assert (LT : Rabs (fl (real b + real a)) < bpow radix2 1024). { apply fl_lt_max. eapply Rle_trans; [apply Rabs_triang|]. pose proof pow_bound. lra. }
    pose proof (Bplus_correct 53 1024 Hprec Hmax mode_NE (Prim2B b) (Prim2B a) Fb' Fa') as Q. rewrite !real_B2R in LT.
    change (round radix2 (SpecFloat.fexp 53 1024) (round_mode mode_NE) (B2R (Prim2B b) + B2R (Prim2B a))) with (fl (B2R (Prim2B b) + B2R (Prim2B a))) in Q.
    rewrite Rlt_bool_true in Q by exact LT. destruct Q as (Q1 & Q2 & _). split; [exact Q2|exact Q1]. }
  destruct S as [Fs Es]. 
  assert (LO : real a * 2 <= fl (real b + real a)) by (rewrite <- fl_twice; apply fl_le; lra).
  assert (HI : fl (real b + real a) <= real b * 2) by (rewrite <- fl_twice; apply fl_le; lra).
  assert (LO' : real a <= fl (fl (real b + real a) / 2)) by (apply fl_above; [apply real_fmt|lra]).
  assert (HI' : fl (fl (real b + real a) / 2) <= real b) by (apply fl_below; [apply real_fmt|lra]).
  destruct (div_real (b + a)%float 2%float Fs ltac:(lra)) as [Fp Ep].
  { rewrite Es, E2. assert (B : - 2 ^ 1022 <= fl (fl (real b + real a) / 2) <= 2 ^ 1022). { apply Rabs_le_inv in Ba. apply Rabs_le_inv in Bb. lra. }
    apply Rle_lt_trans with (2 ^ 1022); [apply Rabs_le; lra|]. pose proof pow_bound. pose proof (pow_lt 2 1022 ltac:(lra)). pose proof (bpow_lt radix2 1023 1024 ltac:(lia)). lra. }
  rewrite Es, E2 in Ep. split; [exact Fp|]. rewrite Ep. split; [lra|].
  destruct (fl_plus_error (real b) (real a) (real_fmt b) (real_fmt a)) as (e1 & B1 & Q1). destruct (fl_error (fl (real b + real a) / 2)) as (e2 & h2 & B2 & B3 & Q2).
  rewrite Q2, Q1. set (m := (real a + real b) / 2). replace ((real b + real a) * (1 + e1) / 2 * (1 + e2) + h2 - m) with (m * (e1 + e2 + e1 * e2) + h2) by (unfold m; field).
  eapply Rle_trans; [apply Rabs_triang|]. apply Rplus_le_compat; [|exact B3]. rewrite Rabs_mult, Rmult_comm. apply Rmult_le_compat_r; [apply Rabs_pos|].
  assert (U : 0 < u < 1). { split; [apply u_pos|]. pose proof small_numbers as (? & _). lra. }
  assert (M : Rabs (e1 * e2) <= u). { rewrite Rabs_mult. pose proof (Rabs_pos e1). pose proof (Rabs_pos e2). nra. }
  pose proof (Rabs_triang (e1 + e2) (e1 * e2)). pose proof (Rabs_triang e1 e2). lra.
Qed.
Lemma nth_set_nthF : forall (l : list float) q p i, (q < length l)%nat -> nth i (set_nth q p l) 0%float = if (i =? q)%nat then p else nth i l 0%float.
Proof. intros l q p i H. destruct (Nat.eqb_spec i q); [subst; apply nth_set_nth_eq; auto|apply nth_set_nth_neq; auto]. Qed.
Lemma middle_bound : forall a b p, range a b -> middle a b p -> range a p /\ range p b.
Proof.
  intros a b p (Fa & Fb & L & Ba & Bb) (Fp & (L1 & L2) & _). assert (Bp : Rabs (real p) <= 2 ^ 1022). { apply Rabs_le_inv in Ba. apply Rabs_le_inv in Bb. apply Rabs_le. lra. }
  unfold range. repeat split; auto.
Qed.
Lemma box_split : forall lo hi q p, box lo hi -> (q < length lo)%nat -> middle (nth q lo 0%float) (nth q hi 0%float) p -> box lo (set_nth q p hi) /\ box (set_nth q p lo) hi.
Proof.
  intros lo hi q p [HL H] Hq M. destruct (middle_bound _ _ _ (H q Hq) M) as [R1 R2]. split; (split; [rewrite ?set_nth_length; auto|]); intros i Hi; rewrite ?set_nth_length in Hi; rewrite nth_set_nthF by lia; destruct (Nat.eqb_spec i q); subst; auto.
Qed.
Lemma build_cutting : forall D draw n lo hi k i, box lo hi -> (forall i, (draw i < length hi)%nat) -> (1 <= length hi)%nat \/ n = 0%nat -> (k + n = D)%nat ->
  exists t i', hs_build (fun a : float => a) draw n lo hi k i = (Ok t, i') /\ cutting D k lo hi t.
Proof.
  intros D draw n. induction n as [|n IH]; intros lo hi k i HB Hq Hdim Hk; cbn [hs_build].
  - unfold ret. replace D with k by lia. eexists _, _. split; [reflexivity|constructor].
  - pose proof (proj1 HB) as HL. destruct Hdim as [Hdim|]; [|lia]. unfold bind at 1, gets. unfold bind at 1. destruct (Nat.eqb_spec (length hi) 0) as [|_]; [lia|]. unfold modify. cbn iota. unfold bind at 1, lift. rewrite (py_index_nth float NumF hi) by auto. unfold bind at 1. rewrite (py_index_nth float NumF lo) by (rewrite HL; auto).
    set (p := ndiv (nadd (nth (draw i) hi n0) (nth (draw i) lo n0)) (nofZ 2)).
    assert (Hd : (draw i < length lo)%nat) by (rewrite HL; auto).
    assert (M : middle (nth (draw i) lo 0%float) (nth (draw i) hi 0%float) p) by (apply cut_middle; apply (proj2 HB); auto).
    destruct (box_split lo hi (draw i) p HB Hd M) as [B1 B2].
    destruct (IH lo (set_nth (draw i) p hi) (S k) (S i)) as (L & i1 & EL & CL); rewrite ?set_nth_length; auto; try lia. unfold bind at 1. rewrite EL.
    destruct (IH (set_nth (draw i) p lo) hi (S k) i1) as (Rt & i2 & ER & CR); rewrite ?set_nth_length; auto; try lia. unfold bind at 1. rewrite ER.
    eexists _, _. split; [reflexivity|]. constructor; auto; lia.
Qed.
(** With bounds that are doubles of at most 2^1022 in absolute value, the minimum not above the maximum, every tree cuts the box
    given to the constructor: no cut leaves its box although the middle is rounded. *)
Theorem C135_cuts_stay_inside : forall Y draw mins maxes W T D, box mins maxes -> (1 <= length maxes)%nat -> (forall i, (draw i < length maxes)%nat) ->
  exists s, HST_init (Y := Y) (fun a : float => a) draw mins maxes W T D IWNone = Ok s /\ length (hs_roots s) = T /\ Forall (cutting D 0 mins maxes) (hs_roots s).
Proof.
  intros Y draw mins maxes W T D HB Hdim Hq. unfold HST_init. cbn [iw_truth rbind].
  assert (G : forall l i, exists ts, fst (mapM (fun _ : nat => hs_build (fun a : float => a) draw D mins maxes 0) l i) = Ok ts /\ length ts = length l /\ Forall (cutting D 0 mins maxes) ts).
  { induction l as [|a l IH]; intros i; cbn [mapM]; [exists []; auto|]. destruct (build_cutting D draw D mins maxes 0 i HB Hq (or_introl Hdim) ltac:(lia)) as (t & i' & E & C). unfold bind at 1. rewrite E. unfold bind. specialize (IH i'). destruct (mapM _ l i') as [o i''] eqn:Em. destruct IH as (ts & E' & L' & F'). cbn [fst] in E'. subst o. exists (t :: ts). cbn. auto. }
  destruct (G (seq 0 T) 0%nat) as (ts & E & L & F). rewrite E. cbn [rbind]. eexists. split; [reflexivity|]. cbn [hs_roots]. rewrite L, seq_length. auto.
Qed.
Print Assumptions C135_cuts_stay_inside.
(** The box of the node reached by a list of decisions. *)
Fixpoint room (t : hst float) (path : list bool) (lo hi : list float) : list float * list float :=
  match t, path with
  | HNode L Rt _ _ q p _, b :: path' => if b then room Rt path' (set_nth q p lo) hi else room L path' lo (set_nth q p hi)
  | _, _ => (lo, hi)
  end.
Definition inside (lo hi x : list float) : Prop := forall i, (i < length lo)%nat -> finite (nth i x 0%float) /\ real (nth i lo 0%float) <= real (nth i x 0%float) <= real (nth i hi 0%float).
Lemma stay : forall D k mins maxes t x d, cutting D k mins maxes t -> (d <= D - k)%nat -> box mins maxes -> inside mins maxes x ->
  let '(lo, hi) := room t (turns d t x) mins maxes in box lo hi /\ length lo = length mins /\ inside lo hi x /\
  forall i, (i < length mins)%nat -> real (nth i mins 0%float) <= real (nth i lo 0%float) /\ real (nth i hi 0%float) <= real (nth i maxes 0%float).
Proof.
  intros D k mins maxes t x d C. revert d. induction C as [lo hi|k lo hi L Rt q p Hk Hq M CL IHL CR IHR]; intros d Hd HB HI.
  - destruct d as [|d]; [|lia]. cbn [turns room]. split; [exact HB|]. split; [reflexivity|]. split; [exact HI|]. intros; lra.
  - destruct d as [|d]; cbn [turns room].
    { split; [exact HB|]. split; [reflexivity|]. split; [exact HI|]. intros; lra. }
    destruct (box_split lo hi q p HB Hq M) as [B1 B2]. destruct M as (Fp & (M1 & M2) & _). destruct (HI q Hq) as (Fx & X1 & X2). pose proof (proj1 HB) as HL.
    pose proof (ltb_real p (nth q x 0%float) Fp Fx) as LT.
    destruct (p <? nth q x 0)%float eqn:Eb.
    + assert (I2 : inside (set_nth q p lo) hi x). { intros i Hi. rewrite set_nth_length in Hi. rewrite nth_set_nthF by lia. destruct (HI i Hi) as (? & ? & ?). destruct (Nat.eqb_spec i q); [subst|auto]. split; auto. split; [|auto]. apply proj1 in LT. specialize (LT eq_refl). lra. }
      specialize (IHR d ltac:(lia) B2 I2). destruct (room Rt (turns d Rt x) (set_nth q p lo) hi) as [lo' hi']. rewrite set_nth_length in IHR. destruct IHR as (Q1 & Q2 & Q3 & Q4). split; [exact Q1|]. split; [exact Q2|]. split; [exact Q3|]. intros i Hi. specialize (Q4 i Hi). destruct Q4 as [Q4 Q5].
      rewrite nth_set_nthF in Q4 by lia. destruct (Nat.eqb_spec i q); [subst; split; [lra|exact Q5]|auto].
    + assert (LE : real (nth q x 0%float) <= real p). { destruct (Rle_or_lt (real (nth q x 0%float)) (real p)) as [Q|Q]; auto. apply LT in Q. discriminate. }
      assert (I1 : inside lo (set_nth q p hi) x). { intros i Hi. rewrite nth_set_nthF by lia. destruct (HI i Hi) as (? & ? & ?). destruct (Nat.eqb_spec i q); [subst|auto]. auto. }
      specialize (IHL d ltac:(lia) B1 I1). destruct (room L (turns d L x) lo (set_nth q p hi)) as [lo' hi']. destruct IHL as (Q1 & Q2 & Q3 & Q4). split; [exact Q1|]. split; [exact Q2|]. split; [exact Q3|]. intros i Hi. specialize (Q4 i Hi). destruct Q4 as [Q4 Q5].
      rewrite nth_set_nthF in Q5 by lia. destruct (Nat.eqb_spec i q); [subst; split; [exact Q4|lra]|auto].
Qed.
(** In such a tree, an instance of the box lies, at every depth, in the box of the node it is sent to, and that box lies in the
    box given to the constructor. *)
Theorem C135_instances_stay_in_their_cells : forall D mins maxes t x d, cutting D 0 mins maxes t -> (d <= D)%nat -> box mins maxes -> inside mins maxes x ->
  let '(lo, hi) := room t (turns d t x) mins maxes in inside lo hi x /\ length lo = length mins /\
  forall i, (i < length mins)%nat -> real (nth i mins 0%float) <= real (nth i lo 0%float) <= real (nth i hi 0%float) /\ real (nth i hi 0%float) <= real (nth i maxes 0%float).
Proof.
  intros D mins maxes t x d C Hd HB HI. pose proof (stay D 0 mins maxes t x d C ltac:(lia) HB HI) as G. destruct (room t (turns d t x) mins maxes) as [lo hi]. destruct G as ((HL & HR) & E & I & N).
  split; auto. split; auto. intros i Hi. destruct (N i Hi) as [N1 N2]. destruct (HR i ltac:(lia)) as (_ & _ & ? & _). auto.
Qed.
Print Assumptions C135_instances_stay_in_their_cells.

(** ** What goes wrong otherwise *)
Lemma inf_ltb : forall x, (infinity <? x)%float = false.
Proof. intros x. rewrite FloatAxioms.ltb_spec. change (Prim2SF infinity) with (S754_infinity false). destruct (Prim2SF x) as [s|s| |s m e]; try reflexivity; destruct s; reflexivity. Qed.
(** A complete tree of n levels of decisions. *)
Inductive depth_is : nat -> hst float -> Prop :=
| depth_leaf : forall q p k, depth_is 0 (HNode HNone HNone 0 0 q p k)
| depth_node : forall n L Rt q p k, depth_is n L -> depth_is n Rt -> depth_is (S n) (HNode L Rt 0 0 q p k).
Inductive blind : hst float -> Prop :=
| blind_none : blind HNone
| blind_leaf : forall D, blind (HNode HNone HNone 0 0 0 0%float D)
| blind_node : forall L Rt q k, blind L -> blind Rt -> blind (HNode L Rt 0 0 q infinity k).
Lemma build_blind : forall n lo hi k i, In lo [1.5e308; infinity]%float -> In hi [1.7e308; infinity]%float -> exists t i', hs_build (fun a : float => a) (fun _ => 0%nat) n [lo] [hi] k i = (Ok t, i') /\ depth_is n t /\ blind t.
Proof.
  induction n as [|n IH]; intros lo hi k i Hl Hh; cbn [hs_build].
  - eexists _, _. split; [reflexivity|]. split; constructor.
  - unfold bind at 1, gets. unfold bind at 1. cbn [length Nat.eqb]. unfold modify. cbn iota. unfold bind at 1, lift. cbn [py_index nth_error]. unfold bind at 1. cbn [set_nth].
    assert (E : ndiv (nadd hi lo) (nofZ 2) = infinity). { destruct Hl as [<-|[<-|[]]]; destruct Hh as [<-|[<-|[]]]; vm_compute; reflexivity. }
    rewrite E. destruct (IH lo infinity (S k) (S i)) as (L & i1 & EL & CL & BL); [auto|right; left; reflexivity|]. unfold bind at 1. rewrite EL.
    destruct (IH infinity hi (S k) i1) as (Rt & i2 & ER & CR & BR); [right; left; reflexivity|auto|]. unfold bind at 1. rewrite ER. eexists _, _. split; [reflexivity|]. split; constructor; auto.
Qed.
(** Every two instances take the same decisions, up to the leaves. *)
Definition undiscerning (D : nat) (t : hst float) : Prop := forall d x x', (d <= D)%nat -> turns d t x = turns d t x'.
Lemma blind_turns : forall n t, depth_is n t -> blind t -> undiscerning n t.
Proof.
  intros n t C. induction C as [q p k|n L Rt q p k CL IHL CR IHR]; intros B d x x' Hd.
  - destruct d; [reflexivity|lia].
  - destruct d as [|d]; [reflexivity|]. inversion B; subst; [inversion CL|]. cbn [turns]. rewrite !inf_ltb. f_equal. apply IHL; auto. lia.
Qed.
(** Bounds whose sum overflows make every cut infinite: every two instances take the same decisions in every tree, whatever the depth,
    so they are scored alike. *)
Theorem C135_large_bounds_refuted : forall Y W T D, exists s, HST_init (Y := Y) (fun a : float => a) (fun _ => 0%nat) [1.5e308%float] [1.7e308%float] W T D IWNone = Ok s /\ length (hs_roots s) = T /\
  forall t, In t (hs_roots s) -> undiscerning D t.
Proof.
  intros Y W T D. unfold HST_init. cbn [iw_truth rbind].
  assert (G : forall l i, exists ts, fst (mapM (fun _ : nat => hs_build (fun a : float => a) (fun _ => 0%nat) D [1.5e308%float] [1.7e308%float] 0) l i) = Ok ts /\ length ts = length l /\ Forall (undiscerning D) ts).
  { induction l as [|a l IH]; intros i; cbn [mapM]; [exists []; auto|]. destruct (build_blind D 1.5e308 1.7e308 0 i (or_introl eq_refl) (or_introl eq_refl)) as (t & i' & E & C & B). unfold bind at 1. rewrite E. unfold bind. specialize (IH i'). destruct (mapM _ l i') as [o i''] eqn:Em. destruct IH as (ts & E' & L' & F'). cbn [fst] in E'. subst o. exists (t :: ts). split; [reflexivity|]. split; [cbn; congruence|]. constructor; auto. apply blind_turns; auto. }
  destruct (G (seq 0 T) 0%nat) as (ts & E & L & F). rewrite E. cbn [rbind]. eexists. split; [reflexivity|]. cbn [hs_roots]. rewrite L, seq_length. split; [reflexivity|]. intros t Ht. rewrite Forall_forall in F. auto.
Qed.
Print Assumptions C135_large_bounds_refuted.
(** Between neighbouring doubles there is nothing to cut: the cut is one of the bounds, and one child has the same box again. *)
Theorem C135_progress_refuted : exists a b : float, range a b /\ real a < real b /\ ((b + a) / 2)%float = a.
Proof.
  exists 1%float, 0x1.0000000000001p0%float. destruct (ofZ_real 1 ltac:(lia)) as [F E]. change (float_ofZ 1) with 1%float in *.
  assert (E' : real 0x1.0000000000001p0%float = 1 + / 2 ^ 52). { unfold real. change (Prim2SF 0x1.0000000000001p0%float) with (S754_finite false 4503599627370497 (-52)). cbn [powerRZ Pos.to_nat]. change (Pos.to_nat 52) with 52%nat. replace (2 ^ 52) with (IZR 4503599627370496) by (rewrite (pow_IZR 2 52); reflexivity). lra. }
  assert (P : 1 <= 2 ^ 52) by (apply pow_R1_Rle; lra). assert (Q : 0 < / 2 ^ 52 <= 1). { split; [apply Rinv_0_lt_compat; lra|]. rewrite <- Rinv_1. apply Rinv_le_contravar; lra. }
  assert (B : 2 <= 2 ^ 1022). { change 1022%nat with (S 1021). rewrite <- tech_pow_Rmult. pose proof (pow_R1_Rle 2 1021 ltac:(lra)). lra. }
  split; [|split; [lra|vm_compute; reflexivity]]. unfold range. rewrite E, E'. split; [exact F|]. split; [reflexivity|]. rewrite !Rabs_pos_eq by lra. lra.
Qed.
Print Assumptions C135_progress_refuted.
(** The default parameters are far from the limit, and the theorems apply to them; a box and an instance in it. *)
Lemma small_range : forall a b, (Z.abs a <= 2 ^ 53)%Z -> (Z.abs b <= 2 ^ 53)%Z -> (a <= b)%Z -> range (float_ofZ a) (float_ofZ b).
Proof.
  intros a b Ha Hb L. destruct (ofZ_real a Ha) as [Fa Ea]. destruct (ofZ_real b Hb) as [Fb Eb].
  assert (B : forall z, (Z.abs z <= 2 ^ 53)%Z -> Rabs (IZR z) <= 2 ^ 1022). { intros z Hz. rewrite <- abs_IZR. apply Rle_trans with (IZR (2 ^ 53)); [apply IZR_le; auto|]. rewrite pow53. apply Rle_pow; [lra|lia]. }
  unfold range. rewrite Ea, Eb. repeat split; auto. apply IZR_le. auto.
Qed.
Example C135_ex : (Z.of_nat 100 * Z.of_nat 25 * (2 ^ Z.of_nat 16 - 1) <= 2 ^ 53)%Z /\ box [0; -1]%float [1; 3]%float /\ inside [0; -1]%float [1; 3]%float [1; 2]%float.
Proof.
  split; [vm_compute; discriminate|]. split.
  - split; [reflexivity|]. intros i Hi. destruct i as [|[|i]]; [exact (small_range 0 1 ltac:(lia) ltac:(lia) ltac:(lia))|exact (small_range (-1) 3 ltac:(lia) ltac:(lia) ltac:(lia))|cbn in Hi; lia].
  - intros i Hi. destruct (ofZ_real 0 ltac:(lia)) as [F0 E0]. destruct (ofZ_real 1 ltac:(lia)) as [F1 E1]. destruct (ofZ_real (-1) ltac:(lia)) as [F2 E2]. destruct (ofZ_real 3 ltac:(lia)) as [F3 E3]. destruct (ofZ_real 2 ltac:(lia)) as [F4 E4].
    destruct i as [|[|i]]; [| |cbn in Hi; lia].
    + split; [exact F1|]. change (real (float_ofZ 0) <= real (float_ofZ 1) <= real (float_ofZ 1)). lra.
    + split; [exact F4|]. change (real (float_ofZ (-1)) <= real (float_ofZ 2) <= real (float_ofZ 3)). lra.
Qed.
(** A detector on that box: after three instances the score of the second one is exactly -18. *)
Example C135_case : let x1 := [0.25; 0]%float in let x2 := [0.75; 2.5]%float in
  exists s0, HST_init (Y := unit) (fun a : float => a) (fun i => (i mod 2)%nat) [0; -1]%float [1; 3]%float 100 2 2 IWNone = Ok s0 /\
  eval (md_score (HalfSpaceTrees (Y := unit) 100 2) x2) (model_run (HalfSpaceTrees 100 2) s0 [CFit x1 None; CFitScore x2 None; CFit x1 None]) = Ok (VScalar (-18)%float) /\
  map (fun t => familiarity 2 t [x1; x2; x1] x2) (hs_roots s0) = [9; 9]%Z.
Proof. cbv zeta. eexists. split; [reflexivity|]. split; vm_compute; reflexivity. Qed.
