(** * C120: how far VarianceMeter is from the variance on IEEE-754 binary64. *)
From Coq Require Import List ZArith Lia Bool Arith Permutation.
From Coq Require Import Reals Lra Psatz.
From Flocq Require Import Core Relative Plus_error BinarySingleNaN PrimFloat.
From Coq Require Import Floats Uint63.
From Verif Require Import Base Num Spec Model_Core Model_Stats Model_Post P_Lists P_Stats P_Float Prop_Stats Prop_Rounding Prop_Cap.
Import ListNotations.
Open Scope R_scope.

(** ** Specification: [real], [finite] of P_Float, [integral] of Prop_Rounding, [mean], [variance] of Spec, and: *)
Definition mean_square (l : list R) : R := mean (map (fun x => x ^ 2) l).

(** ** Multiplication and subtraction *)
Lemma mul_real : forall a b, finite (a * b)%float -> finite a /\ finite b /\ real (a * b)%float = fl (real a * real b).
Proof.
  intros a b H. rewrite finite_B, mul_equiv in H.
  assert (F : BinarySingleNaN.is_finite (Prim2B a) = true /\ BinarySingleNaN.is_finite (Prim2B b) = true). { destruct (Prim2B a) as [[]|[]| |? ? ? ?], (Prim2B b) as [[]|[]| |? ? ? ?]; try discriminate H; auto. }
  destruct F as [Fa Fb]. split; [apply finite_B; auto|]. split; [apply finite_B; auto|].
  pose proof (Bmult_correct _ _ Hprec Hmax mode_NE (Prim2B a) (Prim2B b)) as C. destruct (Rlt_bool _ _).
  - destruct C as [C _]. rewrite !real_B2R, mul_equiv. exact C.
  - exfalso. rewrite <- is_finite_SF_B2SF in H. rewrite C in H. discriminate H.
Qed.
Lemma sub_real : forall a b, finite (a - b)%float -> finite a /\ finite b /\ real (a - b)%float = fl (real a - real b).
Proof.
  intros a b H. rewrite finite_B, sub_equiv in H.
  assert (F : BinarySingleNaN.is_finite (Prim2B a) = true /\ BinarySingleNaN.is_finite (Prim2B b) = true). { destruct (Prim2B a) as [[]|[]| |? ? ? ?], (Prim2B b) as [[]|[]| |? ? ? ?]; try discriminate H; auto. }
  destruct F as [Fa Fb]. split; [apply finite_B; auto|]. split; [apply finite_B; auto|].
  pose proof (Bminus_correct _ _ Hprec Hmax mode_NE (Prim2B a) (Prim2B b) Fa Fb) as C. destruct (Rlt_bool _ _).
  - destruct C as [C _]. rewrite !real_B2R, sub_equiv. exact C.
  - exfalso. destruct C as [C _]. rewrite <- is_finite_SF_B2SF in H. rewrite C in H. discriminate H.
Qed.
Lemma opp_fmt : forall r, generic_format radix2 (FLT_exp (-1074) 53) r -> generic_format radix2 (FLT_exp (-1074) 53) (- r).
Proof. intros. apply generic_format_opp; auto. Qed.

(** ** What the meter computes *)
Lemma var_state : forall (xs : list float) s, let s' := fold_left (mt_do VarianceMeter) (map Upd xs) s in
  ss_sum (vs_sum s') = fsum (ss_sum (vs_sum s)) xs /\ ss_sum (vs_sq s') = fsum (ss_sum (vs_sq s)) (map (fun x => x * x)%float xs) /\ vs_cnt s' = (vs_cnt s + Z.of_nat (length xs))%Z.
Proof.
  induction xs as [|x xs IH]; intros s s'; [split; [reflexivity|split; [reflexivity|cbn; lia]]|].
  unfold s'. cbn [map fold_left]. destruct (IH (mt_do VarianceMeter s (Upd x))) as (E1 & E2 & E3). rewrite E1, E2, E3. split; [reflexivity|]. split; [reflexivity|]. cbn [length]. rewrite Nat2Z.inj_succ. cbn. lia.
Qed.
Lemma var_answer : forall xs : list float, xs <> [] -> let n := float_ofZ (Z.of_nat (length xs)) in
  mt_answer VarianceMeter (map Upd xs) = Ok ((fsum 0 (map (fun x => x * x) xs) - fsum 0 xs * fsum 0 xs / n) / n)%float.
Proof.
  intros xs Hx n. unfold mt_answer, mt_run. destruct (var_state xs (mt_init VarianceMeter)) as (E1 & E2 & E3). set (s := fold_left _ _ _) in *. cbn in E1, E2, E3.
  unfold eval. cbn [mt_get VarianceMeter]. unfold bind, zoom, lift, gets. cbn [mt_get SumMeter SumSquaresMeter CountMeter]. unfold gets. destruct s as [sm sq cnt]. cbn [vs_sum vs_sq vs_cnt set_vs_sum set_vs_sq set_vs_cnt] in *.
  rewrite E1, E2. subst cnt. unfold div_int. change (0 + Z.of_nat (length xs))%Z with (Z.of_nat (length xs)). destruct (Z.eqb_spec (Z.of_nat (length xs)) 0) as [Z|_]; [destruct xs; cbn in Z; [congruence|lia]|]. reflexivity.
Qed.

Lemma rsum_cons : forall x l, Rsum (x :: l) = x + Rsum l.
Proof. reflexivity. Qed.

Lemma div_nonneg : forall a b, 0 <= a -> 0 < b -> 0 <= a / b.
Proof. intros. unfold Rdiv. apply Rmult_le_pos; auto. left. apply Rinv_0_lt_compat; auto. Qed.
Lemma div_le : forall a b c, 0 < c -> a <= b * c -> a / c <= b.
Proof. intros a b c H L. apply (Rmult_le_reg_r c); auto. unfold Rdiv. rewrite Rmult_assoc, Rinv_l by lra. lra. Qed.

(** ** General data *)
Lemma gam_add : forall a b, (1 + gam a) * (1 + gam b) = 1 + gam (a + b).
Proof. intros. unfold gam. rewrite pow_add. ring. Qed.
Definition h0 : R := / 2 ^ 1075.
Lemma h0_pos : 0 < h0.
Proof. unfold h0. apply Rinv_0_lt_compat, pow_lt. lra. Qed.
(** One rounding of a value known up to [g A + e]. *)
Lemma round_once : forall k A T e r, 0 <= A -> Rabs T <= A -> 0 <= e -> Rabs (r - T) <= gam k * A + e -> Rabs (fl r - T) <= gam (S k) * A + (1 + u) * e + h0.
Proof.
  intros k A T e r HA HT He H. destruct (fl_error r) as (ep & et & H1 & H2 & ->). fold h0 in H2.
  replace (r * (1 + ep) + et - T) with ((r - T) + (ep * ((r - T) + T) + et)) by ring.
  pose proof (Rabs_triang (r - T) (ep * (r - T + T) + et)) as G1. pose proof (Rabs_triang (ep * (r - T + T)) et) as G2. rewrite Rabs_mult in G2. pose proof (Rabs_triang (r - T) T) as G3. pose proof (Rabs_pos (r - T + T)) as G4. pose proof (Rabs_pos ep) as G5.
  assert (G6 : Rabs ep * Rabs (r - T + T) <= u * (gam k * A + e + A)) by (apply Rmult_le_compat; auto; lra). rewrite gam_S. nra.
Qed.
Lemma sumsq_error : forall xs : list float, finite (fsum 0 (map (fun x => x * x)%float xs)) -> let A := Rsum (map (fun x => real x ^ 2) xs) in let n := length xs in (1 <= n)%nat ->
  Forall finite xs /\ Rabs (real (fsum 0 (map (fun x => x * x)%float xs)) - A) <= gam n * A + INR n * ((1 + gam (n - 1)) * h0).
Proof.
  intros xs F A n Hn. destruct (fsum0_error _ F) as [Fx B]. rewrite map_length in B. fold n in B.
  assert (Fy : Forall (fun x => finite x /\ real (x * x)%float = fl (real x * real x)) xs).
  { clear - Fx. induction xs as [|x xs IH]; cbn [map] in Fx; [constructor|]. apply Forall_cons_iff in Fx. destruct Fx as [F1 F2]. constructor; auto. destruct (mul_real _ _ F1) as (Q1 & _ & Q2). auto. }
  split; [eapply Forall_impl; [|exact Fy]; intros x [Q _]; exact Q|].
  rewrite !map_map in B. assert (P : forall x, finite x /\ real (x * x)%float = fl (real x * real x) -> Rabs (real (x * x)%float - real x ^ 2) <= u * real x ^ 2 + h0).
  { intros x [_ ->]. destruct (fl_error (real x * real x)) as (ep & et & H1 & H2 & ->). fold h0 in H2. replace (real x * real x * (1 + ep) + et - real x ^ 2) with (ep * real x ^ 2 + et) by ring. eapply Rle_trans; [apply Rabs_triang|]. rewrite Rabs_mult, (Rabs_pos_eq (real x ^ 2)) by apply pow2_ge_0. pose proof (pow2_ge_0 (real x)). nra. }
  assert (S1 : Rabs (Rsum (map (fun x => real (x * x)%float) xs) - A) <= u * A + INR n * h0).
  { unfold A, n. clear - Fy P. induction Fy as [|x xs Hx Fy IH]; [unfold Rsum; cbn; rewrite Rminus_0_r, Rabs_R0; lra|]. cbn [map length]. rewrite !rsum_cons, S_INR. specialize (P x Hx).
    match goal with |- Rabs (?a + ?b - (?c + ?d)) <= _ => replace (a + b - (c + d)) with ((a - c) + (b - d)) by ring end. eapply Rle_trans; [apply Rabs_triang|]. lra. }
  assert (S2 : Rsum (map (fun x => Rabs (real (x * x)%float)) xs) <= (1 + u) * A + INR n * h0).
  { unfold A, n. clear - Fy P. induction Fy as [|x xs Hx Fy IH]; [unfold Rsum; cbn; lra|]. cbn [map length]. rewrite !rsum_cons, S_INR. specialize (P x Hx).
    assert (Rabs (real (x * x)%float) <= (1 + u) * real x ^ 2 + h0). { replace (real (x * x)%float) with ((real (x * x)%float - real x ^ 2) + real x ^ 2) by ring. eapply Rle_trans; [apply Rabs_triang|]. rewrite (Rabs_pos_eq (real x ^ 2)) by apply pow2_ge_0. lra. }
    lra. }
  pose proof (gam_pos (n - 1)) as G. assert (Gn : gam n = gam (n - 1) * (1 + u) + u). { replace (gam n) with (gam (S (n - 1))) by (f_equal; lia). rewrite gam_S. ring. } rewrite Gn.
  match type of B with Rabs (?a - ?b) <= _ => replace (a - A) with ((a - b) + (b - A)) by ring end. eapply Rle_trans; [apply Rabs_triang|].
  assert (gam (n - 1) * Rsum (map (fun x => Rabs (real (x * x)%float)) xs) <= gam (n - 1) * ((1 + u) * A + INR n * h0)) by (apply Rmult_le_compat_l; auto). nra.
Qed.
Lemma variance_moments : forall l, l <> [] -> variance l = (Rsum (map (fun x => x ^ 2) l) - (Rsum l) ^ 2 / INR (length l)) / INR (length l).
Proof.
  intros l Hl. assert (P : 0 < INR (length l)) by (apply lt_0_INR; destruct l; [congruence|cbn; lia]).
  assert (E : forall c l, Rsum (map (fun x => (x - c) ^ 2) l) = Rsum (map (fun x => x ^ 2) l) - 2 * c * Rsum l + INR (length l) * c ^ 2).
  { clear. intros c. induction l as [|x l IH]; [unfold Rsum; cbn; ring|]. cbn [map length]. rewrite !rsum_cons, IH, S_INR. ring. }
  unfold variance, mean at 1. unfold Rlen. rewrite map_length, E. unfold mean, Rlen. field. lra.
Qed.
Lemma Rsum_sq_nonneg : forall l, 0 <= Rsum (map (fun x => x ^ 2) l).
Proof. induction l as [|x l IH]; [unfold Rsum; cbn; lra|]. cbn [map]. rewrite rsum_cons. pose proof (pow2_ge_0 x). lra. Qed.
(** The reported variance of any data is off by at most about 3 n 2^-53 times the mean of the squares (not: times the variance), unless
    something overflows. *)
Theorem C120_variance_error : forall xs v, xs <> [] -> (Z.of_nat (length xs) <= 2 ^ 53)%Z -> mt_answer VarianceMeter (map Upd xs) = Ok v -> finite v ->
  let n := length xs in
  Forall finite xs /\ Rabs (real v - variance (map real xs)) <= ((1 + / 2 ^ 53) ^ (n + 2) - 1 + ((1 + / 2 ^ 53) ^ (2 * n + 2) - 1)) * mean_square (map real xs) + (1 + / 2 ^ 53) ^ (n + 3) * / 2 ^ 1073.
Proof.
  intros xs v Hx L E F n. rewrite var_answer in E by auto. injection E as <-. change (/ 2 ^ 53) with u.
  set (nf := float_ofZ (Z.of_nat (length xs))) in *. destruct (ofZ_real (Z.of_nat (length xs)) ltac:(lia)) as [Fn En]. fold nf in Fn, En. assert (Hn : (1 <= n)%nat) by (unfold n; destruct xs; [congruence|cbn; lia]).
  assert (N1 : 1 <= INR n) by (apply (le_INR 1); auto). rewrite <- INR_IZR_INZ in En. fold n in En. assert (Nz : real nf <> 0) by (rewrite En; lra).
  set (S2 := fsum 0 (map (fun x => x * x)%float xs)) in *. set (s := fsum 0 xs) in *.
  pose proof (div_finite _ _ F Nz) as Fd. destruct (sub_real _ _ Fd) as (FS & Fq & Ed). pose proof (div_finite _ _ Fq Nz) as Fm. destruct (mul_real _ _ Fm) as (Fs & _ & Em).
  pose proof (div_fl _ _ F Nz) as Ev. pose proof (div_fl _ _ Fq Nz) as Eq.
  destruct (sumsq_error xs FS ltac:(exact Hn)) as [Fx B2]. fold n S2 in B2. cbv zeta in B2. split; auto. destruct (fsum0_error xs Fs) as [_ B1]. fold n s in B1.
  set (A := Rsum (map (fun x => real x ^ 2) xs)) in *. set (T := Rsum (map real xs)) in *. set (B := Rsum (map (fun x => Rabs (real x)) xs)) in *.
  assert (HTB : Rabs T <= B). { unfold T, B. eapply Rle_trans; [apply Rabs_sum|]. rewrite map_map. lra. }
  assert (HB : 0 <= B) by (pose proof (Rabs_pos T); lra).
  assert (HA : 0 <= A). { unfold A. replace (map (fun x => real x ^ 2) xs) with (map (fun x => x ^ 2) (map real xs)) by (rewrite map_map; reflexivity). apply Rsum_sq_nonneg. }
  assert (HBA : B ^ 2 <= INR n * A).
  { pose proof (cauchy_one (map (fun x => Rabs (real x)) xs)) as C. rewrite map_length, map_map in C. fold n in C. unfold B, A. erewrite (map_ext (fun x => real x ^ 2)); [exact C|]. intros x. cbn beta. rewrite pow2_abs. reflexivity. }
  assert (HT2 : 0 <= T ^ 2 <= B ^ 2). { split; [apply pow2_ge_0|]. rewrite <- (pow2_abs T). apply pow_incr. split; [apply Rabs_pos|auto]. }
  pose proof h0_pos as Hh. pose proof u_pos as Hu.
  (* the square of the sum *)
  assert (C1 : Rabs (real s * real s - T ^ 2) <= gam (2 * (n - 1)) * B ^ 2 + 0).
  { replace (real s * real s - T ^ 2) with ((real s - T) * (real s - T) + 2 * (T * (real s - T))) by ring. eapply Rle_trans; [apply Rabs_triang|]. rewrite !Rabs_mult, (Rabs_pos_eq 2) by lra.
    pose proof (gam_add (n - 1) (n - 1)) as G. replace (n - 1 + (n - 1))%nat with (2 * (n - 1))%nat in G by lia. set (g := gam (n - 1)) in *. set (d := Rabs (real s - T)) in *. assert (0 <= d) by apply Rabs_pos. pose proof (gam_pos (n - 1)) as Gp. fold g in Gp.
    assert (d * d <= (g * B) * (g * B)) by (apply Rmult_le_compat; auto). assert (Rabs T * d <= B * (g * B)) by (apply Rmult_le_compat; auto; apply Rabs_pos). nra. }
  assert (C2 : Rabs (real (s * s)%float - T ^ 2) <= gam (2 * n - 1) * B ^ 2 + h0).
  { rewrite Em. eapply Rle_trans; [apply (round_once (2 * (n - 1)) (B ^ 2) (T ^ 2) 0)|]; [nra|rewrite Rabs_pos_eq; lra|lra|exact C1|]. replace (S (2 * (n - 1))) with (2 * n - 1)%nat by lia. lra. }
  assert (C3 : Rabs (real (s * s / nf)%float - T ^ 2 / INR n) <= gam (2 * n) * A + (1 + u) * (h0 / INR n) + h0).
  { rewrite Eq, En. pose proof (round_once (2 * n - 1) A (T ^ 2 / INR n) (h0 / INR n) (real (s * s)%float / INR n)) as R1. replace (S (2 * n - 1)) with (2 * n)%nat in R1 by lia. apply R1; auto.
    - rewrite Rabs_pos_eq; [|apply div_nonneg; lra]. apply div_le; lra.
    - apply div_nonneg; lra.
    - replace (real (s * s)%float / INR n - T ^ 2 / INR n) with ((real (s * s)%float - T ^ 2) * / INR n) by (field; lra). assert (Pi : 0 < / INR n) by (apply Rinv_0_lt_compat; lra). rewrite Rabs_mult, (Rabs_pos_eq (/ INR n)) by lra.
      eapply Rle_trans; [apply Rmult_le_compat_r; [lra|exact C2]|]. replace ((gam (2 * n - 1) * B ^ 2 + h0) * / INR n) with (gam (2 * n - 1) * (B ^ 2 / INR n) + h0 / INR n) by (field; lra). apply Rplus_le_compat_r, Rmult_le_compat_l; [apply gam_pos|]. apply div_le; lra. }
  set (D := A - T ^ 2 / INR n). assert (HD : 0 <= D <= A).
  { unfold D. assert (0 <= T ^ 2 / INR n <= A); [|lra]. split; [apply div_nonneg; lra|apply div_le; lra]. }
  set (H1 := INR n * ((1 + gam (n - 1)) * h0) + (1 + u) * (h0 / INR n) + h0).
  assert (C4 : Rabs (real S2 - real (s * s / nf)%float - D) <= (gam n + gam (2 * n)) * A + H1).
  { unfold D. replace (real S2 - real (s * s / nf)%float - (A - T ^ 2 / INR n)) with ((real S2 - A) + - (real (s * s / nf)%float - T ^ 2 / INR n)) by ring. eapply Rle_trans; [apply Rabs_triang|]. rewrite Rabs_Ropp. unfold H1. lra. }
  assert (EV : variance (map real xs) = D / INR n).
  { rewrite variance_moments by (destruct xs; [congruence|discriminate]). rewrite map_map, map_length. reflexivity. }
  assert (EM : mean_square (map real xs) = A / INR n). { unfold mean_square, mean, Rlen. rewrite map_map, !map_length. reflexivity. }
  rewrite EV, EM, Ev, En, Ed.
  destruct (fl_plus_error (real S2) (- real (s * s / nf)%float) (real_fmt _) (opp_fmt _ (real_fmt _))) as (e1 & He1 & Q1). unfold Rminus in Q1 |- *. rewrite Q1. clear Q1.
  match goal with |- context [fl ?r] => destruct (fl_error r) as (e2 & et & He2 & Het & ->) end. fold h0 in Het. set (X := real S2 + - real (s * s / nf)%float) in *. change (real S2 - real (s * s / nf)%float) with X in C4.
  assert (Pi : 0 < / INR n) by (apply Rinv_0_lt_compat; lra).
  replace (X * (1 + e1) / INR n * (1 + e2) + et + - (D / INR n)) with ((X * (1 + e1) * (1 + e2) - D) * / INR n + et) by (field; lra).
  assert (C5 : Rabs (X * (1 + e1) * (1 + e2) - D) <= (1 + u) * (1 + u) * ((gam n + gam (2 * n)) * A + H1) + ((1 + u) * (1 + u) - 1) * A).
  { replace (X * (1 + e1) * (1 + e2) - D) with ((X - D) * ((1 + e1) * (1 + e2)) + D * ((1 + e1) * (1 + e2) - 1)) by ring. eapply Rle_trans; [apply Rabs_triang|]. rewrite !Rabs_mult. apply Rabs_le_inv in He1, He2.
    assert (U1 : u < 1). { unfold u. rewrite <- Rinv_1. apply Rinv_lt_contravar; [|]; pose proof (pow_lt 2 53 ltac:(lra)); [lra|]. apply Rlt_pow_R1; [lra|lia]. }
    rewrite (Rabs_pos_eq (1 + e1)), (Rabs_pos_eq (1 + e2)), (Rabs_pos_eq D) by lra.
    assert (Y1 : (1 + e1) * (1 + e2) <= (1 + u) * (1 + u)) by (apply Rmult_le_compat; lra). assert (Y0 : 0 <= (1 + e1) * (1 + e2)) by (apply Rmult_le_pos; lra).
    assert (Y2 : Rabs ((1 + e1) * (1 + e2) - 1) <= (1 + u) * (1 + u) - 1).
    { apply Rabs_le. split; [|lra]. assert ((1 - u) * (1 - u) <= (1 + e1) * (1 + e2)) by (apply Rmult_le_compat; lra). nra. }
    assert (Y3 : Rabs (X - D) * ((1 + e1) * (1 + e2)) <= ((gam n + gam (2 * n)) * A + H1) * ((1 + u) * (1 + u))) by (apply Rmult_le_compat; auto using Rabs_pos).
    assert (Y4 : D * Rabs ((1 + e1) * (1 + e2) - 1) <= A * ((1 + u) * (1 + u) - 1)) by (apply Rmult_le_compat; auto using Rabs_pos; lra). lra. }
  eapply Rle_trans; [apply Rabs_triang|]. rewrite Rabs_mult, (Rabs_pos_eq (/ INR n)) by lra.
  assert (C6 : Rabs (X * (1 + e1) * (1 + e2) - D) * / INR n <= ((1 + u) * (1 + u) * ((gam n + gam (2 * n)) * A + H1) + ((1 + u) * (1 + u) - 1) * A) * / INR n) by (apply Rmult_le_compat_r; lra).
  (* the constants *)
  assert (K1 : (1 + u) * (1 + u) * (gam n + gam (2 * n)) + ((1 + u) * (1 + u) - 1) <= gam (n + 2) + gam (2 * n + 2)).
  { pose proof (gam_add n 2) as G1. pose proof (gam_add (2 * n) 2) as G2. assert (G3 : 1 + gam 2 = (1 + u) * (1 + u)) by (unfold gam; cbn; ring). rewrite G3 in G1, G2. pose proof (gam_pos n). pose proof (gam_pos (2 * n)). nra. }
  assert (K2 : (1 + u) * (1 + u) * H1 * / INR n + h0 <= (1 + u) ^ (n + 3) * (4 * h0)).
  { assert (P1 : forall k, 1 <= (1 + u) ^ k) by (intros; apply pow_R1_Rle; lra).
    assert (P2 : (1 + u) * (1 + u) * (1 + gam (n - 1)) <= (1 + u) ^ (n + 3)). { unfold gam. replace (1 + ((1 + u) ^ (n - 1) - 1)) with ((1 + u) ^ (n - 1)) by ring. replace ((1 + u) * (1 + u) * (1 + u) ^ (n - 1)) with ((1 + u) ^ (n + 1)); [apply Rle_pow; [lra|lia]|]. replace (n + 1)%nat with (2 + (n - 1))%nat by lia. rewrite pow_add. cbn [pow]. ring. }
    assert (P3 : (1 + u) ^ 3 <= (1 + u) ^ (n + 3)) by (apply Rle_pow; [lra|lia]). assert (P4 : (1 + u) ^ 2 <= (1 + u) ^ (n + 3)) by (apply Rle_pow; [lra|lia]). pose proof (P1 (n + 3)%nat) as P5. cbn [pow] in P3, P4.
    assert (Q0 : 0 < / INR n <= 1) by (split; auto; rewrite <- Rinv_1; apply Rinv_le_contravar; lra).
    unfold H1. replace ((1 + u) * (1 + u) * (INR n * ((1 + gam (n - 1)) * h0) + (1 + u) * (h0 / INR n) + h0) * / INR n) with ((1 + u) * (1 + u) * (1 + gam (n - 1)) * h0 + (1 + u) * (1 + u) * (1 + u) * h0 * (/ INR n * / INR n) + (1 + u) * (1 + u) * h0 * / INR n) by (field; lra).
    assert (Q1 : (1 + u) * (1 + u) * (1 + gam (n - 1)) * h0 <= (1 + u) ^ (n + 3) * h0) by (apply Rmult_le_compat_r; lra).
    assert (Q2 : (1 + u) * (1 + u) * (1 + u) * h0 * (/ INR n * / INR n) <= (1 + u) ^ (n + 3) * h0 * 1). { apply Rmult_le_compat; [|apply Rmult_le_pos; lra| |]; [|apply Rmult_le_compat_r; lra|rewrite <- (Rmult_1_l 1); apply Rmult_le_compat; lra]. repeat apply Rmult_le_pos; lra. }
    assert (Q3 : (1 + u) * (1 + u) * h0 * / INR n <= (1 + u) ^ (n + 3) * h0 * 1). { apply Rmult_le_compat; [|lra| |lra]; [|apply Rmult_le_compat_r; lra]. repeat apply Rmult_le_pos; lra. }
    assert (Q4 : 1 * h0 <= (1 + u) ^ (n + 3) * h0) by (apply Rmult_le_compat_r; lra). lra. }
  assert (K3 : 4 * h0 = / 2 ^ 1073). { unfold h0. change 1075%nat with (2 + 1073)%nat. rewrite pow_add. assert (P0 : 0 < 2 ^ 1073) by (apply pow_lt; lra). set (P := 2 ^ 1073) in *. field. lra. }
  rewrite K3 in K2. change ((1 + u) ^ (n + 2) - 1) with (gam (n + 2)). change ((1 + u) ^ (2 * n + 2) - 1) with (gam (2 * n + 2)).
  assert (K4 : ((1 + u) * (1 + u) * (gam n + gam (2 * n)) + ((1 + u) * (1 + u) - 1)) * (A * / INR n) <= (gam (n + 2) + gam (2 * n + 2)) * (A * / INR n)) by (apply Rmult_le_compat_r; auto; apply Rmult_le_pos; lra).
  replace (((1 + u) * (1 + u) * ((gam n + gam (2 * n)) * A + H1) + ((1 + u) * (1 + u) - 1) * A) * / INR n) with (((1 + u) * (1 + u) * (gam n + gam (2 * n)) + ((1 + u) * (1 + u) - 1)) * (A * / INR n) + (1 + u) * (1 + u) * H1 * / INR n) in C6 by ring.
  change (A / INR n) with (A * / INR n). set (E := (1 + u) ^ (n + 3) * / 2 ^ 1073) in *. clearbody E. clear K3. eapply Rle_trans; [apply Rplus_le_compat; [exact C6|exact Het]|]. rewrite Rplus_assoc. apply Rplus_le_compat; [exact K4|exact K2].
Qed.
Print Assumptions C120_variance_error.

(** ** Integers *)
(** What is left after a history: the values pushed and not pulled. *)
Definition left_after (h : list (mop float)) (ys : list float) : Prop := Permutation (pushed h) (pulled h ++ ys).
Definition squares (ys : list float) : R := Rsum (map (fun y => real y ^ 2) ys).
Lemma mul_exact : forall a b, finite a -> finite b -> generic_format radix2 (FLT_exp (-1074) 53) (real a * real b) -> Rabs (real a * real b) < bpow radix2 1024 -> finite (a * b)%float /\ real (a * b)%float = real a * real b.
Proof.
  intros a b Fa Fb Fm L. pose proof (Bmult_correct _ _ Hprec Hmax mode_NE (Prim2B a) (Prim2B b)) as C. rewrite <- !real_B2R in C.
  change (round radix2 (SpecFloat.fexp prec emax) (round_mode mode_NE) (real a * real b)) with (fl (real a * real b)) in C. rewrite fl_fmt in C by auto.
  change (bpow radix2 emax) with (bpow radix2 1024) in C. rewrite Rlt_bool_true in C by auto. destruct C as (C1 & C2 & _). rewrite <- mul_equiv in *. split; [|rewrite real_B2R; auto].
  apply finite_B. rewrite C2. apply finite_B in Fa, Fb. rewrite Fa, Fb. reflexivity.
Qed.
Lemma sq_int : forall x, integral x -> real x ^ 2 <= 2 ^ 53 -> integral (x * x)%float /\ real (x * x)%float = real x ^ 2.
Proof.
  intros x [F [k E]] B. assert (E2 : real x * real x = IZR (k * k)) by (rewrite mult_IZR, E; reflexivity). assert (K : (Z.abs (k * k) <= 2 ^ 53)%Z). { apply int_fmt. rewrite <- E2. replace (real x * real x) with (real x ^ 2) by ring. rewrite Rabs_pos_eq; auto. apply pow2_ge_0. }
  destruct (mul_exact x x F F) as [F1 R1]; [rewrite E2; apply IZR_fmt; auto|rewrite E2; apply IZR_lt_max; auto|]. split; [split; auto; exists (k * k)%Z; lra|]. rewrite R1. ring.
Qed.
Lemma abs_le_sq : forall x, integral x -> Rabs (real x) <= real x ^ 2.
Proof. intros x [_ [k ->]]. rewrite <- pow2_abs, <- abs_IZR. assert (H : (Z.abs k <= Z.abs k * Z.abs k)%Z) by nia. apply IZR_le in H. rewrite mult_IZR in H. lra. Qed.
Lemma squares_cons : forall y ys, squares (y :: ys) = real y ^ 2 + squares ys.
Proof. reflexivity. Qed.
Lemma squares_pos : forall ys, 0 <= squares ys.
Proof. induction ys as [|y ys IH]; [unfold squares, Rsum; cbn; lra|]. rewrite squares_cons. pose proof (pow2_ge_0 (real y)). lra. Qed.
Lemma squares_perm : forall l l', Permutation l l' -> squares l = squares l'.
Proof. intros. apply Rsum_map_perm; auto. Qed.
Lemma sum_le_squares : forall ys, Forall integral ys -> Rabs (Rsum (map real ys)) <= squares ys.
Proof. intros ys H. induction H as [|y ys Hy H IH]; [unfold Rsum, squares; cbn; rewrite Rabs_R0; lra|]. cbn [map]. rewrite rsum_cons, squares_cons. eapply Rle_trans; [apply Rabs_triang|]. pose proof (abs_le_sq y Hy). lra. Qed.
Lemma squares_bound : forall ys, INR (length ys) * squares ys <= 2 ^ 53 -> squares ys <= 2 ^ 53.
Proof. intros [|y ys] B; [unfold squares, Rsum; cbn [map fold_right]; pose proof (pow_lt 2 53); lra|]. pose proof (squares_pos (y :: ys)) as P. assert (1 <= INR (length (y :: ys))) by (apply (le_INR 1); cbn; lia). nra. Qed.
Lemma var_exact_state : forall h, Forall op_integral h ->
  (forall p q, h = p ++ q -> exists ys, left_after p ys /\ INR (length ys) * squares ys <= 2 ^ 53) ->
  let s := mt_run VarianceMeter h in exists ys, left_after h ys /\ Forall integral ys /\ integral (ss_sum (vs_sum s)) /\ real (ss_sum (vs_sum s)) = Rsum (map real ys) /\
    integral (ss_sum (vs_sq s)) /\ real (ss_sum (vs_sq s)) = squares ys /\ vs_cnt s = Z.of_nat (length ys) /\ INR (length ys) * squares ys <= 2 ^ 53.
Proof.
  intros h. induction h as [|o h IH] using rev_ind; intros I B; cbv zeta.
  - exists []. split; [apply Permutation_refl|]. split; [constructor|]. assert (Z0 : integral 0%float) by (split; [reflexivity|exists 0%Z; reflexivity]).
    split; [exact Z0|]. split; [reflexivity|]. split; [exact Z0|]. split; [reflexivity|]. split; [reflexivity|]. cbn [length INR]. rewrite Rmult_0_l. apply pow_le; lra.
  - apply Forall_app in I. destruct I as [I Io]. apply Forall_cons_iff in Io. destruct Io as [Ho _]. destruct (IH I) as (ys & P & Iy & I1 & E1 & I2 & E2 & C & Bys). { intros p q E. apply (B p (q ++ [o])). rewrite E, app_assoc. reflexivity. }
    destruct (B (h ++ [o]) [] ltac:(rewrite app_nil_r; reflexivity)) as (zs & Pz & Bz). unfold mt_run in *. rewrite fold_left_app. cbn [fold_left]. set (s := fold_left (mt_do VarianceMeter) h (mt_init VarianceMeter)) in *.
    pose proof (squares_bound _ Bz) as Bz2. unfold left_after in P, Pz. rewrite pushed_app, pulled_app in Pz. destruct o as [x|x|]; cbn [op_integral] in Ho.
    + assert (Q : Permutation (x :: ys) zs).
      { change (pulled [Upd x]) with (@nil float) in Pz. change (pushed [Upd x]) with [x] in Pz. rewrite app_nil_r in Pz. apply (Permutation_app_inv_l (pulled h)). eapply perm_trans; [|exact Pz]. eapply perm_trans; [apply Permutation_sym, Permutation_middle|]. eapply perm_trans; [|apply Permutation_cons_append]. apply perm_skip, Permutation_sym, P. }
      assert (Sq : squares zs = real x ^ 2 + squares ys) by (rewrite <- (squares_perm _ _ Q); reflexivity). pose proof (squares_pos ys) as Sp. assert (Iz : Forall integral zs) by (apply (Permutation_Forall Q); constructor; auto). pose proof (sum_le_squares zs Iz) as Sz.
      assert (Sm : Rsum (map real zs) = real x + Rsum (map real ys)) by (rewrite <- (Rsum_map_perm _ real _ _ Q); reflexivity).
      destruct (sq_int x Ho ltac:(lra)) as [Ix Ex]. destruct (add_int (ss_sum (vs_sum s)) x I1 Ho) as [J1 K1]. { rewrite E1, Rplus_comm, <- Sm. lra. }
      destruct (add_int (ss_sum (vs_sq s)) (x * x)%float I2 Ix) as [J2 K2]. { rewrite E2, Ex. rewrite Rabs_pos_eq; [|pose proof (pow2_ge_0 (real x)); lra]. lra. }
      exists zs. split; [unfold left_after; rewrite pushed_app, pulled_app; exact Pz|]. split; auto. split; [exact J1|]. split; [change (ss_sum (vs_sum (mt_do VarianceMeter s (Upd x)))) with (ss_sum (vs_sum s) + x)%float; rewrite K1, E1, Sm; ring|]. split; [exact J2|].
      split; [change (ss_sum (vs_sq (mt_do VarianceMeter s (Upd x)))) with (ss_sum (vs_sq s) + x * x)%float; rewrite K2, E2, Ex, Sq; ring|]. split; [|exact Bz]. change (vs_cnt (mt_do VarianceMeter s (Upd x))) with (vs_cnt s + 1)%Z. rewrite C, <- (Permutation_length Q). cbn [length]. lia.
    + assert (Q : Permutation ys (x :: zs)).
      { change (pulled [Rem x]) with [x] in Pz. change (pushed [Rem x]) with (@nil float) in Pz. rewrite app_nil_r, <- app_assoc in Pz. apply (Permutation_app_inv_l (pulled h)). eapply perm_trans; [apply Permutation_sym, P|exact Pz]. }
      assert (Sq : squares ys = real x ^ 2 + squares zs) by (rewrite (squares_perm _ _ Q); reflexivity). pose proof (squares_bound _ Bys) as By2. pose proof (squares_pos zs) as Sp. pose proof (pow2_ge_0 (real x)) as Xp. assert (Iz : Forall integral zs) by (apply (Permutation_Forall Q) in Iy; apply Forall_cons_iff in Iy; tauto). pose proof (sum_le_squares zs Iz) as Sz.
      assert (Sm : Rsum (map real ys) = real x + Rsum (map real zs)) by (rewrite (Rsum_map_perm _ real _ _ Q); reflexivity).
      destruct (sq_int x Ho ltac:(lra)) as [Ix Ex]. destruct (sub_int (ss_sum (vs_sum s)) x I1 Ho) as [J1 K1]. { rewrite E1, Sm. replace (real x + Rsum (map real zs) - real x) with (Rsum (map real zs)) by ring. lra. }
      destruct (sub_int (ss_sum (vs_sq s)) (x * x)%float I2 Ix) as [J2 K2]. { rewrite E2, Ex, Sq. rewrite Rabs_pos_eq; lra. }
      exists zs. split; [unfold left_after; rewrite pushed_app, pulled_app; exact Pz|]. split; auto. split; [exact J1|]. split; [change (ss_sum (vs_sum (mt_do VarianceMeter s (Rem x)))) with (ss_sum (vs_sum s) - x)%float; rewrite K1, E1, Sm; ring|]. split; [exact J2|].
      split; [change (ss_sum (vs_sq (mt_do VarianceMeter s (Rem x)))) with (ss_sum (vs_sq s) - x * x)%float; rewrite K2, E2, Ex, Sq; ring|]. split; [|exact Bz]. change (vs_cnt (mt_do VarianceMeter s (Rem x))) with (vs_cnt s - 1)%Z. rewrite C, (Permutation_length Q). cbn [length]. lia.
    + exists ys. split; [unfold left_after; rewrite pushed_app, pulled_app; change (pushed [@Get float]) with (@nil float); change (pulled [@Get float]) with (@nil float); rewrite !app_nil_r; exact P|].
      assert (Eg : vs_sum (mt_do VarianceMeter s Get) = vs_sum s /\ vs_sq (mt_do VarianceMeter s Get) = vs_sq s /\ vs_cnt (mt_do VarianceMeter s Get) = vs_cnt s).
      { cbn [mt_do]. unfold exec. cbn [mt_get VarianceMeter]. unfold bind, zoom, lift, gets. cbn [mt_get SumMeter SumSquaresMeter CountMeter]. unfold gets. destruct s as [sm sq cnt]. cbn. unfold div_int. destruct (cnt =? 0)%Z; cbn; auto. }
      destruct Eg as (-> & -> & ->). repeat split; auto; try (destruct I1; auto; fail); destruct I2; auto.
Qed.
Lemma sub_fl : forall a b, finite a -> finite b -> Rabs (fl (real a - real b)) < bpow radix2 1024 -> finite (a - b)%float /\ real (a - b)%float = fl (real a - real b).
Proof.
  intros a b Fa Fb L. pose proof Fa as Ga. pose proof Fb as Gb. rewrite finite_B in Ga, Gb. pose proof (Bminus_correct _ _ Hprec Hmax mode_NE (Prim2B a) (Prim2B b) Ga Gb) as C. rewrite <- !real_B2R in C.
  change (round radix2 (SpecFloat.fexp prec emax) (round_mode mode_NE) (real a - real b)) with (fl (real a - real b)) in C.
  change (bpow radix2 emax) with (bpow radix2 1024) in C. rewrite Rlt_bool_true in C by auto. destruct C as (C1 & C2 & _). rewrite <- sub_equiv in *. split; [|rewrite real_B2R; auto]. apply finite_B. exact C2.
Qed.
Lemma inv_pow_fmt : forall k, (k <= 1074)%nat -> generic_format radix2 (FLT_exp (-1074) 53) (/ 2 ^ k).
Proof. intros k H. rewrite <- bpow_inv. apply generic_format_bpow. unfold FLT_exp. lia. Qed.
Lemma fl_0 : fl 0 = 0.
Proof. apply fl_fmt, generic_format_0. Qed.
Lemma fl_above : forall a b, generic_format radix2 (FLT_exp (-1074) 53) a -> a <= b -> a <= fl b.
Proof. intros a b F L. rewrite <- (fl_fmt a F). apply fl_le, L. Qed.
Lemma fl_below : forall a b, generic_format radix2 (FLT_exp (-1074) 53) b -> a <= b -> fl a <= b.
Proof. intros a b F L. rewrite <- (fl_fmt b F). apply fl_le, L. Qed.
Lemma small_lt_max : forall r, 0 <= r <= 2 ^ 53 -> Rabs (fl r) < bpow radix2 1024.
Proof. intros r H. apply fl_lt_max. rewrite Rabs_pos_eq by lra. eapply Rle_trans; [apply H|]. rewrite <- pow53. change 2%Z with (Zaux.radix_val Zaux.radix2). rewrite Raux.IZR_Zpower by lia. apply Raux.bpow_le. lia. Qed.
Lemma u53 : u * 2 ^ 53 = 1.
Proof. unfold u. apply Rinv_l. apply pow_nonzero. lra. Qed.
Lemma small_numbers : u <= / 8 /\ h0 <= u * u / 2 /\ / 2 ^ 107 = u * u / 2 /\ / 2 ^ 160 = u * u / 2 * u.
Proof.
  assert (P : forall k, 0 < 2 ^ k) by (intros; apply pow_lt; lra). assert (E : u * u / 2 = / 2 ^ 107).
  { unfold u. change 107%nat with (53 + (53 + 1))%nat. rewrite !pow_add, pow_1. pose proof (P 53%nat). set (Z := 2 ^ 53) in *. field. lra. }
  split; [|split; [|split]].
  - unfold u. replace 8 with (2 ^ 3) by ring. apply Rinv_le_contravar; [apply P|]. apply Rle_pow; [lra|lia].
  - rewrite E. unfold h0. apply Rinv_le_contravar; [apply P|]. apply Rle_pow; [lra|lia].
  - symmetry. exact E.
  - rewrite E. unfold u. change 160%nat with (107 + 53)%nat. rewrite pow_add. rewrite Rinv_mult. reflexivity.
Qed.
Lemma var_of : forall (S2 s : float) (n k a : Z), integral S2 -> integral s -> real S2 = IZR a -> real s = IZR k -> (1 <= n <= 2 ^ 53)%Z -> (k * k <= n * a)%Z -> IZR n * IZR a <= 2 ^ 53 ->
  let nf := float_ofZ n in let v := ((S2 - s * s / nf) / nf)%float in
  finite v /\ 0 <= real v /\ (real v = 0 <-> (k * k = n * a)%Z) /\ Rabs (real v - (IZR a - IZR k ^ 2 / IZR n) / IZR n) <= ((1 + u) ^ 3 - 1) * (IZR a / IZR n) + / 2 ^ 1073.
Proof.
  intros S2 s n k a IS Is ES Es Hn HC HB nf v. destruct (ofZ_real n ltac:(lia)) as [Fn En]. fold nf in Fn, En.
  set (A := IZR a) in *. set (T := IZR k) in *. set (N := IZR n) in *. assert (HN : 1 <= N <= 2 ^ 53). { unfold N. split; [apply (IZR_le 1); lia|]. rewrite <- pow53. apply IZR_le. lia. }
  assert (HT : T ^ 2 <= N * A). { unfold T, N, A. rewrite <- mult_IZR. replace (IZR k ^ 2) with (IZR (k * k)) by (rewrite mult_IZR; ring). apply IZR_le. exact HC. }
  pose proof (pow2_ge_0 T) as HT0. assert (HA : 0 <= A) by nra. assert (HA2 : A <= 2 ^ 53) by nra. pose proof u_pos as Hu. pose proof h0_pos as Hh. destruct small_numbers as (U1 & U2 & U3 & U4).
  destruct (sq_int s Is) as [Im Em]; [rewrite Es; lra|]. rewrite Es in Em.
  assert (HQ0 : 0 <= T ^ 2 / N <= A). { split; [apply div_nonneg; lra|apply div_le; lra]. }
  destruct (div_real (s * s)%float nf (proj1 Im)) as [Fq Eq]; [rewrite En; lra|rewrite Em, En; apply small_lt_max; lra|]. rewrite Em, En in Eq.
  assert (FA : generic_format radix2 (FLT_exp (-1074) 53) A) by (rewrite <- ES; apply real_fmt).
  set (Q := real (s * s / nf)%float) in *. assert (HQ : 0 <= Q <= A). { rewrite Eq. split; [apply fl_above; [apply generic_format_0|lra]|]. apply fl_below; [exact FA|lra]. }
  destruct (sub_fl S2 (s * s / nf)%float (proj1 IS) Fq) as [Fd Ed]; [rewrite ES; fold Q; apply small_lt_max; lra|]. rewrite ES in Ed. fold Q in Ed.
  set (d := real (S2 - s * s / nf)%float) in *. assert (Hd : 0 <= d <= A). { rewrite Ed. split; [apply fl_above; [apply generic_format_0|lra]|]. apply fl_below; [exact FA|lra]. }
  assert (Hd2 : 0 <= d / N <= A). { split; [apply div_nonneg; lra|apply div_le; nra]. }
  destruct (div_real (S2 - s * s / nf)%float nf Fd) as [Fv Ev]; [rewrite En; lra|rewrite En; fold d; apply small_lt_max; lra|]. fold v in Fv, Ev. rewrite En in Ev. fold d in Ev.
  assert (Pi : 0 < / N) by (apply Rinv_0_lt_compat; lra). split; [exact Fv|]. split; [rewrite Ev; apply fl_above; [apply generic_format_0|lra]|]. split; [split|].
  - intros V0. destruct (Z.eq_dec (k * k) (n * a)) as [|NE]; auto. exfalso. assert (G : (k * k + 1 <= n * a)%Z) by lia. apply IZR_le in G. rewrite plus_IZR, !mult_IZR in G. fold T N A in G.
    assert (G1 : T ^ 2 / N <= A - / N). { apply div_le; [lra|]. replace ((A - / N) * N) with (N * A - 1) by (field; lra). nra. }
    destruct (fl_error (T ^ 2 / N)) as (ep & et & H1 & H2 & H3). fold h0 in H2. rewrite <- Eq in H3. apply Rabs_le_inv in H1, H2.
    assert (G2 : u * A <= / N). { apply (Rmult_le_reg_r N); [lra|]. rewrite Rinv_l by lra. pose proof u53. nra. }
    assert (G3 : u <= / N). { unfold u. apply Rinv_le_contravar; lra. }
    assert (G4 : u * u / 2 <= A - Q). { assert (T ^ 2 / N * ep <= (A - / N) * u) by (apply Rle_trans with (T ^ 2 / N * u); [apply Rmult_le_compat_l; lra|apply Rmult_le_compat_r; lra]). assert (u * u <= u * / N) by (apply Rmult_le_compat_l; lra). lra. }
    assert (G5 : u * u / 2 <= d). { rewrite Ed. rewrite <- U3 in G4 |- *. apply fl_above; [apply inv_pow_fmt; lia|exact G4]. }
    assert (G6 : u * u / 2 * u <= real v). { rewrite Ev. rewrite <- U4. apply fl_above; [apply inv_pow_fmt; lia|]. rewrite U4. unfold Rdiv at 2. apply Rmult_le_compat; nra. }
    assert (0 < u * u / 2 * u) by (apply Rmult_lt_0_compat; nra). lra.
  - intros E. apply (f_equal IZR) in E. rewrite !mult_IZR in E. fold T N A in E. assert (E1 : T ^ 2 / N = A) by (replace (T ^ 2) with (N * A) by (rewrite <- E; ring); field; lra).
    rewrite E1, fl_fmt in Eq by auto. rewrite Ev, Ed, Eq. replace (A - A) with 0 by ring. rewrite fl_0. unfold Rdiv. rewrite Rmult_0_l. apply fl_0.
  - assert (X0 : gam 0 = 0) by (unfold gam; cbn; ring).
    assert (X1 : Rabs (Q - T ^ 2 / N) <= gam 1 * A + (1 + u) * 0 + h0). { rewrite Eq. apply round_once; auto; try lra; [rewrite Rabs_pos_eq; lra|]. unfold Rminus. rewrite Rplus_opp_r, Rabs_R0. rewrite X0. lra. }
    assert (X2 : Rabs (d - (A - T ^ 2 / N)) <= gam 2 * A + (1 + u) * h0 + h0). { rewrite Ed. apply round_once; auto; try lra; [rewrite Rabs_pos_eq; lra|]. replace (A - Q - (A - T ^ 2 / N)) with (- (Q - T ^ 2 / N)) by ring. rewrite Rabs_Ropp. lra. }
    assert (X3 : Rabs (real v - (A - T ^ 2 / N) / N) <= gam 3 * (A / N) + (1 + u) * (((1 + u) * h0 + h0) / N) + h0).
    { rewrite Ev. apply round_once; [apply div_nonneg; lra| |apply div_nonneg; nra|].
      - rewrite Rabs_pos_eq by (apply div_nonneg; lra). unfold Rdiv. apply Rmult_le_compat_r; lra.
      - replace (d / N - (A - T ^ 2 / N) / N) with ((d - (A - T ^ 2 / N)) * / N) by (unfold Rdiv; ring). rewrite Rabs_mult, (Rabs_pos_eq (/ N)) by lra. unfold Rdiv. replace (gam 2 * (A * / N) + ((1 + u) * h0 + h0) * / N) with ((gam 2 * A + (1 + u) * h0 + h0) * / N) by ring. apply Rmult_le_compat_r; lra. }
    eapply Rle_trans; [exact X3|]. unfold gam at 1. rewrite Rplus_assoc. apply Rplus_le_compat_l.
    assert (K3 : 4 * h0 = / 2 ^ 1073). { unfold h0. change 1075%nat with (2 + 1073)%nat. rewrite pow_add. assert (P0 : 0 < 2 ^ 1073) by (apply pow_lt; lra). set (P := 2 ^ 1073) in *. field. lra. }
    rewrite <- K3. assert (((1 + u) * h0 + h0) / N <= (1 + u) * h0 + h0) by (apply div_le; nra). nra.
Qed.
Lemma int_sums : forall ys, Forall integral ys -> exists k a : Z, Rsum (map real ys) = IZR k /\ squares ys = IZR a.
Proof.
  intros ys H. induction H as [|y ys [_ [j Ej]] H (k & a & E1 & E2)]; [exists 0%Z, 0%Z; split; reflexivity|]. exists (j + k)%Z, (j * j + a)%Z. cbn [map]. rewrite rsum_cons, squares_cons, E1, E2, Ej, !plus_IZR, mult_IZR. split; ring.
Qed.
(** Whole numbers: after any updates and removals, while the number of values times the sum of their squares stays within 2^53, the reported
    variance is never negative, is 0 exactly when the values left are all equal, and is the variance up to three roundings. *)
Theorem C120_integers : forall h, Forall op_integral h ->
  (forall p q, h = p ++ q -> exists ys, left_after p ys /\ INR (length ys) * squares ys <= 2 ^ 53) ->
  forall xs, left_after h xs -> xs <> [] -> (Z.of_nat (length xs) <= 2 ^ 53)%Z ->
  exists v, mt_answer VarianceMeter h = Ok v /\ finite v /\ 0 <= real v /\ (real v = 0 <-> forall x y, In x xs -> In y xs -> real x = real y) /\
    Rabs (real v - variance (map real xs)) <= ((1 + / 2 ^ 53) ^ 3 - 1) * mean_square (map real xs) + / 2 ^ 1073.
Proof.
  intros h I B xs P Hx L. destruct (var_exact_state h I B) as (ys & P' & Iy & I1 & E1 & I2 & E2 & C & By).
  assert (Q : Permutation ys xs) by (apply (Permutation_app_inv_l (pulled h)); eapply perm_trans; [apply Permutation_sym, P'|exact P]).
  assert (Ix : Forall integral xs) by (apply (Permutation_Forall Q); auto). rewrite (squares_perm _ _ Q) in E2, By. rewrite (Rsum_map_perm _ real _ _ Q) in E1. rewrite (Permutation_length Q) in C, By.
  destruct (int_sums xs Ix) as (k & a & Ek & Ea). rewrite Ek in E1. rewrite Ea in E2, By. set (s := mt_run VarianceMeter h) in *. set (n := Z.of_nat (length xs)) in *. assert (Hn : (1 <= n)%Z) by (unfold n; destruct xs; [congruence|cbn [length]; lia]).
  assert (N : INR (length xs) = IZR n) by apply INR_IZR_INZ. rewrite N in By.
  assert (EA : Rsum (map (fun x => x ^ 2) (map real xs)) = IZR a) by (rewrite map_map; exact Ea).
  assert (CS : (k * k <= n * a)%Z). { apply le_IZR. rewrite !mult_IZR. pose proof (cauchy_one (map real xs)) as K. rewrite map_length, N, Ek, EA in K. lra. }
  destruct (var_of (ss_sum (vs_sq s)) (ss_sum (vs_sum s)) n k a I2 I1 E2 E1 ltac:(lia) CS By) as (Fv & V0 & VZ & VE). cbv zeta in *.
  assert (Nx : map real xs <> []) by (destruct xs; [congruence|discriminate]). assert (NP : 1 <= IZR n) by (apply (IZR_le 1); exact Hn).
  assert (EV : variance (map real xs) = (IZR a - IZR k ^ 2 / IZR n) / IZR n) by (rewrite variance_moments, map_length, N, Ek, EA by auto; reflexivity).
  assert (EM : mean_square (map real xs) = IZR a / IZR n). { unfold mean_square, mean, Rlen. rewrite EA, !map_length, N. reflexivity. }
  exists ((ss_sum (vs_sq s) - ss_sum (vs_sum s) * ss_sum (vs_sum s) / float_ofZ n) / float_ofZ n)%float. split.
  { unfold mt_answer. fold s. clearbody s. unfold eval. cbn [mt_get VarianceMeter]. unfold bind, zoom, lift, gets. cbn [mt_get SumMeter SumSquaresMeter CountMeter]. unfold gets. destruct s as [sm sq cnt]. cbn [vs_sum vs_sq vs_cnt set_vs_sum set_vs_sq set_vs_cnt] in *. subst cnt.
    unfold div_int. destruct (Z.eqb_spec n 0) as [Z|_]; [lia|]. reflexivity. }
  split; [exact Fv|]. split; [exact V0|]. split; [|rewrite EV, EM; exact VE].
  etransitivity; [exact VZ|]. assert (Z1 : (k * k = n * a)%Z <-> variance (map real xs) = 0).
  { rewrite EV. split; intros H.
    - apply (f_equal IZR) in H. rewrite !mult_IZR in H. replace (IZR k ^ 2) with (IZR n * IZR a) by (rewrite <- H; ring). field. lra.
    - apply eq_IZR. rewrite !mult_IZR. assert (H' : IZR a - IZR k ^ 2 / IZR n = 0). { apply Rmult_integral in H. destruct H as [H|H]; auto. pose proof (Rinv_0_lt_compat (IZR n) ltac:(lra)). lra. }
      replace (IZR k * IZR k) with (IZR k ^ 2 / IZR n * IZR n) by (field; lra). replace (IZR k ^ 2 / IZR n) with (IZR a) by lra. ring. }
  etransitivity; [exact Z1|]. rewrite variance_zero_iff by auto. split; intros H x y Hx' Hy'.
  - apply H; apply in_map; auto.
  - apply in_map_iff in Hx', Hy'. destruct Hx' as (x' & <- & Hx'), Hy' as (y' & <- & Hy'). auto.
Qed.
Print Assumptions C120_integers.
(** ** The sliding variance *)
Lemma prefix_snoc : forall (T : Type) (h : list T) a p q, h ++ [a] = p ++ q -> (q = [] /\ p = h ++ [a]) \/ (exists q', h = p ++ q').
Proof.
  intros T h a p q E. destruct q as [|b q] using rev_ind; [left; rewrite app_nil_r in E; auto|right]. rewrite app_assoc in E. apply app_inj_tail in E. destruct E as [-> _]. exists q. reflexivity.
Qed.
Definition op_value (P : float -> Prop) (o : mop float) : Prop := match o with Upd x => P x | Rem x => P x | Get => True end.
Lemma left_upd : forall h ys x, left_after h ys -> left_after (h ++ [Upd x]) (ys ++ [x]).
Proof. intros h ys x P. unfold left_after in *. rewrite pushed_app, pulled_app. change (pushed [Upd x]) with [x]. change (pulled [Upd x]) with (@nil float). rewrite app_nil_r, app_assoc. apply Permutation_app_tail, P. Qed.
Lemma left_rem : forall h ys x, left_after h (x :: ys) -> left_after (h ++ [Rem x]) ys.
Proof. intros h ys x P. unfold left_after in *. rewrite pushed_app, pulled_app. change (pushed [Rem x]) with (@nil float). change (pulled [Rem x]) with [x]. rewrite app_nil_r, <- app_assoc. exact P. Qed.
Lemma running_update_var : forall (x : float) (s : runst (mt_state (VarianceMeter (A := float))) float), RunningStatistic_update VarianceMeter x s =
  let win := rn_win s ++ [x] in
  (Ok tt, if (rn_size s <? Z.of_nat (length win))%Z
          then mkRun (mt_do VarianceMeter (mt_do VarianceMeter (rn_stat s) (Upd x)) (Rem (hd 0%float win))) (rn_size s) (skipn 1 win)
          else mkRun (mt_do VarianceMeter (rn_stat s) (Upd x)) (rn_size s) win).
Proof.
  intros x [st w win]. assert (U : forall y t, mt_update (VarianceMeter (A := float)) y t = (Ok tt, mt_do VarianceMeter t (Upd y))) by reflexivity. assert (D : forall y t, mt_remove (VarianceMeter (A := float)) y t = (Ok tt, mt_do VarianceMeter t (Rem y))) by reflexivity.
  unfold RunningStatistic_update, bind, modify, gets, lift, ret. cbn [rn_win rn_stat rn_size]. unfold zoom. cbn [rn_win rn_stat rn_size]. rewrite U. cbv zeta.
  cbn [rn_win rn_stat rn_size]. destruct (w <? Z.of_nat (length (win ++ [x])))%Z; [|reflexivity]. assert (X : py_index (win ++ [x]) 0 = Ok (hd 0%float (win ++ [x]))) by (destruct win; reflexivity).
  rewrite X, D. reflexivity.
Qed.
Lemma running_history : forall (w : Z) xs, (1 <= w)%Z -> exists s h, iterM (RunningStatistic_update VarianceMeter) xs (mkRun (mt_init VarianceMeter) w []) = (Ok tt, s) /\
  rn_size s = w /\ rn_win s = lastn (Z.to_nat w) xs /\ rn_stat s = mt_run VarianceMeter h /\ left_after h (lastn (Z.to_nat w) xs) /\ Forall (op_value (fun x => In x xs)) h /\
  (forall p q, h = p ++ q -> exists ys, left_after p ys /\ (length ys <= Z.to_nat w + 1)%nat /\ incl ys xs).
Proof.
  intros w xs Hw. induction xs as [|x xs IH] using rev_ind.
  - exists (mkRun (mt_init VarianceMeter) w []), []. rewrite lastn_nil. split; [reflexivity|]. split; [reflexivity|]. split; [reflexivity|]. split; [reflexivity|]. split; [apply Permutation_refl|]. split; [constructor|].
    intros p q E. destruct p; [|discriminate]. exists []. split; [apply Permutation_refl|]. split; [cbn; lia|]. intros ? [].
  - destruct IH as (s & h & E & E1 & E2 & E3 & P & F & B). set (l := lastn (Z.to_nat w) xs) in *. assert (Ll : (length l <= Z.to_nat w)%nat) by (unfold l; rewrite lastn_length; lia).
    assert (F' : Forall (op_value (fun x0 => In x0 (xs ++ [x]))) h). { eapply Forall_impl; [|exact F]. intros [v|v|] Hv; cbn in *; auto; apply in_or_app; auto. }
    assert (Il : incl (l ++ [x]) (xs ++ [x])). { intros v Hv. apply in_app_or in Hv. apply in_or_app. destruct Hv as [Hv|Hv]; auto. left. eapply In_lastn. exact Hv. }
    assert (B1 : forall p q, h ++ [Upd x] = p ++ q -> exists ys, left_after p ys /\ (length ys <= Z.to_nat w + 1)%nat /\ incl ys (xs ++ [x])).
    { intros p q Ep. apply prefix_snoc in Ep. destruct Ep as [[_ ->]|[q' ->]].
      - exists (l ++ [x]). split; [apply left_upd, P|]. split; [rewrite app_length; cbn [length]; lia|exact Il].
      - destruct (B p q' eq_refl) as (ys & Q1 & Q2 & Q3). exists ys. split; auto. split; auto. intros v Hv. apply in_or_app. left. auto. }
    assert (Fx : op_value (fun x0 => In x0 (xs ++ [x])) (Upd x)) by (cbn; apply in_or_app; right; left; reflexivity).
    rewrite lastn_step. fold l.
    assert (LT : (w <? Z.of_nat (length (l ++ [x])))%Z = (Z.to_nat w <? length (l ++ [x]))%nat). { destruct (Nat.ltb_spec (Z.to_nat w) (length (l ++ [x]))); [apply Z.ltb_lt|apply Z.ltb_ge]; lia. }
    destruct (Nat.ltb_spec (Z.to_nat w) (length (l ++ [x]))) as [HL|HL].
    + destruct (l ++ [x]) as [|y l'] eqn:El; [cbn in HL; lia|]. cbn [hd skipn].
      assert (P1 : left_after (h ++ [Upd x]) (y :: l')) by (rewrite <- El; apply left_upd, P).
      exists (mkRun (mt_do VarianceMeter (mt_do VarianceMeter (rn_stat s) (Upd x)) (Rem y)) w l'), ((h ++ [Upd x]) ++ [Rem y]).
      split. { rewrite iterM_app. unfold bind. rewrite E. cbn [iterM]. unfold bind. rewrite running_update_var. cbv zeta. rewrite E1, E2, El, LT. reflexivity. }
      split; [reflexivity|]. split; [reflexivity|]. split; [cbn [rn_stat]; rewrite E3; unfold mt_run; rewrite !fold_left_app; reflexivity|]. split; [apply left_rem, P1|]. split.
      * apply Forall_app. split; [apply Forall_app; split; [exact F'|constructor; [exact Fx|constructor]]|constructor; [|constructor]]. cbn. apply Il. left. reflexivity.
      * intros p q Ep. apply prefix_snoc in Ep. destruct Ep as [[_ ->]|[q' Ep]]; [|eapply B1; exact Ep]. exists l'. split; [apply left_rem, P1|]. assert (length (y :: l') = S (length l)) by (rewrite <- El, app_length; cbn [length]; lia). cbn [length] in *. split; [lia|]. intros v Hv. apply Il. right. exact Hv.
    + exists (mkRun (mt_do VarianceMeter (rn_stat s) (Upd x)) w (l ++ [x])), (h ++ [Upd x]).
      split. { rewrite iterM_app. unfold bind. rewrite E. cbn [iterM]. unfold bind. rewrite running_update_var. cbv zeta. rewrite E1, E2, LT. reflexivity. }
      split; [reflexivity|]. split; [reflexivity|]. split; [cbn [rn_stat]; rewrite E3; unfold mt_run; rewrite !fold_left_app; reflexivity|]. split; [apply left_upd, P|]. split; [|exact B1].
      apply Forall_app. split; [exact F'|constructor; [exact Fx|constructor]].
Qed.
Lemma squares_le : forall B ys, Forall (fun x => Rabs (real x) <= B) ys -> squares ys <= INR (length ys) * B ^ 2.
Proof.
  intros B ys H. induction H as [|y ys Hy H IH]; [unfold squares, Rsum; cbn; lra|]. rewrite squares_cons. cbn [length]. rewrite S_INR. assert (real y ^ 2 <= B ^ 2). { rewrite <- pow2_abs. apply pow_incr. split; [apply Rabs_pos|exact Hy]. } lra.
Qed.
(** However long the stream: over integers the sliding variance never drifts. *)
Theorem C120_running_variance : forall (w B : Z) xs, (1 <= w)%Z -> (1 <= B)%Z -> ((w + 1) ^ 2 * B ^ 2 <= 2 ^ 53)%Z -> xs <> [] -> Forall (fun x => integral x /\ Rabs (real x) <= IZR B) xs ->
  let win := lastn (Z.to_nat w) xs in
  exists s0 s1 v, RunningStatistic_init VarianceMeter false w (@nil unit) = Ok s0 /\ iterM (RunningStatistic_update VarianceMeter) xs s0 = (Ok tt, s1) /\
    eval (RunningStatistic_get VarianceMeter) s1 = Ok v /\ finite v /\ 0 <= real v /\ (real v = 0 <-> forall x y, In x win -> In y win -> real x = real y) /\
    Rabs (real v - variance (map real win)) <= ((1 + / 2 ^ 53) ^ 3 - 1) * mean_square (map real win) + / 2 ^ 1073.
Proof.
  intros w B xs Hw HB HwB Hx F win. destruct (running_history w xs Hw) as (s & h & E & E1 & E2 & E3 & P & Fh & Bh). fold win in P, E2.
  assert (NE : win <> []) by (apply lastn_nonempty; [lia|auto]). assert (Lw : (length win <= Z.to_nat w)%nat) by (unfold win; rewrite lastn_length; lia).
  rewrite Forall_forall in F.
  destruct (C120_integers h) with (xs := win) as (v & Ev & Fv & V0 & VZ & VE); auto.
  - eapply Forall_impl; [|exact Fh]. intros [x|x|] Ho; cbn in *; auto; apply F; auto.
  - intros p q Ep. destruct (Bh p q Ep) as (ys & Q1 & Q2 & Q3). exists ys. split; auto.
    assert (S1 : squares ys <= INR (length ys) * IZR B ^ 2) by (apply squares_le; apply Forall_forall; intros y Hy; apply F; auto). assert (L0 : 0 <= INR (length ys)) by apply pos_INR.
    assert (L1 : INR (length ys) <= IZR (w + 1)) by (rewrite INR_IZR_INZ; apply IZR_le; lia). assert (B0 : 0 <= IZR B ^ 2) by apply pow2_ge_0.
    assert (L2 : IZR (w + 1) ^ 2 * IZR B ^ 2 <= 2 ^ 53). { rewrite <- pow53. rewrite !pow_IZR, <- mult_IZR. apply IZR_le. exact HwB. }
    assert (L3 : INR (length ys) * INR (length ys) <= IZR (w + 1) * IZR (w + 1)) by (apply Rmult_le_compat; auto). pose proof (squares_pos ys).
    apply Rle_trans with (INR (length ys) * (INR (length ys) * IZR B ^ 2)); [apply Rmult_le_compat_l; auto|]. rewrite <- Rmult_assoc. eapply Rle_trans; [|exact L2]. apply Rmult_le_compat_r; auto. lra.
  - nia.
  - exists (mkRun (mt_init VarianceMeter) w []), s, v. split; [reflexivity|]. split; [exact E|]. split; [|auto]. transitivity (eval (mt_get VarianceMeter) (rn_stat s)); [|rewrite E3; exact Ev].
    unfold eval, RunningStatistic_get, zoom. destruct (mt_get VarianceMeter (rn_stat s)) as [r t]. reflexivity.
Qed.
Print Assumptions C120_running_variance.

(** ** What fails outside those bounds *)
(** Two values one apart, of the size of a Unix time stamp: the variance is 1/4, the meter reports -512.  Three in a row: the meter reports 0. *)
Theorem C120_never_negative_refuted : exists x y z : float, integral x /\ integral y /\ integral z /\ variance [real x; real y] = / 4 /\ variance [real x; real y; real z] = 2 / 3 /\
  mt_answer VarianceMeter [Upd x; Upd y] = Ok (-512)%float /\ mt_answer VarianceMeter [Upd x; Upd y; Upd z] = Ok 0%float.
Proof.
  exists 1700000000%float, 1700000001%float, 1700000002%float.
  destruct (literal 1700000000 1700000000%float ltac:(lia) ltac:(vm_compute; reflexivity)) as [I1 E1]. destruct (literal 1700000001 1700000001%float ltac:(lia) ltac:(vm_compute; reflexivity)) as [I2 E2]. destruct (literal 1700000002 1700000002%float ltac:(lia) ltac:(vm_compute; reflexivity)) as [I3 E3].
  do 3 (split; [assumption|]). rewrite E1, E2, E3. split; [unfold variance, mean, Rlen, Rsum; cbn [map fold_right length INR]; field|]. split; [unfold variance, mean, Rlen, Rsum; cbn [map fold_right length INR]; field|].
  split; vm_compute; reflexivity.
Qed.
Print Assumptions C120_never_negative_refuted.
(** There is no bound by a multiple of the variance itself: here the variance is 1 and the report exceeds it 2^54-fold. *)
Theorem C120_relative_error_refuted : exists x y v : float, integral x /\ integral y /\ variance [real x; real y] = 1 /\ mt_answer VarianceMeter [Upd x; Upd y] = Ok v /\ real v = 2 ^ 54.
Proof.
  exists 9007199254740992%float, 9007199254740994%float, 18014398509481984%float.
  assert (H : forall z m e x, Prim2SF x = SpecFloat.S754_finite false m e -> (z = Z.pos m * 2 ^ e)%Z -> (0 <= e)%Z -> integral x /\ real x = IZR z).
  { intros z m e x P -> He. assert (E : real x = IZR (Z.pos m * 2 ^ e)). { rewrite real_B2R. unfold Prim2B. rewrite B2R_SF2B, P. unfold SF2R, F2R. cbn [Fnum Fexp cond_Zopp]. rewrite mult_IZR. f_equal. rewrite <- IZR_Zpower by auto. reflexivity. }
    split; auto. split; [|eexists; exact E]. apply finite_B. unfold Prim2B. rewrite is_finite_SF2B, P. reflexivity. }
  destruct (H 9007199254740992%Z 4503599627370496%positive 1%Z 9007199254740992%float) as [I1 E1]; [vm_compute; reflexivity|reflexivity|lia|].
  destruct (H 9007199254740994%Z 4503599627370497%positive 1%Z 9007199254740994%float) as [I2 E2]; [vm_compute; reflexivity|reflexivity|lia|].
  destruct (H 18014398509481984%Z 4503599627370496%positive 2%Z 18014398509481984%float) as [I3 E3]; [vm_compute; reflexivity|reflexivity|lia|].
  split; [exact I1|]. split; [exact I2|]. split; [rewrite E1, E2; unfold variance, mean, Rlen, Rsum; cbn [map fold_right length INR]; field|]. split; [vm_compute; reflexivity|].
  rewrite E3. replace 54%nat with (53 + 1)%nat by reflexivity. rewrite pow_add, <- pow53, pow_1, <- mult_IZR. apply f_equal. reflexivity.
Qed.
Print Assumptions C120_relative_error_refuted.
(** So the z-score of a stream is not the z-score of the shifted stream on doubles (it is on reals: C35). *)
Theorem C120_zscore_shift_refuted : exists c x y z : float,
  let z0 : pp_state (ZScorePostprocessor (A := float)) := (mt_init VarianceMeter, mt_init AverageMeter) in
  real (c + x) = real c + real x /\ real (c + y) = real c + real y /\ real (c + z) = real c + real z /\
  (exists v, eval (Post_fit_transform ZScorePostprocessor [x; y; z]) z0 = Ok [FinV NonFin; FinV (FinV 1%float); FinV (FinV v)]) /\
  eval (Post_fit_transform ZScorePostprocessor [c + x; c + y; c + z]%float) z0 = Ok [FinV NonFin; FinV NonFin; FinV NonFin].
Proof.
  exists 1700000000%float, 0%float, 1%float, 2%float. intros z0.
  destruct (literal 1700000000 1700000000%float ltac:(lia) ltac:(vm_compute; reflexivity)) as [I1 E1]. destruct (literal 1700000000 (1700000000 + 0)%float ltac:(lia) ltac:(vm_compute; reflexivity)) as [_ E2]. destruct (literal 1700000001 (1700000000 + 1)%float ltac:(lia) ltac:(vm_compute; reflexivity)) as [_ E3]. destruct (literal 1700000002 (1700000000 + 2)%float ltac:(lia) ltac:(vm_compute; reflexivity)) as [_ E4].
  destruct (literal 0 0%float ltac:(lia) ltac:(vm_compute; reflexivity)) as [_ E5]. destruct (literal 1 1%float ltac:(lia) ltac:(vm_compute; reflexivity)) as [_ E6]. destruct (literal 2 2%float ltac:(lia) ltac:(vm_compute; reflexivity)) as [_ E7].
  rewrite E1, E2, E3, E4, E5, E6, E7. split; [lra|]. split; [lra|]. split; [lra|]. split; [eexists; vm_compute; reflexivity|vm_compute; reflexivity].
Qed.
Print Assumptions C120_zscore_shift_refuted.

(** ** The hypotheses are met *)
Example C120_ex_integers : exists v, mt_answer VarianceMeter [Upd 3; Upd 5; Get; Rem 3; Upd 5]%float = Ok v /\ finite v /\ real v = 0.
Proof.
  destruct (literal 3 3%float ltac:(lia) ltac:(vm_compute; reflexivity)) as [I3 E3]. destruct (literal 5 5%float ltac:(lia) ltac:(vm_compute; reflexivity)) as [I5 E5].
  destruct (C120_integers [Upd 3; Upd 5; Get; Rem 3; Upd 5]%float) with (xs := [5; 5]%float) as (v & E & F & _ & Z & _).
  - do 5 (apply Forall_cons; [cbn; auto|]). apply Forall_nil.
  - intros p q E. assert (B : 128 <= 2 ^ 53) by (apply Rle_trans with (2 ^ 7); [lra|apply Rle_pow; [lra|lia]]).
    assert (G : forall ys, left_after p ys -> INR (length ys) * squares ys <= 128 -> exists ys, left_after p ys /\ INR (length ys) * squares ys <= 2 ^ 53) by (intros ys H1 H2; exists ys; split; [exact H1|lra]).
    destruct p as [|a [|b [|c [|d [|e [|f p]]]]]]; cbn in E; inversion E; subst; try discriminate;
      [apply (G []%float)|apply (G [3]%float)|apply (G [3; 5]%float)|apply (G [3; 5]%float)|apply (G [5]%float)|apply (G [5; 5]%float)];
      try (unfold squares, Rsum; cbn [map fold_right length INR]; rewrite ?E3, ?E5; lra); unfold left_after; cbn; auto using Permutation_refl, perm_swap.
  - unfold left_after. cbn. apply Permutation_refl.
  - discriminate.
  - cbn. lia.
  - exists v. split; auto. split; auto. apply Z. intros x y Hx Hy. cbn in Hx, Hy. destruct Hx as [<- | [<- | []]], Hy as [<- | [<- | []]]; reflexivity.
Qed.
Example C120_ex_error : exists v, mt_answer VarianceMeter [Upd 0.1; Upd 0.2; Upd 0.4]%float = Ok v /\ finite v /\ (0 <? v)%float = true.
Proof. eexists. split; [vm_compute; reflexivity|]. split; vm_compute; reflexivity. Qed.
Example C120_ex_running : exists s1 v, iterM (RunningStatistic_update VarianceMeter) [7; 1; 1; 1]%float (mkRun (mt_init VarianceMeter) 3 []) = (Ok tt, s1) /\ eval (RunningStatistic_get VarianceMeter) s1 = Ok v /\ real v = 0.
Proof.
  destruct (literal 7 7%float ltac:(lia) ltac:(vm_compute; reflexivity)) as [I7 E7]. destruct (literal 1 1%float ltac:(lia) ltac:(vm_compute; reflexivity)) as [I1 E1].
  destruct (C120_running_variance 3 7 [7; 1; 1; 1]%float) as (s0 & s1 & v & H0 & H1 & H2 & _ & _ & H3 & _); try lia; try discriminate.
  - do 4 (apply Forall_cons; [split; auto; rewrite ?E7, ?E1, Rabs_pos_eq; lra|]). apply Forall_nil.
  - injection H0 as <-. exists s1, v. split; auto. split; auto. apply H3. change (lastn (Z.to_nat 3) [7; 1; 1; 1]%float) with [1; 1; 1]%float. intros x y Hx Hy. cbn in Hx, Hy. destruct Hx as [<- | [<- | [<- | []]]], Hy as [<- | [<- | [<- | []]]]; reflexivity.
Qed.
