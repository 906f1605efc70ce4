(** * C137: the instance scalers on IEEE-754 binary64. *)
From Coq Require Import List ZArith Lia Bool Arith Permutation.
From Coq Require Import Reals Lra Psatz.
From Flocq Require Import Core Relative Plus_error BinarySingleNaN PrimFloat.
From Coq Require Import Floats Uint63.
From Verif Require Import Base Num Spec Model_Core Model_Stats Model_Trans P_Lists P_Stats P_Float Prop_Stats Prop_Rounding Prop_VarFloat.
Import ListNotations.
Open Scope R_scope.

(** ** Specification *)
(** numpy's scaler on one instance of doubles, with the power given to its constructor; [pw] is numpy's ** *)
Definition scaled (pw : float -> float -> float) (o : normord float) (x : list float) : res (pyval (npres float)) := eval (tr_transform (InstanceUnitNormScaler 1%float 2%float pw o) (AInst x)) tt.
Definition standardised (x : list float) : res (pyval (npres float)) := eval (tr_transform InstanceStandardScaler (AInst x)) tt.
(** The Euclidean norm of the exact values. *)
Definition norm2 (x : list float) : R := R_sqrt.sqrt (Rsum (map (fun v => real v ^ 2) x)).

(** ** Operations *)
Lemma scaled_ok : forall pw o x N, np_norm 1%float 2%float pw o x = Ok N -> scaled pw o x = Ok (VArray (map (fun v => npdiv v N) x)).
Proof. intros pw o x N E. unfold scaled, eval. cbn [tr_transform InstanceUnitNormScaler on_instance]. unfold bind, lift, ret, unit_scale. rewrite E. reflexivity. Qed.
Lemma standardised_ok : forall x, standardised x = Ok (VArray (standard_scale x)). Proof. reflexivity. Qed.
Lemma mul_fl : forall a b, finite a -> finite b -> Rabs (fl (real a * real b)) < bpow radix2 1024 -> finite (a * b)%float /\ real (a * b)%float = fl (real a * real b).
Proof.
  intros a b Fa Fb L. pose proof (Bmult_correct _ _ Hprec Hmax mode_NE (Prim2B a) (Prim2B b)) as C. rewrite <- !real_B2R in C.
  change (round radix2 (SpecFloat.fexp prec emax) (round_mode mode_NE) (real a * real b)) with (fl (real a * real b)) in C.
  change (bpow radix2 emax) with (bpow radix2 1024) in C. rewrite Rlt_bool_true in C by auto. destruct C as (C1 & C2 & _). rewrite <- mul_equiv in *. split; [|rewrite real_B2R; auto].
  apply finite_B. rewrite C2. apply finite_B in Fa, Fb. rewrite Fa, Fb. reflexivity.
Qed.
Lemma add_fl : forall a b, finite a -> finite b -> Rabs (fl (real a + real b)) < bpow radix2 1024 -> finite (a + b)%float /\ real (a + b)%float = fl (real a + real b).
Proof.
  intros a b Fa Fb L. apply finite_B in Fa, Fb. pose proof (Bplus_correct _ _ Hprec Hmax mode_NE (Prim2B a) (Prim2B b) Fa Fb) as C. rewrite <- !real_B2R in C.
  change (round radix2 (SpecFloat.fexp prec emax) (round_mode mode_NE) (real a + real b)) with (fl (real a + real b)) in C.
  change (bpow radix2 emax) with (bpow radix2 1024) in C. rewrite Rlt_bool_true in C by auto. destruct C as (C1 & C2 & _). rewrite <- add_equiv in *. split; [|rewrite real_B2R; auto].
  apply finite_B. exact C2.
Qed.
Lemma sqrt_fl : forall a, finite a -> 0 <= real a -> finite (PrimFloat.sqrt a) /\ real (PrimFloat.sqrt a) = fl (R_sqrt.sqrt (real a)).
Proof.
  intros a Fa Pa. pose proof (Bsqrt_correct _ _ Hprec Hmax mode_NE (Prim2B a)) as (C1 & C2 & _). rewrite <- sqrt_equiv in C1, C2. rewrite <- !real_B2R in C1. split; [|exact C1].
  apply finite_B. rewrite C2. apply finite_B in Fa. rewrite real_B2R in Pa. destruct (Prim2B a) as [[]|[]| |[] m e H]; try discriminate; auto.
  exfalso. cbn in Pa. apply ge_0_F2R in Pa. cbn in Pa. lia.
Qed.
Lemma scaled_fmt : forall k, (0 <= k <= 2 ^ 20)%Z -> generic_format radix2 (FLT_exp (-1074) 53) (IZR k * 2 ^ 1000).
Proof.
  intros k H. apply generic_format_FLT. exists (Float radix2 k 1000). { unfold F2R. cbn [Fnum Fexp]. f_equal. rewrite bpow_powerRZ. change (IZR radix2) with 2. change 1000%Z with (Z.of_nat 1000). rewrite <- pow_powerRZ. reflexivity. }
  { cbn [Fnum]. change (radix2 ^ 53)%Z with (2 ^ 53)%Z. lia. } { cbn [Fexp]. lia. }
Qed.
Lemma pow1020 : 2 ^ 20 * 2 ^ 1000 < bpow radix2 1024.
Proof. rewrite <- pow_add, bpow_1024. apply Rlt_pow; [lra|lia]. Qed.
Lemma sum_bounded : forall xs s k, (0 <= k)%Z -> (k + Z.of_nat (length xs) <= 2 ^ 20)%Z -> Forall (fun x => finite x /\ 0 <= real x <= 2 ^ 1000) xs -> finite s -> 0 <= real s <= IZR k * 2 ^ 1000 ->
  finite (fsum s xs) /\ 0 <= real (fsum s xs) <= IZR (k + Z.of_nat (length xs)) * 2 ^ 1000.
Proof.
  induction xs as [|x xs IH]; intros s k Hk HL F Fs B.
  - cbn [fsum fold_left length]. rewrite Z.add_0_r. auto.
  - apply Forall_cons_iff in F. destruct F as [[F1 B1] F2]. cbn [length] in HL |- *. replace (k + Z.of_nat (S (length xs)))%Z with ((k + 1) + Z.of_nat (length xs))%Z by lia.
    assert (P : 0 < 2 ^ 1000) by (apply pow_lt; lra).
    assert (R0 : 0 <= fl (real s + real x) <= IZR (k + 1) * 2 ^ 1000).
    { split; [apply fl_above; [apply generic_format_0|lra]|]. apply fl_below; [apply scaled_fmt; lia|]. rewrite plus_IZR. lra. }
    assert (L : IZR (k + 1) * 2 ^ 1000 <= 2 ^ 20 * 2 ^ 1000). { apply Rmult_le_compat_r; [lra|]. rewrite pow_IZR. apply IZR_le. lia. }
    destruct (add_fl s x Fs F1) as [G1 G2]. { rewrite Rabs_pos_eq by lra. pose proof pow1020. lra. }
    unfold fsum in *. cbn [fold_left]. apply IH; auto; try lia. rewrite G2. exact R0.
Qed.
Lemma square_bounded : forall x, finite x -> Rabs (real x) <= 2 ^ 500 -> finite (x * x)%float /\ real (x * x)%float = fl (real x * real x) /\ 0 <= real (x * x)%float <= 2 ^ 1000.
Proof.
  intros x F B. assert (Q : 0 <= real x * real x <= 2 ^ 1000). { pose proof (Rabs_pos (real x)). replace (real x * real x) with (Rabs (real x) * Rabs (real x)) by (rewrite <- Rabs_mult; apply Rabs_pos_eq; nra). replace (2 ^ 1000) with (2 ^ 500 * 2 ^ 500) by (rewrite <- pow_add; reflexivity). nra. }
  assert (R0 : 0 <= fl (real x * real x) <= 2 ^ 1000). { split; [apply fl_above; [apply generic_format_0|lra]|]. apply fl_below; [|lra]. replace (2 ^ 1000) with (IZR 1 * 2 ^ 1000) by ring. apply scaled_fmt. lia. }
  destruct (mul_fl x x F F) as [G1 G2]. { rewrite Rabs_pos_eq by lra. assert (2 ^ 1000 <= 2 ^ 20 * 2 ^ 1000) by (assert (1 <= 2 ^ 20) by (apply pow_R1_Rle; lra); assert (0 < 2 ^ 1000) by (apply pow_lt; lra); nra). pose proof pow1020. lra. }
  rewrite G2. auto.
Qed.
Lemma gam_le : forall n, INR n * u <= / 2 -> gam n <= 2 * (INR n * u).
Proof.
  intros n H. pose proof u_pos as U. assert (G : (1 + u) ^ n * (1 - INR n * u) <= 1).
  { clear H. induction n as [|n IH]; [cbn; lra|]. destruct (Rle_dec (1 - INR (S n) * u) 0) as [L|L].
    - assert (0 < (1 + u) ^ S n) by (apply pow_lt; lra). apply Rle_trans with 0; [|lra]. rewrite <- (Rmult_0_r ((1 + u) ^ S n)). apply Rmult_le_compat_l; lra.
    - rewrite S_INR in *. cbn [pow]. assert (0 < (1 + u) ^ n) by (apply pow_lt; lra). pose proof (pos_INR n). assert ((1 + u) * (1 - (INR n + 1) * u) <= 1 - INR n * u) by nra. eapply Rle_trans; [|exact IH]. rewrite (Rmult_comm (1 + u)), Rmult_assoc. apply Rmult_le_compat_l; lra. }
  unfold gam. pose proof (pos_INR n) as Pn. assert (Ps : 0 <= INR n * u) by nra. set (s := INR n * u) in *. set (P := (1 + u) ^ n) in *. clearbody s P. assert (P <= 1 + 2 * s) by (apply Rmult_le_reg_r with (1 - s); [lra|nra]). lra.
Qed.
Lemma sqrt_close : forall A B d, 0 < A -> 0 <= B -> 0 <= d -> Rabs (B - A) <= d * A -> Rabs (R_sqrt.sqrt B - R_sqrt.sqrt A) <= d * R_sqrt.sqrt A.
Proof.
  intros A B d HA HB Hd H. assert (PA : 0 < R_sqrt.sqrt A) by (apply sqrt_lt_R0; auto). assert (PB : 0 <= R_sqrt.sqrt B) by apply sqrt_pos.
  pose proof (sqrt_sqrt A ltac:(lra)) as EA. pose proof (sqrt_sqrt B HB) as EB. set (a := R_sqrt.sqrt A) in *. set (b := R_sqrt.sqrt B) in *. clearbody a b. rewrite <- EA, <- EB in H.
  replace (b * b - a * a) with ((b - a) * (b + a)) in H by ring. rewrite Rabs_mult, (Rabs_pos_eq (b + a)) in H by lra. pose proof (Rabs_pos (b - a)). apply Rmult_le_reg_r with (b + a); [lra|]. assert (0 <= d * a * b) by (apply Rmult_le_pos; [apply Rmult_le_pos; lra|lra]). lra.
Qed.
Lemma h0_small : forall k, (k <= 1075)%nat -> h0 <= / 2 ^ k.
Proof. intros k H. unfold h0. apply Rinv_le_contravar; [apply pow_lt; lra|]. apply Rle_pow; [lra|lia]. Qed.
Lemma normalise_close : forall t a S x, u <= t <= / 1000 -> / 2 ^ 450 <= a -> 0 <= S -> Rabs (R_sqrt.sqrt S - a) <= 3 * t * a -> Rabs x <= a ->
  let N := fl (R_sqrt.sqrt S) in 0 < N /\ Rabs (x / N) <= 2 /\ Rabs (fl (x / N) - x / a) <= 10 * t.
Proof.
  intros t a S x [Ht Ht'] Ha HS Hs Hx N. assert (P450 : 0 < / 2 ^ 450) by (apply Rinv_0_lt_compat, pow_lt; lra). pose proof u_pos as U. pose proof h0_pos as H0.
  assert (Hh : h0 <= t * a). { apply Rle_trans with (u * / 2 ^ 450); [|apply Rmult_le_compat; lra]. unfold u. rewrite <- Rinv_mult, <- pow_add. apply h0_small. lia. }
  assert (HN : Rabs (N - a) <= 6 * t * a).
  { unfold N. destruct (fl_error (R_sqrt.sqrt S)) as (ep & et & E1 & E2 & ->). fold h0 in E2. set (b := R_sqrt.sqrt S) in *. clearbody b. replace (b * (1 + ep) + et - a) with ((b - a) + (ep * b + et)) by ring.
    eapply Rle_trans; [apply Rabs_triang|]. assert (Rabs b <= (1 + 3 * t) * a). { replace b with ((b - a) + a) by ring. eapply Rle_trans; [apply Rabs_triang|]. rewrite (Rabs_pos_eq a) by lra. lra. }
    assert (Rabs (ep * b + et) <= u * ((1 + 3 * t) * a) + h0). { eapply Rle_trans; [apply Rabs_triang|]. rewrite Rabs_mult. pose proof (Rabs_pos ep). pose proof (Rabs_pos b). assert (Rabs ep * Rabs b <= u * ((1 + 3 * t) * a)) by (apply Rmult_le_compat; auto). lra. }
    assert (u * ((1 + 3 * t) * a) <= t * ((1 + 3 * t) * a)) by (apply Rmult_le_compat_r; nra). nra. }
  clearbody N. assert (HN2 : (1 - 6 * t) * a <= N <= (1 + 6 * t) * a) by (unfold Rabs in HN; destruct (Rcase_abs (N - a)); lra). assert (NP : 0 < N) by nra. split; auto.
  assert (Q : Rabs (x / a) <= 1). { unfold Rdiv. rewrite Rabs_mult, (Rabs_pos_eq (/ a)) by (left; apply Rinv_0_lt_compat; lra). apply Rmult_le_reg_r with a; [lra|]. rewrite Rmult_assoc, Rinv_l by lra. lra. }
  assert (D : Rabs (x / N - x / a) <= 7 * t).
  { replace (x / N - x / a) with (x / a * ((a - N) / N)) by (field; lra). rewrite Rabs_mult. unfold Rdiv at 2. rewrite Rabs_mult, (Rabs_pos_eq (/ N)) by (left; apply Rinv_0_lt_compat; lra). rewrite (Rabs_minus_sym a N).
    assert (Rabs (N - a) * / N <= 7 * t). { apply Rmult_le_reg_r with N; [lra|]. rewrite Rmult_assoc, Rinv_l by lra. nra. }
    pose proof (Rabs_pos (x / a)). pose proof (Rabs_pos (N - a)). assert (0 < / N) by (apply Rinv_0_lt_compat; lra). nra. }
  assert (Q2 : Rabs (x / N) <= 2). { replace (x / N) with ((x / N - x / a) + x / a) by ring. eapply Rle_trans; [apply Rabs_triang|]. lra. }
  split; auto. destruct (fl_error (x / N)) as (ep & et & E1 & E2 & ->). fold h0 in E2. set (q := x / N) in *. clearbody q. replace (q * (1 + ep) + et - x / a) with ((q - x / a) + (ep * q + et)) by ring. eapply Rle_trans; [apply Rabs_triang|].
  assert (Rabs (ep * q + et) <= u * 2 + h0). { eapply Rle_trans; [apply Rabs_triang|]. rewrite Rabs_mult. pose proof (Rabs_pos ep). pose proof (Rabs_pos q). assert (Rabs ep * Rabs q <= u * 2) by (apply Rmult_le_compat; auto). lra. }
  assert (h0 <= u) by (unfold u; apply h0_small; lia). lra.
Qed.

(** ** The Euclidean norm *)
(** If no component exceeds 2^500 and the norm is at least 2^-450, every component of the result is finite and within 10 n / 2^53 of the exact
    quotient. *)
Theorem C137_unit_norm_is_accurate : forall pw x, x <> [] -> (Z.of_nat (length x) <= 2 ^ 20)%Z -> Forall (fun v => finite v /\ Rabs (real v) <= 2 ^ 500) x -> / 2 ^ 450 <= norm2 x ->
  exists y, scaled pw (OPow 2%float) x = Ok (VArray (map FinV y)) /\ length y = length x /\
    forall i, (i < length x)%nat -> finite (nth i y 0%float) /\ Rabs (real (nth i y 0%float) - real (nth i x 0%float) / norm2 x) <= 10 * INR (length x) / 2 ^ 53.
Proof.
  intros pw x NE HL HF HN. set (n := length x) in *. set (sq := map (fun v => v * v)%float x).
  assert (FS : Forall (fun v => finite v /\ 0 <= real v <= 2 ^ 1000) sq). { unfold sq. apply Forall_map. eapply Forall_impl; [|exact HF]. intros v [F B]. destruct (square_bounded v F B) as (A1 & _ & A2). auto. }
  destruct (sum_bounded sq 0%float 0 ltac:(lia)) as [FSum BSum]; auto.
  { unfold sq. rewrite map_length. fold n. lia. } { exact finite_zero. } { change (real 0%float) with 0. lra. }
  assert (n1 : (1 <= n)%nat) by (unfold n; destruct x; [congruence|cbn; lia]).
  destruct (sumsq_error x FSum n1) as [_ ER]. fold n in ER. set (A := Rsum (map (fun v => real v ^ 2) x)) in *. set (S := real (fsum 0 (map (fun v => v * v)%float x))) in *. fold sq in S.
  assert (P450 : 0 < / 2 ^ 450) by (apply Rinv_0_lt_compat, pow_lt; lra). assert (AN : norm2 x = R_sqrt.sqrt A) by reflexivity.
  assert (A0 : 0 <= A) by (pose proof (Rsum_sq_nonneg (map real x)) as Q; rewrite map_map in Q; exact Q). assert (AE : norm2 x * norm2 x = A) by (rewrite AN; apply sqrt_sqrt; auto). assert (AP : / 2 ^ 900 <= A). { rewrite <- AE. replace (/ 2 ^ 900) with (/ 2 ^ 450 * / 2 ^ 450) by (rewrite <- Rinv_mult, <- pow_add; reflexivity). apply Rmult_le_compat; lra. }
  set (t := INR n * u). pose proof u_pos as U. assert (n1R : 1 <= INR n) by (change 1 with (INR 1); apply le_INR; auto).
  assert (T : u <= t <= / 1000). { unfold t. split; [nra|]. assert (INR n <= 2 ^ 20) by (rewrite INR_IZR_INZ, pow_IZR; apply IZR_le; exact HL). apply Rle_trans with (2 ^ 20 * u); [apply Rmult_le_compat_r; lra|]. unfold u. replace (2 ^ 53) with (2 ^ 20 * 2 ^ 33) by (rewrite <- pow_add; reflexivity). rewrite Rinv_mult, <- Rmult_assoc, Rinv_r by (apply pow_nonzero; lra). rewrite Rmult_1_l. apply Rinv_le_contravar; [lra|]. assert (2 ^ 10 <= 2 ^ 33) by (apply Rle_pow; [lra|lia]). assert (2 ^ 10 = 1024) by (cbn [pow]; lra). lra. }
  assert (GN : gam n <= 2 * t) by (apply gam_le; fold t; lra).
  assert (GN1 : gam (n - 1) <= 1). { assert (INR (n - 1) * u <= t) by (unfold t; apply Rmult_le_compat_r; [lra|apply le_INR; lia]). pose proof (gam_le (n - 1) ltac:(lra)). lra. }
  assert (HS : Rabs (S - A) <= 3 * t * A).
  { eapply Rle_trans; [exact ER|]. assert (INR n * ((1 + gam (n - 1)) * h0) <= t * A).
    { unfold t. rewrite Rmult_assoc. apply Rmult_le_compat_l; [lra|]. pose proof h0_pos. apply Rle_trans with (2 * h0); [nra|]. apply Rle_trans with (u * / 2 ^ 900); [|apply Rmult_le_compat_l; lra]. unfold u. rewrite <- Rinv_mult, <- pow_add. replace (2 * h0) with (/ 2 ^ 1074); [apply Rinv_le_contravar; [apply pow_lt; lra|apply Rle_pow; [lra|lia]]|].
      unfold h0. replace (2 ^ 1075) with (2 * 2 ^ 1074) by reflexivity. rewrite Rinv_mult. assert (2 ^ 1074 <> 0) by (apply pow_nonzero; lra). rewrite <- Rmult_assoc, Rinv_r, Rmult_1_l by lra. reflexivity. }
    nra. }
  assert (PA : 0 < A). { apply Rlt_le_trans with (/ 2 ^ 900); auto. apply Rinv_0_lt_compat, pow_lt. lra. }
  assert (S0 : 0 <= S) by (unfold S; fold sq; lra).
  pose proof (sqrt_close A S (3 * t) PA S0 ltac:(lra) HS) as HQ. rewrite <- AN in HQ.
  destruct (sqrt_fl (fsum 0 sq) FSum ltac:(fold S; lra)) as [FN RN]. fold S in RN. set (N := PrimFloat.sqrt (fsum 0 sq)) in *.
  assert (NORM : np_norm 1%float 2%float pw (OPow 2%float) x = Ok N) by reflexivity.
  assert (C : forall v, In v x -> Rabs (real v) <= norm2 x).
  { intros v I. rewrite AN, <- sqrt_Rsqr_abs. apply sqrt_le_1; [apply Rle_0_sqr|auto|]. unfold Rsqr, A. clear - I. induction x as [|w x IH]; [destruct I|]. cbn [map]. rewrite rsum_cons. pose proof (Rsum_sq_nonneg (map real x)) as Q. rewrite map_map in Q. destruct I as [<-|I]; [lra|]. specialize (IH I). pose proof (pow2_ge_0 (real w)). lra. }
  assert (NZ : (N =? 0)%float = false).
  { destruct (N =? 0)%float eqn:E; auto. apply eqb_real in E; auto; [|exact finite_zero]. change (real 0%float) with 0 in E. destruct x as [|v x']; [congruence|]. destruct (normalise_close t (norm2 (v :: x')) S (real v) T HN S0 HQ (C v (or_introl eq_refl))) as [Q _]. rewrite <- RN in Q. lra. }
  exists (map (fun v => v / N)%float x). split; [|split; [apply map_length|]].
  - rewrite (scaled_ok _ _ _ _ NORM). do 2 f_equal. rewrite map_map. apply map_ext. intros v. unfold npdiv. change (oeqb N n0) with (N =? 0)%float. rewrite NZ. reflexivity.
  - intros i Hi. set (v := nth i x 0%float). assert (I : In v x) by (apply nth_In; exact Hi).
    assert (NV : nth i (map (fun w => w / N)%float x) 0%float = (v / N)%float). { rewrite (nth_indep _ 0%float (0 / N)%float) by (rewrite map_length; exact Hi). apply (map_nth (fun w => (w / N)%float)). } rewrite NV.
    destruct (normalise_close t (norm2 x) S (real v) T HN S0 HQ (C v I)) as (NP & Q2 & Q3). rewrite <- RN in NP, Q2, Q3. assert (Fv : finite v) by (rewrite Forall_forall in HF; apply HF; auto).
    destruct (div_real v N Fv ltac:(lra)) as [G1 G2]. { apply fl_lt_max. eapply Rle_trans; [exact Q2|]. change 2 with (bpow radix2 1). apply bpow_le. lia. }
    split; auto. rewrite G2. unfold t, u in Q3. unfold Rdiv. lra.
Qed.
Print Assumptions C137_unit_norm_is_accurate.
(** Too large or too small components make the squares overflow or vanish: the instance becomes zero, or its direction is lost to
    division by zero, or it comes out with the wrong length. *)
Theorem C137_unit_norm_overflow_refuted : forall pw, scaled pw (OPow 2%float) [0x1p600; -0x1p600]%float = Ok (VArray [FinV 0; FinV (-0)]%float) /\
  scaled pw (OPow 2%float) [0x1p-600; -0x1p-600]%float = Ok (VArray [NonFin; NonFin]).
Proof. intros pw. split; vm_compute; reflexivity. Qed.
Print Assumptions C137_unit_norm_overflow_refuted.
(** The components 3 and 4 scale to 0.6 and 0.8; three and four times 2^-539, the same instance in another unit, do not. *)
Theorem C137_scale_invariance_refuted : forall pw, exists a b, scaled pw (OPow 2%float) [3; 4]%float = Ok (VArray [FinV 0x1.3333333333333p-1; FinV 0x1.999999999999ap-1]%float) /\
  scaled pw (OPow 2%float) [3 * 0x1p-539; 4 * 0x1p-539]%float = Ok (VArray [FinV a; FinV b]) /\ (a <? 0x1.1p-1)%float = true /\ (b <? 0x1.7p-1)%float = true.
Proof. intros pw. eexists. eexists. split; [vm_compute; reflexivity|]. split; [vm_compute; reflexivity|]. split; vm_compute; reflexivity. Qed.
Print Assumptions C137_scale_invariance_refuted.

(** ** The maximum norm *)
Lemma abs_real : forall v, finite v -> finite (PrimFloat.abs v) /\ real (PrimFloat.abs v) = Rabs (real v).
Proof. intros v F. rewrite !real_B2R, abs_equiv, B2R_Babs. split; auto. apply finite_B. rewrite abs_equiv, is_finite_Babs. apply finite_B. auto. Qed.
Lemma max_real : forall l a, finite a -> Forall finite l -> let m := fold_left omax l a in In m (a :: l) /\ finite m /\ forall v, In v (a :: l) -> real v <= real m.
Proof.
  induction l as [|b l IH]; intros a Fa F; cbn [fold_left]; cbv zeta.
  - split; [left; auto|]. split; auto. intros v [<-|[]]. lra.
  - apply Forall_cons_iff in F. destruct F as [Fb F].
    assert (G : finite (omax a b) /\ real a <= real (omax a b) /\ real b <= real (omax a b) /\ (omax a b = a \/ omax a b = b)).
    { unfold omax. cbn [oltb num_ord NumF OrdF]. destruct (PrimFloat.ltb a b) eqn:E.
      - apply ltb_real in E; auto. repeat split; auto; lra.
      - repeat split; auto; try lra. apply Rnot_lt_le. intros L. apply ltb_real in L; auto. congruence. }
    destruct G as (G1 & G2 & G3 & G4). destruct (IH (omax a b) G1 F) as (I1 & I2 & I3). cbv zeta in *. split; [|split; auto].
    + destruct I1 as [I1|I1]; [|right; right; auto]. destruct G4 as [E|E]; [left|right; left]; rewrite <- E at 1; exact I1.
    + intros v [<-|[<-|I]]; [|eapply Rle_trans; [exact G3|apply I3; left; auto]|apply I3; right; auto]. eapply Rle_trans; [exact G2|apply I3; left; auto].
Qed.
(** With pow = inf the promise holds on doubles too: every component lies in [-1, 1] and one of them is 1 or -1, whatever the size of the
    components. *)
Theorem C137_max_norm_is_exact : forall pw x, Forall finite x -> (exists v, In v x /\ real v <> 0) ->
  exists y, scaled pw OInf x = Ok (VArray (map FinV y)) /\ length y = length x /\ Forall (fun v => finite v /\ Rabs (real v) <= 1) y /\ exists v, In v y /\ Rabs (real v) = 1.
Proof.
  intros pw x F (w & Iw & Nw). destruct x as [|a l]; [destruct Iw|].
  assert (FA : Forall finite (map PrimFloat.abs l)) by (apply Forall_map; apply Forall_inv_tail in F; eapply Forall_impl; [|exact F]; intros v Fv; apply abs_real; auto).
  destruct (max_real (map PrimFloat.abs l) (PrimFloat.abs a) (proj1 (abs_real a (Forall_inv F))) FA) as (I & FM & MX). set (M := fold_left omax (map PrimFloat.abs l) (PrimFloat.abs a)) in *. cbv zeta in *.
  change (PrimFloat.abs a :: map PrimFloat.abs l) with (map PrimFloat.abs (a :: l)) in *. rewrite Forall_forall in F.
  assert (MP : 0 < real M). { pose proof (MX (PrimFloat.abs w) (in_map _ _ _ Iw)) as Q. rewrite (proj2 (abs_real w (F w Iw))) in Q. pose proof (Rabs_pos_lt _ Nw). lra. }
  assert (EM : np_norm 1%float 2%float pw OInf (a :: l) = Ok M) by reflexivity.
  assert (NZ : (M =? 0)%float = false). { destruct (M =? 0)%float eqn:E; auto. apply eqb_real in E; auto; [|exact finite_zero]. change (real 0%float) with 0 in E. lra. }
  assert (ONE : generic_format radix2 (FLT_exp (-1074) 53) 1) by (apply (IZR_fmt 1); lia).
  assert (D : forall v, In v (a :: l) -> finite (v / M)%float /\ Rabs (real (v / M)%float) <= 1 /\ (Rabs (real v) = real M -> Rabs (real (v / M)%float) = 1)).
  { intros v Iv. pose proof (MX (PrimFloat.abs v) (in_map _ _ _ Iv)) as Q. rewrite (proj2 (abs_real v (F v Iv))) in Q.
    assert (Q1 : -1 <= real v / real M <= 1). { assert (- real M <= real v <= real M) by (unfold Rabs in Q; destruct (Rcase_abs (real v)); lra). split; apply Rmult_le_reg_r with (real M); auto; unfold Rdiv; rewrite Rmult_assoc, Rinv_l by lra; lra. }
    assert (Q2 : -1 <= fl (real v / real M) <= 1) by (split; [apply fl_above; [apply opp_fmt; auto|lra]|apply fl_below; [auto|lra]]).
    destruct (div_real v M (F v Iv) ltac:(lra)) as [G1 G2]. { apply fl_lt_max. apply Rle_trans with 1; [unfold Rabs; destruct (Rcase_abs (real v / real M)); lra|]. change 1 with (bpow radix2 0). apply bpow_le. lia. }
    split; auto. rewrite G2. split; [unfold Rabs; destruct (Rcase_abs (fl (real v / real M))); lra|]. intros E. unfold Rabs in E. destruct (Rcase_abs (real v)).
    - replace (real v / real M) with (- (1)) by (rewrite <- E; field; lra). rewrite fl_fmt by (apply opp_fmt; auto). rewrite Rabs_Ropp, Rabs_R1. reflexivity.
    - rewrite E. replace (real M / real M) with 1 by (field; lra). rewrite fl_fmt by auto. apply Rabs_R1. }
  exists (map (fun v => v / M)%float (a :: l)). split; [|split; [apply map_length|split]].
  - rewrite (scaled_ok _ _ _ _ EM). do 2 f_equal. rewrite map_map. apply map_ext. intros v. unfold npdiv. change (oeqb M n0) with (M =? 0)%float. rewrite NZ. reflexivity.
  - apply Forall_map, Forall_forall. intros v Iv. destruct (D v Iv) as (D1 & D2 & _). auto.
  - apply in_map_iff in I. destruct I as (v & Ev & Iv). exists (v / M)%float. split; [apply (in_map (fun v => (v / M)%float)); auto|]. apply (D v Iv). rewrite <- Ev. symmetry. apply abs_real. auto.
Qed.
Print Assumptions C137_max_norm_is_exact.

(** ** InstanceStandardScaler *)
Lemma map_rep : forall X Y (f : X -> Y) c n, map f (repeat c n) = repeat (f c) n. Proof. intros X Y f c n. induction n as [|n IH]; cbn [repeat map]; [reflexivity|rewrite IH; reflexivity]. Qed.
Lemma eqb_zero : forall v, finite v -> real v = 0 -> (v =? 0)%float = true.
Proof.
  intros v F E. rewrite eqb_equiv. change (Prim2B 0) with (B754_zero (prec := prec) (emax := emax) false). rewrite Beqb_correct; [|apply finite_B; auto|reflexivity].
  rewrite <- real_B2R, E. cbn [B2R]. apply Req_bool_true. reflexivity.
Qed.
Lemma sum_same : forall n c a (k : Z), integral c -> integral a -> real a = IZR k * real c -> (0 <= k)%Z -> IZR (k + Z.of_nat n) * Rabs (real c) <= 2 ^ 53 ->
  integral (fsum a (repeat c n)) /\ real (fsum a (repeat c n)) = IZR (k + Z.of_nat n) * real c.
Proof.
  induction n as [|n IH]; intros c a k Ic Ia E Hk HB.
  - cbn [repeat fsum fold_left]. rewrite Z.add_0_r in *. auto.
  - cbn [repeat]. unfold fsum in *. cbn [fold_left]. replace (k + Z.of_nat (S n))%Z with (k + 1 + Z.of_nat n)%Z in * by lia. destruct (add_int a c Ia Ic) as [G1 G2].
    { rewrite E. replace (IZR k * real c + real c) with (IZR (k + 1) * real c) by (rewrite plus_IZR; ring). rewrite Rabs_mult, Rabs_pos_eq by (apply IZR_le; lia). eapply Rle_trans; [|exact HB]. apply Rmult_le_compat_r; [apply Rabs_pos|]. apply IZR_le. lia. }
    apply IH; auto; try lia. rewrite G2, E, plus_IZR. ring.
Qed.
Lemma mean_exact : forall n c, integral c -> (1 <= n)%nat -> INR n * Rabs (real c) <= 2 ^ 53 -> (Z.of_nat n <= 2 ^ 53)%Z -> finite (vec_mean (repeat c n)) /\ real (vec_mean (repeat c n)) = real c.
Proof.
  intros n c Ic Hn HB HZ. unfold vec_mean. cbn [ndiv nofZ NumF]. rewrite repeat_length. change (nsum (repeat c n)) with (fsum 0 (repeat c n)).
  destruct (sum_same n c 0%float 0 Ic) as [[G1 _] G2]; try lia. { split; [exact finite_zero|exists 0%Z; reflexivity]. } { change (real 0%float) with 0. ring. } { rewrite Z.add_0_l, <- INR_IZR_INZ. exact HB. }
  destruct (ofZ_real (Z.of_nat n)) as [N1 N2]; [lia|]. rewrite Z.add_0_l in G2. assert (NP : 1 <= IZR (Z.of_nat n)) by (apply IZR_le; lia).
  assert (Q : real (fsum 0 (repeat c n)) / real (float_ofZ (Z.of_nat n)) = real c) by (rewrite G2, N2; field; lra). assert (FC : fl (real c) = real c) by (apply fl_fmt, real_fmt).
  destruct (div_real (fsum 0 (repeat c n)) (float_ofZ (Z.of_nat n)) G1) as [D1 D2]; [lra| |].
  - rewrite Q, FC. apply real_lt.
  - split; auto. rewrite D2, Q. exact FC.
Qed.
(** An instance of equal whole numbers has no spread on doubles either: division by zero, as over the reals. *)
Theorem C137_constant_whole_numbers : forall c n, integral c -> INR n * Rabs (real c) <= 2 ^ 53 -> (Z.of_nat n <= 2 ^ 53)%Z -> standardised (repeat c n) = Ok (VArray (repeat NonFin n)).
Proof.
  intros c n Ic HB HZ. rewrite standardised_ok. do 2 f_equal. destruct n as [|n]; [reflexivity|]. set (m := S n) in *. assert (Hm : (1 <= m)%nat) by (unfold m; lia). clearbody m.
  destruct (mean_exact m c Ic Hm HB HZ) as [M1 M2]. set (mu := vec_mean (repeat c m)) in *.
  destruct (sub_exact c mu (proj1 Ic) M1) as [S1 S2]. { rewrite M2. unfold Rminus. rewrite Rplus_opp_r. apply generic_format_0. } { rewrite M2. unfold Rminus. rewrite Rplus_opp_r, Rabs_R0. apply bpow_gt_0. }
  rewrite M2 in S2. unfold Rminus in S2. rewrite Rplus_opp_r in S2. destruct (abs_real _ S1) as [A1 A2]. rewrite S2, Rabs_R0 in A2.
  set (d := PrimFloat.abs (c - mu)) in *. destruct (mul_exact d d A1 A1) as [Q1 Q2]. { rewrite A2, Rmult_0_l. apply generic_format_0. } { rewrite A2, Rmult_0_l, Rabs_R0. apply bpow_gt_0. } rewrite A2, Rmult_0_l in Q2.
  assert (V : vec_std (repeat c m) = PrimFloat.sqrt (vec_mean (repeat (d * d)%float m))). { unfold vec_std. fold mu. cbn [nsqrt NumF]. do 2 f_equal. rewrite map_rep. reflexivity. }
  destruct (mean_exact m (d * d)%float) as [W1 W2]; auto. { split; auto. exists 0%Z. auto. } { rewrite Q2, Rabs_R0, Rmult_0_r. apply Rlt_le, pow_lt. lra. } rewrite Q2 in W2.
  destruct (sqrt_fl _ W1 ltac:(lra)) as [R1 R2]. rewrite W2, sqrt_0, fl_0 in R2. rewrite <- V in R1, R2.
  unfold standard_scale. fold mu. unfold npdiv. change (oeqb (vec_std (repeat c m)) n0) with (vec_std (repeat c m) =? 0)%float. rewrite (eqb_zero _ R1 R2). apply map_rep.
Qed.
Print Assumptions C137_constant_whole_numbers.
(** An instance of equal fractions has: the mean of three times 0.1 is not 0.1, the deviation is divided by itself, and the constant instance
    becomes an instance of equal ones, with mean 1 or -1 instead of 0 and standard deviation 0 instead of 1. *)
Theorem C137_constant_instance_refuted : standardised [0x1.999999999999ap-4; 0x1.999999999999ap-4; 0x1.999999999999ap-4]%float = Ok (VArray [FinV (-1); FinV (-1); FinV (-1)]%float) /\
  standardised [0x1.6666666666666p-1; 0x1.6666666666666p-1; 0x1.6666666666666p-1]%float = Ok (VArray [FinV 1; FinV 1; FinV 1]%float).
Proof. split; vm_compute; reflexivity. Qed.
Print Assumptions C137_constant_instance_refuted.
(** Overflow: an instance with two opposite huge components becomes zero. *)
Theorem C137_standard_overflow_refuted : standardised [0x1p600; -0x1p600]%float = Ok (VArray [FinV 0; FinV (-0)]%float) /\ standardised [0x1p-600; -0x1p-600]%float = Ok (VArray [NonFin; NonFin]).
Proof. split; vm_compute; reflexivity. Qed.
Print Assumptions C137_standard_overflow_refuted.

(** Instances meeting the hypotheses. *)
Lemma int_literal : forall z x, (Z.abs z <= 2 ^ 53)%Z -> x = float_ofZ z -> finite x /\ real x = IZR z. Proof. intros z x H ->. apply ofZ_real. auto. Qed.
Example C137_case : Forall (fun v => finite v /\ Rabs (real v) <= 2 ^ 500) [3; -4]%float /\ / 2 ^ 450 <= norm2 [3; -4]%float /\ (exists v, In v [3; -4]%float /\ real v <> 0) /\ integral 7%float /\ INR 3 * Rabs (real 7%float) <= 2 ^ 53.
Proof.
  destruct (int_literal 3 3%float ltac:(lia) eq_refl) as [F3 R3]. destruct (int_literal (-4) (-4)%float ltac:(lia) eq_refl) as [F4 R4]. destruct (int_literal 7 7%float ltac:(lia) eq_refl) as [F7 R7].
  assert (B : 2 ^ 3 <= 2 ^ 500) by (apply Rle_pow; [lra|lia]). split; [|split; [|split; [|split]]].
  - constructor; [split; auto; rewrite R3, Rabs_right; cbn [pow] in B; lra|]. constructor; [split; auto; rewrite R4, Rabs_left; cbn [pow] in B; lra|constructor].
  - unfold norm2. cbn [map]. rewrite !rsum_cons. unfold Rsum. cbn [fold_right]. rewrite R3, R4. replace (3 ^ 2 + ((-4) ^ 2 + 0)) with (5 * 5) by (cbn; ring). rewrite sqrt_square by lra. apply Rle_trans with (/ 1); [apply Rinv_le_contravar; [lra|apply pow_R1_Rle; lra]|lra].
  - exists 3%float. split; [left; auto|]. rewrite R3. lra.
  - split; auto. exists 7%Z. auto.
  - rewrite R7, Rabs_right by lra. assert (2 ^ 6 <= 2 ^ 53) by (apply Rle_pow; [lra|lia]). cbn [INR] in *. assert (2 ^ 6 = 64) by (cbn [pow]; lra). lra.
Qed.
