(** * Real numbers and binary64: what the operations of the kernel's doubles compute.
    The statements below only need [real] and [PrimFloat.is_finite]; the proofs use Flocq. *)
From Coq Require Import List ZArith Lia Bool Arith.
From Coq Require Import Reals Lra Psatz.
From Flocq Require Import Core Relative Plus_error BinarySingleNaN PrimFloat.
From Coq Require Import Floats Uint63.
From Verif Require Import Base Num Spec.
Import ListNotations.
Open Scope R_scope.

(** The real number that a double stands for: sign, mantissa and exponent (0 for infinities and nan). *)
Definition real (x : float) : R :=
  match Prim2SF x with
  | S754_finite s m e => (if s then -1 else 1) * IZR (Zpos m) * powerRZ 2 e
  | _ => 0
  end.
Definition finite (x : float) : Prop := Coq.Floats.PrimFloat.is_finite x = true.
(** [x] is a double nearest to the real number [r]. *)
Definition nearest (r : R) (x : float) : Prop := finite x /\ forall y, finite y -> Rabs (real x - r) <= Rabs (real y - r).

Definition fl (r : R) : R := round radix2 (FLT_exp (-1074) 53) ZnearestE r.
Definition u : R := / 2 ^ 53.
#[local] Instance prec53 : Prec_gt_0 53 := eq_refl.
Local Notation fmt := (generic_format radix2 (FLT_exp (-1074) 53)).

Lemma real_B2R : forall x, real x = B2R (Prim2B x).
Proof.
  intros x. unfold real. rewrite <- B2SF_Prim2B. destruct (Prim2B x) as [s|s| |s m e Hb]; auto. cbn [B2SF B2R]. unfold F2R. cbn [Fnum Fexp]. rewrite bpow_powerRZ. destruct s; cbn [cond_Zopp].
  - rewrite opp_IZR. change (IZR radix2) with 2. ring.
  - change (IZR radix2) with 2. ring.
Qed.
Lemma finite_B : forall x, finite x <-> BinarySingleNaN.is_finite (Prim2B x) = true.
Proof. intros x. unfold finite. rewrite is_finite_equiv. tauto. Qed.
Lemma real_fmt : forall x, fmt (real x).
Proof. intros x. rewrite real_B2R. exact (generic_format_B2R _ _ (Prim2B x)). Qed.
Lemma real_lt : forall x, Rabs (real x) < bpow radix2 1024.
Proof. intros x. rewrite real_B2R. apply abs_B2R_lt_emax. Qed.
Lemma real_zero : real zero = 0.
Proof. reflexivity. Qed.
Lemma finite_zero : finite zero.
Proof. reflexivity. Qed.
Lemma fl_fmt : forall r, fmt r -> fl r = r.
Proof. intros r H. apply round_generic; auto. apply valid_rnd_N. Qed.
Lemma IZR_fmt : forall z, (Z.abs z <= 2 ^ 53)%Z -> fmt (IZR z).
Proof.
  intros z H. apply generic_format_FLT. destruct (Z.eq_dec (Z.abs z) (2 ^ 53)) as [E|N].
  - exists (Float radix2 (Z.sgn z) 53). { unfold F2R. cbn [Fnum Fexp]. rewrite bpow_powerRZ. change (IZR radix2) with 2. change 53%Z with (Z.of_nat 53). rewrite <- pow_powerRZ. rewrite (pow_IZR 2). rewrite <- mult_IZR. f_equal. change (2 ^ Z.of_nat 53)%Z with (2 ^ 53)%Z. lia. }
    { cbn [Fnum]. change (radix2 ^ 53)%Z with (2 ^ 53)%Z. lia. } { cbn [Fexp]. lia. }
  - exists (Float radix2 z 0). { unfold F2R. cbn [Fnum Fexp]. cbn [bpow]. lra. } { cbn [Fnum]. change (radix2 ^ 53)%Z with (2 ^ 53)%Z. lia. } { cbn [Fexp]. lia. }
Qed.
Lemma bpow_inv : forall n, bpow radix2 (- Z.of_nat n) = / 2 ^ n.
Proof. intros n. rewrite bpow_opp, bpow_powerRZ. change (IZR radix2) with 2. rewrite <- pow_powerRZ. reflexivity. Qed.
Lemma half_pow : forall n, / 2 * / 2 ^ n = / 2 ^ S n.
Proof. intros n. cbn [pow]. rewrite Rinv_mult. reflexivity. Qed.
Lemma fl_error : forall r, exists eps eta, Rabs eps <= u /\ Rabs eta <= / 2 ^ 1075 /\ fl r = r * (1 + eps) + eta.
Proof.
  intros r. destruct (error_N_FLT radix2 (-1074) 53 eq_refl (fun x => negb (Z.even x)) r) as (eps & eta & H1 & H2 & _ & H3). exists eps, eta.
  assert (B1 : / 2 * bpow radix2 (- (53) + 1) = u). { unfold u. change (- (53) + 1)%Z with (- Z.of_nat 52)%Z. rewrite bpow_inv. apply half_pow. }
  assert (B2 : / 2 * bpow radix2 (-1074) = / 2 ^ 1075). { change (-1074)%Z with (- Z.of_nat 1074)%Z. rewrite bpow_inv. apply half_pow. }
  rewrite B1 in H1. rewrite B2 in H2. auto.
Qed.

Lemma fl_plus_error : forall a b, fmt a -> fmt b -> exists eps, Rabs eps <= u /\ fl (a + b) = (a + b) * (1 + eps).
Proof.
  intros a b Ha Hb. destruct (FLT_plus_error_N_ex radix2 (-1074) 53 (fun x => negb (Z.even x)) a b Ha Hb) as (eps & H1 & H2). exists eps. split; [|exact H2]. apply (Rle_trans _ _ _ H1).
  assert (E : u_ro radix2 53 = u). { unfold u_ro, u. change (- (53) + 1)%Z with (- Z.of_nat 52)%Z. rewrite bpow_inv. apply half_pow. }
  rewrite E. assert (0 < u). { unfold u. apply Rinv_0_lt_compat, pow_lt. lra. } apply Rmult_le_reg_r with (1 + u); [lra|]. unfold Rdiv. rewrite Rmult_assoc, Rinv_l by lra. nra.
Qed.
Lemma u_pos : 0 < u.
Proof. unfold u. apply Rinv_0_lt_compat, pow_lt. lra. Qed.
(** ** Addition, subtraction, division, conversion of integers *)
Lemma add_real : forall a b, finite (a + b)%float -> finite a /\ finite b /\ real (a + b)%float = fl (real a + real b).
Proof.
  intros a b H. rewrite finite_B, add_equiv in H.
  assert (F : BinarySingleNaN.is_finite (Prim2B a) = true /\ BinarySingleNaN.is_finite (Prim2B b) = true). { destruct (Prim2B a) as [[]|[]| |? ? ? ?], (Prim2B b) as [[]|[]| |? ? ? ?]; try discriminate H; auto. }
  destruct F as [Fa Fb]. split; [apply finite_B; auto|]. split; [apply finite_B; auto|].
  pose proof (Bplus_correct _ _ Hprec Hmax mode_NE (Prim2B a) (Prim2B b) Fa Fb) as C. destruct (Rlt_bool _ _).
  - destruct C as [C _]. rewrite !real_B2R, add_equiv. exact C.
  - exfalso. destruct C as [C _]. rewrite <- is_finite_SF_B2SF in H. rewrite C in H. discriminate H.
Qed.
Lemma add_exact : forall a b, finite a -> finite b -> fmt (real a + real b) -> Rabs (real a + real b) < bpow radix2 1024 -> finite (a + b)%float /\ real (a + b)%float = real a + real b.
Proof.
  intros a b Fa Fb G L. rewrite finite_B in *. rewrite !real_B2R in *. pose proof (Bplus_correct _ _ Hprec Hmax mode_NE (Prim2B a) (Prim2B b) Fa Fb) as C. rewrite add_equiv.
  assert (E : round radix2 (SpecFloat.fexp prec emax) (round_mode mode_NE) (B2R (Prim2B a) + B2R (Prim2B b)) = B2R (Prim2B a) + B2R (Prim2B b)) by (apply fl_fmt; exact G). rewrite E in C. rewrite Rlt_bool_true in C by exact L. destruct C as (C1 & C2 & _). auto.
Qed.
Lemma sub_exact : forall a b, finite a -> finite b -> fmt (real a - real b) -> Rabs (real a - real b) < bpow radix2 1024 -> finite (a - b)%float /\ real (a - b)%float = real a - real b.
Proof.
  intros a b Fa Fb G L. rewrite finite_B in *. rewrite !real_B2R in *. pose proof (Bminus_correct _ _ Hprec Hmax mode_NE (Prim2B a) (Prim2B b) Fa Fb) as C. rewrite sub_equiv.
  assert (E : round radix2 (SpecFloat.fexp prec emax) (round_mode mode_NE) (B2R (Prim2B a) - B2R (Prim2B b)) = B2R (Prim2B a) - B2R (Prim2B b)) by (apply fl_fmt; exact G). rewrite E in C. rewrite Rlt_bool_true in C by exact L. destruct C as (C1 & C2 & _). auto.
Qed.
Lemma bpow_1024 : bpow radix2 1024 = 2 ^ 1024.
Proof. rewrite bpow_powerRZ. change (IZR radix2) with 2. change 1024%Z with (Z.of_nat 1024). rewrite <- pow_powerRZ. reflexivity. Qed.
Lemma IZR_lt_max : forall z, (Z.abs z <= 2 ^ 53)%Z -> Rabs (IZR z) < bpow radix2 1024.
Proof.
  intros z H. rewrite <- abs_IZR. apply Rle_lt_trans with (IZR (2 ^ 53)); [apply IZR_le; auto|]. change 2%Z with (radix_val radix2). rewrite IZR_Zpower by lia. apply bpow_lt. lia.
Qed.
Lemma ofZ_real : forall z, (Z.abs z <= 2 ^ 53)%Z -> finite (float_ofZ z) /\ real (float_ofZ z) = IZR z.
Proof.
  assert (P : forall z, (0 <= z <= 2 ^ 53)%Z -> finite (of_uint63 (Uint63.of_Z z)) /\ real (of_uint63 (Uint63.of_Z z)) = IZR z).
  { intros z H. rewrite finite_B, real_B2R, of_int63_equiv. assert (E : Uint63.to_Z (Uint63.of_Z z) = z). { rewrite Uint63.of_Z_spec. apply Z.mod_small. change wB with (2 ^ 63)%Z. lia. }
    rewrite E. pose proof (binary_normalize_correct _ _ Hprec Hmax mode_NE z 0 false) as C. cbv zeta in C.
    assert (Q : F2R (Float radix2 z 0) = IZR z). { unfold F2R. cbn. lra. } rewrite Q in C.
    assert (G : round radix2 (SpecFloat.fexp prec emax) (round_mode mode_NE) (IZR z) = IZR z) by (apply fl_fmt, IZR_fmt; lia). rewrite G in C. rewrite Rlt_bool_true in C by (apply IZR_lt_max; lia). destruct C as (C1 & C2 & _). auto. }
  intros z H. unfold float_ofZ. destruct (Z.ltb_spec z 0).
  - destruct (P (- z)%Z ltac:(lia)) as [F E]. rewrite finite_B, real_B2R in *. rewrite opp_equiv, is_finite_Bopp, B2R_Bopp. split; auto. rewrite E, opp_IZR. lra.
  - apply P. lia.
Qed.
Lemma fl_lt_max : forall r, Rabs r <= bpow radix2 1023 -> Rabs (fl r) < bpow radix2 1024.
Proof.
  intros r H. apply Rle_lt_trans with (bpow radix2 1023); [|apply bpow_lt; lia]. apply abs_round_le_generic; auto. { apply FLT_exp_valid. reflexivity. } { apply valid_rnd_N. } { apply generic_format_bpow. unfold FLT_exp. lia. }
Qed.
Lemma div_real : forall a b, finite a -> real b <> 0 -> Rabs (fl (real a / real b)) < bpow radix2 1024 -> finite (a / b)%float /\ real (a / b)%float = fl (real a / real b).
Proof.
  intros a b Fa Hb L. rewrite finite_B in *. rewrite !real_B2R in *. rewrite div_equiv. pose proof (Bdiv_correct _ _ Hprec Hmax mode_NE (Prim2B a) (Prim2B b) Hb) as C. rewrite Rlt_bool_true in C by exact L. destruct C as (C1 & C2 & _). rewrite C2. auto.
Qed.
Lemma div_finite : forall a b, finite (a / b)%float -> real b <> 0 -> finite a.
Proof. intros a b H Hb. rewrite finite_B in *. rewrite real_B2R in Hb. rewrite div_equiv in H. destruct (Prim2B a) as [?|?| |? ? ? ?], (Prim2B b) as [?|?| |? ? ? ?]; try discriminate H; auto; exfalso; apply Hb; reflexivity. Qed.
Lemma div_fl : forall a b, finite (a / b)%float -> real b <> 0 -> real (a / b)%float = fl (real a / real b).
Proof.
  intros a b H Hb. rewrite finite_B in H. rewrite !real_B2R in *. rewrite div_equiv in *. pose proof (Bdiv_correct _ _ Hprec Hmax mode_NE (Prim2B a) (Prim2B b) Hb) as C. destruct (Rlt_bool _ _).
  - destruct C as (C1 & _). exact C1.
  - exfalso. rewrite <- is_finite_SF_B2SF in H. rewrite C in H. discriminate H.
Qed.
(** Rounding gives a nearest double. *)
Lemma fl_nearest : forall r x, finite x -> real x = fl r -> nearest r x.
Proof.
  intros r x Fx E. split; auto. intros y Fy. rewrite E. apply (round_N_pt radix2 (FLT_exp (-1074) 53) (fun x => negb (Z.even x)) r). apply real_fmt.
Qed.
(** Comparisons of finite doubles are those of their real numbers. *)
Lemma ltb_real : forall x y, finite x -> finite y -> ((x <? y)%float = true <-> real x < real y).
Proof.
  intros x y Fx Fy. rewrite ltb_equiv, !real_B2R. apply finite_B in Fx, Fy. rewrite (Bltb_correct _ _ _ _ Fx Fy). destruct (Raux.Rlt_bool_spec (B2R (Prim2B x)) (B2R (Prim2B y))); split; auto; try discriminate; lra.
Qed.
Lemma leb_real : forall x y, finite x -> finite y -> ((x <=? y)%float = true <-> real x <= real y).
Proof.
  intros x y Fx Fy. rewrite leb_equiv, !real_B2R. apply finite_B in Fx, Fy. rewrite (Bleb_correct _ _ _ _ Fx Fy). destruct (Raux.Rle_bool_spec (B2R (Prim2B x)) (B2R (Prim2B y))); split; auto; try discriminate; lra.
Qed.
(** Ratios of counts. *)
Lemma fl_le : forall a b, a <= b -> fl a <= fl b.
Proof. intros a b H. unfold fl. apply round_le; auto with typeclass_instances. Qed.
Lemma inv53_fmt : fmt (/ 2 ^ 53).
Proof. rewrite <- (bpow_inv 53). apply generic_format_bpow. unfold FLT_exp. lia. Qed.
Lemma below_one_fmt : fmt (1 - / 2 ^ 53).
Proof.
  apply generic_format_FLT. apply (FLT_spec radix2 (-1074) 53 _ (Float radix2 (2 ^ 53 - 1) (- 53))); cbn [Fnum Fexp]; try lia; try reflexivity.
  unfold F2R. cbn [Fnum Fexp]. change (- 53)%Z with (- Z.of_nat 53)%Z. rewrite bpow_inv. rewrite minus_IZR. change (IZR (2 ^ 53)) with (IZR (Zpower 2 53)). replace (IZR (2 ^ 53)) with (2 ^ 53) by (rewrite (pow_IZR 2); reflexivity). field. 
Qed.
Lemma ratio_real : forall k n, (0 <= k <= n)%Z -> (1 <= n <= 2 ^ 53)%Z ->
  let q := (float_ofZ k / float_ofZ n)%float in nearest (IZR k / IZR n) q /\ real q = fl (IZR k / IZR n) /\ 0 <= real q <= 1 /\ (real q = 0 <-> k = 0%Z) /\ (real q = 1 <-> k = n).
Proof.
  intros k n Hk Hn q. destruct (ofZ_real k ltac:(lia)) as [Fk Ek]. destruct (ofZ_real n ltac:(lia)) as [Fn En].
  assert (Pn : 1 <= IZR n) by (apply (IZR_le 1); lia). assert (Pk : 0 <= IZR k) by (apply (IZR_le 0); lia). assert (Kn : IZR k <= IZR n) by (apply IZR_le; lia).
  assert (Pi : 0 < / IZR n) by (apply Rinv_0_lt_compat; lra). assert (P1 : IZR n * / IZR n = 1) by (field; lra).
  assert (N53 : IZR n <= 2 ^ 53). { rewrite (pow_IZR 2). apply IZR_le. cbn. lia. } assert (I53 : / 2 ^ 53 <= / IZR n) by (apply Rinv_le_contravar; lra).
  assert (B : 0 <= IZR k / IZR n <= 1). { unfold Rdiv. split; [nra|]. apply Rle_trans with (IZR n * / IZR n); [|lra]. apply Rmult_le_compat_r; lra. }
  destruct (div_real (float_ofZ k) (float_ofZ n) Fk) as [Fq Eq]. { rewrite En. lra. }
  { rewrite Ek, En. apply fl_lt_max. rewrite Rabs_pos_eq by lra. apply Rle_trans with (bpow radix2 0); [cbn; lra|apply bpow_le; lia]. }
  fold q in Fq, Eq. rewrite Ek, En in Eq. split; [apply fl_nearest; auto|]. split; [exact Eq|]. rewrite Eq.
  assert (F0 : fl 0 = 0) by (apply fl_fmt; apply generic_format_0). assert (F1 : fl 1 = 1) by (apply fl_fmt; apply (IZR_fmt 1); lia).
  split; [rewrite <- F0 at 1; rewrite <- F1; split; apply fl_le; lra|]. split; split.
  - intros Z. destruct (Z.eq_dec k 0) as [|Nz]; auto. exfalso. assert (1 <= IZR k) by (apply (IZR_le 1); lia). assert (/ 2 ^ 53 <= IZR k / IZR n) by (unfold Rdiv; nra). assert (fl (/ 2 ^ 53) <= fl (IZR k / IZR n)) by (apply fl_le; auto). rewrite (fl_fmt _ inv53_fmt) in *. pose proof u_pos. unfold u in *. lra.
  - intros ->. unfold Rdiv. rewrite Rmult_0_l. exact F0.
  - intros O. destruct (Z.eq_dec k n) as [|Nz]; auto. exfalso. assert (IZR k <= IZR n - 1) by (rewrite <- minus_IZR; apply IZR_le; lia). assert (IZR k / IZR n <= 1 - / 2 ^ 53). { unfold Rdiv. apply Rle_trans with ((IZR n - 1) * / IZR n); [apply Rmult_le_compat_r; lra|lra]. }
    assert (fl (IZR k / IZR n) <= fl (1 - / 2 ^ 53)) by (apply fl_le; auto). rewrite (fl_fmt _ below_one_fmt) in *. pose proof u_pos. unfold u in *. lra.
  - intros ->. unfold Rdiv. rewrite P1. exact F1.
Qed.
(** Different counts stay apart after rounding, up to 2^51 of them. *)
Lemma ratio_lt : forall k j n, (0 <= k < j)%Z -> (j <= n)%Z -> (1 <= n <= 2 ^ 51)%Z -> fl (IZR k / IZR n) < fl (IZR j / IZR n).
Proof.
  intros k j n Hk Hj Hn. assert (Pn : 1 <= IZR n) by (apply (IZR_le 1); lia). assert (Pi : 0 < / IZR n) by (apply Rinv_0_lt_compat; lra). assert (P1 : IZR n * / IZR n = 1) by (field; lra).
  assert (K0 : 0 <= IZR k) by (apply (IZR_le 0); lia). assert (KJ : IZR k + 1 <= IZR j) by (rewrite <- plus_IZR; apply IZR_le; lia). assert (JN : IZR j <= IZR n) by (apply IZR_le; lia).
  assert (N51 : IZR n <= 2 ^ 51). { rewrite (pow_IZR 2). apply IZR_le. cbn. lia. } assert (I51 : / 2 ^ 51 <= / IZR n) by (apply Rinv_le_contravar; lra).
  unfold Rdiv. set (i := / IZR n) in *. assert (A : IZR k * i + i <= IZR j * i) by nra. assert (B : 0 <= IZR k * i) by nra. assert (C : IZR j * i <= 1) by nra.
  destruct (fl_error (IZR k * i)) as (e1 & t1 & H1 & H2 & ->). destruct (fl_error (IZR j * i)) as (e2 & t2 & H3 & H4 & ->). unfold u in *.
  assert (T : / 2 ^ 1075 <= / 2 ^ 53). { apply Rinv_le_contravar; [apply pow_lt; lra|]. apply Rle_pow; [lra|lia]. } assert (U : 0 < / 2 ^ 53) by (apply Rinv_0_lt_compat, pow_lt; lra).
  assert (U51 : / 2 ^ 51 = 4 * / 2 ^ 53) by field.
  apply Rabs_le_inv in H1, H2, H3, H4. assert (E1 : IZR k * i * e1 <= (1 - i) * / 2 ^ 53) by nra. assert (E2 : - / 2 ^ 53 <= IZR j * i * e2) by nra. nra.
Qed.
Lemma eqb_real : forall x y, finite x -> finite y -> (x =? y)%float = true -> real x = real y.
Proof.
  intros x y Fx Fy. rewrite eqb_equiv, !real_B2R. apply finite_B in Fx, Fy. rewrite (Beqb_correct _ _ _ _ Fx Fy). destruct (Raux.Req_bool_spec (B2R (Prim2B x)) (B2R (Prim2B y))); [auto|discriminate].
Qed.
