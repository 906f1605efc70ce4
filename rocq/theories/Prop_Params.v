(** * C132: the integers and thresholds that the code computes with floating-point literals are the intended ones. *)
From Coq Require Import List ZArith Lia Bool Arith String.
From Coq Require Import Reals Lra Psatz.
From Flocq Require Import Core Relative Plus_error BinarySingleNaN PrimFloat.
From Coq Require Import Floats Uint63.
From Verif Require Import Base Num Spec Model_Core Model_Stats Model_Post Model_Utils Model_Trans Model_SESD Model_Params P_Lists P_Float Prop_Rounding Prop_VarFloat.
Import ListNotations.
Open Scope R_scope.
Local Notation fmt := (generic_format radix2 (FLT_exp (-1074) 53)).
#[local] Instance prec53 : Prec_gt_0 53 := eq_refl.

(** ** int(v) and int(ceil(v)) of a finite double *)
Lemma pow2_R : forall e, (0 <= e)%Z -> powerRZ 2 e = IZR (2 ^ e).
Proof. intros e H. rewrite <- (Z2Nat.id e) by auto. rewrite <- pow_powerRZ, (pow_IZR 2), Z2Nat.id by auto. reflexivity. Qed.
Lemma pow2_inv : forall e, (e < 0)%Z -> powerRZ 2 e = / IZR (2 ^ (- e)).
Proof. intros e H. rewrite <- pow2_R by lia. rewrite <- (Z.opp_involutive e) at 1. rewrite powerRZ_neg by lra. rewrite ?powerRZ_inv by lra. reflexivity. Qed.
Lemma pow2_posZ : forall e, (0 <= e)%Z -> (0 < 2 ^ e)%Z.
Proof. intros. apply Z.pow_pos_nonneg; lia. Qed.
Lemma floor_div : forall (k d : Z), (0 < d)%Z -> IZR (k / d) <= IZR k * / IZR d < IZR (k / d) + 1.
Proof.
  intros k d H. assert (0 < IZR d) by (apply (IZR_lt 0); auto). pose proof (Z.div_mod k d ltac:(lia)) as E. pose proof (Z.mod_pos_bound k d H) as B.
  assert (Q : IZR k * / IZR d = IZR (k / d) + IZR (k mod d) / IZR d). { rewrite E at 1. rewrite plus_IZR, mult_IZR. field. lra. }
  rewrite Q. assert (0 <= IZR (k mod d)) by (apply (IZR_le 0); lia). assert (IZR (k mod d) < IZR d) by (apply IZR_lt; lia).
  assert (0 <= IZR (k mod d) / IZR d < 1). { split. { apply Rmult_le_pos; auto. left. apply Rinv_0_lt_compat. auto. } { apply Rmult_lt_reg_r with (IZR d); auto. unfold Rdiv. rewrite Rmult_assoc, Rinv_l by lra. lra. } }
  lra.
Qed.
Lemma float_int_spec : forall v, finite v -> 0 <= real v -> exists z, float_int v = Ok z /\ IZR z <= real v < IZR z + 1.
Proof.
  intros v F P. rewrite finite_B in F. unfold float_int, real in *. rewrite <- B2SF_Prim2B in *. destruct (Prim2B v) as [s|s| |s m e Hb]; try discriminate F; cbn [B2SF] in *.
  - exists 0%Z. split; auto. lra.
  - eexists. split; [reflexivity|]. destruct s.
    + exfalso. assert (0 < IZR (Z.pos m)) by (apply (IZR_lt 0); lia). assert (0 < powerRZ 2 e) by (apply powerRZ_lt; lra). nra.
    + destruct (Z.leb_spec 0 e).
      * rewrite !mult_IZR, pow2_R by auto. lra.
      * rewrite pow2_inv by auto. rewrite mult_IZR. pose proof (floor_div (Z.pos m) (2 ^ (- e)) ltac:(apply pow2_posZ; lia)). lra.
Qed.
Lemma float_ceil_spec : forall v, finite v -> exists z, float_int_ceil v = Ok z /\ IZR z - 1 < real v <= IZR z.
Proof.
  intros v F. rewrite finite_B in F. unfold float_int_ceil, real in *. rewrite <- B2SF_Prim2B in *. destruct (Prim2B v) as [s|s| |s m e Hb]; try discriminate F; cbn [B2SF] in *.
  - exists 0%Z. split; auto. lra.
  - eexists. split; [reflexivity|]. cbv zeta. set (k := ((if s then -1 else 1) * Z.pos m)%Z). assert (K : (if s then -1 else 1) * IZR (Z.pos m) = IZR k). { unfold k. rewrite mult_IZR. destruct s; reflexivity. }
    rewrite K. destruct (Z.leb_spec 0 e).
    + rewrite !mult_IZR, pow2_R by auto. lra.
    + rewrite pow2_inv by auto. pose proof (floor_div (- k) (2 ^ (- e)) ltac:(apply pow2_posZ; lia)) as B. rewrite opp_IZR in *. lra.
Qed.
Lemma same_floor : forall a b r, IZR a <= r < IZR a + 1 -> IZR b <= r < IZR b + 1 -> a = b.
Proof. intros a b r H1 H2. assert (IZR a < IZR (b + 1)) by (rewrite plus_IZR; lra). assert (IZR b < IZR (a + 1)) by (rewrite plus_IZR; lra). apply lt_IZR in H, H0. lia. Qed.
Lemma same_ceil : forall a b r, IZR a - 1 < r <= IZR a -> IZR b - 1 < r <= IZR b -> a = b.
Proof. intros a b r H1 H2. assert (IZR (a - 1) < IZR b) by (rewrite minus_IZR; lra). assert (IZR (b - 1) < IZR a) by (rewrite minus_IZR; lra). apply lt_IZR in H, H0. lia. Qed.
Lemma int_is : forall v k, finite v -> (0 <= k)%Z -> IZR k <= real v < IZR k + 1 -> float_int v = Ok k.
Proof. intros v k F K H. assert (0 <= IZR k) by (apply (IZR_le 0); auto). destruct (float_int_spec v F ltac:(lra)) as (z & E & B). rewrite E. f_equal. apply (same_floor _ _ _ B H). Qed.
Lemma ceil_is : forall v k, finite v -> IZR k - 1 < real v <= IZR k -> float_int_ceil v = Ok k.
Proof. intros v k F H. destruct (float_ceil_spec v F) as (z & E & B). rewrite E. f_equal. apply (same_ceil _ _ _ B H). Qed.

(** ** Rounding near an integer *)
Lemma eta_tiny : / 2 ^ 1075 <= / 2 ^ 100.
Proof. apply Rinv_le_contravar. { apply pow_lt. lra. } { apply Rle_pow; [lra|lia]. } Qed.
(** If [r] lies in [k, k+1) and stays a relative 2^-53 and a little away from [k + 1], so does its rounding. *)
Lemma fl_between : forall (k : Z) r, (0 <= k <= 2 ^ 53)%Z -> IZR k <= r -> r + r * u + / 2 ^ 100 < IZR k + 1 -> IZR k <= fl r < IZR k + 1.
Proof.
  intros k r K L U. assert (P : 0 <= IZR k) by (apply (IZR_le 0); lia). split.
  - apply fl_above; auto. apply IZR_fmt. lia.
  - destruct (fl_error r) as (eps & eta & E1 & E2 & E). rewrite E. pose proof eta_tiny. apply Rabs_le_inv in E1, E2. nra.
Qed.
(** Two different doubles at most a factor two apart differ by a relative 2^-54. *)
Lemma gap : forall d q, fmt d -> fmt q -> q / 2 <= d -> d < q -> q * / 2 ^ 54 < q - d.
Proof.
  intros d q Fd Fq L U. assert (Q : 0 < q) by lra. destruct (mag radix2 q) as (e' & He). specialize (He ltac:(lra)). rewrite Rabs_pos_eq in He by lra.
  assert (D : bpow radix2 (e' - 2) <= d). { replace (e' - 2)%Z with (- (1) + (e' - 1))%Z by lia. rewrite bpow_plus. change (bpow radix2 (- (1))) with (/ 2). lra. }
  assert (Md : (e' - 1 <= mag radix2 d)%Z). { apply mag_ge_bpow. rewrite Rabs_pos_eq by (pose proof (bpow_gt_0 radix2 (e' - 2)); lra). replace (e' - 1 - 1)%Z with (e' - 2)%Z by lia. exact D. }
  assert (Mq : (e' - 1 <= mag radix2 q)%Z). { apply mag_ge_bpow. rewrite Rabs_pos_eq by lra. apply Rle_trans with (bpow radix2 (e' - 1)); [apply bpow_le; lia|lra]. }
  assert (G : forall x, fmt x -> (e' - 1 <= mag radix2 x)%Z -> exists n : Z, x = IZR n * bpow radix2 (e' - 54)).
  { intros x Fx Mx. unfold generic_format, F2R in Fx. cbn [Fnum Fexp] in Fx. set (c := cexp radix2 (FLT_exp (-1074) 53) x) in *. assert (C : (e' - 54 <= c)%Z). { unfold c, cexp, FLT_exp. lia. }
    exists (Ztrunc (scaled_mantissa radix2 (FLT_exp (-1074) 53) x) * 2 ^ (c - (e' - 54)))%Z. rewrite Fx at 1. rewrite mult_IZR. change 2%Z with (radix_val radix2). rewrite IZR_Zpower by lia. rewrite Rmult_assoc, <- bpow_plus. do 2 f_equal. lia. }
  destruct (G d Fd Md) as (n & En). destruct (G q Fq Mq) as (k & Ek). pose proof (bpow_gt_0 radix2 (e' - 54)) as B.
  assert (N : (n < k)%Z). { apply lt_IZR. apply Rmult_lt_reg_r with (bpow radix2 (e' - 54)); auto. lra. }
  assert (IZR n + 1 <= IZR k). { rewrite <- (plus_IZR n 1). apply IZR_le. lia. }
  assert (bpow radix2 (e' - 54) <= q - d). { rewrite Ek, En. nra. }
  apply Rlt_le_trans with (bpow radix2 (e' - 54)); auto. unfold Z.sub. rewrite bpow_plus. change (- (54))%Z with (- Z.of_nat 54)%Z. rewrite bpow_inv. apply Rmult_lt_compat_r; [|lra]. apply Rinv_0_lt_compat, pow_lt. lra.
Qed.
(** A number that falls short of an integer by less than a relative 2^-55 is rounded to it. *)
Lemma fl_up : forall (k : Z) r, (0 <= k <= 2 ^ 53)%Z -> IZR k * (1 - / 2 ^ 55) <= r <= IZR k -> fl r = IZR k.
Proof.
  intros k r K [L U]. assert (P : 0 <= IZR k) by (apply (IZR_le 0); lia). assert (F : fmt (IZR k)) by (apply IZR_fmt; lia).
  pose proof (fl_below r (IZR k) F U) as B. destruct (Rle_lt_or_eq_dec _ _ B) as [B'|E]; auto. exfalso.
  pose proof (round_N_pt radix2 (FLT_exp (-1074) 53) (fun x => negb (Z.even x)) r) as N. destruct N as [Nf N]. specialize (N (IZR k) F). change (Rabs (fl r - r) <= Rabs (IZR k - r)) in N. change (fmt (fl r)) in Nf.
  rewrite (Rabs_pos_eq (IZR k - r)) in N by lra. apply Rabs_le_inv in N.
  assert (H55 : 0 < / 2 ^ 55) by (apply Rinv_0_lt_compat, pow_lt; lra). assert (H54 : / 2 ^ 54 = 2 * / 2 ^ 55). { rewrite <- (half_pow 54). lra. }
  assert (S55 : / 2 ^ 55 <= / 4). { apply Rinv_le_contravar; [lra|]. replace 4 with (2 ^ 2) by lra. apply Rle_pow; [lra|lia]. }
  assert (K1 : 1 <= IZR k). { apply (IZR_le 1). destruct (Z.eq_dec k 0) as [->|]; [|lia]. exfalso. assert (r = 0) by lra. subst r. rewrite fl_0 in B'. lra. }
  pose proof (gap (fl r) (IZR k) Nf F ltac:(nra) B') as G. rewrite H54 in G. nra.
Qed.

(** ** SeasonalESD *)
Lemma real_049 : real 0.49 = 8827055269646172 / 18014398509481984.
Proof. replace (real 0.49) with (1 * IZR 8827055269646172 * powerRZ 2 (-54)) by (vm_compute; reflexivity). rewrite pow2_inv by lia. change (2 ^ (- -54))%Z with 18014398509481984%Z. lra. Qed.
Lemma limit_real : forall w, (0 <= w <= 2 ^ 45)%Z -> IZR (49 * w / 100) <= fl (IZR w * real 0.49) < IZR (49 * w / 100) + 1.
Proof.
  intros w W. set (q := (49 * w / 100)%Z). pose proof (Z.div_mod (49 * w) 100 ltac:(lia)) as E. pose proof (Z.mod_pos_bound (49 * w) 100 ltac:(lia)) as B. fold q in E. set (f := ((49 * w) mod 100)%Z) in *.
  assert (Q : (0 <= q <= 2 ^ 45)%Z) by lia. assert (R1 : 49 * IZR w = 100 * IZR q + IZR f). { rewrite <- !mult_IZR, <- plus_IZR. f_equal. exact E. }
  assert (W0 : 0 <= IZR w) by (apply (IZR_le 0); lia). assert (W1 : IZR w <= 35184372088832). { change 35184372088832 with (IZR (2 ^ 45)). apply IZR_le. lia. }
  assert (Q0 : 0 <= IZR q) by (apply (IZR_le 0); lia). rewrite real_049.
  assert (P55 : 2 ^ 55 = 36028797018963968) by (rewrite (pow_IZR 2); reflexivity). assert (U : u = / 9007199254740992). { unfold u. rewrite (pow_IZR 2). reflexivity. }
  assert (P100 : / 2 ^ 100 <= / 2 ^ 55). { apply Rinv_le_contravar. { apply pow_lt. lra. } { apply Rle_pow; [lra|lia]. } } rewrite P55 in P100.
  destruct (Z.eq_dec f 0) as [F|F].
  - rewrite F in R1. rewrite (fl_up q); [lra|lia|]. rewrite P55. lra.
  - assert (1 <= IZR f <= 99) by (split; [apply (IZR_le 1)|apply (IZR_le f 99)]; lia). apply fl_between; [lia|lra|]. rewrite U. lra.
Qed.
Lemma mul_fl : forall a b, finite a -> finite b -> Rabs (fl (real a * real b)) < bpow radix2 1024 -> finite (a * b)%float /\ real (a * b)%float = fl (real a * real b).
Proof.
  intros a b Fa Fb L. pose proof Fa as Ga. pose proof Fb as Gb. rewrite finite_B in Ga, Gb. pose proof (Bmult_correct _ _ Hprec Hmax mode_NE (Prim2B a) (Prim2B b)) as C. rewrite <- !real_B2R in C.
  change (round radix2 (SpecFloat.fexp prec emax) (round_mode mode_NE) (real a * real b)) with (fl (real a * real b)) in C. change (bpow radix2 emax) with (bpow radix2 1024) in C.
  rewrite Rlt_bool_true in C by auto. destruct C as (C1 & C2 & _). rewrite <- mul_equiv in *. split; [|rewrite real_B2R; auto]. apply finite_B. rewrite C2, Ga, Gb. reflexivity.
Qed.
Lemma small_abs_lt_max : forall r, Rabs r <= 2 ^ 53 -> Rabs (fl r) < bpow radix2 1024.
Proof. intros r H. apply fl_lt_max. eapply Rle_trans; [apply H|]. rewrite <- pow53. change 2%Z with (Zaux.radix_val Zaux.radix2). rewrite Raux.IZR_Zpower by lia. apply Raux.bpow_le. lia. Qed.
Lemma limit_float : forall w, (Z.abs w <= 2 ^ 53)%Z -> finite (float_ofZ w * 0.49)%float /\ real (float_ofZ w * 0.49)%float = fl (IZR w * real 0.49).
Proof.
  intros w W. destruct (ofZ_real w W) as [Fw Rw]. rewrite <- Rw. apply mul_fl; auto; [reflexivity|]. rewrite Rw. apply small_abs_lt_max. rewrite Rabs_mult. rewrite <- pow53. apply IZR_le in W. rewrite abs_IZR in W.
  rewrite (Rabs_pos_eq (real 0.49)) by (rewrite real_049; lra). rewrite real_049. pose proof (Rabs_pos (IZR w)). lra.
Qed.
Theorem C132_sesd_limit : forall w, (0 <= w <= 2 ^ 45)%Z -> se_limit w = Ok (49 * w / 100)%Z.
Proof.
  intros w W. destruct (limit_float w ltac:(lia)) as [F R]. pose proof (limit_real w W) as L. unfold se_limit. apply int_is; auto. { apply Z.div_pos; lia. } rewrite R. exact L.
Qed.
Print Assumptions C132_sesd_limit.
Lemma float_int_neg : forall v, finite v -> real v <= 0 -> exists z, float_int v = Ok z /\ (z <= 0)%Z.
Proof.
  intros v F P. rewrite finite_B in F. unfold float_int, real in *. rewrite <- B2SF_Prim2B in *. destruct (Prim2B v) as [s|s| |s m e Hb]; try discriminate F; cbn [B2SF] in *.
  - exists 0%Z. split; auto. lia.
  - eexists. split; [reflexivity|]. destruct s.
    + destruct (Z.leb_spec 0 e).
      * pose proof (pow2_posZ e ltac:(auto)). nia.
      * pose proof (Z.div_pos (Z.pos m) (2 ^ (- e)) ltac:(lia) ltac:(apply pow2_posZ; lia)). lia.
    + exfalso. assert (0 < IZR (Z.pos m)) by (apply (IZR_lt 0); lia). assert (0 < powerRZ 2 e) by (apply powerRZ_lt; lra). nra.
Qed.
(** The constructor that computes its limit in binary64 behaves like the one with the exact limit, accepting and rejecting the
    same arguments. *)
Theorem C132_sesd_constructor : forall (period w max : Z) (alpha : float), (Z.abs w <= 2 ^ 45)%Z -> SESD_init_code period w max alpha = SESD_init period w max alpha.
Proof.
  intros period w max alpha W. unfold SESD_init_code, SESD_init. destruct (Z.ltb_spec max 1); auto. destruct (Z.ltb_spec w (2 * period)); auto. destruct (Z_lt_le_dec w 0) as [N|P].
  - destruct (limit_float w ltac:(lia)) as [F R]. destruct (float_int_neg _ F) as (z & E & B). { rewrite R. apply fl_below; [apply generic_format_0|]. rewrite real_049. assert (IZR w <= 0) by (apply (IZR_le w 0); lia). lra. }
    unfold se_limit. rewrite E. cbn [rbind]. destruct (Z.ltb_spec z max); [|lia]. destruct (Z.ltb_spec (49 * w / 100) max); auto. exfalso. assert (49 * w / 100 < 0)%Z by (apply Z.div_lt_upper_bound; lia). lia.
  - rewrite C132_sesd_limit by lia. cbn [rbind]. reflexivity.
Qed.
Print Assumptions C132_sesd_constructor.
(** At the boundary: a window of 100 accepts exactly 49 anomalies; the product 100 * 0.49 would be below 49 without rounding. *)
Example C132_sesd_boundary : IZR 100 * real 0.49 < 49 /\ se_limit 100 = Ok 49%Z /\ se_limit 101 = Ok 49%Z /\ se_limit 103 = Ok 50%Z.
Proof. split; [rewrite real_049; lra|]. repeat split; vm_compute; reflexivity. Qed.
(** For astronomically large windows the limit is not the exact one. *)
Theorem C132_sesd_limit_refuted : exists w z, (2 ^ 45 < w)%Z /\ se_limit w = Ok z /\ z <> (49 * w / 100)%Z.
Proof. exists (2 ^ 60)%Z. eexists. split; [lia|]. split; [vm_compute; reflexivity|]. vm_compute. discriminate. Qed.
Print Assumptions C132_sesd_limit_refuted.

(** ** KNNCAD *)
Lemma quotient : forall (a b : Z) (d : float), (0 <= a <= 2 ^ 52)%Z -> (b = 2 \/ b = 5)%Z -> finite d -> real d = IZR b -> float_int (float_ofZ a / d)%float = Ok (a / b)%Z.
Proof.
  intros a b d A B Fd Rd. destruct (ofZ_real a ltac:(lia)) as [Fa Ra]. assert (A0 : 0 <= IZR a) by (apply (IZR_le 0); lia). assert (A1 : IZR a <= IZR (2 ^ 52)) by (apply IZR_le; lia). change (IZR (2 ^ 52)) with 4503599627370496 in A1.
  assert (D : IZR b <> 0 /\ 0 <= IZR a / IZR b <= IZR a). { destruct B as [-> | ->]; split; lra. } destruct D as [Db Da].
  destruct (div_real (float_ofZ a) d Fa) as [F E]. { rewrite Rd. auto. } { rewrite Ra, Rd. apply small_lt_max. rewrite <- pow53. change (IZR (2 ^ 53)) with 9007199254740992. lra. }
  apply int_is; auto. { apply Z.div_pos; lia. } rewrite E, Ra, Rd. set (q := (a / b)%Z). pose proof (Z.div_mod a b ltac:(lia)) as M. pose proof (Z.mod_pos_bound a b ltac:(lia)) as MB. fold q in M. set (f := (a mod b)%Z) in *.
  assert (R1 : IZR a = IZR b * IZR q + IZR f). { rewrite <- mult_IZR, <- plus_IZR. f_equal. exact M. }
  assert (U : u = / 9007199254740992). { unfold u. rewrite (pow_IZR 2). reflexivity. }
  assert (P100 : / 2 ^ 100 <= / 16). { apply Rinv_le_contravar; [lra|]. replace 16 with (2 ^ 4) by lra. apply Rle_pow; [lra|lia]. }
  apply fl_between; [unfold q; destruct B as [-> | ->]; lia| |].
  - assert (0 <= IZR f) by (apply (IZR_le 0); lia). destruct B as [-> | ->]; lra.
  - rewrite U. destruct B as [-> | ->]; [assert (IZR f <= 1) by (apply (IZR_le f 1); lia)|assert (IZR f <= 4) by (apply (IZR_le f 4); lia)]; lra.
Qed.
Theorem C132_knncad : forall P : nat, (Z.of_nat P <= 2 ^ 52)%Z -> kn_half (Z.of_nat P) = Ok (Z.of_nat (P / 2)) /\ kn_fifth (Z.of_nat P) = Ok (Z.of_nat (P / 5)).
Proof.
  intros P H. rewrite !Nat2Z.inj_div. split; apply quotient; auto; try lia; try reflexivity; rewrite <- (Rmult_1_l (IZR _)).
  - replace (real 2) with (1 * IZR 4503599627370496 * powerRZ 2 (-51)) by (vm_compute; reflexivity). rewrite pow2_inv by lia. change (2 ^ (- -51))%Z with 2251799813685248%Z. change (Z.of_nat 2) with 2%Z. lra.
  - replace (real 5) with (1 * IZR 5629499534213120 * powerRZ 2 (-50)) by (vm_compute; reflexivity). rewrite pow2_inv by lia. change (2 ^ (- -50))%Z with 1125899906842624%Z. change (Z.of_nat 5) with 5%Z. lra.
Qed.
Print Assumptions C132_knncad.
Example C132_knncad_case : kn_half 51 = Ok 25%Z /\ kn_fifth 51 = Ok 10%Z /\ kn_fifth 49 = Ok 9%Z.
Proof. vm_compute. auto. Qed.

(** ** The hidden layer of KitNET's autoencoders *)
Lemma real_075 : real 0.75 = 3 / 4.
Proof. replace (real 0.75) with (1 * IZR 6755399441055744 * powerRZ 2 (-53)) by (vm_compute; reflexivity). rewrite pow2_inv by lia. change (2 ^ (- -53))%Z with 9007199254740992%Z. lra. Qed.
(** The default ratio: the smallest integer that is at least three quarters of the visible units. *)
Theorem C132_hidden_default : forall n, (0 <= n <= 2 ^ 51)%Z -> exists k, da_units n 0.75 = Ok k /\ (4 * (k - 1) < 3 * n <= 4 * k)%Z.
Proof.
  intros n N. destruct (ofZ_real n ltac:(lia)) as [Fn Rn]. assert (N0 : 0 <= IZR n) by (apply (IZR_le 0); lia). assert (N1 : IZR n <= IZR (2 ^ 51)) by (apply IZR_le; lia). change (IZR (2 ^ 51)) with 2251799813685248 in N1.
  destruct (mul_fl (float_ofZ n) 0.75 Fn eq_refl) as [F E]. { rewrite Rn, real_075. apply small_lt_max. rewrite <- pow53. change (IZR (2 ^ 53)) with 9007199254740992. lra. }
  rewrite Rn, real_075 in E. rewrite fl_fmt in E. 2:{ apply generic_format_FLT. apply (FLT_spec radix2 (-1074) 53 _ (Float radix2 (3 * n) (- 2))); cbn [Fnum Fexp]; [|change (radix2 ^ 53)%Z with (2 ^ 53)%Z; lia|lia]. unfold F2R. cbn [Fnum Fexp]. change (- 2)%Z with (- Z.of_nat 2)%Z. rewrite bpow_inv, mult_IZR. lra. }
  destruct (float_ceil_spec _ F) as (k & K & B). exists k. split; auto. rewrite E in B. split.
  - apply lt_IZR. rewrite !mult_IZR, minus_IZR. lra.
  - apply le_IZR. rewrite !mult_IZR. lra.
Qed.
Print Assumptions C132_hidden_default.
(** Any ratio above 0 and at most 1, however small, gives at least one hidden unit and never more than there are visible ones. *)
Theorem C132_hidden_range : forall n (r : float), (1 <= n <= 2 ^ 53)%Z -> finite r -> 0 < real r <= 1 -> exists k, da_units n r = Ok k /\ (1 <= k <= n)%Z.
Proof.
  intros n r N Fr R. destruct (ofZ_real n ltac:(lia)) as [Fn Rn]. assert (N0 : 1 <= IZR n) by (apply (IZR_le 1); lia). assert (N1 : IZR n <= IZR (2 ^ 53)) by (apply IZR_le; lia).
  destruct (mul_fl (float_ofZ n) r Fn Fr) as [F E]. { rewrite Rn. apply small_lt_max. rewrite <- pow53. nra. }
  rewrite Rn in E. assert (L : real r <= real (float_ofZ n * r)%float). { rewrite E. apply fl_above; [apply real_fmt|nra]. } assert (U : real (float_ofZ n * r)%float <= IZR n). { rewrite E. apply fl_below; [apply IZR_fmt; lia|nra]. }
  destruct (float_ceil_spec _ F) as (k & K & B). exists k. split; auto. split.
  - assert (0 < k)%Z by (apply lt_IZR; lra). lia.
  - assert (k - 1 < n)%Z by (apply lt_IZR; rewrite minus_IZR; lra). lia.
Qed.
Print Assumptions C132_hidden_range.
Example C132_hidden_case : da_units 10 0.75 = Ok 8%Z /\ da_units 7 0.75 = Ok 6%Z /\ da_units 3 1e-300 = Ok 1%Z.
Proof. vm_compute. auto. Qed.
(** The hidden layer is the given share of the visible one, rounded up (refuted): 7 percent of 100 units are 8 units. *)
Theorem C132_hidden_share_refuted : nearest (7 / 100) 0.07 /\ da_units 100 0.07 = Ok 8%Z.
Proof.
  split; [|vm_compute; reflexivity]. apply fl_nearest; [reflexivity|]. replace 0.07%float with (float_ofZ 7 / float_ofZ 100)%float by (vm_compute; reflexivity). destruct (ofZ_real 7 ltac:(lia)) as [F7 R7]. destruct (ofZ_real 100 ltac:(lia)) as [F100 R100].
  rewrite div_fl; [rewrite R7, R100; reflexivity|vm_compute; reflexivity|rewrite R100; lra].
Qed.
Print Assumptions C132_hidden_share_refuted.

(** ** StreamhashProjector with its default density *)
Lemma density_real : finite default_density /\ real default_density = 6004799503160661 / 18014398509481984.
Proof. split; [reflexivity|]. replace (real default_density) with (1 * IZR 6004799503160661 * powerRZ 2 (-54)) by (vm_compute; reflexivity). rewrite pow2_inv by lia. change (2 ^ (- -54))%Z with 18014398509481984%Z. lra. Qed.
Lemma half_density_real : finite (default_density / 2)%float /\ real (default_density / 2)%float = 6004799503160661 / 36028797018963968.
Proof. split; [reflexivity|]. replace (real (default_density / 2)%float) with (1 * IZR 6004799503160661 * powerRZ 2 (-55)) by (vm_compute; reflexivity). rewrite pow2_inv by lia. change (2 ^ (- -55))%Z with 36028797018963968%Z. lra. Qed.
(** Of the 2^32 hash values the first 715827883 give the negative coefficient, the next 715827883 the positive one, the rest 0:
    what the thresholds 1/6 and 1/3 give without rounding. *)
Theorem C132_streamhash : forall (mmh3 : string -> nat -> Z) (keys : list nat) (c : float) (n : Z) (k : nat) (s : string), (0 <= mmh3 s k < 2 ^ 32)%Z ->
  hash_string 2%float 1%float mmh3 (mkSH keys c default_density n) k s =
  if (mmh3 s k <? 715827883)%Z then (- (1) * c)%float else if (mmh3 s k <? 2 * 715827883)%Z then c else 0%float.
Proof.
  intros mmh3 keys c n k s H. unfold hash_string. cbn [sh_density sh_constant]. set (h := mmh3 s k) in *. cbn [nofZ ndiv oleb num_ord NumF OrdF nmul nneg n0].
  destruct (ofZ_real h ltac:(lia)) as [Fh Rh]. destruct (ofZ_real (2 ^ 32 - 1) ltac:(lia)) as [FM RM]. change (IZR (2 ^ 32 - 1)) with 4294967295 in RM.
  assert (H0 : 0 <= IZR h) by (apply (IZR_le 0); lia). assert (H1 : IZR h <= 4294967295) by (apply (IZR_le h 4294967295); lia).
  destruct (div_real (float_ofZ h) (float_ofZ (2 ^ 32 - 1)) Fh) as [F E]. { rewrite RM. lra. } { rewrite Rh, RM. apply small_lt_max. rewrite <- pow53. change (IZR (2 ^ 53)) with 9007199254740992. lra. }
  rewrite Rh, RM in E. set (q := (float_ofZ h / float_ofZ (2 ^ 32 - 1))%float) in *. destruct density_real as [Fd Rd]. destruct half_density_real as [Fe Re].
  destruct (fl_error (IZR h / 4294967295)) as (eps & eta & E1 & E2 & E3). pose proof eta_tiny as T. apply Rabs_le_inv in E1, E2. assert (U : u = / 9007199254740992). { unfold u. rewrite (pow_IZR 2). reflexivity. } rewrite U in E1.
  assert (P100 : / 2 ^ 100 <= / 2 ^ 53). { apply Rinv_le_contravar. { apply pow_lt. lra. } { apply Rle_pow; [lra|lia]. } } change (/ 2 ^ 53) with u in P100. rewrite U in P100.
  assert (X : IZR h / 4294967295 - 2 * / 9007199254740992 <= real q <= IZR h / 4294967295 + 2 * / 9007199254740992). { rewrite E, E3. set (r := IZR h / 4294967295) in *. assert (0 <= r <= 1) by (unfold r; lra). clear - E1 E2 T P100 H2. nra. }
  assert (C1 : (q <=? default_density / 2)%float = (h <? 715827883)%Z).
  { destruct (Z.ltb_spec h 715827883) as [L|G].
    - apply leb_real; auto. rewrite Re. assert (IZR h <= 715827882) by (apply (IZR_le h 715827882); lia). lra.
    - destruct (q <=? default_density / 2)%float eqn:D; auto. apply leb_real in D; auto. exfalso. rewrite Re in D. assert (715827883 <= IZR h) by (apply (IZR_le 715827883); lia). lra. }
  assert (C2 : (q <=? default_density)%float = (h <? 2 * 715827883)%Z).
  { destruct (Z.ltb_spec h (2 * 715827883)) as [L|G].
    - apply leb_real; auto. destruct (Z.eq_dec h 1431655765) as [->|N].
      + rewrite E. assert (D : default_density = (float_ofZ 1 / float_ofZ 3)%float) by (vm_compute; reflexivity). destruct (ofZ_real 1 ltac:(lia)) as [F1 R1]. destruct (ofZ_real 3 ltac:(lia)) as [F3 R3].
        rewrite D. rewrite div_fl; [|rewrite <- D; auto|rewrite R3; lra]. rewrite R1, R3. apply fl_le. lra.
      + rewrite Rd. assert (IZR h <= 1431655764) by (apply (IZR_le h 1431655764); lia). lra.
    - destruct (q <=? default_density)%float eqn:D; auto. apply leb_real in D; auto. exfalso. rewrite Rd in D. assert (1431655766 <= IZR h) by (apply (IZR_le 1431655766); lia). lra. }
  rewrite C1, C2. reflexivity.
Qed.
Print Assumptions C132_streamhash.
(** The last hash value of the positive block is exactly M / 3: it is kept only because the quotient and the density are rounded alike. *)
Example C132_streamhash_boundary : real default_density < 1431655765 / 4294967295 /\
  hash_string 2%float 1%float (fun _ _ => 1431655765%Z) (mkSH [0%nat] 5%float default_density 1) 0 "0" = 5%float /\
  hash_string 2%float 1%float (fun _ _ => 1431655766%Z) (mkSH [0%nat] 5%float default_density 1) 0 "0" = 0%float.
Proof. split; [rewrite (proj2 density_real); lra|]. split; vm_compute; reflexivity. Qed.
