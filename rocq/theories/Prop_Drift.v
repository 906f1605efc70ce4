(** * C113: how far a sliding sum or average drifts on IEEE-754 binary64, for any data and any length of the stream. *)
From Flocq Require Import Core BinarySingleNaN Relative Plus_error PrimFloat.
From Coq Require Import List ZArith Lia Bool Arith.
From Coq Require Import Floats Reals Lra Psatz.
From Verif Require Import Base Num Spec Model_Stats P_Lists P_Stats P_Float Prop_Stats Prop_Rounding.
Import ListNotations.
Open Scope R_scope.

(** ** One operation *)
Lemma add_round : forall a b, finite a -> finite b -> Rabs (real a + real b) <= bpow radix2 1023 -> finite (a + b)%float /\ exists eps, Rabs eps <= u /\ real (a + b)%float = (real a + real b) * (1 + eps).
Proof.
  intros a b Fa Fb L. assert (E := fl_plus_error (real a) (real b) (real_fmt a) (real_fmt b)). apply fl_lt_max in L. rewrite finite_B in *. rewrite !real_B2R in *.
  pose proof (Bplus_correct _ _ Hprec Hmax mode_NE (Prim2B a) (Prim2B b) Fa Fb) as C. rewrite add_equiv. rewrite Rlt_bool_true in C by exact L. destruct C as (C1 & C2 & _). split; auto. destruct E as (eps & He & E). exists eps. split; auto. rewrite <- E. exact C1.
Qed.
Lemma sub_round : forall a b, finite a -> finite b -> Rabs (real a - real b) <= bpow radix2 1023 -> finite (a - b)%float /\ exists eps, Rabs eps <= u /\ real (a - b)%float = (real a - real b) * (1 + eps).
Proof.
  intros a b Fa Fb L. assert (E := fl_plus_error (real a) (- real b) (real_fmt a) (generic_format_opp _ _ _ (real_fmt b))). change (real a + - real b) with (real a - real b) in E. apply fl_lt_max in L. rewrite finite_B in *. rewrite !real_B2R in *.
  pose proof (Bminus_correct _ _ Hprec Hmax mode_NE (Prim2B a) (Prim2B b) Fa Fb) as C. rewrite sub_equiv. rewrite Rlt_bool_true in C by exact L. destruct C as (C1 & C2 & _). split; auto. destruct E as (eps & He & E). exists eps. split; auto. rewrite <- E. exact C1.
Qed.
Lemma drift_step : forall m A s T y s', 0 <= A -> Rabs (T + y) <= A -> Rabs (s - T) <= gam m * A -> (exists eps, Rabs eps <= u /\ s' = (s + y) * (1 + eps)) -> Rabs (s' - (T + y)) <= gam (S m) * A.
Proof.
  intros m A s T y s' HA HT H (eps & He & ->). replace ((s + y) * (1 + eps) - (T + y)) with ((s - T) + eps * ((s - T) + (T + y))) by ring.
  pose proof (Rabs_triang (s - T) (eps * (s - T + (T + y)))) as H1. rewrite Rabs_mult in H1. pose proof (Rabs_triang (s - T) (T + y)) as H2. pose proof u_pos as Hu.
  assert (H4 : Rabs eps * Rabs (s - T + (T + y)) <= u * (gam m * A + A)) by (apply Rmult_le_compat; auto using Rabs_pos; lra).
  rewrite gam_S. lra.
Qed.
Lemma partial_abs : forall m A s T y, Rabs (T + y) <= A -> Rabs (s - T) <= gam m * A -> Rabs (s + y) <= (1 + u) ^ m * A.
Proof. intros m A s T y HT H. replace (s + y) with ((s - T) + (T + y)) by ring. pose proof (Rabs_triang (s - T) (T + y)). unfold gam in H. lra. Qed.
Lemma pow_mono : forall m n, (m <= n)%nat -> (1 + u) ^ m <= (1 + u) ^ n.
Proof. intros m n H. apply Rle_pow; auto. pose proof u_pos. lra. Qed.

(** ** The sliding sum *)
Definition within (B : R) (x : float) : Prop := finite x /\ Rabs (real x) <= B.
Lemma running_drift : forall (w : Z) (B : R) xs, (1 <= w)%Z -> 0 <= B -> Forall (within B) xs -> let A := (IZR w + 1) * B in (1 + u) ^ (2 * length xs) * A <= bpow radix2 1023 ->
  exists s, iterM (RunningStatistic_update SumMeter) xs (mkRun (mt_init SumMeter) w []) = (Ok tt, s) /\ rn_size s = w /\ rn_win s = lastn (Z.to_nat w) xs /\
  finite (ss_sum (rn_stat s)) /\ Rabs (real (ss_sum (rn_stat s)) - Rsum (map real (lastn (Z.to_nat w) xs))) <= gam (2 * length xs) * A /\ ss_n (rn_stat s) = Z.of_nat (length (lastn (Z.to_nat w) xs)).
Proof.
  intros w B xs Hw HB F A. assert (HA : 0 <= A). { unfold A. apply Rmult_le_pos; auto. apply IZR_le in Hw. lra. }
  induction xs as [|x xs IH] using rev_ind; intros Big.
  - eexists. split; [reflexivity|]. rewrite lastn_nil. cbn [rn_size rn_win rn_stat mt_init SumMeter ss_sum ss_n map length]. repeat split; auto. change (real n0) with 0. unfold Rsum. cbn [fold_right]. unfold Rminus. rewrite Rplus_opp_r, Rabs_R0. apply Rmult_le_pos; auto. apply gam_pos.
  - apply Forall_app in F. destruct F as [F Fx]. inversion Fx as [|? ? [Ix Bx] _]; subst. rewrite app_length in *. cbn [length] in *. set (k := length xs) in *.
    assert (BigK : forall m, (m <= 2 * (k + 1))%nat -> (1 + u) ^ m * A <= bpow radix2 1023). { intros m Hm. eapply Rle_trans; [|exact Big]. apply Rmult_le_compat_r; auto. apply pow_mono. lia. }
    destruct (IH F (BigK (2 * k)%nat ltac:(lia))) as (s & E & E1 & E2 & I & E3 & E4). eexists. split. { rewrite iterM_app. unfold bind. rewrite E. cbn [iterM]. unfold bind. rewrite running_update_sum. reflexivity. }
    change (mt_state (SumMeter (A := float))) with (sumst float) in *. rewrite E1, E2. rewrite lastn_step. set (l := lastn (Z.to_nat w) xs) in *.
    assert (FL : Forall (within B) (l ++ [x])). { apply Forall_app. split; [|constructor; [split; auto|auto]]. rewrite Forall_forall in *. intros v Hv. apply F. eapply In_lastn. exact Hv. }
    assert (Ll : (length l <= Z.to_nat w)%nat) by (unfold l; rewrite lastn_length; lia).
    assert (WB : forall l', Forall (within B) l' -> (length l' <= Z.to_nat w + 1)%nat -> Rabs (Rsum (map real l')) <= A).
    { intros l' Fl' Hl'. eapply Rle_trans; [apply (window_abs B)|]; auto. { eapply Forall_impl; [|exact Fl']. intros ? [_ K]; exact K. } unfold A. apply Rmult_le_compat_r; auto. apply le_INR in Hl'. rewrite plus_INR, (INR_IZR_INZ (Z.to_nat w)), Z2Nat.id in Hl' by lia. exact Hl'. }
    assert (S0 : Rsum (map real (l ++ [x])) = Rsum (map real l) + real x). { rewrite map_app, Rsum_app. unfold Rsum at 2. cbn. ring. }
    assert (WA : Rabs (Rsum (map real l) + real x) <= A). { rewrite <- S0. apply WB; auto. rewrite app_length. cbn [length]. lia. }
    destruct (add_round (ss_sum (rn_stat s)) x I Ix) as [Ia Ea]. { eapply Rle_trans; [eapply partial_abs; [exact WA|exact E3]|]. apply BigK. lia. }
    pose proof (drift_step _ _ _ _ _ _ HA WA E3 Ea) as D1. rewrite <- S0 in D1.
    assert (LT : (w <? Z.of_nat (length (l ++ [x])))%Z = (Z.to_nat w <? length (l ++ [x]))%nat). { destruct (Nat.ltb_spec (Z.to_nat w) (length (l ++ [x]))); [apply Z.ltb_lt|apply Z.ltb_ge]; lia. } rewrite LT.
    replace (2 * (k + 1))%nat with (S (S (2 * k))) in * by lia.
    destruct (Nat.ltb_spec (Z.to_nat w) (length (l ++ [x]))) as [HL|HL]; cbn [rn_stat rn_size rn_win ss_sum ss_n].
    + split; auto. split; auto. destruct (l ++ [x]) as [|y l'] eqn:El; [cbn in HL; lia|]. cbn [hd skipn] in *. inversion FL as [|? ? [Iy By] Fl']; subst. assert (Sy : Rsum (map real (y :: l')) = real y + Rsum (map real l')) by reflexivity.
      assert (Len : length (y :: l') = S (length l)) by (rewrite <- El, app_length; cbn [length]; lia). cbn [length] in Len.
      assert (WS : Rabs (Rsum (map real (y :: l')) + - real y) <= A). { rewrite Sy. replace (real y + Rsum (map real l') + - real y) with (Rsum (map real l')) by ring. apply WB; auto. lia. }
      destruct (sub_round _ y Ia Iy) as [Is Es]. { eapply Rle_trans; [apply (partial_abs _ _ _ _ (- real y) WS D1)|]. apply BigK. lia. }
      split; auto. pose proof (drift_step _ _ _ _ (- real y) _ HA WS D1 Es) as D2. split; [|rewrite E4; lia]. rewrite Sy in D2. replace (real y + Rsum (map real l') + - real y) with (Rsum (map real l')) in D2 by ring. exact D2.
    + split; auto. split; auto. split; auto. split; [|rewrite E4, app_length; cbn [length]; lia]. eapply Rle_trans; [exact D1|]. apply Rmult_le_compat_r; auto. unfold gam. pose proof (pow_mono (S (2 * k)) (S (S (2 * k))) ltac:(lia)). lra.
Qed.

(** After n updates with values of magnitude at most B, a sliding sum is off by at most ((1 + 2^-53)^(2n) - 1) (w + 1) B, and does not overflow. *)
Theorem C113_running_sum_drift : forall (w : Z) (B : R) xs, (1 <= w)%Z -> 0 <= B -> Forall (within B) xs -> (1 + / 2 ^ 53) ^ (2 * length xs) * ((IZR w + 1) * B) <= 2 ^ 1023 ->
  exists s0 s1 v, RunningStatistic_init SumMeter false w (@nil unit) = Ok s0 /\ iterM (RunningStatistic_update SumMeter) xs s0 = (Ok tt, s1) /\
    eval (RunningStatistic_get SumMeter) s1 = Ok v /\ finite v /\
    Rabs (real v - Rsum (map real (lastn (Z.to_nat w) xs))) <= ((1 + / 2 ^ 53) ^ (2 * length xs) - 1) * ((IZR w + 1) * B).
Proof.
  intros w B xs Hw HB F Big. assert (E23 : bpow radix2 1023 = 2 ^ 1023). { rewrite bpow_powerRZ. change (IZR radix2) with 2. change 1023%Z with (Z.of_nat 1023). rewrite <- pow_powerRZ. reflexivity. }
  destruct (running_drift w B xs Hw HB F) as (s & E & _ & _ & I & D & _). { rewrite E23. exact Big. } do 3 eexists. split; [reflexivity|]. split; [exact E|]. split; [reflexivity|]. split; [exact I|exact D].
Qed.
Print Assumptions C113_running_sum_drift.

(** The sliding average of the l values in the window is off by at most ((1 + 2^-53)^(2n+1) - 1) (w + 1) B / l + 2^-1075. *)
Theorem C113_running_average_drift : forall (w : Z) (B : R) xs, (1 <= w <= 2 ^ 53)%Z -> 0 <= B -> Forall (within B) xs -> xs <> [] -> (1 + / 2 ^ 53) ^ (2 * length xs) * ((IZR w + 1) * B) <= 2 ^ 1023 ->
  let win := lastn (Z.to_nat w) xs in
  exists s0 s1 v, RunningStatistic_init AverageMeter false w (@nil unit) = Ok s0 /\ iterM (RunningStatistic_update AverageMeter) xs s0 = (Ok tt, s1) /\
    eval (RunningStatistic_get AverageMeter) s1 = Ok v /\ finite v /\
    Rabs (real v - mean (map real win)) <= ((1 + / 2 ^ 53) ^ (2 * length xs + 1) - 1) * ((IZR w + 1) * B) / INR (length win) + / 2 ^ 1075.
Proof.
  intros w B xs [Hw Hw2] HB F Hx Big win. assert (E23 : bpow radix2 1023 = 2 ^ 1023). { rewrite bpow_powerRZ. change (IZR radix2) with 2. change 1023%Z with (Z.of_nat 1023). rewrite <- pow_powerRZ. reflexivity. }
  destruct (running_drift w B xs Hw HB F) as (s & E & _ & _ & I & D & N). { rewrite E23. exact Big. } fold win in D, N. set (A := (IZR w + 1) * B) in *.
  assert (HA : 0 <= A). { unfold A. apply Rmult_le_pos; auto. apply IZR_le in Hw. lra. }
  assert (NE : win <> []) by (apply lastn_nonempty; [lia|auto]). assert (Ll : (length win <= Z.to_nat w)%nat) by (unfold win; rewrite lastn_length; lia).
  assert (L1 : (1 <= length win)%nat) by (destruct win; [congruence|cbn [length]; lia]). set (n := length win) in *. assert (Pn : 1 <= INR n) by (change 1 with (INR 1); apply le_INR; auto).
  destruct (ofZ_real (Z.of_nat n) ltac:(lia)) as [Fn En]. rewrite <- INR_IZR_INZ in En.
  set (T := Rsum (map real win)) in *. set (sm := ss_sum (rn_stat s)) in *.
  assert (FW : Forall (within B) win). { rewrite Forall_forall in *. intros v Hv. apply F. eapply In_lastn. exact Hv. }
  assert (TA : Rabs T <= A). { eapply Rle_trans; [apply (window_abs B)|]; auto. { eapply Forall_impl; [|exact FW]. intros ? [_ K]; exact K. } unfold A. apply Rmult_le_compat_r; auto. fold n. apply le_INR in Ll. rewrite (INR_IZR_INZ (Z.to_nat w)), Z2Nat.id in Ll by lia. lra. }
  assert (SA : Rabs (real sm) <= (1 + u) ^ (2 * length xs) * A). { pose proof (partial_abs (2 * length xs) A (real sm) T 0) as P. rewrite !Rplus_0_r in P. auto. }
  assert (SB : Rabs (real sm / INR n) <= bpow radix2 1023). { unfold Rdiv. rewrite Rabs_mult, (Rabs_pos_eq (/ INR n)) by (left; apply Rinv_0_lt_compat; lra). rewrite E23. eapply Rle_trans; [|exact Big]. fold u. eapply Rle_trans; [|exact SA]. rewrite <- (Rmult_1_r (Rabs (real sm))) at 2. apply Rmult_le_compat_l; [apply Rabs_pos|]. rewrite <- Rinv_1. apply Rinv_le_contravar; lra. }
  destruct (div_real sm (float_ofZ (Z.of_nat n)) I) as [Fv Ev]. { rewrite En. lra. } { rewrite En. apply fl_lt_max. exact SB. }
  do 2 eexists. exists (sm / float_ofZ (Z.of_nat n))%float. split; [reflexivity|]. split; [exact E|]. split.
  { transitivity (div_int (ss_sum (rn_stat s)) (ss_n (rn_stat s))); [reflexivity|]. rewrite N. fold sm. unfold div_int, pydiv. destruct (Z.eqb_spec (Z.of_nat n) 0); [lia|]. reflexivity. }
  split; [exact Fv|]. rewrite Ev, En. destruct (fl_error (real sm / INR n)) as (eps & eta & He & Ht & Ef). rewrite Ef. unfold mean, Rlen. rewrite map_length. fold n. fold T.
  replace (real sm / INR n * (1 + eps) + eta - T / INR n) with (((real sm * (1 + eps)) - T) / INR n + eta) by (field; lra).
  eapply Rle_trans; [apply Rabs_triang|]. apply Rplus_le_compat; auto. unfold Rdiv. rewrite Rabs_mult, (Rabs_pos_eq (/ INR n)) by (left; apply Rinv_0_lt_compat; lra).
  apply Rmult_le_compat_r; [left; apply Rinv_0_lt_compat; lra|]. fold u. pose proof (drift_step (2 * length xs) A (real sm) T 0 (real sm * (1 + eps)) HA) as DS. rewrite !Rplus_0_r in DS. rewrite Nat.add_1_r. apply DS; auto. exists eps. split; auto.
Qed.
Print Assumptions C113_running_average_drift.

(** ** An error is never forgotten *)
(** RunningStatistic(AverageMeter, w) reads 10^16 once and then ones only: it reports 0 for ever, for every window size. *)
Theorem C113_errors_leave_the_window_refuted : forall (w n : nat), (1 <= w)%nat -> (Z.of_nat w <= 2 ^ 53)%Z -> (w <= n)%nat ->
  let xs := 1e16%float :: repeat 1%float n in
  exists s0 s1 v, RunningStatistic_init AverageMeter false (Z.of_nat w) (@nil unit) = Ok s0 /\ iterM (RunningStatistic_update AverageMeter) xs s0 = (Ok tt, s1) /\
    eval (RunningStatistic_get AverageMeter) s1 = Ok v /\ finite v /\ real v = 0 /\ lastn w xs = repeat 1%float w.
Proof.
  intros w n Hw Hb Hn xs.
  assert (Up : forall (s : runst (sumst float) float) x, RunningStatistic_update AverageMeter x s = RunningStatistic_update SumMeter x s) by reflexivity.
  assert (S1 : forall k, (k < w)%nat -> iterM (RunningStatistic_update AverageMeter) (1e16%float :: repeat 1%float k) (mkRun (mt_init AverageMeter) (Z.of_nat w) []) =
    (Ok tt, mkRun (mkSum 1e16%float (Z.of_nat (S k))) (Z.of_nat w) (1e16%float :: repeat 1%float k))).
  { induction k as [|k IH]; intros Hk.
    - cbn [repeat iterM]. unfold bind. rewrite Up, running_update_sum. cbn [rn_win rn_size rn_stat mt_init app length]. destruct (Z.ltb_spec (Z.of_nat w) (Z.of_nat 1)); [lia|]. reflexivity.
    - replace (1e16%float :: repeat 1%float (S k)) with ((1e16%float :: repeat 1%float k) ++ [1%float]) by (cbn [app]; f_equal; symmetry; apply repeat_cons).
      rewrite iterM_app. unfold bind. rewrite IH by lia. cbn [iterM]. unfold bind. rewrite Up, running_update_sum. cbn [rn_win rn_size rn_stat ss_sum ss_n app length].
      rewrite app_length, repeat_length. cbn [length]. destruct (Z.ltb_spec (Z.of_nat w) (Z.of_nat (S (k + 1)))); [lia|]. unfold ret. do 2 f_equal. f_equal. f_equal. lia. }
  assert (S2 : forall k, iterM (RunningStatistic_update AverageMeter) (1e16%float :: repeat 1%float (w + k)) (mkRun (mt_init AverageMeter) (Z.of_nat w) []) =
    (Ok tt, mkRun (mkSum 0%float (Z.of_nat w)) (Z.of_nat w) (repeat 1%float w))).
  { induction k as [|k IH].
    - rewrite Nat.add_0_r. destruct w as [|w']; [lia|]. replace (1e16%float :: repeat 1%float (S w')) with ((1e16%float :: repeat 1%float w') ++ [1%float]) by (cbn [app]; f_equal; symmetry; apply repeat_cons).
      rewrite iterM_app. unfold bind. rewrite S1 by lia. cbn [iterM]. unfold bind. rewrite Up, running_update_sum. cbn [rn_win rn_size rn_stat ss_sum ss_n app length hd skipn].
      rewrite app_length, repeat_length. cbn [length]. destruct (Z.ltb_spec (Z.of_nat (S w')) (Z.of_nat (S (w' + 1)))); [|lia]. unfold ret. rewrite <- repeat_cons. do 2 f_equal. f_equal. lia.
    - replace (1e16%float :: repeat 1%float (w + S k)) with ((1e16%float :: repeat 1%float (w + k)) ++ [1%float]) by (cbn [app]; f_equal; rewrite Nat.add_succ_r; symmetry; apply repeat_cons).
      rewrite iterM_app. unfold bind. rewrite IH. cbn [iterM]. unfold bind. rewrite Up, running_update_sum. cbn [rn_win rn_size rn_stat ss_sum ss_n].
      rewrite app_length, repeat_length. cbn [length]. destruct (Z.ltb_spec (Z.of_nat w) (Z.of_nat (w + 1))); [|lia]. rewrite <- repeat_cons. cbn [hd skipn]. unfold ret. do 2 f_equal. f_equal. lia. }
  assert (D : finite (0 / float_ofZ (Z.of_nat w))%float /\ real (0 / float_ofZ (Z.of_nat w))%float = 0).
  { destruct (ofZ_real (Z.of_nat w) ltac:(lia)) as [Fw Ew]. rewrite <- INR_IZR_INZ in Ew. assert (0 < INR w) by (apply lt_0_INR; lia).
    assert (Z0 : real 0%float / real (float_ofZ (Z.of_nat w)) = 0) by (change (real 0%float) with 0; unfold Rdiv; ring).
    assert (R0 : fl 0 = 0) by (apply fl_fmt, generic_format_0).
    destruct (div_real 0%float (float_ofZ (Z.of_nat w)) finite_zero) as [D1 D2]; [rewrite Ew; lra|rewrite Z0, R0, Rabs_R0; apply bpow_gt_0|]. split; auto. rewrite D2, Z0. exact R0. }
  assert (En : n = (w + (n - w))%nat) by lia. unfold xs. rewrite En. do 2 eexists. exists (0 / float_ofZ (Z.of_nat w))%float. split; [reflexivity|]. split; [apply S2|]. split; [|split; [|split]].
  - unfold RunningStatistic_get, eval, zoom. cbn [rn_stat mt_get AverageMeter]. unfold bind, gets, lift. cbn [fst ss_n ss_sum]. unfold div_int, pydiv. destruct (Z.eqb_spec (Z.of_nat w) 0); [lia|]. reflexivity.
  - destruct D as [D _]. exact D.
  - destruct D as [_ D]. exact D.
  - unfold lastn. cbn [length]. rewrite repeat_length. replace (S (w + (n - w)) - w)%nat with (S (n - w)) by lia. cbn [skipn]. generalize (n - w)%nat. intros d. rewrite Nat.add_comm, repeat_app, skipn_app, repeat_length, Nat.sub_diag. rewrite skipn_all2 by (rewrite repeat_length; lia). reflexivity.
Qed.
Print Assumptions C113_errors_leave_the_window_refuted.

(** The bound in round figures: at most 4 n (w + 1) B 2^-53 for up to 2^51 updates. *)
Theorem C113_growth_of_the_bound : forall n, (Z.of_nat n <= 2 ^ 51)%Z -> (1 + / 2 ^ 53) ^ (2 * n) - 1 <= 4 * INR n * / 2 ^ 53.
Proof.
  intros n Hn. fold u. assert (L : INR (2 * n) * (2 * u) <= 1).
  { rewrite INR_IZR_INZ. assert (Hz : (Z.of_nat (2 * n) <= 2 ^ 52)%Z) by lia. apply IZR_le in Hz. assert (E : IZR (2 ^ 52) * (2 * u) = 1). { unfold u. replace (IZR (2 ^ 52)) with (2 ^ 52) by (change (2 ^ 52)%Z with (2 ^ Z.of_nat 52)%Z; rewrite <- (pow_IZR 2 52); reflexivity). replace (2 ^ 53) with (2 * 2 ^ 52) by (cbn [pow]; ring). field. } rewrite <- E. apply Rmult_le_compat_r; auto. pose proof u_pos. lra. }
  assert (G : forall m, INR m * (2 * u) <= 1 -> (1 + u) ^ m <= 1 + INR m * (2 * u)).
  { pose proof u_pos as Hu. induction m as [|m IH]; intros Hm; [cbn; lra|]. rewrite S_INR in *. cbn [pow]. assert (Hm' : INR m * (2 * u) <= 1) by lra. specialize (IH Hm'). apply Rle_trans with ((1 + u) * (1 + INR m * (2 * u))); [apply Rmult_le_compat_l; lra|]. nra. }
  specialize (G _ L). rewrite mult_INR in G. replace (INR 2) with 2 in G by (cbn; lra). lra.
Qed.
Print Assumptions C113_growth_of_the_bound.
(** The hypotheses are met: a window of 3 and the doubles 0.1, 0.2, 0.3, 0.7 (integers are exact, these are not). *)
Example C113_ex : let xs := [0.1; 0.2; 0.3; 0.7]%float in Forall (within 1) xs /\ (1 + / 2 ^ 53) ^ (2 * length xs) * ((IZR 3 + 1) * 1) <= 2 ^ 1023.
Proof.
  cbv zeta. split.
  - assert (W : forall x, finite x -> (0 <=? x)%float = true -> (x <=? 1)%float = true -> within 1 x).
    { intros x Fx L1 L2. split; auto. apply leb_real in L1; auto; [|vm_compute; reflexivity]. apply leb_real in L2; auto; [|vm_compute; reflexivity]. change (real 0%float) with 0 in L1. destruct (literal 1 1%float ltac:(lia) ltac:(vm_compute; reflexivity)) as [_ E1]. rewrite E1 in L2. rewrite Rabs_pos_eq; auto. }
    do 4 (apply Forall_cons; [apply W; vm_compute; reflexivity|]). apply Forall_nil.
  - cbn [length]. assert (U : / 2 ^ 53 <= 1). { rewrite <- Rinv_1. apply Rinv_le_contravar; [lra|]. apply pow_R1_Rle. lra. } assert (U0 : 0 < / 2 ^ 53) by (apply Rinv_0_lt_compat, pow_lt; lra).
    apply Rle_trans with (2 ^ 8 * 2 ^ 2).
    + apply Rmult_le_compat; [apply pow_le; lra|lra|apply pow_incr; lra|cbn; lra].
    + rewrite <- pow_add. apply Rle_pow; [lra|]. apply Nat.leb_le. reflexivity.
Qed.
