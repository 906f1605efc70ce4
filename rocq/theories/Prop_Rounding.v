(** * C95: how far the sums and averages of the statistics are from exact on IEEE-754 binary64. *)
From Coq Require Import List ZArith Lia Bool Arith.
From Coq Require Import Floats Reals Lra Psatz.
From Verif Require Import Base Num Spec Model_Stats P_Lists P_Stats P_Float Prop_Stats.
Import ListNotations.
Open Scope R_scope.

(** ** Specification: [real], [finite], [nearest] of P_Float, and: *)
(** what a history of updates and removals leaves, computed exactly *)
Definition net (h : list (mop float)) : R := Rsum (map real (pushed h)) - Rsum (map real (pulled h)).
(** a double that holds an integer *)
Definition integral (x : float) : Prop := finite x /\ exists k, real x = IZR k.
Definition op_integral (o : mop float) : Prop := match o with Upd x | Rem x => integral x | Get => True end.

(** ** Error of a sum *)
Definition fsum (s : float) (xs : list float) : float := fold_left PrimFloat.add xs s.
Lemma sum_state : forall xs s, ss_sum (fold_left (mt_do SumMeter) (map Upd xs) s) = fsum (ss_sum s) xs /\ ss_n (fold_left (mt_do SumMeter) (map Upd xs) s) = (ss_n s + Z.of_nat (length xs))%Z.
Proof.
  intros xs. induction xs as [|x xs IH]; intros s; cbn [map fold_left fsum length]; [split; [reflexivity|lia]|]. destruct (IH (mt_do SumMeter s (Upd x))) as [-> ->]. split; [reflexivity|]. cbn. lia.
Qed.
Definition gam (n : nat) : R := (1 + u) ^ n - 1.
Lemma gam_S : forall n, gam (S n) = (1 + u) * gam n + u.
Proof. intros n. unfold gam. cbn [pow]. ring. Qed.
Lemma gam_pos : forall n, 0 <= gam n.
Proof. intros n. induction n as [|n IH]; [unfold gam; cbn; lra|]. rewrite gam_S. pose proof u_pos. nra. Qed.
Lemma u_le_gam : forall n, u <= gam (S n).
Proof. intros n. rewrite gam_S. pose proof (gam_pos n). pose proof u_pos. nra. Qed.
Lemma Rabs_sum : forall l, Rabs (Rsum l) <= Rsum (map Rabs l).
Proof. intros l. unfold Rsum. induction l as [|v l IH]; cbn [map fold_right]; [rewrite Rabs_R0; lra|]. pose proof (Rabs_triang v (fold_right Rplus 0 l)). lra. Qed.
Lemma one_step : forall n T A s x s', 0 <= A -> Rabs T <= A -> Rabs (s - T) <= gam n * A -> (exists eps, Rabs eps <= u /\ s' = (s + x) * (1 + eps)) -> Rabs (s' - (T + x)) <= gam (S n) * (A + Rabs x).
Proof.
  intros n T A s x s' HA HT H (eps & He & ->). replace ((s + x) * (1 + eps) - (T + x)) with ((s - T) + eps * ((s - T) + T + x)) by ring.
  pose proof (Rabs_triang (s - T) (eps * (s - T + T + x))) as H1. rewrite Rabs_mult in H1. pose proof (Rabs_triang (s - T + T) x) as H2. pose proof (Rabs_triang (s - T) T) as H3. pose proof u_pos as Hu. pose proof (Rabs_pos x) as Hx. pose proof (gam_pos n) as G. pose proof (Rabs_pos (s - T + T + x)) as P.
  assert (H4 : Rabs eps * Rabs (s - T + T + x) <= u * (gam n * A + A + Rabs x)) by (apply Rmult_le_compat; auto using Rabs_pos; lra).
  assert (H5 : 0 <= gam n * Rabs x) by nra. rewrite gam_S. nra.
Qed.
Lemma fsum_error : forall xs x, finite (fsum x xs) -> finite x /\ Forall finite xs /\ Rabs (real (fsum x xs) - Rsum (map real (x :: xs))) <= gam (length xs) * Rsum (map (fun v => Rabs (real v)) (x :: xs)).
Proof.
  intros xs x. induction xs as [|y xs IH] using rev_ind; intros F.
  - cbn [fsum fold_left length map]. cbn in F. split; auto. split; auto. unfold Rsum. cbn [fold_right]. rewrite Rplus_0_r. unfold Rminus. rewrite Rplus_opp_r, Rabs_R0. unfold gam. cbn. lra.
  - unfold fsum in *. rewrite fold_left_app in *. cbn [fold_left] in *. destruct (add_real _ _ F) as (F1 & F2 & E). destruct (IH F1) as (Fx & Fxs & B). split; auto. split; [apply Forall_app; auto|].
    rewrite app_length, Nat.add_comm. cbn [length Nat.add]. rewrite app_comm_cons, !map_app, !Rsum_app. change (map real [y]) with [real y]. change (map (fun v => Rabs (real v)) [y]) with [Rabs (real y)]. unfold Rsum at 2 4. cbn [fold_right]. rewrite !Rplus_0_r.
    apply (one_step _ _ _ (real (fold_left PrimFloat.add xs x))); auto.
    + apply Rsum_nonneg. intros v Hv. apply in_map_iff in Hv. destruct Hv as (w & <- & _). apply Rabs_pos.
    + eapply Rle_trans; [apply Rabs_sum|]. rewrite map_map. lra.
    + rewrite E. apply fl_plus_error; apply real_fmt.
Qed.
Lemma zero_add : forall x, finite (0 + x)%float -> finite x /\ real (0 + x)%float = real x.
Proof. intros x H. destruct (add_real _ _ H) as (_ & F & E). split; auto. rewrite E. change (real 0%float) with 0. rewrite Rplus_0_l. apply fl_fmt, real_fmt. Qed.
Lemma fsum0_error : forall xs, finite (fsum 0%float xs) -> Forall finite xs /\ Rabs (real (fsum 0%float xs) - Rsum (map real xs)) <= gam (length xs - 1) * Rsum (map (fun v => Rabs (real v)) xs).
Proof.
  intros [|x xs] F.
  - split; auto. cbn [fsum fold_left map length]. change (real 0%float) with 0. unfold Rsum. cbn [fold_right]. unfold Rminus. rewrite Rplus_opp_r, Rabs_R0. lra.
  - unfold fsum in F. cbn [fold_left] in F. destruct (fsum_error xs (0 + x)%float F) as (F0 & Fx & B). destruct (zero_add _ F0) as [F1 E]. split; auto. replace (length (x :: xs) - 1)%nat with (length xs) by (cbn [length]; lia). cbn [map] in B. rewrite E in B. exact B.
Qed.
(** The sum of any data is off by at most ((1 + 2^-53)^(n-1) - 1) times the sum of the absolute values, unless it overflows. *)
Theorem C95_sum_error : forall xs s, mt_answer SumMeter (map Upd xs) = Ok s -> finite s ->
  Forall finite xs /\ Rabs (real s - Rsum (map real xs)) <= ((1 + / 2 ^ 53) ^ (length xs - 1) - 1) * Rsum (map (fun x => Rabs (real x)) xs).
Proof.
  intros xs s E F. unfold mt_answer, mt_run in E. destruct (sum_state xs (mt_init SumMeter)) as [E1 _]. cbn in E. unfold gets, eval in E. cbn [fst] in E. injection E as <-. cbn in E1. rewrite E1 in *. apply fsum0_error. exact F.
Qed.
Print Assumptions C95_sum_error.
Lemma avg_answer : forall xs, xs <> [] -> mt_answer AverageMeter (map Upd xs) = Ok (fsum 0%float xs / float_ofZ (Z.of_nat (length xs)))%float.
Proof.
  intros xs Hx. unfold mt_answer, mt_run. change (fold_left (mt_do AverageMeter) (map Upd xs) (mt_init AverageMeter)) with (fold_left (mt_do (SumMeter (A := float))) (map Upd xs) (mt_init SumMeter)). destruct (sum_state xs (mt_init SumMeter)) as [E1 E2].
  set (st := fold_left _ _ _) in *. cbn in E1, E2. cbn [mt_get AverageMeter]. unfold eval, bind, gets, lift. cbn [fst]. rewrite E1, E2. unfold div_int. destruct (Z.eqb_spec (Z.of_nat (length xs)) 0) as [E|_]; [destruct xs; [congruence|cbn in E; lia]|]. reflexivity.
Qed.
(** The average, with the rounding of the division; 2^-1075 is half the smallest double. *)
Theorem C95_average_error : forall xs a, xs <> [] -> (Z.of_nat (length xs) <= 2 ^ 53)%Z -> mt_answer AverageMeter (map Upd xs) = Ok a -> finite a ->
  Forall finite xs /\ Rabs (real a - mean (map real xs)) <= ((1 + / 2 ^ 53) ^ length xs - 1) * mean (map (fun x => Rabs (real x)) xs) + / 2 ^ 1075.
Proof.
  intros xs a Hx L E F. rewrite avg_answer in E by auto. injection E as <-. destruct (ofZ_real (Z.of_nat (length xs)) ltac:(lia)) as [Fn En]. assert (Pn : 0 < IZR (Z.of_nat (length xs))) by (apply IZR_lt; destruct xs; [congruence|cbn [length]; lia]).
  assert (Nz : real (float_ofZ (Z.of_nat (length xs))) <> 0) by (rewrite En; lra). pose proof (div_finite _ _ F Nz) as Fs. destruct (fsum0_error xs Fs) as [Fx B]. split; auto. rewrite (div_fl _ _ F Nz), En. destruct (fl_error (real (fsum 0%float xs) / IZR (Z.of_nat (length xs)))) as (eps & eta & He & Heta & ->).
  unfold mean, Rlen. rewrite !map_length. rewrite (INR_IZR_INZ (length xs)). set (n := IZR (Z.of_nat (length xs))) in *. set (s := real (fsum 0%float xs)) in *. set (T := Rsum (map real xs)) in *. set (A := Rsum (map (fun x => Rabs (real x)) xs)) in *.
  assert (HT : Rabs T <= A). { unfold T, A. eapply Rle_trans; [apply Rabs_sum|]. rewrite map_map. lra. }
  assert (HA : 0 <= A) by (eapply Rle_trans; [apply Rabs_pos|exact HT]).
  assert (S1 : exists k, length xs = S k) by (destruct xs; [congruence|eexists; reflexivity]). destruct S1 as [k Ek]. rewrite Ek in *. replace (S k - 1)%nat with k in B by lia.
  replace (s / n * (1 + eps) + eta - T / n) with ((s * (1 + eps) - T) / n + eta) by (field; lra). eapply Rle_trans; [apply Rabs_triang|]. apply Rplus_le_compat; auto. unfold Rdiv. rewrite Rabs_mult, (Rabs_pos_eq (/ n)) by (left; apply Rinv_0_lt_compat; auto). rewrite <- Rmult_assoc. apply Rmult_le_compat_r; [left; apply Rinv_0_lt_compat; auto|].
  pose proof (one_step k T A s 0 (s * (1 + eps)) HA HT B ltac:(exists eps; split; [auto|ring])) as Q. rewrite Rabs_R0, !Rplus_0_r in Q. exact Q.
Qed.
Print Assumptions C95_average_error.

(** ** Integers *)
Lemma pow53 : IZR (2 ^ 53) = 2 ^ 53.
Proof. rewrite (pow_IZR 2). reflexivity. Qed.
Lemma int_fmt : forall k, Rabs (IZR k) <= 2 ^ 53 -> (Z.abs k <= 2 ^ 53)%Z.
Proof. intros k H. rewrite <- abs_IZR in H. rewrite <- pow53 in H. apply le_IZR. exact H. Qed.
Lemma add_int : forall a b, integral a -> integral b -> Rabs (real a + real b) <= 2 ^ 53 -> integral (a + b)%float /\ real (a + b)%float = real a + real b.
Proof.
  intros a b [Fa [i Ea]] [Fb [j Eb]] H. rewrite Ea, Eb in *. rewrite <- plus_IZR in *. apply int_fmt in H. destruct (add_exact a b Fa Fb) as [F E]; rewrite ?Ea, ?Eb, <- ?plus_IZR; auto using IZR_fmt, IZR_lt_max. rewrite Ea, Eb, <- plus_IZR in E. split; auto. split; auto. eexists. exact E.
Qed.
Lemma sub_int : forall a b, integral a -> integral b -> Rabs (real a - real b) <= 2 ^ 53 -> integral (a - b)%float /\ real (a - b)%float = real a - real b.
Proof.
  intros a b [Fa [i Ea]] [Fb [j Eb]] H. rewrite Ea, Eb in *. rewrite <- minus_IZR in *. apply int_fmt in H. destruct (sub_exact a b Fa Fb) as [F E]; rewrite ?Ea, ?Eb, <- ?minus_IZR; auto using IZR_fmt, IZR_lt_max. rewrite Ea, Eb, <- minus_IZR in E. split; auto. split; auto. eexists. exact E.
Qed.
Lemma pushed_app : forall X (p q : list (mop X)), pushed (p ++ q) = pushed p ++ pushed q.
Proof. intros. apply flat_map_app. Qed.
Lemma pulled_app : forall X (p q : list (mop X)), pulled (p ++ q) = pulled p ++ pulled q.
Proof. intros. apply flat_map_app. Qed.
Lemma exact_state : forall h, Forall op_integral h -> (forall p q, h = p ++ q -> Rabs (net p) <= 2 ^ 53) ->
  let s := mt_run SumMeter h in integral (ss_sum s) /\ real (ss_sum s) = net h /\ ss_n s = (Z.of_nat (length (pushed h)) - Z.of_nat (length (pulled h)))%Z.
Proof.
  intros h. induction h as [|o h IH] using rev_ind; intros I B; cbv zeta.
  - cbn. unfold net, Rsum. cbn. split; [|split; [|lia]]. { split; [reflexivity|exists 0%Z; reflexivity]. } { change (real zero) with 0. lra. }
  - apply Forall_app in I. destruct I as [I Io]. inversion Io as [|? ? Ho _]; subst. destruct (IH I) as (I1 & E1 & N1). { intros p q E. apply (B p (q ++ [o])). rewrite E, app_assoc. reflexivity. }
    unfold mt_run in *. rewrite fold_left_app. cbn [fold_left]. set (s := fold_left (mt_do SumMeter) h (mt_init SumMeter)) in *. pose proof (B (h ++ [o]) [] ltac:(rewrite app_nil_r; reflexivity)) as Bh.
    unfold net in *. rewrite pushed_app, pulled_app, !map_app, !Rsum_app, !app_length in *. destruct o as [x|x|]; cbn [op_integral] in Ho.
    + change (pushed [Upd x]) with [x] in *. change (pulled [Upd x]) with (@nil float) in *. cbn [map length] in *. change (Rsum [real x]) with (real x + 0) in *. change (Rsum []) with 0 in *. destruct (add_int (ss_sum s) x I1 Ho) as [I2 E2]. { rewrite E1. eapply Rle_trans; [|exact Bh]. right. f_equal. ring. }
      change (ss_sum (mt_do SumMeter s (Upd x))) with (ss_sum s + x)%float. change (ss_n (mt_do SumMeter s (Upd x))) with (ss_n s + 1)%Z. split; auto. split; [rewrite E2, E1; ring|]. rewrite N1. lia.
    + change (pushed [Rem x]) with (@nil float) in *. change (pulled [Rem x]) with [x] in *. cbn [map length] in *. change (Rsum [real x]) with (real x + 0) in *. change (Rsum []) with 0 in *. destruct (sub_int (ss_sum s) x I1 Ho) as [I2 E2]. { rewrite E1. eapply Rle_trans; [|exact Bh]. right. f_equal. ring. }
      change (ss_sum (mt_do SumMeter s (Rem x))) with (ss_sum s - x)%float. change (ss_n (mt_do SumMeter s (Rem x))) with (ss_n s - 1)%Z. split; auto. split; [rewrite E2, E1; ring|]. rewrite N1. lia.
    + change (pushed [@Get float]) with (@nil float) in *. change (pulled [@Get float]) with (@nil float) in *. cbn [map length] in *. change (Rsum []) with 0 in *. change (mt_do SumMeter s Get) with s. split; auto. split; [rewrite E1; ring|]. rewrite N1. lia.
Qed.
(** On integers there is no rounding at all while the running total stays within 2^53: any number of updates and
    removals gives the exact sum, and the average is the double nearest to the exact average. *)
Theorem C95_sum_exact_on_integers : forall h, Forall op_integral h -> (forall p q, h = p ++ q -> Rabs (net p) <= 2 ^ 53) ->
  exists s, mt_answer SumMeter h = Ok s /\ finite s /\ real s = net h.
Proof. intros h I B. destruct (exact_state h I B) as (I1 & E1 & _). eexists. split; [reflexivity|]. destruct I1. auto. Qed.
Print Assumptions C95_sum_exact_on_integers.
Lemma avg_nearest : forall (s : float) (n : Z) T, integral s -> real s = T -> (0 < n <= 2 ^ 53)%Z -> Rabs T <= 2 ^ 53 -> exists a, div_int s n = Ok a /\ nearest (T / IZR n) a.
Proof.
  intros s n T [F _] E Hn B. unfold div_int. destruct (Z.eqb_spec n 0) as [|_]; [lia|]. eexists. split; [reflexivity|]. cbn [ndiv nofZ NumF]. destruct (ofZ_real n ltac:(lia)) as [Fn En]. assert (P : 1 <= IZR n) by (apply (IZR_le 1); lia).
  assert (Q : Rabs (T / IZR n) <= 2 ^ 53). { unfold Rdiv. rewrite Rabs_mult, (Rabs_pos_eq (/ IZR n)) by (left; apply Rinv_0_lt_compat; lra). assert (/ IZR n <= 1) by (rewrite <- Rinv_1; apply Rinv_le_contravar; lra). assert (0 < / IZR n) by (apply Rinv_0_lt_compat; lra). pose proof (Rabs_pos T). nra. }
  destruct (div_real s (float_ofZ n) F) as [F1 E1]. { rewrite En. lra. } { rewrite E, En. apply fl_lt_max. eapply Rle_trans; [exact Q|]. rewrite <- pow53. change 2%Z with (Zaux.radix_val Zaux.radix2). rewrite Raux.IZR_Zpower by lia. apply Raux.bpow_le. lia. }
  apply fl_nearest; auto. rewrite E1, E, En. reflexivity.
Qed.
Theorem C95_average_exact_on_integers : forall h, Forall op_integral h -> (forall p q, h = p ++ q -> Rabs (net p) <= 2 ^ 53) ->
  let n := (Z.of_nat (length (pushed h)) - Z.of_nat (length (pulled h)))%Z in (0 < n <= 2 ^ 53)%Z -> exists a, mt_answer AverageMeter h = Ok a /\ nearest (net h / IZR n) a.
Proof.
  intros h I B n Hn. destruct (exact_state h I B) as (I1 & E1 & N1). fold n in N1. destruct (avg_nearest _ n (net h) I1 E1 Hn) as (a & Ea & Na). { apply (B h []). rewrite app_nil_r. reflexivity. }
  exists a. split; auto. unfold mt_answer. change (mt_run AverageMeter h) with (mt_run (SumMeter (A := float)) h). cbn [mt_get AverageMeter]. unfold eval, bind, gets, lift. cbn [fst]. rewrite N1. exact Ea.
Qed.
Print Assumptions C95_average_exact_on_integers.

(** ** Windows *)
Lemma running_update_sum : forall (x : float) (s : runst (sumst float) float), RunningStatistic_update SumMeter x s =
  let win := rn_win s ++ [x] in
  (Ok tt, if (rn_size s <? Z.of_nat (length win))%Z
          then mkRun (mkSum (ss_sum (rn_stat s) + x - hd 0%float win)%float (ss_n (rn_stat s) + 1 - 1)) (rn_size s) (skipn 1 win)
          else mkRun (mkSum (ss_sum (rn_stat s) + x)%float (ss_n (rn_stat s) + 1)) (rn_size s) win).
Proof.
  intros x [st w win]. destruct win as [|y l]; cbv -[Z.ltb Z.of_nat length app Z.add Z.sub PrimFloat.add PrimFloat.sub].
  - change (length ([] ++ [x])) with 1%nat. destruct (w <? Z.of_nat 1)%Z; reflexivity.
  - destruct (w <? Z.of_nat (length ((y :: l) ++ [x])))%Z; reflexivity.
Qed.
Lemma window_abs : forall B (l : list float), 0 <= B -> Forall (fun x => Rabs (real x) <= B) l -> Rabs (Rsum (map real l)) <= INR (length l) * B.
Proof.
  intros B l HB F. eapply Rle_trans; [apply Rabs_sum|]. rewrite map_map. rewrite <- (Rsum_map_const _ B l). apply Rsum_le. rewrite Forall_forall in F. auto.
Qed.
Lemma running_exact : forall (w : Z) (B : Z) xs, (1 <= w)%Z -> (1 <= B)%Z -> ((w + 1) * B <= 2 ^ 53)%Z -> Forall (fun x => integral x /\ Rabs (real x) <= IZR B) xs ->
  exists s, iterM (RunningStatistic_update SumMeter) xs (mkRun (mt_init SumMeter) w []) = (Ok tt, s) /\ rn_size s = w /\ rn_win s = lastn (Z.to_nat w) xs /\
  integral (ss_sum (rn_stat s)) /\ real (ss_sum (rn_stat s)) = Rsum (map real (lastn (Z.to_nat w) xs)) /\ ss_n (rn_stat s) = Z.of_nat (length (lastn (Z.to_nat w) xs)).
Proof.
  intros w B xs Hw HB HwB. induction xs as [|x xs IH] using rev_ind; intros F.
  - eexists. split; [reflexivity|]. rewrite lastn_nil. cbn [rn_size rn_win rn_stat mt_init SumMeter ss_sum ss_n map length]. repeat split; auto. exists 0%Z. reflexivity.
  - apply Forall_app in F. destruct F as [F Fx]. inversion Fx as [|? ? [Ix Bx] _]; subst. destruct (IH F) as (s & E & E1 & E2 & I & E3 & E4). eexists. split. { rewrite iterM_app. unfold bind. rewrite E. cbn [iterM]. unfold bind. rewrite running_update_sum. reflexivity. }
    change (mt_state (SumMeter (A := float))) with (sumst float) in *. rewrite E1, E2. rewrite lastn_step. set (l := lastn (Z.to_nat w) xs) in *.
    assert (FL : Forall (fun x => integral x /\ Rabs (real x) <= IZR B) (l ++ [x])). { apply Forall_app. split; [|constructor; auto]. rewrite Forall_forall in *. intros v Hv. apply F. eapply In_lastn. exact Hv. }
    assert (Ll : (length l <= Z.to_nat w)%nat) by (unfold l; rewrite lastn_length; lia).
    assert (P53 : INR (Z.to_nat w + 1) * IZR B <= 2 ^ 53). { rewrite INR_IZR_INZ, <- mult_IZR, <- pow53. apply IZR_le. nia. }
    assert (WB : forall l', Forall (fun x => integral x /\ Rabs (real x) <= IZR B) l' -> (length l' <= Z.to_nat w + 1)%nat -> Rabs (Rsum (map real l')) <= 2 ^ 53).
    { intros l' Fl' Hl'. eapply Rle_trans; [apply (window_abs (IZR B))|]. { apply IZR_le. lia. } { eapply Forall_impl; [|exact Fl']. intros ? [_ K]; exact K. } eapply Rle_trans; [|exact P53]. apply Rmult_le_compat_r; [apply IZR_le; lia|]. apply le_INR. exact Hl'. }
    assert (S0 : Rsum (map real (l ++ [x])) = Rsum (map real l) + real x). { rewrite map_app, Rsum_app. unfold Rsum at 2. cbn. ring. }
    destruct (add_int (ss_sum (rn_stat s)) x I Ix) as [Ia Ea]. { rewrite E3, <- S0. apply WB; auto. rewrite app_length. cbn [length]. lia. } rewrite E3, <- S0 in Ea.
    assert (LT : (w <? Z.of_nat (length (l ++ [x])))%Z = (Z.to_nat w <? length (l ++ [x]))%nat). { destruct (Nat.ltb_spec (Z.to_nat w) (length (l ++ [x]))); [apply Z.ltb_lt|apply Z.ltb_ge]; lia. } rewrite LT.
    destruct (Nat.ltb_spec (Z.to_nat w) (length (l ++ [x]))) as [HL|HL]; cbn [rn_stat rn_size rn_win ss_sum ss_n].
    + split; auto. split; auto. destruct (l ++ [x]) as [|y l'] eqn:El; [cbn in HL; lia|]. cbn [hd skipn] in *. inversion FL as [|? ? [Iy By] Fl']; subst. assert (Sy : Rsum (map real (y :: l')) = real y + Rsum (map real l')) by reflexivity.
      assert (Len : length (y :: l') = S (length l)) by (rewrite <- El, app_length; cbn [length]; lia). cbn [length] in Len.
      destruct (sub_int _ y Ia Iy) as [Is Es]. { rewrite Ea, Sy. replace (real y + Rsum (map real l') - real y) with (Rsum (map real l')) by ring. apply WB; auto. lia. } rewrite Ea, Sy in Es. split; auto. split; [rewrite Es; ring|]. rewrite E4. lia.
    + split; auto. split; auto. split; auto. split; auto. rewrite E4, app_length. cbn [length]. lia.
Qed.
(** A sliding sum of integers never drifts, however long the stream is; the sliding average is always the double nearest
    to the exact average of the window. *)
Theorem C95_running_sum_exact_on_integers : forall (w B : Z) xs, (1 <= w)%Z -> (1 <= B)%Z -> ((w + 1) * B <= 2 ^ 53)%Z -> Forall (fun x => integral x /\ Rabs (real x) <= IZR B) xs ->
  exists s0 s1 v, RunningStatistic_init SumMeter false w (@nil unit) = Ok s0 /\ iterM (RunningStatistic_update SumMeter) xs s0 = (Ok tt, s1) /\
    eval (RunningStatistic_get SumMeter) s1 = Ok v /\ finite v /\ real v = Rsum (map real (lastn (Z.to_nat w) xs)).
Proof.
  intros w B xs Hw HB HwB F. destruct (running_exact w B xs Hw HB HwB F) as (s & E & _ & _ & I & R & _). do 3 eexists. split; [reflexivity|]. split; [exact E|]. split; [reflexivity|]. destruct I. auto.
Qed.
Print Assumptions C95_running_sum_exact_on_integers.
Theorem C95_running_average_exact_on_integers : forall (w B : Z) xs, (1 <= w)%Z -> (1 <= B)%Z -> ((w + 1) * B <= 2 ^ 53)%Z -> xs <> [] -> Forall (fun x => integral x /\ Rabs (real x) <= IZR B) xs ->
  exists s0 s1 v, RunningStatistic_init AverageMeter false w (@nil unit) = Ok s0 /\ iterM (RunningStatistic_update AverageMeter) xs s0 = (Ok tt, s1) /\
    eval (RunningStatistic_get AverageMeter) s1 = Ok v /\ nearest (mean (map real (lastn (Z.to_nat w) xs))) v.
Proof.
  intros w B xs Hw HB HwB Hx F. destruct (running_exact w B xs Hw HB HwB F) as (s & E & _ & _ & I & R & N).
  set (l := lastn (Z.to_nat w) xs) in *. assert (NE : l <> []) by (apply lastn_nonempty; [lia|auto]). assert (Ll : (length l <= Z.to_nat w)%nat) by (unfold l; rewrite lastn_length; lia).
  destruct (avg_nearest _ (Z.of_nat (length l)) _ I R) as (a & Ea & Na). { destruct l; [congruence|]. cbn [length] in *. nia. }
  { eapply Rle_trans; [apply (window_abs (IZR B))|]. { apply IZR_le. lia. } { rewrite Forall_forall in *. intros v Hv. apply F. eapply In_lastn. exact Hv. } rewrite INR_IZR_INZ, <- mult_IZR, <- pow53. apply IZR_le. nia. }
  do 2 eexists. exists a. split; [reflexivity|]. split; [exact E|]. split. { transitivity (div_int (ss_sum (rn_stat s)) (ss_n (rn_stat s))); [reflexivity|]. rewrite N. exact Ea. } 
  unfold mean, Rlen. rewrite map_length, INR_IZR_INZ. exact Na.
Qed.
Print Assumptions C95_running_average_exact_on_integers.

(** ** What does not hold *)
(** Rounding can push an average outside the range of its data: three times 0.1 averages to more than 0.1. *)
Theorem C95_average_between_extremes_refuted : exists (x : float) (a : float),
  mt_answer AverageMeter [Upd x; Upd x; Upd x] = Ok a /\ finite x /\ finite a /\ real x < real a.
Proof.
  exists 0.1%float. eexists. split; [vm_compute; reflexivity|]. split; [vm_compute; reflexivity|]. split; [vm_compute; reflexivity|]. apply ltb_real; vm_compute; reflexivity.
Qed.
Print Assumptions C95_average_between_extremes_refuted.
(** Without the bound on the magnitudes an integer can vanish: the windowed sum of the last single value is not that value. *)
Theorem C95_running_sum_unbounded_refuted : exists xs s0 s1 v, Forall integral xs /\ RunningStatistic_init (SumMeter (A := float)) false 1 (@nil unit) = Ok s0 /\
  iterM (RunningStatistic_update SumMeter) xs s0 = (Ok tt, s1) /\ eval (RunningStatistic_get SumMeter) s1 = Ok v /\ lastn 1 xs = [1%float] /\ v = 0%float.
Proof.
  exists [9007199254740992%float; 1%float]. do 3 eexists. split.
  { repeat constructor; try (vm_compute; reflexivity); [exists (2 ^ 53)%Z|exists 1%Z].
    - unfold real. replace (Prim2SF 9007199254740992) with (S754_finite false 4503599627370496 1) by (vm_compute; reflexivity). change (powerRZ 2 1) with (2 * 1). change (2 ^ 53)%Z with 9007199254740992%Z. lra.
    - unfold real. replace (Prim2SF 1) with (S754_finite false 4503599627370496 (-52)) by (vm_compute; reflexivity). cbn [powerRZ]. change (Pos.to_nat 52) with 52%nat. cbn [pow]. lra. }
  split; [reflexivity|]. split; [vm_compute; reflexivity|]. split; [vm_compute; reflexivity|]. split; reflexivity.
Qed.
Print Assumptions C95_running_sum_unbounded_refuted.

(** ** Concrete cases *)
Lemma literal : forall z x, (Z.abs z <= 2 ^ 53)%Z -> x = float_ofZ z -> integral x /\ real x = IZR z.
Proof. intros z x H ->. destruct (ofZ_real z H) as [F E]. split; auto. split; auto. exists z. exact E. Qed.
Example C95_ex_integers : exists s, mt_answer SumMeter [Upd 3; Upd 5; Get; Rem 3]%float = Ok s /\ finite s /\ real s = 5.
Proof.
  destruct (literal 3 3%float ltac:(lia) ltac:(vm_compute; reflexivity)) as [I3 E3]. destruct (literal 5 5%float ltac:(lia) ltac:(vm_compute; reflexivity)) as [I5 E5].
  destruct (C95_sum_exact_on_integers [Upd 3; Upd 5; Get; Rem 3]%float) as (s & E & F & R).
  - do 4 (apply Forall_cons; [cbn; auto|]). apply Forall_nil.
  - intros p q E. assert (B : 16 <= 2 ^ 53) by (apply Rle_trans with (2 ^ 4); [lra|apply Rle_pow; [lra|lia]]).
    destruct p as [|a [|b [|c [|d [|e p]]]]]; cbn in E; inversion E; subst; try discriminate; unfold net, Rsum, pushed, pulled; cbn [flat_map map app fold_right]; rewrite ?E3, ?E5; (eapply Rle_trans; [|exact B]); unfold Rabs; destruct (Rcase_abs _); lra.
  - exists s. split; auto. split; auto. rewrite R. unfold net, Rsum, pushed, pulled. cbn [flat_map map app fold_right]. rewrite E3, E5. lra.
Qed.
Example C95_ex_window : exists s1 v, iterM (RunningStatistic_update AverageMeter) [7; 1; 2; 4]%float (mkRun (mt_init AverageMeter) 3 []) = (Ok tt, s1) /\
  eval (RunningStatistic_get AverageMeter) s1 = Ok v /\ nearest (7 / 3) v.
Proof.
  destruct (literal 7 7%float ltac:(lia) ltac:(vm_compute; reflexivity)) as [I7 E7]. destruct (literal 1 1%float ltac:(lia) ltac:(vm_compute; reflexivity)) as [I1 E1]. destruct (literal 2 2%float ltac:(lia) ltac:(vm_compute; reflexivity)) as [I2 E2]. destruct (literal 4 4%float ltac:(lia) ltac:(vm_compute; reflexivity)) as [I4 E4].
  destruct (C95_running_average_exact_on_integers 3 7 [7; 1; 2; 4]%float) as (s0 & s1 & v & H0 & H1 & H2 & H3); try lia; try congruence.
  - do 4 (apply Forall_cons; [split; auto; rewrite ?E7, ?E1, ?E2, ?E4, Rabs_pos_eq; lra|]). apply Forall_nil. 
  - injection H0 as <-. exists s1, v. split; auto. split; auto. change (Z.to_nat 3) with 3%nat in H3. change (lastn 3 [7; 1; 2; 4]%float) with [1; 2; 4]%float in H3. unfold mean, Rlen, Rsum in H3. cbn [map fold_right length INR] in H3. rewrite E1, E2, E4 in H3. replace ((1 + (2 + (4 + 0))) / (1 + 1 + 1)) with (7 / 3) in H3 by field. exact H3.
Qed.
Example C95_ex_error : exists a, mt_answer AverageMeter [Upd 0.1; Upd 0.2; Upd 0.3]%float = Ok a /\ finite a.
Proof. eexists. split; vm_compute; reflexivity. Qed.
