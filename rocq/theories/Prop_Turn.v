(** * C131: which way the scores move when one parameter of a detector is turned up. *)
From Coq Require Import String.
From Coq Require Import List ZArith Lia Bool Reals Lra Arith.
From Verif Require Import Base Num Spec Model_Core Model_Stats Model_Utils Model_Trans Model_Simple Model_SESD Model_Post Model_Sketch Model_HST Model_XStream P_Lists P_Core P_Stats P_Utils P_Models
  Prop_Trans Prop_Simple Prop_SESD Prop_HST Prop_RSHash Prop_Sketch Prop_Quant Prop_XStream Prop_Direction Prop_Familiar Prop_Constant Prop_Whole Prop_Forget.
Import ListNotations.
Open Scope R_scope.
Local Notation length := List.length.

(** Both are plain numbers, the second at least the first. *)
Definition at_most (a b : res (pyval R)) : Prop := exists u v, a = Ok (VScalar u) /\ b = Ok (VScalar v) /\ u <= v.

(** ** Deviation detectors: eps and b only shrink the scores, never turn them round *)
Lemma quotient_shrinks : forall a d d', 0 < d -> d <= d' -> Rabs (a / d') <= Rabs (a / d) /\ (0 < a / d <-> 0 < a / d').
Proof.
  intros a d d' Hd L. assert (0 < d') by lra. assert (I : / d' <= / d) by (apply Rinv_le_contravar; lra). assert (0 < / d) by (apply Rinv_0_lt_compat; lra). assert (0 < / d') by (apply Rinv_0_lt_compat; lra). split.
  - unfold Rdiv. rewrite !Rabs_mult, (Rabs_right (/ d)), (Rabs_right (/ d')) by lra. apply Rmult_le_compat_l; [apply Rabs_pos|lra].
  - unfold Rdiv. split; intros H2; (destruct (Rlt_dec 0 a) as [|N]; [apply Rmult_lt_0_compat; lra|exfalso; nra]).
Qed.
Lemma Rabs_zero : forall a, Rabs a = 0 -> a = 0.
Proof. intros a H. destruct (Req_dec a 0) as [|N]; auto. exfalso. exact (Rabs_no_R0 a N H). Qed.
Theorem C131_standard_deviation : forall Y eps eps' ab st m (h : list (mcall (list R) Y)) v, 0 < eps -> eps <= eps' -> SAD_statistic st = Ok m -> univariate h <> [] ->
  exists u u', score_after (StandardAbsoluteDeviation eps ab m) (SAD_init m) h [v] = Ok (VArray [FinV u]) /\ score_after (StandardAbsoluteDeviation eps' ab m) (SAD_init m) h [v] = Ok (VArray [FinV u']) /\ Rabs u' <= Rabs u /\ (0 < u <-> 0 < u').
Proof.
  intros Y eps eps' ab st m h v He L Em N. assert (C : exists c, center st (univariate h) c). { destruct st; cbn in Em; try discriminate; eexists; constructor; auto. apply median_fn_spec; auto. } destruct C as [c C].
  unfold score_after. rewrite (C71_score Y eps ab st m h [v] c He Em C), (C71_score Y eps' ab st m h [v] c ltac:(lra) Em C). cbn [map]. do 2 eexists. split; [reflexivity|]. split; [reflexivity|].
  assert (0 <= std (univariate h)) by (unfold std; apply sqrt_pos). destruct (quotient_shrinks (v - c) (std (univariate h) + eps) (std (univariate h) + eps')) as [A B]; [lra|lra|]. unfold maybe_abs. destruct ab; [|auto]. rewrite !Rabs_Rabsolu. split; auto.
  split; intros P; pose proof (Rabs_pos ((v - c) / (std (univariate h) + eps'))) as Q; destruct Q as [Q|Q]; auto.
  - exfalso. symmetry in Q. apply Rabs_zero in Q. apply Rmult_integral in Q. destruct Q as [Q|Q]; [|pose proof (Rinv_0_lt_compat (std (univariate h) + eps') ltac:(lra)); lra]. rewrite Q in P. unfold Rdiv in P. rewrite Rmult_0_l, Rabs_R0 in P. lra.
  - eapply Rlt_le_trans; eauto.
  - rewrite <- Q in P. lra.
Qed.
Print Assumptions C131_standard_deviation.
Theorem C131_median_deviation : forall Y eps eps' b b' (h : list (mcall (list R) Y)) v, 0 < eps -> eps <= eps' -> 0 <= b -> b <= b' -> univariate h <> [] ->
  exists u u', score_after (MedianAbsoluteDeviation eps b true) MAD_init h [v] = Ok (VArray [FinV u]) /\ score_after (MedianAbsoluteDeviation eps' b' true) MAD_init h [v] = Ok (VArray [FinV u']) /\ 0 <= u' <= u.
Proof.
  intros Y eps eps' b b' h v He L Hb Lb N. pose proof (median_fn_spec _ N) as M. assert (Nd : devs_fn (univariate h) <> []). { destruct (univariate h); [congruence|]. unfold devs_fn. cbn [prefixes map]. discriminate. } pose proof (median_fn_spec _ Nd) as D.
  assert (P : 0 <= median_fn (devs_fn (univariate h))). { apply (median_nonneg _ _ D). unfold devs_fn. intros d I. apply in_map_iff in I. destruct I as (p & <- & _). apply Rabs_pos. }
  unfold score_after. rewrite (C70_score Y eps b true h [v] _ _ _ He Hb M (proj2 (running_devs_fn _ _) eq_refl) D), (C70_score Y eps' b' true h [v] _ _ _ ltac:(lra) ltac:(lra) M (proj2 (running_devs_fn _ _) eq_refl) D). cbn [map]. do 2 eexists. split; [reflexivity|]. split; [reflexivity|]. unfold maybe_abs. split; [apply Rabs_pos|].
  set (q := median_fn (devs_fn (univariate h))) in *. assert (0 <= b * q) by (apply Rmult_le_pos; lra). assert (b * q <= b' * q) by (apply Rmult_le_compat_r; lra). apply quotient_shrinks; lra.
Qed.
Print Assumptions C131_median_deviation.

(** ** RelativeEntropy: a higher threshold only takes alarms back *)
Theorem C131_relative_entropy : forall Y thr thr' lo hi N W step (h : list (mcall (list R) Y)) vs x, lo < hi -> (1 <= N)%nat -> (1 <= W)%nat -> RE_step lo hi N = Ok step -> fitted_instances h = singles vs -> thr <= thr' ->
  at_most (score_after (RelativeEntropy ln Rceil thr lo step N W) RE_init h x) (score_after (RelativeEntropy ln Rceil thr' lo step N W) RE_init h x).
Proof.
  intros Y thr thr' lo hi N W step h vs x Hr HN HW Es E L. destruct (C125_score Y thr lo hi N W step h vs x Hr HN HW Es E) as [A1 A2]. destruct (C125_score Y thr' lo hi N W step h vs x Hr HN HW Es E) as [B1 B2]. cbv zeta in *. unfold score_after.
  destruct (le_lt_dec W (length vs)) as [G|G]; [|exists 0, 0; split; [apply A1, G|split; [apply B1, G|lra]]].
  destruct (A2 G) as [A3 A4]. destruct (B2 G) as [B3 B4]. destruct (Classical_Prop.classic (agrees thr W (slot_distribution lo hi N (lastn W vs)) (slot_distribution lo hi N (firstn W vs)))) as [C|C].
  - exists 0, 0. split; [apply A3, C|]. split; [apply B3|lra]. destruct C as (p & q & D & C1 & C2 & C3 & C4). exists p, q, D. repeat split; auto. lra.
  - destruct (Classical_Prop.classic (agrees thr' W (slot_distribution lo hi N (lastn W vs)) (slot_distribution lo hi N (firstn W vs)))) as [C'|C'].
    + exists (-1), 0. split; [apply A4, C|]. split; [apply B3, C'|lra].
    + exists (-1), (-1). split; [apply A4, C|]. split; [apply B4, C'|lra].
Qed.
Print Assumptions C131_relative_entropy.

(** ** HalfSpaceTrees: further trees only lower the scores *)
Theorem C131_half_space_trees : forall Y cast draw mins maxes W T k D (h : list (mcall (list R) Y)) x, let dim := length maxes in
  length mins = dim -> (1 <= dim)%nat -> (forall i, (draw i < dim)%nat) -> (1 <= W)%nat -> Forall (fun x => (dim <= length x)%nat) (fitted_instances h) -> (dim <= length x)%nat ->
  exists s0 s1, HST_init (Y := Y) cast draw mins maxes W T D IWNone = Ok s0 /\ HST_init (Y := Y) cast draw mins maxes W (T + k) D IWNone = Ok s1 /\
  at_most (score_after (HalfSpaceTrees W D) s1 h x) (score_after (HalfSpaceTrees W D) s0 h x).
Proof.
  intros Y cast draw mins maxes W T k D h x dim HL Hdim Hq HW F Hx.
  destruct (C54_score Y cast draw mins maxes W T D h x HL Hdim Hq HW F Hx) as (s0 & E0 & S0). destruct (C54_score Y cast draw mins maxes W (T + k) D h x HL Hdim Hq HW F Hx) as (s1 & E1 & S1). exists s0, s1. split; auto. split; auto. cbv zeta in S0, S1. unfold score_after, eval. rewrite S0, S1. cbn [fst]. do 2 eexists. split; [reflexivity|]. split; [reflexivity|].
  assert (P : exists rest, hs_roots s1 = hs_roots s0 ++ rest).
  { unfold HST_init in E0, E1. rewrite seq_app, mapM_app in E1. destruct (mapM _ (seq 0 T) 0%nat) as [[r0|e] d0]; [|discriminate]. destruct (mapM _ (seq (0 + T) k) d0) as [[r1|e] d1]; [|discriminate]. cbn in E0, E1. injection E0 as <-. injection E1 as <-. exists r1. reflexivity. }
  destruct P as (rest & ->). rewrite map_app, Rsum_app2. match goal with |- context [map (fun t => cell_sum D t ?r x) rest] => set (ref := r) end. assert (0 <= Rsum (map (fun t => cell_sum D t ref x) rest)); [|lra].
  clear. induction rest as [|t l IH]; [change (0 <= 0); lra|]. cbn [map]. rewrite Rsum_cons2. pose proof (cell_sum_bounds D t ref x). pose proof (pos_INR (length ref)). lra.
Qed.
Print Assumptions C131_half_space_trees.

(** ** RSHash: faster decay only lowers the scores (of the same components) *)
Lemma Rsum_le_map : forall X (f g : X -> R) l, (forall x, In x l -> f x <= g x) -> Rsum (map f l) <= Rsum (map g l).
Proof. intros X f g l. induction l as [|a l IH]; intros H; [apply Rle_refl|]. cbn [map]. rewrite !Rsum_cons2. apply Rplus_le_compat; [apply H; left; auto|apply IH; intros; apply H; right; auto]. Qed.
Theorem C131_rshash : forall Y floor decay decay' comps sp w (h : list (mcall (list R) Y)) z, comps <> [] -> (1 <= w)%nat -> Forall (fits_components comps) (fitted_instances h) -> fitted_instances h <> [] -> decay <= decay' ->
  at_most (score_after (RSHash (Rpower 2) ln floor decay' comps) (RSHash_init sp w) h z) (score_after (RSHash (Rpower 2) ln floor decay comps) (RSHash_init sp w) h z).
Proof.
  intros Y floor decay decay' comps sp w h z Hc Hw F N L. destruct (exists_last N) as (past & x & E).
  destruct (C74_score Y floor decay comps sp w h z Hc Hw F) as (_ & S & _). destruct (C74_score Y floor decay' comps sp w h z Hc Hw F) as (_ & S' & _). cbv zeta in S, S'. unfold score_after, eval. rewrite (S past x E), (S' past x E). cbn [fst]. do 2 eexists. split; [reflexivity|]. split; [reflexivity|].
  unfold mean, Rlen. rewrite !map_length. unfold Rdiv. apply Rmult_le_compat_r. { left. apply Rinv_0_lt_compat, lt_0_INR. destruct comps; [congruence|cbn; lia]. }
  apply Rsum_le_map. intros c _. assert (P : 0 <= decayed_count floor decay' c past x). { unfold decayed_count. generalize (seq 0 (length past)). clear. induction l as [|j l IH]; [apply Rle_refl|]. cbn [map]. rewrite Rsum_cons2. destruct (same_cell _ _ _ _); [|lra]. unfold Rpower at 1. pose proof (exp_pos (- decay' * INR (length past - j) * ln 2)). lra. }
  assert (Q : decayed_count floor decay' c past x <= decayed_count floor decay c past x). { unfold decayed_count. apply Rsum_le_map. intros j _. destruct (same_cell _ _ _ _); [|lra]. apply Rle_Rpower; [lra|]. apply Rmult_le_compat_r; [apply pos_INR|lra]. }
  destruct Q as [Q|Q]; [left; apply ln_increasing; lra|rewrite Q; lra].
Qed.
Print Assumptions C131_rshash.

Lemma ranges_unique : forall K W q zs d d', ranges_after K W q zs d -> ranges_after K W q zs d' -> d = d'.
Proof. intros K W [|q] zs d d' H H'; cbn [ranges_after] in *; [congruence|]. eapply half_ranges_unique; eauto. Qed.
(** ** xStream: deeper chains only raise the scores *)
Theorem C131_xstream : forall Y mmh3 n density p floor W draws draws' (h : list (mcall (list R) Y)) x, (1 <= n)%Z -> Streamhash_init 1 n density = Ok p -> (1 <= W)%nat -> let K := Z.to_nat n in chain_draws K draws -> chain_draws K draws' ->
  Forall2 (fun d d' => snd d' = snd d /\ exists more, fst d' = fst d ++ more) draws draws' ->
  exists u u', score_after (XStream mmh3 p floor K W) (xstream_new K draws) h x = Ok (VArray [u]) /\ score_after (XStream mmh3 p floor K W) (xstream_new K draws') h x = Ok (VArray [u']) /\ u <= u'.
Proof.
  intros Y mmh3 n density p floor W draws draws' h x Hn Ep HW K D D' FF.
  destruct (C75_score Y mmh3 n density p floor W draws h x Hn Ep HW D) as (zs & z & dref & delta & mins & Fz & Hz & R1 & R2 & F & SC & _).
  destruct (C75_score Y mmh3 n density p floor W draws' h x Hn Ep HW D') as (zs' & z' & dref' & delta' & mins' & Fz' & Hz' & R1' & R2' & F' & SC' & _).
  unfold score_after, eval. fold K in SC, SC'. rewrite SC, SC'. cbn [fst]. do 2 eexists. split; [reflexivity|]. split; [reflexivity|]. fold K in R1, R2, R1', R2'.
  rewrite (projects_unique _ _ _ _ _ Hz' Hz) in F'. assert (Ez : zs' = zs). { clear - Fz Fz'. revert zs' Fz'. induction Fz; intros zs' F'; inversion F'; subst; auto. f_equal; auto. eapply projects_unique; eauto. } subst zs'.
  rewrite <- (ranges_unique _ _ _ _ _ _ R1 R1') in F'. rewrite <- (ranges_unique _ _ _ _ _ _ R2 R2') in F'. clear R1 R1' R2 R2' SC SC' Fz Fz' Hz Hz'. match type of F with context [depth_values _ _ _ _ _ ?r _] => set (ref := r) in * end. clearbody ref.
  assert (L : length mins = length mins' /\ Rsum (map Ropp mins) <= Rsum (map Ropp mins')).
  { destruct D as [_ D]. clear D'. revert D mins mins' F F'. induction FF as [|d d' l l' [E1 (more & E2)] FF IH]; intros D mins mins' F F'; [inversion F; inversion F'; subst; split; [auto|apply Rle_refl]|]. inversion F as [|? a ? ms A FA]; inversion F' as [|? b ? ms' B FB]; subst. inversion D as [|? ? _ D2]; subst. destruct (IH D2 ms ms' FA FB) as [I1 I2]. split; [cbn [length]; lia|]. cbn [map]. rewrite !Rsum_cons2. apply Rplus_le_compat; auto. apply Ropp_le_contravar.
    destruct A as [A1 A2]. destruct B as [B1 B2]. apply B2. rewrite E1, E2. unfold depth_values in A1 |- *. apply in_map_iff in A1. destruct A1 as (k & <- & Ik).
    apply in_seq in Ik. apply in_map_iff. exists k. split; [|apply in_seq; rewrite app_length; lia]. rewrite firstn_app. replace (k - length (fst d))%nat with 0%nat by lia. cbn [firstn]. rewrite app_nil_r. reflexivity. }
  destruct L as [L1 L2]. unfold mean, Rlen. rewrite !map_length, L1. unfold Rdiv. apply Rmult_le_compat_r; [|exact L2]. destruct D' as [D1 _]. left. apply Rinv_0_lt_compat, lt_0_INR. inversion F'; subst; [congruence|cbn; lia].
Qed.
Print Assumptions C131_xstream.

(** ** SeasonalESD: a higher significance level, or more anomalies allowed, only adds detections *)
Definition bend (d n t : R) : R := t / sqrt ((d + t * t) * n).
Lemma bend_pos : forall d n t, 0 < d -> 0 < n -> 0 < (d + t * t) * n.
Proof. intros d n t Hd Hn. apply Rmult_lt_0_compat; auto. pose proof (Rle_0_sqr t) as Q. unfold Rsqr in Q. lra. Qed.
Lemma bend_up : forall d n a b, 0 < d -> 0 < n -> 0 <= a -> a <= b -> bend d n a <= bend d n b.
Proof.
  intros d n a b Hd Hn Ha L. unfold bend. pose proof (bend_pos d n a Hd Hn) as A. pose proof (bend_pos d n b Hd Hn) as B. pose proof (sqrt_lt_R0 _ A) as SA. pose proof (sqrt_lt_R0 _ B) as SB.
  apply Rmult_le_reg_r with (sqrt ((d + a * a) * n) * sqrt ((d + b * b) * n)); [apply Rmult_lt_0_compat; auto|]. replace (a / sqrt ((d + a * a) * n) * (sqrt ((d + a * a) * n) * sqrt ((d + b * b) * n))) with (a * sqrt ((d + b * b) * n)) by (field; lra). replace (b / sqrt ((d + b * b) * n) * (sqrt ((d + a * a) * n) * sqrt ((d + b * b) * n))) with (b * sqrt ((d + a * a) * n)) by (field; lra).
  rewrite <- (sqrt_square a Ha) at 1. rewrite <- (sqrt_square b) at 3 by lra. rewrite <- !sqrt_mult by (first [left; assumption | apply Rmult_le_pos; lra]). apply sqrt_le_1_alt. assert (a * a <= b * b) by (apply Rmult_le_compat; lra). assert (0 <= d * n) by (apply Rmult_le_pos; lra). replace (a * a * ((d + b * b) * n)) with ((a * a) * (d * n) + a * a * (b * b) * n) by ring. replace (b * b * ((d + a * a) * n)) with ((b * b) * (d * n) + a * a * (b * b) * n) by ring. apply Rplus_le_compat_r. apply Rmult_le_compat_r; lra.
Qed.
Lemma bend_mono : forall d n a b, 0 < d -> 0 < n -> a <= b -> bend d n a <= bend d n b.
Proof.
  intros d n a b Hd Hn L. assert (O : forall t, bend d n (- t) = - bend d n t). { intros t. unfold bend. replace (- t * - t) with (t * t) by ring. unfold Rdiv. ring. }
  assert (Z : bend d n 0 = 0) by (unfold bend, Rdiv; ring). destruct (Rle_dec 0 a) as [P|P]; [apply bend_up; auto|]. destruct (Rle_dec 0 b) as [P2|P2].
  - apply Rle_trans with 0; [|rewrite <- Z; apply bend_up; auto; lra]. pose proof (bend_up d n 0 (- a) Hd Hn ltac:(lra) ltac:(lra)) as Q. rewrite Z, O in Q. lra.
  - pose proof (bend_up d n (- b) (- a) Hd Hn ltac:(lra) ltac:(lra)) as Q. rewrite !O in Q. lra.
Qed.
(** Quantiles are monotone. *)
Definition monotone_quantiles (ppf : R -> Z -> R) : Prop := forall df p q, (1 <= df)%Z -> 0 < p -> p <= q -> q < 1 -> ppf p df <= ppf q df.
Lemma critical_mono : forall ppf alpha alpha' n i, monotone_quantiles ppf -> 0 < alpha -> alpha <= alpha' -> alpha' < 1 -> (i + 2 <= n)%Z -> se_critical ppf alpha' n i <= se_critical ppf alpha n i.
Proof.
  intros ppf alpha alpha' n i M Ha L Ha' Hi. assert (E : forall al, se_critical ppf al n i = IZR (n - i) * bend (IZR (n - i - 1)) (IZR (n - i + 1)) (ppf (1 - al / (2 * IZR (n - i + 1))) (n - i - 1)%Z)). { intros al. unfold se_critical, bend, nsq. cbn [nsub ndiv nmul nadd nsqrt nofZ NumR]. unfold Rdiv. ring. }
  rewrite !E. assert (A : 1 <= IZR (n - i - 1)) by (apply IZR_le; lia). assert (B : 3 <= IZR (n - i + 1)) by (apply IZR_le; lia). assert (C : 0 <= IZR (n - i)) by (apply IZR_le; lia). apply Rmult_le_compat_l; auto. apply bend_mono; [lra|lra|]. assert (I : 0 < / (2 * IZR (n - i + 1)) <= / 6) by (split; [apply Rinv_0_lt_compat; lra|apply Rinv_le_contravar; lra]). unfold Rdiv. set (q := / (2 * IZR (n - i + 1))) in *. apply M; [lia| | |]; nra.
Qed.
Lemma loop_mono : forall eps cs crit crit' fuel fuel' i values indices a b, (fuel <= fuel')%nat -> (forall j, (i <= j < i + Z.of_nat fuel)%Z -> crit' j <= crit j) ->
  se_loop eps cs crit fuel i values indices = Ok a -> se_loop eps cs crit' fuel' i values indices = Ok b ->
  exists b1 b2, b = b1 ++ b2 /\ Forall2 (fun c c' : nat * R * R => fst c' = fst c /\ snd c' <= snd c) a b1.
Proof.
  intros eps cs crit crit' fuel. induction fuel as [|fuel IH]; intros fuel' i values indices a b L C E E'.
  - cbn in E. injection E as <-. exists [], b. split; auto.
  - destruct fuel' as [|fuel']; [lia|]. cbn [se_loop] in E, E'. destruct (cs values) as [[center scale]|e]; [|discriminate]. cbn [rbind] in E, E'. destruct (oleb scale eps). { injection E as <-. injection E' as <-. exists [], []. split; auto. }
    destruct (np_argmax _) as [k|e]; [|discriminate]. cbn [rbind] in E, E'. destruct (py_index indices k) as [idx|e]; [|discriminate]. cbn [rbind] in E, E'. destruct (py_index _ k) as [st|e]; [|discriminate]. cbn [rbind] in E, E'.
    destruct (se_loop eps cs crit fuel _ _ _) as [ra|e] eqn:E1; [|discriminate]. destruct (se_loop eps cs crit' fuel' _ _ _) as [rb|e] eqn:E2; [|discriminate]. cbn [rmap] in E, E'. injection E as <-. injection E' as <-.
    destruct (IH fuel' (i + 1)%Z (np_delete k values) (np_delete k indices) ra rb) as (b1 & b2 & -> & F); [lia| |exact E1|exact E2|]. { intros j Hj. apply C. lia. }
    exists ((idx, st, crit' i) :: b1), b2. split; [reflexivity|]. constructor; auto. split; [reflexivity|]. cbn [snd]. apply C. lia.
Qed.
Lemma Forall2_len : forall X Z (P : X -> Z -> Prop) l l', Forall2 P l l' -> length l = length l'.
Proof. intros X Z P l l' F. induction F; cbn [length]; congruence. Qed.
Lemma nth_Forall2 : forall X Z (P : X -> Z -> Prop) l l' d d' i, Forall2 P l l' -> (i < length l)%nat -> P (nth i l d) (nth i l' d').
Proof. intros X Z P l l' d d' i F. revert i. induction F; intros [|i] L; cbn [length nth] in *; try lia; auto. apply IHF. lia. Qed.
Lemma selected_mono : forall a b1 b2, Forall2 (fun c c' : nat * R * R => fst c' = fst c /\ snd c' <= snd c) a b1 -> (se_selected a <= se_selected (b1 ++ b2))%nat.
Proof.
  intros a b1 b2 F. destruct (selected_spec a) as (A1 & A2 & _). destruct (selected_spec (b1 ++ b2)) as (B1 & _ & B3). set (k := se_selected a) in *. set (k' := se_selected (b1 ++ b2)) in *. destruct (le_lt_dec k k') as [|L]; auto. exfalso.
  pose proof (Forall2_len _ _ _ _ _ F) as LF. specialize (A2 ltac:(lia)). specialize (B3 (k - 1)%nat ltac:(rewrite app_length; lia)). rewrite app_nth1 in B3 by lia. destruct (nth_Forall2 _ _ _ _ _ nil_cand nil_cand (k - 1)%nat F ltac:(lia)) as [Q1 Q2]. unfold thr, stat in *. rewrite Q1 in B3. lra.
Qed.
Lemma esd_mono : forall eps cs ppf alpha alpha' m m' vs ds ds', monotone_quantiles ppf -> 0 < alpha -> alpha <= alpha' -> alpha' < 1 -> (1 <= m <= m')%Z -> (m + 2 <= Z.of_nat (length vs))%Z ->
  se_esd eps cs ppf alpha m vs = Ok ds -> se_esd eps cs ppf alpha' m' vs = Ok ds' -> exists rest, map fst ds' = map fst ds ++ rest.
Proof.
  intros eps cs ppf alpha alpha' m m' vs ds ds' M Ha L Ha' Hm Hn E E'. unfold se_esd in E, E'. destruct (se_loop _ _ _ (Z.to_nat m) _ _ _) as [a|e] eqn:Ea; [|discriminate]. destruct (se_loop _ _ _ (Z.to_nat m') _ _ _) as [b|e] eqn:Eb; [|discriminate]. cbn [rbind] in E, E'. injection E as <-. injection E' as <-.
  destruct (loop_mono eps cs (se_critical ppf alpha (Z.of_nat (length vs))) (se_critical ppf alpha' (Z.of_nat (length vs))) (Z.to_nat m) (Z.to_nat m') 1 vs (seq 0 (length vs)) a b) as (b1 & b2 & -> & F); [lia|intros j Hj; apply critical_mono; auto; lia|exact Ea|exact Eb|]. pose proof (selected_mono a b1 b2 F) as K. destruct (selected_spec a) as (A1 & _). set (k := se_selected a) in *. set (k' := se_selected (b1 ++ b2)) in *. pose proof (Forall2_len _ _ _ _ _ F) as LF.
  assert (G : map fst b1 = map fst a) by (clear - F; induction F as [|c c' l l' [Q _] F IH]; auto; cbn [map]; rewrite Q, IH; reflexivity).
  exists (skipn k (map fst (firstn k' (b1 ++ b2)))). rewrite <- (firstn_skipn k (map fst (firstn k' (b1 ++ b2)))) at 1. f_equal. rewrite <- firstn_map, firstn_firstn, Nat.min_l by lia. rewrite map_app, firstn_app, map_length. replace (k - length b1)%nat with 0%nat by lia. cbn [firstn]. rewrite app_nil_r, G, firstn_map. reflexivity.
Qed.
Lemma find_fst : forall (P : nat -> bool) (l l' : list (nat * R * R)), map fst l = map fst l' -> match find (fun '(idx, _, _) => P idx) l with Some (_, st, _) => st | None => 0 end = match find (fun '(idx, _, _) => P idx) l' with Some (_, st, _) => st | None => 0 end.
Proof. intros P l. induction l as [|[[i s] c] l IH]; intros [|[[i' s'] c'] l'] E; try discriminate; auto. cbn [map fst] in E. injection E as <- <- E. cbn [find]. destruct (P i); auto. Qed.
Lemma find_prefix : forall (P : nat -> bool) (l r : list (nat * R * R)), match find (fun '(idx, _, _) => P idx) l with Some (_, st, _) => st | None => 0 end = match find (fun '(idx, _, _) => P idx) (l ++ r) with Some (_, st, _) => st | None => 0 end \/ match find (fun '(idx, _, _) => P idx) l with Some (_, st, _) => st | None => 0 end = 0.
Proof. intros P l r. induction l as [|[[i s] c] l IH]; [right; reflexivity|]. cbn [find app]. destruct (P i); auto. Qed.
Theorem C131_seasonal_esd : forall Y eps cs CS ppf stl period w m m' alpha alpha' s0 s1 (h : list (mcall (list R) Y)) v, monotone_quantiles ppf -> SESD_init period w m alpha = Ok s0 -> SESD_init period w m' alpha' = Ok s1 -> (m <= m')%Z -> alpha <= alpha' -> 0 <= eps ->
  (forall l, (2 <= length l)%nat -> exists c s, cs l = Ok (c, s) /\ CS l c s) -> (forall x, exists sn, stl x = Ok sn /\ length sn = length x) ->
  exists r r', score_after (SeasonalESD (Y := Y) eps cs ppf stl) s0 h [v] = Ok (VScalar r) /\ score_after (SeasonalESD (Y := Y) eps cs ppf stl) s1 h [v] = Ok (VScalar r') /\ (r = r' \/ r = 0) /\ 0 <= r <= r'.
Proof.
  intros Y eps cs CS ppf stl period w m m' alpha alpha' s0 s1 h v M E0 E1 Lm La He Hcs Hstl. unfold score_after.
  destruct (C79_score Y eps cs CS ppf stl period w m alpha s0 h v E0 He Hcs Hstl) as (r & Er & Pr & _). destruct (C79_score Y eps cs CS ppf stl period w m' alpha' s1 h v E1 He Hcs Hstl) as (r' & Er' & Pr' & _). exists r, r'. split; auto. split; auto.
  assert (G : r = r' \/ r = 0); [|split; auto; split; auto; destruct G; subst; lra].
  pose proof (se_run Y eps cs ppf stl _ _ _ _ _ h E0) as (I1 & I2 & I3 & I4 & I5 & I6). pose proof (se_run Y eps cs ppf stl _ _ _ _ _ h E1) as (J1 & J2 & J3 & J4 & J5 & J6).
  destruct (proj1 (C78_constructor period w m alpha)) as (H1 & H2 & H3 & H4 & H5); [eauto|]. destruct (proj1 (C78_constructor period w m' alpha')) as (_ & _ & K3 & K4 & K5); [eauto|].
  unfold eval in Er, Er'. cbn [md_score SeasonalESD] in Er, Er'. unfold bind, gets, lift in Er, Er'. cbn [se_value] in Er, Er'. rewrite I2, I6 in Er. rewrite J2, J6 in Er'. match type of Er with context [se_score_window _ _ _ _ _ ?q] => set (win := q) in * end. clearbody win.
  unfold se_score_window in Er, Er'. rewrite I1, I2, I3, I4 in Er. rewrite J1, J2, J3, J4 in Er'. destruct (Z.ltb_spec (Z.of_nat (length win)) w) as [L|L]. { cbn in Er, Er'. injection Er as <-. injection Er' as <-. auto. }
  assert (Lr : forall res, transform_window stl period (AInst (Arr1 win)) = Ok res -> length res = length win). { intros res Q. unfold transform_window in Q. cbn [as_univariate as_array rbind] in Q. destruct (Z.ltb _ _); [discriminate|]. destruct (Hstl win) as (sn & Es & Ls). rewrite Es in Q. cbn [rbind] in Q. unfold np_zip in Q. rewrite Ls, Nat.eqb_refl in Q. cbn [rbind] in Q. destruct (np_median win); [|discriminate]. cbn [rbind] in Q. injection Q as <-. unfold map2. rewrite !map_length, combine_length. lia. }
  destruct (transform_window stl period (AInst (Arr1 win))) as [res|e]; [|discriminate]. specialize (Lr res eq_refl). cbn [rbind] in Er, Er'. destruct (se_esd eps cs ppf alpha m res) as [ds|e] eqn:D1; [|discriminate]. destruct (se_esd eps cs ppf alpha' m' res) as [ds'|e] eqn:D2; [|discriminate]. cbn in Er, Er'. injection Er as <-. injection Er' as <-.
  destruct (esd_mono eps cs ppf alpha alpha' m m' res ds ds' M ltac:(lra) La ltac:(lra) ltac:(lia) ltac:(lia) D1 D2) as (rest & E). pose (ds2 := ds ++ skipn (length ds) ds').
  assert (E2 : map fst ds' = map fst ds2). { unfold ds2. rewrite map_app, <- skipn_map, E, skipn_app, map_length. rewrite skipn_all2 by (rewrite map_length; lia). rewrite Nat.sub_diag. reflexivity. }
  rewrite (find_fst (fun idx => (idx =? length win - 1)%nat) ds' ds2 E2). apply find_prefix.
Qed.
Print Assumptions C131_seasonal_esd.

(** ** Examples *)
Example C131_ex_esd : forall v (h : list (mcall (list R) unit)) k, exists s0 s1 r r', SESD_init 2 8 2 (1 / 20) = Ok s0 /\ SESD_init 2 8 3 (1 / 10) = Ok s1 /\ let d := SeasonalESD (Y := unit) (1 / 10) (hybrid_center_scale k) (fun p _ => p) (fun x => Ok (map (fun _ => 0) x)) in
  score_after d s0 h [v] = Ok (VScalar r) /\ score_after d s1 h [v] = Ok (VScalar r') /\ (r = r' \/ r = 0) /\ 0 <= r <= r'.
Proof.
  intros v h k. destruct (proj2 (C78_constructor 2 8 2 (1 / 20))) as (s0 & E0); [repeat split; try lia; lra|]. destruct (proj2 (C78_constructor 2 8 3 (1 / 10))) as (s1 & E1); [repeat split; try lia; lra|]. exists s0, s1.
  destruct (C131_seasonal_esd unit (1 / 10) (hybrid_center_scale k) (robust_center_scale k) (fun p _ => p) (fun x => Ok (map (fun _ => 0) x)) 2 8 2 3 (1 / 20) (1 / 10) s0 s1 h v) as (r & r' & A); auto; try lra; try lia.
  - intros df p q _ _ L _. exact L.
  - apply robust_cs_ok.
  - intros x. eexists. split; [reflexivity|]. apply map_length.
  - exists r, r'. auto.
Qed.
Example C131_ex_rshash : forall fl, let m d := RSHash (Y := unit) (Rpower 2) ln fl d [mkComp [0%nat] [0] 1] in score_after (m 0) (RSHash_init 10 2) (fits (repeat 7 3)) [0] = Ok (VScalar (ln 3)) /\ score_after (m 1) (RSHash_init 10 2) (fits (repeat 7 3)) [0] = Ok (VScalar (ln (1 + 3 / 4))) /\
  at_most (score_after (m 1) (RSHash_init 10 2) (fits (repeat 7 3)) [0]) (score_after (m 0) (RSHash_init 10 2) (fits (repeat 7 3)) [0]).
Proof.
  intros fl m. assert (F : fitted_instances (fits (Y := unit) (repeat 7 3)) = repeat [7] 3) by (rewrite fitted_fits; apply map_same). assert (N : [mkComp [0%nat] [0] 1] <> []) by discriminate. assert (FC : fits_components [mkComp [0%nat] [0] 1] [7]) by repeat constructor. split; [|split].
  - unfold score_after, m. rewrite (C129_rshash unit fl 0 _ 10 2 _ [7] 2 [0] N ltac:(lia) FC F). do 3 f_equal. cbn [seq map]. rewrite !Rsum_cons2. change (Rsum []) with 0. replace (- (0)) with 0 by ring. rewrite !Rmult_0_l, Rpower_O by lra. ring.
  - unfold score_after, m. rewrite (C129_rshash unit fl 1 _ 10 2 _ [7] 2 [0] N ltac:(lia) FC F). do 4 f_equal. cbn [seq map]. rewrite !Rsum_cons2. change (Rsum []) with 0. cbn [INR]. replace (- (1) * 1) with (- (1)) by ring. replace (- (1) * (1 + 1)) with (- (1) + - (1)) by ring. rewrite Rpower_plus, !Rpower_Ropp, Rpower_1 by lra. field.
  - exact (C131_rshash unit fl 0 1 [mkComp [0%nat] [0] 1] 10 2 (fits (repeat 7 3)) [0] N ltac:(lia) ltac:(rewrite F; repeat constructor) ltac:(rewrite F; discriminate) ltac:(lra)).
Qed.
Example C131_ex_xstream : chain_draws 1 [([0%nat], [0])] /\ chain_draws 1 [([0; 0]%nat, [0])] /\ Forall2 (fun d d' => snd d' = snd d /\ exists more, fst d' = fst d ++ more) [([0%nat], [0])] [([0; 0]%nat, [0])].
Proof.
  split; [|split]; [split; [discriminate|]; repeat constructor; discriminate| |]. { split; [discriminate|]. repeat constructor. discriminate. } constructor; [|constructor]. split; [reflexivity|]. exists [0%nat]. reflexivity.
Qed.
