(** * C136: RSHash and xStream keep the numbers of their grid cells in 32-bit integers. *)
From Coq Require Import String.
From Coq Require Import List ZArith Lia Bool Reals Lra Arith.
From Verif Require Import Base Num Spec Model_Stats Model_Utils Model_Core Model_Trans Model_Simple Model_Sketch Model_XStream Model_Cast P_Lists P_Stats P_Utils P_Core P_Post P_Trans P_Models Prop_Utils Prop_Trans Prop_RSHash Prop_HST Prop_XStream Prop_Shuffle Prop_Turn Prop_Constant.
Import ListNotations.
Open Scope R_scope.
Local Notation length := List.length.

(** ** Specification *)
(** What the constructor of RSHash draws: cells of positive size, shifted by at most one cell. *)
Definition sampled (c : rscomp R) : Prop := 0 < rs_f c /\ Forall (fun a => 0 <= a <= rs_f c) (rs_alpha c).
(** No selected feature of x is more than 2^31 - 2 cells away from 0. *)
Definition near_cells (comps : list (rscomp R)) (x : list R) : Prop :=
  forall c j, In c comps -> In j (rs_V c) -> Rabs (nth j x 0) <= (2 ^ 31 - 2) * rs_f c.
(** Every selected feature of x is more than 2^31 + 1 cells away from 0. *)
Definition far_cells (comps : list (rscomp R)) (x : list R) : Prop :=
  forall c j, In c comps -> In j (rs_V c) -> (2 ^ 31 + 1) * rs_f c < Rabs (nth j x 0).
(** The shifts of the chains of xStream are fractions. *)
Definition fractions (draws : list (list nat * list R)) : Prop := Forall (fun d => Forall (fun r => 0 <= r <= 1) (snd d)) draws.
(** z is so close to 0, compared to the ranges delta, that depth D cannot leave the 32-bit integers. *)
Definition near_bins (D : nat) (delta z : list R) : Prop := forall f, (f < length z)%nat -> Rabs (nth f z 0) * 2 ^ (D - 1) <= (2 ^ 31 - 2) * nth f delta 0.

(** ** Proofs *)
Lemma two31 : 2 ^ 31 = IZR (2 ^ 31). Proof. change (2 ^ 31)%Z with (2147483648)%Z. cbn [pow]. lra. Qed.
Lemma int32_in : forall out z, (- 2 ^ 31 <= z < 2 ^ 31)%Z -> int32 out z = z.
Proof. intros out z H. unfold int32. destruct (Z.leb_spec (- 2 ^ 31) z); [|lia]. destruct (Z.ltb_spec z (2 ^ 31)); [reflexivity|lia]. Qed.
Lemma int32_out : forall out z, (z < - 2 ^ 31 \/ 2 ^ 31 <= z)%Z -> int32 out z = out.
Proof. intros out z H. unfold int32. destruct (Z.leb_spec (- 2 ^ 31) z); [|reflexivity]. destruct (Z.ltb_spec z (2 ^ 31)); [lia|reflexivity]. Qed.
Lemma floor32_near : forall out floor r, is_floor floor -> - 2 ^ 31 + 1 <= r <= 2 ^ 31 - 1 -> floor32 out floor r = floor r.
Proof.
  intros out floor r Hf H. unfold floor32. apply int32_in. specialize (Hf r). rewrite two31 in H. split.
  - apply le_IZR. rewrite opp_IZR. lra.
  - apply lt_IZR. lra.
Qed.
Lemma floor32_far : forall out floor r, is_floor floor -> 2 ^ 31 <= Rabs r /\ r <> - 2 ^ 31 -> floor32 out floor r = out.
Proof.
  intros out floor r Hf [H N]. unfold floor32. apply int32_out. specialize (Hf r). rewrite two31 in H, N. unfold Rabs in H. destruct (Rcase_abs r).
  - left. apply lt_IZR. rewrite opp_IZR. lra.
  - right. apply Z.lt_succ_r. apply lt_IZR. unfold Z.succ. rewrite plus_IZR. lra.
Qed.

(** ** RSHash *)
Lemma quotient_near : forall f x a, 0 < f -> 0 <= a <= f -> Rabs x <= (2 ^ 31 - 2) * f -> - 2 ^ 31 + 1 <= (x + a) / f <= 2 ^ 31 - 1.
Proof.
  intros f x a Hf Ha Hx. assert (- ((2 ^ 31 - 2) * f) <= x <= (2 ^ 31 - 2) * f) by (unfold Rabs in Hx; destruct (Rcase_abs x); lra).
  split.
  - apply Rmult_le_reg_r with f; auto. unfold Rdiv. rewrite Rmult_assoc, Rinv_l by lra. nra.
  - apply Rmult_le_reg_r with f; auto. unfold Rdiv. rewrite Rmult_assoc, Rinv_l by lra. nra.
Qed.
Lemma quotient_far : forall f x a, 0 < f -> 0 <= a <= f -> (2 ^ 31 + 1) * f < Rabs x -> 2 ^ 31 <= Rabs ((x + a) / f) /\ (x + a) / f <> - 2 ^ 31.
Proof.
  intros f x a Hf Ha Hx. assert (Q : f * ((x + a) / f) = x + a) by (field; lra). set (q := (x + a) / f) in *. clearbody q. rewrite two31 in *. change (2 ^ 31)%Z with 2147483648%Z in *. unfold Rabs in *. destruct (Rcase_abs x), (Rcase_abs q); split; intros; nra.
Qed.
Lemma cell_near : forall out floor comps c x, is_floor floor -> Forall sampled comps -> In c comps -> near_cells comps x -> cell_of (floor32 out floor) c x = cell_of floor c x.
Proof.
  intros out floor comps c x Hf S I N. unfold cell_of. apply map_ext_in. intros [j a] J. cbn [fst snd]. rewrite Forall_forall in S. destruct (S c I) as [F A]. rewrite Forall_forall in A.
  apply floor32_near; auto. apply quotient_near; auto; [apply A; eapply in_combine_r; eauto|apply (N c j I); eapply in_combine_l; eauto].
Qed.
Lemma cell_far : forall out floor comps c x, is_floor floor -> Forall sampled comps -> In c comps -> far_cells comps x -> cell_of (floor32 out floor) c x = map (fun _ => out) (combine (rs_V c) (rs_alpha c)).
Proof.
  intros out floor comps c x Hf S I N. unfold cell_of. apply map_ext_in. intros [j a] J. cbn [fst snd]. rewrite Forall_forall in S. destruct (S c I) as [F A]. rewrite Forall_forall in A.
  apply floor32_far; auto. apply quotient_far; auto; [apply A; eapply in_combine_r; eauto|apply (N c j I); eapply in_combine_l; eauto].
Qed.
Lemma counts_ext : forall fl fl' decay c past past' x x', length past = length past' ->
  (forall j, (j < length past)%nat -> same_cell fl c (nth j past []) x = same_cell fl' c (nth j past' []) x') -> decayed_count fl decay c past x = decayed_count fl' decay c past' x'.
Proof. intros fl fl' decay c past past' x x' L H. unfold decayed_count. rewrite <- L. f_equal. apply map_ext_in. intros j J. apply in_seq in J. rewrite (H j) by lia. reflexivity. Qed.

(** As long as no fitted instance is more than 2^31 - 2 cells away from 0, the 32-bit cell numbers change nothing. *)
Theorem C136_rshash_in_range : forall Y floor out decay comps sp w (h : list (mcall (list R) Y)) z, comps <> [] -> (1 <= w)%nat -> is_floor floor -> Forall sampled comps ->
  Forall (fits_components comps) (fitted_instances h) -> Forall (near_cells comps) (fitted_instances h) ->
  let m32 := RSHash (Rpower 2) ln (floor32 out floor) decay comps in let m := RSHash (Rpower 2) ln floor decay comps in
  eval (md_score m32 z) (model_run m32 (RSHash_init sp w) h) = eval (md_score m z) (model_run m (RSHash_init sp w) h).
Proof.
  intros Y floor out decay comps sp w h z HC Hw Hf S F N m32 m. destruct (C74_score Y (floor32 out floor) decay comps sp w h z HC Hw F) as (A0 & A1 & _). destruct (C74_score Y floor decay comps sp w h z HC Hw F) as (B0 & B1 & _).
  fold m32 in A0, A1. fold m in B0, B1. unfold eval. destruct (fitted_instances h) as [|x0 l] eqn:E.
  - rewrite A0, B0 by auto. reflexivity.
  - destruct (exists_last (l := x0 :: l)) as (past & x & Ex); [congruence|]. rewrite (A1 past x Ex), (B1 past x Ex). cbn [fst]. do 3 f_equal. apply map_ext_in. intros c I. do 2 f_equal. rewrite Ex in N. apply Forall_app in N. destruct N as [N1 N2]. inversion N2 as [|? ? Nx _]; subst.
    apply counts_ext; auto. intros j J. unfold same_cell. rewrite !(cell_near out floor comps c) by (auto; rewrite Forall_forall in N1; apply N1; apply nth_In; auto). reflexivity.
Qed.
Print Assumptions C136_rshash_in_range.
(** Beyond that the values no longer matter: all instances more than 2^31 + 1 cells away from 0, on either side, are in one cell,
    and two histories with equally many of them are scored alike. *)
Theorem C136_rshash_far_values_are_alike : forall Y floor out decay comps sp w (h h' : list (mcall (list R) Y)) z z', comps <> [] -> (1 <= w)%nat -> is_floor floor -> Forall sampled comps ->
  Forall (fits_components comps) (fitted_instances h ++ fitted_instances h') -> Forall (far_cells comps) (fitted_instances h ++ fitted_instances h') -> length (fitted_instances h) = length (fitted_instances h') ->
  let m32 := RSHash (Rpower 2) ln (floor32 out floor) decay comps in
  eval (md_score m32 z) (model_run m32 (RSHash_init sp w) h) = eval (md_score m32 z') (model_run m32 (RSHash_init sp w) h').
Proof.
  intros Y floor out decay comps sp w h h' z z' HC Hw Hf S F N L m32. apply Forall_app in F. destruct F as [F F']. apply Forall_app in N. destruct N as [N N'].
  destruct (C74_score Y (floor32 out floor) decay comps sp w h z HC Hw F) as (A0 & A1 & _). destruct (C74_score Y (floor32 out floor) decay comps sp w h' z' HC Hw F') as (B0 & B1 & _).
  fold m32 in A0, A1, B0, B1. unfold eval. destruct (fitted_instances h) as [|x0 l] eqn:E.
  - destruct (fitted_instances h') as [|]; [|discriminate]. rewrite A0, B0 by auto. reflexivity.
  - destruct (exists_last (l := x0 :: l)) as (past & x & Ex); [congruence|]. destruct (exists_last (l := fitted_instances h')) as (past' & x' & Ex'); [intros Q; rewrite Q in L; discriminate|].
    rewrite (A1 past x Ex), (B1 past' x' Ex'). cbn [fst]. do 3 f_equal. apply map_ext_in. intros c I. do 2 f_equal. rewrite Ex in N, L. rewrite Ex' in N', L. rewrite !app_length in L. cbn [length] in L.
    apply Forall_app in N. destruct N as [N1 N2]. inversion N2 as [|? ? Nx _]; subst. apply Forall_app in N'. destruct N' as [N1' N2']. inversion N2' as [|? ? Nx' _]; subst. rewrite Forall_forall in N1, N1'.
    apply counts_ext; [lia|]. intros j J. unfold same_cell. rewrite !(cell_far out floor comps c) by (auto; first [apply N1; apply nth_In; lia | apply N1'; apply nth_In; lia]). reflexivity.
Qed.
Print Assumptions C136_rshash_far_values_are_alike.
(** A newcomer trillions of cells away from everything seen before scores 0 when the cell numbers are exact.  In 32 bits it gets the
    score of an instance that was seen a moment ago. *)
Theorem C136_rshash_distant_newcomer_refuted : forall (Y : Type) floor out decay sp w z, (1 <= w)%nat -> is_floor floor ->
  exists comps (h : list (mcall (list R) Y)) x past, comps <> [] /\ Forall sampled comps /\ Forall (fits_components comps) (fitted_instances h) /\
  fitted_instances h = past ++ [x] /\ (forall c p, In c comps -> In p past -> cell_of floor c p <> cell_of floor c x) /\
  (let m := RSHash (Rpower 2) ln floor decay comps in eval (md_score m z) (model_run m (RSHash_init sp w) h) = Ok (VScalar 0)) /\
  (let m32 := RSHash (Rpower 2) ln (floor32 out floor) decay comps in eval (md_score m32 z) (model_run m32 (RSHash_init sp w) h) = Ok (VScalar (ln (1 + Rpower 2 (- decay))))).
Proof.
  intros Y floor out decay sp w z Hw Hf. set (c := mkComp [0%nat] [0] (1 / 2)). set (a := [3000000000000]). set (b := [- 5000000000000]).
  exists [c], [CFit a None; CFit b None], b, [a]. assert (S : Forall sampled [c]). { constructor; [|constructor]. split; cbn; [lra|]. constructor; [lra|constructor]. }
  assert (F : Forall (fits_components [c]) [a; b]). { repeat constructor. }
  assert (D : cell_of floor c a <> cell_of floor c b).
  { unfold cell_of. cbn. intros Q. injection Q as Q. pose proof (Hf ((3000000000000 + 0) / (1 / 2))). pose proof (Hf ((- 5000000000000 + 0) / (1 / 2))). rewrite Q in *. lra. }
  assert (E : fitted_instances (Y := Y) [CFit a None; CFit b None] = [a] ++ [b]) by reflexivity.
  split; [discriminate|]. split; auto. split; [exact F|]. split; [reflexivity|]. split. { intros c' p [<-|[]] [<-|[]]. exact D. }
  assert (M : forall v, mean [v] = v) by (intros v; unfold mean, Rlen; cbn; field).
  split; cbv zeta.
  - destruct (C74_score Y floor decay [c] sp w [CFit a None; CFit b None] z ltac:(discriminate) Hw F) as (_ & H & _). unfold eval. rewrite (H [a] b E). cbn [fst map]. rewrite M. do 2 f_equal.
    unfold decayed_count. cbn [length seq map nth]. unfold same_cell. destruct (list_eq_dec Z.eq_dec _ _); [contradiction|]. rewrite Rsum_cons, Rsum_nil. replace (1 + (0 + 0)) with 1 by ring. apply ln_1.
  - destruct (C74_score Y (floor32 out floor) decay [c] sp w [CFit a None; CFit b None] z ltac:(discriminate) Hw F) as (_ & H & _). unfold eval. rewrite (H [a] b E). cbn [fst map]. rewrite M. do 3 f_equal.
    unfold decayed_count. cbn [length seq map nth]. unfold same_cell. rewrite !(cell_far out floor [c] c); auto; try (left; reflexivity).
    + destruct (list_eq_dec Z.eq_dec _ _); [|congruence]. rewrite Rsum_cons, Rsum_nil. cbn [Nat.sub INR]. rewrite Rmult_1_r. ring.
    + intros c' j [<-|[]] [<-|[]]. subst b. cbn [nth c rs_f]. rewrite two31. change (2 ^ 31)%Z with 2147483648%Z. rewrite Rabs_left; lra.
    + intros c' j [<-|[]] [<-|[]]. subst a. cbn [nth c rs_f]. rewrite two31. change (2 ^ 31)%Z with 2147483648%Z. rewrite Rabs_right; lra.
Qed.
Print Assumptions C136_rshash_distant_newcomer_refuted.
(** The cells of a default detector are at most one unit wide, so every instance beyond about 2.1 billion is affected; values up to a
    thousand are safe for cells of at least a millionth. *)
Example C136_rshash_case : let c := mkComp [0%nat] [1 / 4] (1 / 2) in sampled c /\ near_cells [c] [1000] /\ far_cells [c] [3000000000000] /\ far_cells [c] [- 5000000000000].
Proof.
  cbv zeta. split; [split; cbn; [lra|constructor; [lra|constructor]]|]. split; [|split]; intros c j [<-|[]] [<-|[]]; cbn [nth rs_f]; rewrite two31; change (2 ^ 31)%Z with 2147483648%Z.
  - rewrite Rabs_right; lra.
  - rewrite Rabs_right; lra.
  - rewrite Rabs_left; lra.
Qed.

(** ** xStream *)
Lemma hits_bound : forall (fs : list nat) k f D, (length fs <= D)%nat -> (count_occ Nat.eq_dec (firstn k fs) f <= D)%nat.
Proof. intros fs k f D H. assert (L : forall l, (count_occ Nat.eq_dec l f <= length l)%nat) by (induction l as [|a l IH]; cbn; [lia|destruct (Nat.eq_dec a f); lia]). specialize (L (firstn k fs)). rewrite firstn_length in L. lia. Qed.
Lemma bin_near : forall out floor rand delta fs k z D, is_floor floor -> Forall (fun r => 0 <= r <= 1) rand -> (length fs <= D)%nat -> (forall f, (f < length z)%nat -> 0 < nth f delta 0) -> near_bins D delta z ->
  bin (floor32 out floor) rand delta (firstn k fs) z = bin floor rand delta (firstn k fs) z.
Proof.
  intros out floor rand delta fs k z D Hf Hr HD Hp Hn. unfold bin. apply map_ext_in. intros f I. apply in_seq in I. destruct (count_occ _ _ _) as [|c] eqn:E.
  - apply floor32_near; auto. rewrite two31. change (2 ^ 31)%Z with 2147483648%Z. lra.
  - pose proof (hits_bound fs k f D HD) as B. rewrite E in B. apply floor32_near; auto. assert (R1 : 0 <= nth f rand 0 <= 1).
    { destruct (Nat.lt_ge_cases f (length rand)); [|rewrite nth_overflow by auto; lra]. rewrite Forall_forall in Hr. apply Hr. apply nth_In. auto. }
    specialize (Hp f ltac:(lia)). specialize (Hn f ltac:(lia)). assert (P1 : 0 < 2 ^ c) by (apply pow_lt; lra). assert (P2 : 2 ^ c <= 2 ^ (D - 1)) by (apply Rle_pow; [lra|lia]).
    set (q := 2 ^ c * (nth f z 0 / nth f delta 0)). assert (Q : q * nth f delta 0 = 2 ^ c * nth f z 0) by (unfold q; field; lra). clearbody q.
    assert (A : Rabs (2 ^ c * nth f z 0) <= (2 ^ 31 - 2) * nth f delta 0). { rewrite Rabs_mult, (Rabs_right (2 ^ c)) by lra. pose proof (Rabs_pos (nth f z 0)). nra. }
    rewrite <- Q in A. rewrite Rabs_mult, (Rabs_right (nth f delta 0)) in A by lra. apply Rmult_le_reg_r in A; auto. unfold Rabs in A. destruct (Rcase_abs q); lra.
Qed.
Lemma firstn_in : forall X n (l : list X) a, In a (firstn n l) -> In a l.
Proof. intros X n l a I. rewrite <- (firstn_skipn n l). apply in_or_app. left. exact I. Qed.
Lemma skipn_in : forall X n (l : list X) a, In a (skipn n l) -> In a l.
Proof. intros X n l a I. rewrite <- (firstn_skipn n l). apply in_or_app. right. exact I. Qed.
(** In range, the scores are those of exact cell numbers. *)
Theorem C136_xstream_in_range : forall Y mmh3 n density p floor out W D draws (h : list (mcall (list R) Y)) x zs z dref delta, (1 <= n)%Z -> Streamhash_init 1 n density = Ok p -> (1 <= W)%nat -> is_floor floor ->
  let K := Z.to_nat n in let xs := fitted_instances h in let q := (length xs / W)%nat in
  chain_draws K draws -> fractions draws -> Forall (fun d => (length (fst d) <= D)%nat) draws ->
  Forall2 (projects mmh3 p) xs zs -> projects mmh3 p x z -> ranges_after K W (q - 1) zs dref -> ranges_after K W q zs delta ->
  Forall (near_bins D dref) (if (length xs <? W)%nat then zs else block W (q - 1) zs) -> near_bins D delta z ->
  let m32 := XStream mmh3 p (floor32 out floor) K W : Model (list R) Y R in let m := XStream mmh3 p floor K W : Model (list R) Y R in
  eval (md_score m32 x) (model_run m32 (xstream_new K draws) h) = eval (md_score m x) (model_run m (xstream_new K draws) h).
Proof.
  intros Y mmh3 n density p floor out W D draws h x zs z dref delta Hn Hp HW Hf K xs q HD FR HL Z1 Z2 R1 R2 N1 N2 m32 m.
  destruct (C75_score Y mmh3 n density p (floor32 out floor) W draws h x Hn Hp HW HD) as (zs1 & z1 & dref1 & delta1 & mins1 & A1 & A2 & A3 & A4 & A5 & A6 & _).
  destruct (C75_score Y mmh3 n density p floor W draws h x Hn Hp HW HD) as (zs2 & z2 & dref2 & delta2 & mins2 & B1 & B2 & B3 & B4 & B5 & B6 & _).
  fold K xs q in A3, A4, A5, A6, B3, B4, B5, B6. fold K xs in A1, A2, B1, B2.
  assert (U : forall l l', Forall2 (projects mmh3 p) xs l -> Forall2 (projects mmh3 p) xs l' -> l = l').
  { clear. induction xs as [|a xs IH]; intros l l' H H'; inversion H; inversion H'; subst; auto. f_equal; [eapply projects_unique; eauto|auto]. }
  assert (zs1 = zs) by auto. assert (zs2 = zs) by auto. subst zs1 zs2. assert (z1 = z) by (eapply projects_unique; eauto). assert (z2 = z) by (eapply projects_unique; eauto). subst z1 z2.
  assert (dref1 = dref) by (eapply ranges_unique; eauto). assert (dref2 = dref) by (eapply ranges_unique; eauto). assert (delta1 = delta) by (eapply ranges_unique; eauto). assert (delta2 = delta) by (eapply ranges_unique; eauto). subst dref1 dref2 delta1 delta2.
  fold m32 in A6. fold m in B6. unfold eval. rewrite A6, B6. cbn [fst]. do 5 f_equal. destruct HD as [_ FD].
  assert (LZ : forall x z, projects mmh3 p x z -> length z = K). { intros x' z' P. pose proof (C42_num_components mmh3 n density p x' z' Hn Hp P). unfold K. lia. }
  assert (PR : forall (q : nat) (zs : list (list R)) (d z : list R), ranges_after K W q zs d -> length z = K -> forall f, (f < length z)%nat -> 0 < nth f d 0). { intros q' zs' d z' R0 L f If. pose proof (C76_ranges_positive K W q' zs' d f R0 ltac:(lia)). lra. }
  assert (LR : Forall (fun z : list R => length z = K) (if (length xs <? W)%nat then zs else block W (q - 1) zs)).
  { assert (Forall (fun z : list R => length z = K) zs) by (clear - Z1 LZ; induction Z1; constructor; eauto). destruct (length xs <? W)%nat; auto. unfold block. apply Forall_forall. intros a I. rewrite Forall_forall in H. apply H. apply firstn_in, skipn_in in I. exact I. }
  revert A5 B5 N1 LR. generalize (if (length xs <? W)%nat then zs else block W (q - 1) zs). intros ref A5 B5 N1 LR.
  assert (V : forall d, In d draws -> depth_values (floor32 out floor) (fst d) (snd d) dref delta ref z = depth_values floor (fst d) (snd d) dref delta ref z).
  { intros d I. unfold fractions in FR. rewrite Forall_forall in FR, HL, N1, LR. specialize (FR d I). specialize (HL d I). unfold depth_values. apply map_ext. intros k. do 4 f_equal. unfold bin_count. f_equal. apply filter_ext_in. intros z' I'.
    rewrite (bin_near out floor (snd d) dref (fst d) k z' D), (bin_near out floor (snd d) delta (fst d) k z D); eauto. }
  clear - A5 B5 V. revert mins2 B5. induction A5 as [|d m1 draws mins1 M1 A5 IH]; intros mins2 B5; inversion B5 as [|? m2 ? ? M2 B5']; subst; auto. f_equal.
  - rewrite V in M1 by (left; auto). eapply is_min_unique; eauto.
  - apply IH; auto. intros d' I. apply V. right. auto.
Qed.
Print Assumptions C136_xstream_in_range.

(** In the first window, instances whose projections lie beyond 2^30 + 1, on either side and however far, or agree, are all in one bin at every
    depth: any of them, seen or not, gets the lowest score there is. *)
Theorem C136_xstream_far_values_are_familiar : forall Y mmh3 n density p floor out W draws (h : list (mcall (list R) Y)) x zs z, (1 <= n)%Z -> Streamhash_init 1 n density = Ok p -> is_floor floor ->
  let K := Z.to_nat n in let xs := fitted_instances h in (length xs < W)%nat ->
  chain_draws K draws -> fractions draws -> Forall2 (projects mmh3 p) xs zs -> projects mmh3 p x z ->
  (forall f, (f < K)%nat -> (forall z', In z' zs -> nth f z' 0 = nth f z 0) \/ (forall z', In z' (z :: zs) -> 2 ^ 30 + 1 <= Rabs (nth f z' 0))) ->
  let m32 := XStream mmh3 p (floor32 out floor) K W : Model (list R) Y R in
  eval (md_score m32 x) (model_run m32 (xstream_new K draws) h) = Ok (VArray [- (1 + log2 (1 + INR (length xs)))]).
Proof.
  intros Y mmh3 n density p floor out W draws h x zs z Hn Hp Hf K xs HW HD FR Z1 Z2 G m32.
  destruct (C75_score Y mmh3 n density p (floor32 out floor) W draws h x Hn Hp ltac:(lia) HD) as (zs1 & z1 & dref & delta & mins & A1 & A2 & A3 & A4 & A5 & A6 & _).
  fold K xs in A1, A2, A3, A4, A5, A6. rewrite Nat.div_small in A3, A4, A5 by auto. cbn [Nat.sub ranges_after] in A3, A4. subst dref delta. destruct (Nat.ltb_spec (length xs) W) as [_|]; [|lia].
  assert (zs1 = zs). { clear - A1 Z1. revert zs zs1 Z1 A1. induction xs as [|a xs IH]; intros l l' H H'; inversion H; inversion H'; subst; auto. f_equal; [eapply projects_unique; eauto|auto]. }
  assert (z1 = z) by (eapply projects_unique; eauto). subst zs1 z1. fold m32 in A6. unfold eval. rewrite A6. cbn [fst]. do 3 f_equal. destruct HD as [DN FD].
  assert (LZ : forall x z, projects mmh3 p x z -> length z = K). { intros x' z' P. pose proof (C42_num_components mmh3 n density p x' z' Hn Hp P). unfold K. lia. }
  assert (LA : forall z', In z' zs -> length z' = K). { clear - Z1 LZ. induction Z1 as [|a b l l' P Z1 IH]; intros z' []; subst; eauto. }
  assert (LL : length zs = length xs) by (clear - Z1; induction Z1; cbn; auto).
  assert (SB : forall d k z', In d draws -> In z' zs -> bin (floor32 out floor) (snd d) (repeat (1 / 2) K) (firstn k (fst d)) z' = bin (floor32 out floor) (snd d) (repeat (1 / 2) K) (firstn k (fst d)) z).
  { intros d k z' I I'. unfold bin. rewrite (LA z' I'), (LZ x z Z2). apply map_ext_in. intros f If. apply in_seq in If. destruct (count_occ _ _ _) as [|c]; auto. rewrite nth_repeat_any by lia.
    destruct (G f ltac:(lia)) as [E|B]; [rewrite (E z' I'); reflexivity|].
    assert (R1 : 0 <= nth f (snd d) 0 <= 1). { unfold fractions in FR. rewrite Forall_forall in FR. specialize (FR d I). destruct (Nat.lt_ge_cases f (length (snd d))); [|rewrite nth_overflow by auto; lra]. rewrite Forall_forall in FR. apply FR. apply nth_In. auto. }
    assert (FAR : forall v, 2 ^ 30 + 1 <= Rabs v -> floor32 out floor (2 ^ c * (v / (1 / 2)) + nth f (snd d) 0) = out).
    { intros v Hv. assert (P1 : 1 <= 2 ^ c) by (apply pow_R1_Rle; lra). assert (T : 2 ^ 30 = 1073741824) by (cbn [pow]; lra). rewrite T in Hv. set (r := nth f (snd d) 0) in *. set (t := 2 ^ c) in *. clearbody r t.
      apply floor32_far; auto. rewrite two31. change (2 ^ 31)%Z with 2147483648%Z. replace (v / (1 / 2)) with (2 * v) by field. unfold Rabs in *. destruct (Rcase_abs v), (Rcase_abs (t * (2 * v) + r)); split; intros; nra. }
    rewrite (FAR (nth f z' 0)), (FAR (nth f z 0)); auto; apply B; [left|right]; auto. }
  assert (CN : forall d k, In d draws -> bin_count (floor32 out floor) (snd d) (repeat (1 / 2) K) (repeat (1 / 2) K) (firstn k (fst d)) zs z = length xs).
  { intros d k I. unfold bin_count. rewrite (filter_ext_in _ (fun _ => true)) by (intros z' I'; destruct (list_eq_dec Z.eq_dec _ _) as [|Q]; [reflexivity|destruct Q; apply SB; auto]).
    rewrite <- LL. clear. induction zs as [|a l IH]; cbn; auto. }
  assert (MN : forall m, In m mins -> m = 1 + log2 (1 + INR (length xs))).
  { clear - A5 CN FD. induction A5 as [|d m' draws mins M A5 IH]; intros m []; subst.
    - destruct M as [M1 M2]. unfold depth_values in M1, M2. inversion FD as [|? ? [N _] _]; subst. apply Rle_antisym.
      + apply M2. apply in_map_iff. exists 1%nat. split; [rewrite CN by (left; auto); cbn; ring|]. apply in_seq. destruct (fst d); [congruence|]. cbn; lia.
      + apply in_map_iff in M1. destruct M1 as (k & <- & Ik). apply in_seq in Ik. rewrite CN by (left; auto). assert (1 <= INR k) by (change 1 with (INR 1); apply le_INR; lia). lra.
    - apply IH; auto; [inversion FD; auto|]. intros d' k I. apply CN. right. auto. }
  assert (NE : mins <> []) by (intros ->; inversion A5; congruence).
  replace (map Ropp mins) with (repeat (- (1 + log2 (1 + INR (length xs)))) (length mins)).
  - apply mean_same. destruct mins; [congruence|cbn; lia].
  - clear - MN. induction mins as [|m l IH]; cbn [length repeat map]; auto. f_equal; [rewrite (MN m (or_introl eq_refl)); reflexivity|]. apply IH. intros m' I. apply MN. right. auto.
Qed.
Print Assumptions C136_xstream_far_values_are_familiar.
(** After one instance of 10^12, one of -10^13 scores -2, the score of the 10^12 itself; with exact cell numbers it scores -1, as every unseen
    instance does. *)
Example C136_xstream_case : exists p, let m32 := XStream (fun _ _ => 0%Z) p (floor32 (- 2 ^ 31) Int_part) 1 25 : Model (list R) R R in let m := XStream (fun _ _ => 0%Z) p Int_part 1 25 : Model (list R) R R in
  let h := [CFit [1000000000000] None] in let s0 := xstream_new 1 [([0; 0]%nat, [1 / 2])] in Streamhash_init 1 1 1 = Ok p /\ chain_draws 1 [([0; 0]%nat, [1 / 2])] /\ fractions [([0; 0]%nat, [1 / 2])] /\
  eval (md_score m32 [- 10000000000000]) (model_run m32 s0 h) = Ok (VArray [-2]) /\ eval (md_score m32 [1000000000000]) (model_run m32 s0 h) = Ok (VArray [-2]) /\
  eval (md_score m [- 10000000000000]) (model_run m s0 h) = Ok (VArray [-1]) /\ near_bins 2 [1 / 2] [1000].
Proof.
  destruct C77_ex as (p & Ep & _). exists p. assert (HD : chain_draws 1 [([0; 0]%nat, [1 / 2])]) by (split; [discriminate|]; repeat constructor; cbn; try discriminate; repeat constructor).
  assert (FR : fractions [([0; 0]%nat, [1 / 2])]) by (repeat constructor; cbn; lra).
  assert (Pj : forall a, projects (fun _ _ => 0%Z) p [a] [- a]).
  { intros a. pose proof (projects_value (fun _ _ => 0%Z) 1 1 p [a] ltac:(lia) Ep) as Hp. replace [- a] with (map (fun k => weighted (sh_weight (fun _ _ => 0%Z) 1 (sqrt (1 / 1) / sqrt 1)) k [a]) (seq 0 (Z.to_nat 1))); auto.
    change (Z.to_nat 1) with 1%nat. cbn [seq map]. f_equal. unfold weighted. cbn [length seq map nth]. rewrite Rsum_cons, Rsum_nil. unfold sh_weight. replace (1 / 1) with 1 by lra. rewrite sqrt_1. destruct (Rle_dec _ _) as [|N]; [lra|]. exfalso. apply N. unfold Rdiv. rewrite Rmult_0_l. lra. }
  assert (L2 : - (1 + log2 (1 + INR 1)) = -2). { unfold log2. cbn [INR]. replace (1 + 1) with 2 by ring. assert (0 < ln 2) by (rewrite <- ln_1; apply ln_increasing; lra). field_simplify; [lra|lra]. }
  assert (T : 2 ^ 30 = 1073741824) by (cbn [pow]; lra).
  cbv zeta. split; auto. split; auto. split; auto.
  assert (Q : forall b, 2 ^ 30 + 1 <= Rabs b -> eval (md_score (XStream (fun _ _ => 0%Z) p (floor32 (- 2 ^ 31) Int_part) 1 25 : Model (list R) R R) [b]) (model_run (XStream (fun _ _ => 0%Z) p (floor32 (- 2 ^ 31) Int_part) 1 25 : Model (list R) R R) (xstream_new 1 [([0; 0]%nat, [1 / 2])]) [CFit [1000000000000] None]) = Ok (VArray [-2])).
  { intros b Hb. rewrite <- L2. apply (C136_xstream_far_values_are_familiar R (fun _ _ => 0%Z) 1 1 p Int_part (- 2 ^ 31) 25 [([0; 0]%nat, [1 / 2])] [CFit [1000000000000] None] [b] [[- 1000000000000]] [- b]); auto; try lia; try apply Int_part_floor; try (cbn; lia).
    - constructor; [apply Pj|constructor].
    - intros f Hf. right. assert (f = 0)%nat as -> by (cbn in Hf; lia). intros z' [<-|[<-|[]]]; cbn [nth]; [rewrite Rabs_Ropp; auto|]. rewrite T, Rabs_left; lra. }
  split; [apply Q; rewrite T, Rabs_left; lra|]. split; [apply Q; rewrite T, Rabs_right; lra|]. split.
  - destruct (C75_score R (fun _ _ => 0%Z) 1 1 p Int_part 25 [([0; 0]%nat, [1 / 2])] [CFit [1000000000000] None] [- 10000000000000] ltac:(lia) Ep ltac:(lia) HD) as (zs & z & dref & delta & mins & A1 & A2 & A3 & A4 & A5 & A6 & _).
    unfold eval. change (Z.to_nat 1) with 1%nat in A6. rewrite A6. cbn [fst]. do 3 f_equal. change (fitted_instances (Y := R) [CFit [1000000000000] None]) with [[1000000000000]] in *.  cbn in A3, A4. subst dref delta. change (repeat (1 / 2) (Z.to_nat 1)) with [1 / 2] in A5.
    assert (z = [- - 10000000000000]) as -> by (eapply projects_unique; [exact A2|apply Pj]). inversion A1 as [|? z1 ? ? P1 P2]; subst. inversion P2; subst. assert (z1 = [- 1000000000000]) as -> by (eapply projects_unique; [exact P1|apply Pj]). inversion A5 as [|? m1 ? ? M1 M2]; subst. inversion M2; subst.
    assert (m1 = 1).
    { change (repeat (1 / 2) (Pos.to_nat 1)) with [1 / 2] in M1. destruct (Nat.ltb_spec (length [[1000000000000]]) 25) as [_|Q']; [|cbn in Q'; lia]. cbn [fst snd] in M1. destruct M1 as [I1 B1]. apply Rle_antisym.
      - apply B1. unfold depth_values. apply in_map_iff. exists 1%nat. split; [|apply in_seq; cbn; lia]. replace (bin_count _ _ _ _ _ _ _) with 0%nat; [unfold log2; cbn [INR]; rewrite Rplus_0_r, ln_1; field; apply Rgt_not_eq; rewrite <- ln_1; apply ln_increasing; lra|].
        unfold bin_count. cbn [filter]. destruct (list_eq_dec Z.eq_dec _ _) as [E|]; [|reflexivity]. exfalso. unfold bin in E. cbn in E. injection E as E.
        match type of E with Int_part ?a = Int_part ?b => pose proof (Int_part_floor a); pose proof (Int_part_floor b) end. rewrite E in *. lra.
      - unfold depth_values in I1. apply in_map_iff in I1. destruct I1 as (k & <- & Ik). apply in_seq in Ik. assert (1 <= INR k) by (change 1 with (INR 1); apply le_INR; lia).
        match goal with |- 1 <= log2 (1 + INR ?n) + _ => assert (0 <= log2 (1 + INR n)) end; [|lra]. unfold log2. apply Rmult_le_pos; [|left; apply Rinv_0_lt_compat; rewrite <- ln_1; apply ln_increasing; lra].
        rewrite <- ln_1. apply ln_le; [lra|]. match goal with |- _ <= 1 + INR ?n => pose proof (pos_INR n) end. lra. }
    subst m1. unfold mean, Rlen. cbn. field.
  - intros f Hf. assert (f = 0)%nat as -> by (cbn in Hf; lia). cbn [nth Nat.sub pow]. rewrite Rabs_right; lra.
Qed.
