(** * C74: RSHash (pysad/models/rs_hash.py) over the real numbers. *)
From Coq Require Import List Bool ZArith Reals Lra Lia Permutation.
From Verif Require Import Base Num Spec Model_Stats P_Lists P_Stats Model_Utils P_Utils Model_Core Model_Simple P_Models Model_Sketch.
Import ListNotations.
Local Open Scope R_scope.
Local Open Scope m_scope.

(** ** Specification *)
(** The grid cell of x in a component: for each selected feature, the number of the interval of width f it falls in. *)
Definition cell_of (floor : R -> Z) (c : rscomp R) (x : list R) : list Z :=
  map (fun p => floor ((nth (fst p) x 0 + snd p) / rs_f c)) (combine (rs_V c) (rs_alpha c)).
Definition same_cell (floor : R -> Z) (c : rscomp R) (x x' : list R) : bool :=
  if list_eq_dec Z.eq_dec (cell_of floor c x) (cell_of floor c x') then true else false.
(** Decayed number of the earlier instances [past] (oldest first) in the cell of x: the one seen k steps ago counts 2^(-decay k). *)
Definition decayed_count (floor : R -> Z) (decay : R) (c : rscomp R) (past : list (list R)) (x : list R) : R :=
  Rsum (map (fun j => if same_cell floor c (nth j past []) x then Rpower 2 (- decay * INR (length past - j)) else 0) (seq 0 (length past))).
(** The selected features exist in the instance; the constructor draws as many shifts as features. *)
Definition fits_components (comps : list (rscomp R)) (x : list R) : Prop :=
  Forall (fun c => length (rs_V c) = length (rs_alpha c) /\ Forall (fun v => (v < length x)%nat) (rs_V c)) comps.

(** ** Proofs *)
Lemma Rsum_cons : forall a l, Rsum (a :: l) = a + Rsum l. Proof. reflexivity. Qed.
Lemma Reqb_spec : forall a b, reflect (a = b) (Reqb a b). Proof. intros a b. unfold Reqb. destruct (Req_EM_T a b); constructor; auto. Qed.
Lemma ln_le : forall a b, 0 < a -> a <= b -> ln a <= ln b. Proof. intros a b Ha [H|H]; [left; apply ln_increasing; auto|subst; lra]. Qed.
Lemma Rsum_nil : Rsum [] = 0. Proof. reflexivity. Qed.

Lemma keyeqb_spec : forall a b, reflect (a = b) (keyeqb a b).
Proof. intros a b. unfold keyeqb. destruct (list_eq_dec Z.eq_dec a b); constructor; auto. Qed.
Lemma dict_get_set : forall B k k' (b : B) d, dict_get k (dict_set k' b d) = if keyeqb k' k then Some b else dict_get k d.
Proof.
  intros B k k' b d. induction d as [|[k0 b0] d IH]; cbn.
  - reflexivity.
  - destruct (keyeqb_spec k0 k').
    + subst k0. cbn. destruct (keyeqb_spec k' k); reflexivity.
    + cbn. destruct (keyeqb_spec k0 k).
      * subst k0. destruct (keyeqb_spec k' k); [congruence|reflexivity].
      * apply IH.
Qed.
Section RS.
Variables (Y : Type) (floor : R -> Z) (decay : R) (comps : list (rscomp R)).
Notation pow2 := (Rpower 2).
(** Weight of a key at time index. *)
Definition dec (i : Z) (sk : list (list Z * (Z * R))) (key : list Z) : R :=
  match dict_get key sk with Some v => snd v * pow2 (- decay * IZR (i - fst v)) | None => 0 end.
Lemma pow2_0 : forall a, a = 0 -> pow2 a = 1.
Proof. intros a ->. apply Rpower_O. lra. Qed.
Lemma touch_dec : forall i key sk, fst (rs_touch pow2 decay i key sk) = dec i sk key /\
  (forall k, dec i (snd (rs_touch pow2 decay i key sk)) k = dec i sk k + (if keyeqb key k then 1 else 0)).
Proof.
  intros i key sk. assert (E : fst (rs_touch pow2 decay i key sk) = dec i sk key).
  { unfold rs_touch, dec. cbn [fst]. destruct (dict_get key sk) as [[ts w]|]; cbn [fst snd]; cbn; lra. }
  split; auto. intros k. unfold rs_touch in *. cbn [fst snd] in *. unfold dec at 1. rewrite dict_get_set. destruct (keyeqb_spec key k).
  - subst k. cbn [fst snd]. rewrite E. rewrite pow2_0 by (rewrite Z.sub_diag; cbn; lra). cbn. lra.
  - unfold dec. destruct (dict_get k sk); lra.
Qed.
Lemma dec_age : forall i sk k, dec (i + 1) sk k = dec i sk k * pow2 (- decay).
Proof.
  intros i sk k. unfold dec. destruct (dict_get k sk) as [[ts w]|]; [|lra]. cbn [fst snd].
  replace (- decay * IZR (i + 1 - ts)) with (- decay * IZR (i - ts) + - decay) by (rewrite !minus_IZR, plus_IZR; lra). rewrite Rpower_plus. lra.
Qed.
(** All sketches give every key the same weight w. *)
Definition weights (s : rsst R) (w : list Z -> R) : Prop := rs_sketches s <> [] /\ forall sk k, In sk (rs_sketches s) -> dec (rs_index s) sk k = w k.
Definition key_of (r : nat) (c : rscomp R) (x : list R) : list Z := Z.of_nat r :: cell_of floor c x.
Lemma py_index_nth : forall (x : list R) v, (v < length x)%nat -> py_index x v = Ok (nth v x 0).
Proof. intros x v H. unfold py_index. rewrite (nth_error_nth' x 0 H). reflexivity. Qed.
Lemma rs_cell_ok : forall r c x, length (rs_V c) = length (rs_alpha c) -> Forall (fun v => (v < length x)%nat) (rs_V c) -> rs_cell floor r c x = Ok (key_of r c x).
Proof.
  intros r c x _ H. unfold rs_cell, key_of, cell_of. assert (E : res_map (py_index x) (rs_V c) = Ok (map (fun v => nth v x 0) (rs_V c))).
  { induction H as [|v l Hv H IH]; cbn; auto. rewrite py_index_nth by auto. cbn. rewrite IH. reflexivity. }
  rewrite E. cbn [rmap]. do 2 f_equal. clear E H. generalize (rs_alpha c). induction (rs_V c) as [|v l IH]; intros [|a al]; cbn; auto. f_equal. apply IH.
Qed.
Lemma fold_min_same : forall l (a : R), (forall b, In b l -> b = a) -> fold_left omin l a = a.
Proof.
  induction l as [|b l IH]; intros a H; cbn; auto. rewrite (H b) by (left; auto). replace (omin a a) with a. - apply IH. intros; apply H; right; auto. - unfold omin. destruct (oltb a a); reflexivity.
Qed.
Lemma component_step : forall r c x s w, length (rs_V c) = length (rs_alpha c) -> Forall (fun v => (v < length x)%nat) (rs_V c) -> weights s w ->
  exists s', rs_component pow2 ln floor decay x (r, c) s = (Ok (ln (1 + w (key_of r c x))), s') /\ rs_index s' = rs_index s /\ rs_last s' = rs_last s /\ length (rs_sketches s') = length (rs_sketches s) /\
    weights s' (fun k => w k + if keyeqb (key_of r c x) k then 1 else 0).
Proof.
  intros r c x s w HL HV [NE Hw]. unfold rs_component. cbn [fst snd]. unfold bind, lift, gets, modify. rewrite (rs_cell_ok r c x HL HV). set (key := key_of r c x).
  set (touched := map (rs_touch pow2 decay (rs_index s) key) (rs_sketches s)).
  assert (HT : forall a, In a (map fst touched) -> a = w key).
  { intros a Ha. unfold touched in Ha. rewrite map_map in Ha. apply in_map_iff in Ha. destruct Ha as (sk & <- & Hs). rewrite (proj1 (touch_dec _ _ _)). apply Hw. auto. }
  destruct (map fst touched) as [|a l] eqn:Et.
  { exfalso. apply NE. unfold touched in Et. destruct (rs_sketches s); [auto|discriminate]. }
  rewrite fold_min_same. 2:{ intros b Hb. rewrite (HT b) by (right; auto). symmetry. apply HT. left; auto. }
  rewrite (HT a) by (left; auto). eexists. split; [reflexivity|]. cbn [rs_index rs_last rs_sketches]. split; [reflexivity|]. split; [reflexivity|]. split; [unfold touched; rewrite !map_length; reflexivity|]. split.
  - cbn [rs_sketches]. unfold touched. destruct (rs_sketches s); [congruence|discriminate].
  - cbn [rs_sketches rs_index]. intros sk k Hs. unfold touched in Hs. rewrite map_map in Hs. apply in_map_iff in Hs. destruct Hs as (sk0 & <- & Hs). rewrite (proj2 (touch_dec _ _ _)). rewrite Hw; auto.
Qed.
(** Number of components whose cell of x has a given key. *)
Definition touches (x : list R) (rcs : list (nat * rscomp R)) (k : list Z) : R :=
  Rsum (map (fun rc => if keyeqb (key_of (fst rc) (snd rc) x) k then 1 else 0) rcs).
Lemma weights_ext : forall s w w', (forall k, w k = w' k) -> weights s w -> weights s w'.
Proof. intros s w w' E [N H]. split; auto. intros. rewrite <- E. auto. Qed.
Lemma components_step : forall x l st s w, fits_components l x -> weights s w ->
  exists s', mapM (rs_component pow2 ln floor decay x) (combine (seq st (length l)) l) s
    = (Ok (map (fun rc => ln (1 + w (key_of (fst rc) (snd rc) x))) (combine (seq st (length l)) l)), s') /\ rs_index s' = rs_index s /\ length (rs_sketches s') = length (rs_sketches s) /\
    weights s' (fun k => w k + touches x (combine (seq st (length l)) l) k).
Proof.
  intros x l. induction l as [|c l IH]; intros st s w HF Hw; cbn [length seq combine mapM map].
  - exists s. split; [reflexivity|]. split; [reflexivity|]. split; [reflexivity|]. eapply weights_ext; [|exact Hw]. intros k. unfold touches. cbn. lra.
  - inversion HF as [|? ? [Hc Hc'] HF']; subst. destruct (component_step st c x s w Hc Hc' Hw) as (s1 & E1 & I1 & _ & L1 & W1). unfold bind at 1. rewrite E1.
    destruct (IH (S st) s1 _ HF' W1) as (s2 & E2 & I2 & L2 & W2). unfold bind at 1. rewrite E2. exists s2. split; [|split; [congruence|split; [congruence|]]].
    + unfold ret. f_equal. f_equal. cbn [fst snd]. f_equal. apply map_ext_in. intros [r c'] I. cbn [fst snd]. apply in_combine_l in I. apply in_seq in I. destruct (keyeqb_spec (key_of st c x) (key_of r c' x)) as [Q|Q]; [unfold key_of in Q; injection Q as Q _; lia|]. f_equal. lra.
    + eapply weights_ext; [|exact W2]. intros k. unfold touches. cbn [map fst snd]; rewrite ?Rsum_cons, ?Rsum_nil. lra.
Qed.
Definition numbered : list (nat * rscomp R) := combine (seq 0 (length comps)) comps.
(** Weight of a key after the instances xs, at the time of the next instance. *)
Definition kweight (xs : list (list R)) (k : list Z) : R :=
  Rsum (map (fun j => touches (nth j xs []) numbered k * pow2 (- decay * INR (length xs - j))) (seq 0 (length xs))).
Lemma kweight_snoc : forall xs x k, kweight (xs ++ [x]) k = (kweight xs k + touches x numbered k) * pow2 (- decay).
Proof.
  intros xs x k. unfold kweight. rewrite app_length. cbn [length]. rewrite seq_app, map_app, Rsum_app. cbn [seq map Nat.add]; rewrite ?Rsum_cons, ?Rsum_nil. rewrite app_nth2 by lia. replace (length xs - length xs)%nat with 0%nat by lia. cbn [nth].
  replace (length xs + 1 - length xs)%nat with 1%nat by lia. cbn [INR]. rewrite Rmult_1_r.
  assert (E : Rsum (map (fun j => touches (nth j (xs ++ [x]) []) numbered k * pow2 (- decay * INR (length xs + 1 - j))) (seq 0 (length xs))) = Rsum (map (fun j => touches (nth j xs []) numbered k * pow2 (- decay * INR (length xs - j))) (seq 0 (length xs))) * pow2 (- decay)).
  { assert (G : forall l, (forall j, In j l -> (j < length xs)%nat) -> Rsum (map (fun j => touches (nth j (xs ++ [x]) []) numbered k * pow2 (- decay * INR (length xs + 1 - j))) l) = Rsum (map (fun j => touches (nth j xs []) numbered k * pow2 (- decay * INR (length xs - j))) l) * pow2 (- decay)).
    { induction l as [|j l IH]; intros HL; cbn [map]; rewrite ?Rsum_cons, ?Rsum_nil; [lra|]. rewrite IH by (intros; apply HL; right; auto). pose proof (HL j (or_introl eq_refl)). rewrite app_nth1 by auto. replace (length xs + 1 - j)%nat with (S (length xs - j)) by lia. rewrite S_INR.
      replace (- decay * (INR (length xs - j) + 1)) with (- decay * INR (length xs - j) + - decay) by lra. rewrite Rpower_plus. lra. }
    apply G. intros j Hj. apply in_seq in Hj. lia. }
  rewrite E. lra.
Qed.
Definition scores_of (past : list (list R)) (x : list R) : R := mean (map (fun c => ln (1 + decayed_count floor decay c past x)) comps).
Lemma key_of_eq : forall r c x r' c' x', key_of r c x = key_of r' c' x' <-> r = r' /\ cell_of floor c x = cell_of floor c' x'.
Proof. intros. unfold key_of. split; [intros H; injection H as H1 H2; split; auto; lia|intros [-> ->]; auto]. Qed.
Lemma touches_own : forall x x' l st r c, In (r, c) (combine (seq st (length l)) l) -> touches x (combine (seq st (length l)) l) (key_of r c x') = if same_cell floor c x x' then 1 else 0.
Proof.
  intros x x' l. unfold touches. induction l as [|c0 l IH]; intros st r c H; cbn [length seq combine map fst snd] in *; rewrite ?Rsum_cons, ?Rsum_nil in *; [contradiction|].
  destruct H as [Q|H].
  - injection Q as <- <-. assert (Z0 : Rsum (map (fun rc => if keyeqb (key_of (fst rc) (snd rc) x) (key_of st c0 x') then 1 else 0) (combine (seq (S st) (length l)) l)) = 0).
    { assert (G : forall l', (forall rc, In rc l' -> (st < fst rc)%nat) -> Rsum (map (fun rc => if keyeqb (key_of (fst rc) (snd rc) x) (key_of st c0 x') then 1 else 0) l') = 0).
      { induction l' as [|rc l' IH']; intros HL; cbn [map]; rewrite ?Rsum_cons, ?Rsum_nil; auto. rewrite IH' by (intros; apply HL; right; auto). pose proof (HL rc (or_introl eq_refl)). destruct (keyeqb_spec (key_of (fst rc) (snd rc) x) (key_of st c0 x')) as [Q|Q]; [apply key_of_eq in Q; lia|lra]. }
      apply G. intros [r' c'] I. apply in_combine_l in I. apply in_seq in I. cbn. lia. }
    rewrite Z0. unfold same_cell. destruct (keyeqb_spec (key_of st c0 x) (key_of st c0 x')) as [Q|Q]; rewrite key_of_eq in Q; destruct (list_eq_dec _ _ _); try lra; tauto.
  - rewrite (IH (S st) r c H). apply in_combine_l in H. apply in_seq in H. destruct (keyeqb_spec (key_of st c0 x) (key_of r c x')) as [Q|Q]; [apply key_of_eq in Q; lia|lra].
Qed.
Lemma kweight_count : forall xs x r c, In (r, c) numbered -> kweight xs (key_of r c x) = decayed_count floor decay c xs x.
Proof.
  intros xs x r c H. unfold kweight, decayed_count. f_equal. apply map_ext. intros j. unfold numbered in *. rewrite (touches_own _ _ _ _ _ _ H). destruct (same_cell _ _ _ _); lra.
Qed.
Lemma map_numbered : forall B (g : rscomp R -> B) (l : list (rscomp R)) st, map (fun rc : nat * rscomp R => g (snd rc)) (combine (seq st (length l)) l) = map g l.
Proof. intros B g l. induction l as [|c l IH]; intros st; cbn; auto. f_equal. apply IH. Qed.
(** What the state says after the instances xs. *)
Definition rs_inv (sp : Z) (w : nat) (xs : list (list R)) (s : rsst R) : Prop :=
  Forall (fits_components comps) xs ->
  rs_index s = (1 - sp + Z.of_nat (length xs))%Z /\ length (rs_sketches s) = w /\ weights s (kweight xs) /\
  rs_last s = match rev xs with [] => None | x :: _ => Some (scores_of (removelast xs) x) end.
Hypothesis HC : comps <> [].
Lemma rs_fit_step : forall sp w xs x y s, rs_inv sp w xs s -> rs_inv sp w (xs ++ [x]) (exec (md_fit (RSHash (Y := Y) pow2 ln floor decay comps) x y) s) /\
  (Forall (fits_components comps) (xs ++ [x]) -> eval (md_fit (RSHash (Y := Y) pow2 ln floor decay comps) x y) s = Ok tt).
Proof.
  intros sp w xs x y s H. assert (G : Forall (fits_components comps) (xs ++ [x]) -> exists s', md_fit (RSHash (Y := Y) pow2 ln floor decay comps) x y s = (Ok tt, s') /\
     rs_index s' = (1 - sp + Z.of_nat (length (xs ++ [x])))%Z /\ length (rs_sketches s') = w /\ weights s' (kweight (xs ++ [x])) /\
  rs_last s' = match rev (xs ++ [x]) with [] => None | x' :: _ => Some (scores_of (removelast (xs ++ [x])) x') end).
  { intros F. apply Forall_app in F. destruct F as [F Fx]. inversion Fx as [|? ? Fx' _]; subst. destruct (H F) as (I & L & W & _).
    destruct (components_step x comps 0 s (kweight xs) Fx' W) as (s1 & E1 & I1 & L1 & W1). fold numbered in *.
    cbn [md_fit RSHash plain_model]. unfold bind at 1. fold numbered. rewrite E1. unfold bind, lift, pydiv. cbn [oeqb n0 nofZ NumR OrdR].
    destruct (Reqb_spec (IZR (Z.of_nat (length comps))) 0) as [Q|Q].
    { exfalso. apply HC. destruct comps; auto. rewrite <- INR_IZR_INZ in Q. cbn [length] in Q. rewrite S_INR in Q. pose proof (pos_INR (length l)). lra. }
    change (@oeqb R OrdR) with Reqb. assert (Q' : Reqb (IZR (Z.of_nat (length comps))) 0 = false) by (apply Reqb_neq; auto). change (@oeqb R _) with Reqb. rewrite Q'.
    unfold modify. eexists. split; [reflexivity|]. cbn [rs_index rs_sketches rs_last]. split; [rewrite app_length; cbn [length]; lia|]. split; [congruence|]. split.
    - destruct W1 as [N1 W1]. split; [auto|]. cbn [rs_sketches rs_index]. intros sk k Hs. rewrite dec_age, W1, kweight_snoc by auto. reflexivity.
    - rewrite rev_app_distr. cbn [rev app]. rewrite removelast_last. f_equal. unfold scores_of, mean, Rlen. rewrite nsum_Rsum, map_length. cbn [ndiv NumR]. rewrite INR_IZR_INZ. f_equal. f_equal.
      transitivity (map (fun rc : nat * rscomp R => ln (1 + decayed_count floor decay (snd rc) xs x)) numbered).
      + apply map_ext_in. intros [r c] Hr. cbn [fst snd]. rewrite kweight_count; auto.
      + unfold numbered. apply (map_numbered _ (fun c => ln (1 + decayed_count floor decay c xs x))). }
  split.
  - intros F. destruct (G F) as (s' & E & HR). unfold exec. rewrite E. cbn [snd]. exact HR.
  - intros F. destruct (G F) as (s' & E & HR). unfold eval. rewrite E. reflexivity.
Qed.
Lemma rs_run : forall sp w (h : list (mcall (list R) Y)), (1 <= w)%nat -> rs_inv sp w (fitted_instances h) (model_run (RSHash pow2 ln floor decay comps) (RSHash_init sp w) h).
Proof.
  intros sp w h Hw. refine (plain_run_all _ _ _ _ _ _ (rs_inv sp w) _ _ h _ _).
  - intros xs s x y H. apply (rs_fit_step sp w xs x y s H).
  - intros xs s x H. exact H.
  - intros _. cbn. split; [lia|]. split; [apply repeat_length|]. split; [|reflexivity]. split.
    + cbn. destruct w; [lia|discriminate].
    + cbn. intros sk k Hs. apply repeat_spec in Hs. subst sk. reflexivity.
Qed.
End RS.

(** After every history, score_partial returns None if nothing was fitted, and otherwise the mean over the components of
    ln (1 + decayed number of the earlier instances in the cell of the last fitted instance); its argument and the calls of
    score_partial play no role, nor does the number of hash functions or sampling_points. *)
Theorem C74_score : forall Y floor decay comps sp w (h : list (mcall (list R) Y)) z, comps <> [] -> (1 <= w)%nat -> Forall (fits_components comps) (fitted_instances h) ->
  let m := RSHash (Rpower 2) ln floor decay comps in let s := model_run m (RSHash_init sp w) h in
  (fitted_instances h = [] -> md_score m z s = (Ok VNone, s)) /\
  (forall past x, fitted_instances h = past ++ [x] -> md_score m z s = (Ok (VScalar (mean (map (fun c => ln (1 + decayed_count floor decay c past x)) comps))), s)) /\
  (forall x y, fits_components comps x -> eval (md_fit m x y) s = Ok tt).
Proof.
  intros Y floor decay comps sp w h z HC Hw F. cbv zeta. pose proof (rs_run Y floor decay comps HC sp w h Hw) as H. set (s := model_run _ _ h) in *. clearbody s.
  pose proof (H F) as (_ & _ & _ & L). split; [|split].
  - intros E. rewrite E in L. cbn in L. cbn. unfold bind, gets, ret. rewrite L. reflexivity.
  - intros past x E. rewrite E, rev_app_distr in L. cbn [rev app] in L. rewrite removelast_last in L. cbn. unfold bind, gets, ret. rewrite L. reflexivity.
  - intros x y Fx. apply (rs_fit_step Y floor decay comps HC sp w _ x y s H). apply Forall_app. split; auto.
Qed.
Print Assumptions C74_score.
Lemma decayed_count_bounds : forall floor decay c past x, 0 <= decay -> 0 <= decayed_count floor decay c past x <= INR (length past).
Proof.
  intros floor decay c past x Hd. unfold decayed_count.
  assert (G : forall l, 0 <= Rsum (map (fun j => if same_cell floor c (nth j past []) x then Rpower 2 (- decay * INR (length past - j)) else 0) l) <= INR (length l)).
  { induction l as [|j l IH]; cbn [map length]; rewrite ?Rsum_cons, ?Rsum_nil; [cbn; lra|]. rewrite S_INR. assert (0 <= (if same_cell floor c (nth j past []) x then Rpower 2 (- decay * INR (length past - j)) else 0) <= 1); [|lra].
    destruct (same_cell _ _ _ _); [|lra]. split; [left; apply exp_pos|]. rewrite <- (Rpower_O 2) by lra. apply Rle_Rpower; [lra|]. pose proof (pos_INR (length past - j)). pose proof (Rmult_le_pos _ _ Hd H). lra. }
  specialize (G (seq 0 (length past))). rewrite seq_length in G. exact G.
Qed.
(** With decay >= 0 every score lies between 0 and ln n, n being the number of fitted instances. *)
Theorem C74_score_range : forall Y floor decay comps sp w (h : list (mcall (list R) Y)) z v, comps <> [] -> (1 <= w)%nat -> Forall (fits_components comps) (fitted_instances h) -> 0 <= decay ->
  let m := RSHash (Rpower 2) ln floor decay comps in
  eval (md_score m z) (model_run m (RSHash_init sp w) h) = Ok (VScalar v) -> 0 <= v <= ln (INR (length (fitted_instances h))).
Proof.
  intros Y floor decay comps sp w h z v HC Hw F Hd. cbv zeta. destruct (C74_score Y floor decay comps sp w h z HC Hw F) as (E0 & E1 & _). cbv zeta in E0, E1. unfold eval.
  destruct (fitted_instances h) as [|x0 l] eqn:Eh.
  - rewrite E0 by auto. discriminate.
  - destruct (exists_last (l := x0 :: l)) as (past & x & Ex); [congruence|]. rewrite (E1 past x Ex). cbn [fst]. intros Q. injection Q as <-. rewrite Ex, app_length. cbn [length]. rewrite plus_INR. cbn [INR].
    unfold mean, Rlen. rewrite map_length.
    assert (G : forall l, 0 <= Rsum (map (fun c => ln (1 + decayed_count floor decay c past x)) l) <= INR (length l) * ln (INR (length past) + 1)).
    { induction l0 as [|c l0 IH]; cbn [map length]; rewrite ?Rsum_cons, ?Rsum_nil; [cbn; lra|]. rewrite S_INR. destruct (decayed_count_bounds floor decay c past x Hd) as [B1 B2].
      assert (0 <= ln (1 + decayed_count floor decay c past x)) by (rewrite <- ln_1; apply ln_le; lra).
      assert (ln (1 + decayed_count floor decay c past x) <= ln (INR (length past) + 1)) by (apply ln_le; lra). lra. }
    specialize (G comps). assert (0 < INR (length comps)) by (apply lt_0_INR; destruct comps; [congruence|cbn; lia]).
    split.
    + apply Rmult_le_pos; [lra|]. left. apply Rinv_0_lt_compat. auto.
    + apply Rmult_le_reg_r with (INR (length comps)); auto. unfold Rdiv. rewrite Rmult_assoc, Rinv_l by lra. lra.
Qed.
Print Assumptions C74_score_range.
(** An instance in cells never visited before always gets the lowest possible score 0, and one whose cell was visited
    before in some component gets a positive one: the score is larger for more frequent instances. *)
Theorem C74_new_instance_scores_higher_refuted : forall Y floor decay comps sp w (h : list (mcall (list R) Y)) past x z, comps <> [] -> (1 <= w)%nat -> Forall (fits_components comps) (fitted_instances h) ->
  fitted_instances h = past ++ [x] ->
  let m := RSHash (Rpower 2) ln floor decay comps in
  exists v, eval (md_score m z) (model_run m (RSHash_init sp w) h) = Ok (VScalar v) /\
  ((forall c p, In c comps -> In p past -> cell_of floor c p <> cell_of floor c x) -> v = 0) /\
  ((exists c p, In c comps /\ In p past /\ cell_of floor c p = cell_of floor c x) -> 0 < v).
Proof.
  intros Y floor decay comps sp w h past x z HC Hw F Ex. cbv zeta. destruct (C74_score Y floor decay comps sp w h z HC Hw F) as (_ & E1 & _). cbv zeta in E1. eexists. unfold eval. rewrite (E1 past x Ex). cbn [fst]. split; [reflexivity|].
  assert (NN : forall c, 0 <= decayed_count floor decay c past x).
  { intros c. unfold decayed_count. generalize (seq 0 (length past)). induction l as [|j l IH]; cbn [map]; rewrite ?Rsum_cons, ?Rsum_nil; [lra|]. destruct (same_cell _ _ _ _); [|lra]. pose proof (exp_pos (- decay * INR (length past - j) * ln 2)). unfold Rpower in *. lra. }
  assert (NL : forall c, 0 <= ln (1 + decayed_count floor decay c past x)) by (intros c; rewrite <- ln_1; apply ln_le; [lra|]; specialize (NN c); lra).
  split.
  - intros H. unfold mean, Rlen. rewrite map_length. assert (Z0 : forall l, incl l comps -> Rsum (map (fun c => ln (1 + decayed_count floor decay c past x)) l) = 0).
    { induction l as [|c l IH]; intros HI; cbn [map]; rewrite ?Rsum_cons, ?Rsum_nil; auto. rewrite IH by (intros a Ha; apply HI; right; auto).
      assert (D0 : decayed_count floor decay c past x = 0).
      { unfold decayed_count. assert (G : forall l', (forall j, In j l' -> (j < length past)%nat) -> Rsum (map (fun j => if same_cell floor c (nth j past []) x then Rpower 2 (- decay * INR (length past - j)) else 0) l') = 0).
        { induction l' as [|j l' IH']; intros HL; cbn [map]; rewrite ?Rsum_cons, ?Rsum_nil; auto. rewrite IH' by (intros; apply HL; right; auto). unfold same_cell. destruct (list_eq_dec _ _ _) as [Q|Q]; [|lra]. exfalso. apply (H c (nth j past [])); auto; [apply HI; left; auto|]. apply nth_In. apply HL. left; auto. }
        apply G. intros j Hj. apply in_seq in Hj. lia. }
      rewrite D0. replace (1 + 0) with 1 by lra. rewrite ln_1. lra. }
    rewrite Z0 by apply incl_refl. unfold Rdiv. lra.
  - intros (c & p & Ic & Ip & Q). unfold mean, Rlen. rewrite map_length. apply Rmult_lt_0_compat.
    + assert (G : forall l, In c l -> 0 < Rsum (map (fun c => ln (1 + decayed_count floor decay c past x)) l)).
      { induction l as [|c' l IH]; [intros []|intros [<-|I]]; cbn [map]; rewrite ?Rsum_cons, ?Rsum_nil.
        - assert (0 <= Rsum (map (fun c => ln (1 + decayed_count floor decay c past x)) l)). { clear - NL. induction l as [|a l IH]; cbn [map]; rewrite ?Rsum_cons, ?Rsum_nil; [lra|]. specialize (NL a). lra. }
          assert (0 < ln (1 + decayed_count floor decay c' past x)); [|lra]. rewrite <- ln_1. apply ln_increasing; [lra|]. assert (0 < decayed_count floor decay c' past x); [|lra].
          destruct (In_nth _ _ [] Ip) as (j & Hj & Ej). unfold decayed_count. assert (G : forall l', In j l' -> 0 < Rsum (map (fun j => if same_cell floor c' (nth j past []) x then Rpower 2 (- decay * INR (length past - j)) else 0) l')).
          { assert (N' : forall l', 0 <= Rsum (map (fun j => if same_cell floor c' (nth j past []) x then Rpower 2 (- decay * INR (length past - j)) else 0) l')).
            { induction l' as [|i l' IH']; cbn [map]; rewrite ?Rsum_cons, ?Rsum_nil; [lra|]. destruct (same_cell _ _ _ _); [|lra]. pose proof (exp_pos (- decay * INR (length past - i) * ln 2)). unfold Rpower in *. lra. }
            induction l' as [|i l' IH']; [intros []|intros [E|I]]; cbn [map]; rewrite ?Rsum_cons, ?Rsum_nil.
            - subst i. rewrite Ej. unfold same_cell at 1. destruct (list_eq_dec _ _ _); [|congruence]. specialize (N' l'). pose proof (exp_pos (- decay * INR (length past - j) * ln 2)). unfold Rpower in *. lra.
            - specialize (IH' I). destruct (same_cell _ _ _ _); [|lra]. pose proof (exp_pos (- decay * INR (length past - i) * ln 2)). unfold Rpower in *. lra. }
          apply G. apply in_seq. lia.
        - specialize (IH I). specialize (NL c'). lra. }
      apply G; auto.
    + apply Rinv_0_lt_compat. apply lt_0_INR. destruct comps; [congruence|cbn; lia].
Qed.
Print Assumptions C74_new_instance_scores_higher_refuted.
(** With no hash function every fit fails with ValueError (if there is a component), and with no component with ZeroDivisionError. *)
Theorem C74_degenerate_parameters : forall Y pow2 log floor decay (c : rscomp R) comps sp w x (y : option Y), fits_components (c :: comps) x ->
  eval (md_fit (RSHash pow2 log floor decay (c :: comps)) x y) (RSHash_init sp 0) = Raise ValueError /\
  eval (md_fit (RSHash pow2 log floor decay []) x y) (RSHash_init sp w) = Raise ZeroDivisionError.
Proof.
  intros Y pow2 log floor decay c comps sp w x y F. inversion F as [|? ? [F1 F2] _]; subst. split.
  - unfold eval. cbn [md_fit RSHash plain_model RSHash_init length seq combine mapM]. unfold rs_component, bind, lift, gets, modify. cbn [fst snd]. rewrite (rs_cell_ok floor 0 c x F1 F2). reflexivity.
  - unfold eval. cbn. unfold bind, lift, pydiv, ret. cbn. destruct (Reqb_spec 0 0); [reflexivity|lra].
Qed.
Print Assumptions C74_degenerate_parameters.
(** A component on feature 0 with cells of width 1: 0.2 and 0.7 share a cell, 1.5 does not. *)
Example C74_ex : forall fl, fl ((2/10 + 0)/1) = 0%Z -> fl ((7/10 + 0)/1) = 0%Z -> fl ((15/10 + 0)/1) = 1%Z ->
  let comps := [mkComp [0%nat] [0] 1] in let h := [CFit [2/10] None; CFit [15/10] None; CScore [3]; CFit [7/10] (@None unit)] in
  fits_components comps [2/10] /\ decayed_count fl 1 (mkComp [0%nat] [0] 1) [[2/10]; [15/10]] [7/10] = /4 /\
  eval (md_score (RSHash (Rpower 2) ln fl 1 comps) [9]) (model_run (RSHash (Rpower 2) ln fl 1 comps) (RSHash_init 1000 2) h) = Ok (VScalar (ln (1 + /4))).
Proof.
  intros fl H1 H2 H3. cbv zeta. assert (FC : forall a : R, fits_components [mkComp [0%nat] [0] 1] [a]).
  { intros a. constructor; [|constructor]. split; [reflexivity|]. constructor; [cbn; lia|constructor]. }
  assert (D : decayed_count fl 1 (mkComp [0%nat] [0] 1) [[2/10]; [15/10]] [7/10] = /4).
  { unfold decayed_count, same_cell, cell_of. cbn [length seq map nth combine fst snd rs_V rs_alpha rs_f Nat.sub]; rewrite ?Rsum_cons, ?Rsum_nil. rewrite H1, H2, H3. destruct (list_eq_dec Z.eq_dec [0%Z] [0%Z]); [|congruence]. destruct (list_eq_dec Z.eq_dec [1%Z] [0%Z]); [discriminate|].
    replace (- (1) * INR 2) with (- INR 2) by lra. rewrite Rpower_Ropp, Rpower_pow by lra. cbn [pow]. lra. }
  split; [apply FC|]. split; [exact D|].
  destruct (C74_score unit fl 1 [mkComp [0%nat] [0] 1] 1000 2 [CFit [2/10] None; CFit [15/10] None; CScore [3]; CFit [7/10] None] [9]) as (_ & E & _); [congruence|lia|repeat (constructor; [apply FC|]); constructor|].
  cbv zeta in E. unfold eval. rewrite (E [[2/10]; [15/10]] [7/10] eq_refl). cbn [fst map]. rewrite D. unfold mean, Rlen. cbn [length INR]; rewrite ?Rsum_cons, ?Rsum_nil. do 2 f_equal. lra.
Qed.

(** ** C83: the sampling done by the constructor *)
(** What is assumed of the random sources: randint draws inside its range, choice without replacement returns distinct items
    of the list in the number asked for, uniform(0, f, k) returns k numbers of [0, f). *)
Definition is_floor (fl : R -> Z) : Prop := forall a, IZR (fl a) <= a < IZR (fl a) + 1.
Definition random_sources (draw : nat -> Z -> Z -> Z) (pick : nat -> list nat -> nat -> list nat) (shifts : nat -> R -> nat -> list R) : Prop :=
  (forall i a b, (a < b)%Z -> (a <= draw i a b < b)%Z) /\
  (forall i l k, NoDup l -> (k <= length l)%nat -> length (pick i l k) = k /\ NoDup (pick i l k) /\ incl (pick i l k) l) /\
  (forall i f k, 0 < f -> length (shifts i f k) = k /\ Forall (fun a => 0 <= a < f) (shifts i f k)).
Definition effective_sample (decay : R) : R := Rmax 1000 (1 / (1 - Rpower 2 (- decay))).
(** The interval the cell sizes are drawn from. *)
Definition cell_size_range (decay f : R) : Prop := 1 / sqrt (effective_sample decay) <= f < 1 - 1 / sqrt (effective_sample decay).
Lemma omax_Rmax : forall a b : R, omax a b = Rmax a b.
Proof. intros a b. unfold omax. cbn. unfold Rltb, Rmax. destruct (Rlt_dec a b), (Rle_dec a b); lra. Qed.
Lemma effS_eq : forall decay, rs_effS (Rpower 2) decay = effective_sample decay.
Proof. intros decay. unfold rs_effS. rewrite omax_Rmax. reflexivity. Qed.
Lemma common_ge_2 : forall decay f, cell_size_range decay f -> 2 <= ln (effective_sample decay) / ln (Rmax 2 (1 / f)).
Proof.
  intros decay f [H1 H2]. set (E := effective_sample decay) in *. assert (HE : 1000 <= E) by apply Rmax_l.
  assert (HS : 2 <= sqrt E). { replace 2 with (sqrt (2 * 2)) by (apply sqrt_square; lra). apply sqrt_le_1; lra. }
  assert (SE : sqrt E * sqrt E = E) by (apply sqrt_sqrt; lra).
  assert (Hf : 1 / f <= sqrt E).
  { assert (0 < 1 / sqrt E) by (apply Rdiv_lt_0_compat; lra). apply Rmult_le_reg_r with f; [lra|]. unfold Rdiv. rewrite Rmult_assoc, Rinv_l by lra.
    apply Rle_trans with (sqrt E * (1 / sqrt E)); [unfold Rdiv; rewrite !Rmult_1_l, Rinv_r; lra|]. apply Rmult_le_compat_l; lra. }
  assert (HM : Rmax 2 (1 / f) <= sqrt E) by (apply Rmax_lub; auto). assert (2 <= Rmax 2 (1 / f)) by apply Rmax_l.
  assert (0 < ln (Rmax 2 (1 / f))) by (rewrite <- ln_1; apply ln_increasing; lra).
  assert (ln (Rmax 2 (1 / f)) <= ln (sqrt E)) by (apply ln_le; lra).
  assert (ln E = ln (sqrt E) + ln (sqrt E)) by (rewrite <- ln_mult by lra; rewrite SE; reflexivity).
  apply Rmult_le_reg_r with (ln (Rmax 2 (1 / f))); auto. unfold Rdiv. rewrite (Rmult_assoc (ln E)), Rinv_l by lra. lra.
Qed.
Lemma num_feats_ok : forall fl draw decay f dim, is_floor fl -> (forall a b, (a < b)%Z -> (a <= draw a b < b)%Z) -> cell_size_range decay f -> (1 <= dim)%nat ->
  exists r, rs_num_feats ln fl draw (effective_sample decay) f dim = Ok r /\ (1 <= r <= Z.of_nat dim)%Z.
Proof.
  intros fl draw decay f dim HF HD HC Hdim. unfold rs_num_feats. rewrite omax_Rmax. pose proof (common_ge_2 decay f HC) as G.
  cbn [nofZ ndiv nmul nadd NumR]. set (c := ln (effective_sample decay) / ln (Rmax 2 (1 / f))) in *. change (ln (effective_sample decay) / ln (Rmax 2 (IZR 1 / f))) with c.
  set (low := 1 + 1 / 2 * c). assert (HL : low <= c) by (unfold low; lra). assert (HL2 : 2 <= low) by (unfold low; lra).
  destruct (Z.eqb_spec (fl low) (fl c)) as [Q|Q]; [exists 1%Z; split; [reflexivity|lia]|].
  assert (L : (fl low < fl c)%Z).
  { assert (fl low <= fl c)%Z; [|lia]. pose proof (HF low). pose proof (HF c). assert (fl low < fl c + 1)%Z; [|lia]. apply lt_IZR. rewrite plus_IZR. lra. }
  assert (L2 : (2 <= fl low)%Z). { pose proof (HF low). assert (1 < fl low)%Z; [|lia]. apply lt_IZR. lra. }
  unfold np_randint. destruct (Z.leb_spec (fl c) (fl low)); [lia|]. cbn [rmap]. eexists. split; [reflexivity|]. specialize (HD _ _ L). lia.
Qed.
Definition non_constant (mins maxs : list R) (v : nat) : Prop := nth v mins 0 <> nth v maxs 0.
Lemma choice_feats_ok : forall arrays mins maxs, length mins = length maxs ->
  NoDup (rs_choice_feats arrays mins maxs) /\ incl (rs_choice_feats arrays mins maxs) (seq 0 (length mins)) /\
  (arrays = true -> forall v, In v (rs_choice_feats arrays mins maxs) <-> (v < length mins)%nat /\ non_constant mins maxs v).
Proof.
  intros arrays mins maxs HL. unfold rs_choice_feats. destruct arrays.
  - assert (ND : forall (P : nat * (R * R) -> bool) (l : list (R * R)) st, NoDup (map fst (filter P (combine (seq st (length l)) l))) /\ (forall v, In v (map fst (filter P (combine (seq st (length l)) l))) -> (st <= v)%nat)).
    { intros P. induction l as [|q l IH]; intros st; cbn [length seq combine filter map]; [split; [constructor|intros v []]|]. destruct (IH (S st)) as [I1 I2]. destruct (P (st, q)); cbn [map fst].
      - split; [constructor; auto; intros Hin; specialize (I2 _ Hin); lia|]. intros v [<-|Hv]; [lia|]. specialize (I2 v Hv). lia.
      - split; auto. intros v Hv. specialize (I2 v Hv). lia. }
    assert (EL : length mins = length (combine mins maxs)) by (rewrite combine_length; lia).
    assert (IN : forall v, In v (map fst (filter (fun p => negb (oeqb (fst (snd p)) (snd (snd p)))) (combine (seq 0 (length mins)) (combine mins maxs)))) <-> (v < length mins)%nat /\ non_constant mins maxs v).
    { intros v. rewrite EL. unfold non_constant. clear ND.
      clear EL. assert (G : forall l st v, In v (map fst (filter (fun p : nat * (R * R) => negb (oeqb (fst (snd p)) (snd (snd p)))) (combine (seq st (length l)) l))) <-> (st <= v < st + length l)%nat /\ fst (nth (v - st) l (0, 0)) <> snd (nth (v - st) l (0, 0))).
      { clear v. induction l as [|[a b] l IH]; intros st v; cbn [length seq combine filter map].
        - split; [intros []|lia].
        - cbn [fst snd]. change (oeqb a b) with (Reqb a b). specialize (IH (S st) v).
          assert (EN : (S st <= v)%nat -> nth (v - st) ((a, b) :: l) (0, 0) = nth (v - S st) l (0, 0)) by (intros; replace (v - st)%nat with (S (v - S st)) by lia; reflexivity).
          destruct (Reqb_spec a b); cbn [negb map In fst].
          + rewrite IH. split; [intros [? ?]; rewrite EN by lia; split; [lia|auto]|]. intros [H1 H2]. destruct (Nat.eq_dec st v) as [->|]; [rewrite Nat.sub_diag in H2; cbn in H2; congruence|]. rewrite EN in H2 by lia. split; [lia|auto].
          + rewrite IH. split.
            * intros [<-|[? ?]]; [rewrite Nat.sub_diag; cbn; split; [lia|auto]|]. rewrite EN by lia. split; [lia|auto].
            * intros [H1 H2]. destruct (Nat.eq_dec st v) as [->|]; [left; auto|right]. rewrite EN in H2 by lia. split; [lia|auto]. }
      rewrite G. rewrite Nat.sub_0_r, combine_nth by auto. cbn [fst snd]. split; intros [? ?]; (split; [lia|auto]). }
    split; [|split].
    + rewrite EL. apply ND.
    + intros v Hv. apply IN in Hv. apply in_seq. lia.
    + intros _. apply IN.
  - split; [|split; [|discriminate]].
    + destruct (forallb _ _); [constructor|apply seq_NoDup].
    + destruct (forallb _ _); [intros v []|apply incl_refl].
Qed.
Lemma res_map_all : forall B C (g : B -> res C) (P : B -> C -> Prop) l, (forall b, In b l -> exists c, g b = Ok c /\ P b c) -> exists cs, res_map g l = Ok cs /\ Forall2 P l cs.
Proof.
  intros B C g P l. induction l as [|b l IH]; intros H; cbn; [exists []; split; [reflexivity|constructor]|].
  destruct (H b (or_introl eq_refl)) as (c & E & Hp). rewrite E. destruct IH as (cs & E' & Hf); [intros; apply H; right; auto|]. cbn. rewrite E'. exists (c :: cs). split; [reflexivity|constructor; auto].
Qed.
(** Construction never fails, whatever is drawn; every component selects at least one feature, without repetition, among the
    features given; with numpy bounds only features whose bounds differ are selected, provided there is one; and the shifts lie in [0, f). *)
Theorem C83_constructor_sampling : forall fl draw pick shifts decay fs arrays mins maxs, is_floor fl -> random_sources draw pick shifts ->
  let effS := rs_effS (Rpower 2) decay in Forall (fun f => rs_f_low sqrt effS <= f < rs_f_high sqrt effS) fs ->
  (1 <= length mins)%nat -> length mins = length maxs ->
  exists comps, rs_components ln fl draw pick shifts effS fs arrays mins maxs = Ok comps /\ length comps = length fs /\
  Forall2 (fun f c => rs_f c = f /\ 0 < f < 1 /\ rs_V c <> [] /\ NoDup (rs_V c) /\ (forall v, In v (rs_V c) -> (v < length mins)%nat) /\
     (arrays = true -> (exists v, (v < length mins)%nat /\ non_constant mins maxs v) -> forall v, In v (rs_V c) -> non_constant mins maxs v) /\
     length (rs_alpha c) = length (rs_V c) /\ Forall (fun a => 0 <= a < f) (rs_alpha c)) fs comps /\
  (forall x, length x = length mins -> fits_components comps x).
Proof.
  intros fl draw pick shifts decay fs arrays mins maxs HF (RD & RP & RS). cbv zeta. rewrite effS_eq. intros HC Hdim HL. change (Forall (cell_size_range decay) fs) in HC. unfold rs_components.
  set (Q := fun f c => rs_f c = f /\ 0 < f < 1 /\ rs_V c <> [] /\ NoDup (rs_V c) /\ (forall v, In v (rs_V c) -> (v < length mins)%nat) /\
     (arrays = true -> (exists v, (v < length mins)%nat /\ non_constant mins maxs v) -> forall v, In v (rs_V c) -> non_constant mins maxs v) /\
     length (rs_alpha c) = length (rs_V c) /\ Forall (fun a => 0 <= a < f) (rs_alpha c)).
  destruct (res_map_all _ _ (fun p => rmap (fun V => mkComp V (shifts (fst p) (snd p) (length V)) (snd p)) (rs_sel ln fl (draw (fst p)) (pick (fst p)) (effective_sample decay) (snd p) arrays mins maxs)) (fun p c => Q (snd p) c) (combine (seq 0 (length fs)) fs)) as (comps & E & F2).
  { intros [i f] I. cbn [fst snd]. apply in_combine_r in I. rewrite Forall_forall in HC. specialize (HC f I).
    destruct (num_feats_ok fl (draw i) decay f (length mins) HF (RD i) HC Hdim) as (r & Er & Hr). unfold rs_sel. rewrite Er. cbn [rbind].
    destruct (choice_feats_ok arrays mins maxs HL) as (C1 & C2 & C3). set (cf := rs_choice_feats arrays mins maxs) in *.
    set (feats := match cf with [] => seq 0 (length mins) | n :: l => n :: l end).
    assert (F1 : NoDup feats) by (unfold feats; destruct cf; [apply seq_NoDup|auto]).
    assert (F2 : incl feats (seq 0 (length mins))) by (unfold feats; destruct cf; [apply incl_refl|auto]).
    assert (F3 : (1 <= length feats)%nat) by (unfold feats; destruct cf; [rewrite seq_length; auto|cbn; lia]).
    assert (F4 : arrays = true -> (exists v, (v < length mins)%nat /\ non_constant mins maxs v) -> forall v, In v feats -> non_constant mins maxs v).
    { intros Ea (v0 & Hv0) v Hv. apply (C3 Ea) in Hv0. unfold feats in Hv. destruct cf as [|n cf]; [contradiction|]. apply (C3 Ea). auto. }
    unfold np_choice. destruct (Nat.ltb_spec (length feats) (Nat.min (Z.to_nat r) (length feats))); [lia|]. cbn [rmap]. eexists. split; [reflexivity|].
    destruct (RP i feats (Nat.min (Z.to_nat r) (length feats)) F1 ltac:(lia)) as (P1 & P2 & P3). set (V := pick i feats _) in *.
    assert (Hf : 0 < f < 1). { destruct HC as [HC1 HC2]. assert (1000 <= effective_sample decay) by apply Rmax_l. assert (0 < 1 / sqrt (effective_sample decay)) by (apply Rdiv_lt_0_compat; [lra|]; apply sqrt_lt_R0; lra). lra. }
    destruct (RS i f (length V) (proj1 Hf)) as [S1 S2]. unfold Q. cbn [rs_f rs_V rs_alpha]. split; [reflexivity|]. split; [auto|]. split; [intros EV; rewrite EV in P1; cbn in P1; lia|]. split; [auto|].
    split; [intros v Hv; apply P3, F2, in_seq in Hv; lia|]. split; [intros; apply F4; auto|]. auto. }
  exists comps. split; [exact E|]. assert (F2' : Forall2 Q fs comps).
  { clear - F2. revert F2. generalize 0%nat. revert comps. induction fs as [|f fs IH]; intros comps st F; cbn [length seq combine] in F; inversion F; subst; constructor; auto. eapply IH. eauto. }
  split; [symmetry; eapply Forall2_length; exact F2'|]. split; [exact F2'|].
  intros x Hx. unfold fits_components. clear - F2' Hx. induction F2' as [|f c fs' cs (_ & _ & _ & _ & B & _ & LA & _) F IH]; constructor; auto. split; [auto|]. apply Forall_forall. intros v Hv. rewrite Hx. auto.
Qed.
Print Assumptions C83_constructor_sampling.
(** The bounds must be numpy arrays for this: with lists a feature with equal bounds can be selected although another one differs. *)
Theorem C83_list_bounds_select_constant_features_refuted : forall fl decay f, is_floor fl -> let effS := rs_effS (Rpower 2) decay in rs_f_low sqrt effS <= f < rs_f_high sqrt effS -> exists draw pick shifts mins maxs c,
  random_sources draw pick shifts /\ rs_components ln fl draw pick shifts effS [f] false mins maxs = Ok [c] /\
  non_constant mins maxs 1 /\ In 0%nat (rs_V c) /\ ~ non_constant mins maxs 0.
Proof.
  intros fl decay f HF. cbv zeta. rewrite effS_eq. intros HC. change (cell_size_range decay f) in HC.
  assert (RS : random_sources (fun _ a _ => a) (fun _ l k => firstn k l) (fun _ _ k => repeat 0 k)).
  { split; [intros; lia|]. split.
    - intros _ l k ND Hk. rewrite firstn_length. split; [lia|]. split.
      + rewrite <- (firstn_skipn k l) in ND. revert ND. generalize (skipn k l). clear. intros l2. induction (firstn k l) as [|a l1 IH]; intros ND; [constructor|]. inversion ND; subst. constructor; auto. intros I. apply H1. apply in_or_app. auto.
      + intros a Ha. rewrite <- (firstn_skipn k l). apply in_or_app. auto.
    - intros _ f' k Hf. split; [apply repeat_length|]. apply Forall_forall. intros a Ha. apply repeat_spec in Ha. lra. }
  destruct (num_feats_ok fl (fun a _ => a) decay f 2 HF ltac:(cbn beta; intros; lia) HC ltac:(lia)) as (r & Er & Hr).
  exists (fun _ a _ => a), (fun _ l k => firstn k l), (fun _ _ k => repeat 0 k), [0; 0], [0; 1]. eexists. split; [exact RS|]. split; [|split; [|split]].
  - unfold rs_components. cbn [length seq combine res_map fst snd]. unfold rs_sel. cbn [length]. change (@length R [0; 0]) with 2%nat. rewrite Er. cbn [rbind].
    replace (rs_choice_feats false [0; 0] [0; 1]) with [0%nat; 1%nat].
    2:{ unfold rs_choice_feats. cbn [combine forallb fst snd]. change (oeqb 0 0) with (Reqb 0 0). change (oeqb 0 1) with (Reqb 0 1). destruct (Reqb_spec 0 0), (Reqb_spec 0 1); try lra. reflexivity. }
    assert (C : r = 1%Z \/ r = 2%Z) by lia. set (q := Nat.min (Z.to_nat r) 2). replace (Nat.min (Z.to_nat r) (length [0%nat; 1%nat])) with (S (q - 1)) by (unfold q; cbn [length]; lia).
    unfold np_choice. cbn [length]. destruct (Nat.ltb_spec 2 (S (q - 1))); [unfold q in *; lia|]. cbn [rmap rbind firstn]. reflexivity.
  - unfold non_constant. cbn. lra.
  - cbn [rs_V]. left. reflexivity.
  - unfold non_constant. cbn. lra.
Qed.
Print Assumptions C83_list_bounds_select_constant_features_refuted.
(** The cell sizes admitted are not the empty set: for every decay the interval contains 1/2. *)
Example C83_ex : forall decay, let effS := rs_effS (Rpower 2) decay in rs_f_low sqrt effS <= 1 / 2 < rs_f_high sqrt effS.
Proof.
  intros decay. cbv zeta. rewrite effS_eq. change (cell_size_range decay (1 / 2)). unfold cell_size_range. assert (HE : 1000 <= effective_sample decay) by apply Rmax_l. set (E := effective_sample decay) in *.
  assert (HS : 3 <= sqrt E). { replace 3 with (sqrt (3 * 3)) by (apply sqrt_square; lra). apply sqrt_le_1; lra. }
  assert (1 / sqrt E <= 1 / 3). { unfold Rdiv. rewrite !Rmult_1_l. apply Rinv_le_contravar; lra. }
  lra.
Qed.
