(** * C122: an instance with a missing value (nan), on IEEE-754 binary64. *)
From Coq Require Import List ZArith Lia Bool Arith Permutation.
From Coq Require Import Floats.
From Verif Require Import Base Num Spec Model_Stats Model_Utils Model_Core Model_Trans Model_Simple Model_Sketch Model_HST Model_KitNET P_Models Prop_KitNET Prop_KitFloat.
From Verif Require Prop_Units Prop_Ratio P_Lists Prop_Simple.
Import ListNotations.
Open Scope nat_scope.

(** ** Specification *)
(** The instance has a nan among its values. *)
Definition has_nan (x : list float) : Prop := In nan x.
Definition has_nanb (x : list float) : bool := existsb is_nan x.

(** ** Arithmetic *)
Lemma nan_add : forall a, PrimFloat.add nan a = nan.
Proof. intros a. apply spec_nan. rewrite add_spec. reflexivity. Qed.
Lemma sub_nan : forall a, PrimFloat.sub a nan = nan.
Proof. intros a. apply spec_nan. rewrite sub_spec. destruct (Prim2SF a); reflexivity. Qed.
Lemma mul_nan : forall a, PrimFloat.mul a nan = nan.
Proof. intros a. apply spec_nan. rewrite mul_spec. destruct (Prim2SF a); reflexivity. Qed.
Lemma nan_mul_l : forall a, PrimFloat.mul nan a = nan.
Proof. intros a. apply spec_nan. rewrite mul_spec. reflexivity. Qed.
Lemma div_nan : forall a, PrimFloat.div a nan = nan.
Proof. intros a. apply spec_nan. rewrite div_spec. destruct (Prim2SF a); reflexivity. Qed.
Lemma ltb_nan : forall a, PrimFloat.ltb a nan = false.
Proof. intros a. rewrite ltb_spec. destruct (Prim2SF a); reflexivity. Qed.
Lemma nan_ltb : forall a, PrimFloat.ltb nan a = false.
Proof. intros a. rewrite ltb_spec. reflexivity. Qed.
Lemma ltb_ninf : forall a, PrimFloat.ltb a neg_infinity = false.
Proof. intros a. rewrite ltb_spec. change (Prim2SF neg_infinity) with (S754_infinity true). destruct (Prim2SF a) as [[]|[]| |[] m e]; reflexivity. Qed.
Lemma is_nan_iff : forall a, is_nan a = true <-> a = nan.
Proof.
  intros a. split; [|intros ->; reflexivity]. intros H. apply spec_nan. unfold is_nan in H. rewrite eqb_spec in H. destruct (Prim2SF a) as [s|s| |s m e] eqn:E; auto; exfalso.
  - destruct s; discriminate.
  - destruct s; discriminate.
  - unfold SFeqb in H. cbn in H. rewrite Z.compare_refl, ?Pos.compare_refl in H. destruct s; cbn in H; rewrite ?Pos.compare_refl, ?Pos.compare_cont_refl in H; discriminate.
Qed.
Lemma nsum_nan : forall l, In nan l -> nsum l = nan.
Proof.
  intros l H. unfold nsum. assert (K : forall l, fold_left nadd l nan = nan). { induction l0 as [|a l0 IH]; auto. cbn [fold_left]. cbn [nadd NumF]. rewrite nan_add. exact IH. }
  generalize (@n0 float NumF). induction l as [|a l IH]; intros s; [destruct H|]. destruct H as [-> | H]; cbn [fold_left]; [cbn [nadd NumF]; rewrite add_nan; apply K|apply IH; auto].
Qed.
Lemma mean_nan : forall l, In nan l -> vec_mean l = nan.
Proof. intros l H. unfold vec_mean. rewrite nsum_nan by auto. cbn [ndiv NumF]. apply nan_div. Qed.
Lemma map2_in_l : forall B C D (g : B -> C -> D) (a : list B) (b : list C) x r, length a = length b -> In x a -> (forall y, g x y = r) -> In r (map2 g a b).
Proof.
  intros B C D g. induction a as [|u a IH]; intros [|v b] x r L I H; try discriminate; [destruct I|]. unfold map2 in *. cbn [combine map]. destruct I as [-> | I]; [left; apply H|right; apply (IH b x r); auto; cbn [length] in L; lia].
Qed.
Lemma map2_const_r : forall B C D (g : B -> C -> D) (a : list B) (b : list C) r k, length a = k -> length b = k -> (forall x y, In y b -> g x y = r) -> map2 g a b = repeat r k.
Proof.
  intros B C D g. induction a as [|u a IH]; intros [|v b] r k La Lb H; subst k; try discriminate; auto. unfold map2 in *. cbn [combine map length repeat fst snd]. rewrite (H u v (or_introl eq_refl)). f_equal. apply IH; auto. intros. apply H. right. auto.
Qed.

(** ** One autoencoder *)
Definition shape (nv : nat) (d : dast float) : Prop := length (da_max d) = nv /\ length (da_min d) = nv /\ length (da_W d) = nv /\ length (da_vb d) = nv.
Definition spoiled (nv : nat) (d : dast float) : Prop := da_vb d = repeat nan nv.
Lemma shape_init : forall p nv d, da_init p nv = Ok d -> shape nv d.
Proof.
  intros p nv d E. unfold da_init in E. destruct (nv =? 0)%nat; [discriminate|]. cbv zeta in E. match type of E with Ok ?w = _ => assert (Ed : d = w) by (inversion E; reflexivity) end. rewrite Ed. unfold shape. cbn [da_max da_min da_W da_vb]. rewrite !repeat_length, map_length, seq_length. auto.
Qed.
Lemma shape_norms : forall nv d x, shape nv d -> length x = nv -> shape nv (da_norms d x).
Proof. intros nv d x (A & B & C & D) L. unfold shape, da_norms. cbn [da_max da_min da_W da_vb]. rewrite !map2_length. lia. Qed.
Lemma normalise_length : forall p nv d x, shape nv d -> length x = nv -> length (da_normalise p d x) = nv.
Proof. intros p nv d x (A & B & C & D) L. unfold da_normalise. rewrite !map2_length, map_length, map2_length. lia. Qed.
Lemma decode_length : forall p nv d y, shape nv d -> length (da_decode p d y) = nv.
Proof. intros p nv d y (A & B & C & D). unfold da_decode, vec_matT. rewrite map_length, map2_length, map_length. lia. Qed.
Lemma normalise_nan : forall p nv d x, shape nv d -> length x = nv -> has_nan x -> has_nan (da_normalise p d x).
Proof.
  intros p nv d x (A & B & C & D) L H. unfold da_normalise, has_nan. apply map2_in_l with (x := nan); [rewrite map_length, !map2_length; lia| |intros y; apply nan_div].
  apply map2_in_l with (x := nan); [lia|exact H|intros y; apply nan_sub].
Qed.
Lemma spoiled_decode : forall p nv d y, kp_exp p nan = nan -> shape nv d -> spoiled nv d -> da_decode p d y = repeat nan nv.
Proof.
  intros p nv d y He (A & B & C & D) S. unfold da_decode, spoiled in *. rewrite S. rewrite (map2_const_r _ _ _ nadd (vec_matT y (da_W d)) (repeat nan nv) nan nv).
  - clear - He. induction nv as [|nv IH]; auto. cbn [repeat map]. rewrite IH. f_equal. unfold sigmoid. cbn [ndiv nadd nneg nofZ NumF]. replace (PrimFloat.opp nan) with nan by reflexivity. rewrite He, add_nan. apply div_nan.
  - unfold vec_matT. rewrite map_length. auto.
  - apply repeat_length.
  - intros x z Hz. apply repeat_spec in Hz. subst z. apply add_nan.
Qed.
Lemma rmse_nan : forall l, In nan l -> rmse l = nan.
Proof. intros l H. unfold rmse. rewrite mean_nan; [reflexivity|]. apply in_map_iff. exists nan. split; auto. Qed.
Lemma difference_nan : forall nv (x z : list float), length x = nv -> length z = nv -> (1 <= nv)%nat -> has_nan x \/ z = repeat nan nv -> In nan (map2 nsub x z).
Proof.
  intros nv x z Lx Lz Hn [H | ->].
  - apply map2_in_l with (x := nan); [lia|exact H|intros y; apply nan_sub].
  - rewrite (map2_const_r _ _ _ nsub x (repeat nan nv) nan nv Lx (repeat_length _ _)); [destruct nv; [lia|left; reflexivity]|]. intros a b Hb. apply repeat_spec in Hb. subst b. apply sub_nan.
Qed.
Lemma train_shape : forall p nv d x, shape nv d -> length x = nv -> shape nv (snd (da_train p d x)).
Proof.
  intros p nv d x S L. pose proof (shape_norms nv d x S L) as (A & B & C & D). unfold da_train. cbv zeta. unfold shape. cbn [snd da_max da_min da_W da_vb]. pose proof (normalise_length p nv _ x (shape_norms nv d x S L) L) as Ln.
  pose proof (decode_length p nv (da_norms d x) (da_hidden p (da_norms d x) (da_normalise p (da_norms d x) x)) (shape_norms nv d x S L)) as Ld. rewrite !map_length, !map2_length, map_length, !map2_length. unfold outer. rewrite !map_length, !map2_length. lia.
Qed.
Lemma train_spoils : forall p nv d x, kp_exp p nan = nan -> (1 <= nv)%nat -> shape nv d -> length x = nv -> has_nan x \/ spoiled nv d ->
  fst (da_train p d x) = nan /\ spoiled nv (snd (da_train p d x)).
Proof.
  intros p nv d x He Hn S L H. pose proof (shape_norms nv d x S L) as S'. unfold da_train. cbv zeta. cbn [fst snd]. set (e := da_norms d x) in *. set (xn := da_normalise p e x). set (z := da_decode p e (da_hidden p e xn)).
  assert (Hd : In nan (map2 nsub xn z)).
  { apply (difference_nan nv); [apply normalise_length; auto|apply decode_length; auto|auto|]. destruct H as [H|H]; [left; apply (normalise_nan p nv); auto|right; apply spoiled_decode; auto]. }
  split; [apply rmse_nan; auto|]. unfold spoiled. cbn [da_vb]. rewrite mean_nan by auto. destruct S' as (_ & _ & _ & D). rewrite <- D. generalize (da_vb e). induction l as [|b l IH]; auto. cbn [map length repeat]. rewrite IH. f_equal. cbn [nadd nmul NumF]. rewrite mul_nan. apply add_nan.
Qed.
Lemma execute_spoiled : forall p nv d x, kp_exp p nan = nan -> (1 <= nv)%nat -> shape nv d -> length x = nv -> has_nan x \/ spoiled nv d -> da_execute p d x = nan.
Proof.
  intros p nv d x He Hn S L H. unfold da_execute. apply rmse_nan. apply (difference_nan nv); [apply normalise_length; auto|apply decode_length; auto|auto|].
  destruct H as [H|H]; [left; apply (normalise_nan p nv); auto|right; apply spoiled_decode; auto].
Qed.

(** ** The two layers *)
Section Layers.
Variable (p : kitpar float) (n : nat).
Hypothesis Hn : (2 <= n)%nat.
Hypothesis He : kp_exp p nan = nan.
Definition shapes (v : list (list nat)) (st : layers) : Prop := Forall2 (fun f d => shape (length f) d) v (fst st) /\ shape (length v) (snd st).
Lemma fresh_shapes : forall v st, fresh p v st -> shapes v st.
Proof.
  intros v [e o] [F E]. cbn [fst snd] in *. split; [|eapply shape_init; eauto]. cbn [fst]. clear E. induction F as [|f d v e Hd F IH]; constructor; auto. eapply shape_init; eauto.
Qed.
Lemma pick_length : forall (x : list float) f, length (pick x f) = length f.
Proof. intros. unfold pick. apply map_length. Qed.
Lemma step_shapes : forall v st x, shapes v st -> shapes v (train_step p v st x).
Proof.
  intros v [e o] x [F S]. cbn [fst snd] in *. assert (L : length e = length v) by (clear - F; induction F; cbn [length]; auto). unfold train_step, shapes. cbn [fst snd]. split; [|apply train_shape; auto; rewrite map2_length; lia].
  clear S L. induction F as [|f d v e Hd F IH]; [constructor|]. unfold map2 in *. cbn [combine map fst snd]. constructor; [apply train_shape; auto; apply pick_length|exact IH].
Qed.
Lemma step_spoils : forall v st x, (1 <= length v)%nat -> Forall (fun f => (1 <= length f)%nat) v -> shapes v st -> (exists f, In f v /\ has_nan (pick x f)) \/ spoiled (length v) (snd st) -> spoiled (length v) (snd (train_step p v st x)).
Proof.
  intros v [e o] x Lv F1 [F S] H. cbn [fst snd] in *. assert (L : length e = length v) by (clear - F; induction F; cbn [length]; auto). unfold train_step. cbn [fst snd].
  apply train_spoils; auto; [rewrite map2_length; lia|]. destruct H as [(f & If & H)|H]; [left|right; auto]. clear S L Lv. unfold has_nan. revert e F. induction v as [|g v IH]; intros e F; [destruct If|]. inversion F as [|? d ? e' Hd F']; subst.
  apply Forall_cons_iff in F1. destruct F1 as [G1 F1]. unfold map2 in *. cbn [combine map fst snd]. destruct If as [-> | If]; [left|right; apply IH; auto]. apply (train_spoils p (length f)); auto. apply pick_length.
Qed.
Lemma fold_spoils : forall v zs st, (1 <= length v)%nat -> Forall (fun f => (1 <= length f)%nat) v -> shapes v st ->
  (exists z f, In z zs /\ In f v /\ has_nan (pick z f)) \/ spoiled (length v) (snd st) -> shapes v (fold_left (train_step p v) zs st) /\ spoiled (length v) (snd (fold_left (train_step p v) zs st)).
Proof.
  intros v zs. induction zs as [|z zs IH]; intros st Lv F1 S H; cbn [fold_left].
  - destruct H as [(z & f & [] & _)|H]; auto.
  - apply IH; auto; [apply step_shapes; auto|]. destruct H as [(z' & f & [<- | Iz] & If & H)|H]; [right|left; exists z', f; auto|right].
    + apply step_spoils; auto. left. exists f. auto.
    + apply step_spoils; auto.
Qed.
Lemma nan_in_cluster : forall v (x : list float), valid_map p n v -> length x = n -> has_nan x -> exists f, In f v /\ has_nan (pick x f).
Proof.
  intros v x [P _] L H. destruct (In_nth _ _ (@n0 float NumF) H) as (j & Hj & E). assert (Ij : In j (concat v)). { apply (Permutation_in _ (Permutation_sym P)). apply in_seq. lia. }
  apply in_concat in Ij. destruct Ij as (f & If & Ij). exists f. split; auto. unfold has_nan, pick. apply in_map_iff. exists j. auto.
Qed.
End Layers.

Lemma in_stretch : forall B (l : list B) k a b z, nth_error l k = Some z -> (b <= k < b + a)%nat -> In z (firstn a (skipn b l)).
Proof.
  intros B l k a b z E H. destruct (nth_error_split l k E) as (l1 & l2 & -> & L). rewrite skipn_app, L. replace (b - k)%nat with 0%nat by lia. cbn [skipn]. rewrite firstn_app, skipn_length, L.
  destruct (a - (k - b))%nat as [|c] eqn:Ec; [lia|]. cbn [firstn]. apply in_or_app. right. left. reflexivity.
Qed.
(** ** KitNet *)
(** A nan in one instance of the training phase, the AD fits after the first FM + 1: from then on every score is nan. *)
Theorem C122_kitnet_training : forall Y (p : kitpar float) n (h : list (mcall (list float) Y)) k z x, kp_exp p nan = nan -> (2 <= n)%nat -> kit_ok p n (fitted_instances h) -> length x = n ->
  let FM := match kp_fm p with Some f => f | None => kp_ad p end in
  nth_error (fitted_instances h) k = Some z -> has_nan z -> (FM + 1 <= k < FM + 1 + kp_ad p)%nat ->
  eval (md_score (KitNet p) x) (model_run (KitNet p) None h) = Ok (VScalar nan).
Proof.
  intros Y p n h k z x He Hn K Hx FM Ek Hz Hk. change FM with (kit_fmg p) in *. clear FM.
  destruct (score_phase p n Hn Y _ _ x Hx (run_phase p n Hn Y h K)) as (s' & _ & _ & _ & E). set (xs := fitted_instances h) in *. assert (Lk : (k < length xs)%nat) by (apply nth_error_Some; congruence).
  destruct (E ltac:(lia)) as (v & st0 & _ & V & Fr & E2). unfold eval. rewrite E2. cbn [fst]. clear E E2. do 2 f_equal.
  assert (Lz : length z = n). { destruct K as [F _]. unfold vectors in F. rewrite Forall_forall in F. apply F. eapply nth_error_In; eauto. }
  assert (Iz : In z (firstn (kp_ad p) (skipn (S (kit_fmg p)) xs))). { apply (in_stretch _ _ k); auto. lia. }
  pose proof V as [P F1]. assert (Lv : (1 <= length v)%nat). { destruct v; cbn [length]; [|lia]. apply Permutation_length in P. rewrite seq_length in P. cbn in P. lia. }
  assert (F1' : Forall (fun f => (1 <= length f)%nat) v) by (eapply Forall_impl; [|exact F1]; cbn beta; intros; lia).
  destruct (nan_in_cluster p n Hn v z V Lz Hz) as (f & If & Hf). destruct (fold_spoils p n Hn He v (firstn (kp_ad p) (skipn (S (kit_fmg p)) xs)) st0 Lv F1' (fresh_shapes p v st0 Fr)) as [S1 S2]. { left. exists z, f. auto. }
  unfold run_layers. destruct S1 as [S0 S1]. apply (execute_spoiled p (length v)); auto. rewrite map2_length. assert (length (fst (fold_left (train_step p v) (firstn (kp_ad p) (skipn (S (kit_fmg p)) xs)) st0)) = length v) by (clear - S0; induction S0; cbn [length]; auto). lia.
Qed.
Print Assumptions C122_kitnet_training.
(** A nan after the training phase changes no later score of other instances. *)
Theorem C122_kitnet_afterwards : forall Y (p : kitpar float) n (h : list (mcall (list float) Y)) z y x, (2 <= n)%nat -> kit_ok p n (fitted_instances h) -> length z = n -> length x = n ->
  let FM := match kp_fm p with Some f => f | None => kp_ad p end in (FM + 1 + kp_ad p <= length (fitted_instances h))%nat ->
  eval (md_score (KitNet p) x) (model_run (KitNet p) None (h ++ [CFit z y])) = eval (md_score (KitNet p) x) (model_run (KitNet p) None h).
Proof.
  intros Y p n h z y x Hn K Lz Lx FM L. assert (Ef : fitted_instances (h ++ [CFit z y]) = fitted_instances h ++ [z]). { unfold fitted_instances, fitted_calls. rewrite flat_map_app, map_app. reflexivity. }
  rewrite (C61_only_the_first_instances_matter float Y NumF p n h x Hn K Lx). rewrite (C61_only_the_first_instances_matter float Y NumF p n (h ++ [CFit z y]) x Hn); auto.
  - fold FM. rewrite Ef, firstn_app. replace (FM + 1 + kp_ad p - length (fitted_instances h))%nat with 0%nat by lia. cbn [firstn]. rewrite app_nil_r. reflexivity.
  - rewrite Ef. destruct K as [F C]. split; [apply Forall_app; split; auto|]. intros _. change (kit_fmg p) with FM in *. destruct C as [t C]; [lia|]. exists t. rewrite firstn_app. replace (S FM - length (fitted_instances h))%nat with 0%nat by lia. cbn [firstn]. rewrite app_nil_r. exact C.
Qed.
Print Assumptions C122_kitnet_afterwards.

(** ** A nan while the correlations are learned *)
Section Mapping.
Variable (p : kitpar float) (n : nat).
Hypothesis Hn : (2 <= n)%nat.
Definition cc_shape (s : ccst float) : Prop := length (cc_c s) = n /\ length (cc_rs s) = n /\ length (cc_C s) = n /\ Forall (fun r => length r = n) (cc_C s).
Definition cc_bad (s : ccst float) : Prop := exists j, (j < n)%nat /\ nth j (cc_c s) 0%float = nan /\ nth j (cc_rs s) 0%float = nan.
Lemma nth_map2 : forall B C D (g : B -> C -> D) a b i u v w, (i < length a)%nat -> (i < length b)%nat -> nth i (map2 g a b) w = g (nth i a u) (nth i b v).
Proof.
  intros B C D g. induction a as [|x a IH]; intros [|y b] i u v w Ha Hb; cbn [length] in *; try lia. destruct i as [|i]; [reflexivity|]. unfold map2. cbn [combine map nth]. apply (IH b i u v w); lia.
Qed.
Lemma nth_map' : forall B C (g : B -> C) l i d d', (i < length l)%nat -> nth i (map g l) d' = g (nth i l d).
Proof. intros B C g l i d d' H. rewrite (nth_indep (map g l) d' (g d)) by (rewrite map_length; auto). apply map_nth. Qed.
Lemma cc_init_shape : cc_shape (cc_init n).
Proof. unfold cc_shape, cc_init. cbn [cc_c cc_rs cc_C]. rewrite !repeat_length. repeat split; auto. apply Forall_forall. intros r Hr. apply repeat_spec in Hr. subst r. apply repeat_length. Qed.
Lemma cc_step : forall x s, cc_shape s -> length x = n -> exists s', cc_update x s = (Ok tt, s') /\ cc_shape s' /\ (has_nan x \/ cc_bad s -> cc_bad s').
Proof.
  intros x s (L1 & L2 & L3 & L4) Lx. unfold cc_update, bind, modify, gets, lift. cbn [cc_c]. rewrite L1, Lx, Nat.eqb_refl. eexists. split; [reflexivity|].
  set (c := map2 nadd (cc_c s) x). set (dv := fun v : float => ndiv v (nofZ (Z.of_nat (cc_N (mkCC (cc_c s) (cc_r s) (cc_rs s) (cc_C s) (S (cc_N s))))))). set (rt := map2 nsub x (map dv c)).
  assert (Lc : length c = n) by (unfold c; rewrite map2_length; lia). assert (Lr : length rt = n) by (unfold rt; rewrite map2_length, map_length; lia).
  split.
  - unfold cc_shape. cbn [cc_c cc_rs cc_C]. split; auto. split; [rewrite map2_length, map_length; lia|]. split; [unfold outer; rewrite map2_length, map_length; lia|].
    apply Forall_forall. intros r Hr. unfold map2 in Hr. apply in_map_iff in Hr. destruct Hr as ([a b] & <- & Hr). cbn [fst snd]. pose proof (in_combine_l _ _ _ _ Hr) as Ha. pose proof (in_combine_r _ _ _ _ Hr) as Hb. rewrite Forall_forall in L4. unfold outer in Hb. apply in_map_iff in Hb. destruct Hb as (u & <- & _). fold (@map2 float float float nadd a (map (nmul u) rt)). rewrite map2_length, map_length, (L4 a Ha). lia.
  - intros H. assert (J : exists j, (j < n)%nat /\ (nth j x 0%float = nan \/ nth j (cc_c s) 0%float = nan)).
    { destruct H as [H|(j & Hj & E & _)]; [|exists j; auto]. destruct (In_nth _ _ 0%float H) as (j & Hj & E). exists j. split; [lia|auto]. }
    destruct J as (j & Hj & J). exists j. split; auto. cbn [cc_c cc_rs]. assert (Ec : nth j c 0%float = nan). { unfold c. rewrite (nth_map2 _ _ _ nadd (cc_c s) x j 0%float 0%float) by lia. cbn [nadd NumF]. destruct J as [-> | ->]; [apply add_nan|apply nan_add]. }
    split; [exact Ec|]. rewrite (nth_map2 _ _ _ nadd (cc_rs s) (map nsq rt) j 0%float 0%float) by (rewrite ?map_length; lia). rewrite (nth_map' _ _ nsq rt j 0%float) by lia. unfold rt. rewrite (nth_map2 _ _ _ nsub x (map dv c) j 0%float 0%float) by (rewrite ?map_length; lia).
    rewrite (nth_map' _ _ dv c j 0%float) by lia. rewrite Ec. unfold dv. cbn [ndiv nsub NumF]. rewrite nan_div, sub_nan. unfold nsq. cbn [nmul nadd NumF]. rewrite mul_nan. apply add_nan.
Qed.
Lemma bad_distances : forall s, cc_shape s -> cc_bad s -> In nan (condensed n (cc_dist (kp_tiny p) s)).
Proof.
  intros s (L1 & L2 & L3 & L4) (j & Hj & _ & Er). assert (P : exists i k, (i < k)%nat /\ (k < n)%nat /\ (i = j \/ k = j)). { destruct (Nat.eq_dec j 0) as [-> | Nz]; [exists 0%nat, 1%nat; lia|exists 0%nat, j; lia]. }
  destruct P as (i & k & Hik & Hk & Hj2). unfold condensed. apply in_flat_map. exists i. split; [apply in_seq; lia|]. apply in_map_iff. exists k. split; [|apply in_seq; lia].
  unfold cc_dist. set (r := map nsqrt (cc_rs s)). assert (Lr : length r = n) by (unfold r; rewrite map_length; auto). set (g := fun c q : float => let d := nsub (nofZ 1) (ndiv c (if oeqb q n0 then kp_tiny p else q)) in if oltb d n0 then n0 else d).
  rewrite (nth_map2 _ _ _ (map2 g) (cc_C s) (outer r r) i [] []) by (unfold outer; rewrite ?map_length; lia). assert (Lo : length (nth i (cc_C s) []) = n). { rewrite Forall_forall in L4. apply L4. apply nth_In. lia. }
  unfold outer. rewrite (nth_map' _ _ (fun x => map (nmul x) r) r i 0%float) by lia. rewrite (nth_map2 _ _ _ g _ _ k 0%float 0%float) by (rewrite ?map_length; lia). rewrite (nth_map' _ _ (nmul (nth i r 0%float)) r k 0%float) by lia.
  assert (Ej : nth j r 0%float = nan). { unfold r. rewrite (nth_map' _ _ nsqrt (cc_rs s) j 0%float) by lia. rewrite Er. reflexivity. }
  assert (Eq : nmul (nth i r 0%float) (nth k r 0%float) = nan). { cbn [nmul NumF]. destruct Hj2 as [-> | ->]; rewrite Ej; [apply nan_mul_l|apply mul_nan]. }
  rewrite Eq. unfold g. cbv zeta. replace (@oeqb float (@num_ord float NumF) nan n0) with false by reflexivity. cbn [ndiv nsub NumF]. rewrite div_nan, sub_nan. reflexivity.
Qed.
End Mapping.
(** A nan in one of the first FM + 1 instances: the feature map is never learned. Fits succeed up to number FM; every later
    one raises ValueError, whatever is fitted, and every score is 0. (scipy's linkage rejects a nan.) *)
Theorem C122_kitnet_mapping : forall Y (p : kitpar float) n (h : list (mcall (list float) Y)) k z x y, (forall m D, In nan D -> kp_linkage p m D = Raise ValueError) -> (2 <= n)%nat ->
  Forall (fun r => length r = n) (fitted_instances h) -> length x = n ->
  let FM := match kp_fm p with Some f => f | None => kp_ad p end in
  nth_error (fitted_instances h) k = Some z -> has_nan z -> (k <= FM)%nat ->
  eval (md_fit (KitNet p) x y) (model_run (KitNet p) None h) = (if (length (fitted_instances h) <? FM)%nat then Ok tt else Raise ValueError) /\
  eval (md_score (KitNet p) x) (model_run (KitNet p) None h) = Ok (VScalar 0%float).
Proof.
  intros Y p n h k z x y HL Hn F Hx FM Ek Hz Hk. change FM with (kit_fmg p) in *. clear FM.
  set (poisoned := fun xs : list (list float) => exists z, In z (firstn (S (kit_fmg p)) xs) /\ has_nan z).
  set (inv := fun (xs : list (list float)) (s : option (kitobj float)) => Forall (fun x => length x = n) xs -> (kit_fmg p < length xs -> poisoned xs) ->
    match s with None => xs = [] | Some o => kt_n o = n /\ cc_shape n (kt_fm o) /\ kt_trained o = Nat.min (length xs) (kit_fmg p) /\ kt_map o = None /\ xs <> [] /\ (poisoned xs -> cc_bad n (kt_fm o)) end).
  assert (St : forall xs s x (y : option Y), Forall (fun x => length x = n) (xs ++ [x]) -> (kit_fmg p < length (xs ++ [x]) -> poisoned (xs ++ [x])) -> inv xs s ->
    exists s', md_fit (KitNet p) x y s = (if (length xs <? kit_fmg p)%nat then Ok tt else Raise ValueError, s') /\ inv (xs ++ [x]) s').
  { clear k z x y Ek Hz Hk Hx F h. intros xs s x y F C I. apply Forall_app in F. destruct F as [F Fx]. apply Forall_inv in Fx. rewrite app_length in C. cbn [length] in C.
    assert (Cx : kit_fmg p < length xs -> poisoned xs). { intros L. destruct (C ltac:(lia)) as (z & Iz & Hz). exists z. split; auto. rewrite firstn_app in Iz. replace (S (kit_fmg p) - length xs) with 0 in Iz by lia. cbn [firstn] in Iz. rewrite app_nil_r in Iz. exact Iz. }
    specialize (I F Cx). cbn [md_fit KitNet plain_model]. unfold bind at 1, modify at 1.
    assert (B : exists o, match s with Some _ => s | None => Some (kit_init (length x)) end = Some o /\ kt_n o = n /\ cc_shape n (kt_fm o) /\ kt_trained o = Nat.min (length xs) (kit_fmg p) /\ kt_map o = None /\ (poisoned xs -> cc_bad n (kt_fm o))).
    { destruct s as [o|]; [exists o; tauto|]. subst xs. eexists. split; [reflexivity|]. cbn [kit_init kt_n kt_fm kt_trained kt_map]. rewrite Fx. split; auto. split; [apply cc_init_shape|]. split; auto. split; auto. intros (z & Iz & _). rewrite firstn_nil in Iz. destruct Iz. }
    destruct B as (o & -> & Bn & Bc & Bt & Bm & Bb). destruct o as [on fm tr ex mp en ou]. cbn [kt_n kt_fm kt_trained kt_map] in *. subst on mp.
    unfold kit_process. unfold bind at 1, gets at 1. cbn [kt_trained]. destruct (Nat.ltb_spec (kit_fmg p + kp_ad p) tr); [lia|]. unfold kit_train. unfold bind at 1, gets at 1. cbn [kt_trained kt_map]. destruct (Nat.leb_spec tr (kit_fmg p)); [|lia]. cbn [andb]. unfold bind at 1. unfold kit_train_fm. unfold bind at 1. unfold zoom at 1. cbn [kt_fm].
    destruct (cc_step n Hn x fm Bc Fx) as (fm' & -> & Sf & Bf). cbn [kt_n kt_fm kt_trained kt_executed kt_map kt_ens kt_out]. unfold bind at 1, gets at 1. cbn [kt_trained]. assert (NE : xs ++ [x] <> []) by (destruct xs; discriminate).
    assert (Pb : poisoned (xs ++ [x]) -> cc_bad n fm'). { intros (z & Iz & Hz). apply Bf. rewrite firstn_app in Iz. apply in_app_or in Iz. destruct Iz as [Iz|Iz]; [right; apply Bb; exists z; auto|left]. destruct (S (kit_fmg p) - length xs); [destruct Iz|]. destruct Iz as [<- | Iz]; auto. rewrite firstn_nil in Iz. destruct Iz. }
    destruct (Nat.eqb_spec tr (kit_fmg p)) as [E|E], (Nat.ltb_spec (length xs) (kit_fmg p)); try lia.
    - unfold bind, lift. unfold cc_cluster. cbn [kt_n kt_fm]. destruct (Nat.ltb_spec n 2); [lia|]. rewrite (HL n _ (bad_distances p n Hn fm' Sf (Pb (C ltac:(lia))))). cbn [rbind]. eexists. split; [reflexivity|]. intros _ _. cbn [kt_n kt_fm kt_trained kt_map]. rewrite app_length. cbn [length]. split; auto. split; auto. split; [lia|]. split; auto.
    - unfold ret, modify. eexists. split; [reflexivity|]. intros _ _. cbn [kt_n kt_fm kt_trained kt_map]. rewrite app_length. cbn [length]. split; auto. split; auto. split; [lia|]. split; auto. }
  assert (I : inv (fitted_instances h) (model_run (KitNet p) None h)).
  { refine (plain_run_all _ _ _ _ _ _ inv _ _ h _ _).
    - intros xs s x0 y0 I F0 C0. destruct (St xs s x0 y0 F0 C0 I) as (s' & E & I'). unfold exec. cbn [md_fit KitNet plain_model] in E. rewrite E. apply I'; auto.
    - intros xs s x0 I F0 C0. specialize (I F0 C0). unfold exec. destruct s as [o|]; auto. destruct (kt_map o) eqn:E; [destruct I as (_ & _ & _ & I & _); congruence|]. cbn [snd]. rewrite E. exact I.
    - intros _ _. reflexivity. }
  assert (Hp : poisoned (fitted_instances h)). { exists z. split; auto. change (firstn (S (kit_fmg p)) (fitted_instances h)) with (firstn (S (kit_fmg p)) (skipn 0 (fitted_instances h))). apply (in_stretch _ _ k); auto. lia. }
  split.
  - destruct (St (fitted_instances h) (model_run (KitNet p) None h) x y) as (s' & E & _); auto.
    + apply Forall_app. split; auto.
    + intros _. destruct Hp as (z0 & I0 & H0). exists z0. split; auto. rewrite firstn_app. apply in_or_app. auto.
    + unfold eval. rewrite E. reflexivity.
  - specialize (I F (fun _ => Hp)). unfold eval. cbn [md_score KitNet plain_model]. destruct (model_run (KitNet p) None h) as [o|]. { destruct I as (_ & _ & _ & -> & _). reflexivity. } rewrite I in Ek. destruct k; discriminate.
Qed.
Print Assumptions C122_kitnet_mapping.

(** ** Half-space trees *)
(** A missing value read as minus infinity. *)
Definition as_ninf (x : list float) : list float := map (fun v => if is_nan v then neg_infinity else v) x.
Lemma as_ninf_index : forall x q, py_index (as_ninf x) q = rmap (fun v => if is_nan v then neg_infinity else v) (py_index x q).
Proof. intros x q. unfold as_ninf, py_index. rewrite nth_error_map. destruct (nth_error x q); reflexivity. Qed.
Lemma ltb_as_ninf : forall a v : float, @oltb float (@num_ord float NumF) a (if is_nan v then neg_infinity else v) = @oltb float (@num_ord float NumF) a v.
Proof. intros a v. destruct (is_nan v) eqn:E; auto. apply is_nan_iff in E. subst v. cbn [oltb num_ord NumF OrdF]. rewrite ltb_ninf, ltb_nan. reflexivity. Qed.
Lemma mass_as_ninf : forall D x first t, hs_update_mass D (as_ninf x) first t = hs_update_mass D x first t.
Proof.
  intros D x first. induction t as [|L IHL Rt IHR r l q w k]; auto. cbn [hs_update_mass]. destruct (k <? D)%nat; auto. rewrite as_ninf_index. destruct (py_index x q) as [v|e]; auto. cbn [rmap]. rewrite ltb_as_ninf, IHL, IHR. reflexivity.
Qed.
Lemma score_as_ninf : forall x t, hs_score_tree (as_ninf x) t = hs_score_tree x t.
Proof. intros x. induction t as [|L IHL Rt IHR r l q w k]; auto. cbn [hs_score_tree]. rewrite as_ninf_index. destruct (py_index x q) as [v|e]; auto. cbn [rmap rbind]. rewrite ltb_as_ninf, IHL, IHR. reflexivity. Qed.
Lemma each_ext : forall T B (m m' : M T B) l, (forall t, m t = m' t) -> each_tree m l = each_tree m' l.
Proof. intros T B m m' l H. induction l as [|t l IH]; auto. cbn [each_tree]. rewrite H, IH. reflexivity. Qed.
(** No call can tell a nan from minus infinity: in training and in scoring, the instance goes to the lower half of every
    split on the missing feature. *)
Theorem C122_trees : forall Y W D (s : hstst float) (h : list (mcall (list float) Y)) o,
  model_run (HalfSpaceTrees W D) s (map (Prop_Units.call_map as_ninf) h) = model_run (HalfSpaceTrees W D) s h /\
  model_call (HalfSpaceTrees W D) (Prop_Units.call_map as_ninf o) (model_run (HalfSpaceTrees W D) s h) = model_call (HalfSpaceTrees W D) o (model_run (HalfSpaceTrees W D) s h).
Proof.
  intros Y W D. assert (Fi : forall x y s, md_fit (HalfSpaceTrees (Y := Y) W D) (as_ninf x) y s = md_fit (HalfSpaceTrees W D) x y s).
  { intros x y s. cbn [md_fit HalfSpaceTrees plain_model]. unfold bind, modify. cbn [hs_roots hs_first hs_step]. rewrite (each_ext _ _ (hs_update_mass D (as_ninf x) (hs_first s)) (hs_update_mass D x (hs_first s))) by (intros; apply mass_as_ninf). reflexivity. }
  assert (Sc : forall x s, md_score (HalfSpaceTrees (Y := Y) W D) (as_ninf x) s = md_score (HalfSpaceTrees W D) x s).
  { intros x s. cbn [md_score HalfSpaceTrees plain_model]. unfold bind, gets, lift. replace (res_map (hs_score_tree (as_ninf x)) (hs_roots s)) with (res_map (hs_score_tree x) (hs_roots s)); auto. induction (hs_roots s) as [|t l IH]; auto. cbn [res_map]. rewrite score_as_ninf, IH. reflexivity. }
  assert (Ca : forall o s, model_call (HalfSpaceTrees (Y := Y) W D) (Prop_Units.call_map as_ninf o) s = model_call (HalfSpaceTrees W D) o s).
  { intros [x y|x|x y] s; cbn [Prop_Units.call_map model_call].
    - rewrite Fi. reflexivity.
    - rewrite Sc. reflexivity.
    - change (md_fit_score (HalfSpaceTrees (Y := Y) W D)) with (default_fit_score (md_fit (HalfSpaceTrees (Y := Y) W D)) (md_score (HalfSpaceTrees (Y := Y) W D))). unfold default_fit_score, bind. rewrite Fi. destruct (md_fit (HalfSpaceTrees W D) x y s) as [[[]|e] s']; auto. rewrite Sc. reflexivity. }
  intros s h o. split; [|apply Ca]. revert s. induction h as [|c h IH]; intros s; auto. unfold model_run in *. cbn [map fold_left]. unfold model_do at 2 4. unfold exec. rewrite Ca. apply IH.
Qed.
Print Assumptions C122_trees.

(** ** ExactStorm *)
Lemma has_nanb_iff : forall x, has_nanb x = true <-> has_nan x.
Proof.
  intros x. unfold has_nanb, has_nan. rewrite existsb_exists. split.
  - intros (v & I & E). apply is_nan_iff in E. subst v. exact I.
  - intros I. exists nan. split; auto.
Qed.
Lemma euclid_nan : forall r x, length r = length x -> has_nan r \/ has_nan x -> euclid r x = nan.
Proof.
  intros r x L H. unfold euclid. rewrite nsum_nan; [reflexivity|]. apply in_map_iff. unfold has_nan in H. destruct H as [H|H].
  - destruct (In_nth _ _ nan H) as (j & Hj & E). exists (nth j r nan, nth j x nan). split; [|rewrite <- combine_nth by auto; apply nth_In; rewrite combine_length; lia]. cbn [fst snd]. rewrite E. unfold nsq. cbn [nsub nmul NumF]. rewrite nan_sub. apply mul_nan.
  - destruct (In_nth _ _ nan H) as (j & Hj & E). exists (nth j r nan, nth j x nan). split; [|rewrite <- combine_nth by auto; apply nth_In; rewrite combine_length; lia]. cbn [fst snd]. rewrite E. unfold nsq. cbn [nsub nmul NumF]. rewrite sub_nan. apply mul_nan.
Qed.
(** A stored instance with a nan is a neighbour of nothing, yet counts in the denominator until it leaves the window; an
    instance with a nan has no neighbour, so its score is 0. *)
Theorem C122_storm : forall Y radius w (h : list (mcall (list float) Y)) x, (forall r, In r (fitted_instances h) -> length r = length x) ->
  let stored := removelast (lastn (Z.to_nat w) (fitted_instances h)) in (Z.of_nat (length stored) <= 2 ^ 53)%Z -> stored <> [] ->
  exists q, eval (md_score (ExactStorm radius) x) (model_run (ExactStorm radius) (Window_init w) h) = Ok (VScalar q) /\
    Prop_Ratio.is_ratio (if has_nanb x then 0 else Prop_Ratio.close_to radius x (filter (fun r => negb (has_nanb r)) stored)) (length stored) q.
Proof.
  intros Y radius w h x Hx stored Hb Hs. destruct (Prop_Ratio.C96_exact_storm_correctly_rounded Y radius w h x Hx Hb) as (q & E & _ & R). exists q. split; auto. specialize (R Hs). fold stored in R.
  replace (if has_nanb x then 0 else Prop_Ratio.close_to radius x (filter (fun r => negb (has_nanb r)) stored)) with (Prop_Ratio.close_to radius x stored); auto.
  assert (F : forall r, In r stored -> length r = length x) by (intros r Hr; apply Hx; eapply P_Lists.In_lastn, Prop_Simple.In_removelast; exact Hr). clear R E Hs Hb. clearbody stored. unfold Prop_Ratio.close_to.
  induction stored as [|r st IH]; [destruct (has_nanb x); reflexivity|]. cbn [filter]. specialize (IH (fun r' Hr => F r' (or_intror Hr))). pose proof (F r (or_introl eq_refl)) as Lr.
  destruct (has_nanb r) eqn:Er; cbn [negb].
  - apply has_nanb_iff in Er. rewrite euclid_nan by auto. rewrite nan_ltb. exact IH.
  - cbn [filter]. destruct (has_nanb x) eqn:Ex; [apply has_nanb_iff in Ex; rewrite euclid_nan by auto; rewrite nan_ltb; exact IH|]. destruct (PrimFloat.ltb (euclid r x) radius); cbn [length]; rewrite IH; reflexivity.
Qed.
Print Assumptions C122_storm.

(** ** Cases *)
Definition nan_par : kitpar float :=
  mkKP (fun x => x) (fun _ => 0.5%float) (fun k => k) (fun _ D => if has_nanb D then Raise ValueError else Ok (Node (Node (Leaf 0) (Leaf 2)) (Node (Leaf 1) (Leaf 3)))) neg_infinity infinity 0x1p-53%float 0x1p-300%float 0x1p-3%float 2 (Some 1%nat) 5.
(** Four features: after two clean instances, the third has a nan, the fourth and fifth have none. *)
Example C122_ex_training : let h := [CFit [1; 2; 3; 4]%float None; CFit [2; 3; 1; 0]%float (None : option unit); CFit [1; nan; 2; 2]%float None; CFit [1; 2; 3; 1]%float None] in
  kp_exp nan_par nan = nan /\ kit_ok nan_par 4 (fitted_instances h) /\ eval (md_score (KitNet nan_par) [1; 1; 2; 2]%float) (model_run (KitNet nan_par) None h) = Ok (VScalar nan).
Proof.
  split; [reflexivity|]. split; [|vm_compute; reflexivity]. split; [repeat constructor|]. intros _. exists (Node (Node (Leaf 0) (Leaf 2)) (Node (Leaf 1) (Leaf 3))). split; [vm_compute; reflexivity|]. cbn [dendro_leaves app seq].
  apply Permutation.perm_skip. apply Permutation.perm_swap.
Qed.
(** The first instance has the nan: the second and the third fit raise ValueError. *)
Example C122_ex_mapping : (forall m D, In nan D -> kp_linkage nan_par m D = Raise ValueError) /\
  let h := [CFit [1; nan; 3; 4]%float None; CFit [2; 3; 1; 0]%float (None : option unit)] in
  eval (md_fit (KitNet nan_par) [1; 1; 2; 2]%float None) (model_run (KitNet nan_par) None h) = Raise ValueError /\ eval (md_fit (KitNet nan_par) [1; 1; 2; 2]%float (None : option unit)) (model_run (KitNet nan_par) None (h ++ h)) = Raise ValueError.
Proof. split; [intros m D H; cbn; apply has_nanb_iff in H; rewrite H; reflexivity|]. split; vm_compute; reflexivity. Qed.
(** A tree that splits both features: the first fit reads the nan as minus infinity. *)
Definition nan_tree : hst float := HNode (HNode HNone HNone 0 0 0 0%float 1) (HNode HNone HNone 0 0 0 0%float 1) 0 0 1 0.5%float 0.
Example C122_ex_trees : let s := mkHST [nan_tree] true 0 in let run := fun x => model_run (HalfSpaceTrees (Y := unit) 1 1) s [CFit x None] in
  run [0.25; nan]%float = run [0.25; neg_infinity]%float /\ run [0.25; nan]%float <> run [0.25; 0.75]%float.
Proof. cbv zeta. split; [exact (eq_sym (proj1 (C122_trees unit 1 1 (mkHST [nan_tree] true 0) [CFit [0.25; nan]%float None] (CScore []))))|]. vm_compute. discriminate. Qed.
(** Three stored instances, one with a nan, one of the others near: 1/3; the same stored instances, and an instance with a nan: 0. *)
Example C122_ex_storm : let h := [CFit [nan; 0]%float None; CFit [0.5; 0]%float None; CFit [3; 0]%float None; CFit [0; 0]%float (None : option unit)] in
  (exists q, eval (md_score (ExactStorm 1%float) [0; 0]%float) (model_run (ExactStorm 1%float) (Window_init 4) h) = Ok (VScalar q) /\ Prop_Ratio.is_ratio 1 3 q) /\
  (exists q, eval (md_score (ExactStorm 1%float) [0; nan]%float) (model_run (ExactStorm 1%float) (Window_init 4) h) = Ok (VScalar q) /\ Prop_Ratio.is_ratio 0 3 q).
Proof.
  intros h. split.
  - destruct (C122_storm unit 1%float 4 h [0; 0]%float) as (q & E & R); [cbn; intros r [<-|[<-|[<-|[<-|[]]]]]; reflexivity|vm_compute; discriminate|vm_compute; discriminate|]. exists q. split; [exact E|exact R].
  - destruct (C122_storm unit 1%float 4 h [0; nan]%float) as (q & E & R); [cbn; intros r [<-|[<-|[<-|[<-|[]]]]]; reflexivity|vm_compute; discriminate|vm_compute; discriminate|]. exists q. split; [exact E|exact R].
Qed.
