(** * C126: what transform and fit_transform return for a whole batch, for every shipped transformer. *)
From Coq Require Import String.
From Coq Require Import List ZArith Lia Bool Reals Lra Permutation Arith.
From Verif Require Import Base Num Spec Model_Stats Model_Utils Model_Core Model_Post Model_Trans P_Lists P_Stats P_Utils P_Core P_Post P_Trans Prop_Trans.
Import ListNotations.

(** ** Specification: numbered rows, and a detector state after a list of fits *)
Definition numbered {X} (xs : list X) : list (nat * X) := combine (seq 0 (length xs)) xs.
Definition fitted_with {X S} (fit : pyarg X -> M S unit) (s : S) (xs : list X) : S := fold_left (fun s x => exec (fit (AInst x)) s) xs s.

Lemma mapM_pure : forall S I O (f : I -> M S O) (g : I -> O) l s, (forall x s, In x l -> f x s = (Ok (g x), s)) -> mapM f l s = (Ok (map g l), s).
Proof.
  intros S I O f g l. induction l as [|x l IH]; intros s H; [reflexivity|]. cbn [mapM map]. unfold bind, ret. rewrite H by (left; reflexivity). rewrite IH; [reflexivity|]. intros y s' Hy. apply H. right. exact Hy.
Qed.
Lemma store_array : forall A (l : list A) w, length l = w -> store_row w (VArray l) = Ok (map FinV l).
Proof. intros A [|a [|b l]] w <-; cbn [store_row]; [reflexivity|reflexivity|]. rewrite Nat.eqb_refl. reflexivity. Qed.
Lemma store_squeezed : forall A (l : list A) w, length l = w -> store_row w (squeeze l) = Ok (map FinV l).
Proof. intros A [|a [|b l]] w <-; cbn [squeeze store_row]; [reflexivity|reflexivity|]. rewrite Nat.eqb_refl. reflexivity. Qed.
(** Both batch methods of a transformer without memory. *)
Lemma memoryless_batch : forall X A (t : Transformer X A) (f : X -> pyval A) (g : X -> list (npres A)) w b s, output_width (tr_dims t) b = Ok w ->
  (forall x s, In x (batch_rows b) -> tr_transform t (AInst x) s = (Ok (f x), s) /\ tr_fit_transform t (AInst x) s = (Ok (f x), s)) ->
  (forall x, In x (batch_rows b) -> store_row w (f x) = Ok (g x)) ->
  Trans_transform t b s = (Ok (map g (batch_rows b)), s) /\ Trans_fit_transform t b s = (Ok (map g (batch_rows b)), s).
Proof.
  intros X A t f g w b s Hw Hf Hg. unfold Trans_transform, Trans_fit_transform, bind at 1 3, lift at 1 3. rewrite Hw, !map_gen_none. cbn [fst]. split; apply mapM_pure; intros x s' Hx; destruct (Hf x s' Hx) as [E1 E2]; unfold bind, lift; [rewrite E1|rewrite E2]; rewrite (Hg x Hx); reflexivity.
Qed.

Lemma mapM_count : forall I O (f : I -> M nat O) (g : nat -> I -> O) l s k, (forall x i, f x i = (Ok (g i x), S i)) ->
  mapM f l (s + k)%nat = (Ok (map (fun q => g (s + fst q)%nat (snd q)) (combine (seq k (length l)) l)), (s + k + length l)%nat).
Proof.
  intros I O f g l s k H. revert k. induction l as [|x l IH]; intros k; [cbn [mapM length seq combine map]; rewrite Nat.add_0_r; reflexivity|].
  cbn [mapM length seq combine map fst snd]. unfold bind, ret. rewrite H. replace (S (s + k))%nat with (s + S k)%nat by lia. rewrite IH. replace (s + S k + length l)%nat with (s + k + S (length l))%nat by lia. reflexivity.
Qed.

(** ** The identity returns the matrix. *)
Theorem C126_identity : forall A n (rows : list (list A)) s, Forall (fun x => length x = n) rows ->
  Trans_transform IdentityScaler (B2 n rows) s = (Ok (map (map FinV) rows), s) /\ Trans_fit_transform IdentityScaler (B2 n rows) s = (Ok (map (map FinV) rows), s).
Proof.
  intros A n rows s F. rewrite Forall_forall in F. apply (memoryless_batch _ _ (IdentityScaler (A := A)) VArray (map FinV) n (B2 n rows) s); [reflexivity| |]; intros x.
  - intros [] Hx. split; reflexivity.
  - intros Hx. apply store_array. apply F. exact Hx.
Qed.
Print Assumptions C126_identity.
(** ** StreamhashProjector: num_components columns, column k with the weights of component k, for any batch. *)
Theorem C126_streamhash : forall mmh3 n density p b s, (1 <= n)%Z -> Streamhash_init 1%R n density = Ok p ->
  let W := sh_weight mmh3 density (sqrt (1 / density) / sqrt (IZR n))%R in
  let out := map (fun x => map (fun k => FinV (weighted W k x)) (seq 0 (Z.to_nat n))) (batch_rows b) in
  Trans_transform (SH mmh3 p) b s = (Ok out, s) /\ Trans_fit_transform (SH mmh3 p) b s = (Ok out, s).
Proof.
  intros mmh3 n density p b s Hn E W out.
  apply (memoryless_batch _ _ (SH mmh3 p) (fun x => squeeze (map (fun k => weighted W k x) (seq 0 (Z.to_nat n)))) _ (Z.to_nat n) b s).
  - unfold Streamhash_init in E. destruct (pydiv 1%R density); [|discriminate]. injection E as <-. cbn [tr_dims StreamhashProjector sh_ncomp output_width]. destruct (Z.ltb_spec 0 n); [reflexivity|lia].
  - intros x s' Hx. split; cbn [tr_transform tr_fit_transform StreamhashProjector]; unfold default_fit_transform, bind, on_instance, lift, ret; rewrite (streamhash_value mmh3 n density p x Hn E); reflexivity.
  - intros x Hx. rewrite store_squeezed by (rewrite map_length, seq_length; reflexivity). rewrite map_map. reflexivity.
Qed.
Print Assumptions C126_streamhash.
(** ** The instance scalers: every row is scaled on its own. *)
Theorem C126_instance_scalers : forall n (rows : list (list R)) one two pw o s, Forall (fun x => length x = n) rows ->
  (let out := map (fun x => map (fun v => FinV (npdiv (nsub v (vec_mean x)) (vec_std x))) x) rows in
   Trans_transform InstanceStandardScaler (B2 n rows) s = (Ok out, s) /\ Trans_fit_transform InstanceStandardScaler (B2 n rows) s = (Ok out, s)) /\
  (forall norm, (forall x, In x rows -> np_norm one two pw o x = Ok (norm x)) ->
   let out := map (fun x => map (fun v => FinV (npdiv v (norm x))) x) rows in
   Trans_transform (InstanceUnitNormScaler one two pw o) (B2 n rows) s = (Ok out, s) /\ Trans_fit_transform (InstanceUnitNormScaler one two pw o) (B2 n rows) s = (Ok out, s)).
Proof.
  intros n rows one two pw o s F. rewrite Forall_forall in F. split.
  - apply (memoryless_batch _ _ (InstanceStandardScaler (A := R)) (fun x => VArray (standard_scale x)) _ n (B2 n rows) s); [reflexivity| |]; intros x.
    + intros [] Hx. split; reflexivity.
    + intros Hx. rewrite (store_array _ _ n) by (unfold standard_scale; rewrite map_length; apply F; exact Hx). unfold standard_scale. rewrite map_map. reflexivity.
  - intros norm HN. apply (memoryless_batch _ _ (InstanceUnitNormScaler one two pw o) (fun x => VArray (map (fun v => npdiv v (norm x)) x)) _ n (B2 n rows) s); [reflexivity| |]; intros x.
    + intros [] Hx. split; cbn [tr_transform tr_fit_transform InstanceUnitNormScaler]; unfold default_fit_transform, bind, on_instance, lift, ret, unit_scale; rewrite (HN x Hx); reflexivity.
    + intros Hx. rewrite (store_array _ _ n) by (rewrite map_length; apply F; exact Hx). rewrite map_map. reflexivity.
Qed.
Print Assumptions C126_instance_scalers.
(** ** The random projectors: row i is projected by the i-th new matrix. *)
Theorem C126_random : forall (draw : nat -> nat -> nat -> list (list R)) n b s, (1 <= n)%Z -> (forall i k d, length (draw i k d) = k) ->
  let out := map (fun q => map (fun r => FinV (dot (snd q) r)) (draw (s + fst q)%nat (Z.to_nat n) (length (snd q)))) (numbered (batch_rows b)) in
  let s' := (s + length (batch_rows b))%nat in
  Trans_transform (RandomProjector draw (DInt n)) b s = (Ok out, s') /\ Trans_fit_transform (RandomProjector draw (DInt n)) b s = (Ok out, s').
Proof.
  intros draw n b s Hn Hd. cbv zeta.
  assert (G : mapM (fun x => bind (tr_transform (RandomProjector draw (DInt n)) (AInst x)) (fun v => lift (store_row (Z.to_nat n) v))) (batch_rows b) (s + 0)%nat =
    (Ok (map (fun q => map (fun r => FinV (dot (snd q) r)) (draw (s + fst q)%nat (Z.to_nat n) (length (snd q)))) (numbered (batch_rows b))), (s + 0 + length (batch_rows b))%nat)).
  { apply (mapM_count _ _ _ (fun i x => map (fun r => FinV (dot x r)) (draw i (Z.to_nat n) (length x)))). intros x i. unfold bind at 1. cbn [tr_transform RandomProjector]. unfold on_instance, random_transform, bind, gets, modify, ret, raise, lift.
    destruct (Z.leb_spec n 0); [lia|]. rewrite (store_array _ _ (Z.to_nat n)) by (rewrite map_length; apply Hd). rewrite map_map. reflexivity. }
  rewrite Nat.add_0_r in G.
  unfold Trans_transform, Trans_fit_transform, bind at 1 3, lift at 1 3. cbn [tr_dims RandomProjector output_width]. destruct (Z.ltb_spec 0 n); [|lia]. rewrite !map_gen_none. cbn [fst]. split; exact G.
Qed.
Print Assumptions C126_random.
(** ** A transformer that inherits fit_transform_partial: row i is the answer of transform_partial to instance i after the
    instances up to and including i have been fitted. *)
Theorem C126_inherited : forall X A S (d : dims) (fit : pyarg X -> M S unit) (tr : pyarg X -> M S (pyval A)) b s out s', (forall a s, exec (tr a) s = s) ->
  let t := mkTrans X A S d fit tr (default_fit_transform fit tr) in
  Trans_fit_transform t b s = (Ok out, s') ->
  s' = fitted_with fit s (batch_rows b) /\ exists w, output_width d b = Ok w /\
  forall i row, nth_error out i = Some row -> exists x v, nth_error (batch_rows b) i = Some x /\ eval (tr (AInst x)) (fitted_with fit s (firstn (i + 1) (batch_rows b))) = Ok v /\ store_row w v = Ok row.
Proof.
  intros X A S d fit tr b s out s' Hk t H. unfold Trans_fit_transform, bind at 1, lift at 1 in H. cbn [tr_dims t] in H. destruct (output_width d b) as [w|e]; [|discriminate]. rewrite map_gen_none in H. cbn [fst tr_fit_transform t tr_state] in H.
  cut (s' = fitted_with fit s (batch_rows b) /\ forall i row, nth_error out i = Some row -> exists x v, nth_error (batch_rows b) i = Some x /\ eval (tr (AInst x)) (fitted_with fit s (firstn (i + 1) (batch_rows b))) = Ok v /\ store_row w v = Ok row).
  { intros [Q1 Q2]. split; auto. exists w. split; auto. }
  revert s out s' H. generalize (batch_rows b). clear b t. induction l as [|x l IH]; intros s out s' H.
  - cbn in H. injection H as <- <-. split; [reflexivity|]. intros [|i] row Q; discriminate.
  - cbn [mapM] in H. unfold bind at 1 2 in H. unfold default_fit_transform at 1 in H. unfold bind at 1 in H. pose proof (eq_refl (fit (AInst x) s)) as Ef. destruct (fit (AInst x) s) as [[[]|e] s1] eqn:E1 in H; [|discriminate]. clear Ef.
    destruct (tr (AInst x) s1) as [[v|e] s2] eqn:E2; [|discriminate]. assert (s2 = s1) by (rewrite <- (Hk (AInst x) s1); unfold exec; rewrite E2; reflexivity). subst s2. unfold lift at 1 in H. destruct (store_row w v) as [row0|e] eqn:E3; [|discriminate].
    unfold bind at 1 in H. match type of H with context [mapM ?f l s1] => destruct (mapM f l s1) as [[os|e] s3] eqn:E4 end; [|discriminate]. unfold ret in H. injection H as <- <-.
    destruct (IH s1 os s3 E4) as [Q1 Q2]. assert (Es : exec (fit (AInst x)) s = s1) by (unfold exec; rewrite E1; reflexivity). split.
    + unfold fitted_with. cbn [fold_left]. rewrite Es. exact Q1.
    + intros [|i] row Q.
      * cbn in Q. injection Q as <-. exists x, v. split; [reflexivity|]. split; [|exact E3]. unfold fitted_with. cbn [firstn Nat.add fold_left]. rewrite Es. unfold eval. rewrite E2. reflexivity.
      * cbn in Q. destruct (Q2 i row Q) as (y & u & A1 & A2 & A3). exists y, u. split; [exact A1|]. split; [|exact A3]. unfold fitted_with in *. cbn [firstn Nat.add fold_left]. rewrite Es. exact A2.
Qed.
Print Assumptions C126_inherited.
(** ** Examples *)
(** A running count of the instances, and the identity on a 2 x 3 matrix. *)
Definition CountTransformer : Transformer (list nat) nat :=
  let fit := fun _ s => (Ok tt, S s) in let tr := fun _ s => (Ok (VScalar s), s) in mkTrans (list nat) nat nat (DInt 1) fit tr (default_fit_transform fit tr).
Example C126_ex : Trans_fit_transform CountTransformer (B1 [[7]; [8]; [9]]%nat) 0%nat = (Ok [[FinV 1]; [FinV 2]; [FinV 3]]%nat, 3%nat) /\
  Trans_transform IdentityScaler (B2 3 [[1; 2; 3]; [4; 5; 6]]%nat) tt = (Ok [[FinV 1; FinV 2; FinV 3]; [FinV 4; FinV 5; FinV 6]]%nat, tt).
Proof. split; reflexivity. Qed.
Example C126_random_ex : forall draw : nat -> nat -> nat -> list (list R), (forall i k d, length (draw i k d) = k) ->
  fst (Trans_transform (RandomProjector draw (DInt 1)) (B1 [[1%R]; [1%R]]) 5%nat) = Ok [map (fun r => FinV (dot [1%R] r)) (draw 5%nat 1%nat 1%nat); map (fun r => FinV (dot [1%R] r)) (draw 6%nat 1%nat 1%nat)].
Proof. intros draw Hd. destruct (C126_random draw 1 (B1 [[1%R]; [1%R]]) 5 ltac:(lia) Hd) as [E _]. rewrite E. reflexivity. Qed.
Example C126_streamhash_ex : forall mmh3, exists p, Streamhash_init 1%R 2 1%R = Ok p /\
  fst (Trans_transform (SH mmh3 p) (B2 1 [[3%R]]) tt) = Ok [map (fun k => FinV (weighted (sh_weight mmh3 1 (sqrt (1 / 1) / sqrt (IZR 2))) k [3%R])) (seq 0 2)].
Proof.
  intros mmh3. assert (I : exists p, Streamhash_init 1%R 2 1%R = Ok p). { unfold Streamhash_init, pydiv. cbn [oeqb num_ord NumR OrdR n0]. destruct (Reqb 1 0) eqn:Q; [apply Reqb_eq in Q; lra|]. eexists; reflexivity. }
  destruct I as [p E]. exists p. split; auto. destruct (C126_streamhash mmh3 2 1%R p (B2 1 [[3%R]]) tt ltac:(lia) E) as [T _]. rewrite T. reflexivity.
Qed.
Example C126_scalers_ex : forall pw s, fst (Trans_transform (InstanceUnitNormScaler 1%R 2%R pw (OPow 1%R)) (B2 2 [[3%R; 1%R]; [0%R; -5]]%R) s) = Ok [[FinV (FinV (3 / 4)); FinV (FinV (1 / 4))]; [FinV (FinV (0 / 5)); FinV (FinV (- 5 / 5))]]%R.
Proof.
  intros pw s. pose (norm := fun x : list R => nsum (map nabs x)).
  assert (HN : forall x, In x [[3; 1]; [0; -5]]%R -> np_norm 1%R 2%R pw (OPow 1%R) x = Ok (norm x)).
  { intros x _. unfold np_norm. cbn [oeqb num_ord NumR OrdR n0]. destruct (Reqb 1 0) eqn:Q; [apply Reqb_eq in Q; lra|]. destruct (Reqb 1 1) eqn:Q1; [reflexivity|apply Reqb_neq in Q1; lra]. }
  assert (F : Forall (fun x : list R => length x = 2%nat) [[3; 1]; [0; -5]]%R) by (repeat constructor).
  destruct (C126_instance_scalers 2 _ 1%R 2%R pw (OPow 1%R) s F) as [_ H]. destruct (H norm HN) as [E _]. rewrite E. cbn [fst map].
  assert (N1 : norm [3; 1]%R = 4%R). { unfold norm, nsum. cbn [map fold_left nadd nabs n0 NumR]. rewrite !Rabs_pos_eq by lra. lra. }
  assert (N2 : norm [0; -5]%R = 5%R). { unfold norm, nsum. cbn [map fold_left nadd nabs n0 NumR]. rewrite Rabs_pos_eq by lra. rewrite Rabs_left by lra. lra. }
  rewrite N1, N2. unfold npdiv. cbn [oeqb num_ord NumR OrdR n0 ndiv]. destruct (Reqb 4 0) eqn:Q; [apply Reqb_eq in Q; lra|]. destruct (Reqb 5 0) eqn:Q5; [apply Reqb_eq in Q5; lra|]. reflexivity.
Qed.
