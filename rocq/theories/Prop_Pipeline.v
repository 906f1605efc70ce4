(** * C99: processing a stream instance by instance, or a batch stage by stage. *)
From Coq Require Import List ZArith Lia Bool Arith Floats.
From Verif Require Import Base Num Spec Model_Stats Model_Utils Model_Core Model_Post Model_Trans Model_Simple P_Core P_Models.
Import ListNotations.
Open Scope nat_scope.

(** ** Specification *)
(** The loop of the README: preprocess, fit and score, postprocess, one instance after the other.  The state is that of the
    three objects.  The score of the detector is a scalar. *)
Definition elements {A} (v : pyval A) : list A := match v with VNone => [] | VScalar a => [a] | VArray l => l end.
Definition stream_one {X Y A B C} (t : Transformer X A) (m : Model (list A) Y B) (p : Postprocessor B C) (c : X * option Y) : M (tr_state t * md_state m * pp_state p) (npres C) :=
  fun s => let '(st, sm, sp) := s in
  match tr_fit_transform t (AInst (fst c)) st with
  | (Raise e, st) => (Raise e, (st, sm, sp))
  | (Ok v, st) => match md_fit_score m (elements v) (snd c) sm with
    | (Ok (VScalar a), sm) => match pp_fit_transform p a sp with
      | (Ok w, sp) => (store w, (st, sm, sp))
      | (Raise e, sp) => (Raise e, (st, sm, sp))
      end
    | (Ok _, sm) => (Raise ValueError, (st, sm, sp))
    | (Raise e, sm) => (Raise e, (st, sm, sp))
    end
  end.
Definition labelled {X Y} (xs : list X) (ys : option (list Y)) : list (X * option Y) :=
  match ys with None => map (fun x => (x, None)) xs | Some ys => map (fun q => (fst q, Some (snd q))) (combine xs ys) end.
Definition as_many_labels {X Y} (xs : list X) (ys : option (list Y)) : Prop := match ys with None => True | Some l => length xs = length l end.
(** What the next stage reads from an array of float64 cells without nan. *)
Definition numbers {A} (l : list (npres A)) : list A := flat_map (fun c => match c with FinV a => [a] | NonFin => [] end) l.
(** The transformer answers an array of w elements on every instance of the batch, the detector answers scalars. *)
Definition gives_arrays {X A} (t : Transformer X A) (w : nat) (xs : list X) : Prop := forall x s v s', In x xs -> tr_fit_transform t (AInst x) s = (Ok v, s') -> exists l, v = VArray l /\ length l = w.
Definition gives_scalars {X Y A} (m : Model X Y A) : Prop := forall x y s v s', md_fit_score m x y s = (Ok v, s') -> exists a, v = VScalar a.

(** ** Lemmas *)
Lemma map_gen_labelled : forall S X Y O (body : X * option Y -> M S O) xs ys s, as_many_labels xs ys -> map_gen body (iterate xs ys) s = mapM body (labelled xs ys) s.
Proof.
  intros S X Y O body xs [ys|] s H; cbn [as_many_labels labelled] in *.
  - rewrite map_gen_some by exact H. rewrite mapM_map. reflexivity.
  - rewrite map_gen_none, mapM_map. reflexivity.
Qed.
Lemma mapM_cons_ok : forall S I O (f : I -> M S O) x l s outs s', mapM f (x :: l) s = (Ok outs, s') <-> exists o os s1, f x s = (Ok o, s1) /\ mapM f l s1 = (Ok os, s') /\ outs = o :: os.
Proof.
  intros S I O f x l s outs s'. cbn [mapM]. unfold bind, ret. split.
  - destruct (f x s) as [[o|e] s1]; [|discriminate]. destruct (mapM f l s1) as [[os|e] s2] eqn:E; [|discriminate]. intros H. injection H as <- <-. exists o, os, s1. auto.
  - intros (o & os & s1 & -> & E & ->). rewrite E. reflexivity.
Qed.
Lemma numbers_fin : forall A (l : list A), numbers (map FinV l) = l.
Proof. intros A l. unfold numbers. induction l as [|a l IH]; [reflexivity|]. cbn [map flat_map app]. rewrite IH. reflexivity. Qed.
Lemma store_row_array : forall A (l : list A), store_row (length l) (VArray l) = Ok (map FinV l).
Proof. intros A [|a [|b l]]; cbn [store_row]; [reflexivity|reflexivity|]. rewrite Nat.eqb_refl. reflexivity. Qed.

Section Stages.
Variables (X Y A B C : Type) (t : Transformer X A) (m : Model (list A) Y B) (p : Postprocessor B C) (w : nat).
Hypotheses (Hs : gives_scalars m).
Let stage1 (x : X) : M (tr_state t) (list (npres A)) := v <- tr_fit_transform t (AInst x) ;; lift (store_row w v).
Let stage2 (c : list A * option Y) : M (md_state m) (npres B) := v <- md_fit_score m (fst c) (snd c) ;; lift (store v).
Let stage3 (b : B) : M (pp_state p) (npres C) := v <- pp_fit_transform p b ;; lift (store v).
Lemma stages : forall (cs : list (X * option Y)) st sm sp outs st' sm' sp', gives_arrays t w (map fst cs) ->
  mapM (stream_one t m p) cs (st, sm, sp) = (Ok outs, (st', sm', sp')) <->
  exists rows scores, mapM stage1 (map fst cs) st = (Ok rows, st') /\ mapM stage2 (combine (map numbers rows) (map snd cs)) sm = (Ok scores, sm') /\ mapM stage3 (numbers scores) sp = (Ok outs, sp').
Proof.
  induction cs as [|[x y] cs IH]; intros st sm sp outs st' sm' sp' Ha.
  - cbn [mapM map combine]. unfold ret. split.
    + intros H. injection H as <- <- <- <-. exists [], []. repeat split; reflexivity.
    + intros (rows & scores & H1 & H2 & H3). injection H1 as <- <-. cbn in H2. injection H2 as <- <-. cbn in H3. unfold ret in H3. injection H3 as <- <-. reflexivity.
  - assert (Ha' : gives_arrays t w (map fst cs)) by (intros z zs zv zs' Hz; apply Ha; right; exact Hz).
    assert (Hx : In x (map fst ((x, y) :: cs))) by (left; reflexivity).
    rewrite mapM_cons_ok. cbn [map fst snd]. split.
    + intros (o & os & s1 & E1 & E2 & ->). unfold stream_one in E1. cbn [fst snd] in E1.
      destruct (tr_fit_transform t (AInst x) st) as [[v|e] st1] eqn:Et; [|discriminate]. destruct (Ha _ _ _ _ Hx Et) as (l & -> & Hl). cbn [elements] in E1.
      destruct (md_fit_score m l y sm) as [[b|e] sm1] eqn:Em; [|discriminate]. destruct (Hs _ _ _ _ _ Em) as [a ->].
      destruct (pp_fit_transform p a sp) as [[u|e] sp1] eqn:Ep; [|discriminate]. injection E1 as Eu <-.
      apply IH in E2; [|exact Ha']. destruct E2 as (rows & scores & H1 & H2 & H3). exists (map FinV l :: rows), (FinV a :: scores). split; [|split].
      * apply mapM_cons_ok. exists (map FinV l), rows, st1. split; [|auto]. unfold stage1, bind. rewrite Et. unfold lift. rewrite <- Hl, store_row_array. reflexivity.
      * cbn [map combine]. rewrite numbers_fin. apply mapM_cons_ok. exists (FinV a), scores, sm1. split; [|auto]. unfold stage2, bind. cbn [fst snd]. rewrite Em. reflexivity.
      * change (numbers (FinV a :: scores)) with (a :: numbers scores). apply mapM_cons_ok. exists o, os, sp1. split; [|auto]. unfold stage3, bind. rewrite Ep. unfold lift. rewrite Eu. reflexivity.
    + intros (rows & scores & H1 & H2 & H3). apply mapM_cons_ok in H1. destruct H1 as (r & rows' & st1 & Q1 & R1 & ->). unfold stage1, bind in Q1. destruct (tr_fit_transform t (AInst x) st) as [[v|e] st2] eqn:Et; [|discriminate]. destruct (Ha _ _ _ _ Hx Et) as (l & -> & Hl). unfold lift in Q1. rewrite <- Hl, store_row_array in Q1. injection Q1 as <- <-.
      cbn [map combine] in H2. rewrite numbers_fin in H2. apply mapM_cons_ok in H2. destruct H2 as (o2 & scores' & sm1 & Q2 & R2 & ->). unfold stage2, bind in Q2. cbn [fst snd] in Q2. destruct (md_fit_score m l y sm) as [[b|e] sm2] eqn:Em; [|discriminate]. destruct (Hs _ _ _ _ _ Em) as [a ->]. cbn in Q2. injection Q2 as <- <-.
      change (numbers (FinV a :: scores')) with (a :: numbers scores') in H3. apply mapM_cons_ok in H3. destruct H3 as (o & os & sp1 & Q3 & R3 & ->). unfold stage3, bind in Q3. destruct (pp_fit_transform p a sp) as [[u|e] sp2] eqn:Ep; [|discriminate]. unfold lift in Q3. injection Q3 as Eu <-.
      exists o, os, (st2, sm2, sp2). split; [|split; [|reflexivity]].
      * unfold stream_one. cbn [fst snd]. rewrite Et. cbn [elements]. rewrite Em, Ep, Eu. reflexivity.
      * apply IH; [exact Ha'|]. exists rows', scores'. auto.
Qed.
End Stages.
Lemma map_fst_labelled : forall X Y (xs : list X) (ys : option (list Y)), as_many_labels xs ys -> map fst (labelled xs ys) = xs.
Proof.
  intros X Y xs [ys|] H; cbn [labelled as_many_labels] in *; rewrite map_map; cbn [fst]; [|apply map_id].
  revert ys H. induction xs as [|x xs IH]; intros [|y ys] H; try discriminate; [reflexivity|]. cbn [combine map fst]. rewrite IH by (cbn in H; lia). reflexivity.
Qed.
Lemma labelled_other : forall X X' Y (xs : list X) (zs : list X') (ys : option (list Y)), as_many_labels xs ys -> length zs = length xs -> labelled zs ys = combine zs (map snd (labelled xs ys)).
Proof.
  intros X X' Y xs zs [ys|] H L; cbn [labelled as_many_labels] in *; rewrite map_map; cbn [snd].
  - revert ys zs H L. induction xs as [|x xs IH]; intros [|y ys] [|z zs] H L; try discriminate; [reflexivity|]. cbn [combine map fst snd]. rewrite (IH ys zs) by (cbn in *; lia). reflexivity.
  - clear H. revert zs L. induction xs as [|x xs IH]; intros [|z zs] L; try discriminate; [reflexivity|]. cbn [combine map fst snd]. rewrite (IH zs) by (cbn in *; lia). reflexivity.
Qed.

(** ** C99 *)
Theorem C99_stage_by_stage : forall X Y A B C (t : Transformer X A) (m : Model (list A) Y B) (p : Postprocessor B C) w width xs ys st sm sp outs st' sm' sp',
  gives_arrays t w xs -> gives_scalars m -> output_width (tr_dims t) (B2 width xs) = Ok w -> as_many_labels xs ys ->
  (mapM (stream_one t m p) (labelled xs ys) (st, sm, sp) = (Ok outs, (st', sm', sp')) <->
   exists rows scores, Trans_fit_transform t (B2 width xs) st = (Ok rows, st') /\ BaseModel_fit_score m (map numbers rows) ys sm = (Ok scores, sm') /\
     Post_fit_transform p (numbers scores) sp = (Ok outs, sp')).
Proof.
  intros X Y A B C t m p w width xs ys st sm sp outs st' sm' sp' Ha Hs Hw Hl. rewrite (stages X Y A B C t m p w Hs) by (rewrite map_fst_labelled by exact Hl; exact Ha). rewrite map_fst_labelled by exact Hl.
  assert (L : forall rows, Trans_fit_transform t (B2 width xs) st = (Ok rows, st') <-> mapM (fun x => v <- tr_fit_transform t (AInst x) ;; lift (store_row w v)) xs st = (Ok rows, st')).
  { intros rows. unfold Trans_fit_transform. unfold bind at 1, lift at 1. rewrite Hw. cbn [batch_rows]. rewrite map_gen_none. reflexivity. }
  split; intros (rows & scores & H1 & H2 & H3); exists rows, scores.
  - assert (LR : length (map numbers rows) = length xs) by (rewrite map_length; exact (mapM_length _ _ _ _ _ _ _ _ H1)).
    split; [apply L; exact H1|]. split.
    + unfold BaseModel_fit_score. rewrite map_gen_labelled by (destruct ys; cbn in *; [rewrite LR; exact Hl|exact I]). rewrite (labelled_other X _ Y xs) by auto. exact H2.
    + unfold Post_fit_transform. rewrite map_gen_none. exact H3.
  - apply L in H1. assert (LR : length (map numbers rows) = length xs) by (rewrite map_length; exact (mapM_length _ _ _ _ _ _ _ _ H1)).
    split; [exact H1|]. split.
    + unfold BaseModel_fit_score in H2. rewrite map_gen_labelled in H2 by (destruct ys; cbn in *; [rewrite LR; exact Hl|exact I]). rewrite (labelled_other X _ Y xs) in H2 by auto. exact H2.
    + unfold Post_fit_transform in H3. rewrite map_gen_none in H3. exact H3.
Qed.
Print Assumptions C99_stage_by_stage.

(** Several detectors fed in one loop, as in the ensemble example: each behaves as it does alone, fed the whole batch. *)
Definition both_fit_score {X Y A} (m n : Model X Y A) (c : X * option Y) : M (md_state m * md_state n) (npres A * npres A) :=
  fun s => match md_fit_score m (fst c) (snd c) (fst s) with
  | (Raise e, sm) => (Raise e, (sm, snd s))
  | (Ok v, sm) => match md_fit_score n (fst c) (snd c) (snd s) with
    | (Raise e, sn) => (Raise e, (sm, sn))
    | (Ok w, sn) => (match store v, store w with Ok a, Ok b => Ok (a, b) | Raise e, _ => Raise e | _, Raise e => Raise e end, (sm, sn))
    end
  end.
Theorem C99_side_by_side : forall X Y A (m n : Model X Y A) xs ys sm sn outs sm' sn', as_many_labels xs ys ->
  (mapM (both_fit_score m n) (labelled xs ys) (sm, sn) = (Ok outs, (sm', sn')) <->
   BaseModel_fit_score m xs ys sm = (Ok (map fst outs), sm') /\ BaseModel_fit_score n xs ys sn = (Ok (map snd outs), sn')).
Proof.
  intros X Y A m n xs ys sm sn outs sm' sn' Hl. unfold BaseModel_fit_score. rewrite !map_gen_labelled by exact Hl. clear Hl. generalize (labelled xs ys). clear xs ys. intros cs.
  revert sm sn outs. induction cs as [|[x y] cs IH]; intros sm sn outs.
  - cbn [mapM]. unfold ret. split.
    + intros H. injection H as <- <- <-. split; reflexivity.
    + intros [H1 H2]. injection H1 as H1 <-. injection H2 as H2 <-. symmetry in H1. apply map_eq_nil in H1. subst outs. reflexivity.
  - rewrite !mapM_cons_ok. split.
    + intros ([a b] & os & [sm1 sn1] & E1 & E2 & ->). unfold both_fit_score in E1. cbn [fst snd] in E1.
      destruct (md_fit_score m x y sm) as [[v|e] sm2] eqn:Em; [|discriminate]. destruct (md_fit_score n x y sn) as [[w|e] sn2] eqn:En; [|discriminate].
      destruct (store v) as [a'|] eqn:Ea; [|discriminate]. destruct (store w) as [b'|] eqn:Eb; [|discriminate]. injection E1 as <- <- <- <-.
      apply IH in E2. destruct E2 as [R1 R2]. split.
      * exists a', (map fst os), sm2. split; [|auto]. unfold bind, lift. cbn [fst snd]. rewrite Em, Ea. reflexivity.
      * exists b', (map snd os), sn2. split; [|auto]. unfold bind, lift. cbn [fst snd]. rewrite En, Eb. reflexivity.
    + intros [(a & as_ & sm1 & Q1 & R1 & O1) (b & bs & sn1 & Q2 & R2 & O2)]. destruct outs as [|[a' b'] os]; [discriminate|]. cbn [map fst snd] in O1, O2. injection O1 as -> <-. injection O2 as -> <-.
      unfold bind, lift in Q1, Q2. cbn [fst snd] in Q1, Q2.
      destruct (md_fit_score m x y sm) as [[v|e] sm2] eqn:Em; [|discriminate]. destruct (md_fit_score n x y sn) as [[w|e] sn2] eqn:En; [|discriminate]. injection Q1 as Ea <-. injection Q2 as Eb <-.
      exists (a, b), os, (sm2, sn2). split; [|split; [apply IH; auto|reflexivity]]. unfold both_fit_score. cbn [fst snd]. rewrite Em, En, Ea, Eb. reflexivity.
Qed.
Print Assumptions C99_side_by_side.

(** Fitting the whole batch and scoring it afterwards is a different thing: the first scores then depend on the instances that follow. *)
Theorem C99_fit_then_score_refuted : exists (xs : list (list float)) a b s' s'',
  BaseModel_fit_score (ExactStorm (Y := unit) 1%float) xs None (Window_init 10) = (Ok a, s') /\
  bind (BaseModel_fit (ExactStorm (Y := unit) 1%float) xs None) (fun _ => BaseModel_score (ExactStorm (Y := unit) 1%float) xs) (Window_init 10) = (Ok b, s'') /\
  nth_error a 0 = Some (FinV 0%float) /\ nth_error b 0 = Some (FinV 1%float).
Proof. exists [[0]; [0]; [5]]%float. do 4 eexists. split; [vm_compute; reflexivity|]. split; [vm_compute; reflexivity|]. split; reflexivity. Qed.
Print Assumptions C99_fit_then_score_refuted.

Lemma storm_gives_scalars : forall Y A (N : Num A) (radius : A), gives_scalars (ExactStorm (Y := Y) radius).
Proof.
  intros Y A N radius x y s v s'. cbn [md_fit_score ExactStorm plain_model]. unfold default_fit_score, bind, Window_get, gets, lift, ret.
  destruct (Window_update x s) as [[u|e] s1]; [|discriminate]. destruct (storm_score _ _ _); [|discriminate]. intros H. injection H as <- _. eauto.
Qed.
Lemma identity_gives_arrays : forall A w (xs : list (list A)), Forall (fun x => length x = w) xs -> gives_arrays IdentityScaler w xs.
Proof.
  intros A w xs H x s v s' Hx E. rewrite Forall_forall in H. cbn [tr_fit_transform IdentityScaler] in E. unfold default_fit_transform, bind, ret, on_instance in E. injection E as <- _. exists x. split; [reflexivity|exact (H x Hx)].
Qed.
Example C99_ex : let xs := [[0; 0]; [0; 1]; [9; 9]; [0; 0]]%float in
  gives_arrays IdentityScaler 2 xs /\ gives_scalars (ExactStorm (Y := unit) 2%float) /\ output_width (tr_dims (@IdentityScaler float)) (B2 2 xs) = Ok 2 /\ as_many_labels (Y := unit) xs None /\
  fst (mapM (stream_one IdentityScaler (ExactStorm (Y := unit) 2%float) AveragePostprocessor) (labelled xs None) (tt, Window_init 3, mt_init AverageMeter)) = Ok [FinV 0; FinV 0.5; FinV (0x1.5555555555555p-2); FinV 0.375]%float.
Proof.
  cbv zeta. split; [apply identity_gives_arrays; repeat constructor|]. split; [apply storm_gives_scalars|]. repeat split; try exact I.
Qed.
