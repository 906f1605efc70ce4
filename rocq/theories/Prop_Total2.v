(** * C133 continued: RobustRandomCutForest, Inqmad, ReferenceWindowModel with an initial window and IForestASD. *)
From Coq Require Import List ZArith Lia Bool Reals Lra Arith Permutation.
From Verif Require Import Base Num Spec Model_Core Model_Stats Model_Utils Model_Trans Model_Simple Model_Sketch Model_Integrations Model_Inqmad
  P_Lists P_Core P_Stats P_Utils P_Models Prop_Core Prop_Trans Prop_Simple Prop_Sketch Prop_Integrations Prop_Inqmad Prop_Total.
Import ListNotations.
Open Scope nat_scope.

(** ** RobustRandomCutForest: around trees that keep their promises, whose search for duplicates raises e on an empty tree *)
Theorem C133_rrcf : forall X Y A (NA : Num A) (d : RCTree X A) T empty k e, tree_laws d -> query_laws d -> 1 <= T -> 1 <= k -> (forall i, rc_leaves d (empty i) = []) ->
  (forall t x, rc_leaves d t = [] -> rc_find d x t = Raise e) ->
  needs_a_fit (Raise e) (fun _ => True) (RobustRandomCutForest (Y := Y) d T) (RRCF_init d empty k).
Proof.
  intros X Y A NA d T empty k e HL HQ HT Hk HE He.
  apply needs_from.
  - reflexivity.
  - intros h x y _ _. destruct (C73_leaves X Y A NA d T empty k h HL HQ HT Hk HE) as (_ & _ & F & _). apply F.
  - intros h x _ _ NE. destruct (C73_leaves X Y A NA d T empty k h HL HQ HT Hk HE) as (_ & _ & _ & S). destruct (proj2 (S x) NE) as [v Ev]. exists v. split; [|exact Ev].
    revert Ev. generalize (model_run (RobustRandomCutForest (Y := Y) d T) (RRCF_init d empty k) h). intros [f i]. unfold eval. cbn [md_score RobustRandomCutForest plain_model fst snd]. destruct (each_tree _ f) as [[ds|e'] f']; cbn; intros Q; [|discriminate]. injection Q as <-. eexists. left. reflexivity.
  - intros h x _ _ Z. destruct (C73_leaves X Y A NA d T empty k h HL HQ HT Hk HE) as (L & P & _ & _). cbv zeta in L, P. rewrite Z in P.
    destruct (model_run (RobustRandomCutForest (Y := Y) d T) (RRCF_init d empty k) h) as [f i]. cbn [fst] in L, P. destruct f as [|t f]; [cbn in L; lia|].
    unfold eval. cbn [md_score RobustRandomCutForest plain_model fst snd each_tree]. unfold rrcf_score_tree at 1, bind at 1. rewrite He; [reflexivity|]. apply Permutation_nil. symmetry. apply (P t x). left. reflexivity.
Qed.
Print Assumptions C133_rrcf.
Lemma assoc_find_empty : forall t x, rc_leaves assoc_tree t = [] -> rc_find assoc_tree x t = Raise AttributeError.
Proof. intros t x E. cbn in *. subst t. reflexivity. Qed.

(** ** Inqmad: one row of as many features as it was built for; the score may be nan *)
Definition one_row {A} (n : nat) (x : list (list A)) : Prop := exists r, x = [r] /\ length r = n.
Section Inqmad.
Variables (Y A : Type) (NA : Num A) (p : rffpar A) (b : nat).
Hypothesis Hb : 1 <= b.
Lemma call_ok : forall r, length r = rf_input p -> exists q, rff_call p r = Ok q.
Proof. intros r E. unfold rff_call, rff_compute. rewrite E, Nat.eqb_refl. cbn [rbind]. eauto. Qed.
Lemma inq_fit : forall x s, one_row (rf_input p) x -> exists rho, iq_initial_train p b (nofZ 1) x s = (Ok tt, mkInq (Some rho) (iq_num s + 1) (iq_cache s)).
Proof.
  intros x s (r & -> & E). destruct (call_ok r E) as [q Eq]. unfold iq_initial_train. destruct (Nat.eqb_spec b 0); [lia|]. rewrite batches_one by auto. unfold bind at 1. cbn [ret iterM]. unfold bind, gets, lift, iq_train, modify. cbn [res_map]. rewrite Eq. cbn [rbind res_map]. destruct (iq_rho s); eexists; reflexivity.
Qed.
Definition inq_inv (l : list (list (list A))) (s : inq A) : Prop := (l = [] -> iq_rho s = None /\ iq_cache s = []) /\ (l <> [] -> Forall (one_row (rf_input p)) l -> iq_rho s <> None).
Lemma inq_cold : forall x (s : inq A), iq_rho s = None -> iq_cache s = [] -> iq_predict p b x s = (Raise AttributeError, s).
Proof. intros x s E C. unfold iq_predict, bind, gets. rewrite C. cbn [find]. destruct (Nat.eqb_spec b 0); [lia|]. cbn [ret]. rewrite E. reflexivity. Qed.
Lemma inq_warm : forall x (s : inq A), one_row (rf_input p) x -> iq_rho s <> None -> exists a, eval (iq_predict p b x) s = Ok (VArray [a]).
Proof.
  intros x s (r & -> & E) N. destruct (call_ok r E) as [q Eq]. unfold eval, iq_predict, bind, gets. destruct (find _ _) as [[sh [rho n]]|].
  - unfold lift, iq_predict_with. cbn [res_map]. rewrite Eq. cbn [rbind res_map]. eexists. reflexivity.
  - destruct (Nat.eqb_spec b 0); [lia|]. cbn [ret]. destruct (iq_rho s) as [rho|]; [|congruence]. unfold lift, iq_predict_with. cbn [res_map]. rewrite Eq. cbn [rbind res_map]. eexists. reflexivity.
Qed.
Lemma predict_keeps : forall x (s : inq A), iq_rho (exec (iq_predict p b x) s) = iq_rho s.
Proof.
  intros x s. unfold exec, iq_predict, bind, gets. destruct (find _ _) as [[sh [rho n]]|]; [unfold lift; destruct (iq_predict_with _ _ _ _); reflexivity|].
  destruct (b =? 0); [reflexivity|]. cbn [ret]. destruct (iq_rho s) as [rho|] eqn:E; [|exact E]. unfold lift, modify. destruct (iq_predict_with p rho (iq_num s) x); exact E.
Qed.
Lemma inq_run : forall h : list (mcall (list (list A)) Y), inq_inv (fitted_instances h) (model_run (Inqmad p b) Inq_init h).
Proof.
  intros h. refine (plain_run_all _ _ _ _ _ _ inq_inv _ _ h _ _).
  - intros l s x y [H1 H2]. split; [intros Q; destruct l; discriminate|]. intros _ F. apply Forall_app in F. destruct F as [_ F]. apply Forall_inv in F. destruct (inq_fit x s F) as [rho E]. unfold exec. rewrite E. discriminate.
  - intros l s x [H1 H2]. split.
    + intros Q. destruct (H1 Q) as [E C]. unfold exec. rewrite inq_cold by auto. auto.
    + intros Q F. rewrite predict_keeps. auto.
  - split; [split; reflexivity|congruence].
Qed.
Theorem C133_inqmad : needs_a_fit (Raise AttributeError) (one_row (rf_input p)) (Inqmad (Y := Y) p b) Inq_init.
Proof.
  apply needs_from.
  - reflexivity.
  - intros h x y _ G. unfold eval. cbn [md_fit Inqmad plain_model]. destruct (inq_fit x (model_run (Inqmad (Y := Y) p b) Inq_init h) G) as [rho E]. rewrite E. reflexivity.
  - intros h x F G N. destruct (inq_run h) as [_ H2]. destruct (inq_warm x _ G (H2 N F)) as [a E]. exists (VArray [a]). split; [exists a; auto|exact E].
  - intros h x _ _ Z. destruct (inq_run h) as [H1 _]. destruct (H1 Z) as [E C]. unfold eval. cbn [md_score Inqmad plain_model]. rewrite inq_cold by auto. reflexivity.
Qed.
End Inqmad.
Print Assumptions C133_inqmad.
(** With a batch size of zero nothing is ever learned: each fit fails, and so does each score. *)
Theorem C133_inqmad_no_batch_size : forall A (NA : Num A) Y (p : rffpar A) (h : list (mcall (list (list A)) Y)),
  model_run (Inqmad p 0) Inq_init h = Inq_init /\ forall o, outcome (Inqmad p 0) Inq_init h o = Raise ZeroDivisionError.
Proof.
  intros A NA Y p h. assert (E : model_run (Inqmad p 0) Inq_init h = Inq_init) by (induction h as [|[x y|x|x y] h IH]; [reflexivity|exact IH|exact IH|exact IH]).
  split; [exact E|]. intros o. unfold outcome. rewrite E. destruct o; reflexivity.
Qed.
Print Assumptions C133_inqmad_no_batch_size.
(** A fit of no rows succeeds and learns nothing. *)
Theorem C133_inqmad_no_rows : forall A (NA : Num A) Y (p : rffpar A) b (h : list (mcall (list (list A)) Y)) y, 1 <= b ->
  outcome (Inqmad p b) Inq_init h (CFit [] y) = Ok None /\ iq_rho (model_run (Inqmad p b) Inq_init (h ++ [CFit [] y])) = iq_rho (model_run (Inqmad p b) Inq_init h).
Proof.
  intros A NA Y p b h y B. assert (G : forall s : inq A, iq_initial_train p b (nofZ 1) [] s = (Ok tt, mkInq (iq_rho s) (iq_num s + 0) (iq_cache s))).
  { intros s. unfold iq_initial_train. assert (Q : iq_batches b (@nil (list A)) = []) by (unfold iq_batches; cbn [length]; rewrite Nat.div_0_l, Nat.mod_0_l by lia; reflexivity). rewrite Q. destruct (Nat.eqb_spec b 0); [lia|]. reflexivity. }
  split.
  - unfold outcome, eval, model_call. cbn [md_fit Inqmad plain_model]. rewrite G. reflexivity.
  - rewrite model_run_app. set (s := model_run (Inqmad p b) Inq_init h). cbn [model_run fold_left]. unfold model_do, exec, model_call. cbn [md_fit Inqmad plain_model]. rewrite G. reflexivity.
Qed.
Print Assumptions C133_inqmad_no_rows.

(** ** ReferenceWindowModel with an initial window, labelled exactly if the stream is: nothing ever fails *)
Lemma lastn_nonempty : forall B w (l : list B), 1 <= w -> l <> [] -> lastn w l <> [].
Proof. intros B w l H N Q. apply (f_equal (@List.length _)) in Q. unfold lastn in Q. rewrite skipn_length in Q. destruct l; [congruence|]. cbn [List.length] in Q. lia. Qed.
Lemma label_exists : forall X Y (lab : bool) (y0 : Y) (x : X) (y : option Y), (if lab then y <> None else y = None) -> exists p : X * Y, fst p = x /\ label lab p = y.
Proof. intros X Y lab y0 x y H. destruct lab; [destruct y as [y|]; [|congruence]; exists (x, y); auto|subst y; exists (x, y0); auto]. Qed.
Theorem C133_reference_window_warm : forall X Y A (d : Detector X Y A) W sl lab (y0 : Y) init h o, reliable d -> 1 <= W -> 1 <= sl -> init <> [] -> labels_given lab (h ++ [o]) ->
  let built := RW_init d (Some (map fst init)) (labels_of lab init) in fst built = Ok tt /\ succeeds o (outcome (ReferenceWindowModel d W sl) (snd built) h o).
Proof.
  intros X Y A d W sl lab y0 init h o Hd HW Hs NI G built. assert (NM : map fst init <> []) by (destruct init; [congruence|discriminate]). split.
  { unfold built, RW_init, rw_fit_model. cbn [rw_refX rw_refY rw_built]. destruct (Hd 0 (map fst init) (labels_of lab init) NM) as [E _]. unfold eval in E. destruct (dt_fit d _ _ _) as [r m]. exact E. }
  assert (F : forall h x y, labels_given lab (h ++ [CFit x y]) -> eval (md_fit (ReferenceWindowModel d W sl) x y) (model_run (ReferenceWindowModel d W sl) (snd built) h) = Ok tt).
  { clear h o G. intros h x y G. apply Forall_app in G. destruct G as [G Go]. apply Forall_inv in Go. destruct (labelled_stream X Y y0 lab h G) as [ps P].
    destruct (label_exists X Y lab y0 x y Go) as (p & <- & <-). destruct (C57_fit_outcome X Y A d W sl lab init h ps p Hs P) as [_ [k E]]. unfold built. rewrite E.
    destruct (due_warm _ _); auto. cbv zeta. apply Hd. intros Q. apply map_eq_nil in Q. revert Q. apply lastn_nonempty; auto. destruct init; [congruence|discriminate]. }
  assert (T : forall h x, labels_given lab h -> exists a, eval (md_score (ReferenceWindowModel d W sl) x) (model_run (ReferenceWindowModel d W sl) (snd built) h) = Ok (VScalar a)).
  { clear h o G. intros h x G. destruct (labelled_stream X Y y0 lab h G) as [ps P]. unfold built. rewrite (C57_warm_start_schedule X Y A d W sl lab init h ps x Hs P).
    assert (R : forall k tr, tr <> [] -> exists a, trained_score d k lab tr x = Ok (VScalar a)).
    { intros k tr N. unfold trained_score. destruct (Hd k (map fst tr) (labels_of lab tr)) as [_ HS]; [destruct tr; [congruence|discriminate]|]. destruct (HS x) as [a E]. exists a. rewrite E. reflexivity. }
    destruct (training_steps _ _) as [|n l]; apply R; auto. apply lastn_nonempty; auto. destruct init; [congruence|discriminate]. }
  unfold outcome. destruct o as [x y|x|x y]; cbn [model_call succeeds].
  - pose proof (F h x y G) as E. unfold eval in *. destruct (md_fit _ x y _) as [q s]. cbn [fst] in *. subst q. reflexivity.
  - apply Forall_app in G. destruct G as [G _]. destruct (T h x G) as [a Ea]. unfold eval in *. destruct (md_score _ x _) as [q s]. cbn [fst] in *. subst q. exists a. left. reflexivity.
  - assert (G' : labels_given lab (h ++ [CFit x y])). { apply Forall_app in G. destruct G as [G Go]. apply Forall_app. split; auto. apply Forall_inv in Go. repeat constructor. exact Go. }
    pose proof (F h x y G') as E. destruct (T (h ++ [CFit x y]) x G') as [a Ea].
    rewrite run_snoc in Ea. unfold exec in Ea. cbn [model_call] in Ea. change (md_fit_score (ReferenceWindowModel d W sl) x y) with (bind (md_fit (ReferenceWindowModel d W sl) x y) (fun _ => md_score (ReferenceWindowModel d W sl) x)). unfold bind, eval in *.
    destruct (md_fit _ x y _) as [q s]. cbn [fst snd] in *. subst q. destruct (md_score _ x s) as [q s']. cbn [fst] in *. subst q. exists a. left. reflexivity.
Qed.
Print Assumptions C133_reference_window_warm.
(** ** IForestASD on a stream without labels (or, without an initial window, with a label for every instance) *)
Theorem C133_iforest_asd : forall X Y A (d : Detector X Y A) n (y0 : Y) lab init h o, reliable d -> 2 <= n -> init <> [] -> labels_given lab (h ++ [o]) ->
  (lab = false -> fst (IForestASD_init d (Some init)) = Ok tt /\ succeeds o (outcome (IForestASD d n) (snd (IForestASD_init d (Some init))) h o)) /\
  (let r := outcome (IForestASD d n) (snd (IForestASD_init d None)) h o in
   match o with CScore _ => match fitted_instances h with [] => r = Raise AttributeError | _ => succeeds o r end | _ => succeeds o r end).
Proof.
  intros X Y A d n y0 lab init h o Hd Hn NI G. split.
  - intros ->. pose proof (C133_reference_window_warm X Y A d n n false y0 (map (fun x => (x, y0)) init) h o Hd ltac:(lia) ltac:(lia) ltac:(destruct init; [congruence|discriminate]) G) as H.
    rewrite map_map in H. cbn [fst] in H. rewrite map_id in H. exact H.
  - apply (C133_reference_window X Y A d n n lab y0 h o); auto. lia.
Qed.
Print Assumptions C133_iforest_asd.
(** With an unlabelled initial window and labels in the stream, a later fit does fail (C59, C91): the condition on the labels is needed. *)
Theorem C133_iforest_asd_any_labels_refuted : let d := recorder nat nat in let m := IForestASD d 2 in
  reliable d /\ outcome m (snd (IForestASD_init d (Some [7]))) [CFit 1 (Some 1)] (CFit 2 (Some 1)) = Raise ValueError.
Proof. split; [|reflexivity]. intros k xs ys N. split; [reflexivity|]. intros x. eexists. reflexivity. Qed.
Print Assumptions C133_iforest_asd_any_labels_refuted.
(** The promises can be kept. *)
Example C133_trees_ex : tree_laws assoc_tree /\ query_laws assoc_tree /\ (forall t x, rc_leaves assoc_tree t = [] -> rc_find assoc_tree x t = Raise AttributeError) /\
  outcome (RobustRandomCutForest (Y := unit) assoc_tree 2) (RRCF_init assoc_tree (fun _ => []) 2) [] (CScore 5%Z) = Raise AttributeError.
Proof. split; [apply assoc_tree_laws|]. split; [apply assoc_query_laws|]. split; [apply assoc_find_empty|reflexivity]. Qed.
Example C133_inqmad_ex : one_row (rf_input ex_rff) [[1%R]] /\ outcome (Inqmad (Y := unit) ex_rff 3) Inq_init [] (CScore [[1%R]]) = Raise AttributeError.
Proof. split; [exists [1%R]; auto|reflexivity]. Qed.
Example C133_warm_ex : let d := recorder nat nat in reliable d /\ outcome (ReferenceWindowModel d 3 2) (snd (RW_init d (Some [1; 2]) (Some [0; 1]))) [CFit 3 (Some 0)] (CFitScore 4 (Some 1)) = Ok (Some (VScalar (1, [2; 3; 4], Some [1; 0; 1]))).
Proof. split; [|reflexivity]. intros k xs ys N. split; [reflexivity|]. intros x. eexists. reflexivity. Qed.
