(** * Properties of pysad/core (C09-C14).
    [performed call l s outs s'] (P_Core.v) reads: calling [call] on the items of [l] in
    order from state [s], every call succeeding, returns [outs] and ends in [s']. *)
From Coq Require Import List ZArith Lia Bool Arith.
From Verif Require Import Base Num Model_Utils Model_Core P_Utils P_Core.
Import ListNotations.

(** A small model used in the examples: the running sum; fit_partial raises ValueError on 0,
    the score is a one-element array for even sums and a two-element one for 99. *)
Definition ToyModel : Model nat nat nat :=
  mkModel nat nat nat nat
    (fun x _ s => if x =? 0 then (Raise ValueError, s) else (Ok tt, s + x))
    (fun x s => (Ok (if s =? 99 then VArray [s; x] else if Nat.even s then VArray [s + x] else VScalar (s + x)), s))
    (default_fit_score (fun x (_ : option nat) s => if x =? 0 then (Raise ValueError, s) else (Ok tt, s + x))
       (fun x s => (Ok (if s =? 99 then VArray [s; x] else if Nat.even s then VArray [s + x] else VScalar (s + x)), s))).

(** ** C09 *)
Theorem C09_fit_in_order : forall X Y A (m : Model X Y A) xs s s',
  BaseModel_fit m xs None s = (Ok tt, s') <->
  performed (fun x => md_fit m x None) xs s (map (fun _ => tt) xs) s'.
Proof. intros. unfold BaseModel_fit. rewrite for_gen_none. simpl. apply iterM_performed. Qed.
Print Assumptions C09_fit_in_order.
Theorem C09_fit_in_order_labelled : forall X Y A (m : Model X Y A) xs ys s s', length xs = length ys ->
  (BaseModel_fit m xs (Some ys) s = (Ok tt, s') <->
   performed (fun p => md_fit m (fst p) (Some (snd p))) (combine xs ys) s (map (fun _ => tt) (combine xs ys)) s').
Proof. intros. unfold BaseModel_fit. rewrite for_gen_some by auto. simpl. apply iterM_performed. Qed.
Print Assumptions C09_fit_in_order_labelled.
Theorem C09_fit_label_mismatch : forall X Y A (m : Model X Y A) xs ys s, length xs <> length ys ->
  BaseModel_fit m xs (Some ys) s = (Raise AssertionError, s).
Proof. intros. apply for_gen_mismatch; auto. Qed.
Print Assumptions C09_fit_label_mismatch.
Theorem C09_two_batches : forall X Y A (m : Model X Y A) xs1 xs2 s,
  BaseModel_fit m (xs1 ++ xs2) None s = 
  match BaseModel_fit m xs1 None s with
  | (Ok _, s1) => BaseModel_fit m xs2 None s1
  | (Raise e, s1) => (Raise e, s1)
  end.
Proof.
  intros. unfold BaseModel_fit. rewrite !for_gen_none, iterM_app. unfold bind.
  destruct (iterM _ xs1 s) as [[[]|e] s1]; auto. rewrite for_gen_none. reflexivity.
Qed.
Print Assumptions C09_two_batches.
Theorem C09_two_batches_labelled : forall X Y A (m : Model X Y A) xs1 xs2 ys1 ys2 s,
  length xs1 = length ys1 -> length xs2 = length ys2 ->
  BaseModel_fit m (xs1 ++ xs2) (Some (ys1 ++ ys2)) s = 
  match BaseModel_fit m xs1 (Some ys1) s with
  | (Ok _, s1) => BaseModel_fit m xs2 (Some ys2) s1
  | (Raise e, s1) => (Raise e, s1)
  end.
Proof.
  intros X Y A m xs1 xs2 ys1 ys2 s H1 H2. unfold BaseModel_fit.
  rewrite (for_gen_some _ _ _ _ xs1) by auto. rewrite for_gen_some by (rewrite !app_length; lia).
  assert (E : forall (a : list X) (b : list Y), length a = length b -> forall c d, combine (a ++ c) (b ++ d) = combine a b ++ combine c d).
  { clear. induction a; destruct b; simpl; intros; try lia; auto. f_equal; auto. }
  rewrite E by auto. rewrite iterM_app. unfold bind.
  destruct (iterM _ (combine xs1 ys1) s) as [[[]|e] s1]; auto. rewrite for_gen_some by auto. reflexivity.
Qed.
Print Assumptions C09_two_batches_labelled.
Theorem C09_failure_fits_exactly_the_prefix : forall X Y A (m : Model X Y A) xs s e s',
  BaseModel_fit m xs None s = (Raise e, s') ->
  exists before x after s1, xs = before ++ x :: after /\
    BaseModel_fit m before None s = (Ok tt, s1) /\ md_fit m x None s1 = (Raise e, s').
Proof.
  intros X Y A m xs s e s' H. unfold BaseModel_fit in *. rewrite for_gen_none in H.
  destruct (iterM_raise _ _ _ _ _ _ _ H) as (l1 & x & l2 & s1 & -> & P & Q).
  exists l1, x, l2, s1. rewrite for_gen_none. auto.
Qed.
Print Assumptions C09_failure_fits_exactly_the_prefix.
Example C09_ex : BaseModel_fit ToyModel [1; 2; 3] None 0 = (Ok tt, 6) /\
  BaseModel_fit ToyModel [1; 2; 0; 3] None 0 = (Raise ValueError, 3) /\
  BaseModel_fit ToyModel [1; 2] (Some [1]) 0 = (Raise AssertionError, 0).
Proof. split; [|split]; reflexivity. Qed.

(** ** C10 *)
Definition stored_call {X Y A} (m : Model X Y A) (y : option Y) (x : X) (s : md_state m) : res (npres A) * md_state m :=
  match md_fit_score m x y s with
  | (Ok v, s1) => (store v, s1)
  | (Raise e, s1) => (Raise e, s1)
  end.
Theorem C10_fit_score_in_order : forall X Y A (m : Model X Y A) xs s scores s',
  BaseModel_fit_score m xs None s = (Ok scores, s') <-> performed (stored_call m None) xs s scores s'.
Proof. intros. unfold BaseModel_fit_score. rewrite map_gen_none. symmetry. apply performed_iff. Qed.
Print Assumptions C10_fit_score_in_order.
Theorem C10_fit_score_in_order_labelled : forall X Y A (m : Model X Y A) xs ys s scores s', length xs = length ys ->
  (BaseModel_fit_score m xs (Some ys) s = (Ok scores, s') <->
   performed (fun p => stored_call m (Some (snd p)) (fst p)) (combine xs ys) s scores s').
Proof. intros. unfold BaseModel_fit_score. rewrite map_gen_some by auto. symmetry. apply performed_iff. Qed.
Print Assumptions C10_fit_score_in_order_labelled.
Theorem C10_one_score_per_instance : forall X Y A (m : Model X Y A) xs ys s scores s',
  BaseModel_fit_score m xs ys s = (Ok scores, s') -> length scores = length xs.
Proof.
  intros X Y A m xs [ys|] s scores s' H.
  - destruct (Nat.eq_dec (length xs) (length ys)) as [E|E].
    + unfold BaseModel_fit_score in H. rewrite map_gen_some in H by auto.
      apply mapM_length in H. rewrite combine_length in H. lia.
    + unfold BaseModel_fit_score in H. rewrite map_gen_mismatch in H by auto. discriminate.
  - unfold BaseModel_fit_score in H. rewrite map_gen_none in H. apply mapM_length in H. auto.
Qed.
Print Assumptions C10_one_score_per_instance.
(** Causality: the scores of a prefix are the prefix of the scores, whatever follows. *)
Theorem C10_causal : forall X Y A (m : Model X Y A) past future s scores s',
  BaseModel_fit_score m (past ++ future) None s = (Ok scores, s') ->
  exists s1, BaseModel_fit_score m past None s = (Ok (firstn (length past) scores), s1) /\
             BaseModel_fit_score m future None s1 = (Ok (skipn (length past) scores), s').
Proof.
  intros X Y A m past future s scores s' H.
  apply C10_fit_score_in_order in H. apply performed_app in H.
  destruct H as (o1 & o2 & s1 & -> & P1 & P2). exists s1.
  pose proof (performed_length _ _ _ _ _ _ _ _ P1) as L. rewrite <- L.
  rewrite firstn_app, skipn_app, firstn_all, skipn_all, Nat.sub_diag. simpl. rewrite app_nil_r.
  split; apply C10_fit_score_in_order; auto.
Qed.
Print Assumptions C10_causal.
Theorem C10_two_futures_same_past : forall X Y A (m : Model X Y A) past f1 f2 s o1 s1 o2 s2,
  BaseModel_fit_score m (past ++ f1) None s = (Ok o1, s1) ->
  BaseModel_fit_score m (past ++ f2) None s = (Ok o2, s2) ->
  firstn (length past) o1 = firstn (length past) o2.
Proof.
  intros X Y A m past f1 f2 s o1 s1 o2 s2 H1 H2.
  apply C10_causal in H1. apply C10_causal in H2.
  destruct H1 as (t1 & E1 & _). destruct H2 as (t2 & E2 & _). congruence.
Qed.
Print Assumptions C10_two_futures_same_past.
(** With the inherited fit_score_partial, each score is taken after fitting its instance. *)
Theorem C10_default_scores_after_fitting : forall X Y A (m : Model X Y A),
  (forall x y s, md_fit_score m x y s = default_fit_score (md_fit m) (md_score m) x y s) ->
  forall x y s v s2, md_fit_score m x y s = (Ok v, s2) ->
  exists s1, md_fit m x y s = (Ok tt, s1) /\ md_score m x s1 = (Ok v, s2).
Proof.
  intros X Y A m D x y s v s2 H. rewrite D in H. unfold default_fit_score, bind in H.
  destruct (md_fit m x y s) as [[[]|e] s1] eqn:E; [|discriminate]. eauto.
Qed.
Print Assumptions C10_default_scores_after_fitting.
Example C10_ex : BaseModel_fit_score ToyModel [1; 1; 3] None 0 = (Ok [FinV 2; FinV 3; FinV 8], 5) /\
  BaseModel_fit_score ToyModel [1; 1; 7; 8] None 0 = (Ok [FinV 2; FinV 3; FinV 16; FinV 25], 17).
Proof. split; reflexivity. Qed.

(** ** C11 *)
Definition cell_of {A} (v : pyval A) (r : res (npres A)) : Prop :=
  (forall a, v = VScalar a -> r = Ok (FinV a)) /\
  (forall a, v = VArray [a] -> r = Ok (FinV a)) /\
  (v = VNone -> r = Ok NonFin) /\
  (forall l, v = VArray l -> length l <> 1 -> r = Raise ValueError).
Theorem C11_one_row : forall X Y A (m : Model X Y A) x s v s1, md_score m x s = (Ok v, s1) ->
  exists r, cell_of v r /\ BaseModel_score m [x] s = (rmap (fun c => [c]) r, s1).
Proof.
  intros X Y A m x s v s1 E. exists (store v). split.
  - unfold cell_of. split; [intros; subst; auto|]. split; [intros; subst; auto|]. split; [intros; subst; auto|].
    intros [|a [|b l]] -> L; simpl in *; auto; lia.
  - unfold BaseModel_score. rewrite map_gen_none. simpl. unfold bind, lift. rewrite E.
    destruct (store v); reflexivity.
Qed.
Print Assumptions C11_one_row.
Definition score_call {X Y A} (m : Model X Y A) (x : X) (s : md_state m) : res (npres A) * md_state m :=
  match md_score m x s with
  | (Ok v, s1) => (store v, s1)
  | (Raise e, s1) => (Raise e, s1)
  end.
Theorem C11_rows_in_order : forall X Y A (m : Model X Y A) xs s scores s',
  BaseModel_score m xs s = (Ok scores, s') <-> performed (score_call m) xs s scores s'.
Proof. intros. unfold BaseModel_score. rewrite map_gen_none. symmetry. apply performed_iff. Qed.
Print Assumptions C11_rows_in_order.
Theorem C11_stops_at_first_bad_score : forall X Y A (m : Model X Y A) xs s e s',
  BaseModel_score m xs s = (Raise e, s') ->
  exists before x after outs s1, xs = before ++ x :: after /\
    BaseModel_score m before s = (Ok outs, s1) /\ score_call m x s1 = (Raise e, s').
Proof.
  intros X Y A m xs s e s' H. unfold BaseModel_score in H. rewrite map_gen_none in H.
  destruct (mapM_raise _ _ _ _ _ _ _ _ H) as (l1 & x & l2 & outs & s1 & -> & P & Q).
  exists l1, x, l2, outs, s1. split; auto. split; auto. apply C11_rows_in_order. exact P.
Qed.
Print Assumptions C11_stops_at_first_bad_score.
Theorem C11_pure_scoring : forall X Y A (m : Model X Y A) xs s, (forall x, snd (md_score m x s) = s) ->
  snd (BaseModel_score m xs s) = s /\
  forall scores, fst (BaseModel_score m xs s) = Ok scores ->
    length scores = length xs /\ 
    Forall2 (fun x c => exists v, fst (md_score m x s) = Ok v /\ cell_of v (Ok c)) xs scores.
Proof.
  intros X Y A m xs s H. unfold BaseModel_score. rewrite map_gen_none.
  assert (H' : forall x, snd (bind (md_score m (fst (x, @None Y))) (fun v => lift (store v)) s) = s).
  { intros x. unfold bind, lift. specialize (H x). simpl. destruct (md_score m x s) as [[v|e] s1]; auto. }
  destruct (mapM_pure _ _ _ (fun x => bind (md_score m (fst (x, @None Y))) (fun v => lift (store v))) xs s H') as [E F].
  split; auto. intros scores Hs. apply F in Hs. split; [symmetry; eapply Forall2_length; eauto|].
  clear - Hs. induction Hs as [|x c xs cs Hx Hs IH]; constructor; auto.
  unfold bind, lift in Hx. simpl in Hx. destruct (md_score m x s) as [[v|e] s1]; [|discriminate].
  exists v. split; auto. simpl in Hx. rewrite <- Hx.
  unfold cell_of. split; [intros; subst; auto|]. split; [intros; subst; auto|]. split; [intros; subst; auto|].
  intros [|a [|b l]] -> L; simpl in *; auto; lia.
Qed.
Print Assumptions C11_pure_scoring.
Example C11_ex : BaseModel_score ToyModel [1; 2] 4 = (Ok [FinV 5; FinV 6], 4) /\
  BaseModel_score ToyModel [1; 2] 99 = (Raise ValueError, 99).
Proof. split; reflexivity. Qed.

(** ** C12 *)
Definition post_call {X A} (p : Postprocessor X A) (x : X) (s : pp_state p) : res (npres A) * pp_state p :=
  match pp_transform p x s with
  | (Ok v, s1) => (store v, s1)
  | (Raise e, s1) => (Raise e, s1)
  end.
Definition post_fit_call {X A} (p : Postprocessor X A) (x : X) (s : pp_state p) : res (npres A) * pp_state p :=
  match pp_fit p x s with
  | (Ok _, s1) => post_call p x s1
  | (Raise e, s1) => (Raise e, s1)
  end.
Theorem C12_fit : forall X A (p : Postprocessor X A) xs s s',
  Post_fit p xs s = (Ok tt, s') <-> performed (pp_fit p) xs s (map (fun _ => tt) xs) s'.
Proof. intros. unfold Post_fit. rewrite for_gen_none. simpl. apply iterM_performed. Qed.
Print Assumptions C12_fit.
Theorem C12_transform : forall X A (p : Postprocessor X A) xs s outs s',
  Post_transform p xs s = (Ok outs, s') <-> performed (post_call p) xs s outs s'.
Proof. intros. unfold Post_transform. rewrite map_gen_none. symmetry. apply performed_iff. Qed.
Print Assumptions C12_transform.
Lemma post_fit_transform_mapM : forall X A (p : Postprocessor X A) xs s,
  Post_fit_transform p xs s = mapM (post_fit_call p) xs s.
Proof.
  intros. unfold Post_fit_transform. rewrite map_gen_none. apply mapM_ext. intros x s0.
  unfold pp_fit_transform, post_fit_call, post_call, bind, lift. simpl.
  destruct (pp_fit p x s0) as [[[]|e] s1]; auto.
Qed.
Theorem C12_fit_transform : forall X A (p : Postprocessor X A) xs s outs s',
  Post_fit_transform p xs s = (Ok outs, s') <-> performed (post_fit_call p) xs s outs s'.
Proof. intros. rewrite post_fit_transform_mapM. symmetry. apply performed_iff. Qed.
Print Assumptions C12_fit_transform.
Theorem C12_one_output_per_score : forall X A (p : Postprocessor X A) xs s outs s',
  (Post_transform p xs s = (Ok outs, s') -> length outs = length xs) /\
  (Post_fit_transform p xs s = (Ok outs, s') -> length outs = length xs).
Proof.
  intros. split; intros H.
  - apply C12_transform in H. eapply performed_length; exact H.
  - apply C12_fit_transform in H. eapply performed_length; exact H.
Qed.
Print Assumptions C12_one_output_per_score.
Theorem C12_causal : forall X A (p : Postprocessor X A) past future s outs s',
  Post_fit_transform p (past ++ future) s = (Ok outs, s') ->
  exists s1, Post_fit_transform p past s = (Ok (firstn (length past) outs), s1) /\
             Post_fit_transform p future s1 = (Ok (skipn (length past) outs), s').
Proof.
  intros X A p past future s scores s' H.
  apply C12_fit_transform in H. apply performed_app in H.
  destruct H as (o1 & o2 & s1 & -> & P1 & P2). exists s1.
  pose proof (performed_length _ _ _ _ _ _ _ _ P1) as L. rewrite <- L.
  rewrite firstn_app, skipn_app, firstn_all, skipn_all, Nat.sub_diag. simpl. rewrite app_nil_r.
  split; apply C12_fit_transform; auto.
Qed.
Print Assumptions C12_causal.
Definition ToyPost : Postprocessor nat nat :=
  mkPost nat nat nat (fun x s => (Ok tt, s + x)) (fun x s => (Ok (VScalar (10 * s + x)), s)).
Example C12_ex : Post_fit_transform ToyPost [1; 2; 3] 0 = (Ok [FinV 11; FinV 32; FinV 63], 6) /\
  Post_fit ToyPost [1; 2; 3] 0 = (Ok tt, 6) /\ Post_transform ToyPost [1; 2] 1 = (Ok [FinV 11; FinV 12], 1).
Proof. split; [|split]; reflexivity. Qed.

(** ** C13 *)
Theorem C13_fit_passes_pairs : forall X A (t : Transformer X A) b s s',
  Trans_fit t b s = (Ok tt, s') <->
  performed (fun x => tr_fit t (APair x)) (batch_rows b) s (map (fun _ => tt) (batch_rows b)) s'.
Proof. intros. unfold Trans_fit. rewrite for_gen_none. simpl. apply iterM_performed. Qed.
Print Assumptions C13_fit_passes_pairs.
(** The generic condition under which this is harmless. *)
Theorem C13_harmless_when_pairs_are_unwrapped : forall X A (t : Transformer X A) b s s',
  (forall x st, tr_fit t (APair x) st = tr_fit t (AInst x) st) ->
  (Trans_fit t b s = (Ok tt, s') <->
   performed (fun x => tr_fit t (AInst x)) (batch_rows b) s (map (fun _ => tt) (batch_rows b)) s').
Proof.
  intros. unfold Trans_fit. rewrite for_gen_none. simpl. 
  rewrite (iterM_ext _ _ _ (fun x => tr_fit t (AInst x))) by auto. apply iterM_performed.
Qed.
Print Assumptions C13_harmless_when_pairs_are_unwrapped.
(** A transformer counting the elements of its argument (len(X), X.sum(), X - mean ...):
    the tuple has two elements whatever the instance. *)
Definition LenTransformer : Transformer (list nat) nat :=
  mkTrans (list nat) nat (list nat) (DInt 1)
    (fun a s => (Ok tt, s ++ [match a with AInst x => length x | APair _ => 2 end]))
    (fun a s => (Ok (VScalar (length s)), s))
    (fun a s => (Ok (VScalar (length s)), s)).
Theorem C13_fit_is_fit_partial_in_order_refuted : exists (t : Transformer (list nat) nat) b s s',
  performed (fun x => tr_fit t (AInst x)) (batch_rows b) s (map (fun _ => tt) (batch_rows b)) s' /\
  snd (Trans_fit t b s) <> s'.
Proof.
  exists LenTransformer, (B2 3 [[7; 8; 9]; [1; 2; 3]]), [], [3; 3].
  split; [|vm_compute; discriminate].
  exists [3]. split; [reflexivity|]. exists [3; 3]. split; reflexivity.
Qed.
Print Assumptions C13_fit_is_fit_partial_in_order_refuted.

(** ** C14 *)
Lemma store_row_length : forall A w (v : pyval A) row, store_row w v = Ok row -> length row = w.
Proof.
  intros A w [|a|[|a [|b l]]] row H; cbn [store_row] in H.
  - inversion H; apply repeat_length.
  - inversion H; apply repeat_length.
  - destruct w; inversion H; auto.
  - inversion H; apply repeat_length.
  - destruct (Nat.eqb_spec (length (a :: b :: l)) w); inversion H; subst. simpl. rewrite map_length. auto.
Qed.
Lemma rows_shape : forall X S A (call : X -> M S (pyval A)) w xs s out s',
  mapM (fun x => bind (call x) (fun v => lift (store_row w v))) xs s = (Ok out, s') ->
  length out = length xs /\ Forall (fun row => length row = w) out.
Proof.
  intros X S A call w xs; induction xs as [|x xs IH]; intros s out s' H; simpl in H.
  - inversion H; subst. auto.
  - unfold bind at 1, lift, ret in H.
    assert (Q : forall r s1, bind (call x) (fun v s => (store_row w v, s)) s = (Ok r, s1) -> length r = w).
    { intros r s1 B. unfold bind in B. destruct (call x s) as [[v|e] s2]; [|discriminate].
      inversion B; subst. eapply store_row_length; eauto. }
    destruct (bind (call x) (fun v s => (store_row w v, s)) s) as [[r|e] s1]; [|discriminate].
    unfold bind at 1 in H. 
    destruct (mapM _ xs s1) as [[rs|e] s2] eqn:E2 in H; [|discriminate]. inversion H; subst.
    destruct (IH _ _ _ E2) as [L F]. simpl. split; auto. constructor; auto. eapply Q; eauto.
Qed.
Theorem C14_shape : forall X A (t : Transformer X A) b s out s',
  (Trans_transform t b s = (Ok out, s') \/ Trans_fit_transform t b s = (Ok out, s')) ->
  length out = length (batch_rows b) /\
  exists n, tr_dims t = DInt n /\
    ((0 < n)%Z /\ Forall (fun row => Z.of_nat (length row) = n) out \/
     (n <= 0)%Z /\ exists w rows, b = B2 w rows /\ Forall (fun row => length row = w) out).
Proof.
  intros X A t b s out s' H.
  assert (G : forall call : X -> M (tr_state t) (pyval A),
    bind (lift (output_width (tr_dims t) b)) (fun width =>
      map_gen (fun q => bind (call (fst q)) (fun v => lift (store_row width v))) (@iterate X unit (batch_rows b) None)) s = (Ok out, s') ->
    exists w, output_width (tr_dims t) b = Ok w /\ length out = length (batch_rows b) /\ Forall (fun row => length row = w) out).
  { intros call G. unfold bind at 1, lift at 1 in G.
    destruct (output_width (tr_dims t) b) as [w|e]; [|discriminate].
    rewrite map_gen_none in G. simpl in G. apply rows_shape in G. exists w. tauto. }
  assert (exists w, output_width (tr_dims t) b = Ok w /\ length out = length (batch_rows b) /\ Forall (fun row => length row = w) out) as (w & E & L & F).
  { destruct H as [H|H].
    - exact (G (fun x => tr_transform t (AInst x)) H).
    - exact (G (fun x => tr_fit_transform t (AInst x)) H). }
  split; auto. unfold output_width in E. destruct (tr_dims t) as [n|]; [|discriminate].
  exists n. split; auto. destruct (Z.ltb_spec 0 n).
  - left. split; auto. inversion E; subst w. eapply Forall_impl; [|exact F]. intros r Hr. simpl in Hr. lia.
  - right. split; auto. destruct b as [w' rows|rows]; [|discriminate]. inversion E; subst. eauto.
Qed.
Print Assumptions C14_shape.
Theorem C14_bad_dims : forall X A (t : Transformer X A) b s,
  (tr_dims t = DAuto -> Trans_transform t b s = (Raise TypeError, s) /\ Trans_fit_transform t b s = (Raise TypeError, s)) /\
  (forall n rows, tr_dims t = DInt n -> (n <= 0)%Z -> b = B1 rows ->
     Trans_transform t b s = (Raise IndexError, s) /\ Trans_fit_transform t b s = (Raise IndexError, s)).
Proof.
  intros X A t b s. split.
  - intros D. unfold Trans_transform, Trans_fit_transform, bind, lift. rewrite D. auto.
  - intros n rows D L ->. unfold Trans_transform, Trans_fit_transform, bind, lift. rewrite D. simpl.
    destruct (Z.ltb_spec 0 n); [lia|]. auto.
Qed.
Print Assumptions C14_bad_dims.
Theorem C14_wrong_inner_length : forall X A (t : Transformer X A) n x rest s l s1,
  tr_dims t = DInt n -> (0 < n)%Z -> tr_transform t (AInst x) s = (Ok (VArray l), s1) ->
  length l <> 1 -> Z.of_nat (length l) <> n ->
  forall b, batch_rows b = x :: rest -> Trans_transform t b s = (Raise ValueError, s1).
Proof.
  intros X A t n x rest s l s1 D Hn E L1 Ln b B. unfold Trans_transform, bind at 1, lift at 1. rewrite D. unfold output_width.
  destruct (Z.ltb_spec 0 n); [|lia]. rewrite map_gen_none, B. cbn [mapM]. unfold bind at 1 2. cbn [fst]. rewrite E. unfold lift.
  destruct l as [|a [|a2 l]]; simpl in L1; try lia.
  - simpl. destruct (Z.to_nat n) eqn:Z; [lia|]. reflexivity.
  - cbn [store_row]. destruct (Nat.eqb_spec (length (a :: a2 :: l)) (Z.to_nat n)); [lia|]. reflexivity.
Qed.
Print Assumptions C14_wrong_inner_length.
Definition ToyTrans (d : dims) : Transformer (list nat) nat :=
  mkTrans (list nat) nat unit d (fun _ s => (Ok tt, s))
    (fun a s => (Ok (VArray (match a with AInst x => x | APair x => x end)), s))
    (fun a s => (Ok (VArray (match a with AInst x => x | APair x => x end)), s)).
Example C14_ex : Trans_transform (ToyTrans (DInt (-1))) (B2 2 [[1; 2]; [3; 4]]) tt = (Ok [[FinV 1; FinV 2]; [FinV 3; FinV 4]], tt) /\
  Trans_transform (ToyTrans (DInt 3)) (B2 2 [[1; 2]; [3; 4]]) tt = (Raise ValueError, tt) /\
  Trans_transform (ToyTrans (DInt 3)) (B2 1 [[1]; [3]]) tt = (Ok [[FinV 1; FinV 1; FinV 1]; [FinV 3; FinV 3; FinV 3]], tt) /\
  Trans_fit_transform (ToyTrans DAuto) (B2 2 [[1; 2]]) tt = (Raise TypeError, tt).
Proof. split; [|split; [|split]]; reflexivity. Qed.
