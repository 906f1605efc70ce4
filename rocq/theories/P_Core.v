(** * Lemmas about loops over instances (used for Model_Core). *)
From Coq Require Import List ZArith Lia Bool Arith.
From Verif Require Import Base Num Model_Utils Model_Core P_Utils.
Import ListNotations.

(** Independent reading of "call the method on each item in order": the state goes
    from [s] to [s'], every call succeeding, [outs] being the values returned. *)
Fixpoint performed {S I O} (call : I -> S -> res O * S) (l : list I) (s : S) (outs : list O) (s' : S) : Prop :=
  match l, outs with
  | [], [] => s' = s
  | x :: l', o :: outs' => exists s1, call x s = (Ok o, s1) /\ performed call l' s1 outs' s'
  | _, _ => False
  end.

Lemma performed_iff : forall S I O (call : I -> M S O) l s outs s',
  performed call l s outs s' <-> mapM call l s = (Ok outs, s').
Proof.
  intros S I O call l; induction l as [|x l IH]; intros s outs s'; simpl.
  - destruct outs; unfold ret; split; intros H; try contradiction; try (inversion H; subst; auto; fail).
  - unfold bind, ret. split.
    + destruct outs as [|o outs]; [contradiction|]. intros (s1 & E & P). rewrite E.
      apply IH in P. rewrite P. reflexivity.
    + destruct (call x s) as [[o|e] s1] eqn:E; [|discriminate].
      destruct (mapM call l s1) as [[os|e] s2] eqn:E2; [|discriminate].
      intros H; inversion H; subst. exists s1. split; auto. apply IH; auto.
Qed.

Lemma iterM_mapM : forall S I (body : I -> M S unit) l s,
  iterM body l s = match mapM body l s with (Ok _, s') => (Ok tt, s') | (Raise e, s') => (Raise e, s') end.
Proof.
  intros S I body l; induction l as [|x l IH]; intros s; simpl; auto.
  unfold bind, ret. destruct (body x s) as [[[]|e] s1]; auto. rewrite IH.
  destruct (mapM body l s1) as [[os|e] s2]; auto.
Qed.

Lemma performed_units : forall S I (call : I -> M S unit) l s outs s',
  performed call l s outs s' -> outs = map (fun _ => tt) l.
Proof.
  intros S I call l; induction l as [|x l IH]; intros s outs s' H; destruct outs as [|[] outs]; simpl in *; auto; try contradiction.
  destruct H as (s1 & _ & P). f_equal; eauto.
Qed.

Lemma iterM_performed : forall S I (body : I -> M S unit) l s s',
  iterM body l s = (Ok tt, s') <-> performed body l s (map (fun _ => tt) l) s'.
Proof.
  intros. rewrite iterM_mapM. split.
  - destruct (mapM body l s) as [[os|e] s1] eqn:E; intros H; inversion H; subst.
    apply performed_iff in E. rewrite <- (performed_units _ _ _ _ _ _ _ E). auto.
  - intros P. apply performed_iff in P. rewrite P. reflexivity.
Qed.

Lemma mapM_map : forall S I J O (f : J -> M S O) (g : I -> J) l s, mapM f (map g l) s = mapM (fun x => f (g x)) l s.
Proof.
  intros S I J O f g l; induction l as [|x l IH]; intros s; simpl; auto.
  unfold bind. destruct (f (g x) s) as [[o|e] s1]; auto. rewrite IH. reflexivity.
Qed.
Lemma iterM_map : forall S I J (f : J -> M S unit) (g : I -> J) l s, iterM f (map g l) s = iterM (fun x => f (g x)) l s.
Proof.
  intros S I J f g l; induction l as [|x l IH]; intros s; simpl; auto.
  unfold bind. destruct (f (g x) s) as [[o|e] s1]; auto.
Qed.

Lemma mapM_app : forall S I O (f : I -> M S O) l1 l2 s,
  mapM f (l1 ++ l2) s =
  match mapM f l1 s with
  | (Ok o1, s1) => match mapM f l2 s1 with (Ok o2, s2) => (Ok (o1 ++ o2), s2) | (Raise e, s2) => (Raise e, s2) end
  | (Raise e, s1) => (Raise e, s1)
  end.
Proof.
  intros S I O f l1; induction l1 as [|x l1 IH]; intros l2 s; simpl.
  - destruct (mapM f l2 s) as [[o|e] s1]; reflexivity.
  - unfold bind, ret. destruct (f x s) as [[o|e] s1]; auto. rewrite IH.
    destruct (mapM f l1 s1) as [[o1|e] s2]; auto.
    destruct (mapM f l2 s2) as [[o2|e] s3]; auto.
Qed.

Lemma mapM_ext : forall S I O (f g : I -> M S O) l s, (forall x s, f x s = g x s) -> mapM f l s = mapM g l s.
Proof.
  intros S I O f g l; induction l as [|x l IH]; intros s H; simpl; auto.
  unfold bind. rewrite H. destruct (g x s) as [[o|e] s1]; auto. rewrite IH; auto.
Qed.
Lemma iterM_ext : forall S I (f g : I -> M S unit) l s, (forall x s, f x s = g x s) -> iterM f l s = iterM g l s.
Proof.
  intros S I f g l; induction l as [|x l IH]; intros s H; simpl; auto.
  unfold bind. rewrite H. destruct (g x s) as [[o|e] s1]; auto.
Qed.

(** When a loop raises, a prefix was processed completely, then one call raised. *)
Lemma mapM_raise : forall S I O (f : I -> M S O) l s e s', mapM f l s = (Raise e, s') ->
  exists l1 x l2 outs s1, l = l1 ++ x :: l2 /\ performed f l1 s outs s1 /\ f x s1 = (Raise e, s').
Proof.
  intros S I O f l; induction l as [|x l IH]; intros s e s' H; simpl in H.
  - discriminate.
  - unfold bind, ret in H. destruct (f x s) as [[o|e1] s1] eqn:E.
    + destruct (mapM f l s1) as [[os|e2] s2] eqn:E2; [discriminate|]. inversion H; subst.
      destruct (IH _ _ _ E2) as (l1 & y & l2 & outs & s3 & -> & P & Q).
      exists (x :: l1), y, l2, (o :: outs), s3. simpl. eauto.
    + inversion H; subst. exists [], x, l, [], s. simpl. auto.
Qed.
Lemma iterM_raise : forall S I (f : I -> M S unit) l s e s', iterM f l s = (Raise e, s') ->
  exists l1 x l2 s1, l = l1 ++ x :: l2 /\ iterM f l1 s = (Ok tt, s1) /\ f x s1 = (Raise e, s').
Proof.
  intros S I f l s e s' H. rewrite iterM_mapM in H.
  destruct (mapM f l s) as [[os|e1] s1] eqn:E; [discriminate|]. inversion H; subst.
  destruct (mapM_raise _ _ _ _ _ _ _ _ E) as (l1 & x & l2 & outs & s3 & -> & P & Q).
  exists l1, x, l2, s3. split; auto. split; auto.
  apply iterM_performed. rewrite <- (performed_units _ _ _ _ _ _ _ P). auto.
Qed.

Lemma performed_app : forall S I O (f : I -> M S O) l1 l2 s outs s',
  performed f (l1 ++ l2) s outs s' <->
  exists o1 o2 s1, outs = o1 ++ o2 /\ performed f l1 s o1 s1 /\ performed f l2 s1 o2 s'.
Proof.
  intros. rewrite performed_iff, mapM_app. split.
  - destruct (mapM f l1 s) as [[o1|e] s1] eqn:E1; [|discriminate].
    destruct (mapM f l2 s1) as [[o2|e] s2] eqn:E2; [|discriminate]. intros H; inversion H; subst.
    exists o1, o2, s1. rewrite !performed_iff. auto.
  - intros (o1 & o2 & s1 & -> & P1 & P2). apply performed_iff in P1. apply performed_iff in P2.
    rewrite P1, P2. reflexivity.
Qed.

Lemma performed_length : forall S I O (f : I -> M S O) l s outs s', performed f l s outs s' -> length outs = length l.
Proof. intros. apply performed_iff in H. eapply mapM_length; eauto. Qed.

(** Loops over the generators of _iterate. *)
Lemma for_gen_none : forall S X Y (body : X * option Y -> M S unit) xs s,
  for_gen body (iterate xs None) s = iterM (fun x => body (x, None)) xs s.
Proof.
  intros. rewrite iterate_none. unfold for_gen, bind. simpl fst; simpl snd. rewrite iterM_map.
  destruct (iterM _ xs s) as [[[]|e] s1]; reflexivity.
Qed.
Lemma for_gen_some : forall S X Y (body : X * option Y -> M S unit) xs ys s, length xs = length ys ->
  for_gen body (iterate xs (Some ys)) s = iterM (fun p => body (fst p, Some (snd p))) (combine xs ys) s.
Proof.
  intros. rewrite iterate_some by auto. unfold for_gen, bind. simpl fst; simpl snd. rewrite iterM_map.
  destruct (iterM _ _ s) as [[[]|e] s1]; reflexivity.
Qed.
Lemma for_gen_mismatch : forall S X Y (body : X * option Y -> M S unit) xs ys s, length xs <> length ys ->
  for_gen body (iterate xs (Some ys)) s = (Raise AssertionError, s).
Proof. intros. rewrite iterate_mismatch by auto. reflexivity. Qed.
Lemma map_gen_none : forall S X Y O (body : X * option Y -> M S O) xs s,
  map_gen body (iterate xs None) s = mapM (fun x => body (x, None)) xs s.
Proof.
  intros. rewrite iterate_none. unfold map_gen, bind. simpl fst; simpl snd. rewrite mapM_map.
  destruct (mapM _ xs s) as [[os|e] s1]; reflexivity.
Qed.
Lemma map_gen_some : forall S X Y O (body : X * option Y -> M S O) xs ys s, length xs = length ys ->
  map_gen body (iterate xs (Some ys)) s = mapM (fun p => body (fst p, Some (snd p))) (combine xs ys) s.
Proof.
  intros. rewrite iterate_some by auto. unfold map_gen, bind. simpl fst; simpl snd. rewrite mapM_map.
  destruct (mapM _ _ s) as [[os|e] s1]; reflexivity.
Qed.
Lemma map_gen_mismatch : forall S X Y O (body : X * option Y -> M S O) xs ys s, length xs <> length ys ->
  map_gen body (iterate xs (Some ys)) s = (Raise AssertionError, s).
Proof. intros. rewrite iterate_mismatch by auto. reflexivity. Qed.

(** A call that never mutates: the loop maps it. *)
Lemma mapM_pure : forall S I O (f : I -> M S O) l s, (forall x, snd (f x s) = s) ->
  snd (mapM f l s) = s /\
  forall outs, fst (mapM f l s) = Ok outs <-> Forall2 (fun x o => fst (f x s) = Ok o) l outs.
Proof.
  intros S I O f l s H; induction l as [|x l IH]; simpl.
  - split; auto. intros outs. unfold ret; simpl. split; intros Q; inversion Q; subst; auto.
  - unfold bind, ret. specialize (H x) as Hx. destruct (f x s) as [[o|e] s1] eqn:E; simpl in Hx; subst s1.
    + destruct (mapM f l s) as [[os|e] s2] eqn:E2; simpl in IH; destruct IH as [-> IH]; simpl; split; auto.
      * intros outs. split.
        -- intros Q; inversion Q; subst. constructor; [rewrite E; auto|]. apply IH; auto.
        -- intros Q; inversion Q; subst. rewrite E in H2. simpl in H2. inversion H2; subst.
           apply IH in H4. inversion H4; subst; auto.
      * intros outs. split; [discriminate|]. intros Q; inversion Q; subst. apply IH in H4. discriminate.
    + simpl. split; auto. intros outs; split; [discriminate|]. intros Q; inversion Q; subst.
      rewrite E in H2. discriminate.
Qed.
