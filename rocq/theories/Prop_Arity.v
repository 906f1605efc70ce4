(** * Instances with another number of features (C119). *)
From Coq Require Import String.
From Coq Require Import List ZArith Lia Bool Reals Lra Arith Permutation.
From Verif Require Import Base Num Spec Model_Stats Model_Utils Model_Core Model_Trans Model_Simple Model_Sketch Model_HST Model_Loda Model_KNN Model_XStream Model_KitNET P_Lists P_Models Prop_Simple Prop_KNN Prop_Trans Prop_Features Prop_HST Prop_XStream Prop_KitNET Prop_Atomic.
Import ListNotations.
Local Notation length := List.length.

(** ** Specification *)
(** The same method is called with the same label, on two instances in the relation [rel]. *)
Definition same_call {X Y} (rel : X -> X -> Prop) (c c' : mcall X Y) : Prop :=
  match c, c' with
  | CFit x y, CFit x' y' => rel x x' /\ y = y'
  | CScore x, CScore x' => rel x x'
  | CFitScore x y, CFitScore x' y' => rel x x' /\ y = y'
  | _, _ => False
  end.
(** The object in state s cannot tell related instances apart: whatever is called from now on, every answer (a score, nothing, or an
    exception) is the same for two sequences of calls on related instances. *)
Definition cannot_tell {X Y A} (rel : X -> X -> Prop) (m : Model X Y A) (s : md_state m) : Prop :=
  forall h h' c c', Forall2 (same_call rel) (h ++ [c]) (h' ++ [c']) -> eval (model_call m c) (model_run m s h) = eval (model_call m c') (model_run m s h').
(** Both instances have the first n features, and these are equal; the other ones and their number may differ. *)
Definition same_features {A} (n : nat) (x x' : list A) : Prop := (n <= length x)%nat /\ (n <= length x')%nat /\ firstn n x = firstn n x'.
(** One instance is the other with features of value 0 appended. *)
Definition zero_padded (x x' : list R) : Prop := exists k, x' = x ++ repeat 0%R k.

(** ** Simulation *)
Lemma cannot_tell_by : forall X Y A S fit score (rel : X -> X -> Prop) (I : S -> Prop),
  (forall x x' (y : option Y) s, rel x x' -> I s -> fit x y s = fit x' y s /\ I (snd (fit x y s))) ->
  (forall x x' s, rel x x' -> I s -> score x s = score x' s /\ I (snd (score x s))) ->
  forall s, I s -> cannot_tell rel (@plain_model X Y A S fit score) s.
Proof.
  intros X Y A S fit score rel I Hf Hs.
  assert (G : forall c c' s, same_call rel c c' -> I s -> model_call (@plain_model X Y A S fit score) c s = model_call (@plain_model X Y A S fit score) c' s /\
              I (snd (model_call (@plain_model X Y A S fit score) c s))).
  { intros c c' s E H. destruct c as [x y|x|x y], c' as [x' y'|x'|x' y']; cbn in E; try contradiction; cbn [model_call md_fit md_score md_fit_score plain_model].
    - destruct E as [E <-]. destruct (Hf x x' y s E H) as [<- J]. destruct (fit x y s). auto.
    - destruct (Hs x x' s E H) as [<- J]. destruct (score x s). auto.
    - destruct E as [E <-]. unfold default_fit_score, bind. destruct (Hf x x' y s E H) as [<- J]. destruct (fit x y s) as [[u|e] t]; cbn in J |- *; auto.
      destruct (Hs x x' t E J) as [<- J']. destruct (score x t). auto. }
  intros s H h. revert s H. induction h as [|o h IH]; intros s H h' c c' F.
  - destruct h' as [|o' h']; cbn [app] in F; inversion F as [|? ? ? ? E F']; subst; [|destruct h'; inversion F'].
    unfold eval. cbn [model_run fold_left]. destruct (G c c' s E H) as [<- _]. auto.
  - destruct h' as [|o' h']; cbn [app] in F; inversion F as [|? ? ? ? E F']; subst; [destruct h; inversion F'|].
    destruct (G o o' s E H) as [EQ J].
    change (eval (model_call (@plain_model X Y A S fit score) c) (model_run (@plain_model X Y A S fit score) (snd (model_call (@plain_model X Y A S fit score) o s)) h) =
            eval (model_call (@plain_model X Y A S fit score) c') (model_run (@plain_model X Y A S fit score) (snd (model_call (@plain_model X Y A S fit score) o' s)) h')).
    rewrite <- EQ. apply IH; auto.
Qed.
Lemma same_index : forall A n (x x' : list A) q, same_features n x x' -> (q < n)%nat -> py_index x q = py_index x' q.
Proof.
  intros A n x x' q (L & L' & E) H. unfold py_index. rewrite <- (firstn_skipn n x), <- (firstn_skipn n x'), E.
  rewrite !nth_error_app1; auto; rewrite firstn_length; lia.
Qed.
Lemma same_indices : forall A n (x x' : list A) l, same_features n x x' -> Forall (fun q => (q < n)%nat) l -> res_map (py_index x) l = res_map (py_index x') l.
Proof. intros A n x x' l E F. induction F as [|q l Hq F IH]; auto. cbn [res_map]. rewrite (same_index A n x x' q E Hq), IH. auto. Qed.

(** ** Half-space trees, RSHash and KNNCAD ignore surplus features *)
(** A tree of the code: the features it asks for are below n. *)
Inductive asks_below {A} (n : nat) : hst A -> Prop :=
| asks_none : asks_below n HNone
| asks_node : forall l r rm lm q p k, (q < n)%nat -> asks_below n l -> asks_below n r -> asks_below n (HNode l r rm lm q p k).
Lemma asks_build : forall A (NA : Num A) cast draw n k mins maxes depth i t j, (1 <= n)%nat -> (forall i, (draw i < n)%nat) ->
  hs_build cast draw k mins maxes depth i = (Ok t, j) -> asks_below n t.
Proof.
  intros A NA cast draw n k. induction k as [|k IH]; intros mins maxes depth i t j Hn Hd E.
  - cbn in E. unfold ret in E. inversion E; subst. repeat constructor; lia.
  - cbn [hs_build] in E. unfold bind, gets, lift, ret, raise, modify in E. destruct (length maxes =? 0)%nat; [discriminate|].
    destruct (py_index maxes (draw i)) as [hi|]; [|discriminate]. destruct (py_index mins (draw i)) as [lo|]; [|discriminate].
    match type of E with context [hs_build ?c ?d ?k ?a ?b ?de ?i] => destruct (hs_build c d k a b de i) as [[l|] j1] eqn:E1; [|discriminate] end.
    match type of E with context [hs_build ?c ?d ?k ?a ?b ?de j1] => destruct (hs_build c d k a b de j1) as [[r|] j2] eqn:E2; [|discriminate] end.
    inversion E; subst. constructor; auto; eapply IH; eauto.
Qed.
Lemma asks_builds : forall A (NA : Num A) cast draw n k mins maxes (l : list nat) i ts j, (1 <= n)%nat -> (forall i, (draw i < n)%nat) ->
  mapM (fun _ => hs_build cast draw k mins maxes 0) l i = (Ok ts, j) -> Forall (asks_below n) ts.
Proof.
  intros A NA cast draw n k mins maxes l. induction l as [|a l IH]; intros i ts j Hn Hd E; cbn [mapM] in E; unfold ret, bind in E; [inversion E; constructor|].
  destruct (hs_build cast draw k mins maxes 0 i) as [[t|] j1] eqn:E1; [|discriminate]. destruct (mapM _ l j1) as [[ts'|] j2] eqn:E2; [|discriminate].
  inversion E; subst. constructor; [eapply asks_build; eauto|eapply IH; eauto].
Qed.
Lemma asks_mass : forall A (NA : Num A) n D first (x x' : list A) t, same_features n x x' -> asks_below n t ->
  hs_update_mass D x first t = hs_update_mass D x' first t /\ asks_below n (snd (hs_update_mass D x first t)).
Proof.
  intros A NA n D first x x' t E H. induction H as [|l r rm lm q p k Hq Hl [El Jl] Hr [Er Jr]]; [split; [auto|constructor]|].
  cbn [hs_update_mass]. rewrite (same_index A n x x' q E Hq), <- El, <- Er. destruct (k <? D)%nat; [|split; [auto|constructor; auto]].
  destruct (py_index x' q) as [v|e]; [|split; [auto|constructor; auto]]. destruct (oltb p v).
  - destruct (hs_update_mass D x first r). split; [auto|constructor; auto].
  - destruct (hs_update_mass D x first l). split; [auto|constructor; auto].
Qed.
Lemma asks_each : forall A (NA : Num A) n D first (x x' : list A) ts, same_features n x x' -> Forall (asks_below n) ts ->
  each_tree (hs_update_mass D x first) ts = each_tree (hs_update_mass D x' first) ts /\ Forall (asks_below n) (snd (each_tree (hs_update_mass D x first) ts)).
Proof.
  intros A NA n D first x x' ts E F. induction F as [|t ts Ht F [E1 J]]; [split; [auto|constructor]|]. cbn [each_tree]. rewrite <- E1.
  destruct (asks_mass A NA n D first x x' t E Ht) as [<- Jt]. destruct (hs_update_mass D x first t) as [[u|e] t']; [|split; [auto|constructor; auto]].
  destruct (each_tree (hs_update_mass D x first) ts). split; [auto|constructor; auto].
Qed.
Lemma asks_next : forall A n (t : hst A), asks_below n t -> asks_below n (hs_update_model t).
Proof. intros A n t H. induction H; cbn; constructor; auto. Qed.
Theorem C119_half_space_trees : forall A Y (NA : Num A) n cast draw mins maxes W T D s, (1 <= n)%nat -> (forall i, (draw i < n)%nat) ->
  HST_init (Y := Y) cast draw mins maxes W T D IWNone = Ok s -> cannot_tell (same_features n) (HalfSpaceTrees (Y := Y) W D) s.
Proof.
  intros A Y NA n cast draw mins maxes W T D s Hn Hd E. unfold HST_init in E. cbn [iw_truth rbind] in E.
  destruct (mapM _ (seq 0 T) 0%nat) as [[ts|] j] eqn:B; cbn [fst rbind] in E; [|discriminate]. inversion E; subst. clear E. apply asks_builds with (n := n) in B; auto.
  apply cannot_tell_by with (I := fun s => Forall (asks_below n) (hs_roots s)); auto.
  - intros x x' y [rt fs st] E F. cbn [hs_roots] in F. unfold bind, modify, gets, ret, raise. cbn [hs_roots hs_first hs_step].
    destruct (asks_each A NA n D fs x x' rt E F) as [<- J]. destruct (each_tree (hs_update_mass D x fs) rt) as [[u|e] f]; cbn [snd] in J; [|auto]. split; auto.
    cbn [snd hs_roots hs_first hs_step]. destruct (W =? 0)%nat; cbn [snd hs_roots hs_step]; auto. destruct (S st mod W =? 0)%nat; cbn [snd hs_roots hs_next_window]; auto.
    clear - J. induction J; cbn; constructor; auto using asks_next.
  - intros x x' [rt fs st] E F. cbn [hs_roots] in F. unfold bind, gets, lift, ret. cbn [hs_roots].
    assert (G : forall t, asks_below n t -> hs_score_tree x t = hs_score_tree x' t).
    { intros t Ht. induction Ht as [|l r rm lm q p k Hq Hl IHl Hr IHr]; auto. cbn [hs_score_tree]. rewrite (same_index A n x x' q E Hq), IHl, IHr. auto. }
    assert (G' : res_map (hs_score_tree x) rt = res_map (hs_score_tree x') rt).
    { clear - F G. induction F as [|t l Ht F IH]; auto. cbn [res_map]. rewrite (G t Ht), IH. auto. }
    rewrite <- G'. destruct (res_map (hs_score_tree x) rt); auto.
Qed.
Print Assumptions C119_half_space_trees.

Theorem C119_rshash : forall A Y (NA : Num A) n pow2 log floor decay (comps : list (rscomp A)) s, Forall (fun c => Forall (fun q => (q < n)%nat) (rs_V c)) comps ->
  cannot_tell (same_features n) (RSHash (Y := Y) pow2 log floor decay comps) s.
Proof.
  intros A Y NA n pow2 log floor decay comps s FV. apply cannot_tell_by with (I := fun _ => True); auto.
  intros x x' y t E _. split; auto. unfold bind.
  assert (EM : forall l k t, Forall (fun c => Forall (fun q => (q < n)%nat) (rs_V c)) l ->
     mapM (rs_component pow2 log floor decay x) (combine (seq k (length l)) l) t = mapM (rs_component pow2 log floor decay x') (combine (seq k (length l)) l) t).
  { induction l as [|c l IH]; intros k u F; auto. inversion F; subst. cbn [length seq combine mapM]. unfold bind.
    assert (EC : rs_component pow2 log floor decay x (k, c) u = rs_component pow2 log floor decay x' (k, c) u).
    { unfold rs_component, bind, lift. cbn [fst snd]. unfold rs_cell. rewrite (same_indices A n x x' (rs_V c) E) by auto. auto. }
    rewrite EC. destruct (rs_component pow2 log floor decay x' (k, c) u) as [[v|e] u']; auto. rewrite IH by auto. auto. }
  rewrite EM by auto. auto.
Qed.
Print Assumptions C119_rshash.
(** An instance is rejected exactly if a selected feature does not exist. *)
Theorem C119_rshash_rejects : forall A Y (NA : Num A) pow2 log floor decay (comps : list (rscomp A)) points fns (h : list (mcall (list A) Y)) x y e, (1 <= fns)%nat -> oeqb (nofZ (Z.of_nat (length comps)) : A) n0 = false ->
  eval (md_fit (RSHash (Y := Y) pow2 log floor decay comps) x y) (model_run (RSHash (Y := Y) pow2 log floor decay comps) (RSHash_init points fns) h) = Raise e <->
  e = IndexError /\ exists c q, In c comps /\ In q (rs_V c) /\ (length x <= q)%nat.
Proof.
  intros A Y NA pow2 log floor decay comps points fns h x y e Hf Hc.
  assert (C : forall x r c (t : rsst A), length (rs_sketches t) = fns -> length (rs_sketches (snd (rs_component pow2 log floor decay x (r, c) t))) = fns /\
    ((forall q, In q (rs_V c) -> (q < length x)%nat) /\ (exists v, fst (rs_component pow2 log floor decay x (r, c) t) = Ok v) \/
     (exists q, In q (rs_V c) /\ (length x <= q)%nat) /\ fst (rs_component pow2 log floor decay x (r, c) t) = Raise IndexError)).
  { intros z r c t L. unfold rs_component, bind, lift, gets, modify, ret. cbn [fst snd]. unfold rs_cell.
    assert (P : (forall q, In q (rs_V c) -> (q < length z)%nat) /\ (exists vs, res_map (py_index z) (rs_V c) = Ok vs) \/ (exists q, In q (rs_V c) /\ (length z <= q)%nat) /\ res_map (py_index z) (rs_V c) = Raise IndexError).
    { induction (rs_V c) as [|q l IH]; [left; split; [intros q []|eexists; reflexivity]|]. cbn [res_map]. unfold py_index at 1 3. destruct (nth_error z q) as [a|] eqn:Q.
      - assert (Hq : (q < length z)%nat) by (apply nth_error_Some; congruence). destruct IH as [[B (vs & ->)]|[(q' & I & Hq') ->]]; cbn [rbind rmap].
        + left. split; [intros q' [<-|I]; auto|eexists; reflexivity].
        + right. split; [exists q'; split; [right; auto|auto]|reflexivity].
      - right. split; [exists q; split; [left; auto|apply nth_error_None; auto]|reflexivity]. }
    destruct P as [[B (vs & ->)]|[B ->]]; cbn [rmap].
    - set (tl := map _ (rs_sketches t)). assert (Lt : length tl = fns) by (unfold tl; rewrite map_length; auto). destruct tl as [|a tl]; cbn in Lt; [lia|]. cbn [map fst snd rs_sketches length]. rewrite map_length. split; [lia|]. left. split; auto. eexists; reflexivity.
    - cbn. split; auto. }
  assert (M : forall x l k (t : rsst A), length (rs_sketches t) = fns -> length (rs_sketches (snd (mapM (rs_component pow2 log floor decay x) (combine (seq k (length l)) l) t))) = fns /\
    ((forall c q, In c l -> In q (rs_V c) -> (q < length x)%nat) /\ (exists v, fst (mapM (rs_component pow2 log floor decay x) (combine (seq k (length l)) l) t) = Ok v) \/
     (exists c q, In c l /\ In q (rs_V c) /\ (length x <= q)%nat) /\ fst (mapM (rs_component pow2 log floor decay x) (combine (seq k (length l)) l) t) = Raise IndexError)).
  { intros z l. induction l as [|c l IH]; intros k t L; cbn [length seq combine mapM].
    - unfold ret. cbn. split; auto. left. split; [intros c q []|eexists; reflexivity].
    - unfold bind. destruct (C z k c t L) as [L' D]. destruct (rs_component pow2 log floor decay z (k, c) t) as [r u]. cbn [fst snd] in L', D. destruct D as [[B (v & ->)]|[(q & I & Hq) ->]].
      + destruct (IH (S k) u L') as [L'' D']. destruct (mapM (rs_component pow2 log floor decay z) (combine (seq (S k) (length l)) l) u) as [r' u']. cbn [fst snd] in L'', D'. unfold ret.
        destruct D' as [[B' (vs & ->)]|[(c' & q & I & I' & Hq) ->]]; cbn [fst snd]; split; auto.
        * left. split; [intros c' q [<-|I]; eauto|eexists; reflexivity].
        * right. split; [exists c', q; split; [right; auto|auto]|reflexivity].
      + cbn. split; auto. right. split; [exists c, q; split; [left; auto|auto]|reflexivity]. }
  assert (LI : forall h s, length (rs_sketches s) = fns -> length (rs_sketches (model_run (RSHash (Y := Y) pow2 log floor decay comps) s h)) = fns).
  { intros h0 s0 H0. refine (plain_run_all _ _ _ _ _ _ (fun _ (s : rsst A) => length (rs_sketches s) = fns) _ _ h0 s0 H0).
    - intros _ s z v H. unfold exec, bind. destruct (M z comps 0%nat s H) as [L _]. destruct (mapM _ _ s) as [[vs|e'] u]; cbn [snd] in L |- *; auto. unfold lift. destruct (pydiv _ _); auto.
    - intros _ s z H. unfold exec, bind, gets, ret. cbn. auto. }
  specialize (LI h (RSHash_init points fns) (repeat_length _ _)). set (s := model_run _ _ h) in *. unfold eval. cbn [md_fit RSHash plain_model]. unfold bind.
  destruct (M x comps 0%nat s LI) as [_ D]. destruct (mapM (rs_component pow2 log floor decay x) (combine (seq 0 (length comps)) comps) s) as [r u]. cbn [fst] in D.
  destruct D as [[B (v & ->)]|[(c & q & I & I' & Hq) ->]].
  - unfold lift, pydiv. rewrite Hc. unfold modify. cbn [fst]. split; [discriminate|]. intros [_ (c & q & I & I' & Hq)]. specialize (B c q I I'). lia.
  - cbn [fst]. split; [intros Q; inversion Q; split; eauto|intros [-> _]; auto].
Qed.
Print Assumptions C119_rshash_rejects.

Theorem C119_knncad : forall A Y (NA : Num A) half alarm inverse P s, cannot_tell (same_features 1) (KNNCAD (Y := Y) half alarm inverse P) s.
Proof.
  intros A Y NA half alarm inverse P s. apply cannot_tell_by with (I := fun _ => True); auto.
  intros x x' y t E _. split; auto. rewrite (same_index A 1 x x' 0 E) by lia. auto.
Qed.
Print Assumptions C119_knncad.

(** ** xStream accepts any number of features; a missing one counts as 0 *)
Open Scope R_scope.
Theorem C119_xstream : forall Y mmh3 comps density p tiny floor log2 K W s, (1 <= comps)%Z -> Streamhash_init 1 comps density = Ok p ->
  cannot_tell zero_padded (xStream (Y := Y) 2 1 tiny mmh3 p floor log2 K W) s.
Proof.
  intros Y mmh3 comps density p tiny floor log2 K W s Hc E.
  assert (P : forall x x', zero_padded x x' -> xs_project 2 1 mmh3 p x = xs_project 2 1 mmh3 p x').
  { intros x x' [k ->]. destruct (project_total mmh3 comps density p Hc E) as (P & H1 & _ & H3). rewrite !H1. f_equal.
    exact (projects_unique _ _ _ _ _ (C42_zero_features_are_invisible mmh3 comps density p x _ k Hc E (H3 x)) (H3 (x ++ repeat 0 k))). }
  apply cannot_tell_by with (I := fun _ => True); auto.
  - intros x x' y t Z _. split; auto. rewrite (P x x' Z). auto.
  - intros x x' t Z _. split; auto. rewrite (P x x' Z). auto.
Qed.
Print Assumptions C119_xstream.

(** ** LODA insists on the number of features of the first instance it was fitted with *)
Theorem C119_loda : forall A Y (NA : Num A) half eps log randn perms n_bins n_cuts (h : list (mcall (list A) Y)) x0 rest x y, (1 <= n_cuts)%nat -> fitted_instances h = x0 :: rest ->
  (length x <> length x0 ->
     eval (md_fit (LODA (Y := Y) half eps log randn perms n_bins n_cuts) x y) (model_run (LODA (Y := Y) half eps log randn perms n_bins n_cuts) LODA_init h) = Raise ValueError /\
     eval (md_score (LODA (Y := Y) half eps log randn perms n_bins n_cuts) x) (model_run (LODA (Y := Y) half eps log randn perms n_bins n_cuts) LODA_init h) = Raise ValueError) /\
  ((1 <= n_bins)%nat -> length x = length x0 ->
     eval (md_fit (LODA (Y := Y) half eps log randn perms n_bins n_cuts) x y) (model_run (LODA (Y := Y) half eps log randn perms n_bins n_cuts) LODA_init h) = Ok tt).
Proof.
  intros A Y NA half eps log randn perms n_bins n_cuts h x0 rest x y Hc Eh. set (m := LODA half eps log randn perms n_bins n_cuts).
  assert (Cut : forall z i o k, exists o' k', snd (loda_cut half eps perms n_bins z i (mkLoda (Some o) k)) = mkLoda (Some o') k' /\ lo_dim o' = lo_dim o /\
      (length z <> lo_dim o -> fst (loda_cut half eps perms n_bins z i (mkLoda (Some o) k)) = Raise ValueError) /\
      ((1 <= n_bins)%nat -> length z = lo_dim o -> fst (loda_cut half eps perms n_bins z i (mkLoda (Some o) k)) = Ok tt)).
  { intros z i o k. unfold loda_cut, bind, gets, modify, raise. cbn [loda_obj]. destruct (Nat.eqb_spec (length z) (lo_dim o)) as [L|L]; cbn [negb].
    - destruct (Nat.eqb_spec n_bins 0) as [B|B]; cbn [fst snd]; eexists _, _; (split; [reflexivity|]); cbn [lo_dim]; repeat split; auto; intros; lia.
    - cbn [fst snd]. eexists _, _. split; [reflexivity|]. cbn [lo_dim]. repeat split; auto; intros; lia. }
  assert (Cuts : forall z l o k, exists o' k', snd (iterM (loda_cut half eps perms n_bins z) l (mkLoda (Some o) k)) = mkLoda (Some o') k' /\ lo_dim o' = lo_dim o /\
      (length z <> lo_dim o -> l <> [] -> fst (iterM (loda_cut half eps perms n_bins z) l (mkLoda (Some o) k)) = Raise ValueError) /\
      ((1 <= n_bins)%nat -> length z = lo_dim o -> fst (iterM (loda_cut half eps perms n_bins z) l (mkLoda (Some o) k)) = Ok tt)).
  { intros z l. induction l as [|i l IH]; intros o k; cbn [iterM].
    - unfold ret. cbn. eexists _, _. split; [reflexivity|]. repeat split; auto; congruence.
    - unfold bind. destruct (Cut z i o k) as (o1 & k1 & E1 & D1 & R1 & A1). destruct (loda_cut half eps perms n_bins z i (mkLoda (Some o) k)) as [r u]. cbn [fst snd] in *. subst u.
      destruct r as [[]|e].
      + destruct (IH o1 k1) as (o2 & k2 & E2 & D2 & R2 & A2). exists o2, k2. rewrite D2, D1 in *. split; [auto|]. split; [auto|]. split; auto. intros L _. specialize (R1 L). discriminate.
      + exists o1, k1. split; [auto|]. split; [auto|]. split; auto. }
  assert (I : match fitted_instances h with [] => model_run m LODA_init h = mkLoda None 0 | a :: _ => exists o k, model_run m LODA_init h = mkLoda (Some o) k /\ lo_dim o = length a end).
  { refine (plain_run_all _ _ _ _ _ _ (fun l (s : lodast A) => match l with [] => s = mkLoda None 0 | a :: _ => exists o k, s = mkLoda (Some o) k /\ lo_dim o = length a end) _ _ h _ _); [| |reflexivity].
    - intros l s z v H. destruct l as [|a l]; cbn [app].
      + subst s. unfold exec, bind, modify. cbn [loda_obj loda_draws]. destruct (Cuts z (seq 0 n_cuts) (loda_setup randn n_bins n_cuts (length z)) 0%nat) as (o & k & E & D & _). exists o, k. split; [exact E|]. rewrite D. reflexivity.
      + destruct H as (o & k & -> & D). unfold exec, bind, modify. cbn [loda_obj loda_draws]. destruct (Cuts z (seq 0 n_cuts) o k) as (o' & k' & E & D' & _). exists o', k'. split; [exact E|]. congruence.
    - intros l s z H. unfold exec, bind, gets, raise, ret, lift. destruct (loda_obj s); cbn; [|auto]. destruct (res_map _ _); auto. }
  rewrite Eh in I. destruct I as (o & k & I & D). rewrite I. unfold eval, m. cbn [md_fit md_score LODA plain_model]. unfold bind, modify, gets, lift, ret, raise. cbn [loda_obj]. destruct (Cuts x (seq 0 n_cuts) o k) as (o' & k' & E & D' & R1 & A1). rewrite D in *. split.
  - intros L. split; [apply R1; auto; destruct n_cuts; [lia|discriminate]|]. destruct n_cuts as [|c]; [lia|]. cbn [seq res_map]. unfold loda_cut_score at 1. rewrite D. destruct (Nat.eqb_spec (length x) (length x0)) as [Q|_]; [congruence|]. reflexivity.
  - intros B L. apply A1; auto.
Qed.
Print Assumptions C119_loda.

(** ** KitNet: before its feature map exists, a single feature is spread over all of them and any other number is rejected; afterwards surplus
    features are ignored *)
Lemma statistics_shape : forall A (NA : Num A) n (xs : list (list A)), (2 <= n)%nat -> Forall (fun x => length x = n) xs -> length (cc_c (statistics n xs)) = n.
Proof.
  intros A NA n xs Hn. unfold statistics, exec. assert (G : forall xs s, length (cc_c s) = n -> Forall (fun x : list A => length x = n) xs -> length (cc_c (snd (iterM cc_update xs s))) = n).
  { clear - Hn. induction xs as [|x xs IH]; intros s Hs F; [auto|]. apply Forall_cons_iff in F. destruct F as [Fx F]. cbn [iterM]. unfold bind at 1. destruct (update_shape n Hn x s Hs Fx) as (s1 & E1 & H1). rewrite E1. apply IH; auto. }
  intros F. apply G; auto. cbn. apply repeat_length.
Qed.
Theorem C119_kitnet_early : forall A Y (NA : Num A) p n (h : list (mcall (list A) Y)) x y, (2 <= n)%nat -> Forall (fun x => length x = n) (fitted_instances h) ->
  (1 <= length (fitted_instances h) <= match kp_fm p with Some f => f | None => kp_ad p end)%nat ->
  let s := model_run (KitNet p) None h in
  (length x <> n -> length x <> 1%nat -> eval (md_fit (KitNet p) x y) s = Raise ValueError) /\
  (forall v, x = [v] -> md_fit (KitNet p) x y s = md_fit (KitNet p) (repeat v n) y s).
Proof.
  intros A Y NA p n h x y Hn F Hk s. assert (K : kit_ok p n (fitted_instances h)) by (split; [exact F|intros L; unfold kit_fmg in L; lia]).
  pose proof (run_phase p n Hn Y h K) as I. fold s in I. unfold phase in I. destruct (Nat.eqb_spec (length (fitted_instances h)) 0) as [Z|_]; [lia|].
  destruct (Nat.leb_spec (length (fitted_instances h)) (kit_fmg p)) as [L|L]; [|unfold kit_fmg in L; lia]. destruct I as [e I].
  assert (Lc : length (cc_c (statistics n (fitted_instances h))) = n) by (apply statistics_shape; auto).
  assert (P : forall z, kit_process p z (mkKit n (statistics n (fitted_instances h)) (length (fitted_instances h)) e None [] None) = kit_train p z (mkKit n (statistics n (fitted_instances h)) (length (fitted_instances h)) e None [] None)).
  { intros z. unfold kit_process, bind, gets. cbn [kt_trained]. destruct (Nat.ltb_spec (kit_fmg p + kp_ad p) (length (fitted_instances h))); [lia|auto]. }
  assert (T : forall z, kit_train p z (mkKit n (statistics n (fitted_instances h)) (length (fitted_instances h)) e None [] None) =
     (kit_train_fm p z ;;; modify (fun s => mkKit (kt_n s) (kt_fm s) (S (kt_trained s)) (kt_executed s) (kt_map s) (kt_ens s) (kt_out s)))%M (mkKit n (statistics n (fitted_instances h)) (length (fitted_instances h)) e None [] None)).
  { intros z. unfold kit_train, bind, gets. cbn [kt_trained kt_map]. destruct (Nat.leb_spec (length (fitted_instances h)) (kit_fmg p)); [auto|lia]. }
  cbn [md_fit KitNet plain_model]. unfold eval, bind, modify. rewrite I, !P, !T. unfold kit_train_fm, zoom, bind. cbn [kt_fm]. split.
  - intros N1 N2. unfold cc_update, bind, modify, gets, lift. cbn [cc_c]. rewrite Lc. destruct (Nat.eqb_spec (length x) n); [congruence|]. destruct x as [|a [|b x]]; cbn in N2; try congruence; reflexivity.
  - intros v ->. rewrite P, T. assert (U : forall u, length (cc_c u) = n -> cc_update [v] u = cc_update (repeat v n) u).
    { intros u Lu. unfold cc_update, bind, modify, gets, lift. cbn [cc_c]. rewrite Lu, repeat_length, Nat.eqb_refl. cbn [length]. destruct (Nat.eqb_spec 1 n); [lia|]. reflexivity. }
    unfold kit_train_fm, zoom, bind. cbn [kt_fm]. rewrite (U _ Lc). reflexivity.
Qed.
Print Assumptions C119_kitnet_early.
Theorem C119_kitnet : forall A Y (NA : Num A) p n (h : list (mcall (list A) Y)), (2 <= n)%nat -> kit_ok p n (fitted_instances h) ->
  (match kp_fm p with Some f => f | None => kp_ad p end < length (fitted_instances h))%nat -> cannot_tell (same_features n) (KitNet p) (model_run (KitNet p) None h).
Proof.
  intros A Y NA p n h Hn K L. pose proof (run_phase p n Hn Y h K) as I. unfold phase in I. destruct (Nat.eqb_spec (length (fitted_instances h)) 0) as [Z|_]; [lia|].
  destruct (Nat.leb_spec (length (fitted_instances h)) (kit_fmg p)) as [L'|_]; [unfold kit_fmg in L'; lia|]. destruct I as (v & st0 & fm & e & _ & [VP _] & _ & _ & _ & I).
  set (st := fold_left _ _ st0) in I. rewrite I. clear I.
  assert (V : Forall (Forall (fun q => (q < n)%nat)) v).
  { apply Forall_forall. intros c Hc. apply Forall_forall. intros j Hj. assert (In j (concat v)) as Q by (apply in_concat; eauto). apply (Permutation_in _ VP) in Q. apply in_seq in Q. lia. }
  assert (S : forall (x x' : list A) a, same_features n x x' -> sub_instance x (nth a v []) = sub_instance x' (nth a v [])).
  { intros x x' a E. apply (same_indices A n x x' _ E). destruct (Nat.lt_ge_cases a (length v)) as [H|H]; [|rewrite nth_overflow by auto; constructor]. rewrite Forall_forall in V. apply V, nth_In, H. }
  assert (TL : forall (x x' : list A) l s, same_features n x x' ->
     let f := fun x a => (xi <- lift (sub_instance x (nth a v [])) ;; s <- gets (fun s => s) ;; d <- lift (py_index (kt_ens s) a) ;;
       let '(e, d') := da_train p d xi in modify (fun s => mkKit (kt_n s) (kt_fm s) (kt_trained s) (kt_executed s) (kt_map s) (set_nth a d' (kt_ens s)) (kt_out s)) ;;; ret e)%M in
     mapM (f x) l s = mapM (f x') l s /\ kt_map (snd (mapM (f x) l s)) = kt_map s).
  { intros x x' l s E f. revert s. induction l as [|a l IH]; intros s; [split; reflexivity|]. cbn [mapM]. unfold bind.
    assert (Ef : f x a s = f x' a s /\ kt_map (snd (f x a s)) = kt_map s).
    { unfold f, bind, lift, gets, modify, ret. rewrite (S x x' a E). split; [auto|]. destruct (sub_instance x' (nth a v [])); auto. destruct (py_index (kt_ens s) a); auto. }
    destruct Ef as [<- M]. destruct (f x a s) as [[b|e'] s1]; cbn [snd] in M |- *; [|auto]. destruct (IH s1) as [<- M1]. destruct (mapM (f x) l s1) as [[bs|e'] s2]; cbn [snd] in M1 |- *; split; auto; unfold ret; cbn; congruence. }
  assert (EX : forall (x x' : list A) k, same_features n x x' -> kt_map k = Some v -> kit_execute p x k = kit_execute p x' k /\ kt_map (snd (kit_execute p x k)) = Some v).
  { intros x x' k E M. unfold kit_execute, bind, gets, modify, lift, raise, ret. rewrite M.
    assert (Q : forall l, res_map (fun a => rbind (sub_instance x (nth a v [])) (fun xi => rbind (py_index (kt_ens k) a) (fun d => Ok (da_execute p d xi)))) l = res_map (fun a => rbind (sub_instance x' (nth a v [])) (fun xi => rbind (py_index (kt_ens k) a) (fun d => Ok (da_execute p d xi)))) l).
    { induction l as [|a l IH]; auto. cbn [res_map]. rewrite (S x x' a E), IH. auto. }
    rewrite Q. split; auto. destruct (res_map _ _); cbn [snd kt_map]; auto. destruct (kt_out k); cbn; auto. }
  assert (TR : forall (x x' : list A) k, same_features n x x' -> kt_map k = Some v -> kit_train p x k = kit_train p x' k /\ kt_map (snd (kit_train p x k)) = Some v).
  { intros x x' k E M. unfold kit_train, bind, gets. rewrite M, Bool.andb_false_r. unfold kit_train_ad, bind, gets. rewrite M. unfold kit_train_layer.
    destruct (TL x x' (seq 0 (length v)) k E) as [T1 T2]. cbv zeta in T1, T2. rewrite <- T1. destruct (mapM _ (seq 0 (length v)) k) as [[es|e'] k1]; cbn [snd] in T2; [|split; cbn; auto; congruence].
    destruct (kt_out k1); unfold modify, raise; cbn; split; auto; congruence. }
  apply cannot_tell_by with (I := fun s => exists k, s = Some k /\ kt_map k = Some v); [| |eauto].
  - intros x x' y s E (k & -> & M). unfold bind, modify. unfold kit_process, bind, gets. destruct (kit_fmg p + kp_ad p <? kt_trained k)%nat.
    + destruct (EX x x' k E M) as [<- M']. destruct (kit_execute p x k) as [[r|e'] k']; cbn in M' |- *; eauto.
    + destruct (TR x x' k E M) as [<- M']. destruct (kit_train p x k) as [[r|e'] k']; cbn in M' |- *; eauto.
  - intros x x' s E (k & -> & M). rewrite M. destruct (EX x x' k E M) as [<- M']. destruct (kit_execute p x k) as [r k']; cbn in M' |- *; eauto.
Qed.
Print Assumptions C119_kitnet.

(** ** The univariate detectors check the instances they are fitted with, and score whatever they get, feature by feature *)
Definition appended {A} (a b : res (pyval A)) : res (pyval A) :=
  rbind a (fun u => rbind b (fun v => match u, v with VArray l, VArray l' => Ok (VArray (l ++ l')) | _, _ => Raise TypeError end)).
Theorem C119_deviations : forall Y eps b ab n (m : Meter R R) x x' y, SAD_statistic n = Ok m ->
  (forall s, length x <> 1%nat -> md_fit (MedianAbsoluteDeviation (Y := Y) eps b ab) x y s = (Raise AssertionError, s)) /\
  (forall s, length x <> 1%nat -> md_fit (StandardAbsoluteDeviation (Y := Y) eps ab m) x y s = (Raise AssertionError, s)) /\
  (forall h, let s := model_run (MedianAbsoluteDeviation (Y := Y) eps b ab) MAD_init h in
     eval (md_score (MedianAbsoluteDeviation (Y := Y) eps b ab) (x ++ x')) s = appended (eval (md_score (MedianAbsoluteDeviation (Y := Y) eps b ab) x) s) (eval (md_score (MedianAbsoluteDeviation (Y := Y) eps b ab) x') s)) /\
  (forall h, let s := model_run (StandardAbsoluteDeviation (Y := Y) eps ab m) (SAD_init m) h in
     eval (md_score (StandardAbsoluteDeviation (Y := Y) eps ab m) (x ++ x')) s = appended (eval (md_score (StandardAbsoluteDeviation (Y := Y) eps ab m) x) s) (eval (md_score (StandardAbsoluteDeviation (Y := Y) eps ab m) x') s)).
Proof.
  intros Y eps b ab n m x x' y Hm. split; [|split; [|split]].
  - intros s L. cbn [md_fit MedianAbsoluteDeviation plain_model]. unfold bind, lift. destruct x as [|a [|c x]]; cbn in L; try congruence; reflexivity.
  - intros s L. cbn [md_fit StandardAbsoluteDeviation plain_model]. unfold bind, lift. destruct x as [|a [|c x]]; cbn in L; try congruence; reflexivity.
  - intros h s. unfold eval. cbn [md_score MedianAbsoluteDeviation plain_model]. unfold bind, ret. destruct (on_median (mt_get MedianMeter) s) as [[c|e] s1]; [|reflexivity]. destruct (on_mad (mt_get MedianMeter) s1) as [[d|e] s2]; [|reflexivity].
    cbn [fst]. unfold deviation_score, appended. cbn [rbind]. rewrite map_app. reflexivity.
  - intros h s. unfold eval. cbn [md_score StandardAbsoluteDeviation plain_model]. unfold bind, ret, zoom. destruct (mt_get m (snd s)) as [[c|e] s1]; [|reflexivity]. cbn [fst snd]. destruct (mt_get VarianceMeter (fst s)) as [[d|e] s2]; [|reflexivity].
    cbn [fst]. unfold deviation_score, appended. cbn [rbind]. rewrite map_app. reflexivity.
Qed.
Print Assumptions C119_deviations.

(** ** ExactStorm stores anything; what it has stored then decides which instances it can score (see C97) *)
Theorem C119_exact_storm : forall Y A (NA : Num A) radius w (h : list (mcall (list A) Y)) x y,
  eval (md_fit (ExactStorm radius) x y) (model_run (ExactStorm radius) (Window_init w) h) = Ok tt /\
  (forall e, eval (md_score (ExactStorm radius) x) (model_run (ExactStorm radius) (Window_init w) h) = Raise e <->
     e = ValueError /\ exists r, In r (removelast (lastn (Z.to_nat w) (fitted_instances h))) /\ length r <> length x).
Proof.
  intros Y A NA radius w h x y. split; [|intros e; apply Prop_Atomic.C97_exact_storm_blocked]. unfold eval. cbn [md_fit ExactStorm plain_model]. unfold Window_update, bind, modify. reflexivity.
Qed.
Print Assumptions C119_exact_storm.

(** ** Too few features are not always noticed: a tree of depth 1 that splits on feature 0 of two takes instances of one feature. *)
Theorem C119_too_few_accepted : exists s, HST_init (Y := unit) (fun a => a) (fun _ => 0%nat) [0; 0] [1; 1] 10 1 1 IWNone = Ok s /\
  eval (md_fit (HalfSpaceTrees (Y := unit) 10 1) [1] None) s = Ok tt /\ (exists v, eval (md_score (HalfSpaceTrees (Y := unit) 10 1) [1]) s = Ok v) /\
  eval (md_score (HalfSpaceTrees (Y := unit) 10 1) []) s = Raise IndexError.
Proof.
  eexists. split; [reflexivity|]. unfold eval. cbn [md_fit md_score HalfSpaceTrees plain_model]. unfold bind, modify, gets, lift, ret. cbn [hs_roots hs_first hs_step each_tree hs_update_mass py_index nth_error Nat.ltb Nat.leb].
  split; [destruct (oltb _ _); reflexivity|]. split; [|reflexivity]. cbn [res_map hs_score_tree py_index nth_error rbind]. cbn. destruct (Rltb _ 1), (Rltb 0 1); cbn; eexists; reflexivity.
Qed.
Print Assumptions C119_too_few_accepted.

(** Concrete cases. *)
Example C119_ex_same : same_features 2 [1; 2; 3] [1; 2] /\ same_features 2 [1; 2; 3] [1; 2; 7; 8] /\ zero_padded [1; 2] [1; 2; 0; 0].
Proof. split; [|split]; [repeat split; cbn; auto|repeat split; cbn; auto|exists 2%nat; reflexivity]. Qed.
Example C119_ex_trees : exists s v, HST_init (Y := unit) (fun a => a) (fun i => (i mod 2)%nat) [0; 0] [1; 1] 10 1 2 IWNone = Ok s /\
  eval (model_call (HalfSpaceTrees (Y := unit) 10 2) (CScore [0; 1])) (model_run (HalfSpaceTrees (Y := unit) 10 2) s [CFit [0; 0] None]) = Ok (Some v) /\
  eval (model_call (HalfSpaceTrees (Y := unit) 10 2) (CScore [0; 1; 9])) (model_run (HalfSpaceTrees (Y := unit) 10 2) s [CFit [0; 0; 7; 7] None]) = Ok (Some v).
Proof.
  assert (H : forall i, (i mod 2 < 2)%nat) by (intros i; apply Nat.mod_upper_bound; lia).
  destruct (C54_score unit (fun a => a) (fun i => (i mod 2)%nat) [0; 0] [1; 1] 10 1 2 [CFit [0; 0] None] [0; 1]) as (s & E & S); [reflexivity|cbn; lia|exact H|lia|repeat constructor|cbn; lia|].
  cbv zeta in S. exists s. eexists. split; [exact E|].
  assert (S1 : eval (model_call (HalfSpaceTrees (Y := unit) 10 2) (CScore [0; 1])) (model_run (HalfSpaceTrees (Y := unit) 10 2) s [CFit [0; 0] None]) =
     Ok (Some (VScalar (- Rsum (map (fun t => cell_sum 2 t [[0; 0]] [0; 1]) (hs_roots s)))))).
  { unfold eval. cbn [model_call]. unfold bind, ret. match type of S with ?a = _ => match goal with |- context [md_score ?m ?x ?t] => change (md_score m x t) with a end end. rewrite S. reflexivity. }
  split; [exact S1|].
  rewrite <- (C119_half_space_trees R unit NumR 2 (fun a => a) (fun i => (i mod 2)%nat) [0; 0] [1; 1] 10 1 2 s ltac:(lia) H E [CFit [0; 0] None] [CFit [0; 0; 7; 7] None] (CScore [0; 1]) (CScore [0; 1; 9])); [exact S1|].
  repeat constructor; cbn; auto.
Qed.
