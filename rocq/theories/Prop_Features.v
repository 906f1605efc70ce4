(** * The order of the features (C117). *)
From Coq Require Import String.
From Coq Require Import List ZArith Lia Bool Reals Lra Arith Permutation.
From Verif Require Import Base Num Spec Model_Stats Model_Utils Model_Core Model_Post Model_Trans Model_Simple Model_Sketch Model_HST Model_Loda Model_KNN Model_Inqmad P_Lists P_Stats P_Utils P_Core P_Post P_Trans P_Models Prop_Simple Prop_KNN Prop_Trans.
Import ListNotations.
Local Notation length := List.length.

(** ** Specification *)
(** The instance with its features in the order [perm]: feature number j of the new instance is feature [perm j] of the old one. *)
Definition reordered {A} (d : A) (perm : list nat) (x : list A) : list A := map (fun j => nth j x d) perm.
(** Where feature q is found after the reordering. *)
Fixpoint position (q : nat) (perm : list nat) : nat :=
  match perm with [] => 0 | j :: r => if (j =? q)%nat then 0 else S (position q r) end.
(** The same call on the reordered instance. *)
Definition call_on {X Y} (f : X -> X) (c : mcall X Y) : mcall X Y :=
  match c with CFit x y => CFit (f x) y | CScore x => CScore (f x) | CFitScore x y => CFitScore (f x) y end.
Definition call_instance {X Y} (c : mcall X Y) : X := match c with CFit x _ => x | CScore x => x | CFitScore x _ => x end.

(** Two objects answer alike: after the same history of calls on instances of [n] features, every call gives the same result (a score,
    nothing, or an exception) when the second object is given the features in the order [f]. *)
Definition answer_alike {B Y A} (n : nat) (f : list B -> list B) (m m' : Model (list B) Y A) (s : md_state m) (s' : md_state m') : Prop :=
  forall h c, Forall (fun c => length (call_instance c) = n) (h ++ [c]) ->
  eval (model_call m c) (model_run m s h) = eval (model_call m' (call_on f c)) (model_run m' s' (map (call_on f) h)).

(** ** Simulation *)
Lemma simulation : forall B Y A n S S' fit score fit' score' (f : list B -> list B) (I : S -> S' -> Prop),
  (forall x (y : option Y) s s', length x = n -> I s s' -> fst (fit x y s) = fst (fit' (f x) y s') /\ I (snd (fit x y s)) (snd (fit' (f x) y s'))) ->
  (forall x s s', length x = n -> I s s' -> fst (score x s) = fst (score' (f x) s') /\ I (snd (score x s)) (snd (score' (f x) s'))) ->
  forall s s', I s s' -> answer_alike n f (@plain_model (list B) Y A S fit score) (@plain_model (list B) Y A S' fit' score') s s'.
Proof.
  intros B Y A n S S' fit score fit' score' f I Hf Hs.
  assert (G : forall c s s', length (call_instance c) = n -> I s s' ->
              fst (model_call (@plain_model (list B) Y A S fit score) c s) = fst (model_call (@plain_model (list B) Y A S' fit' score') (call_on f c) s') /\
              I (snd (model_call (@plain_model (list B) Y A S fit score) c s)) (snd (model_call (@plain_model (list B) Y A S' fit' score') (call_on f c) s'))).
  { intros c s s' Fc H0. destruct c as [x y|x|x y]; cbn [call_on model_call call_instance md_fit md_score md_fit_score plain_model] in *.
    - destruct (Hf x y s s' Fc H0) as [E1 E2]. destruct (fit x y s), (fit' (f x) y s'). cbn in *. subst. auto.
    - destruct (Hs x s s' Fc H0) as [E1 E2]. destruct (score x s), (score' (f x) s'). cbn in *. subst. auto.
    - unfold default_fit_score, bind. destruct (Hf x y s s' Fc H0) as [E1 E2]. destruct (fit x y s) as [r t], (fit' (f x) y s') as [r' t']. cbn in E1, E2. subst r'.
      destruct r as [u|e]; cbn; auto. destruct (Hs x t t' Fc E2) as [E3 E4]. destruct (score x t), (score' (f x) t'). cbn in *. subst. auto. }
  intros s s' H0 h. revert s s' H0. induction h as [|o h IH]; intros s s' H0 c F.
  - inversion F; subst. apply G; auto.
  - inversion F; subst. apply IH; auto. apply G; auto.
Qed.

(** ** Reordering *)
Section Reorder.
Variables (n : nat) (perm : list nat).
Hypothesis HP : Permutation perm (seq 0 n).
Lemma perm_length : length perm = n.
Proof. rewrite (Permutation_length HP). apply seq_length. Qed.
Lemma perm_in : forall q, In q perm <-> (q < n)%nat.
Proof. intros q. split; intros H; [apply (Permutation_in _ HP) in H|apply (Permutation_in _ (Permutation_sym HP))]; rewrite in_seq in *; lia. Qed.
Lemma perm_nodup : NoDup perm.
Proof. apply (Permutation_NoDup (Permutation_sym HP)), seq_NoDup. Qed.
Lemma position_nth : forall q l, In q l -> (position q l < length l)%nat /\ nth (position q l) l 0%nat = q.
Proof.
  intros q l. induction l as [|j l IH]; intros H; [contradiction|]. cbn [position]. destruct (Nat.eqb_spec j q) as [->|N]; cbn; [split; [lia|auto]|].
  destruct H as [->|H]; [congruence|]. destruct (IH H). split; [lia|auto].
Qed.
Lemma position_of_nth : forall l i, NoDup l -> (i < length l)%nat -> position (nth i l 0%nat) l = i.
Proof.
  induction l as [|j l IH]; intros i N L; cbn in L; [lia|]. inversion N; subst. destruct i as [|i]; cbn; [rewrite Nat.eqb_refl; auto|].
  destruct (Nat.eqb_spec j (nth i l 0%nat)) as [->|]; [exfalso; apply H1, nth_In; lia|]. f_equal. apply IH; auto. lia.
Qed.
Lemma position_lt : forall q, (q < n)%nat -> (position q perm < n)%nat.
Proof. intros q H. rewrite <- perm_length. apply position_nth, perm_in, H. Qed.
Lemma reordered_length : forall A (d : A) x, length (reordered d perm x) = n.
Proof. intros. unfold reordered. rewrite map_length. apply perm_length. Qed.
Lemma reordered_nth : forall A (d : A) x i, (i < n)%nat -> nth i (reordered d perm x) d = nth (nth i perm 0%nat) x d.
Proof.
  intros. unfold reordered. rewrite (nth_indep _ d (nth 0%nat x d)) by (rewrite map_length, perm_length; auto).
  apply (map_nth (fun j => nth j x d)).
Qed.
Lemma reordered_position : forall A (d : A) x q, (q < n)%nat -> nth (position q perm) (reordered d perm x) d = nth q x d.
Proof. intros. rewrite reordered_nth by (apply position_lt; auto). f_equal. apply position_nth, perm_in; auto. Qed.
Lemma nth_py : forall A (d : A) l i, (i < length l)%nat -> py_index l i = Ok (nth i l d).
Proof. intros. unfold py_index. rewrite (nth_error_nth' l d) by auto. auto. Qed.
Lemma reordered_py : forall A (d : A) x q, length x = n -> (q < n)%nat -> py_index (reordered d perm x) (position q perm) = py_index x q.
Proof.
  intros A d x q L H. rewrite (nth_py A d), (nth_py A d x) by (rewrite ?reordered_length, ?L; auto using position_lt). f_equal. apply reordered_position; auto.
Qed.
Lemma reordered_set : forall A (d v : A) x q, length x = n -> (q < n)%nat -> set_nth (position q perm) v (reordered d perm x) = reordered d perm (set_nth q v x).
Proof.
  intros A d v x q L H. apply (nth_ext _ _ d d); [rewrite set_nth_length, !reordered_length; auto|]. rewrite set_nth_length, reordered_length. intros i Hi.
  rewrite (reordered_nth A d (set_nth q v x)) by auto. destruct (Nat.eq_dec i (position q perm)) as [->|N].
  - rewrite nth_set_nth_eq by (rewrite reordered_length; auto). rewrite (proj2 (position_nth q perm (proj2 (perm_in q) H))). rewrite nth_set_nth_eq; auto. lia.
  - rewrite nth_set_nth_neq by auto. rewrite reordered_nth by auto. rewrite nth_set_nth_neq; auto.
    intros E. apply N. rewrite <- (position_of_nth perm i perm_nodup) by (rewrite perm_length; auto). f_equal. auto.
Qed.
Lemma reordered_perm : forall A (d : A) x, length x = n -> Permutation (reordered d perm x) x.
Proof.
  intros A d x L. unfold reordered. rewrite HP. rewrite <- L. clear. replace (map (fun j => nth j x d) (seq 0 (length x))) with x; auto.
  induction x as [|a x IH]; auto. cbn [length seq map nth]. f_equal. rewrite <- seq_shift, map_map. exact IH.
Qed.
Lemma combine_reordered : forall A B (a : A) (b : B) x y, combine (reordered a perm x) (reordered b perm y) = map (fun j => (nth j x a, nth j y b)) perm.
Proof. intros. unfold reordered. clear HP. induction perm as [|j l IH]; auto. cbn. rewrite IH. auto. Qed.
Lemma combine_nth_seq : forall A B (a : A) (b : B) x y, length x = length y -> combine x y = map (fun j => (nth j x a, nth j y b)) (seq 0 (length x)).
Proof.
  intros A B a b x. induction x as [|u x IH]; intros [|v y] L; cbn in L; try discriminate; auto. cbn [length seq map nth combine]. f_equal. rewrite <- seq_shift, map_map. apply IH. lia.
Qed.
Lemma combine_perm : forall A B (a : A) (b : B) x y, length x = n -> length y = n -> Permutation (combine (reordered a perm x) (reordered b perm y)) (combine x y).
Proof. intros A B a b x y Lx Ly. rewrite combine_reordered, (combine_nth_seq A B a b x y) by lia. rewrite Lx. apply Permutation_map, HP. Qed.
Lemma dot_reordered : forall x y : list R, length x = n -> length y = n -> dot (reordered 0%R perm x) (reordered 0%R perm y) = dot x y.
Proof. intros. unfold dot, map2. rewrite !nsum_Rsum. apply Rsum_perm. apply Permutation_map, combine_perm; auto. Qed.
End Reorder.

(** ** C117 *)
Open Scope R_scope.
Notation R_order perm := (reordered 0 perm).
Lemma dist_reordered : forall n perm x y, Permutation perm (seq 0 n) -> length x = n -> length y = n ->
  euclid (R_order perm x) (R_order perm y) = euclid x y.
Proof.
  intros. rewrite !euclid_R. unfold Prop_Simple.dist. f_equal. apply Rsum_map_perm, (combine_perm n); auto.
Qed.
Theorem C117_exact_storm : forall Y n perm radius w, Permutation perm (seq 0 n) ->
  answer_alike n (R_order perm) (ExactStorm (Y := Y) radius) (ExactStorm (Y := Y) radius) (Window_init w) (Window_init w).
Proof.
  intros Y n perm radius w HP.
  apply simulation with (I := fun s s' => s' = mkWindow (wd_size s) (map (R_order perm) (wd_items s)) /\ Forall (fun r => length r = n) (wd_items s)); [| |cbn; auto].
  - intros x y [sz it] s' L [-> F]. unfold Window_update, bind, modify. cbn [wd_size wd_items fst snd]. split; auto.
    rewrite !app_length, map_length. cbn [length]. assert (F' : Forall (fun r : list R => length r = n) (it ++ [x])) by (apply Forall_app; split; auto).
    destruct (sz <? Z.of_nat (length it + 1))%Z; cbn [wd_size wd_items].
    + split; [f_equal|]; destruct it as [|r it]; cbn [map app skipn]; auto; [rewrite map_app; auto|inversion F'; auto].
    + split; auto. f_equal. rewrite map_app. auto.
  - intros x [sz it] s' L [-> F]. unfold Window_get, gets, bind, lift, ret. cbn [wd_size wd_items fst snd].
    assert (E : storm_score radius (map (R_order perm) it) (R_order perm x) = storm_score radius it x).
    { unfold storm_score. assert (ER : removelast (map (R_order perm) it) = map (R_order perm) (removelast it)).
      { clear. induction it as [|a [|b it] IH]; auto. cbn [map removelast] in *. f_equal. exact IH. }
      rewrite ER, map_length. assert (FR : Forall (fun r => length r = n) (removelast it)).
      { clear - F. induction it as [|a [|b it] IH]; cbn; auto. inversion F; subst. constructor; auto. }
      destruct (length (removelast it) =? 0)%nat; auto.
      assert (E1 : forall z k, (forall r, In r z -> length r = k) -> forallb (fun r : list R => (length r =? k)%nat) z = true).
      { intros z k Hz. apply forallb_forall. intros r Hr. apply Nat.eqb_eq. auto. }
      rewrite Forall_forall in FR. rewrite (E1 (removelast it)) by (intros; rewrite L; auto).
      rewrite E1. 2:{ intros r Hr. apply in_map_iff in Hr. destruct Hr as (r' & <- & _). rewrite !(reordered_length n perm HP). auto. }
      do 2 f_equal. f_equal. f_equal. clear - HP FR L. revert FR. induction (removelast it) as [|a l IH]; intros FR; auto. cbn [map filter].
      rewrite (dist_reordered n perm a x HP (FR a (or_introl eq_refl)) L). destruct (oltb (euclid a x) radius); cbn [length]; rewrite IH; auto; intros; apply FR; right; auto. }
    rewrite E. destruct (storm_score radius it x); cbn; auto.
Qed.
Print Assumptions C117_exact_storm.

(** Two trees with the same shape, masses and thresholds, the second testing the features where the reordering put them.  The leaves,
    which test nothing, are at depth D. *)
Inductive relabelled {A} `{Num A} (n D : nat) (perm : list nat) : hst A -> hst A -> Prop :=
| rl_leaf : forall r l k, (D <= k)%nat -> relabelled n D perm (HNode HNone HNone r l 0 n0 k) (HNode HNone HNone r l 0 n0 k)
| rl_node : forall L L' R R' r l q p k, relabelled n D perm L L' -> relabelled n D perm R R' -> (q < n)%nat ->
    relabelled n D perm (HNode L R r l q p k) (HNode L' R' r l (position q perm) p k).
Section Trees.
Context {A : Type} {NA : Num A}.
Variables (n D : nat) (perm : list nat) (cast : A -> A) (draw : nat -> nat).
Hypothesis HP : Permutation perm (seq 0 n).
Hypothesis Hn : (1 <= n)%nat.
Hypothesis Hd : forall i, (draw i < n)%nat.
Lemma build_relabelled : forall k mins maxes depth i, length mins = n -> length maxes = n -> (D <= k + depth)%nat ->
  exists t t' j, hs_build cast draw k mins maxes depth i = (Ok t, j) /\
    hs_build cast (fun i => position (draw i) perm) k (reordered n0 perm mins) (reordered n0 perm maxes) depth i = (Ok t', j) /\ relabelled n D perm t t'.
Proof.
  induction k as [|k IH]; intros mins maxes depth i L1 L2 HD; cbn [hs_build].
  - unfold ret. eexists _, _, _. split; [reflexivity|]. split; [reflexivity|]. constructor. lia.
  - unfold bind, gets, lift, modify, ret. rewrite (reordered_length n perm HP), L2. assert ((n =? 0)%nat = false) as -> by (apply Nat.eqb_neq; lia).
    rewrite !(reordered_py n perm HP) by auto. rewrite !(nth_py A n0) by (rewrite ?L1, ?L2; auto).
    set (p := ndiv (nadd (nth (draw i) maxes n0) (nth (draw i) mins n0)) (nofZ 2)).
    rewrite !(reordered_set n perm HP) by auto.
    destruct (IH mins (set_nth (draw i) (cast p) maxes) (S depth) (S i) L1 ltac:(rewrite set_nth_length; auto) ltac:(lia)) as (t1 & t1' & j1 & E1 & E1' & R1). rewrite E1, E1'.
    destruct (IH (set_nth (draw i) (cast p) mins) maxes (S depth) j1 ltac:(rewrite set_nth_length; auto) L2 ltac:(lia)) as (t2 & t2' & j2 & E2 & E2' & R2). rewrite E2, E2'.
    eexists _, _, _. split; [reflexivity|]. split; [reflexivity|]. constructor; auto.
Qed.
Lemma update_relabelled : forall first x t t', length x = n -> relabelled n D perm t t' ->
  fst (hs_update_mass D x first t) = fst (hs_update_mass D (reordered n0 perm x) first t') /\
  relabelled n D perm (snd (hs_update_mass D x first t)) (snd (hs_update_mass D (reordered n0 perm x) first t')).
Proof.
  intros first x t t' L Ht. induction Ht as [r l k Hk|L0 L1 R0 R1 r l q p k HL IHL HR IHR Hq]; cbn [hs_update_mass].
  - assert ((k <? D)%nat = false) as -> by (apply Nat.ltb_ge; auto). cbn. split; auto. constructor; auto.
  - destruct (k <? D)%nat; [|cbn; split; auto; constructor; auto]. rewrite (reordered_py n perm HP) by auto. rewrite (nth_py A n0) by (rewrite L; auto).
    destruct (oltb p (nth q x n0)).
    + destruct IHR as [E1 E2]. destruct (hs_update_mass D x first R0), (hs_update_mass D (reordered n0 perm x) first R1). cbn in *. split; auto. constructor; auto.
    + destruct IHL as [E1 E2]. destruct (hs_update_mass D x first L0), (hs_update_mass D (reordered n0 perm x) first L1). cbn in *. split; auto. constructor; auto.
Qed.
Lemma next_relabelled : forall t t', relabelled n D perm t t' -> relabelled n D perm (hs_update_model t) (hs_update_model t').
Proof. intros t t' Ht. induction Ht; cbn; constructor; auto. Qed.
Lemma score_relabelled : forall x t t', length x = n -> relabelled n D perm t t' -> hs_score_tree (reordered n0 perm x) t' = hs_score_tree x t.
Proof.
  intros x t t' L Ht. induction Ht as [r l k Hk|L0 L1 R0 R1 r l q p k HL IHL HR IHR Hq]; cbn [hs_score_tree].
  - rewrite !(nth_py A n0) by (rewrite ?(reordered_length n perm HP); lia). cbn [rbind]. destruct (oltb n0 _), (oltb n0 _); reflexivity.
  - rewrite (reordered_py n perm HP) by auto. rewrite (nth_py A n0) by (rewrite L; auto). cbn [rbind]. destruct (oltb p (nth q x n0)); rewrite ?IHL, ?IHR; auto.
Qed.
Lemma each_relabelled : forall first x l l', length x = n -> Forall2 (relabelled n D perm) l l' ->
  fst (each_tree (hs_update_mass D x first) l) = fst (each_tree (hs_update_mass D (reordered n0 perm x) first) l') /\
  Forall2 (relabelled n D perm) (snd (each_tree (hs_update_mass D x first) l)) (snd (each_tree (hs_update_mass D (reordered n0 perm x) first) l')).
Proof.
  intros first x l l' L F. induction F as [|t t' l l' Ht F IH]; cbn [each_tree]; [split; [reflexivity|constructor]|].
  destruct (update_relabelled first x t t' L Ht) as [E1 E2]. destruct (hs_update_mass D x first t) as [r u], (hs_update_mass D (reordered n0 perm x) first t') as [r' u']. cbn in E1, E2. subst r'.
  destruct r; cbn; [|split; [reflexivity|constructor; auto]]. destruct (each_tree (hs_update_mass D x first) l), (each_tree (hs_update_mass D (reordered n0 perm x) first) l'). cbn in *. destruct IH as [-> IH]. split; [reflexivity|constructor; auto].
Qed.
End Trees.
Theorem C117_half_space_trees : forall A Y (NA : Num A) n perm cast draw mins maxes W T D, Permutation perm (seq 0 n) -> (1 <= n)%nat ->
  length mins = n -> length maxes = n -> (forall i, (draw i < n)%nat) ->
  exists s s', HST_init (Y := Y) cast draw mins maxes W T D IWNone = Ok s /\
    HST_init (Y := Y) cast (fun i => position (draw i) perm) (reordered n0 perm mins) (reordered n0 perm maxes) W T D IWNone = Ok s' /\
    answer_alike n (reordered n0 perm) (HalfSpaceTrees (Y := Y) W D) (HalfSpaceTrees (Y := Y) W D) s s'.
Proof.
  intros A Y NA n perm cast draw mins maxes W T D HP Hn L1 L2 Hd.
  assert (B : forall l i, exists ts ts' j, mapM (fun _ : nat => hs_build cast draw D mins maxes 0) l i = (Ok ts, j) /\
    mapM (fun _ : nat => hs_build cast (fun i => position (draw i) perm) D (reordered n0 perm mins) (reordered n0 perm maxes) 0) l i = (Ok ts', j) /\ Forall2 (relabelled n D perm) ts ts').
  { induction l as [|a l IH]; intros i; cbn [mapM]; [unfold ret; eexists _, _, _; split; [reflexivity|]; split; [reflexivity|]; constructor|].
    unfold bind, ret. destruct (build_relabelled n D perm cast draw HP Hn Hd D mins maxes 0 i L1 L2 ltac:(lia)) as (t & t' & j & -> & -> & Rt).
    destruct (IH j) as (ts & ts' & j' & -> & -> & F). eexists _, _, _. split; [reflexivity|]. split; [reflexivity|]. constructor; auto. }
  destruct (B (seq 0 T) 0%nat) as (ts & ts' & j & E & E' & F). unfold HST_init. rewrite E, E'. cbn [fst rbind iw_truth].
  eexists _, _. split; [reflexivity|]. split; [reflexivity|].
  apply simulation with (I := fun s s' => Forall2 (relabelled n D perm) (hs_roots s) (hs_roots s') /\ hs_first s = hs_first s' /\ hs_step s = hs_step s'); [| |cbn; auto].
  - intros x y [rt fs st] [rt' fs' st'] L (F2 & E1 & E2). cbn in F2, E1, E2. subst fs' st'. unfold bind, modify, gets, ret, raise. cbn [hs_roots hs_first hs_step].
    destruct (each_relabelled n D perm HP fs x rt rt' L F2) as [G1 G2].
    destruct (each_tree (hs_update_mass D x fs) rt) as [r u], (each_tree (hs_update_mass D (reordered n0 perm x) fs) rt') as [r' u']. cbn in G1, G2. subst r'.
    destruct r; cbn; [|auto]. destruct (W =? 0)%nat; cbn; [auto|]. destruct (S st mod W =? 0)%nat; cbn; [|auto].
    split; auto. split; [|split; auto; inversion G2; auto]. clear - G2. induction G2; cbn; constructor; auto using next_relabelled.
  - intros x [rt fs st] [rt' fs' st'] L (F2 & E1 & E2). cbn in F2, E1, E2. subst fs' st'. unfold bind, gets, lift, ret. cbn [hs_roots hs_first hs_step].
    assert (G : res_map (hs_score_tree (reordered n0 perm x)) rt' = res_map (hs_score_tree x) rt).
    { clear - F2 L HP Hn. induction F2 as [|t t' l l' Ht F2 IH]; auto. cbn [res_map]. rewrite (score_relabelled n D perm HP Hn x t t' L Ht), IH. auto. }
    rewrite G. destruct (res_map (hs_score_tree x) rt); cbn; auto.
Qed.
Print Assumptions C117_half_space_trees.

(** The cells of RSHash with the selected features renamed. *)
Theorem C117_rshash : forall A Y (NA : Num A) n perm pow2 log floor decay (comps : list (rscomp A)) s, Permutation perm (seq 0 n) ->
  Forall (fun c => Forall (fun q => (q < n)%nat) (rs_V c)) comps ->
  answer_alike n (reordered n0 perm) (RSHash (Y := Y) pow2 log floor decay comps)
    (RSHash (Y := Y) pow2 log floor decay (map (fun c => mkComp (map (fun q => position q perm) (rs_V c)) (rs_alpha c) (rs_f c)) comps)) s s.
Proof.
  intros A Y NA n perm pow2 log floor decay comps s HP FV. set (ren := fun c : rscomp A => mkComp (map (fun q => position q perm) (rs_V c)) (rs_alpha c) (rs_f c)).
  assert (EC : forall x r c t, length x = n -> Forall (fun q => (q < n)%nat) (rs_V c) ->
     rs_component pow2 log floor decay (reordered n0 perm x) (r, ren c) t = rs_component pow2 log floor decay x (r, c) t).
  { intros x r c t L Fc. unfold rs_component, bind, lift, gets, modify, ret. cbn [fst snd].
    assert (E : rs_cell floor r (ren c) (reordered n0 perm x) = rs_cell floor r c x).
    { unfold rs_cell, ren. cbn [rs_V rs_alpha rs_f]. f_equal. clear - Fc HP L. induction Fc as [|q l Hq Fc IH]; auto. cbn [map res_map]. rewrite (reordered_py n perm HP) by auto. rewrite IH. auto. }
    rewrite E. reflexivity. }
  assert (EM : forall x l k t, length x = n -> Forall (fun c => Forall (fun q => (q < n)%nat) (rs_V c)) l ->
     mapM (rs_component pow2 log floor decay (reordered n0 perm x)) (combine (seq k (length l)) (map ren l)) t = mapM (rs_component pow2 log floor decay x) (combine (seq k (length l)) l) t).
  { intros x l. induction l as [|c l IH]; intros k t L F; auto. inversion F; subst. cbn [length seq combine map mapM]. unfold bind. rewrite EC by auto.
    destruct (rs_component pow2 log floor decay x (k, c) t) as [[v|e] t']; auto. rewrite IH by auto. reflexivity. }
  apply simulation with (I := fun s s' => s = s'); [| |auto].
  - intros x y t t' L <-. unfold bind. rewrite map_length, EM by auto. auto.
  - intros x t t' L <-. auto.
Qed.
Print Assumptions C117_rshash.

Section LodaOrder.
Variables (n : nat) (perm : list nat) (randn : nat -> nat -> R) (perms : nat -> list nat) (half eps : R) (log : R -> R) (nb c : nat).
Hypothesis HP : Permutation perm (seq 0 n).
Hypothesis HK : forall k, Permutation (perms k) (seq 0 n).
Let perms' := fun k => map (fun q => position q perm) (perms k).
Let randn' := fun i j => randn i (nth j perm 0%nat).
Lemma zero_reordered : forall idx (row : list R), length row = n -> Forall (fun q => (q < n)%nat) idx ->
  lo_zero (R_order perm row) (map (fun q => position q perm) idx) = R_order perm (lo_zero row idx) /\ length (lo_zero row idx) = n.
Proof.
  unfold lo_zero. induction idx as [|q idx IH]; intros row L F; [split; auto|]. inversion F; subst. cbn [map fold_left].
  change (@n0 R NumR) with 0. rewrite (reordered_set (length row) perm HP) by auto. apply IH; auto. rewrite set_nth_length. auto.
Qed.
Definition same_object (o o' : option (lodaobj R)) : Prop :=
  match o, o' with
  | None, None => True
  | Some o, Some o' => lo_dim o = n /\ lo_dim o' = n /\ lo_proj o' = map (R_order perm) (lo_proj o) /\ length (lo_proj o) = c /\ Forall (fun r => length r = n) (lo_proj o) /\ lo_hist o' = lo_hist o /\ lo_limits o' = lo_limits o
  | _, _ => False
  end.
Definition same_loda (s s' : lodast R) : Prop := loda_draws s = loda_draws s' /\ same_object (loda_obj s) (loda_obj s').
Lemma set_nth_map : forall A B (f : A -> B) i v l, set_nth i (f v) (map f l) = map f (set_nth i v l).
Proof. intros A B f i v l. revert i. induction l as [|a l IH]; intros [|i]; cbn; auto. rewrite IH. auto. Qed.
Lemma Forall_set_nth : forall A (Q : A -> Prop) i v l, Q v -> Forall Q l -> Forall Q (set_nth i v l).
Proof. intros A Q i v l Hv F. revert i. induction F; intros [|i]; cbn; auto. Qed.
Lemma row_reordered : forall (l : list (list R)) i, (i < length l)%nat -> nth i (map (R_order perm) l) [] = R_order perm (nth i l []).
Proof. intros. rewrite (nth_indep _ [] (R_order perm [])) by (rewrite map_length; auto). apply map_nth. Qed.
Lemma row_length : forall (l : list (list R)) i, (i < length l)%nat -> Forall (fun r => length r = n) l -> length (nth i l []) = n.
Proof. intros l i H F. rewrite Forall_forall in F. apply F, nth_In, H. Qed.
Lemma cut_reordered : forall x i s s', length x = n -> (i < c)%nat -> same_loda s s' ->
  fst (loda_cut half eps perms nb x i s) = fst (loda_cut half eps perms' nb (R_order perm x) i s') /\
  same_loda (snd (loda_cut half eps perms nb x i s)) (snd (loda_cut half eps perms' nb (R_order perm x) i s')).
Proof.
  intros x i [o d] [o' d'] L Hi [E Ho]. cbn in E, Ho. subst d'. unfold loda_cut, bind, gets, modify, raise. cbn [loda_obj loda_draws].
  destruct o as [o|], o' as [o'|]; try contradiction; [|cbn; split; [auto|split; cbn; auto]].
  destruct o as [dim pr hi li], o' as [dim' pr' hi' li']. cbn in Ho. destruct Ho as (-> & -> & -> & Lp & Fp & -> & ->). cbn [lo_dim lo_proj lo_hist lo_limits].
  rewrite (reordered_length n perm HP), L, Nat.eqb_refl. cbn [negb].
  change (perms' d) with (map (fun q => position q perm) (perms d)). rewrite firstn_map, row_reordered by lia.
  set (idx := firstn (n - Nat.sqrt n) (perms d)).
  assert (FI : Forall (fun q => (q < n)%nat) idx).
  { apply Forall_forall. intros q Hq. assert (In q (perms d)) as HQ by (rewrite <- (firstn_skipn (n - Nat.sqrt n) (perms d)); apply in_or_app; auto). apply (Permutation_in _ (HK d)) in HQ. apply in_seq in HQ. lia. }
  destruct (zero_reordered idx (nth i pr []) (row_length pr i ltac:(lia) Fp) FI) as [Z1 Z2]. rewrite Z1. set (row := lo_zero (nth i pr []) idx) in *.
  rewrite set_nth_map.
  assert (P : forall h l, same_loda (mkLoda (Some (mkLo n (set_nth i row pr) h l)) (S d)) (mkLoda (Some (mkLo n (map (R_order perm) (set_nth i row pr)) h l)) (S d))).
  { intros h l. split; cbn; auto. rewrite set_nth_length. repeat split; auto. apply Forall_set_nth; auto. }
  destruct (nb =? 0)%nat; cbn [fst snd]; [split; auto|]. rewrite (dot_reordered n perm HP) by auto. split; auto.
Qed.
Lemma cuts_reordered : forall x l s s', length x = n -> Forall (fun i => (i < c)%nat) l -> same_loda s s' ->
  fst (iterM (loda_cut half eps perms nb x) l s) = fst (iterM (loda_cut half eps perms' nb (R_order perm x)) l s') /\
  same_loda (snd (iterM (loda_cut half eps perms nb x) l s)) (snd (iterM (loda_cut half eps perms' nb (R_order perm x)) l s')).
Proof.
  intros x l. induction l as [|i l IH]; intros s s' L F S0; [split; auto|]. inversion F; subst. cbn [iterM]. unfold bind.
  destruct (cut_reordered x i s s' L H1 S0) as [E1 E2]. destruct (loda_cut half eps perms nb x i s) as [r u], (loda_cut half eps perms' nb (R_order perm x) i s') as [r' u']. cbn in E1, E2. subst r'.
  destruct r; cbn; auto.
Qed.
Theorem C117_loda : forall Y, (forall k, Permutation (map (fun q => position q perm) (perms k)) (seq 0 n)) /\
  answer_alike n (R_order perm) (LODA (Y := Y) half eps log randn perms nb c)
    (LODA (Y := Y) half eps log (fun i j => randn i (nth j perm 0%nat)) (fun k => map (fun q => position q perm) (perms k)) nb c) LODA_init LODA_init.
Proof.
  intros Y. split.
  { intros k. rewrite (HK k). transitivity (map (fun q => position q perm) perm); [apply Permutation_map, Permutation_sym, HP|].
    replace (map (fun q => position q perm) perm) with (seq 0 n); auto. apply (nth_ext _ _ 0%nat (position 0%nat perm)); [rewrite map_length, seq_length; symmetry; apply (perm_length n perm HP)|].
    intros i Hi. rewrite seq_length in Hi. rewrite seq_nth by auto. rewrite (map_nth (fun q => position q perm)). cbn. symmetry. apply position_of_nth; [apply (perm_nodup n perm HP)|rewrite (perm_length n perm HP); auto]. }
  fold randn'. fold perms'. apply simulation with (I := same_loda); [| |split; cbn; auto].
  - intros x y s s' L S0. unfold bind, modify. apply cuts_reordered; auto.
    + apply Forall_forall. intros i Hi. apply in_seq in Hi. lia.
    + destruct s as [o d], s' as [o' d']. destruct S0 as [E Ho]. cbn in E, Ho. subst d'. cbn [loda_obj loda_draws]. rewrite (reordered_length n perm HP), L.
      destruct o as [o|], o' as [o'|]; try contradiction; [split; cbn; auto|]. split; cbn; auto. rewrite map_length, seq_length, map_map. repeat split; auto.
      * apply map_ext. intros i. unfold reordered, randn'. rewrite <- (perm_length n perm HP) at 1. clear - HP.
        assert (F : Forall (fun j => (j < n)%nat) perm) by (apply Forall_forall; intros j Hj; apply (perm_in n perm HP); auto). clear HP.
        transitivity (map (randn i) perm).
        { apply (nth_ext _ _ (randn i (nth 0 perm 0%nat)) (randn i 0%nat)); [rewrite !map_length, seq_length; auto|]. intros j Hj. rewrite map_length, seq_length in Hj.
          rewrite (map_nth (fun j => randn i (nth j perm 0%nat)) (seq 0 (length perm)) 0%nat), (map_nth (randn i)). rewrite seq_nth by auto. auto. }
        { apply map_ext_in. intros j Hj. rewrite Forall_forall in F. specialize (F j Hj). rewrite (nth_indep _ 0 (randn i 0%nat)) by (rewrite map_length, seq_length; auto). rewrite (map_nth (randn i)), seq_nth; auto. }
      * apply Forall_forall. intros r Hr. apply in_map_iff in Hr. destruct Hr as (i & <- & _). rewrite map_length, seq_length. auto.
  - intros x s s' L S0. unfold bind, gets, lift, ret, raise. destruct s as [o d], s' as [o' d']. destruct S0 as [E Ho]. cbn in E, Ho. subst d'. cbn [loda_obj loda_draws].
    destruct o as [o|], o' as [o'|]; try contradiction; [|cbn; split; [auto|split; cbn; auto]].
    assert (EQ : res_map (loda_cut_score log nb c o' (R_order perm x)) (seq 0 c) = res_map (loda_cut_score log nb c o x) (seq 0 c)).
    { assert (G : forall l, Forall (fun i => (i < c)%nat) l -> res_map (loda_cut_score log nb c o' (R_order perm x)) l = res_map (loda_cut_score log nb c o x) l).
      { intros l F. induction F as [|i l Hi F IH]; auto. cbn [res_map]. rewrite IH. f_equal.
        destruct o as [dim pr hi li], o' as [dim' pr' hi' li']. cbn in Ho. destruct Ho as (-> & -> & -> & Lp & Fp & -> & ->). unfold loda_cut_score. cbn [lo_dim lo_proj lo_hist lo_limits].
        rewrite (reordered_length n perm HP), L, row_reordered by lia. rewrite (dot_reordered n perm HP) by (auto; apply row_length; auto; lia). auto. }
      apply G. apply Forall_forall. intros i Hi. apply in_seq in Hi. lia. }
    rewrite EQ. destruct (res_map (loda_cut_score log nb c o x) (seq 0 c)); cbn; split; auto; split; cbn; auto.
Qed.
End LodaOrder.
Print Assumptions C117_loda.

(** ** Inqmad: with the random weights in the new order too, not even the object differs. *)
Definition rff_reordered (perm : list nat) (p : rffpar R) : rffpar R := mkRff (rf_input p) (rf_dim p) (map (R_order perm) (rf_weights p)) (rf_offset p) (rf_cos p).
Section InqmadOrder.
Variables (n : nat) (perm : list nat) (p : rffpar R) (b : nat).
Hypothesis HP : Permutation perm (seq 0 n).
Hypothesis HI : rf_input p = n.
Hypothesis HW : Forall (fun w => length w = n) (rf_weights p).
Lemma rff_call_reordered : forall x, length x = n -> rff_call (rff_reordered perm p) (R_order perm x) = rff_call p x.
Proof.
  intros x L. unfold rff_call. assert (E : rff_compute (rff_reordered perm p) (R_order perm x) = rff_compute p x); [|rewrite E; reflexivity]. unfold rff_compute, rff_reordered. cbn [rf_input rf_dim rf_weights rf_offset rf_cos].
  rewrite (reordered_length n perm HP), L, HI, Nat.eqb_refl. apply f_equal. unfold map2. generalize HW (rf_offset p). generalize (rf_weights p). intros ws F. induction F as [|w ws Hw F IH]; intros [|o os]; auto.
  cbn [map combine]. rewrite IH. cbn [fst snd]. rewrite (dot_reordered n perm HP) by auto. auto.
Qed.
Lemma rff_calls_reordered : forall rows, Forall (fun r => length r = n) rows -> res_map (rff_call (rff_reordered perm p)) (map (R_order perm) rows) = res_map (rff_call p) rows.
Proof. intros rows F. induction F as [|r rows Hr F IH]; auto. cbn [map res_map]. rewrite rff_call_reordered by auto. rewrite IH. auto. Qed.
Lemma shape_reordered : forall rows : list (list R), Forall (fun r => length r = n) rows -> iq_shape (map (R_order perm) rows) = iq_shape rows.
Proof. intros rows F. unfold iq_shape. rewrite map_length. destruct F as [|r rows Hr F]; auto. cbn [map]. rewrite (reordered_length n perm HP), Hr. auto. Qed.
Lemma train_reordered : forall rows s, Forall (fun r => length r = n) rows -> iq_initial_train (rff_reordered perm p) b (nofZ 1) (map (R_order perm) rows) s = iq_initial_train p b (nofZ 1) rows s.
Proof.
  intros rows s F. unfold iq_initial_train. rewrite map_length. destruct (b =? 0)%nat; [reflexivity|].
  assert (E : iterM (fun batch => s <- gets (fun s => s) ;; r <- lift (iq_train (rff_reordered perm p) (nofZ 1) (iq_rho s) batch) ;; modify (fun s => mkInq (Some r) (iq_num s) (iq_cache s))) (iq_batches b (map (R_order perm) rows)) s
            = iterM (fun batch => s <- gets (fun s => s) ;; r <- lift (iq_train p (nofZ 1) (iq_rho s) batch) ;; modify (fun s => mkInq (Some r) (iq_num s) (iq_cache s))) (iq_batches b rows) s).
  { unfold iq_batches. rewrite map_length. generalize (seq 0 (length rows / b + (if (length rows mod b =? 0)%nat then 0 else 1))). intros l. revert s. induction l as [|i l IH]; intros s; auto.
    cbn [map iterM]. unfold bind, gets, lift, modify. rewrite skipn_map, firstn_map. unfold iq_train at 1 3. rewrite rff_calls_reordered.
    - destruct (rbind _ _); auto.
    - apply Forall_forall. intros r Hr. rewrite Forall_forall in F. apply F. rewrite <- (firstn_skipn (i * b) rows). apply in_or_app. right. rewrite <- (firstn_skipn b (skipn (i * b) rows)). apply in_or_app. auto. }
  assert (K : forall m m' : M (inq R) unit, m s = m' s -> forall k : M (inq R) unit, (ret tt ;;; m ;;; k) s = (ret tt ;;; m' ;;; k) s) by (intros m m' Em k; unfold bind, ret; rewrite Em; reflexivity).
  apply K, E.
Qed.
Lemma predict_reordered : forall rows s, Forall (fun r => length r = n) rows -> iq_predict (rff_reordered perm p) b (map (R_order perm) rows) s = iq_predict p b rows s.
Proof.
  intros rows s F. unfold iq_predict, iq_predict_with, bind, gets. rewrite shape_reordered, rff_calls_reordered by auto. reflexivity.
Qed.
Theorem C117_inqmad : forall Y (h : list (mcall (list (list R)) Y)) c s, Forall (fun c => Forall (fun row => length row = n) (call_instance c)) (h ++ [c]) ->
  model_run (Inqmad (rff_reordered perm p) b) s (map (call_on (map (R_order perm))) h) = model_run (Inqmad p b) s h /\
  eval (model_call (Inqmad (rff_reordered perm p) b) (call_on (map (R_order perm)) c)) (model_run (Inqmad p b) s h) = eval (model_call (Inqmad p b) c) (model_run (Inqmad p b) s h).
Proof.
  intros Y.
  assert (G : forall (c : mcall (list (list R)) Y) s, Forall (fun row => length row = n) (call_instance c) -> model_call (Inqmad (rff_reordered perm p) b) (call_on (map (R_order perm)) c) s = model_call (Inqmad p b) c s).
  { intros c s F. destruct c as [x y|x|x y]; cbn [call_on model_call call_instance md_fit md_score md_fit_score Inqmad plain_model] in *.
    - rewrite train_reordered by auto. reflexivity.
    - rewrite predict_reordered by auto. reflexivity.
    - unfold default_fit_score, bind. rewrite train_reordered by auto. destruct (iq_initial_train p b (nofZ 1) x s) as [[u|e] t]; auto. rewrite predict_reordered by auto. reflexivity. }
  induction h as [|o h IH]; intros c s F.
  - inversion F; subst. split; auto. unfold eval. rewrite G; auto.
  - inversion F; subst. unfold model_run in *. cbn [map fold_left].
    assert (E : model_do (Inqmad (rff_reordered perm p) b) s (call_on (map (R_order perm)) o) = model_do (Inqmad p b) s o) by (unfold model_do, exec; rewrite G; auto).
    rewrite E. apply IH. auto.
Qed.
End InqmadOrder.
Print Assumptions C117_inqmad.

(** ** The scalers of single instances *)
Lemma np_max_perm : forall x y : list R, Permutation x y -> np_max x = np_max y.
Proof.
  intros x y P. destruct x as [|a x]; [apply Permutation_nil in P; subst; auto|]. destruct y as [|b y]; [apply Permutation_sym, Permutation_nil in P; discriminate|].
  destruct (np_max_ok (a :: x)) as (m & -> & I); [discriminate|]. destruct (np_max_ok (b :: y)) as (m' & -> & J); [discriminate|]. f_equal.
  apply (ext_max_unique m m' (b :: y)); auto. apply (ext_max_perm m (a :: x)); auto.
Qed.
Lemma np_min_perm : forall x y : list R, Permutation x y -> np_min x = np_min y.
Proof.
  intros x y P. destruct x as [|a x]; [apply Permutation_nil in P; subst; auto|]. destruct y as [|b y]; [apply Permutation_sym, Permutation_nil in P; discriminate|].
  destruct (np_min_ok (a :: x)) as (m & -> & I); [discriminate|]. destruct (np_min_ok (b :: y)) as (m' & -> & J); [discriminate|]. f_equal.
  apply (ext_min_unique m m' (b :: y)); auto. apply (ext_min_perm m (a :: x)); auto.
Qed.
Lemma filter_perm : forall A (f : A -> bool) x y, Permutation x y -> Permutation (filter f x) (filter f y).
Proof. intros A f x y P. induction P; cbn; auto; repeat destruct (f _); auto; [apply perm_swap|etransitivity; eauto]. Qed.
Lemma nsum_perm : forall x y : list R, Permutation x y -> nsum x = nsum y.
Proof. intros x y P. rewrite !nsum_Rsum. apply Rsum_perm. auto. Qed.
Lemma np_norm_perm : forall pw o (x y : list R), Permutation x y -> np_norm 1 2 pw o x = np_norm 1 2 pw o y.
Proof.
  intros pw o x y P. unfold np_norm. destruct o as [| |p].
  - apply np_max_perm, Permutation_map, P.
  - apply np_min_perm, Permutation_map, P.
  - pose proof (filter_perm R (fun v => negb (oeqb v n0)) x y P) as F. set (nx := filter _ x) in *. set (ny := filter _ y) in *.
    rewrite (Permutation_length F), (Permutation_length P). rewrite (nsum_perm _ _ (Permutation_map nabs P)), (nsum_perm _ _ (Permutation_map nsq P)).
    destruct (oeqb p n0); auto. destruct (oeqb p 1); auto. destruct (oeqb p 2); auto. destruct (oltb p n0 && negb (length ny =? length y)%nat); auto.
    destruct nx as [|a l]; [apply Permutation_nil in F; rewrite F; auto|]. destruct ny as [|b l']; [apply Permutation_sym, Permutation_nil in F; discriminate|].
    rewrite (nsum_perm _ _ (Permutation_map (fun v => pw (nabs v) p) F)). auto.
Qed.
Lemma map_reordered : forall A B (d : A) (f : A -> B) n perm x, Permutation perm (seq 0 n) -> length x = n -> map f (reordered d perm x) = reordered (f d) perm (map f x).
Proof. intros. unfold reordered. rewrite map_map. apply map_ext. intros j. symmetry. apply map_nth. Qed.
Lemma reordered_default : forall A (d d' : A) n perm x, Permutation perm (seq 0 n) -> length x = n -> reordered d perm x = reordered d' perm x.
Proof. intros A d d' n perm x HP L. unfold reordered. apply map_ext_in. intros j Hj. apply nth_indep. rewrite L. apply (perm_in n perm HP). auto. Qed.
(** Scaling and reordering commute: entry by entry the scaled instance is the same.  The last statement is about the exceptions. *)
Theorem C117_scalers : forall n perm x out, Permutation perm (seq 0 n) -> length x = n ->
  (forall s, scales_to InstanceStandardScaler s x out -> scales_to InstanceStandardScaler s (R_order perm x) (reordered NonFin perm out)) /\
  (forall o s, scales_to (UnitNorm o) s x out -> scales_to (UnitNorm o) s (R_order perm x) (reordered NonFin perm out)) /\
  (forall o s e, eval (tr_transform (UnitNorm o) (AInst x)) s = Raise e -> eval (tr_transform (UnitNorm o) (AInst (R_order perm x))) s = Raise e).
Proof.
  intros n perm x out HP L. pose proof (reordered_perm n perm HP R 0 x L) as P. repeat split.
  - intros s H. unfold scales_to in *. cbn in *. injection H as <-. unfold ret. do 2 f_equal. f_equal. unfold standard_scale.
    assert (EM : vec_mean (R_order perm x) = vec_mean x) by (rewrite !vec_mean_R; apply mean_perm; auto).
    assert (ES : vec_std (R_order perm x) = vec_std x) by (rewrite !vec_std_R; unfold std; rewrite (variance_perm _ _ P); auto).
    rewrite EM, ES. rewrite (map_reordered R (npres R) 0 _ n) by auto. apply (reordered_default _ _ _ n); auto. rewrite map_length. auto.
  - intros o s H. unfold scales_to in *. cbn in *. unfold bind, lift, ret, unit_scale in *. rewrite (np_norm_perm Rpower o _ _ P). destruct (np_norm 1 2 Rpower o x) as [v|e]; cbn in *; [|discriminate].
    injection H as <-. do 2 f_equal. f_equal. rewrite (map_reordered R (npres R) 0 _ n) by auto. apply (reordered_default _ _ _ n); auto. rewrite map_length. auto.
  - intros o s e H. unfold eval in *. cbn in *. unfold bind, lift, ret, unit_scale in *. rewrite (np_norm_perm Rpower o _ _ P). destruct (np_norm 1 2 Rpower o x); cbn in *; auto. discriminate.
Qed.
Print Assumptions C117_scalers.

(** ** The projectors *)
(** StreamhashProjector knows a feature by its number: it gives the same image only when the hash of the new number is that of the old one,
    and with one hash function two features of different weight cannot be exchanged. *)
Theorem C117_streamhash : forall mmh3 mmh3' (p : shproj R) n perm x s, Permutation perm (seq 0 n) -> length x = n ->
  (forall j k, (j < n)%nat -> mmh3' (py_str j) k = mmh3 (py_str (nth j perm 0%nat)) k) ->
  eval (tr_transform (SH mmh3' p) (AInst (R_order perm x))) s = eval (tr_transform (SH mmh3 p) (AInst x)) s.
Proof.
  intros mmh3 mmh3' p n perm x s HP L HH. unfold eval. cbn [tr_transform StreamhashProjector on_instance]. unfold lift. cbn [fst]. unfold streamhash_transform. rewrite (reordered_length n perm HP), L.
  assert (ED : forall k, dot (R_order perm x) (map (hash_string 2 1 mmh3' p k) (map py_str (seq 0 n))) = dot x (map (hash_string 2 1 mmh3 p k) (map py_str (seq 0 n)))).
  { intros k. rewrite <- (dot_reordered n perm HP x (map (hash_string 2 1 mmh3 p k) (map py_str (seq 0 n)))) by (rewrite ?map_length, ?seq_length; auto). f_equal.
    apply (nth_ext _ _ 0 0); [rewrite (reordered_length n perm HP), !map_length, seq_length; auto|]. rewrite !map_length, seq_length. intros j Hj.
    rewrite (reordered_nth n perm HP) by auto. assert (Hq : (nth j perm 0 < n)%nat) by (apply (perm_in n perm HP), nth_In; rewrite (perm_length n perm HP); auto).
    rewrite (nth_indep _ 0 (hash_string 2 1 mmh3' p k (py_str 0))) by (rewrite !map_length, seq_length; auto).
    rewrite (nth_indep (map (hash_string 2 1 mmh3 p k) _) 0 (hash_string 2 1 mmh3 p k (py_str 0))) by (rewrite !map_length, seq_length; auto).
    rewrite !map_nth, !seq_nth by auto. cbn [Nat.add]. unfold hash_string. rewrite HH by auto. reflexivity. }
  destruct (sh_keys p) as [|k ks]; cbn [map].
  - pose proof (reordered_length n perm HP R 0 x) as L2. destruct x as [|a x]; [destruct (R_order perm [])|destruct (R_order perm (a :: x))]; auto; cbn in *; lia.
  - rewrite ED, !map_map. do 2 f_equal. f_equal. apply map_ext. intros k'. apply ED.
Qed.
Print Assumptions C117_streamhash.
Theorem C117_streamhash_same_hash_refuted : forall mmh3 n density p k y y', (1 <= n)%Z -> Streamhash_init 1 n density = Ok p -> (k < Z.to_nat n)%nat ->
  sh_weight mmh3 density (sqrt (1 / density) / sqrt (IZR n)) k 0 <> sh_weight mmh3 density (sqrt (1 / density) / sqrt (IZR n)) k 1 ->
  projects mmh3 p [1; 0] y -> projects mmh3 p (R_order [1; 0]%nat [1; 0]) y' -> y <> y'.
Proof.
  intros mmh3 n density p k y y' Hn E Hk NE Py Py'. rewrite (projects_unique _ _ _ _ _ Py (projects_value mmh3 n density p [1; 0] Hn E)), (projects_unique _ _ _ _ _ Py' (projects_value mmh3 n density p _ Hn E)).
  intros Q. apply NE. apply (f_equal (fun l => nth k l 0)) in Q. set (W := sh_weight _ _ _) in *.
  assert (N : forall x, nth k (map (fun k => weighted W k x) (seq 0 (Z.to_nat n))) 0 = weighted W k x).
  { intros x. rewrite (nth_indep _ 0 (weighted W 0 x)) by (rewrite map_length, seq_length; auto). rewrite (map_nth (fun k => weighted W k x)), seq_nth by auto. auto. }
  rewrite !N in Q. unfold weighted, reordered in Q. cbn [length seq map nth] in Q. cbn [Rsum fold_right] in Q. unfold Rsum in Q. cbn in Q. lra.
Qed.
Print Assumptions C117_streamhash_same_hash_refuted.
Theorem C117_random_projector : forall draw n perm x i d, Permutation perm (seq 0 n) -> length x = n ->
  (forall i m, Forall (fun row : list R => length row = n) (draw i m n)) ->
  eval (tr_transform (RandomProjector (fun i m e => map (R_order perm) (draw i m e)) d) (AInst (R_order perm x))) i = eval (tr_transform (RandomProjector draw d) (AInst x)) i.
Proof.
  intros draw n perm x i d HP L HD. unfold eval. cbn [tr_transform RandomProjector on_instance]. unfold random_transform, bind, gets, modify, ret, raise. destruct d as [m|]; auto. destruct (m <=? 0)%Z; auto. cbn [fst]. do 2 f_equal.
  rewrite map_map, (reordered_length n perm HP), L. apply map_ext_in. intros row Hr. apply (dot_reordered n perm HP); auto. specialize (HD i (Z.to_nat m)). rewrite Forall_forall in HD. auto.
Qed.
Print Assumptions C117_random_projector.

(** ** KNNCAD looks at the first feature only: it scores the reordered stream as the stream of that feature alone. *)
Theorem C117_knncad : forall A Y (NA : Num A) half alarm inverse P d k rest (h : list (mcall (list A) Y)) s,
  model_scores (KNNCAD half alarm inverse P) s (map (call_on (reordered d (k :: rest))) h) = model_scores (KNNCAD half alarm inverse P) s (map (call_on (fun x => [nth k x d])) h) /\
  (k = 0%nat -> Forall (fun c => call_instance c <> []) h -> model_scores (KNNCAD half alarm inverse P) s (map (call_on (reordered d (k :: rest))) h) = model_scores (KNNCAD half alarm inverse P) s h).
Proof.
  intros A Y NA half alarm inverse P d k rest h s. split.
  - apply C85_only_first_feature_matters. induction h as [|c h IH]; constructor; auto. destruct c; cbn; auto.
  - intros -> F. apply C85_only_first_feature_matters. induction F as [|c h Hc F IH]; constructor; auto. destruct c as [x y|x|x y]; cbn in *; auto; destruct x; cbn; congruence.
Qed.
Print Assumptions C117_knncad.

(** Concrete cases: three features in the order third, first, second. *)
Example C117_ex_order : Permutation [2; 0; 1]%nat (seq 0 3) /\ R_order [2; 0; 1]%nat [10; 20; 30] = [30; 10; 20] /\ position 1 [2; 0; 1]%nat = 2%nat.
Proof.
  split; [|split; reflexivity]. cbn. etransitivity; [apply perm_swap|]. constructor. apply perm_swap.
Qed.
Example C117_ex_storm : exists v, eval (model_call (ExactStorm (Y := unit) 1) (CScore [0; 0; 3])) (model_run (ExactStorm (Y := unit) 1) (Window_init 10) [CFit [0; 0; 3] None; CFit [5; 0; 0] None]) = Ok (Some v) /\
  eval (model_call (ExactStorm (Y := unit) 1) (CScore [3; 0; 0])) (model_run (ExactStorm (Y := unit) 1) (Window_init 10) [CFit [3; 0; 0] None; CFit [0; 5; 0] None]) = Ok (Some v).
Proof.
  pose proof (C117_exact_storm unit 3 [2; 0; 1]%nat 1 10 (proj1 C117_ex_order) [CFit [0; 0; 3] None; CFit [5; 0; 0] None] (CScore [0; 0; 3])) as H.
  cbn [map call_on app] in H. change (R_order [2; 0; 1]%nat [0; 0; 3]) with [3; 0; 0] in H. change (R_order [2; 0; 1]%nat [5; 0; 0]) with [0; 5; 0] in H. rewrite <- H by (repeat constructor).
  eexists. split; [reflexivity|]. reflexivity.
Qed.
Example C117_ex_streamhash : exists p y y', Streamhash_init 1 1 1 = Ok p /\
  let mm := fun s (_ : nat) => if string_dec s "0" then 0%Z else (2 ^ 32 - 1)%Z in projects mm p [1; 0] y /\ projects mm p [0; 1] y' /\ y <> y'.
Proof.
  assert (I : exists p, Streamhash_init 1 1 1 = Ok p).
  { unfold Streamhash_init, pydiv. cbn [oeqb num_ord NumR OrdR n0]. destruct (Reqb 1 0) eqn:Q; [apply Reqb_eq in Q; lra|]. eexists; reflexivity. }
  destruct I as [p E]. set (mm := fun s (_ : nat) => if string_dec s "0" then 0%Z else (2 ^ 32 - 1)%Z).
  pose proof (projects_value mm 1 1 p [1; 0] ltac:(lia) E) as P1. pose proof (projects_value mm 1 1 p [0; 1] ltac:(lia) E) as P2.
  eexists p, _, _. split; [exact E|]. cbn zeta. split; [exact P1|]. split; [exact P2|].
  apply (C117_streamhash_same_hash_refuted mm 1 1 p 0); auto; try lia.
  unfold sh_weight, mm. destruct (string_dec (py_str 0) "0") as [_|N]; [|exfalso; apply N; reflexivity]. destruct (string_dec (py_str 1) "0") as [N|_]; [discriminate N|].
  replace (1 / 1) with 1 by field. rewrite sqrt_1. destruct (Rle_dec (0 / IZR (2 ^ 32 - 1)) (1 / 2)) as [_|N]; [|exfalso; apply N; unfold Rdiv; rewrite Rmult_0_l; lra].
  replace (IZR (2 ^ 32 - 1) / IZR (2 ^ 32 - 1)) with 1 by (field; apply not_0_IZR; lia). destruct (Rle_dec 1 (1 / 2)); [lra|]. destruct (Rle_dec 1 1); intros Q; lra.
Qed.
