(** * Properties of HalfSpaceTrees (C53-C56). *)
From Coq Require Import List ZArith Lia Bool Reals Lra Arith.
From Verif Require Import Base Num Spec Model_Stats Model_Utils Model_Core Model_Simple Model_Sketch Model_HST P_Lists P_Stats P_Utils P_Core P_Post P_Models.
Import ListNotations.

(** ** Specification *)
(** The masses of the tree count two lists of instances: every node the instances that reach it. *)
Fixpoint counted {A} `{Num A} (t : hst A) (cur ref : list (list A)) : Prop :=
  match t with
  | HNone => True
  | HNode L R r l q p _ =>
      r = Z.of_nat (length ref) /\ l = Z.of_nat (length cur) /\
      counted L (filter (fun x => negb (oltb p (nth q x n0))) cur) (filter (fun x => negb (oltb p (nth q x n0))) ref) /\
      counted R (filter (fun x => oltb p (nth q x n0)) cur) (filter (fun x => oltb p (nth q x n0)) ref)
  end.
(** The tree without its masses. *)
Fixpoint skeleton {A} (t : hst A) : hst A :=
  match t with HNone => HNone | HNode L R _ _ q p k => HNode (skeleton L) (skeleton R) 0 0 q p k end.
(** A complete binary tree with leaves at depth D, testing features below dim. *)
Inductive complete {A} `{Num A} (D dim : nat) : nat -> hst A -> Prop :=
| complete_leaf : forall r l, complete D dim D (HNode HNone HNone r l 0 n0 D)
| complete_node : forall k L R r l q p, (k < D)%nat -> (q < dim)%nat -> complete D dim (S k) L -> complete D dim (S k) R -> complete D dim k (HNode L R r l q p k).
(** The window being filled and the reference window after the instances xs. *)
Definition current_window {B} (W : nat) (xs : list B) : list B := lastn (length xs mod W) xs.
Definition reference_window {B} (W : nat) (xs : list B) : list B := if (length xs <? W)%nat then xs else block W (length xs / W - 1) xs.

(** ** Windows *)
Lemma window_mid : forall B W (xs : list B) x, (1 <= W)%nat -> (S (length xs) mod W <> 0)%nat ->
  current_window W (xs ++ [x]) = current_window W xs ++ [x] /\
  reference_window W (xs ++ [x]) = (if (length xs <? W)%nat then reference_window W xs ++ [x] else reference_window W xs).
Proof.
  intros B W xs x HW H. unfold current_window, reference_window. rewrite app_length. cbn [length]. rewrite Nat.add_1_r. set (n := length xs) in *.
  pose proof (Nat.div_mod n W ltac:(lia)) as E. pose proof (Nat.mod_upper_bound n W ltac:(lia)) as B1. set (a := (n / W)%nat) in *. set (b := (n mod W)%nat) in *.
  assert (Q : (S b < W)%nat). { destruct (Nat.eq_dec (S b) W) as [Eb|]; [|lia]. exfalso. apply H. replace (S n) with ((a + 1) * W)%nat by nia. apply Nat.mod_mul. lia. }
  assert (E1 : (S n mod W = S b)%nat) by (symmetry; apply (Nat.mod_unique _ _ a); lia).
  assert (E2 : (S n / W = a)%nat) by (symmetry; apply (Nat.div_unique _ _ _ (S b)); lia).
  rewrite E1, E2. split; [apply lastn_snoc|]. destruct (Nat.ltb_spec n W).
  - destruct (Nat.ltb_spec (S n) W); [reflexivity|]. exfalso. assert (S n = W) by lia. apply H. rewrite H2. apply Nat.mod_same. lia.
  - destruct (Nat.ltb_spec (S n) W); [lia|]. unfold block. rewrite skipn_app, firstn_app, skipn_length. fold n.
    assert (1 <= a)%nat by nia. replace ((a - 1) * W - n)%nat with 0%nat by nia. replace (W - (n - (a - 1) * W))%nat with 0%nat by nia. cbn [firstn]. rewrite app_nil_r. reflexivity.
Qed.
Lemma window_end : forall B W (xs : list B) x, (1 <= W)%nat -> (S (length xs) mod W = 0)%nat ->
  current_window W (xs ++ [x]) = [] /\ reference_window W (xs ++ [x]) = current_window W xs ++ [x] /\ (W <= S (length xs))%nat.
Proof.
  intros B W xs x HW H. unfold current_window, reference_window. rewrite app_length. cbn [length]. rewrite Nat.add_1_r. set (n := length xs) in *.
  pose proof (Nat.div_mod n W ltac:(lia)) as E. pose proof (Nat.mod_upper_bound n W ltac:(lia)) as B1. set (a := (n / W)%nat) in *. set (b := (n mod W)%nat) in *.
  assert (Q : (S b = W)%nat). { destruct (Nat.eq_dec (S b) W) as [Eb|]; auto. exfalso. assert (S n mod W = S b)%nat by (symmetry; apply (Nat.mod_unique _ _ a); lia). lia. }
  assert (E2 : (S n / W = S a)%nat) by (symmetry; apply (Nat.div_unique _ _ _ 0); nia).
  rewrite H, E2. split; [apply lastn_0|]. assert (W <= S n)%nat by nia. split; [|auto]. destruct (Nat.ltb_spec (S n) W); [lia|].
  unfold block. replace (S a - 1)%nat with a by lia. rewrite <- lastn_snoc. unfold lastn. rewrite app_length. cbn [length]. fold n. rewrite firstn_all2 by (rewrite skipn_length, app_length; cbn [length]; fold n; nia). f_equal. nia.
Qed.

(** ** Masses *)
Section HST.
Variables (A Y : Type) (NA : Num A).
Lemma py_index_nth : forall (x : list A) q, (q < length x)%nat -> py_index x q = Ok (nth q x n0).
Proof. intros x q H. unfold py_index. rewrite (nth_error_nth' x n0 H). reflexivity. Qed.
Lemma update_mass_step : forall D dim x first k t cur ref, (dim <= length x)%nat -> complete D dim k t -> counted t cur ref ->
  exists t', hs_update_mass D x first t = (Ok tt, t') /\ complete D dim k t' /\ skeleton t' = skeleton t /\ counted t' (cur ++ [x]) (if first then ref ++ [x] else ref).
Proof.
  intros D dim x first k t cur ref Hx C. revert cur ref. induction C as [r l|k L R r l q p Hk Hq CL IHL CR IHR]; intros cur ref Hc; cbn [hs_update_mass].
  - cbn [counted] in Hc. destruct Hc as (-> & -> & _). rewrite Nat.ltb_irrefl. eexists. split; [reflexivity|]. split; [constructor|]. split; [reflexivity|]. cbn [counted]. split; [destruct first; [rewrite app_length; cbn [length]; lia|reflexivity]|]. split; [rewrite app_length; cbn [length]; lia|auto].
  - cbn [counted] in Hc. destruct Hc as (-> & -> & HL & HR). destruct (Nat.ltb_spec k D); [|lia]. rewrite py_index_nth by lia.
    destruct (oltb p (nth q x n0)) eqn:Eb.
    + destruct (IHR _ _ HR) as (R' & E & C' & S' & K'). rewrite E. eexists. split; [reflexivity|]. split; [constructor; auto|]. split; [cbn; congruence|]. cbn [counted].
      split; [destruct first; [rewrite app_length; cbn [length]; lia|reflexivity]|]. split; [rewrite app_length; cbn [length]; lia|].
      rewrite !filter_app. cbn [filter]. rewrite Eb. cbn [negb]. rewrite app_nil_r. split.
      * destruct first; [rewrite filter_app; cbn [filter]; rewrite Eb; cbn [negb]; rewrite app_nil_r|]; auto.
      * destruct first; [rewrite filter_app; cbn [filter]; rewrite Eb|]; auto.
    + destruct (IHL _ _ HL) as (L' & E & C' & S' & K'). rewrite E. eexists. split; [reflexivity|]. split; [constructor; auto|]. split; [cbn; congruence|]. cbn [counted].
      split; [destruct first; [rewrite app_length; cbn [length]; lia|reflexivity]|]. split; [rewrite app_length; cbn [length]; lia|].
      rewrite !filter_app. cbn [filter]. rewrite Eb. cbn [negb]. rewrite app_nil_r. split.
      * destruct first; [rewrite filter_app; cbn [filter]; rewrite Eb; cbn [negb]|]; auto.
      * destruct first; [rewrite filter_app; cbn [filter]; rewrite Eb; rewrite app_nil_r|]; auto.
Qed.
Lemma update_model_step : forall D dim k t cur ref, complete D dim k t -> counted t cur ref ->
  complete D dim k (hs_update_model t) /\ skeleton (hs_update_model t) = skeleton t /\ counted (hs_update_model t) [] cur.
Proof.
  intros D dim k t cur ref C. revert cur ref. induction C as [r l|k L R r l q p Hk Hq CL IHL CR IHR]; intros cur ref Hc; cbn [hs_update_model counted skeleton] in *.
  - destruct Hc as (-> & -> & _). split; [constructor|]. repeat split; auto.
  - destruct Hc as (-> & -> & HL & HR). destruct (IHL _ _ HL) as (? & ? & ?). destruct (IHR _ _ HR) as (? & ? & ?). split; [constructor; auto|]. split; [congruence|]. cbn [filter length]. auto.
Qed.
Variables (W D dim : nat) (HW : (1 <= W)%nat).
(** What holds after the instances xs if the trees were t0s. *)
Definition tree_ok (xs : list (list A)) (t0 t : hst A) : Prop :=
  complete D dim 0 t /\ skeleton t = t0 /\ counted t (current_window W xs) (reference_window W xs).
Definition hs_inv (t0s : list (hst A)) (xs : list (list A)) (s : hstst A) : Prop :=
  Forall (fun x => (dim <= length x)%nat) xs ->
  Forall2 (tree_ok xs) t0s (hs_roots s) /\ hs_step s = length xs /\ (hs_roots s = [] \/ hs_first s = (length xs <? W)%nat).
Lemma hs_fit_step : forall t0s xs s x (y : option Y), hs_inv t0s xs s -> Forall (fun x => (dim <= length x)%nat) (xs ++ [x]) ->
  exists s', md_fit (HalfSpaceTrees W D) x y s = (Ok tt, s') /\ hs_inv t0s (xs ++ [x]) s'.
Proof.
  intros t0s xs s x y H F. apply Forall_app in F. destruct F as [F Fx]. inversion Fx as [|? ? Hx _]; subst. destruct (H F) as (F2 & St & Fi).
  cbn [md_fit HalfSpaceTrees plain_model]. unfold bind, modify, gets. cbn [hs_roots hs_first hs_step].
  assert (UP : exists us l', each_tree (hs_update_mass D x (hs_first s)) (hs_roots s) = (Ok us, l') /\
    Forall2 (fun t0 t => complete D dim 0 t /\ skeleton t = t0 /\ counted t (current_window W xs ++ [x]) (if (length xs <? W)%nat then reference_window W xs ++ [x] else reference_window W xs)) t0s l').
  { destruct Fi as [Fi|Fi].
    - rewrite Fi in *. inversion F2; subst. exists [], []. split; [reflexivity|constructor].
    - rewrite Fi. clear - F2 Hx. induction F2 as [|t0 t t0s ts (C & S & K) F2 IH]; cbn [each_tree].
      + exists [], []. auto.
      + destruct (update_mass_step D dim x (length xs <? W)%nat 0 t _ _ Hx C K) as (t' & E & C' & S' & K'). rewrite E. destruct IH as (us & l' & E' & F'). rewrite E'. exists (tt :: us), (t' :: l'). split; [reflexivity|]. constructor; auto. split; auto. split; [congruence|auto]. }
  destruct UP as (us & l' & E & F2'). rewrite E. destruct (Nat.eqb_spec W 0); [lia|]. cbn [hs_roots hs_first hs_step]. rewrite St.
  destruct (Nat.eqb_spec (S (length xs) mod W) 0) as [Q|Q].
  - eexists. split; [reflexivity|]. intros _. destruct (window_end _ W xs x HW Q) as (E1 & E2 & E3). unfold hs_next_window. cbn [hs_roots hs_first hs_step]. split; [|split].
    + clear - F2' E1 E2. induction F2' as [|t0 t t0s ts (C & S & K) F2 IH]; cbn [map]; constructor; auto. unfold tree_ok. rewrite E1, E2. destruct (update_model_step _ _ _ _ _ _ C K) as (? & ? & ?). split; auto. split; [congruence|auto].
    + rewrite app_length. cbn [length]. lia.
    + destruct l'; [left; reflexivity|right]. rewrite app_length. cbn [length]. symmetry. apply Nat.ltb_ge. lia.
  - eexists. split; [reflexivity|]. intros _. destruct (window_mid _ W xs x HW Q) as (E1 & E2). unfold ret. cbn [hs_roots hs_first hs_step]. split; [|split].
    + clear - F2' E1 E2. induction F2' as [|t0 t t0s ts (C & S & K) F2 IH]; constructor; auto. unfold tree_ok. rewrite E1, E2. auto.
    + rewrite app_length. cbn [length]. lia.
    + destruct Fi as [Fi|Fi]; [left|right].
      * rewrite Fi in F2. inversion F2; subst. inversion F2'; subst. reflexivity.
      * rewrite Fi, app_length. cbn [length]. destruct (Nat.ltb_spec (length xs) W), (Nat.ltb_spec (length xs + 1) W); auto; try lia. exfalso. apply Q. replace (S (length xs)) with W by lia. apply Nat.mod_same. lia.
Qed.

Lemma hs_score_state : forall x s, exec (md_score (HalfSpaceTrees (Y := Y) W D) x) s = s.
Proof. intros x s. unfold exec. cbn [md_score HalfSpaceTrees plain_model]. unfold bind, gets, lift, ret. destruct (res_map _ _); reflexivity. Qed.
Lemma hs_run : forall t0s s0 (h : list (mcall (list A) Y)), hs_inv t0s [] s0 -> hs_inv t0s (fitted_instances h) (model_run (HalfSpaceTrees W D) s0 h).
Proof.
  intros t0s s0 h H0. refine (plain_run_all _ _ _ _ _ _ (hs_inv t0s) _ _ h _ _); auto.
  - intros xs s x y H F. destruct (hs_fit_step t0s xs s x y H F) as (s' & E & H'). unfold exec. cbn [md_fit HalfSpaceTrees plain_model] in E. rewrite E. apply H'. auto.
  - intros xs s x H. change (hs_inv t0s xs (exec (md_score (HalfSpaceTrees (Y := Y) W D) x) s)). rewrite hs_score_state. auto.
Qed.
(** The constructor. *)
Lemma counted_zero : forall k t, complete D dim k t -> skeleton t = t -> counted t [] [].
Proof.
  intros k t C. induction C as [r l|k L R r l q p Hk Hq CL IHL CR IHR]; intros E; cbn [skeleton counted] in *; injection E; intros; subst; cbn [filter length]; auto.
Qed.
Lemma build_complete : forall cast draw n mins maxes k i, length mins = length maxes -> length maxes = dim -> (forall i, (draw i < dim)%nat) -> (1 <= dim)%nat \/ n = 0%nat -> (k + n = D)%nat ->
  exists t i', hs_build cast draw n mins maxes k i = (Ok t, i') /\ complete D dim k t /\ skeleton t = t.
Proof.
  intros cast draw n. induction n as [|n IH]; intros mins maxes k i HL Hd Hq Hdim Hk; cbn [hs_build].
  - unfold ret. replace D with k by lia. eexists _, _. split; [reflexivity|]. split; [constructor|reflexivity].
  - destruct Hdim as [Hdim|]; [|lia]. unfold bind at 1, gets. unfold bind at 1. destruct (Nat.eqb_spec (length maxes) 0) as [|_]; [lia|]. unfold modify. cbn iota. unfold bind at 1, lift. rewrite (py_index_nth maxes) by (rewrite Hd; auto). unfold bind at 1. rewrite (py_index_nth mins) by (rewrite HL, Hd; auto).
    edestruct (IH mins (set_nth (draw i) (cast (ndiv (nadd (nth (draw i) maxes n0) (nth (draw i) mins n0)) (nofZ 2))) maxes) (S k) (S i)) as (L & i1 & EL & CL & SL); rewrite ?set_nth_length; auto; try lia.
    unfold bind at 1. rewrite EL.
    edestruct (IH (set_nth (draw i) (cast (ndiv (nadd (nth (draw i) maxes n0) (nth (draw i) mins n0)) (nofZ 2))) mins) maxes (S k) i1) as (R & i2 & ER & CR & SR); rewrite ?set_nth_length; auto; try lia.
    unfold bind at 1. rewrite ER. eexists _, _. split; [reflexivity|]. split; [constructor; auto; lia|]. cbn. congruence.
Qed.
Lemma build_all : forall cast draw mins maxes l i, length mins = length maxes -> length maxes = dim -> (forall i, (draw i < dim)%nat) -> (1 <= dim)%nat \/ D = 0%nat ->
  exists ts, fst (mapM (fun _ : nat => hs_build cast draw D mins maxes 0) l i) = Ok ts /\ length ts = length l /\ Forall (fun t => complete D dim 0 t /\ skeleton t = t) ts.
Proof.
  intros cast draw mins maxes l. induction l as [|a l IH]; intros i HL Hd Hq Hdim; cbn [mapM].
  - exists []. auto.
  - destruct (build_complete cast draw D mins maxes 0 i HL Hd Hq Hdim ltac:(lia)) as (t & i' & E & C). unfold bind at 1. rewrite E. unfold bind. specialize (IH i' HL Hd Hq Hdim). destruct (mapM _ l i') as [o i''] eqn:Em. destruct IH as (ts & E' & L' & F'). cbn [fst] in E'. subst o. exists (t :: ts). cbn. auto.
Qed.
End HST.

(** ** C53 *)
(** After every history on a new object every tree has kept its shape, and its masses count the instances of the current and
    of the reference window that reach each node: the reference window is the last complete one, or what has been seen so
    far during the first one.  fit_partial never fails on instances with enough features. *)
Theorem C53_masses : forall A Y (NA : Num A) cast draw mins maxes W T D (h : list (mcall (list A) Y)), let dim := length maxes in
  length mins = dim -> (1 <= dim)%nat -> (forall i, (draw i < dim)%nat) -> (1 <= W)%nat -> Forall (fun x => (dim <= length x)%nat) (fitted_instances h) ->
  exists s0, HST_init (Y := Y) cast draw mins maxes W T D IWNone = Ok s0 /\ length (hs_roots s0) = T /\
  let xs := fitted_instances h in let s := model_run (HalfSpaceTrees W D) s0 h in
  Forall2 (fun t0 t => complete D dim 0 t /\ skeleton t = t0 /\ counted t (lastn (length xs mod W) xs) (if (length xs <? W)%nat then xs else block W (length xs / W - 1) xs)) (hs_roots s0) (hs_roots s) /\
  (forall x y, (dim <= length x)%nat -> eval (md_fit (HalfSpaceTrees W D) x y) s = Ok tt).
Proof.
  intros A Y NA cast draw mins maxes W T D h dim HL Hdim Hq HW F. destruct (build_all A NA W D dim HW cast draw mins maxes (seq 0 T) 0 HL eq_refl Hq (or_introl Hdim)) as (ts & E & L & FC).
  unfold HST_init. rewrite E. cbn [rbind iw_truth]. eexists. split; [reflexivity|]. cbn [hs_roots]. rewrite L, seq_length. split; [reflexivity|]. cbv zeta.
  assert (I : hs_inv A NA W D dim ts (fitted_instances h) (model_run (HalfSpaceTrees W D) (mkHST ts true 0) h)).
  { apply hs_run; auto. intros _. cbn [hs_roots hs_step hs_first length]. split; [|split; [reflexivity|right; symmetry; apply Nat.ltb_lt; lia]].
    unfold tree_ok, current_window, reference_window. cbn [length]. destruct (Nat.ltb_spec 0 W); [|lia]. rewrite lastn_nil. clear - FC. induction FC as [|t ts [C S] FC IH]; constructor; auto. split; [auto|]. split; [auto|]. eapply counted_zero; eauto. }
  split; [apply (I F)|]. intros x y Hx. destruct (hs_fit_step A Y NA W D dim HW ts _ _ x y I) as (s' & E' & _).
  - apply Forall_app. split; auto.
  - unfold eval. rewrite E'. reflexivity.
Qed.
Print Assumptions C53_masses.
(** Hence the mass of an inner node is the sum of the masses of its children. *)
Theorem C53_inner_node_mass : forall A (NA : Num A) k L R r l q p cur ref rL lL rR lR LL LR qL pL kL RL RR qR pR kR,
  counted (HNode L R r l q p k) cur ref ->
  L = HNode LL LR rL lL qL pL kL -> R = HNode RL RR rR lR qR pR kR -> r = (rL + rR)%Z /\ l = (lL + lR)%Z.
Proof.
  intros A NA k L R r l q p cur ref rL lL rR lR LL LR qL pL kL RL RR qR pR kR (Er & El & HL & HR) -> ->. cbn [counted] in HL, HR. destruct HL as (-> & -> & _). destruct HR as (-> & -> & _). subst r l.
  assert (G : forall l : list (list A), Z.of_nat (length l) = (Z.of_nat (length (filter (fun x => negb (oltb p (nth q x n0))) l)) + Z.of_nat (length (filter (fun x => oltb p (nth q x n0)) l)))%Z).
  { induction l as [|x l IH]; auto. cbn [filter length]. destruct (oltb p (nth q x n0)); cbn [negb length]; lia. }
  split; apply G.
Qed.
Print Assumptions C53_inner_node_mass.
(** With window_size = 0 every fit fails, after having changed the masses. *)
Theorem C53_zero_window_fails : forall A Y (NA : Num A) D (s : hstst A) x (y : option Y) us f, each_tree (hs_update_mass D x (hs_first s)) (hs_roots s) = (Ok us, f) ->
  md_fit (HalfSpaceTrees 0 D) x y s = (Raise ZeroDivisionError, mkHST f (hs_first s) (S (hs_step s))).
Proof. intros A Y NA D s x y us f E. cbn [md_fit HalfSpaceTrees plain_model]. unfold bind, modify, gets. cbn [hs_roots hs_first hs_step]. rewrite E. reflexivity. Qed.
Print Assumptions C53_zero_window_fails.

(** ** C54 *)
Open Scope R_scope.
(** The first d decisions taken for x, true meaning right. *)
Fixpoint route (d : nat) (t : hst R) (x : list R) : list bool :=
  match d, t with
  | S d', HNode L R _ _ q p _ => let b := Rltb p (nth q x 0) in b :: route d' (if b then R else L) x
  | _, _ => []
  end.
(** Number of instances of a list in the same cell of depth d as x. *)
Definition sharing (t : hst R) (d : nat) (ref : list (list R)) (x : list R) : R :=
  INR (length (filter (fun x' => if list_eq_dec bool_dec (route d t x') (route d t x) then true else false) ref)).
Lemma sharing_0 : forall t ref x, sharing t 0 ref x = INR (length ref).
Proof.
  intros t ref x. unfold sharing. f_equal. f_equal. induction ref as [|x' ref IH]; auto. cbn [filter route]. destruct (list_eq_dec bool_dec [] []); [|congruence]. f_equal. auto.
Qed.
Lemma sharing_S : forall L R r l q p k d ref x,
  sharing (HNode L R r l q p k) (S d) ref x = (if Rltb p (nth q x 0) then sharing R d (filter (fun x => Rltb p (nth q x 0)) ref) x else sharing L d (filter (fun x => negb (Rltb p (nth q x 0))) ref) x).
Proof.
  intros L R' r l q p k d ref x. unfold sharing. rewrite (filter_ext _ (fun x' => (if Rltb p (nth q x 0) then Rltb p (nth q x' 0) else negb (Rltb p (nth q x' 0))) &&
     (if list_eq_dec bool_dec (route d (if Rltb p (nth q x 0) then R' else L) x') (route d (if Rltb p (nth q x 0) then R' else L) x) then true else false))).
  - destruct (Rltb p (nth q x 0)); f_equal; induction ref as [|x' ref IH]; auto; cbn [filter]; destruct (Rltb p (nth q x' 0)); cbn [negb andb filter]; auto; destruct (list_eq_dec _ _ _); cbn [length]; auto.
  - intros x'. cbn [route]. destruct (Rltb p (nth q x 0)), (Rltb p (nth q x' 0)); cbn [negb andb].
    + destruct (list_eq_dec bool_dec (true :: _) _), (list_eq_dec bool_dec (route _ _ _) _); congruence.
    + destruct (list_eq_dec bool_dec (false :: _) _); congruence.
    + destruct (list_eq_dec bool_dec (true :: _) _); congruence.
    + destruct (list_eq_dec bool_dec (false :: _) _), (list_eq_dec bool_dec (route _ _ _) _); congruence.
Qed.
Lemma score_tree_sum : forall D dim k t cur ref x, complete D dim k t -> (dim <= length x)%nat -> (1 <= dim)%nat -> counted t cur ref ->
  hs_score_tree x t = Ok (Rsum (map (fun d => 2 ^ (k + d) * sharing t d ref x) (seq 0 (S (D - k))))).
Proof.
  intros D dim k t cur ref x C Hx Hdim. revert cur ref. induction C as [r l|k L Rt r l q p Hk Hq CL IHL CR IHR]; intros cur ref Hc; cbn [hs_score_tree].
  - destruct Hc as (-> & -> & _). rewrite (py_index_nth R NumR) by lia. cbn [rbind]. replace (D - D)%nat with 0%nat by lia. cbn [seq map]. rewrite sharing_0, Nat.add_0_r. unfold Rsum. cbn [fold_right].
    assert (E : nofZ (Z.of_nat (length ref) * 2 ^ Z.of_nat D) = 2 ^ D * INR (length ref)). { cbn [nofZ NumR]. rewrite mult_IZR, <- pow_IZR, <- INR_IZR_INZ. lra. }
    rewrite E. destruct (oltb _ _); cbn [rmap hs_score_tree]; f_equal; cbn [nadd n0 NumR]; lra.
  - destruct Hc as (-> & -> & HL & HR). rewrite (py_index_nth R NumR) by lia. cbn [rbind].
    assert (E : nofZ (Z.of_nat (length ref) * 2 ^ Z.of_nat k) = 2 ^ k * INR (length ref)). { cbn [nofZ NumR]. rewrite mult_IZR, <- pow_IZR, <- INR_IZR_INZ. lra. }
    rewrite E. rewrite <- cons_seq, <- seq_shift, map_cons, map_map. cbn [seq]. unfold Rsum at 1. cbn [fold_right]. rewrite sharing_0, Nat.add_0_r.
    change (oltb p (nth q x n0)) with (Rltb p (nth q x 0)).
    replace (D - k)%nat with (S (D - S k)) by lia. destruct (Rltb p (nth q x 0)) eqn:Eb.
    + rewrite (IHR _ _ HR). cbn [rmap]. f_equal. cbn [nadd NumR]. f_equal. unfold Rsum. f_equal. apply map_ext. intros d. rewrite sharing_S, Eb. replace (k + S d)%nat with (S k + d)%nat by lia. reflexivity.
    + rewrite (IHL _ _ HL). cbn [rmap]. f_equal. cbn [nadd NumR]. f_equal. unfold Rsum. f_equal. apply map_ext. intros d. rewrite sharing_S, Eb. replace (k + S d)%nat with (S k + d)%nat by lia. reflexivity.
Qed.
Lemma sharing_le : forall t d ref x, 0 <= sharing t d ref x <= INR (length ref).
Proof. intros t d ref x. unfold sharing. split; [apply pos_INR|]. apply le_INR. apply filter_length_le. Qed.
(** The sum over the cells of x of 2^depth times the number of reference instances in the cell. *)
Definition cell_sum (D : nat) (t : hst R) (ref : list (list R)) (x : list R) : R := Rsum (map (fun d => 2 ^ d * sharing t d ref x) (seq 0 (S D))).
Lemma cell_sum_bounds : forall D t ref x, INR (length ref) <= cell_sum D t ref x <= INR (length ref) * (2 ^ (S D) - 1).
Proof.
  intros D t ref x. unfold cell_sum. induction D as [|D IH].
  - cbn [seq map pow]. unfold Rsum. cbn [fold_right]. rewrite sharing_0. lra.
  - rewrite seq_S, map_app, Rsum_app. cbn [map Nat.add]. unfold Rsum at 2 4. cbn [fold_right]. pose proof (sharing_le t (S D) ref x) as [B1 B2]. pose proof (pow_lt 2 (S D) ltac:(lra)) as P.
    pose proof (Rmult_le_compat_l (2 ^ S D) _ _ (Rlt_le _ _ P) B2). pose proof (Rmult_le_pos _ _ (Rlt_le _ _ P) B1). replace (2 ^ S (S D)) with (2 * 2 ^ S D) by reflexivity. lra.
Qed.
(** After every history the score of x is minus the sum over trees and depths d of 2^d times the number of instances of the
    reference window in x's cell of depth d; scoring changes nothing. *)
Theorem C54_score : forall Y cast draw mins maxes W T D (h : list (mcall (list R) Y)) x, let dim := length maxes in
  length mins = dim -> (1 <= dim)%nat -> (forall i, (draw i < dim)%nat) -> (1 <= W)%nat -> Forall (fun x => (dim <= length x)%nat) (fitted_instances h) -> (dim <= length x)%nat ->
  exists s0, HST_init (Y := Y) cast draw mins maxes W T D IWNone = Ok s0 /\
  let xs := fitted_instances h in let s := model_run (HalfSpaceTrees W D) s0 h in
  let ref := if (length xs <? W)%nat then xs else block W (length xs / W - 1) xs in
  md_score (HalfSpaceTrees (Y := Y) W D) x s = (Ok (VScalar (- Rsum (map (fun t => cell_sum D t ref x) (hs_roots s0)))), s).
Proof.
  intros Y cast draw mins maxes W T D h x dim HL Hdim Hq HW F Hx. destruct (C53_masses R Y NumR cast draw mins maxes W T D h HL Hdim Hq HW F) as (s0 & E0 & _ & F2 & _). exists s0. split; [exact E0|]. cbv zeta in *.
  set (xs := fitted_instances h) in *. set (ref := if (length xs <? W)%nat then xs else block W (length xs / W - 1) xs) in *. set (s := model_run (HalfSpaceTrees W D) s0 h) in *. clearbody s. clear E0.
  cbn [md_score HalfSpaceTrees plain_model]. unfold bind, gets, lift.
  assert (SK : forall d t y, route d (skeleton t) y = route d t y).
  { induction d as [|d IH]; intros t y; destruct t as [|L R' r l q p k]; cbn [route skeleton]; auto. destruct (Rltb p (nth q y 0)); rewrite IH; reflexivity. }
  assert (E : res_map (hs_score_tree x) (hs_roots s) = Ok (map (fun t => cell_sum D t ref x) (hs_roots s0))).
  { clear - F2 Hx Hdim SK. induction F2 as [|t0 t t0s ts (C & S & K) F2 IH]; cbn [res_map map]; auto. rewrite (score_tree_sum D _ 0 t _ _ x C Hx Hdim K). cbn [rbind]. rewrite IH. cbn [rmap]. do 2 f_equal. unfold cell_sum. rewrite Nat.sub_0_r. f_equal. apply map_ext. intros d. cbn [Nat.add]. f_equal. subst t0. unfold sharing. do 2 f_equal. apply filter_ext. intros x'. rewrite !SK. reflexivity. }
  rewrite E. unfold ret. rewrite nsum_Rsum. reflexivity.
Qed.
Print Assumptions C54_score.
(** Range: with T trees and r instances in the reference window, between -T r (2^(D+1) - 1) and -T r. *)
Theorem C54_score_range : forall Y cast draw mins maxes W T D (h : list (mcall (list R) Y)) x, let dim := length maxes in
  length mins = dim -> (1 <= dim)%nat -> (forall i, (draw i < dim)%nat) -> (1 <= W)%nat -> Forall (fun x => (dim <= length x)%nat) (fitted_instances h) -> (dim <= length x)%nat ->
  exists s0 v, HST_init (Y := Y) cast draw mins maxes W T D IWNone = Ok s0 /\
  let n := length (fitted_instances h) in let r := if (n <? W)%nat then INR n else INR W in
  eval (md_score (HalfSpaceTrees (Y := Y) W D) x) (model_run (HalfSpaceTrees W D) s0 h) = Ok (VScalar v) /\ - (INR T * (r * (2 ^ (S D) - 1))) <= v <= - (INR T * r).
Proof.
  intros Y cast draw mins maxes W T D h x dim HL Hdim Hq HW F Hx. destruct (C53_masses R Y NumR cast draw mins maxes W T D h HL Hdim Hq HW F) as (s0' & E0' & LT & _).
  destruct (C54_score Y cast draw mins maxes W T D h x HL Hdim Hq HW F Hx) as (s0 & E0 & E). rewrite E0 in E0'. injection E0' as <-. eexists s0, _. split; [exact E0|]. cbv zeta in *. unfold eval. rewrite E. cbn [fst]. split; [reflexivity|].
  set (ref := if (length (fitted_instances h) <? W)%nat then fitted_instances h else block W (length (fitted_instances h) / W - 1) (fitted_instances h)). assert (ER : INR (length ref) = if (length (fitted_instances h) <? W)%nat then INR (length (fitted_instances h)) else INR W).
  { unfold ref. destruct (Nat.ltb_spec (length (fitted_instances h)) W); auto. f_equal. unfold block. rewrite firstn_length, skipn_length. pose proof (Nat.div_mod (length (fitted_instances h)) W ltac:(lia)). set (a := (length (fitted_instances h) / W)%nat) in *. pose proof (Nat.mod_upper_bound (length (fitted_instances h)) W ltac:(lia)). assert (1 <= a)%nat by nia. nia. }
  rewrite <- ER, <- LT. generalize (hs_roots s0). intros l. induction l as [|t l IH]; cbn [length map].
  - unfold Rsum. cbn. lra.
  - rewrite S_INR. unfold Rsum in *. cbn [fold_right]. pose proof (cell_sum_bounds D t ref x). lra.
Qed.
Print Assumptions C54_score_range.
(** Orientation: an instance that shares every cell with at least as many reference instances scores no higher. *)
Theorem C54_denser_cells_score_lower : forall D (ts : list (hst R)) ref x x', (forall t d, In t ts -> sharing t d ref x <= sharing t d ref x') ->
  - Rsum (map (fun t => cell_sum D t ref x') ts) <= - Rsum (map (fun t => cell_sum D t ref x) ts).
Proof.
  intros D ts ref x x' H. apply Ropp_le_contravar. induction ts as [|t ts IH]; cbn [map]; [unfold Rsum; cbn; lra|].
  unfold Rsum in *. cbn [fold_right]. apply Rplus_le_compat; [|apply IH; intros; apply H; right; auto].
  unfold cell_sum, Rsum. generalize (seq 0 (S D)). induction l as [|d l IHl]; cbn [map fold_right]; [lra|]. apply Rplus_le_compat; auto. apply Rmult_le_compat_l; [left; apply pow_lt; lra|]. apply H. left; auto.
Qed.
Print Assumptions C54_denser_cells_score_lower.

(** ** C55 *)
(** A tree that halves its box at every node: the box of a node is (lo, hi); the node tests one feature against the middle of
    the box in that feature; the left child has the lower half and the right child the upper half. *)
Inductive halving (D : nat) : nat -> list R -> list R -> hst R -> Prop :=
| halving_leaf : forall lo hi, halving D D lo hi (HNode HNone HNone 0 0 0 0 D)
| halving_node : forall k lo hi L Rt q p, (k < D)%nat -> (q < length lo)%nat -> p = (nth q hi 0 + nth q lo 0) / 2 ->
    halving D (S k) lo (set_nth q p hi) L -> halving D (S k) (set_nth q p lo) hi Rt -> halving D k lo hi (HNode L Rt 0 0 q p k).
Lemma build_halving : forall D draw n lo hi k i, length lo = length hi -> (forall i, (draw i < length hi)%nat) -> (1 <= length hi)%nat \/ n = 0%nat -> (k + n = D)%nat ->
  exists t i', hs_build (fun a : R => a) draw n lo hi k i = (Ok t, i') /\ halving D k lo hi t.
Proof.
  intros D draw n. induction n as [|n IH]; intros lo hi k i HL Hq Hdim Hk; cbn [hs_build].
  - unfold ret. replace D with k by lia. eexists _, _. split; [reflexivity|constructor].
  - destruct Hdim as [Hdim|]; [|lia]. unfold bind at 1, gets. unfold bind at 1. destruct (Nat.eqb_spec (length hi) 0) as [|_]; [lia|]. unfold modify. cbn iota. unfold bind at 1, lift. rewrite (py_index_nth R NumR hi) by auto. unfold bind at 1. rewrite (py_index_nth R NumR lo) by (rewrite HL; auto).
    set (p := ndiv (nadd (nth (draw i) hi n0) (nth (draw i) lo n0)) (nofZ 2)).
    destruct (IH lo (set_nth (draw i) p hi) (S k) (S i)) as (L & i1 & EL & CL); rewrite ?set_nth_length; auto; try lia. unfold bind at 1. rewrite EL.
    destruct (IH (set_nth (draw i) p lo) hi (S k) i1) as (Rt & i2 & ER & CR); rewrite ?set_nth_length; auto; try lia. unfold bind at 1. rewrite ER.
    eexists _, _. split; [reflexivity|]. constructor; auto; try lia. rewrite HL. auto.
Qed.
(** With float bounds every tree halves the box given to the constructor. *)
Theorem C55_trees_halve_the_box : forall Y draw mins maxes W T D, length mins = length maxes -> (1 <= length maxes)%nat -> (forall i, (draw i < length maxes)%nat) ->
  exists s, HST_init (Y := Y) (fun a : R => a) draw mins maxes W T D IWNone = Ok s /\ length (hs_roots s) = T /\ Forall (halving D 0 mins maxes) (hs_roots s).
Proof.
  intros Y draw mins maxes W T D HL Hdim Hq. unfold HST_init. cbn [iw_truth rbind].
  assert (G : forall l i, exists ts, fst (mapM (fun _ : nat => hs_build (fun a : R => a) draw D mins maxes 0) l i) = Ok ts /\ length ts = length l /\ Forall (halving D 0 mins maxes) ts).
  { induction l as [|a l IH]; intros i; cbn [mapM]; [exists []; auto|]. destruct (build_halving D draw D mins maxes 0 i HL Hq (or_introl Hdim) ltac:(lia)) as (t & i' & E & C). unfold bind at 1. rewrite E. unfold bind. specialize (IH i'). destruct (mapM _ l i') as [o i''] eqn:Em. destruct IH as (ts & E' & L' & F'). cbn [fst] in E'. subst o. exists (t :: ts). cbn. auto. }
  destruct (G (seq 0 T) 0%nat) as (ts & E & L & F). rewrite E. cbn [rbind]. eexists. split; [reflexivity|]. cbn [hs_roots]. rewrite L, seq_length. auto.
Qed.
Print Assumptions C55_trees_halve_the_box.
(** The box of the node reached by a list of decisions. *)
Fixpoint cell (t : hst R) (path : list bool) (lo hi : list R) : list R * list R :=
  match t, path with
  | HNode L Rt _ _ q p _, b :: path' => if b then cell Rt path' (set_nth q p lo) hi else cell L path' lo (set_nth q p hi)
  | _, _ => (lo, hi)
  end.
(** x lies in the box (lo, hi), which is open below except where it touches the bottom of the whole box. *)
Definition in_cell (base lo hi x : list R) : Prop := forall i, (i < length lo)%nat -> (nth i lo 0 < nth i x 0 \/ nth i lo 0 = nth i base 0) /\ nth i base 0 <= nth i x 0 /\ nth i x 0 <= nth i hi 0.
Definition proper (base lo hi : list R) : Prop := length lo = length hi /\ forall i, (i < length lo)%nat -> nth i base 0 <= nth i lo 0 < nth i hi 0.
Lemma nth_set_nth : forall (l : list R) q p i, (q < length l)%nat -> nth i (set_nth q p l) 0 = if (i =? q)%nat then p else nth i l 0.
Proof. intros l q p i H. destruct (Nat.eqb_spec i q); [subst; apply nth_set_nth_eq; auto|apply nth_set_nth_neq; auto]. Qed.
Lemma proper_left : forall base lo hi q p, proper base lo hi -> (q < length lo)%nat -> p = (nth q hi 0 + nth q lo 0) / 2 -> proper base lo (set_nth q p hi).
Proof.
  intros base lo hi q p [HL H] Hq ->. split; [rewrite set_nth_length; auto|]. intros i Hi. rewrite nth_set_nth by lia. specialize (H i Hi). destruct (Nat.eqb_spec i q); [subst; lra|lra].
Qed.
Lemma proper_right : forall base lo hi q p, proper base lo hi -> (q < length lo)%nat -> p = (nth q hi 0 + nth q lo 0) / 2 -> proper base (set_nth q p lo) hi.
Proof.
  intros base lo hi q p [HL H] Hq ->. split; [rewrite set_nth_length; auto|]. rewrite set_nth_length. intros i Hi. rewrite nth_set_nth by lia. specialize (H i Hi). destruct (Nat.eqb_spec i q); [subst; lra|lra].
Qed.
Lemma cell_inside : forall D k lo hi t base path, halving D k lo hi t -> proper base lo hi -> (k + length path <= D)%nat ->
  proper base (fst (cell t path lo hi)) (snd (cell t path lo hi)) /\ length (fst (cell t path lo hi)) = length lo /\
  forall i, (i < length lo)%nat -> nth i lo 0 <= nth i (fst (cell t path lo hi)) 0 /\ nth i (snd (cell t path lo hi)) 0 <= nth i hi 0.
Proof.
  intros D k lo hi t base path H. revert path. induction H as [lo hi|k lo hi L Rt q p Hk Hq Ep HL IHL HR IHR]; intros path P Hp.
  - destruct path as [|b path]; cbn [cell fst snd length] in *; [|lia]. split; [auto|split; [auto|intros; lra]].
  - destruct path as [|b path]; cbn [cell fst snd length] in *; [split; [auto|split; [auto|intros; lra]]|]. destruct b.
    + destruct (IHR path (proper_right _ _ _ _ _ P Hq Ep) ltac:(lia)) as (P1 & P2 & P3). rewrite set_nth_length in P2, P3. split; [auto|]. split; [auto|]. intros i Hi. specialize (P3 i Hi). rewrite nth_set_nth in P3 by auto. destruct P as [_ P]. specialize (P i Hi). destruct (Nat.eqb_spec i q); [subst; lra|lra].
    + destruct (IHL path (proper_left _ _ _ _ _ P Hq Ep) ltac:(lia)) as (P1 & P2 & P3). split; [auto|]. split; [auto|]. intros i Hi. specialize (P3 i Hi). destruct P as [PL P]. rewrite nth_set_nth in P3 by lia. specialize (P i Hi). destruct (Nat.eqb_spec i q); [subst; lra|lra].
Qed.
Lemma route_cell : forall D k lo hi t base path x, halving D k lo hi t -> proper base lo hi -> (k + length path <= D)%nat -> in_cell base lo hi x ->
  (route (length path) t x = path <-> in_cell base (fst (cell t path lo hi)) (snd (cell t path lo hi)) x).
Proof.
  intros D k lo hi t base path x H. revert path. induction H as [lo hi|k lo hi L Rt q p Hk Hq Ep HL IHL HR IHR]; intros path P Hp Hx.
  - destruct path as [|b path]; cbn [cell fst snd length route] in *; [|lia]. tauto.
  - destruct path as [|b path]; cbn [cell fst snd length route] in *; [tauto|]. assert (PP : proper base lo hi) by exact P. destruct P as [PL P].
    pose proof (P q Hq) as Pq. unfold Rltb. destruct b.
    + destruct (Rlt_dec p (nth q x 0)) as [Q|Q].
      * assert (I : in_cell base (set_nth q p lo) hi x). { intros i Hi. rewrite set_nth_length in Hi. rewrite nth_set_nth by auto. destruct (Nat.eqb_spec i q); [subst i; split; [left; auto|apply Hx; auto]|apply Hx; auto]. }
        rewrite <- (IHR path (proper_right _ _ _ _ _ PP Hq Ep) ltac:(lia) I). split; [intros E; injection E; auto|intros ->; auto].
      * split; [intros E; discriminate|]. intros I. exfalso. apply Q. destruct (cell_inside _ _ _ _ _ base path HR (proper_right _ _ _ _ _ PP Hq Ep) ltac:(lia)) as (_ & C2 & C3). rewrite set_nth_length in C2, C3.
        destruct (I q ltac:(lia)) as ([I1|I1] & _); specialize (C3 q Hq); rewrite nth_set_nth, Nat.eqb_refl in C3 by auto; lra.
    + destruct (Rlt_dec p (nth q x 0)) as [Q|Q].
      * split; [intros E; discriminate|]. intros I. exfalso. destruct (cell_inside _ _ _ _ _ base path HL (proper_left _ _ _ _ _ PP Hq Ep) ltac:(lia)) as (_ & C2 & C3).
        destruct (I q ltac:(lia)) as (_ & _ & I1). specialize (C3 q Hq). rewrite nth_set_nth, Nat.eqb_refl in C3 by lia. lra.
      * assert (I : in_cell base lo (set_nth q p hi) x). { intros i Hi. rewrite nth_set_nth by lia. destruct (Nat.eqb_spec i q); [subst i; destruct (Hx q Hq) as (? & ? & ?); repeat split; auto; lra|apply Hx; auto]. }
        rewrite <- (IHL path (proper_left _ _ _ _ _ PP Hq Ep) ltac:(lia) I). split; [intros E; injection E; auto|intros ->; auto].
Qed.
Definition volume (lo hi : list R) : R := fold_right Rmult 1 (map (fun i => nth i hi 0 - nth i lo 0) (seq 0 (length lo))).
Lemma prod_change : forall (f g : nat -> R) q l, NoDup l -> In q l -> g q = f q / 2 -> (forall i, In i l -> i <> q -> g i = f i) -> fold_right Rmult 1 (map g l) = fold_right Rmult 1 (map f l) / 2.
Proof.
  intros f g q l ND I E1 E2. induction l as [|a l IH]; [contradiction|]. inversion ND; subst. cbn [map fold_right]. destruct I as [->|I].
  - rewrite E1. replace (map g l) with (map f l); [lra|]. apply map_ext_in. intros i Hi. symmetry. apply E2; [right; auto|]. intros ->. contradiction.
  - rewrite IH; auto; [|intros; apply E2; auto; right; auto]. rewrite E2; [lra|left; auto|]. intros ->. contradiction.
Qed.
Lemma cell_volume : forall D k lo hi t path, halving D k lo hi t -> length lo = length hi -> (k + length path <= D)%nat -> volume (fst (cell t path lo hi)) (snd (cell t path lo hi)) = volume lo hi / 2 ^ length path.
Proof.
  intros D k lo hi t path H. revert path. induction H as [lo hi|k lo hi L Rt q p Hk Hq Ep HL IHL HR IHR]; intros path E Hp.
  - destruct path as [|b path]; cbn [cell fst snd length] in *; [|lia]. cbn. lra.
  - destruct path as [|b path]; cbn [cell fst snd length] in *; [cbn; lra|]. assert (P2 : 2 ^ length path <> 0) by (apply pow_nonzero; lra). destruct b.
    + rewrite IHR by (rewrite ?set_nth_length; auto; lia). replace (volume (set_nth q p lo) hi) with (volume lo hi / 2); [cbn [pow]; field; auto|]. unfold volume. rewrite set_nth_length. symmetry. apply prod_change with q; [apply seq_NoDup|apply in_seq; lia| |].
      * rewrite nth_set_nth, Nat.eqb_refl by auto. lra.
      * intros i _ N. rewrite nth_set_nth by auto. destruct (Nat.eqb_spec i q); [congruence|reflexivity].
    + rewrite IHL by (rewrite ?set_nth_length; auto; lia). replace (volume lo (set_nth q p hi)) with (volume lo hi / 2); [cbn [pow]; field; auto|]. unfold volume. symmetry. apply prod_change with q; [apply seq_NoDup|apply in_seq; lia| |].
      * rewrite nth_set_nth, Nat.eqb_refl by lia. lra.
      * intros i _ N. rewrite nth_set_nth by lia. destruct (Nat.eqb_spec i q); [congruence|reflexivity].
Qed.
(** In such a tree the cells of the paths of length d tile the box: an instance of the box takes a path exactly if it lies in
    the path's cell, which is a 2^d-th of the box; so it lies in one and only one cell. *)
Theorem C55_cells_tile_the_box : forall D mins maxes t path x, halving D 0 mins maxes t -> length mins = length maxes -> (forall i, (i < length mins)%nat -> nth i mins 0 < nth i maxes 0) ->
  (forall i, (i < length mins)%nat -> nth i mins 0 <= nth i x 0 <= nth i maxes 0) -> (length path <= D)%nat ->
  let lo := fst (cell t path mins maxes) in let hi := snd (cell t path mins maxes) in
  (route (length path) t x = path <-> forall i, (i < length mins)%nat -> (nth i lo 0 < nth i x 0 \/ nth i lo 0 = nth i mins 0) /\ nth i x 0 <= nth i hi 0) /\
  (forall i, (i < length mins)%nat -> nth i mins 0 <= nth i lo 0 < nth i hi 0 /\ nth i hi 0 <= nth i maxes 0) /\
  volume lo hi = volume mins maxes / 2 ^ length path.
Proof.
  intros D mins maxes t path x H HL Hb Hx Hp. cbv zeta. assert (P : proper mins mins maxes) by (split; auto; intros i Hi; split; [lra|auto]).
  assert (I : in_cell mins mins maxes x) by (intros i Hi; specialize (Hx i Hi); repeat split; try lra; right; reflexivity).
  destruct (cell_inside D 0 mins maxes t mins path H P Hp) as ((C0 & C1) & C2 & C3). split; [|split].
  - rewrite (route_cell D 0 mins maxes t mins path x H P Hp I). unfold in_cell. rewrite C2. split; intros G i Hi; specialize (G i Hi); [tauto|]. specialize (Hx i Hi). tauto.
  - intros i Hi. specialize (C1 i ltac:(lia)). specialize (C3 i Hi). lra.
  - apply (cell_volume D 0 mins maxes t path H HL Hp).
Qed.
Print Assumptions C55_cells_tile_the_box.
(** Integer arrays as bounds: the middle is truncated when it is stored, and parts of the tree cannot be reached by any instance. *)
Theorem C55_integer_bounds_refuted : forall Y trunc, trunc (1 / 2) = 0 -> exists draw s t, HST_init (Y := Y) trunc draw [0] [1] 100 1 2 IWNone = Ok s /\ hs_roots s = [t] /\
  ~ halving 2 0 [0] [1] t /\ forall x, route 2 t x <> [true; false].
Proof.
  intros Y trunc Et. exists (fun _ => 0%nat). unfold HST_init. cbn [seq mapM].
  assert (E : forall i, hs_build trunc (fun _ => 0%nat) 2 [0] [1] 0 i = (Ok (HNode (HNode (HNode HNone HNone 0 0 0 0 2) (HNode HNone HNone 0 0 0 0 2) 0 0 0 ((0 + 0) / 2) 1) (HNode (HNode HNone HNone 0 0 0 0 2) (HNode HNone HNone 0 0 0 0 2) 0 0 0 (1 / 2) 1) 0 0 0 (1 / 2) 0), S (S (S i)))).
  { intros i. cbn [hs_build]. unfold bind, gets, modify, lift, ret. cbn [length Nat.eqb py_index nth_error set_nth]. cbn [nadd ndiv nofZ NumR n0]. replace ((1 + 0) / IZR 2) with (1 / 2) by lra. rewrite Et. replace ((1 + 0) / IZR 2) with (1 / 2) by lra. reflexivity. }
  unfold bind. rewrite E. cbn [fst ret rbind iw_truth]. eexists _, _. split; [reflexivity|]. split; [reflexivity|]. split.
  - intros H. inversion H as [|? ? ? ? ? ? ? ? ? ? ? HR]; subst. cbn [set_nth] in HR. inversion HR; subst. cbn [nth] in *. lra.
  - intros x Q. cbn [route] in Q. unfold Rltb in Q. destruct (Rlt_dec (1 / 2) (nth 0 x 0)) as [L|L]; [|discriminate]. destruct (Rlt_dec (1 / 2) (nth 0 x 0)); [discriminate|contradiction].
Qed.
Print Assumptions C55_integer_bounds_refuted.

(** ** C56 *)
(** A non-empty list of instances is fitted by the constructor, exactly as by later calls of fit_partial. *)
Theorem C56_list_is_fitted : forall A Y (NA : Num A) cast draw mins maxes W T D rows, let dim := length maxes in
  length mins = dim -> (1 <= dim)%nat -> (forall i, (draw i < dim)%nat) -> (1 <= W)%nat -> rows <> [] -> Forall (fun x => (dim <= length x)%nat) rows ->
  exists s0, HST_init (Y := Y) cast draw mins maxes W T D IWNone = Ok s0 /\
  HST_init (Y := Y) cast draw mins maxes W T D (IWList rows) = Ok (model_run (HalfSpaceTrees (Y := Y) W D) s0 (map (fun x => CFit x None) rows)).
Proof.
  intros A Y NA cast draw mins maxes W T D rows dim HL Hdim Hq HW Hr F.
  assert (FR : forall l, fitted_instances (map (fun x : list A => CFit x (@None Y)) l) = l) by (induction l as [|x l IH]; auto; unfold fitted_instances in *; cbn; f_equal; auto).
  assert (ST : forall l, Forall (fun x => (dim <= length x)%nat) l -> exists s0, HST_init (Y := Y) cast draw mins maxes W T D IWNone = Ok s0 /\
     iterM (fun p : list A * option Y => md_fit (HalfSpaceTrees W D) (fst p) (snd p)) (map (fun x => (x, None)) l) s0 = (Ok tt, model_run (HalfSpaceTrees (Y := Y) W D) s0 (map (fun x => CFit x None) l))).
  { intros l. induction l as [|x l IH] using rev_ind; intros Fl.
    - destruct (C53_masses A Y NA cast draw mins maxes W T D [] HL Hdim Hq HW ltac:(constructor)) as (s0 & E0 & _). exists s0. split; auto.
    - apply Forall_app in Fl. destruct Fl as [Fl Fx]. inversion Fx as [|? ? Hx _]; subst. destruct (IH Fl) as (s0 & E0 & E). exists s0. split; [auto|].
      destruct (C53_masses A Y NA cast draw mins maxes W T D (map (fun x => CFit x None) l) HL Hdim Hq HW) as (s0' & E0' & _ & _ & G); [rewrite FR; auto|]. rewrite E0 in E0'. injection E0' as <-. specialize (G x None Hx).
      rewrite map_app, iterM_app. unfold bind. rewrite E. rewrite map_app, model_run_app. cbn [map iterM fst snd]. unfold bind. unfold eval in G. set (s1 := model_run (HalfSpaceTrees W D) s0 (map (fun x => CFit x None) l)) in *.
      assert (E1 : model_run (HalfSpaceTrees W D) s1 [CFit x None] = snd (md_fit (HalfSpaceTrees W D) x (@None Y) s1)) by (unfold model_run; cbn [fold_left]; unfold model_do, exec, model_call; destruct (md_fit _ _ _ _); reflexivity).
      rewrite E1. destruct (md_fit (HalfSpaceTrees W D) x None s1) as [o s'] eqn:Em. cbn [fst] in G. subst o. reflexivity. }
  destruct (ST rows F) as (s0 & E0 & E). exists s0. split; [exact E0|]. revert E0 E. unfold HST_init. destruct (fst (mapM _ _ _)) as [roots|e]; [|discriminate]. cbn [rbind iw_truth]. intros E0 E. injection E0 as <-.
  destruct (Nat.eqb_spec (length rows) 0) as [Q|Q]; [destruct rows; [congruence|discriminate]|]. cbn [negb iw_rows]. unfold BaseModel_fit, for_gen.
  assert (EI : @iterate (list A) Y rows None = (map (fun x => (x, None)) rows, None)).
  { unfold iterate. rewrite array_streamer_plain. reflexivity. }
  rewrite EI. cbn [fst snd]. unfold bind. rewrite E. reflexivity.
Qed.
Print Assumptions C56_list_is_fitted.

(** A numpy array with at least two numbers makes the constructor fail. *)
Theorem C56_array_is_accepted_refuted : forall A Y (NA : Num A) cast draw mins maxes W T D rows s0, HST_init (Y := Y) cast draw mins maxes W T D IWNone = Ok s0 -> (2 <= length (concat rows))%nat ->
  HST_init (Y := Y) cast draw mins maxes W T D (IWArray rows) = Raise ValueError.
Proof.
  intros A Y NA cast draw mins maxes W T D rows s0 E H. revert E. unfold HST_init. destruct (fst (mapM _ _ _)) as [roots|e]; [|discriminate]. intros _. cbn [rbind iw_truth]. destruct (concat rows) as [|a [|b l]]; cbn in H; try lia. reflexivity.
Qed.
Print Assumptions C56_array_is_accepted_refuted.
(** An array with the single number 0, or an empty list, is ignored. *)
Theorem C56_zero_or_empty_is_ignored : forall Y cast draw mins maxes W T D, HST_init (A := R) (Y := Y) cast draw mins maxes W T D (IWArray [[0]]) = HST_init cast draw mins maxes W T D IWNone (Y := Y) /\
  HST_init (A := R) (Y := Y) cast draw mins maxes W T D (IWList []) = HST_init (Y := Y) cast draw mins maxes W T D IWNone.
Proof.
  intros. unfold HST_init. split; destruct (fst (mapM _ _ _)) as [roots|e]; auto. cbn [rbind iw_truth concat app]. change (oeqb 0 n0) with (Reqb 0 0). unfold Reqb. destruct (Req_EM_T 0 0); [reflexivity|lra].
Qed.
Print Assumptions C56_zero_or_empty_is_ignored.
(** Two trees of depth 2 on the unit square, window of 2: the masses and the score after three instances. *)
Example C53_ex : let x1 := [1/8; 1/8] in let x2 := [7/8; 1/8] in let x3 := [1/8; 7/8] in
  exists s0, HST_init (Y := unit) (fun a : R => a) (fun i => (i mod 2)%nat) [0; 0] [1; 1] 2 2 2 IWNone = Ok s0 /\
  exists v, eval (md_score (HalfSpaceTrees (Y := unit) 2 2) x1) (model_run (HalfSpaceTrees 2 2) s0 [CFit x1 None; CScore x3; CFitScore x2 None; CFit x3 None]) = Ok (VScalar v) /\ -28 <= v <= -4.
Proof.
  cbv zeta. assert (D : forall i, (i mod 2 < length [1; 1])%nat) by (intros i; exact (Nat.mod_upper_bound i 2 ltac:(lia))).
  destruct (C54_score_range unit (fun a => a) (fun i => (i mod 2)%nat) [0; 0] [1; 1] 2 2 2 [CFit [1/8; 1/8] None; CScore [1/8; 7/8]; CFitScore [7/8; 1/8] None; CFit [1/8; 7/8] None] [1/8; 1/8]) as (s0 & v & E0 & E & B); auto.
  - cbn; lia.
  - repeat constructor.
  - exists s0. split; [exact E0|]. exists v. split; [exact E|]. change (length (fitted_instances _)) with 3%nat in B. cbn [Nat.ltb Nat.leb INR pow] in B. lra.
Qed.
Example C55_ex : exists s t, HST_init (Y := unit) (fun a : R => a) (fun i => (i mod 2)%nat) [0; 0] [1; 4] 100 1 3 IWNone = Ok s /\ hs_roots s = [t] /\ halving 3 0 [0; 0] [1; 4] t.
Proof.
  destruct (C55_trees_halve_the_box unit (fun i => (i mod 2)%nat) [0; 0] [1; 4] 100 1 3) as (s & E & L & F); [reflexivity|cbn; lia|intros i; exact (Nat.mod_upper_bound i 2 ltac:(lia))|].
  destruct (hs_roots s) as [|t [|t' l]] eqn:Er; cbn in L; try lia. exists s, t. split; [exact E|]. split; [auto|]. inversion F; auto.
Qed.
Example C56_ex : HST_init (A := R) (Y := unit) (fun a => a) (fun _ => 0%nat) [0] [1] 100 25 15 (IWArray [[1/2]; [1/3]]) = Raise ValueError.
Proof.
  destruct (C55_trees_halve_the_box unit (fun _ => 0%nat) [0] [1] 100 25 15) as (s & E & _); [reflexivity|cbn; lia|intros i; cbn; lia|].
  eapply C56_array_is_accepted_refuted; [exact E|cbn; lia].
Qed.
