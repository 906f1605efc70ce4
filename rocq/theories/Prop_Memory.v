(** * C81: how much of the stream the components keep. *)
From Coq Require Import String.
From Coq Require Import List ZArith Lia Bool Reals Lra Arith Permutation.
From Verif Require Import Base Num Spec Model_Stats Model_Utils Model_Core Model_Post Model_Trans Model_Simple Model_Integrations Model_Sketch Model_XStream Model_KNN Model_SESD
  P_Lists P_Stats P_Utils P_Core P_Post P_Trans P_Models Prop_Utils Prop_Post Prop_Simple Prop_Integrations Prop_RSHash Prop_HST Prop_Sketch Prop_XStream Prop_KNN Prop_SESD.
Import ListNotations.
Open Scope nat_scope.
Local Notation length := List.length.

(** ** Specification *)
(** Either every fit of a history comes with a label, or none does. *)
Definition uniform_labels {X Y} (labelled : bool) (h : list (mcall X Y)) : Prop :=
  Forall (fun c => match snd c with Some _ => labelled = true | None => labelled = false end) (fitted_calls h).

(** ** Window models *)
Lemma lastn_le : forall B n (l : list B), length (lastn n l) <= n.
Proof. intros. rewrite lastn_length. lia. Qed.
(** ExactStorm and SeasonalESD hold at most window_size instances. *)
Theorem C81_exact_storm : forall Y radius w (h : list (mcall (list R) Y)), length (wd_items (model_run (ExactStorm (Y := Y) radius) (Window_init w) h)) <= Z.to_nat w.
Proof. intros Y radius w h. destruct (storm_run Y radius w h) as [_ ->]. apply lastn_le. Qed.
Print Assumptions C81_exact_storm.
Theorem C81_seasonal_esd : forall Y eps cs ppf stl period w m alpha s0 (h : list (mcall (list R) Y)), SESD_init period w m alpha = Ok s0 ->
  length (wd_items (se_window (model_run (SeasonalESD (Y := Y) eps cs ppf stl) s0 h))) <= Z.to_nat w.
Proof. intros Y eps cs ppf stl period w m alpha s0 h E. destruct (se_run Y eps cs ppf stl _ _ _ _ _ h E) as (_ & _ & _ & _ & _ & ->). apply lastn_le. Qed.
Print Assumptions C81_seasonal_esd.

(** ** ReferenceWindowModel, for any batch detector, even one whose fit fails. *)
Section RW.
Variables (X Y A : Type) (d : Detector X Y A) (W sl : nat) (lab : bool).
Hypothesis Hsl : 1 <= sl.
Definition no_boundary (from n : nat) : Prop := forall m, from <= m <= n -> m mod sl <> 0.
Lemma no_boundary_len : forall from n, 1 <= from -> no_boundary from n -> n <= from + sl - 2.
Proof.
  intros from n Hf H. destruct (Nat.le_gt_cases n (from + sl - 2)); auto. exfalso.
  set (m := (from + sl - 1) / sl * sl). assert (Hm : from <= m <= n).
  { pose proof (Nat.div_mod (from + sl - 1) sl ltac:(lia)). pose proof (Nat.mod_upper_bound (from + sl - 1) sl ltac:(lia)). unfold m. rewrite (Nat.mul_comm _ sl). lia. }
  apply (H m Hm). unfold m. apply Nat.mod_mul. lia.
Qed.
(** [b] says whether initial data was given to the constructor, [n] how much. *)
Definition rw_small (b : bool) (n : nat) (s : rwst X Y (dt_state d)) : Prop :=
  rw_initial s = b /\ no_boundary (if b then 1 else W) (length (rw_curX s)) /\
  match rw_refX s with
  | None => b = false /\ rw_curX s = []
  | Some r => length r <= Nat.max W n /\ (lab = true -> exists ry, rw_refY s = Some ry)
  end.
Lemma rw_fit_model_keeps : forall (s : rwst X Y (dt_state d)), let s' := exec (rw_fit_model d) s in
  rw_curX s' = rw_curX s /\ rw_refX s' = rw_refX s /\ rw_refY s' = rw_refY s /\ rw_initial s' = rw_initial s.
Proof. intros s. cbv zeta. unfold exec, rw_fit_model. destruct (rw_refX s) eqn:E; cbn; [|auto]. destruct (dt_fit d l (rw_refY s) (dt_new d (rw_built s))). cbn. auto. Qed.
Lemma no_boundary_weaken : forall from from' n, from <= from' -> no_boundary from n -> no_boundary from' n.
Proof. intros from from' n H N m Hm. apply N. lia. Qed.
Lemma no_boundary_S : forall from n, no_boundary from n -> (S n) mod sl <> 0 -> no_boundary from (S n).
Proof. intros from n N H m Hm. destruct (Nat.eq_dec m (S n)) as [->|]; auto. apply N. lia. Qed.
Lemma rw_small_fit : forall b n s x y, 2 <= W \/ b = true -> match y with Some _ => lab = true | None => lab = false end -> rw_small b n s -> rw_small b n (exec (rw_fit d W sl x y) s).
Proof.
  intros b n s x y HW Hy (I & N & Rf). unfold rw_fit. set (s1 := match y with None => rw_set_cur (rw_curX s ++ [x]) (rw_curY s) s | Some v => rw_set_cur (rw_curX s ++ [x]) (rw_curY s ++ [v]) s end).
  match goal with |- rw_small b n (exec ?m s) => assert (Em : exec m s = exec (bind (gets (fun s => s)) (fun s => if negb (rw_initial s) && (length (rw_curX s) <? W) && match rw_refX s with None => true | Some r => length r <? W end
  then bind (modify (rw_set_refX (Some (rw_curX s)))) (fun _ => bind (modify (rw_set_refY (match y with None => None | Some _ => Some (rw_curY s) end))) (fun _ => rw_fit_model d))
  else if sl =? 0 then raise ZeroDivisionError
  else if length (rw_curX s) mod sl =? 0
  then bind (lift (rw_slide W (rw_refX s) (rw_curX s))) (fun r => bind (modify (rw_set_refX (Some r))) (fun _ =>
    bind match y with
    | None => ret tt
    | Some _ => bind (lift (rw_slide W (rw_refY s) (rw_curY s))) (fun ry => modify (rw_set_refY (Some ry)))
    end (fun _ => bind (modify (rw_set_cur [] [])) (fun _ => rw_fit_model d))))
  else ret tt)) s1) end.
  { unfold exec, bind, modify, gets, s1. destruct y; reflexivity. }
  rewrite Em. clear Em. assert (C1 : rw_curX s1 = rw_curX s ++ [x]) by (unfold s1; destruct y; reflexivity). assert (C2 : rw_refX s1 = rw_refX s) by (unfold s1; destruct y; reflexivity).
  assert (C3 : rw_refY s1 = rw_refY s) by (unfold s1; destruct y; reflexivity). assert (C4 : rw_initial s1 = b) by (unfold s1; destruct y; exact I). clearbody s1.
  unfold exec, bind at 1, gets. assert (CL : length (rw_curX s1) = S (length (rw_curX s))) by (rewrite C1, app_length; cbn; lia).
  destruct (negb (rw_initial s1) && (length (rw_curX s1) <? W) && match rw_refX s1 with None => true | Some r => length r <? W end) eqn:Cold.
  - apply andb_true_iff in Cold. destruct Cold as [Cold _]. apply andb_true_iff in Cold. destruct Cold as [Cb Cl]. rewrite C4 in Cb. destruct b; [discriminate|]. apply Nat.ltb_lt in Cl.
    unfold bind, modify. match goal with |- rw_small _ _ (snd (rw_fit_model d ?t)) => destruct (rw_fit_model_keeps t) as (K1 & K2 & K3 & K4); unfold exec in *; unfold rw_small; rewrite K1, K2, K3, K4 end.
    cbn [rw_set_refX rw_set_refY rw_curX rw_refX rw_refY rw_initial]. split; [auto|]. split; [intros m Hm; lia|]. split; [lia|]. intros L. destruct y; [eauto|congruence].
  - destruct (Nat.eqb_spec sl 0); [lia|]. destruct (Nat.eqb_spec (length (rw_curX s1) mod sl) 0) as [Q|Q].
    + rewrite C2, C3, C1. destruct (rw_refX s) as [r|] eqn:Er.
      2:{ exfalso. rewrite C2, C4 in Cold. destruct Rf as [-> E]. rewrite C1, E in Cold. cbn [negb length app andb] in Cold. rewrite andb_true_r in Cold. apply Nat.ltb_ge in Cold. destruct HW as [HW|HW]; [lia|discriminate]. }
      destruct Rf as (R1 & R2). assert (Z0 : no_boundary (if b then 1 else W) 0) by (intros m Hm; destruct b; destruct HW; try discriminate; lia).
      cbn [rw_slide lift]. unfold bind, modify. destruct y as [v|].
      * destruct (R2 Hy) as [ry Ery]. rewrite Ery. cbn [rw_slide lift].
        match goal with |- rw_small _ _ (snd (rw_fit_model d ?t)) => destruct (rw_fit_model_keeps t) as (K1 & K2 & K3 & K4); unfold exec in *; unfold rw_small; rewrite K1, K2, K3, K4 end.
        cbn [rw_set_cur rw_set_refX rw_set_refY rw_curX rw_refX rw_refY rw_initial length]. split; auto. split; [exact Z0|]. split; [rewrite skipn_length; lia|eauto].
      * unfold ret, lift; cbv beta iota. match goal with |- rw_small _ _ (snd (rw_fit_model d ?t)) => destruct (rw_fit_model_keeps t) as (K1 & K2 & K3 & K4); unfold exec in *; unfold rw_small; rewrite K1, K2, K3, K4 end.
        cbn [rw_set_cur rw_set_refX rw_set_refY rw_curX rw_refX rw_refY rw_initial length]. split; auto. split; [exact Z0|]. split; [rewrite skipn_length; lia|]. intros; congruence.
    + cbn [ret snd]. unfold rw_small. rewrite C2, C3, C4, CL in *. split; auto. split; [apply no_boundary_S; auto|]. destruct (rw_refX s) as [r|] eqn:Er.
      * exact Rf.
      * exfalso. destruct Rf as [-> E]. rewrite E in Cold. cbn [negb length app andb] in Cold. rewrite andb_true_r in Cold. apply Nat.ltb_ge in Cold. destruct HW as [HW|HW]; [lia|discriminate].
Qed.
Lemma rw_small_run : forall b n (h : list (mcall X Y)) s, 2 <= W \/ b = true -> uniform_labels lab h -> rw_small b n s -> rw_small b n (model_run (ReferenceWindowModel d W sl) s h).
Proof.
  intros b n h. induction h as [|o h IH] using rev_ind; intros s HW U H; [exact H|]. unfold uniform_labels in U. rewrite fitted_calls_app in U. apply Forall_app in U. destruct U as [U1 U2].
  rewrite model_run_app. specialize (IH s HW U1 H). cbn [model_run fold_left]. set (s1 := model_run (ReferenceWindowModel d W sl) s h) in *. clearbody s1. change (model_run (ReferenceWindowModel d W sl) s1 [o]) with (model_do (ReferenceWindowModel d W sl) s1 o).
  unfold model_do. destruct o as [x y|x|x y]; unfold exec; cbn [model_call md_fit md_score md_fit_score ReferenceWindowModel plain_model].
  - inversion U2; subst. pose proof (rw_small_fit b n s1 x y HW H2 IH) as Q. unfold exec in Q. destruct (rw_fit d W sl x y s1). exact Q.
  - unfold bind, gets, lift. exact IH.
  - inversion U2; subst. pose proof (rw_small_fit b n s1 x y HW H2 IH) as Q. unfold exec in Q. unfold default_fit_score, bind. destruct (rw_fit d W sl x y s1) as [[u|e] s2]; exact Q.
Qed.
End RW.
(** Started cold with window_size >= 2: at most window_size reference instances and fewer than window_size + sliding_size - 1 waiting ones. *)
Theorem C81_reference_window_cold : forall X Y A (d : Detector X Y A) W sl lab (h : list (mcall X Y)), 2 <= W -> 1 <= sl -> uniform_labels lab h ->
  let s := model_run (ReferenceWindowModel d W sl) (snd (RW_init d None None)) h in
  length (rw_curX s) <= W + sl - 2 /\ forall r, rw_refX s = Some r -> length r <= W.
Proof.
  intros X Y A d W sl lab h HW Hs U s. assert (I : rw_small X Y A d W sl lab false 0 s).
  { apply rw_small_run; auto. split; [reflexivity|]. split; [|split; reflexivity]. intros m Hm. cbn in Hm. lia. }
  destruct I as (_ & N & Rf). split; [apply (no_boundary_len sl Hs W); [lia|exact N]|]. intros r E. rewrite E in Rf. destruct Rf as [Rf _]. lia.
Qed.
Print Assumptions C81_reference_window_cold.
(** Started with initial data (with labels if the stream has labels): fewer than sliding_size waiting instances, and at most
    window_size reference instances as soon as the initial data has been replaced. *)
Theorem C81_reference_window_warm : forall X Y A (d : Detector X Y A) W sl lab x0 y0 (h : list (mcall X Y)), 1 <= sl -> (lab = true -> y0 <> None) -> uniform_labels lab h ->
  let s := model_run (ReferenceWindowModel d W sl) (snd (RW_init d (Some x0) y0)) h in
  length (rw_curX s) <= sl - 1 /\ exists r, rw_refX s = Some r /\ length r <= Nat.max W (length x0).
Proof.
  intros X Y A d W sl lab x0 y0 h Hs Hy U s. assert (I : rw_small X Y A d W sl lab true (length x0) s).
  { apply rw_small_run; auto. unfold RW_init, rw_fit_model. cbn [rw_refX rw_refY rw_built]. destruct (dt_fit d x0 y0 (dt_new d 0)). cbn. split; [reflexivity|]. split; [intros m Hm; cbn in Hm; lia|]. cbn. split; [lia|]. intros L. specialize (Hy L). destruct y0; [eauto|congruence]. }
  destruct I as (_ & N & Rf). split; [pose proof (no_boundary_len sl Hs 1 _ (le_n 1) N); lia|]. destruct (rw_refX s) as [r|]; [|destruct Rf; discriminate]. exists r. tauto.
Qed.
Print Assumptions C81_reference_window_warm.
(** Initial data without labels followed by a labelled stream: nothing is ever dropped from the waiting list once it reaches
    sliding_size, and every fit that would replace the model fails. *)
Theorem C81_reference_window_bounded_refuted : forall X Y A (d : Detector X Y A) W x0 (ps : list (X * Y)),
  let s := model_run (ReferenceWindowModel d W 1) (snd (RW_init d (Some x0) None)) (map (fun p => CFit (fst p) (Some (snd p))) ps) in
  rw_curX s = map fst ps.
Proof.
  intros X Y A d W x0 ps s. assert (G : rw_initial s = true /\ (exists r, rw_refX s = Some r) /\ rw_refY s = None /\ rw_curX s = map fst ps); [|tauto].
  unfold s. clear s. induction ps as [|p ps IH] using rev_ind.
  - cbn. unfold RW_init, rw_fit_model. cbn [rw_refX rw_refY rw_built]. destruct (dt_fit d x0 None (dt_new d 0)). cbn. eauto.
  - rewrite !map_app, model_run_app. destruct IH as (I1 & [r I2] & I3 & I4). match goal with |- context [model_run ?m ?a (map ?g ps)] => set (s := model_run m a (map g ps)) in * end. clearbody s. cbn [map model_run fold_left]. unfold model_do, exec. cbn [model_call md_fit ReferenceWindowModel plain_model].
    unfold rw_fit, bind, modify, gets. cbn [rw_set_cur rw_curX rw_curY rw_refX rw_refY rw_initial]. rewrite I1, I2, I3, I4. cbn [negb andb Nat.eqb]. rewrite Nat.mod_1_r. cbn. eauto.
Qed.
Print Assumptions C81_reference_window_bounded_refuted.
(** Started cold with window_size = 1 nothing is ever dropped either. *)
Theorem C81_cold_window_one_bounded_refuted : forall X Y A (d : Detector X Y A) (ps : list (X * option Y)),
  let s := model_run (ReferenceWindowModel d 1 1) (snd (RW_init d None None)) (map (fun p => CFit (fst p) (snd p)) ps) in
  rw_curX s = map fst ps /\ forall x, eval (md_score (ReferenceWindowModel d 1 1) x) s = Raise AttributeError.
Proof.
  intros X Y A d ps s. assert (G : rw_initial s = false /\ rw_refX s = None /\ rw_model s = None /\ rw_curX s = map fst ps).
  - unfold s. clear s. induction ps as [|p ps IH] using rev_ind; [cbn; auto|].
    rewrite !map_app, model_run_app. destruct IH as (I1 & I2 & I3 & I4). match goal with |- context [model_run ?m ?a (map ?g ps)] => set (s := model_run m a (map g ps)) in * end. clearbody s. cbn [map model_run fold_left]. unfold model_do, exec. cbn [model_call md_fit ReferenceWindowModel plain_model].
    unfold rw_fit, bind, modify, gets. destruct p as [x [y|]]; cbn [fst snd rw_set_cur rw_curX rw_curY rw_refX rw_refY rw_initial]; rewrite I1, I2, I4; rewrite app_length, Nat.add_comm; cbn [length Nat.add Nat.ltb Nat.leb negb andb Nat.eqb]; rewrite Nat.mod_1_r; cbn; rewrite I1, I2, I3; auto.
  - destruct G as (_ & _ & E & G). split; auto. intros x. unfold eval. cbn. unfold bind, gets, lift. rewrite E. reflexivity.
Qed.
Print Assumptions C81_cold_window_one_bounded_refuted.

(** ** RRCF *)
(** Every tree holds at most tree_size + 1 instances. *)
Theorem C81_rrcf : forall X Y A (NA : Num A) (d : RCTree X A) T empty k (h : list (mcall X Y)) t, tree_laws d -> query_laws d -> 1 <= T -> 1 <= k -> (forall i, rc_leaves d (empty i) = []) ->
  In t (fst (model_run (RobustRandomCutForest (Y := Y) d T) (RRCF_init d empty k) h)) -> length (rc_leaves d t) <= S T.
Proof.
  intros X Y A NA d T empty k h t HL HQ HT Hk HE Ht. destruct (fitted_instances h) as [|x0 rest] eqn:E.
  - destruct (C73_leaves X Y A NA d T empty k h HL HQ HT Hk HE) as (_ & P & _). cbv zeta in P. destruct (rc_leaves d t) as [|[kx x0] l] eqn:El; [cbn; lia|]. specialize (P t x0 Ht). rewrite E in P. apply Permutation_length in P. rewrite El in P. discriminate.
  - destruct (C73_most_recent_only_refuted X Y A NA d T empty k h t x0 rest HL HQ HT Hk HE E Ht) as [_ ->]. lia.
Qed.
Print Assumptions C81_rrcf.

(** ** xStream *)
Lemma dict_set_length : forall B k (b : B) d, length (dict_set k b d) <= S (length d).
Proof. intros B k b d. induction d as [|[k0 b0] d IH]; cbn; [lia|]. destruct (keyeqb k0 k); cbn; lia. Qed.
Lemma xc_count_length : forall k sk, length (xc_count k sk) <= S (length sk).
Proof. intros. apply dict_set_length. Qed.
Lemma mod_S : forall n W, 1 <= W -> (S n) mod W <> 0 -> (S n) mod W = S (n mod W).
Proof.
  intros n W HW H. pose proof (Nat.mod_upper_bound n W ltac:(lia)). pose proof (Nat.div_mod n W ltac:(lia)). destruct (Nat.eq_dec (S (n mod W)) W) as [E|E].
  - exfalso. apply H. replace (S n) with ((n / W + 1) * W) by (rewrite Nat.mul_add_distr_r; lia). apply Nat.mod_mul. lia.
  - symmetry. apply (Nat.mod_unique (S n) W (n / W)); lia.
Qed.
Lemma mod_S0 : forall n W, 1 <= W -> (S n) mod W = 0 -> S (n mod W) = W.
Proof.
  intros n W HW H. pose proof (Nat.mod_upper_bound n W ltac:(lia)). destruct (Nat.eq_dec (S (n mod W)) W) as [E|E]; auto. exfalso.
  pose proof (Nat.div_mod n W ltac:(lia)). assert (S (n mod W) = S n mod W) by (apply (Nat.mod_unique (S n) W (n / W)); lia). lia.
Qed.
Section XSM.
Variables (Y : Type) (mmh3 : string -> nat -> Z) (p : shproj R) (floor : R -> Z) (K W : nat) (P : list R -> list R).
Hypothesis HP : forall x, xs_project 2%R 1%R mmh3 p x = Ok (P x).
Hypothesis HK : forall x, length (P x) = K.
Hypothesis HW : 1 <= W.
Notation XM := (xStream (Y := Y) 2%R 1%R (1 / 10000)%R mmh3 p floor log2 K W).
Definition xc_small (n : nat) (c : xchain R) : Prop :=
  (xc_first c = true -> n < W /\ Forall (fun d => length d <= n) (xc_ref c)) /\ Forall (fun d => length d <= n mod W) (xc_cur c) /\ Forall (fun d => length d <= W) (xc_ref c).
Lemma upd_small : forall m keys sks, Forall (fun d : list (list Z * Z) => length d <= m) sks -> Forall (fun d => length d <= S m) (map (fun p => xc_count (fst p) (snd p)) (combine keys sks)).
Proof.
  intros m keys sks H. revert keys. induction H as [|d sks Hd H IH]; intros [|k keys]; cbn [combine map fst snd]; constructor; auto. pose proof (xc_count_length k d). cbv beta in *. lia.
Qed.
Lemma Forall_le : forall (a b : nat) (l : list (list (list Z * Z))), a <= b -> Forall (fun d => length d <= a) l -> Forall (fun d => length d <= b) l.
Proof. intros a b l H F. eapply Forall_impl; [|exact F]. cbn. intros; lia. Qed.
(** After xc_fit, before the end of the window is looked at. *)
Lemma xc_fit_small : forall n c z, xc_small n c -> let c' := xc_fit floor z c in
  (xc_first c' = true -> n < W /\ Forall (fun d => length d <= S n) (xc_ref c')) /\ Forall (fun d => length d <= S (n mod W)) (xc_cur c') /\ Forall (fun d => length d <= W) (xc_ref c').
Proof.
  intros n c z (F & C & Rf). cbv zeta. unfold xc_fit. destruct (xc_first c); cbn [xc_first xc_cur xc_ref].
  - destruct (F eq_refl) as [Hn Hr]. rewrite (Nat.mod_small n W Hn). split; [split; auto; apply upd_small; auto|]. split; [apply upd_small; auto|]. apply (Forall_le (S n)); [lia|]. apply upd_small; auto.
  - split; [discriminate|]. split; auto. apply upd_small; auto.
Qed.
Definition xs_small (draws : list (list nat * list R)) (xs : list (list R)) (s : xsst R) : Prop := xs_inv floor K W P draws xs s /\ Forall (xc_small (length xs)) (xs_chains s).
Lemma xs_small_step : forall draws xs s x y, Forall (draw_ok K) draws -> xs_small draws xs s -> xs_small draws (xs ++ [x]) (exec (md_fit XM x y) s).
Proof.
  intros draws xs s x y FD [I F]. destruct (xs_fit_step Y mmh3 p floor K W P HP HK HW draws xs s x y FD I) as (s' & E & I'). assert (Es : xs_step s = length xs). { destruct I as (? & ? & _ & _ & _ & _ & _ & St & _). exact St. }
  unfold exec. rewrite E. cbn [snd]. split; auto. clear I I'. cbn [md_fit xStream plain_model] in E. unfold bind, modify, gets, lift in E. rewrite HP in E. cbn [xs_step xs_window xs_chains] in E. rewrite Es, app_length in *. rewrite Nat.add_1_r.
  destruct (Nat.eqb_spec W 0); [lia|]. destruct (Nat.eqb_spec (S (length xs) mod W) 0) as [Q|Q].
  - destruct (xs_compute_deltamax _ _ _) as [delta|e]; [|discriminate]. cbn [ret] in E. inversion E; subst s'. cbn [xs_chains]. rewrite map_map. apply Forall_map. eapply Forall_impl; [|exact F].
    intros c Hc. destruct (xc_fit_small _ c (P x) Hc) as (G1 & G2 & G3). split; [discriminate|]. cbn [xc_next_window xc_set_deltamax xc_cur xc_ref]. rewrite Q. split; [|rewrite <- (mod_S0 _ _ HW Q); exact G2].
    apply Forall_forall. intros dd Hd. apply repeat_spec in Hd. subst dd. cbn. lia.
  - inversion E; subst s'. cbn [xs_chains]. apply Forall_map. eapply Forall_impl; [|exact F].
    intros c Hc. destruct (xc_fit_small _ c (P x) Hc) as (G1 & G2 & G3). split; [|rewrite (mod_S _ _ HW Q); split; auto]. intros Hf. destruct (G1 Hf) as [L1 L2]. split; auto. destruct (Nat.eq_dec (S (length xs)) W) as [Ew|]; [|lia]. exfalso. apply Q. rewrite Ew. apply Nat.mod_same. lia.
Qed.
Lemma xs_small_run : forall draws (h : list (mcall (list R) Y)), Forall (draw_ok K) draws -> xs_small draws (fitted_instances h) (model_run XM (xstream_new K draws) h).
Proof.
  intros draws h FD. refine (plain_run_all _ _ _ _ _ _ (xs_small draws) _ _ h _ _).
  - intros xs s x y H. apply (xs_small_step draws xs s x y FD H).
  - intros xs s x H. change (xs_small draws xs (exec (md_score XM x) s)). rewrite xs_score_state. auto.
  - split; [apply xs_init_inv; auto|]. apply Forall_forall. intros c Hc. cbn in Hc. apply in_map_iff in Hc. destruct Hc as (dr & <- & _). cbn [length]. unfold xc_small, xc_init. cbn [xc_first xc_ref xc_cur].
    assert (Z0 : forall m k, Forall (fun d : list (list Z * Z) => length d <= m) (repeat [] k)) by (intros m k; apply Forall_forall; intros dd Hd; apply repeat_spec in Hd; subst dd; cbn; lia). auto.
Qed.
End XSM.
(** xStream holds fewer than window_size projected instances, and at most window_size bins in each of the two dictionaries
    it has per chain and depth. *)
Theorem C81_xstream : forall Y mmh3 n density p floor W draws (h : list (mcall (list R) Y)), (1 <= n)%Z -> Streamhash_init 1%R n density = Ok p -> 1 <= W -> chain_draws (Z.to_nat n) draws ->
  let s := model_run (xStream 2%R 1%R (1 / 10000)%R mmh3 p floor log2 (Z.to_nat n) W) (xstream_new (Z.to_nat n) draws) h in
  length (xs_window s) < W /\ length (xs_chains s) = length draws /\
  forall c, In c (xs_chains s) -> Forall (fun d => length d <= W) (xc_ref c) /\ Forall (fun d => length d < W) (xc_cur c) /\ length (xc_ref c) = length (xc_fs c) /\ length (xc_cur c) = length (xc_fs c).
Proof.
  intros Y mmh3 n density p floor W draws h Hn E HW [DN FD] s. destruct (project_total mmh3 n density p Hn E) as (P & HP & HK & HQ).
  assert (F1 : Forall (draw_ok (Z.to_nat n)) draws) by (eapply Forall_impl; [|exact FD]; intros d (_ & ? & ?); split; auto).
  pose proof (xs_small_run Y mmh3 p floor (Z.to_nat n) W P HP HK HW draws h F1) as G0. fold s in G0. clearbody s. destruct G0 as [(dref & delta & R1 & R2 & P1 & P2 & Eq & St & Wi & F2) Sm].
  assert (HWm : forall k, k mod W < W) by (intros k; apply Nat.mod_upper_bound; lia). split; [|split].
  - rewrite Wi. unfold current_window. rewrite lastn_length. specialize (HWm (length (map P (fitted_instances h)))). lia.
  - symmetry. apply (Forall2_length _ _ _ _ _ F2).
  - intros c Hc. rewrite Forall_forall in Sm. destruct (Sm c Hc) as (_ & S1 & S2). split; auto. split; [eapply Forall_impl; [|exact S1]; cbn; intros dd Hd; specialize (HWm (length (fitted_instances h))); lia|].
    assert (G : exists d, chain_ok floor dref delta (current_window W (map P (fitted_instances h))) (reference_window W (map P (fitted_instances h))) (xc_first c) d c).
    { clear - F2 Hc. induction F2 as [|d0 c0 ds cs C F2 IH]; [destruct Hc|]. destruct Hc as [<-|Hc]; auto. exists d0. destruct C as (C1 & C2 & C3 & C4 & C5 & C6). split; auto. }
    destruct G as (d0 & C1 & _ & _ & _ & _ & [C6 _] & [C7 _]). rewrite C1. auto.
Qed.
Print Assumptions C81_xstream.

(** ** Components that keep everything *)
(** RSHash: the dictionaries keep one entry for every grid cell ever visited. *)
Lemma NoDup_le : forall B C (f : B -> C) (l : list B) (l' : list C), NoDup (map f l) -> (forall b, In b l -> In (f b) l') -> length l <= length l'.
Proof. intros B C f l l' N H. rewrite <- (map_length f l). apply NoDup_incl_length; auto. intros c Hc. apply in_map_iff in Hc. destruct Hc as (b & <- & Hb). auto. Qed.
Lemma dict_get_In : forall B k (d : list (list Z * B)) v, dict_get k d = Some v -> In k (map fst d).
Proof. intros B k d v. induction d as [|[k0 b0] d IH]; cbn; [discriminate|]. destruct (keyeqb_spec k0 k); auto. Qed.
Lemma touches_nonneg : forall floor x rcs k, (0 <= touches floor x rcs k)%R.
Proof. intros. unfold touches. induction rcs as [|rc rcs IH]; cbn [map]; rewrite ?Rsum_cons, ?Rsum_nil; [lra|]. destruct (keyeqb _ _); lra. Qed.
Lemma kweight_nonneg : forall floor decay comps xs k, (0 <= kweight floor decay comps xs k)%R.
Proof.
  intros. induction xs as [|x xs IH] using rev_ind; [unfold kweight; cbn [length seq map]; rewrite Rsum_nil; lra|]. rewrite kweight_snoc. pose proof (touches_nonneg floor x (numbered comps) k). apply Rmult_le_pos; [lra|]. left. apply exp_pos.
Qed.
Lemma kweight_pos : forall floor decay comps xs x r c, In (r, c) (numbered comps) -> In x xs -> (0 < kweight floor decay comps xs (key_of floor r c x))%R.
Proof.
  intros floor decay comps xs x r c Hr. induction xs as [|x' xs IH] using rev_ind; intros Hx; [destruct Hx|]. rewrite kweight_snoc. apply Rmult_lt_0_compat; [|apply exp_pos].
  pose proof (kweight_nonneg floor decay comps xs (key_of floor r c x)). pose proof (touches_nonneg floor x' (numbered comps) (key_of floor r c x)). apply in_app_iff in Hx. destruct Hx as [Hx|[->|[]]]; [specialize (IH Hx); lra|].
  unfold numbered in *. rewrite (touches_own floor x x comps 0 r c Hr) in *. unfold same_cell in *. destruct (list_eq_dec _ _ _); [lra|congruence].
Qed.
Theorem C81_rshash_bounded_refuted : forall Y floor decay comps sp w (h : list (mcall (list R) Y)), comps <> [] -> 1 <= w -> Forall (fits_components comps) (fitted_instances h) ->
  forall sk c xs, In sk (rs_sketches (model_run (RSHash (Rpower 2) ln floor decay comps) (RSHash_init sp w) h)) -> In c comps ->
  incl xs (fitted_instances h) -> NoDup (map (cell_of floor c) xs) -> length xs <= length sk.
Proof.
  intros Y floor decay comps sp w h HC Hw F sk c xs Hs Hc Hi N. destruct (rs_run Y floor decay comps HC sp w h Hw F) as (_ & _ & [_ Wt] & _).
  assert (Hr : exists r, In (r, c) (numbered comps)). { apply (In_nth _ _ c) in Hc. destruct Hc as (r & Hr & <-). exists r. unfold numbered. 
    replace (r, nth r comps c) with (nth r (combine (seq 0 (length comps)) comps) (0, c)). - apply nth_In. rewrite combine_length, seq_length. lia. - rewrite combine_nth by (rewrite seq_length; auto). rewrite seq_nth by auto. reflexivity. }
  destruct Hr as [r Hr]. rewrite <- (map_length (@fst (list Z) (Z * R)) sk). apply (NoDup_le _ _ (key_of floor r c)).
  - unfold key_of. rewrite <- (map_map (cell_of floor c) (fun k => Z.of_nat r :: k)). apply FinFun.Injective_map_NoDup; auto. intros a b Q. congruence.
  - intros x Hx. specialize (Wt sk (key_of floor r c x) Hs). pose proof (kweight_pos floor decay comps _ x r c Hr (Hi x Hx)) as Ps. rewrite <- Wt in Ps. unfold dec in Ps. destruct (dict_get (key_of floor r c x) sk) eqn:Eg; [|lra]. eapply dict_get_In; eauto.
Qed.
Print Assumptions C81_rshash_bounded_refuted.

(** KNNCAD keeps every first component ever fitted, even when the fit fails. *)
Lemma kn_sub_buf : forall A (m : M (knst A) unit), (forall s, kn_buf (exec m s) = kn_buf s) -> forall (k : unit -> M (knst A) unit), (forall u s, kn_buf (exec (k u) s) = kn_buf s) -> forall s, kn_buf (exec (bind m k) s) = kn_buf s.
Proof. intros A m Hm k Hk s. specialize (Hm s). unfold exec, bind in *. destruct (m s) as [[u|e] s']; cbn [snd] in *; auto. specialize (Hk u s'). unfold exec in Hk. congruence. Qed.
Theorem C81_knncad_bounded_refuted : forall Y A (NA : Num A) half alarm inverse P (h : list (mcall (list A) Y)), Forall (fun x => x <> []) (fitted_instances h) ->
  length (kn_buf (model_run (KNNCAD (Y := Y) half alarm inverse P) KNNCAD_init h)) = length (fitted_instances h).
Proof.
  intros Y A NA half alarm inverse P h F. assert (G : Forall (fun x => x <> []) (fitted_instances h) -> length (kn_buf (model_run (KNNCAD (Y := Y) half alarm inverse P) KNNCAD_init h)) = length (fitted_instances h)); auto. clear F.
  refine (plain_run_all _ _ _ _ _ _ (fun l s => Forall (fun x => x <> []) l -> length (kn_buf s) = length l) _ _ h _ _); [| |reflexivity].
  - intros l s x y H F. apply Forall_app in F. destruct F as [F Fx]. inversion Fx; subst. destruct x as [|x0 x]; [congruence|]. specialize (H F). rewrite app_length. cbn [length].
    unfold exec. unfold bind at 1, modify at 1. unfold bind at 1, lift at 1, py_index at 1. cbn [nth_error]. unfold bind at 1, modify at 1. unfold bind at 1, gets at 1.
    set (s1 := match kn_sigma s with Some _ => s | None => _ end). assert (E1 : kn_buf s1 = kn_buf s) by (unfold s1; destruct (kn_sigma s); reflexivity). clearbody s1. set (s2 := mkKN (kn_buf s1 ++ [x0]) _ _ _ _ _ _).
    assert (E2 : length (kn_buf s2) = length l + 1) by (unfold s2; cbn [kn_buf]; rewrite app_length, E1, H; reflexivity). clearbody s2. rewrite <- E2. f_equal.
    destruct (_ <? _)%nat; [reflexivity|]. destruct (_ <? _)%nat; [reflexivity|]. destruct (_ =? _)%nat; [reflexivity|].
    assert (U1 : forall s, kn_buf (exec (kn_update_sigma inverse P) s) = kn_buf s). { intros t. unfold exec, kn_update_sigma, bind, gets. destruct (_ || _); [|reflexivity]. destruct (inverse _); reflexivity. }
    assert (U2 : forall s, kn_buf (exec (kn_init_scores (A := A)) s) = kn_buf s). { intros t. unfold exec, kn_init_scores, bind, gets, lift. destruct (_ =? _)%nat; [|reflexivity]. destruct (res_map _ _); reflexivity. }
    assert (U3 : forall s, kn_buf (exec (kn_rotate (A := A) P) s) = kn_buf s). { intros t. unfold exec, kn_rotate, bind, gets, modify. destruct (_ <=? _)%nat; [|reflexivity]. destruct (kn_train t); [reflexivity|]. destruct (kn_cal t); reflexivity. }
    match goal with |- kn_buf (snd (?m s2)) = _ => change (kn_buf (exec m s2) = kn_buf s2) end. apply kn_sub_buf; auto. intros _ s3. apply kn_sub_buf; auto. intros _ s4. unfold exec, bind at 1, gets at 1.
    unfold bind at 1, lift at 1. destruct (kn_ncm _ _ _ _); [|reflexivity]. match goal with |- kn_buf (snd (?m s4)) = _ => change (kn_buf (exec m s4) = kn_buf s4) end. apply kn_sub_buf; auto. intros _ s5. unfold exec, bind, gets. destruct (kn_scores s5); reflexivity.
  - intros l s x H F. specialize (H F). rewrite <- H. unfold exec, bind, gets, lift, modify, ret, raise. destruct (kn_sigma s); [|reflexivity]. destruct (_ || _); [reflexivity|]. destruct (kn_ncm _ _ _ _); [|reflexivity]. destruct (pydiv _ _); [|reflexivity]. destruct (_ <? _)%Z; [reflexivity|]. destruct (oleb _ _); reflexivity.
Qed.
Print Assumptions C81_knncad_bounded_refuted.
(** RelativeEntropy keeps every instance ever fitted, even when the fit fails. *)
Theorem C81_relative_entropy_bounded_refuted : forall Y A (NA : Num A) log ceil (thr min_val step : A) N W (h : list (mcall (list A) Y)),
  re_util (model_run (RelativeEntropy (Y := Y) log ceil thr min_val step N W) RE_init h) = fitted_instances h.
Proof.
  intros Y A NA log ceil thr min_val step N W h. refine (plain_run_all _ _ _ _ _ _ (fun l s => re_util s = l) _ _ h _ _); [| |reflexivity].
  - intros l [u m P c hat] x y H. cbn [re_util] in H. subst u. unfold exec, bind, modify, gets, lift. cbn [re_util re_m re_P re_c re_hat]. destruct (W <=? length (l ++ [x])); [|reflexivity]. destruct (res_map _ _); [|reflexivity]. cbn [re_util re_m re_P re_c re_hat]. destruct (m =? 0); reflexivity.
  - intros l s x H. unfold exec, bind, gets, ret. destruct (re_hat s); [destruct (_ && _)|]; auto.
Qed.
Print Assumptions C81_relative_entropy_bounded_refuted.
(** MedianAbsoluteDeviation keeps every value ever fitted, twice. *)
Theorem C81_median_absolute_deviation_bounded_refuted : forall Y eps b ab (h : list (mcall (list R) Y)), let s := model_run (MedianAbsoluteDeviation (Y := Y) eps b ab) MAD_init h in
  length (md_lst (mad_median s)) = length (univariate h) /\ length (md_lst (mad_mad s)) = length (univariate h).
Proof.
  intros Y eps b ab h s. destruct (mad_run Y eps b ab h) as [[P1 _] [P2 _]]. fold s in P1, P2. rewrite (Permutation_length P1), (Permutation_length P2). split; auto. unfold devs_fn. rewrite map_length. generalize (univariate h) as vs. induction vs as [|v vs IH] using rev_ind; [reflexivity|]. rewrite prefixes_snoc, !app_length, IH. reflexivity.
Qed.
Print Assumptions C81_median_absolute_deviation_bounded_refuted.

(** ** Examples *)
(** A detector whose state is the number of instances it was fitted with. *)
Definition counting_detector : Detector Z bool Z := mkDetector Z bool Z nat (fun _ => 0) (fun xs _ _ => (Ok tt, length xs)) (fun x s => Ok (x + Z.of_nat s)%Z).
Definition labelled_stream (n : nat) : list (mcall Z bool) := map (fun i => CFit (Z.of_nat i) (Some true)) (seq 0 n).
Lemma labelled_stream_uniform : forall n, uniform_labels true (labelled_stream n).
Proof. intros n. unfold uniform_labels, labelled_stream. generalize (seq 0 n) as l. induction l as [|i l IH]; [constructor|]. cbn [map fitted_calls flat_map call_fit app]. constructor; [reflexivity|exact IH]. Qed.
(** window_size 4 and sliding_size 3: the waiting list reaches its bound 5 at the fifth fit. *)
Example C81_example_cold_bound_reached : length (rw_curX (model_run (ReferenceWindowModel counting_detector 4 3) (snd (RW_init counting_detector None None)) (labelled_stream 5))) = 4 + 3 - 2.
Proof. reflexivity. Qed.
Example C81_example_cold_all : forall n, length (rw_curX (model_run (ReferenceWindowModel counting_detector 4 3) (snd (RW_init counting_detector None None)) (labelled_stream n))) <= 5.
Proof. intros n. apply (C81_reference_window_cold _ _ _ counting_detector 4 3 true (labelled_stream n)); [lia|lia|apply labelled_stream_uniform]. Qed.
(** The same stream after unlabelled initial data: no bound. *)
Example C81_example_unlabelled_start : forall n, length (rw_curX (model_run (ReferenceWindowModel counting_detector 4 1) (snd (RW_init counting_detector (Some [1%Z]) None)) (labelled_stream n))) = n.
Proof.
  intros n. unfold labelled_stream. replace (map (fun i => CFit (Z.of_nat i) (Some true)) (seq 0 n)) with (map (fun p : Z * bool => CFit (fst p) (Some (snd p))) (map (fun i => (Z.of_nat i, true)) (seq 0 n))) by (rewrite map_map; reflexivity).
  rewrite (C81_reference_window_bounded_refuted Z bool Z counting_detector 4 [1%Z]). rewrite !map_length, seq_length. reflexivity.
Qed.
(** RSHash with one component on the first feature and floor the integer part: n different integers leave n entries. *)
Example C81_example_rshash : forall n sk, let c := mkComp [0] [0%R] 1%R in let h := map (fun i => CFit (Y := unit) [INR i] None) (seq 0 n) in
  In sk (rs_sketches (model_run (RSHash (Rpower 2) ln (fun r => (up r - 1)%Z) 1%R [c]) (RSHash_init 10 2) h)) -> n <= length sk.
Proof.
  intros n sk c h Hs. assert (Ef : fitted_instances h = map (fun i => [INR i]) (seq 0 n)). { unfold h, fitted_instances, fitted_calls. generalize (seq 0 n). induction l as [|i l IH]; cbn [map flat_map app call_fit]; auto. f_equal. exact IH. }
  rewrite <- (seq_length n 0), <- (map_length (fun i => [INR i]) (seq 0 n)).
  apply (C81_rshash_bounded_refuted unit (fun r => (up r - 1)%Z) 1%R [c] 10%Z 2 h) with (c := c); auto; [congruence| |left; auto|rewrite Ef; apply incl_refl|].
  - rewrite Ef. apply Forall_forall. intros x Hx. apply in_map_iff in Hx. destruct Hx as (i & <- & _). constructor; [|constructor]. cbn. split; auto.
  - rewrite map_map. apply FinFun.Injective_map_NoDup; [|apply seq_NoDup]. intros i j Q. unfold cell_of, c in Q. cbn [rs_V rs_alpha rs_f combine map fst snd nth] in Q. injection Q as Q.
    assert (U : forall k, up ((INR k + 0) / 1)%R = (Z.of_nat k + 1)%Z). { intros k. symmetry. apply tech_up; rewrite plus_IZR, <- INR_IZR_INZ; lra. }
    rewrite !U in Q. lia.
Qed.
Example C81_example_knncad : forall n, let h := map (fun i => CFit (Y := unit) [INR i] None) (seq 0 n) in length (kn_buf (model_run (KNNCAD (Y := unit) (1/2)%R 1%R (fun _ => None) 100) KNNCAD_init h)) = n.
Proof.
  intros n h. assert (Ef : fitted_instances h = map (fun i => [INR i]) (seq 0 n)). { unfold h, fitted_instances, fitted_calls. generalize (seq 0 n). induction l as [|i l IH]; cbn [map flat_map app call_fit]; auto. f_equal. exact IH. }
  rewrite C81_knncad_bounded_refuted; rewrite Ef. - rewrite map_length, seq_length. reflexivity. - apply Forall_forall. intros x Hx. apply in_map_iff in Hx. destruct Hx as (i & <- & _). congruence.
Qed.
