(** * C121: where the zero of a feature lies (LODA, KitNet, RSHash). *)
From Coq Require Import List ZArith Lia Bool Arith Permutation.
From Coq Require Import Reals Lra.
From Verif Require Import Base Num Spec Model_Stats Model_Utils Model_Core Model_Trans Model_Simple Model_Sketch Model_KitNET Model_Loda P_Lists P_Models Prop_Units.
From Verif Require Prop_Trans Prop_XStream Prop_Loda Prop_KitNET Prop_RSHash.
Import ListNotations.
Open Scope R_scope.

(** ** Specification *)
(** The same instance measured from another zero: feature i reads t i more. *)
Definition moved (t : nat -> R) (x : list R) : list R := map (fun i => nth i x 0 + t i) (seq 0 (length x)).

(** ** Lemmas *)
Lemma moved_length : forall t x, length (moved t x) = length x.
Proof. intros. unfold moved. rewrite map_length, seq_length. reflexivity. Qed.
Lemma moved_nth : forall t x i, (i < length x)%nat -> nth i (moved t x) 0 = nth i x 0 + t i.
Proof. intros t x i H. unfold moved. rewrite (Prop_XStream.nth_map_seq _ (fun i => nth i x 0 + t i)) by auto. reflexivity. Qed.
Lemma map2_nth : forall B C D (g : B -> C -> D) a b i u v w, (i < length a)%nat -> (i < length b)%nat -> nth i (map2 g a b) w = g (nth i a u) (nth i b v).
Proof.
  intros B C D g. induction a as [|x a IH]; intros [|y b] i u v w Ha Hb; cbn [length] in *; try lia. destruct i as [|i]; [reflexivity|]. unfold map2. cbn [combine map nth]. apply (IH b i u v w); lia.
Qed.
Lemma map2_len : forall B C D (g : B -> C -> D) a b, length (map2 g a b) = Nat.min (length a) (length b).
Proof. intros. unfold map2. rewrite map_length, combine_length. reflexivity. Qed.
Lemma F2_cons : forall B C (P : B -> C -> Prop) a l b m, Forall2 P (a :: l) (b :: m) -> P a b /\ Forall2 P l m.
Proof. intros B C P a l b m H. inversion H. auto. Qed.
Lemma Rsum_minus : forall B (f g : B -> R) l, Rsum (map f l) - Rsum (map g l) = Rsum (map (fun a => f a - g a) l).
Proof. intros B f g. induction l as [|a l IH]; cbn [map]; rewrite ?Prop_RSHash.Rsum_nil, ?Prop_RSHash.Rsum_cons; [lra|rewrite <- IH; lra]. Qed.

(** ** LODA *)
Lemma offset_moved : forall W i t x xl, length x = length xl -> Prop_Loda.offset W i (moved t x) (moved t xl) = Prop_Loda.offset W i x xl.
Proof.
  intros W i t x xl L. unfold Prop_Loda.offset, Prop_Trans.weighted. rewrite !moved_length, L, !Rsum_minus. f_equal. apply map_ext_in. intros j Hj. apply in_seq in Hj. rewrite !moved_nth by lia. lra.
Qed.
(** Every call of a LODA object answers the same, whatever is added to the features: the histogram of a cut is centred on
    the projection of the last instance. *)
Theorem C121_loda : forall Y randn perms nb c d t (h : list (mcall (list R) Y)) x, (1 <= nb)%nat -> (1 <= c)%nat -> Forall (fun x => length x = d) (fitted_instances h) -> length x = d ->
  let m := LODA (1 / 2) (1 / 10 ^ 12) ln randn perms nb c in
  eval (md_score m (moved t x)) (model_run m LODA_init (map (call_map (moved t)) h)) = eval (md_score m x) (model_run m LODA_init h).
Proof.
  intros Y randn perms nb c d t h x Hnb Hc F Hx m. unfold m. clear m.
  assert (F' : Forall (fun x => length x = d) (fitted_instances (map (call_map (moved t)) h))). { rewrite fitted_instances_map. apply Forall_map. eapply Forall_impl; [|exact F]. intros z Hz. rewrite moved_length. exact Hz. }
  destruct (fitted_instances h) as [|a l] eqn:E.
  - destruct (Prop_Loda.C68_failures Y randn perms nb c d h x Hnb Hc) as [G _]; [rewrite E; constructor|]. destruct (Prop_Loda.C68_failures Y randn perms nb c d (map (call_map (moved t)) h) (moved t x) Hnb Hc F') as [G' _]. rewrite G, G'; auto. rewrite fitted_instances_map, E. reflexivity.
  - destruct (exists_last (l := a :: l)) as (xs & xl & Ex); [discriminate|]. rewrite Ex in *.
    rewrite (Prop_Loda.C68_score Y randn perms nb c d h xs xl x Hnb Hc E F Hx). rewrite fitted_instances_map, E in F'.
    assert (E' : fitted_instances (map (call_map (moved t)) h) = map (moved t) xs ++ [moved t xl]) by (rewrite fitted_instances_map, E, map_app; reflexivity).
    rewrite map_app in F'. cbn [map] in F'. rewrite (Prop_Loda.C68_score Y randn perms nb c d _ _ _ (moved t x) Hnb Hc E' F') by (rewrite moved_length; auto).
    do 5 f_equal. apply map_ext. intros i. do 3 f_equal. rewrite !app_length, map_length. cbn [length]. apply offset_moved. apply Forall_app in F. destruct F as [_ F]. apply Forall_inv in F. lia.
Qed.
Print Assumptions C121_loda.

(** ** KitNet: the correlation statistics *)
Section Kit.
Variable (t : nat -> R) (p : kitpar R) (n : nat).
Hypothesis Hn : (2 <= n)%nat.
Notation St := (Prop_KitNET.statistics n).
Lemma vectors_moved : forall xs, Prop_KitNET.vectors n xs -> Prop_KitNET.vectors n (map (moved t) xs).
Proof. intros xs F. apply Forall_map. eapply Forall_impl; [|exact F]. intros z Hz. rewrite moved_length. exact Hz. Qed.
Lemma stat_moved : forall xs, Prop_KitNET.vectors n xs ->
  cc_r (St (map (moved t) xs)) = cc_r (St xs) /\ cc_rs (St (map (moved t) xs)) = cc_rs (St xs) /\ cc_C (St (map (moved t) xs)) = cc_C (St xs) /\
  cc_N (St xs) = length xs /\ cc_N (St (map (moved t) xs)) = length xs /\ length (cc_c (St xs)) = n /\ length (cc_c (St (map (moved t) xs))) = n /\
  forall i, (i < n)%nat -> nth i (cc_c (St (map (moved t) xs))) 0 = nth i (cc_c (St xs)) 0 + INR (length xs) * t i.
Proof.
  induction xs as [|x xs IH] using rev_ind; intros F.
  - unfold Prop_KitNET.statistics, exec. cbn [map iterM ret]. unfold ret. cbn [snd cc_init cc_r cc_rs cc_C cc_N cc_c length]. rewrite repeat_length. repeat split; auto. intros i Hi. cbn [INR]. lra.
  - pose proof F as F0. apply Forall_app in F. destruct F as [F Fx]. apply Forall_inv in Fx. specialize (IH F). destruct IH as (Er & Ers & EC & EN & EN' & L & L' & Ec).
    pose proof (Prop_KitNET.statistics_snoc n Hn xs x F0) as U. assert (F0' : Prop_KitNET.vectors n (map (moved t) xs ++ [moved t x])) by (change [moved t x] with (map (moved t) [x]); rewrite <- map_app; apply vectors_moved; auto).
    pose proof (Prop_KitNET.statistics_snoc n Hn (map (moved t) xs) (moved t x) F0') as U'. rewrite map_app. cbn [map].
    set (s := St xs) in *. set (s' := St (map (moved t) xs)) in *. clearbody s s'.
    unfold cc_update, bind, modify, gets, lift in U, U'. cbn [cc_c cc_r cc_rs cc_C cc_N] in U, U'. rewrite L, Fx, Nat.eqb_refl in U. rewrite L', moved_length, Fx, Nat.eqb_refl in U'. cbv zeta in U, U'. apply (f_equal snd) in U. apply (f_equal snd) in U'. cbn [snd] in U, U'. rewrite <- U, <- U'. cbn [cc_c cc_r cc_rs cc_C cc_N].
    set (c := map2 nadd (cc_c s) x). set (c' := map2 nadd (cc_c s') (moved t x)).
    assert (Lc : length c = n) by (unfold c; rewrite map2_len; lia). assert (Lc' : length c' = n) by (unfold c'; rewrite map2_len, moved_length; lia).
    assert (Ecc : forall i, (i < n)%nat -> nth i c' 0 = nth i c 0 + (INR (length xs) + 1) * t i).
    { intros i Hi. unfold c, c'. rewrite (map2_nth _ _ _ nadd (cc_c s') (moved t x) i 0 0), (map2_nth _ _ _ nadd (cc_c s) x i 0 0) by (rewrite ?moved_length; lia). rewrite moved_nth, Ec by lia. cbn [nadd NumR]. lra. }
    rewrite EN, EN'.
    assert (Ert : map2 nsub (moved t x) (map (fun v => ndiv v (nofZ (Z.of_nat (S (length xs))))) c') = map2 nsub x (map (fun v => ndiv v (nofZ (Z.of_nat (S (length xs))))) c)).
    { apply (nth_ext _ _ 0 0). { rewrite !map2_len, !map_length, moved_length. lia. }
      intros i Hi. rewrite map2_len, map_length, moved_length in Hi. rewrite (map2_nth _ _ _ nsub (moved t x) _ i 0 0), (map2_nth _ _ _ nsub x _ i 0 0) by (rewrite ?map_length, ?moved_length; lia).
      set (g := fun v : R => ndiv v (nofZ (Z.of_nat (S (length xs))))). assert (G0 : g 0 = 0) by (unfold g; cbn [ndiv nofZ NumR]; unfold Rdiv; lra). rewrite <- G0 at 2. rewrite <- G0 at 4. rewrite !map_nth, moved_nth, Ecc by lia.
      unfold g. cbn [nsub ndiv nofZ NumR]. rewrite <- INR_IZR_INZ, S_INR. pose proof (pos_INR (length xs)). field. lra. }
    rewrite Ert, Er, Ers, EC. rewrite app_length. cbn [length]. repeat split; auto; try lia. intros i Hi. rewrite Ecc, plus_INR by auto. cbn [INR]. lra.
Qed.
Lemma cluster_moved : forall xs, Prop_KitNET.vectors n xs -> cc_dist (kp_tiny p) (St (map (moved t) xs)) = cc_dist (kp_tiny p) (St xs).
Proof. intros xs F. destruct (stat_moved xs F) as (_ & E2 & E3 & _). unfold cc_dist. rewrite E2, E3. reflexivity. Qed.
Lemma kit_ok_moved : forall xs, Prop_KitNET.kit_ok p n xs -> Prop_KitNET.kit_ok p n (map (moved t) xs).
Proof.
  intros xs [F C]. split; [apply vectors_moved; auto|]. rewrite map_length. intros L. destruct (C L) as (tr & E & P). exists tr. split; auto.
  rewrite <- E, firstn_map, cluster_moved; [reflexivity|]. unfold Prop_KitNET.vectors in *. rewrite Forall_forall in F |- *. intros a Ha. apply F. rewrite <- (firstn_skipn (S (kit_fmg p)) xs). apply in_or_app. auto.
Qed.

(** ** KitNet: the autoencoders *)
Definition shifted (T : list R) (x : list R) : list R := map2 Rplus x T.
Definition da_rel (T : list R) (d d' : dast R) : Prop :=
  length (da_max d) = length T /\ length (da_min d) = length T /\ da_max d' = shifted T (da_max d) /\ da_min d' = shifted T (da_min d) /\
  da_n d' = da_n d /\ da_W d' = da_W d /\ da_hb d' = da_hb d /\ da_vb d' = da_vb d.
Lemma ltb_shift : forall a b t, @oltb R (@num_ord R NumR) (a + t) (b + t) = @oltb R (@num_ord R NumR) a b.
Proof. intros a b u. cbn [oltb num_ord NumR]. cbn. unfold Rltb. destruct (Rlt_dec (a + u) (b + u)), (Rlt_dec a b); auto; lra. Qed.
Lemma norms_rel : forall T d d' x, da_rel T d d' -> length x = length T -> da_rel T (da_norms d x) (da_norms d' (shifted T x)).
Proof.
  intros T d d' x (L1 & L2 & E1 & E2 & E3 & E4 & E5 & E6) L. unfold da_rel, da_norms. cbn [da_max da_min da_n da_W da_hb da_vb]. rewrite E1, E2, E3, E4, E5, E6, !map2_len. repeat split; auto; try lia; unfold shifted.
  - clear - L L1. revert x L. generalize dependent (da_max d). induction T as [|u T IH]; intros [|m M] L1 [|v x] L; try discriminate; auto. unfold map2 in *. cbn [combine map fst snd]. rewrite ltb_shift. f_equal; [destruct (oltb m v); reflexivity|]. cbn [length] in *. apply IH; lia.
  - clear - L L2. revert x L. generalize dependent (da_min d). induction T as [|u T IH]; intros [|m M] L1 [|v x] L; try discriminate; auto. unfold map2 in *. cbn [combine map fst snd]. rewrite ltb_shift. f_equal; [destruct (oltb v m); reflexivity|]. cbn [length] in *. apply IH; lia.
Qed.
Definition between (x : list R) : Prop := Forall (fun v => kp_ninf p < v < kp_pinf p) x.
Lemma norms_first : forall T d x, da_init p (length T) = Ok d -> length x = length T -> between x -> between (shifted T x) -> da_rel T (da_norms d x) (da_norms d (shifted T x)).
Proof.
  intros T d x E L B B'. unfold da_init in E. destruct (length T =? 0)%nat; [discriminate|]. cbv zeta in E. injection E as <-.
  assert (G : forall x, length x = length T -> between x -> map2 (fun v m => if @oltb R (@num_ord R NumR) m v then v else m) x (repeat (kp_ninf p) (length T)) = x /\ map2 (fun v m => if @oltb R (@num_ord R NumR) v m then v else m) x (repeat (kp_pinf p) (length T)) = x).
  { clear. induction T as [|u T IH]; intros [|v x] L B; try discriminate; auto. apply Forall_cons_iff in B. destruct B as [Bv B]. destruct (IH x ltac:(cbn [length] in L; lia) B) as [G1 G2]. unfold map2 in *. cbn [length repeat combine map fst snd]. rewrite G1, G2.
    cbn. unfold Rltb. destruct (Rlt_dec (kp_ninf p) v); [|lra]. destruct (Rlt_dec v (kp_pinf p)); [|lra]. auto. }
  destruct (G x L B) as [G1 G2]. destruct (G (shifted T x)) as [G3 G4]; auto. { unfold shifted. rewrite map2_len. lia. }
  unfold da_rel, da_norms. cbn [da_max da_min da_n da_W da_hb da_vb]. rewrite G1, G2, G3, G4. repeat split; auto.
Qed.
Lemma normalise_rel : forall T d d' x, da_rel T d d' -> length x = length T -> da_normalise p d' (shifted T x) = da_normalise p d x.
Proof.
  intros T d d' x (L1 & L2 & E1 & E2 & _) L. unfold da_normalise. rewrite E1, E2. unfold shifted. f_equal; [|f_equal].
  - clear - L L2. revert x L. generalize dependent (da_min d). induction T as [|u T IH]; intros [|m M] L1 [|v x] L; try discriminate; auto. unfold map2 in *. cbn [combine map fst snd]. f_equal; [cbn [nsub NumR]; lra|]. cbn [length] in *. apply IH; lia.
  - clear - L1 L2. revert L1 L2. generalize (da_max d), (da_min d). induction T as [|u T IH]; intros [|m M] [|v x] L1 L; try discriminate; auto. unfold map2 in *. cbn [combine map fst snd]. f_equal; [cbn [nsub NumR]; lra|]. cbn [length] in *. apply IH; lia.
Qed.
Lemma same_net : forall d d' x, da_W d' = da_W d -> da_hb d' = da_hb d -> da_vb d' = da_vb d -> da_hidden p d' x = da_hidden p d x /\ da_decode p d' x = da_decode p d x.
Proof. intros d d' x E1 E2 E3. unfold da_hidden, da_decode. rewrite E1, E2, E3. auto. Qed.
Lemma train_rel : forall T d d' x, da_rel T (da_norms d x) (da_norms d' (shifted T x)) -> length x = length T ->
  fst (da_train p d' (shifted T x)) = fst (da_train p d x) /\ da_rel T (snd (da_train p d x)) (snd (da_train p d' (shifted T x))).
Proof.
  intros T d d' x R L. unfold da_train. set (e := da_norms d x) in *. set (e' := da_norms d' (shifted T x)) in *. cbv zeta. rewrite (normalise_rel T e e' x R L). set (z := da_normalise p e x).
  pose proof R as (L1 & L2 & E1 & E2 & E3 & E4 & E5 & E6). destruct (same_net e e' z E4 E5 E6) as [-> _]. destruct (same_net e e' (da_hidden p e z) E4 E5 E6) as [_ ->].
  cbn [fst snd]. split; auto. unfold da_rel. cbn [da_max da_min da_n da_W da_hb da_vb]. rewrite E4, E5, E6. repeat split; auto.
Qed.
Lemma execute_rel : forall T d d' x, da_rel T d d' -> length x = length T -> da_execute p d' (shifted T x) = da_execute p d x.
Proof.
  intros T d d' x R L. unfold da_execute. rewrite (normalise_rel T d d' x R L). pose proof R as (_ & _ & _ & _ & _ & E4 & E5 & E6). set (z := da_normalise p d x).
  destruct (same_net d d' z E4 E5 E6) as [-> _]. destruct (same_net d d' (da_hidden p d z) E4 E5 E6) as [_ ->]. reflexivity.
Qed.
Lemma pick_moved : forall x f, Forall (fun j => (j < length x)%nat) f -> Prop_KitNET.pick (moved t x) f = shifted (map t f) (Prop_KitNET.pick x f).
Proof.
  intros x f F. unfold Prop_KitNET.pick, shifted, map2. induction F as [|j f Hj F IH]; auto. cbn [map combine fst snd]. f_equal; [apply moved_nth; auto|exact IH].
Qed.
(** The two layers, once trained at least once. *)
Definition lay_rel (v : list (list nat)) (st st' : Prop_KitNET.layers) : Prop :=
  Forall2 (fun f dd => da_rel (map t f) (fst dd) (snd dd)) v (combine (fst st) (fst st')) /\ length (fst st) = length v /\ length (fst st') = length v /\ snd st' = snd st.
Definition inside (x : list R) : Prop := length x = n /\ forall j, (j < n)%nat -> kp_ninf p < nth j x 0 < kp_pinf p /\ kp_ninf p < nth j x 0 + t j < kp_pinf p.
Definition in_map (v : list (list nat)) : Prop := Forall (Forall (fun j => (j < n)%nat)) v.
Lemma layer_step : forall v x, length x = n -> in_map v -> forall ens ens', length ens = length v -> length ens' = length v ->
  Forall2 (fun f dd => da_rel (map t f) (da_norms (fst dd) (Prop_KitNET.pick x f)) (da_norms (snd dd) (shifted (map t f) (Prop_KitNET.pick x f)))) v (combine ens ens') ->
  map2 (fun d f => fst (da_train p d (Prop_KitNET.pick (moved t x) f))) ens' v = map2 (fun d f => fst (da_train p d (Prop_KitNET.pick x f))) ens v /\
  Forall2 (fun f dd => da_rel (map t f) (fst dd) (snd dd)) v (combine (map2 (fun d f => snd (da_train p d (Prop_KitNET.pick x f))) ens v) (map2 (fun d f => snd (da_train p d (Prop_KitNET.pick (moved t x) f))) ens' v)).
Proof.
  intros v x Hx F. induction F as [|f v Ff F IH]; intros [|d ens] [|d' ens'] L L' R; try discriminate. { split; [reflexivity|constructor]. }
  cbn [combine] in R. apply F2_cons in R. destruct R as [R1 R2]. cbn [fst snd] in R1. destruct (IH ens ens' ltac:(cbn [length] in L; lia) ltac:(cbn [length] in L'; lia) R2) as [G1 G2].
  assert (Ff' : Forall (fun j => (j < length x)%nat) f) by (rewrite Hx; exact Ff). destruct (train_rel (map t f) d d' (Prop_KitNET.pick x f) R1) as [T1 T2]. { unfold Prop_KitNET.pick. rewrite !map_length. reflexivity. }
  unfold map2 in *. cbn [combine map fst snd]. rewrite (pick_moved x f Ff'), T1, G1. split; [reflexivity|]. constructor; auto.
Qed.
Lemma step_rel : forall v st st' x, lay_rel v st st' -> in_map v -> length x = n -> lay_rel v (Prop_KitNET.train_step p v st x) (Prop_KitNET.train_step p v st' (moved t x)).
Proof.
  intros v [e o] [e' o'] x (R & L & L' & Eo) I Hx. cbn [fst snd] in *. subst o'.
  destruct (layer_step v x Hx I e e' L L') as [G1 G2].
  { clear - R Hn. induction R as [|f [d d'] v l R1 R IH]; constructor; auto. cbn [fst snd] in *. apply norms_rel; auto. unfold Prop_KitNET.pick. rewrite !map_length. reflexivity. }
  unfold lay_rel, Prop_KitNET.train_step. cbn [fst snd]. rewrite G1, !map2_len. repeat split; auto; lia.
Qed.
Lemma between_pick : forall x f, length x = n -> (forall j, (j < n)%nat -> kp_ninf p < nth j x 0 < kp_pinf p) -> Forall (fun j => (j < n)%nat) f -> between (Prop_KitNET.pick x f).
Proof. intros x f Hx H F. unfold between, Prop_KitNET.pick. apply Forall_map. eapply Forall_impl; [|exact F]. intros j Hj. cbn [n0 NumR]. apply H. auto. Qed.
Lemma first_rel : forall v st0 x, Prop_KitNET.fresh p v st0 -> in_map v -> inside x -> lay_rel v (Prop_KitNET.train_step p v st0 x) (Prop_KitNET.train_step p v st0 (moved t x)).
Proof.
  intros v [e o] x [Fr _] I [Hx H]. cbn [fst] in Fr. assert (L : length e = length v) by (clear - Fr; induction Fr; cbn [length]; auto).
  destruct (layer_step v x Hx I e e L L) as [G1 G2].
  { clear L. induction Fr as [|f d v e Hd Fr IH]; cbn [combine]; constructor.
    - cbn [fst snd]. apply Forall_cons_iff in I. destruct I as [If I]. assert (If' : Forall (fun j => (j < length x)%nat) f) by (rewrite Hx; exact If). apply norms_first.
      + rewrite map_length. exact Hd.
      + unfold Prop_KitNET.pick. rewrite !map_length. reflexivity.
      + apply between_pick; auto. intros j Hj. apply H. auto.
      + rewrite <- (pick_moved x f If'). apply between_pick; auto; [rewrite moved_length; auto|]. intros j Hj. rewrite moved_nth by lia. apply H. auto.
    - apply IH. apply Forall_cons_iff in I. tauto. }
  unfold lay_rel, Prop_KitNET.train_step. cbn [fst snd]. rewrite G1, !map2_len. repeat split; auto; lia.
Qed.
Lemma run_rel : forall v st st' x, lay_rel v st st' -> in_map v -> length x = n -> Prop_KitNET.run_layers p v st' (moved t x) = Prop_KitNET.run_layers p v st x.
Proof.
  intros v [e o] [e' o'] x (R & L & L' & Eo) I Hx. cbn [fst snd] in *. subst o'. unfold Prop_KitNET.run_layers. cbn [fst snd]. f_equal.
  revert e e' R L L'. induction I as [|f v If I IH]; intros [|d e] [|d' e'] R L L'; try discriminate; auto. cbn [combine] in R. apply F2_cons in R. destruct R as [R1 R2]. cbn [fst snd] in R1.
  unfold map2 in *. cbn [combine map fst snd]. rewrite (IH e e' R2) by (cbn [length] in *; lia). f_equal. rewrite pick_moved by (rewrite Hx; exact If). apply execute_rel; auto. unfold Prop_KitNET.pick. rewrite !map_length. reflexivity.
Qed.
Lemma fold_rel : forall v zs st st', in_map v -> Forall inside zs -> lay_rel v st st' -> lay_rel v (fold_left (Prop_KitNET.train_step p v) zs st) (fold_left (Prop_KitNET.train_step p v) (map (moved t) zs) st').
Proof.
  intros v zs. induction zs as [|z zs IH]; intros st st' I F R; auto. apply Forall_cons_iff in F. destruct F as [Fz F]. cbn [map fold_left]. apply IH; auto. apply step_rel; auto. apply Fz.
Qed.
End Kit.

(** KitNet: adding a constant to every value of a feature changes no score, except between the fit that creates the feature
    map and the next one (then the autoencoders have seen no value and divide by infinities, C65); [kp_ninf] and [kp_pinf]
    stand for the infinities and lie outside the values. *)
Theorem C121_kitnet : forall Y p n t (h : list (mcall (list R) Y)) x, (2 <= n)%nat -> Prop_KitNET.kit_ok p n (fitted_instances h) -> length x = n -> (1 <= kp_ad p)%nat ->
  (forall z j, In z (fitted_instances h) -> (j < n)%nat -> kp_ninf p < nth j z 0 < kp_pinf p /\ kp_ninf p < nth j z 0 + t j < kp_pinf p) ->
  length (fitted_instances h) <> S (match kp_fm p with Some f => f | None => kp_ad p end) ->
  eval (md_score (KitNet p) (moved t x)) (model_run (KitNet p) None (map (call_map (moved t)) h)) = eval (md_score (KitNet p) x) (model_run (KitNet p) None h).
Proof.
  intros Y p n t h x Hn K Hx Had HB Hl. change (match kp_fm p with Some f => f | None => kp_ad p end) with (kit_fmg p) in Hl.
  assert (K' : Prop_KitNET.kit_ok p n (fitted_instances (map (call_map (moved t)) h))) by (rewrite fitted_instances_map; apply kit_ok_moved; auto).
  assert (Hx' : length (moved t x) = n) by (rewrite moved_length; auto).
  destruct (Prop_KitNET.C61_before_the_map R Y NumR p n h x Hn K Hx) as [B0 B1]. destruct (Prop_KitNET.C61_before_the_map R Y NumR p n _ (moved t x) Hn K' Hx') as [B0' B1'].
  change (match kp_fm p with Some f => f | None => kp_ad p end) with (kit_fmg p) in *. pose proof (fun L => Prop_KitNET.C61_score R Y NumR p n h x Hn K Hx L) as G. pose proof (fun L => Prop_KitNET.C61_score R Y NumR p n _ (moved t x) Hn K' Hx' L) as G'. cbv zeta in G, G'.
  change (match kp_fm p with Some f => f | None => kp_ad p end) with (kit_fmg p) in *. pose proof (Prop_KitNET.run_phase p n Hn Y h K) as I. pose proof (Prop_KitNET.run_phase p n Hn Y _ K') as I'.
  rewrite fitted_instances_map, map_length in B0', B1', G'. rewrite fitted_instances_map in I'. set (xs := fitted_instances h) in *.
  destruct (Nat.eq_dec (length xs) 0) as [Z|Z]. { rewrite B0, B0' by auto. reflexivity. } destruct (Nat.leb_spec (length xs) (kit_fmg p)) as [L|L]. { rewrite B1, B1' by lia. reflexivity. }
  destruct (G L) as (v & st0 & Fr & Ev & ->). destruct (G' L) as (v' & st0' & Fr' & Ev' & ->). clear G G' B0 B1 B0' B1'.
  unfold Prop_KitNET.phase in I, I'. rewrite map_length in I'. destruct (Nat.eqb_spec (length xs) 0); [lia|]. destruct (Nat.leb_spec (length xs) (kit_fmg p)); [lia|].
  destruct I as (w & w0 & fm & e & Ec & V & _ & _ & _ & Es). destruct I' as (w' & w0' & fm' & e' & Ec' & _ & _ & _ & _ & Es'). rewrite Es in Ev. rewrite Es' in Ev'. cbn [kt_map] in Ev, Ev'. injection Ev as ->. injection Ev' as ->. clear Es Es' w0 w0'.
  assert (Fv : Prop_KitNET.vectors n (firstn (S (kit_fmg p)) xs)). { destruct K as [F _]. unfold Prop_KitNET.vectors in *. rewrite Forall_forall in F |- *. intros a Ha. apply F. fold xs. rewrite <- (firstn_skipn (S (kit_fmg p)) xs). apply in_or_app. auto. }
  assert (v' = v). { rewrite firstn_map in Ec'. unfold cc_cluster in Ec, Ec'. rewrite (cluster_moved t p n Hn _ Fv) in Ec'. congruence. } subst v'.
  rewrite (Prop_KitNET.fresh_unique p v st0' st0 Fr' Fr). clear Fr' st0' Ec Ec'. do 2 f_equal.
  assert (IM : in_map n v). { unfold in_map. destruct V as [P _]. apply Forall_forall. intros c Hc. apply Forall_forall. intros j Hj. assert (In j (concat v)) as Ij by (apply in_concat; eauto). apply (Permutation_in _ P) in Ij. apply in_seq in Ij. lia. }
  assert (IS : Forall (inside t p n) xs). { apply Forall_forall. intros z Hz. split; [destruct K as [F _]; unfold Prop_KitNET.vectors in F; rewrite Forall_forall in F; auto|]. intros j Hj. apply HB; auto. }
  rewrite skipn_map, firstn_map. assert (IT : Forall (inside t p n) (firstn (kp_ad p) (skipn (kit_fmg p + 1) xs))). { rewrite Forall_forall in IS |- *. intros z Hz. apply IS. rewrite <- (firstn_skipn (kit_fmg p + 1) xs). apply in_or_app. right. rewrite <- (firstn_skipn (kp_ad p) (skipn _ xs)). apply in_or_app. auto. }
  assert (NE : firstn (kp_ad p) (skipn (kit_fmg p + 1) xs) <> []). { intros Q. apply (f_equal (@length _)) in Q. rewrite firstn_length, skipn_length in Q. cbn [length] in Q. lia. }
  destruct (firstn (kp_ad p) (skipn (kit_fmg p + 1) xs)) as [|z zs]; [congruence|]. apply Forall_cons_iff in IT. destruct IT as [Iz IT]. cbn [map fold_left]. apply run_rel with (n := n); auto. apply fold_rel with (n := n); auto. apply first_rel with (n := n); auto.
Qed.
Print Assumptions C121_kitnet.

(** ** RSHash *)
Lemma res_map_ext : forall B C (g g' : B -> res C) l, (forall b, In b l -> g b = g' b) -> res_map g l = res_map g' l.
Proof. intros B C g g'. induction l as [|b l IH]; intros H; auto. cbn [res_map]. rewrite (H b (or_introl eq_refl)), IH; auto. intros; apply H; right; auto. Qed.
(** The bounds of the features serve only to leave out features that do not vary: what the constructor samples does not depend
    on their values otherwise, so the data are never brought to a common scale. *)
Theorem C121_rshash_bounds_unused : forall log fl draw pick shifts effS fs arrays (mins maxs mins' maxs' : list R),
  length maxs = length mins -> length mins' = length mins -> length maxs' = length mins ->
  (forall i, (i < length mins)%nat -> nth i mins 0 = nth i maxs 0 <-> nth i mins' 0 = nth i maxs' 0) ->
  rs_components log fl draw pick shifts effS fs arrays mins' maxs' = rs_components log fl draw pick shifts effS fs arrays mins maxs.
Proof.
  intros log fl draw pick shifts effS fs arrays mins maxs mins' maxs' L1 L2 L3 H. unfold rs_components. apply res_map_ext. intros q _. f_equal. unfold rs_sel. rewrite L2.
  assert (E : rs_choice_feats arrays mins' maxs' = rs_choice_feats arrays mins maxs); [|rewrite E; reflexivity].
  assert (B : forall a b a' b' : R, (a = b <-> a' = b') -> @oeqb R (@num_ord R NumR) a b = @oeqb R (@num_ord R NumR) a' b'). { intros a b a' b' Q. change (Reqb a b = Reqb a' b'). destruct (Prop_RSHash.Reqb_spec a b), (Prop_RSHash.Reqb_spec a' b'); tauto. }
  unfold rs_choice_feats. rewrite L2. destruct arrays.
  - generalize 0%nat. revert maxs mins' maxs' L1 L2 L3 H. induction mins as [|a mins IH]; intros [|b maxs] [|a' mins'] [|b' maxs'] L1 L2 L3 H st; try discriminate; auto. cbn [length] in *.
    cbn [seq combine filter fst snd]. rewrite (B a b a' b') by (apply (H 0%nat); lia). assert (I : map fst (filter (fun q => negb (@oeqb R (@num_ord R NumR) (fst (snd q)) (snd (snd q)))) (combine (seq (S st) (length mins)) (combine mins' maxs'))) = map fst (filter (fun q => negb (@oeqb R (@num_ord R NumR) (fst (snd q)) (snd (snd q)))) (combine (seq (S st) (length mins)) (combine mins maxs)))) by (apply IH; try lia; intros i Hi; apply (H (S i)); lia).
    destruct (negb (oeqb a' b')); cbn [map fst]; rewrite I; reflexivity.
  - assert (I : forallb (fun q => @oeqb R (@num_ord R NumR) (fst q) (snd q)) (combine mins' maxs') = forallb (fun q => @oeqb R (@num_ord R NumR) (fst q) (snd q)) (combine mins maxs)); [|rewrite I; reflexivity].
    revert maxs mins' maxs' L1 L2 L3 H. induction mins as [|a mins IH]; intros [|b maxs] [|a' mins'] [|b' maxs'] L1 L2 L3 H; try discriminate; auto. cbn [length] in *. cbn [combine forallb fst snd]. rewrite (B a b a' b') by (apply (H 0%nat); lia). f_equal. apply IH; try lia. intros i Hi. apply (H (S i)). lia.
Qed.
Print Assumptions C121_rshash_bounds_unused.
(** The decayed number of k earlier instances. *)
Definition all_past (decay : R) (k : nat) : R := Rsum (map (fun j => Rpower 2 (- decay * INR (k - j))) (seq 0 k)).
Lemma mean_same : forall B (l : list B) v, l <> [] -> mean (map (fun _ => v) l) = v.
Proof.
  intros B l v H. unfold mean, Rlen. rewrite map_length. assert (P : 0 < INR (length l)) by (destruct l; [congruence|apply lt_0_INR; cbn [length]; lia]).
  assert (E : Rsum (map (fun _ : B => v) l) = INR (length l) * v). { clear. induction l as [|a l IH]; cbn [map]; rewrite ?Prop_RSHash.Rsum_nil, ?Prop_RSHash.Rsum_cons. { cbn. lra. } rewrite IH. cbn [length]. rewrite S_INR. lra. }
  rewrite E. field. lra.
Qed.
(** On values so small that every shifted value lies inside the first cell, RSHash tells no two instances apart: the score
    counts how many instances were seen. *)
Theorem C121_rshash_one_cell : forall Y fl decay comps sp w (h : list (mcall (list R) Y)) z, Prop_RSHash.is_floor fl -> comps <> [] -> (1 <= w)%nat ->
  Forall (Prop_RSHash.fits_components comps) (fitted_instances h) -> fitted_instances h <> [] ->
  (forall c al x v, In c comps -> In al (rs_alpha c) -> In x (fitted_instances h) -> In v x -> 0 <= v + al < rs_f c) ->
  let m := RSHash (Rpower 2) ln fl decay comps in
  eval (md_score m z) (model_run m (RSHash_init sp w) h) = Ok (VScalar (ln (1 + all_past decay (length (fitted_instances h) - 1)))).
Proof.
  intros Y fl decay comps sp w h z HF HC Hw F Ne H m. destruct (Prop_RSHash.C74_score Y fl decay comps sp w h z HC Hw F) as (_ & E & _). destruct (exists_last Ne) as (past & x & Ex). unfold eval, m. cbv zeta in E. rewrite (E past x Ex). cbn [fst]. rewrite Ex, app_length. cbn [length]. replace (length past + 1 - 1)%nat with (length past) by lia.
  do 2 f_equal. rewrite <- (mean_same _ comps (ln (1 + all_past decay (length past))) HC). f_equal. apply map_ext_in. intros c Hc. do 2 f_equal.
  assert (Z : forall y, In y (fitted_instances h) -> Prop_RSHash.cell_of fl c y = map (fun _ => 0%Z) (combine (rs_V c) (rs_alpha c))).
  { intros y Hy. unfold Prop_RSHash.cell_of. apply map_ext_in. intros [j al] Q. cbn [fst snd]. pose proof (in_combine_l _ _ _ _ Q) as Qj. pose proof (in_combine_r _ _ _ _ Q) as Qa.
    rewrite Forall_forall in F. specialize (F y Hy). unfold Prop_RSHash.fits_components in F. rewrite Forall_forall in F. destruct (F c Hc) as [_ Fj]. rewrite Forall_forall in Fj. pose proof (H c al y (nth j y 0) Hc Qa Hy (nth_In _ _ (Fj j Qj))) as B.
    pose proof (HF ((nth j y 0 + al) / rs_f c)) as [B1 B2]. set (k := fl ((nth j y 0 + al) / rs_f c)) in *. assert (0 <= (nth j y 0 + al) / rs_f c < 1). { split; [apply Rmult_le_pos; [lra|left; apply Rinv_0_lt_compat; lra]|]. apply Rmult_lt_reg_r with (rs_f c); [lra|]. unfold Rdiv. rewrite Rmult_assoc, Rinv_l by lra. lra. }
    assert (IZR k < 1) by lra. assert (-1 < IZR k) by lra. apply lt_IZR in H1. apply lt_IZR in H2. lia. }
  unfold Prop_RSHash.decayed_count, all_past. f_equal. apply map_ext_in. intros j Hj. apply in_seq in Hj. unfold Prop_RSHash.same_cell. rewrite !Z; [|rewrite Ex; apply in_or_app; right; left; reflexivity|rewrite Ex; apply in_or_app; left; apply nth_In; lia].
  destruct (list_eq_dec Z.eq_dec _ _); [reflexivity|congruence].
Qed.
Print Assumptions C121_rshash_one_cell.
(** So the unit of the data decides: whatever the data, in a large enough unit every score is that of a stream of zeros
    ([delta] is how far the sampled shifts stay from the ends of their cells). *)
Theorem C121_rshash_unit_refuted : forall Y fl decay comps sp w (h : list (mcall (list R) Y)) z a M delta, Prop_RSHash.is_floor fl -> comps <> [] -> (1 <= w)%nat ->
  Forall (Prop_RSHash.fits_components comps) (fitted_instances h) -> fitted_instances h <> [] ->
  (forall c al, In c comps -> In al (rs_alpha c) -> delta <= al <= rs_f c - delta) ->
  (forall x v, In x (fitted_instances h) -> In v x -> Rabs v <= M) -> 0 < a -> a * M < delta ->
  let m := RSHash (Rpower 2) ln fl decay comps in
  eval (md_score m z) (model_run m (RSHash_init sp w) (map (call_map (map (Rmult a))) h)) = eval (md_score m z) (model_run m (RSHash_init sp w) (map (call_map (map (fun _ => 0))) h)).
Proof.
  intros Y fl decay comps sp w h z a M delta HF HC Hw F Ne Hd HM Ha HaM m. unfold m.
  assert (G : forall g : R -> R, (forall x v, In x (fitted_instances h) -> In v x -> Rabs (g v) < delta) ->
    eval (md_score (RSHash (Rpower 2) ln fl decay comps) z) (model_run (RSHash (Rpower 2) ln fl decay comps) (RSHash_init sp w) (map (call_map (map g)) h)) = Ok (VScalar (ln (1 + all_past decay (length (fitted_instances h) - 1))))).
  { intros g Hg. rewrite (C121_rshash_one_cell Y fl decay comps sp w _ z HF HC Hw).
    - rewrite fitted_instances_map, map_length. reflexivity.
    - rewrite fitted_instances_map. apply Forall_map. eapply Forall_impl; [|exact F]. intros x Fx. unfold Prop_RSHash.fits_components in *. eapply Forall_impl; [|exact Fx]. cbn beta. intros c [Q1 Q2]. rewrite map_length. auto.
    - rewrite fitted_instances_map. destruct (fitted_instances h); [congruence|discriminate].
    - intros c al x v Hc Hal Hx Hv. rewrite fitted_instances_map in Hx. apply in_map_iff in Hx. destruct Hx as (x0 & <- & Hx). apply in_map_iff in Hv. destruct Hv as (v0 & <- & Hv). specialize (Hg x0 v0 Hx Hv). apply Rabs_def2 in Hg. specialize (Hd c al Hc Hal). lra. }
  rewrite !G; auto.
  - intros x v Hx Hv. rewrite Rabs_R0. specialize (HM x v Hx Hv). pose proof (Rabs_pos v). assert (0 <= a * M) by (apply Rmult_le_pos; lra). lra.
  - intros x v Hx Hv. rewrite Rabs_mult, (Rabs_pos_eq a) by lra. specialize (HM x v Hx Hv). assert (a * Rabs v <= a * M) by (apply Rmult_le_compat_l; lra). lra.
Qed.
Print Assumptions C121_rshash_unit_refuted.
(** And so does the zero. *)
Theorem C121_rshash_shift_refuted : forall fl, Prop_RSHash.is_floor fl -> let m := RSHash (Y := unit) (Rpower 2) ln fl 1 [mkComp [0%nat] [1 / 4] (1 / 2)] in let h := [CFit [0] None; CFit [1 / 5] None] in
  eval (md_score m [0]) (model_run m (RSHash_init 1000 1) h) = Ok (VScalar (ln (1 + / 2))) /\
  eval (md_score m [0]) (model_run m (RSHash_init 1000 1) (map (call_map (moved (fun _ => 1 / 10))) h)) = Ok (VScalar 0).
Proof.
  intros fl HF m h. assert (FC : forall a : R, Prop_RSHash.fits_components [mkComp [0%nat] [1 / 4] (1 / 2)] [a]). { intros a. constructor; [|constructor]. split; [reflexivity|]. constructor; [cbn; lia|constructor]. }
  split; unfold m.
  - rewrite (C121_rshash_one_cell unit fl 1 _ 1000 1 h [0] HF); [| discriminate | lia | repeat (constructor; [apply FC|]); constructor | discriminate |].
    + change (length (fitted_instances h) - 1)%nat with 1%nat. unfold all_past. change (seq 0 1) with [0%nat]. cbn [map]. change (1 - 0)%nat with 1%nat. rewrite Prop_RSHash.Rsum_cons, Prop_RSHash.Rsum_nil. replace (- (1) * INR 1) with (- (1)) by (cbn; lra). rewrite Rpower_Ropp, Rpower_1 by lra. do 3 f_equal. lra.
    + intros c al x v [<- | []] Ha Hx Hv. cbn [rs_alpha rs_f] in *. destruct Ha as [<- | []]. unfold h, fitted_instances, fitted_calls in Hx. cbn [flat_map app map fst] in Hx. destruct Hx as [<- | [<- | []]]; destruct Hv as [<- | []]; lra.
  - assert (Eh : fitted_instances (map (call_map (moved (fun _ => 1 / 10))) h) = [[1 / 10]] ++ [[3 / 10]]). { unfold h, fitted_instances, fitted_calls, moved. cbn [map call_map flat_map app fst length seq nth]. replace (0 + 1 / 10) with (1 / 10) by lra. replace (1 / 5 + 1 / 10) with (3 / 10) by lra. reflexivity. }
    destruct (Prop_RSHash.C74_score unit fl 1 [mkComp [0%nat] [1 / 4] (1 / 2)] 1000 1 (map (call_map (moved (fun _ => 1 / 10))) h) [0]) as (_ & E & _); [discriminate | lia | rewrite Eh; repeat (constructor; [apply FC|]); constructor|].
    cbv zeta in E. unfold eval. rewrite (E _ _ Eh). cbn [fst]. do 2 f_equal. unfold mean, Rlen. cbn [map length INR]. rewrite Prop_RSHash.Rsum_cons, Prop_RSHash.Rsum_nil.
    assert (D : Prop_RSHash.decayed_count fl 1 (mkComp [0%nat] [1 / 4] (1 / 2)) [[1 / 10]] [3 / 10] = 0); [|rewrite D; replace (1 + 0) with 1 by lra; rewrite ln_1; lra].
    unfold Prop_RSHash.decayed_count. cbn [length seq map nth]. rewrite Prop_RSHash.Rsum_cons, Prop_RSHash.Rsum_nil. unfold Prop_RSHash.same_cell, Prop_RSHash.cell_of. cbn [rs_V rs_alpha rs_f combine map fst snd nth].
    pose proof (HF ((1 / 10 + 1 / 4) / (1 / 2))) as [A1 A2]. pose proof (HF ((3 / 10 + 1 / 4) / (1 / 2))) as [B1 B2]. destruct (list_eq_dec Z.eq_dec _ _) as [Q|Q]; [exfalso|lra]. injection Q as Q. rewrite Q in A1, A2. set (k := fl ((3 / 10 + 1 / 4) / (1 / 2))) in *. assert (K1 : 0 < IZR k) by lra. assert (K2 : IZR k < 1) by lra. apply lt_IZR in K1. apply lt_IZR in K2. lia.
Qed.
Print Assumptions C121_rshash_shift_refuted.

(** ** Examples *)
(** Degrees Celsius and kelvin. *)
Example C121_ex_loda : let m := LODA (1 / 2) (1 / 10 ^ 12) ln (fun _ j => INR j + 1) (fun _ => [0; 1]%nat) 10 3 in
  eval (md_score m [25 + 27315 / 100; 3 + 0]) (model_run m LODA_init [CFit [20 + 27315 / 100; 1 + 0] (@None unit); CFit [22 + 27315 / 100; 5 + 0] None]) =
  eval (md_score m [25; 3]) (model_run m LODA_init [CFit [20; 1] None; CFit [22; 5] (@None unit)]).
Proof. exact (C121_loda unit (fun _ j => INR j + 1) (fun _ => [0; 1]%nat) 10 3 2 (fun j => match j with O => 27315 / 100 | _ => 0 end) [CFit [20; 1] None; CFit [22; 5] None] [25; 3] ltac:(lia) ltac:(lia) ltac:(repeat constructor) eq_refl). Qed.
Definition ex_kit : kitpar R := mkKP exp (fun _ => 1 / 3) (fun n => n) (fun _ _ => Ok (Node (Leaf 1) (Leaf 0))) (- 1000) 1000 (1 / 10 ^ 16) (1 / 10 ^ 100) (1 / 10) 10 (Some 1%nat) 2.
Example C121_ex_kitnet :
  eval (md_score (KitNet ex_kit) [25 + 100; 3 + 7]) (model_run (KitNet ex_kit) None (map (call_map (moved (fun j => match j with O => 100 | _ => 7 end))) [CFit [20; 1] None; CFit [22; 5] None; CScore [0; 0]; CFit [21; 4] None; CFit [25; 3] (@None unit)])) =
  eval (md_score (KitNet ex_kit) [25; 3]) (model_run (KitNet ex_kit) None [CFit [20; 1] None; CFit [22; 5] None; CScore [0; 0]; CFit [21; 4] None; CFit [25; 3] (@None unit)]).
Proof.
  apply (C121_kitnet unit ex_kit 2 (fun j => match j with O => 100 | _ => 7 end) [CFit [20; 1] None; CFit [22; 5] None; CScore [0; 0]; CFit [21; 4] None; CFit [25; 3] (@None unit)] [25; 3]); try reflexivity.
  - split; [repeat constructor|]. intros _. exists (Node (Leaf 1) (Leaf 0)). split; [reflexivity|]. apply perm_swap.
  - cbn [kp_ad ex_kit]. lia.
  - intros z j Hz Hj. cbn [kp_ninf kp_pinf ex_kit]. unfold fitted_instances, fitted_calls in Hz. cbn [flat_map app map fst] in Hz. destruct j as [|[|]]; [| |lia]; destruct Hz as [<- | [<- | [<- | [<- | []]]]]; cbn [nth fst]; lra.
  - discriminate.
Qed.
Example C121_ex_bounds : forall log fl draw pick shifts effS fs, rs_components log fl draw pick shifts effS fs true [0; 5; 7] [1; 5; 9] = rs_components log fl draw pick shifts effS fs true [-1000; 0; 0] [1000; 0; 10 ^ 9].
Proof.
  intros. apply C121_rshash_bounds_unused; try reflexivity. intros i Hi. destruct i as [|[|[|]]]; cbn [length nth] in *; try lia; split; intros; lra.
Qed.
(** Temperatures in kelvin and in units of a thousand kelvins: in the large unit RSHash counts every instance as a repetition. *)
Example C121_ex_unit : forall fl, Prop_RSHash.is_floor fl -> let m := RSHash (Y := unit) (Rpower 2) ln fl 1 [mkComp [0%nat] [1 / 4] (1 / 2)] in let h := [CFit [20] None; CFit [90] None] in
  eval (md_score m [0]) (model_run m (RSHash_init 1000 1) (map (call_map (map (Rmult (1 / 1000)))) h)) = eval (md_score m [0]) (model_run m (RSHash_init 1000 1) (map (call_map (map (fun _ => 0))) h)).
Proof.
  intros fl HF m h. apply (C121_rshash_unit_refuted unit fl 1 _ 1000 1 h [0] (1 / 1000) 100 (1 / 5) HF); try lra; try discriminate; try lia.
  - repeat (constructor; [constructor; [|constructor]; split; [reflexivity|]; constructor; [cbn; lia|constructor]|]). constructor.
  - intros c al [<- | []] [<- | []]. cbn [rs_f]. lra.
  - intros x v Hx Hv. unfold h, fitted_instances, fitted_calls in Hx. cbn [flat_map app map fst] in Hx. destruct Hx as [<- | [<- | []]]; destruct Hv as [<- | []]; rewrite Rabs_pos_eq; lra.
Qed.
