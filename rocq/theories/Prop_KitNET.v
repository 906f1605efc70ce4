(** * KitNET: phases (C61), feature map (C62), correlation distances (C63), autoencoders (C64, C87), single feature (C86). *)
From Coq Require Import List ZArith Lia Bool Arith Permutation.
From Coq Require Import Reals Lra.
From Verif Require Import Base Num Spec Model_Stats Model_Utils Model_Core Model_Trans Model_Simple P_Lists P_Models Model_KitNET.
From Verif Require P_Utils Prop_Post.
Import ListNotations.

(** ** C62 *)
(** The subtrees of a dendrogram. *)
Inductive subtree (t : dendro) : dendro -> Prop :=
| sub_here : subtree t t
| sub_left : forall l r, subtree t l -> subtree t (Node l r)
| sub_right : forall l r, subtree t r -> subtree t (Node l r).
(** Breaking a dendrogram never fails for a bound of at least 1; read one after the other the clusters are the leaves in
    their order; clusters are non-empty and within the bound, each is the leaf list of a subtree, and no cluster can be
    enlarged: every subtree within the bound lies inside one cluster. *)
Theorem C62_break : forall d m, (1 <= m)%nat -> exists cs, break_clust d m = Ok cs /\ concat cs = dendro_leaves d /\
  Forall (fun c => (1 <= length c <= m)%nat) cs /\ Forall (fun c => exists t, subtree t d /\ c = dendro_leaves t) cs /\
  (forall t, subtree t d -> (length (dendro_leaves t) <= m)%nat -> exists c, In c cs /\ incl (dendro_leaves t) c).
Proof.
  intros d m Hm. assert (NE : forall d, (1 <= length (dendro_leaves d))%nat) by (clear; induction d as [|l IHl r IHr]; cbn [dendro_leaves length]; [lia|rewrite app_length; lia]).
  assert (SI : forall t d, subtree t d -> incl (dendro_leaves t) (dendro_leaves d)) by (clear; induction 1; cbn [dendro_leaves]; [apply incl_refl|apply incl_appl|apply incl_appr]; auto).
  induction d as [i|l IHl r IHr].
  - cbn [break_clust]. unfold dendro_count. cbn [dendro_leaves length]. destruct (Nat.leb_spec 1 m); [|lia]. exists [[i]]. split; auto. split; auto. split; [repeat constructor; cbn; lia|]. split; [repeat constructor; exists (Leaf i); split; [constructor|reflexivity]|].
    intros t Ht _. exists [i]. split; [left; auto|]. apply SI in Ht. auto.
  - cbn [break_clust]. unfold dendro_count. destruct (Nat.leb_spec (length (dendro_leaves (Node l r))) m) as [L|L].
    + exists [dendro_leaves (Node l r)]. split; auto. split; [cbn [concat]; apply app_nil_r|]. split; [repeat constructor; auto|]. split; [repeat constructor; exists (Node l r); split; [constructor|reflexivity]|].
      intros t Ht _. exists (dendro_leaves (Node l r)). split; [left; auto|apply SI; auto].
    + destruct IHl as (a & Ea & Ca & Fa & Sa & Ma). destruct IHr as (b & Eb & Cb & Fb & Sb & Mb). rewrite Ea, Eb. cbn [rbind]. exists (a ++ b). split; auto. split; [rewrite concat_app, Ca, Cb; reflexivity|]. split; [apply Forall_app; auto|]. split.
      * apply Forall_app. split; [eapply Forall_impl; [|exact Sa]|eapply Forall_impl; [|exact Sb]]; intros c (t & Ht & ->); exists t; split; auto; [apply sub_left|apply sub_right]; auto.
      * intros t Ht Hl. inversion Ht; subst; [lia| |]; [destruct (Ma t) as (c & Hc & I)|destruct (Mb t) as (c & Hc & I)]; auto; exists c; (split; [apply in_or_app; auto|auto]).
Qed.
Print Assumptions C62_break.
Example C62_ex : break_clust (Node (Node (Leaf 3) (Leaf 0)) (Node (Leaf 2) (Node (Leaf 1) (Leaf 4)))) 2 = Ok [[3%nat; 0%nat]; [2%nat]; [1%nat; 4%nat]].
Proof. reflexivity. Qed.

(** ** Phases (C61), over any number type *)
Section Phases.
Context {A : Type} {NA : Num A}.
Variable (p : kitpar A) (n : nat).
Hypothesis Hn : (2 <= n)%nat.
Notation FM := (kit_fmg p).
Notation AD := (kp_ad p).
Definition vectors (xs : list (list A)) : Prop := Forall (fun x => length x = n) xs.
(** The correlation statistics of the instances xs. *)
Definition statistics (xs : list (list A)) : ccst A := exec (iterM cc_update xs) (cc_init n).
(** scipy clusters the features from the instances xs, and returns a dendrogram over the n features. *)
Definition clustered (xs : list (list A)) (t : dendro) : Prop :=
  kp_linkage p n (condensed n (cc_dist (kp_tiny p) (statistics xs))) = Ok t /\ Permutation (dendro_leaves t) (seq 0 n).
(** The values of the features f of an instance. *)
Definition pick (x : list A) (f : list nat) : list A := map (fun j => nth j x n0) f.
(** One training step of the two layers, and scoring with them. *)
Definition layers : Type := list (dast A) * dast A.
Definition train_step (v : list (list nat)) (st : layers) (x : list A) : layers :=
  (map2 (fun d f => snd (da_train p d (pick x f))) (fst st) v,
   snd (da_train p (snd st) (map2 (fun d f => fst (da_train p d (pick x f))) (fst st) v))).
Definition run_layers (v : list (list nat)) (st : layers) (x : list A) : A :=
  da_execute p (snd st) (map2 (fun d f => da_execute p d (pick x f)) (fst st) v).
Definition fresh (v : list (list nat)) (st : layers) : Prop :=
  Forall2 (fun f d => da_init p (length f) = Ok d) v (fst st) /\ da_init p (length v) = Ok (snd st).
Definition valid_map (v : list (list nat)) : Prop := Permutation (concat v) (seq 0 n) /\ Forall (fun c => (1 <= length c <= Z.to_nat (Z.min (kit_m p) (Z.of_nat n)))%nat) v.

Lemma update_shape : forall x s, length (cc_c s) = n -> length x = n -> exists s', cc_update x s = (Ok tt, s') /\ length (cc_c s') = n.
Proof.
  intros x s Hc Hx. unfold cc_update, bind, modify, gets, lift. cbn [cc_c]. rewrite Hc, Hx, Nat.eqb_refl. eexists. split; [reflexivity|]. cbn [cc_c]. unfold map2. rewrite map_length, combine_length. lia.
Qed.
Lemma statistics_snoc : forall xs x, vectors (xs ++ [x]) -> cc_update x (statistics xs) = (Ok tt, statistics (xs ++ [x])).
Proof.
  intros xs x F. assert (G : forall xs s, length (cc_c s) = n -> vectors xs -> exists s', iterM cc_update xs s = (Ok tt, s') /\ length (cc_c s') = n).
  { clear - Hn. induction xs as [|x xs IH]; intros s Hs F. { exists s. auto. } apply Forall_cons_iff in F. destruct F as [Fx F]. cbn [iterM]. destruct (update_shape x s Hs Fx) as (s1 & E1 & H1). unfold bind. rewrite E1. apply IH; auto. }
  apply Forall_app in F. destruct F as [F Fx]. apply Forall_inv in Fx. destruct (G xs (cc_init n)) as (s1 & E1 & H1); auto. { cbn. apply repeat_length. }
  destruct (update_shape x s1 H1 Fx) as (s2 & E2 & _). unfold statistics, exec. rewrite iterM_app. unfold bind. rewrite E1. cbn [iterM]. unfold bind. cbn [snd]. rewrite E2. reflexivity.
Qed.
Lemma sub_instance_ok : forall x f, Forall (fun j => (j < length x)%nat) f -> sub_instance x f = Ok (pick x f).
Proof. intros x f F. unfold sub_instance, pick. apply Prop_Post.res_map_ok. intros j Hj. apply P_Utils.py_index_nth. rewrite Forall_forall in F. auto. Qed.
Lemma map_indices : forall v (x : list A), valid_map v -> length x = n -> Forall (Forall (fun j => (j < length x)%nat)) v.
Proof.
  intros v x [P _] L. apply Forall_forall. intros c Hc. apply Forall_forall. intros j Hj. assert (In j (concat v)) as I by (apply in_concat; eauto). apply (Permutation_in _ P) in I. apply in_seq in I. lia.
Qed.
Lemma py_index_mid : forall B (a : list B) b c, py_index (a ++ b :: c) (length a) = Ok b.
Proof. intros. unfold py_index. rewrite nth_error_app2, Nat.sub_diag by lia. reflexivity. Qed.
Lemma set_nth_mid : forall B (a : list B) b b' c, set_nth (length a) b' (a ++ b :: c) = a ++ b' :: c.
Proof. induction a as [|x a IH]; intros b b' c; cbn; auto. rewrite IH. reflexivity. Qed.
Lemma train_layer_ok : forall v x fm k e m out ens, Forall (Forall (fun j => (j < length x)%nat)) v -> length ens = length v ->
  kit_train_layer p x v (mkKit n fm k e m ens out) =
  (Ok (map2 (fun d f => fst (da_train p d (pick x f))) ens v), mkKit n fm k e m (map2 (fun d f => snd (da_train p d (pick x f))) ens v) out).
Proof.
  intros v x fm k e m out ens F L. unfold kit_train_layer. match goal with |- mapM ?b _ _ = _ => set (body := b) end.
  assert (St : forall vp f vs ep d es, v = vp ++ f :: vs -> length ep = length vp -> body (length vp) (mkKit n fm k e m (ep ++ d :: es) out) =
    (Ok (fst (da_train p d (pick x f))), mkKit n fm k e m (ep ++ snd (da_train p d (pick x f)) :: es) out)).
  { intros vp f vs ep d es Ev Lp. unfold body, bind, lift, gets, modify, ret. assert (En : nth (length vp) v [] = f) by (rewrite Ev, app_nth2, Nat.sub_diag by lia; reflexivity). rewrite En.
    rewrite sub_instance_ok. 2: { rewrite Forall_forall in F. apply F. rewrite Ev. apply in_or_app. right. left. auto. }
    cbn [kt_ens]. rewrite <- Lp, py_index_mid. destruct (da_train p d (pick x f)) as [er d'] eqn:ET. cbn [kt_n kt_fm kt_trained kt_executed kt_map kt_ens kt_out fst snd]. rewrite set_nth_mid. reflexivity. }
  clearbody body. assert (G : forall vs vp es ep, v = vp ++ vs -> length ep = length vp -> length es = length vs ->
    mapM body (seq (length vp) (length vs)) (mkKit n fm k e m (ep ++ es) out)
    = (Ok (map2 (fun d f => fst (da_train p d (pick x f))) es vs), mkKit n fm k e m (ep ++ map2 (fun d f => snd (da_train p d (pick x f))) es vs) out)).
  { induction vs as [|f vs IH]; intros vp es ep Ev Lp Ls.
    - destruct es; [|discriminate]. reflexivity.
    - destruct es as [|d es]; [discriminate|]. cbn [length seq mapM]. unfold bind at 1. rewrite (St vp f vs ep d es Ev Lp).
      pose proof (IH (vp ++ [f]) es (ep ++ [snd (da_train p d (pick x f))])) as G. rewrite <- !app_assoc in G. cbn [app] in G. replace (length (vp ++ [f])) with (S (length vp)) in G by (rewrite app_length; cbn [length]; lia).
      unfold bind. rewrite G; [|auto|rewrite app_length; cbn [length]; lia|cbn [length] in Ls; lia].
      unfold map2. cbn [combine map fst snd]. reflexivity. }
  exact (G v [] ens [] eq_refl eq_refl L).
Qed.
Lemma map2_length : forall B C D (g : B -> C -> D) a b, length (map2 g a b) = Nat.min (length a) (length b).
Proof. intros. unfold map2. rewrite map_length, combine_length. reflexivity. Qed.
Lemma train_ad_ok : forall v x fm k e ens out, valid_map v -> length x = n -> length ens = length v ->
  kit_train_ad p x (mkKit n fm k e (Some v) ens (Some out)) = (Ok tt, mkKit n fm k e (Some v) (fst (train_step v (ens, out) x)) (Some (snd (train_step v (ens, out) x)))).
Proof.
  intros v x fm k e ens out V L Le. unfold kit_train_ad, bind, gets. cbn [kt_map]. rewrite train_layer_ok; auto. apply map_indices; auto.
Qed.
Lemma execute_ok : forall v x fm k e ens out, valid_map v -> length x = n -> length ens = length v ->
  kit_execute p x (mkKit n fm k e (Some v) ens (Some out)) = (Ok (run_layers v (ens, out) x), mkKit n fm k (S e) (Some v) ens (Some out)).
Proof.
  intros v x fm k e ens out V L Le. unfold kit_execute, bind, gets, modify, lift. cbn [kt_n kt_fm kt_trained kt_executed kt_map kt_ens kt_out].
  rewrite (Prop_Post.res_map_ok _ _ _ (fun a => da_execute p (nth a ens out) (pick x (nth a v [])))).
  - unfold run_layers. cbn [fst snd ret]. unfold ret. do 3 f_equal.
    clear V. revert v Le. induction ens as [|d ens IH]; intros [|f v] Le; try discriminate; auto. cbn [length seq map nth]. unfold map2. cbn [combine map fst snd]. f_equal. specialize (IH v). unfold map2 in IH. rewrite <- IH by (cbn in Le; lia). rewrite <- (seq_shift (length v) 0), map_map. reflexivity.
  - intros a Ha. apply in_seq in Ha. pose proof (map_indices v x V L) as F. rewrite sub_instance_ok by (rewrite Forall_forall in F; apply F; apply nth_In; lia). cbn [rbind]. rewrite (P_Utils.py_index_nth _ ens a out) by lia. reflexivity.
Qed.
Lemma create_ok : forall v fm k e, valid_map v -> exists st, fresh v st /\ length (fst st) = length v /\
  kit_create p v (mkKit n fm k e (Some v) [] None) = (Ok tt, mkKit n fm k e (Some v) (fst st) (Some (snd st))).
Proof.
  intros v fm k e [P F]. assert (I : forall nv, (1 <= nv)%nat -> exists d, da_init p nv = Ok d). { intros nv H. unfold da_init. destruct (Nat.eqb_spec nv 0); [lia|]. eexists. reflexivity. }
  unfold kit_create. assert (G : forall (vs : list (list nat)) ep m, Forall (fun c => (1 <= length c <= Z.to_nat (Z.min (kit_m p) (Z.of_nat n)))%nat) vs -> exists ds, Forall2 (fun f d => da_init p (length f) = Ok d) vs ds /\
    iterM (fun f => bind (lift (da_init p (length f))) (fun d => modify (fun s => mkKit (kt_n s) (kt_fm s) (kt_trained s) (kt_executed s) (kt_map s) (kt_ens s ++ [d]) (kt_out s)))) vs (mkKit n fm k e m ep None) = (Ok tt, mkKit n fm k e m (ep ++ ds) None)).
  { induction vs as [|f vs IH]; intros ep m Fv. { exists []. rewrite app_nil_r. split; [constructor|reflexivity]. }
    apply Forall_cons_iff in Fv. destruct Fv as [Ff Fv]. destruct (I (length f)) as [d Ed]; [lia|]. destruct (IH (ep ++ [d]) m Fv) as (ds & F2 & E). exists (d :: ds). split; [constructor; auto|].
    cbn [iterM]. unfold bind at 1. unfold bind at 1, lift at 1. rewrite Ed. unfold modify at 1. cbn [kt_n kt_fm kt_trained kt_executed kt_map kt_ens kt_out]. rewrite E, <- app_assoc. reflexivity. }
  destruct (G v [] (Some v) F) as (ds & F2 & E). assert (Lv : (1 <= length v)%nat). { destruct v; cbn [length]; [|lia]. apply Permutation_length in P. rewrite seq_length in P. cbn in P. lia. }
  destruct (I (length v) Lv) as [out Eo]. exists (ds, out). split; [split; auto|]. split; [cbn [fst]; clear - F2; induction F2; cbn [length]; auto|].
  unfold bind at 1. cbn [app] in E. rewrite E. unfold bind, lift. rewrite Eo. reflexivity.
Qed.
Lemma cluster_ok : forall xs t, clustered xs t -> exists v, cc_cluster p n (kit_m p) (statistics xs) = Ok v /\ valid_map v /\ concat v = dendro_leaves t.
Proof.
  intros xs t [E P]. assert (Hm : (1 <= kit_m p)%Z) by (unfold kit_m; destruct (Z.leb_spec (kp_size p) 0); lia).
  unfold cc_cluster. destruct (Nat.ltb_spec n 2); [lia|]. rewrite E. cbn [rbind]. replace (Z.min (Z.max (kit_m p) 1) (Z.of_nat n)) with (Z.min (kit_m p) (Z.of_nat n)) by lia.
  destruct (C62_break t (Z.to_nat (Z.min (kit_m p) (Z.of_nat n))) ltac:(lia)) as (cs & E' & C & F & _). exists cs. split; auto. split; auto. split; auto. rewrite C. auto.
Qed.

(** The object after the instances xs. *)
Definition phase (xs : list (list A)) (s : option (kitobj A)) : Prop :=
  let k := length xs in
  if (k =? 0)%nat then s = None
  else if (k <=? FM)%nat then exists e, s = Some (mkKit n (statistics xs) k e None [] None)
  else exists v st0 fm e, cc_cluster p n (kit_m p) (statistics (firstn (S FM) xs)) = Ok v /\ valid_map v /\ fresh v st0 /\ length (fst st0) = length v /\
    let st := fold_left (train_step v) (firstn AD (skipn (S FM) xs)) st0 in
    length (fst st) = length v /\ s = Some (mkKit n fm (Nat.min k (S (FM + AD))) e (Some v) (fst st) (Some (snd st))).
(** The instances have n features, and the first FM + 1 of them can be clustered. *)
Definition kit_ok (xs : list (list A)) : Prop := vectors xs /\ ((FM < length xs)%nat -> exists t, clustered (firstn (S FM) xs) t).
Lemma kit_ok_prefix : forall xs x, kit_ok (xs ++ [x]) -> kit_ok xs.
Proof.
  intros xs x [F C]. apply Forall_app in F. destruct F as [F _]. split; auto. intros H. rewrite app_length in C. destruct C as [t C]; [lia|]. exists t. rewrite firstn_app in C. replace (S FM - length xs)%nat with 0%nat in C by lia. cbn [firstn] in C. rewrite app_nil_r in C. auto.
Qed.
Lemma train_step_length : forall v st x, length (fst st) = length v -> length (fst (train_step v st x)) = length v.
Proof. intros v st x H. unfold train_step. cbn [fst]. rewrite map2_length. lia. Qed.
Lemma fit_phase : forall Y xs s x (y : option Y), kit_ok (xs ++ [x]) -> phase xs s -> exists s', md_fit (KitNet p) x y s = (Ok tt, s') /\ phase (xs ++ [x]) s'.
Proof.
  intros Y xs s x y K I. pose proof K as [F C]. assert (Hx : length x = n) by (apply Forall_app in F; destruct F as [_ F]; apply Forall_inv in F; auto).
  cbn [md_fit KitNet plain_model]. unfold bind at 1, modify at 1.
  assert (B : (length xs <= FM)%nat -> exists e, match s with Some _ => s | None => Some (kit_init (length x)) end = Some (mkKit n (statistics xs) (length xs) e None [] None)).
  { intros L. unfold phase in I. destruct (Nat.eqb_spec (length xs) 0) as [E|E]. - subst s. apply length_zero_iff_nil in E. subst xs. exists 0%nat. rewrite Hx. reflexivity.
    - destruct (Nat.leb_spec (length xs) FM); [|lia]. destruct I as [e ->]. exists e. reflexivity. }
  destruct (Nat.leb_spec (length xs) FM) as [L|L].
  - destruct (B L) as [e ->]. clear B I. unfold kit_process. unfold bind at 1, gets at 1. cbn [kt_trained]. destruct (Nat.ltb_spec (FM + AD) (length xs)); [lia|]. unfold kit_train. unfold bind at 1, gets at 1. cbn [kt_trained kt_map]. destruct (Nat.leb_spec (length xs) FM); [|lia]. cbn [andb].
    unfold bind at 1. unfold kit_train_fm. unfold bind at 1. unfold zoom at 1. cbn [kt_fm]. rewrite (statistics_snoc xs x F). cbn [kt_n kt_fm kt_trained kt_executed kt_map kt_ens kt_out]. unfold bind at 1, gets at 1. cbn [kt_trained].
    unfold phase. rewrite app_length. cbn [length]. rewrite Nat.add_1_r. cbn [Nat.eqb]. destruct (Nat.eqb_spec (length xs) FM) as [E|E].
    + assert (Ef : firstn (S FM) (xs ++ [x]) = xs ++ [x]) by (apply firstn_all2; rewrite app_length; cbn [length]; lia). destruct C as [t C]; [rewrite app_length; cbn [length]; lia|]. rewrite Ef in C. destruct (cluster_ok _ _ C) as (v & Ev & V & _).
      unfold bind at 1, lift at 1. cbn [kt_n kt_fm]. rewrite Ev. unfold bind at 1, modify at 1. cbn [kt_n kt_fm kt_trained kt_executed kt_map kt_ens kt_out]. destruct (create_ok v (statistics (xs ++ [x])) (length xs) e V) as (st & Fr & Ls & Ec). rewrite Ec. unfold modify. cbn [kt_n kt_fm kt_trained kt_executed kt_map kt_ens kt_out].
      eexists. split; [reflexivity|]. destruct (Nat.leb_spec (S (length xs)) FM); [lia|]. exists v, st, (statistics (xs ++ [x])), e. rewrite Ef. split; auto. split; auto. split; auto. split; auto.
      rewrite skipn_all2 by (rewrite app_length; cbn [length]; lia). rewrite firstn_nil. cbn [fold_left]. split; auto. replace (Nat.min (S (length xs)) (S (FM + AD))) with (S (length xs)) by lia. reflexivity.
    + unfold ret. unfold modify. cbn [kt_n kt_fm kt_trained kt_executed kt_map kt_ens kt_out]. eexists. split; [reflexivity|]. destruct (Nat.leb_spec (S (length xs)) FM); [|lia]. eexists. reflexivity.
  - clear B. unfold phase in I. destruct (Nat.eqb_spec (length xs) 0); [lia|]. destruct (Nat.leb_spec (length xs) FM); [lia|]. destruct I as (v & st0 & fm & e & Ev & V & Fr & Ls0 & Ls & ->). set (st := fold_left (train_step v) (firstn AD (skipn (S FM) xs)) st0) in *.
    unfold kit_process. unfold bind at 1, gets at 1. cbn [kt_trained].
    assert (Ef : firstn (S FM) (xs ++ [x]) = firstn (S FM) xs). { rewrite firstn_app. replace (S FM - length xs)%nat with 0%nat by lia. cbn [firstn]. apply app_nil_r. }
    assert (Es : skipn (S FM) (xs ++ [x]) = skipn (S FM) xs ++ [x]). { rewrite skipn_app. replace (S FM - length xs)%nat with 0%nat by lia. reflexivity. }
    assert (Lk : length (skipn (S FM) xs) = (length xs - S FM)%nat) by apply skipn_length.
    unfold phase. rewrite app_length. cbn [length]. rewrite Nat.add_1_r. cbn [Nat.eqb]. destruct (Nat.leb_spec (S (length xs)) FM); [lia|].
    destruct (Nat.ltb_spec (FM + AD) (Nat.min (length xs) (S (FM + AD)))) as [L2|L2].
    + unfold bind. rewrite execute_ok; auto. eexists. split; [reflexivity|]. exists v, st0, fm, (S e). rewrite Ef. split; auto. split; auto. split; auto. split; auto. rewrite Es.
      assert (E2 : firstn AD (skipn (S FM) xs ++ [x]) = firstn AD (skipn (S FM) xs)). { rewrite firstn_app. replace (AD - length (skipn (S FM) xs))%nat with 0%nat by lia. cbn [firstn]. apply app_nil_r. }
      rewrite E2. fold st. split; auto. rewrite surjective_pairing with (p := st) at 1. cbn [fst snd]. replace (Nat.min (S (length xs)) (S (FM + AD))) with (Nat.min (length xs) (S (FM + AD))) by lia. reflexivity.
    + unfold kit_train. unfold bind at 1, gets at 1. cbn [kt_trained kt_map]. rewrite andb_false_r. unfold bind at 1. rewrite train_ad_ok; auto. unfold modify. cbn [kt_n kt_fm kt_trained kt_executed kt_map kt_ens kt_out].
      eexists. split; [reflexivity|]. exists v, st0, fm, e. rewrite Ef. split; auto. split; auto. split; auto. split; auto. rewrite Es.
      assert (E2 : firstn AD (skipn (S FM) xs ++ [x]) = firstn AD (skipn (S FM) xs) ++ [x]). { rewrite !firstn_all2; auto; [lia|rewrite app_length; cbn [length]; lia]. }
      rewrite E2, fold_left_app. cbn [fold_left]. fold st. split; [apply train_step_length; auto|]. rewrite <- surjective_pairing. replace (Nat.min (S (length xs)) (S (FM + AD))) with (S (Nat.min (length xs) (S (FM + AD)))) by lia. reflexivity.
Qed.
(** score_partial on an object in a given phase. *)
Lemma score_phase : forall Y xs s x, length x = n -> phase xs s -> exists s', phase xs s' /\
  ((length xs = 0)%nat -> md_score (KitNet (Y := Y) p) x s = (Raise AttributeError, s')) /\
  ((1 <= length xs <= FM)%nat -> md_score (KitNet (Y := Y) p) x s = (Ok (VScalar n0), s')) /\
  ((FM < length xs)%nat -> exists v st0, cc_cluster p n (kit_m p) (statistics (firstn (S FM) xs)) = Ok v /\ valid_map v /\ fresh v st0 /\
     md_score (KitNet (Y := Y) p) x s = (Ok (VScalar (run_layers v (fold_left (train_step v) (firstn AD (skipn (S FM) xs)) st0) x)), s')).
Proof.
  intros Y xs s x Hx I. pose proof I as I0. unfold phase in I. destruct (Nat.eqb_spec (length xs) 0) as [E|E].
  - subst s. exists None. split; auto. split; [reflexivity|]. split; lia.
  - destruct (Nat.leb_spec (length xs) FM) as [L|L].
    + destruct I as [e ->]. eexists. split; [exact I0|]. split; [lia|]. split; [reflexivity|lia].
    + destruct I as (v & st0 & fm & e & Ev & V & Fr & Ls0 & Ls & ->). set (st := fold_left (train_step v) (firstn AD (skipn (S FM) xs)) st0) in *.
      eexists. split; [|split; [lia|split; [lia|]]].
      2: { intros _. exists v, st0. split; auto. split; auto. split; auto. cbn [md_score KitNet plain_model kt_map]. rewrite execute_ok by auto. rewrite <- surjective_pairing. cbn [rmap]. reflexivity. }
      unfold phase. destruct (Nat.eqb_spec (length xs) 0); [lia|]. destruct (Nat.leb_spec (length xs) FM); [lia|]. exists v, st0, fm, (S e). auto 10.
Qed.
Lemma short_score_phase : forall Y xs s x, phase xs s -> phase xs (exec (md_score (KitNet (Y := Y) p) x) s).
Proof.
  intros Y xs s x I. cbn [md_score KitNet plain_model]. unfold exec. destruct s as [k|]; [|exact I]. destruct (kt_map k) as [v'|] eqn:Em; [|exact I].
  unfold phase in I |- *. destruct (Nat.eqb_spec (length xs) 0); [discriminate|]. destruct (Nat.leb_spec (length xs) FM). { destruct I as [e I]. inversion I; subst. discriminate. }
  destruct I as (v & st0 & fm & e & Ev & V & Fr & Ls0 & Ls & I). inversion I; subst k. cbn [kt_map] in Em. inversion Em; subst v'.
  unfold kit_execute, bind, gets, modify, lift. cbn [kt_n kt_fm kt_trained kt_executed kt_map kt_ens kt_out].
  exists v, st0, fm, (S e). split; auto. split; auto. split; auto. split; auto. split; auto.
  match goal with |- context [res_map ?g ?l] => destruct (res_map g l) end; reflexivity.
Qed.
Lemma run_phase : forall Y (h : list (mcall (list A) Y)), kit_ok (fitted_instances h) -> phase (fitted_instances h) (model_run (KitNet p) None h).
Proof.
  intros Y h. refine (plain_run_all _ _ _ _ _ _ (fun xs s => kit_ok xs -> phase xs s) _ _ h _ _).
  - intros xs s x y I K. destruct (fit_phase Y xs s x y K (I (kit_ok_prefix _ _ K))) as (s' & E & I'). unfold exec. cbn [md_fit KitNet plain_model] in E. rewrite E. auto.
  - intros xs s x I K. exact (short_score_phase Y xs s x (I K)).
  - intros _. reflexivity.
Qed.
End Phases.

(** ** C61, C62 at the interface *)
Section Interface.
Context {A Y : Type} {NA : Num A}.
Variable (p : kitpar A) (n : nat).
Hypothesis Hn : (2 <= n)%nat.
Notation FM := (kit_fmg p).
Notation AD := (kp_ad p).
Notation after h := (model_run (KitNet (Y := Y) p) None h).
Lemma fresh_unique : forall v st st', fresh p v st -> fresh p v st' -> st = st'.
Proof.
  intros v [e o] [e' o'] [F E] [F' E']. cbn [fst snd] in *. f_equal; [|congruence]. clear E E'. revert e' F'. induction F as [|f d v e Hd F IH]; intros e' F'; inversion F' as [|? d' ? e2 Hd' F2]; subst; auto. f_equal; [congruence|auto].
Qed.
End Interface.
(** Before the first fit there is no inner model; up to FM fits the score is 0. *)
Theorem C61_before_the_map : forall A Y (NA : Num A) p n (h : list (mcall (list A) Y)) x, (2 <= n)%nat -> kit_ok p n (fitted_instances h) -> length x = n ->
  let k := length (fitted_instances h) in let FM := match kp_fm p with Some f => f | None => kp_ad p end in
  (k = 0%nat -> eval (md_score (KitNet p) x) (model_run (KitNet p) None h) = Raise AttributeError) /\
  ((1 <= k <= FM)%nat -> eval (md_score (KitNet p) x) (model_run (KitNet p) None h) = Ok (VScalar n0)).
Proof.
  intros A Y NA p n h x Hn K Hx k FM. destruct (score_phase p n Hn Y _ _ x Hx (run_phase p n Hn Y h K)) as (s' & _ & E0 & E1 & _). unfold eval. split; intros Hk; [rewrite E0|rewrite E1]; auto.
Qed.
Print Assumptions C61_before_the_map.
(** Fitting never fails, and the feature map appears with fit number FM + 1; it is a partition of the n features into
    clusters of at most max_size_ae members, computed from the correlation statistics of the first FM + 1 instances,
    and never changes. *)
Theorem C61_feature_map : forall A Y (NA : Num A) p n (h : list (mcall (list A) Y)), (2 <= n)%nat -> kit_ok p n (fitted_instances h) ->
  let xs := fitted_instances h in let FM := match kp_fm p with Some f => f | None => kp_ad p end in
  let learned := match model_run (KitNet p) None h with None => None | Some k => kt_map k end in
  ((length xs <= FM)%nat -> learned = None) /\
  ((FM < length xs)%nat -> exists v t, learned = Some v /\ clustered p n (firstn (FM + 1) xs) t /\ concat v = dendro_leaves t /\ Permutation (concat v) (seq 0 n) /\
     Forall (fun c => (1 <= length c)%nat /\ (Z.of_nat (length c) <= Z.max 1 (kp_size p))%Z) v /\
     (forall h', kit_ok p n (fitted_instances h') -> firstn (FM + 1) (fitted_instances h') = firstn (FM + 1) xs -> match model_run (KitNet (Y := Y) p) None h' with None => None | Some k => kt_map k end = Some v)).
Proof.
  intros A Y NA p n h Hn K xs FM learned. change FM with (kit_fmg p). clear FM. pose proof (run_phase p n Hn Y h K) as I. fold xs in I. unfold learned. split; intros L.
  - unfold phase in I. destruct (Nat.eqb_spec (length xs) 0). { rewrite I. reflexivity. } destruct (Nat.leb_spec (length xs) (kit_fmg p)); [|lia]. destruct I as [e ->]. reflexivity.
  - unfold phase in I. destruct (Nat.eqb_spec (length xs) 0); [lia|]. destruct (Nat.leb_spec (length xs) (kit_fmg p)); [lia|]. destruct I as (v & st0 & fm & e & Ev & V & _ & _ & _ & ->). cbn [kt_map].
    pose proof K as [_ C]. destruct (C L) as [t Ht]. destruct (cluster_ok p n Hn _ _ Ht) as (v' & Ev' & _ & Cv). fold xs in Ev'. assert (v' = v) by congruence. subst v'. rewrite Nat.add_1_r. exists v, t. split; auto. split; auto. split; auto. pose proof V as [Pv Fv]. split; auto. split.
    + eapply Forall_impl; [|exact Fv]. cbn beta. intros c [Hc1 Hc2]. split; auto. unfold kit_m in Hc2. destruct (Z.leb_spec (kp_size p) 0); lia.
    + intros h' K' Ef. pose proof (run_phase p n Hn Y h' K') as I'. unfold phase in I'. assert (L' : (kit_fmg p < length (fitted_instances h'))%nat). { apply (f_equal (@length _)) in Ef. rewrite !firstn_length in Ef. lia. }
      destruct (Nat.eqb_spec (length (fitted_instances h')) 0); [lia|]. destruct (Nat.leb_spec (length (fitted_instances h')) (kit_fmg p)); [lia|]. destruct I' as (v' & st0' & fm' & e' & Ev2 & _ & _ & _ & _ & ->). cbn [kt_map]. rewrite Ef in Ev2. congruence.
Qed.
Print Assumptions C61_feature_map.
Theorem C61_fit_never_fails : forall A Y (NA : Num A) p n (h : list (mcall (list A) Y)) x y, (2 <= n)%nat -> kit_ok p n (fitted_instances h ++ [x]) ->
  eval (md_fit (KitNet p) x y) (model_run (KitNet p) None h) = Ok tt.
Proof.
  intros A Y NA p n h x y Hn K. destruct (fit_phase p n Hn Y _ _ x y K (run_phase p n Hn Y h (kit_ok_prefix p n Hn _ _ K))) as (s' & E & _). unfold eval. rewrite E. reflexivity.
Qed.
Print Assumptions C61_fit_never_fails.
(** Once the map exists, the score is computed by the two layers after they were trained, in order and starting fresh, by
    the AD instances that follow the first FM + 1 — or by those that have arrived. *)
Theorem C61_score : forall A Y (NA : Num A) p n (h : list (mcall (list A) Y)) x, (2 <= n)%nat -> kit_ok p n (fitted_instances h) -> length x = n ->
  let xs := fitted_instances h in let FM := match kp_fm p with Some f => f | None => kp_ad p end in (FM < length xs)%nat ->
  exists v st0, fresh p v st0 /\ match model_run (KitNet p) None h with None => None | Some k => kt_map k end = Some v /\
    eval (md_score (KitNet p) x) (model_run (KitNet p) None h) = Ok (VScalar (run_layers p v (fold_left (train_step p v) (firstn (kp_ad p) (skipn (FM + 1) xs)) st0) x)).
Proof.
  intros A Y NA p n h x Hn K Hx xs FM L. pose proof (run_phase p n Hn Y h K) as I. destruct (score_phase p n Hn Y _ _ x Hx I) as (s' & _ & _ & _ & E). destruct (E L) as (v & st0 & Ev & V & F & E2). exists v, st0. split; auto. rewrite Nat.add_1_r. split; [|unfold eval; rewrite E2; reflexivity].
  unfold phase in I. fold xs in I. change FM with (kit_fmg p) in *. destruct (Nat.eqb_spec (length xs) 0); [lia|]. destruct (Nat.leb_spec (length xs) (kit_fmg p)); [lia|]. destruct I as (v' & st0' & fm & e & Ev' & _ & _ & _ & _ & ->). cbn [kt_map]. fold xs in Ev. congruence.
Qed.
Print Assumptions C61_score.
(** So scores depend on the first FM + 1 + AD fitted instances only: nothing that is fitted later, and no score call in
    between, has any effect. *)
Theorem C61_only_the_first_instances_matter : forall A Y (NA : Num A) p n (h : list (mcall (list A) Y)) x, (2 <= n)%nat -> kit_ok p n (fitted_instances h) -> length x = n ->
  let FM := match kp_fm p with Some f => f | None => kp_ad p end in
  eval (md_score (KitNet p) x) (model_run (KitNet p) None h) =
  eval (md_score (KitNet p) x) (model_run (KitNet p) None (map (fun x => CFit x (@None Y)) (firstn (FM + 1 + kp_ad p) (fitted_instances h)))).
Proof.
  intros A Y NA p n h x Hn K Hx FM. set (xs := fitted_instances h) in *. set (h' := map (fun x => CFit x (@None Y)) (firstn (FM + 1 + kp_ad p) xs)).
  assert (Ef : fitted_instances h' = firstn (FM + 1 + kp_ad p) xs). { unfold h', fitted_instances, fitted_calls. generalize (firstn (FM + 1 + kp_ad p) xs). clear. induction l as [|a l IH]; auto. cbn in *. rewrite IH. reflexivity. }
  assert (K' : kit_ok p n (fitted_instances h')). { destruct K as [F C]. rewrite Ef. split. { unfold vectors in *. rewrite Forall_forall in F |- *. intros a Ha. apply F. rewrite <- (firstn_skipn (FM + 1 + kp_ad p) xs). apply in_or_app. auto. }
    intros L. rewrite firstn_length in L. destruct C as [t C]; [lia|]. exists t. rewrite firstn_firstn. change (kit_fmg p) with FM in *. replace (Nat.min (S FM) (FM + 1 + kp_ad p)) with (S FM) by lia. auto. }
  destruct (score_phase p n Hn Y _ _ x Hx (run_phase p n Hn Y h K)) as (s1 & _ & E0 & E1 & E2). destruct (score_phase p n Hn Y _ _ x Hx (run_phase p n Hn Y h' K')) as (s2 & _ & E0' & E1' & E2').
  fold xs in E0, E1, E2. rewrite Ef in E0', E1', E2'. rewrite firstn_length in E0', E1', E2'. change (kit_fmg p) with FM in *. unfold eval.
  destruct (Nat.eq_dec (length xs) 0) as [Z|Z]. { rewrite E0, E0' by lia. reflexivity. }
  destruct (Nat.leb_spec (length xs) FM) as [L|L]. { rewrite E1, E1' by lia. reflexivity. }
  destruct (E2 ltac:(lia)) as (v & st0 & Ev & _ & F & E). destruct (E2' ltac:(lia)) as (v' & st0' & Ev' & _ & F' & E'). rewrite E, E'. cbn [fst]. rewrite firstn_firstn in Ev'. replace (Nat.min (S FM) (FM + 1 + kp_ad p)) with (S FM) in Ev' by lia. assert (v' = v) by congruence. subst v'. rewrite (fresh_unique p v st0' st0); auto.
  rewrite skipn_firstn_comm, firstn_firstn. replace (Nat.min (kp_ad p) (FM + 1 + kp_ad p - S FM)) with (kp_ad p) by lia. reflexivity.
Qed.
Print Assumptions C61_only_the_first_instances_matter.

(** ** C86: with fewer than two features the feature map can never be learned. *)
Theorem C86_single_feature_refuted : forall A Y (NA : Num A) p n (h : list (mcall (list A) Y)) x y, (n < 2)%nat -> Forall (fun x => length x = n) (fitted_instances h) -> length x = n ->
  let k := length (fitted_instances h) in let FM := match kp_fm p with Some f => f | None => kp_ad p end in
  eval (md_fit (KitNet p) x y) (model_run (KitNet p) None h) = (if (k <? FM)%nat then Ok tt else Raise ValueError) /\
  ((1 <= k)%nat -> eval (md_score (KitNet p) x) (model_run (KitNet p) None h) = Ok (VScalar n0)).
Proof.
  intros A Y NA p n h x y Hn F Hx k FM. change FM with (kit_fmg p). clear FM.
  set (inv := fun (xs : list (list A)) (s : option (kitobj A)) => Forall (fun x => length x = n) xs ->
    match s with None => xs = [] | Some o => kt_n o = n /\ length (cc_c (kt_fm o)) = n /\ kt_trained o = Nat.min (length xs) (kit_fmg p) /\ kt_map o = None /\ xs <> [] end).
  assert (St : forall xs s x (y : option Y), Forall (fun x => length x = n) (xs ++ [x]) -> inv xs s -> exists s', md_fit (KitNet p) x y s = (if (length xs <? kit_fmg p)%nat then Ok tt else Raise ValueError, s') /\ inv (xs ++ [x]) s').
  { clear - Hn. intros xs s x y F I. apply Forall_app in F. destruct F as [F Fx]. specialize (I F). apply Forall_inv in Fx. cbn [md_fit KitNet plain_model]. unfold bind at 1, modify at 1.
    assert (B : exists o, match s with Some _ => s | None => Some (kit_init (length x)) end = Some o /\ kt_n o = n /\ length (cc_c (kt_fm o)) = n /\ kt_trained o = Nat.min (length xs) (kit_fmg p) /\ kt_map o = None).
    { destruct s as [o|]; [exists o; tauto|]. subst xs. eexists. split; [reflexivity|]. cbn. rewrite repeat_length. auto. }
    destruct B as (o & -> & Bn & Bc & Bt & Bm). destruct o as [on fm tr ex mp en ou]. cbn [kt_n kt_fm kt_trained kt_map] in *. subst on mp.
    unfold kit_process. unfold bind at 1, gets at 1. cbn [kt_trained]. destruct (Nat.ltb_spec (kit_fmg p + kp_ad p) tr); [lia|]. unfold kit_train. unfold bind at 1, gets at 1. cbn [kt_trained kt_map]. destruct (Nat.leb_spec tr (kit_fmg p)); [|lia]. cbn [andb]. unfold bind at 1. unfold kit_train_fm. unfold bind at 1. unfold zoom at 1. cbn [kt_fm].
    assert (U : exists fm', cc_update x fm = (Ok tt, fm') /\ length (cc_c fm') = n). { unfold cc_update, bind, modify, gets, lift. cbn [cc_c]. rewrite Bc, Fx, Nat.eqb_refl. eexists. split; [reflexivity|]. cbn [cc_c]. unfold map2. rewrite map_length, combine_length. lia. }
    destruct U as (fm' & -> & Lf). cbn [kt_n kt_fm kt_trained kt_executed kt_map kt_ens kt_out]. unfold bind at 1, gets at 1. cbn [kt_trained]. assert (NE : xs ++ [x] <> []) by (destruct xs; discriminate).
    destruct (Nat.eqb_spec tr (kit_fmg p)) as [E|E], (Nat.ltb_spec (length xs) (kit_fmg p)); try lia.
    - unfold bind, lift. unfold cc_cluster. cbn [kt_n]. destruct (Nat.ltb_spec n 2); [|lia]. eexists. split; [reflexivity|]. intros _. cbn [kt_n kt_fm kt_trained kt_map]. rewrite app_length. cbn [length]. repeat split; auto. lia.
    - unfold ret, modify. eexists. split; [reflexivity|]. intros _. cbn [kt_n kt_fm kt_trained kt_map]. rewrite app_length. cbn [length]. repeat split; auto. lia. }
  assert (I : inv (fitted_instances h) (model_run (KitNet p) None h)).
  { refine (plain_run_all _ _ _ _ _ _ inv _ _ h _ _).
    - intros xs s x0 y0 I F0. destruct (St xs s x0 y0 F0 I) as (s' & E & I'). unfold exec. cbn [md_fit KitNet plain_model] in E. rewrite E. apply I'; auto.
    - intros xs s x0 I F0. specialize (I F0). unfold exec. destruct s as [o|]; auto. destruct (kt_map o) eqn:E; [destruct I as (_ & _ & _ & I & _); congruence|]. cbn [snd]. rewrite E. exact I.
    - intros _. reflexivity. }
  split.
  - destruct (St _ _ x y (proj2 (Forall_app _ _ _) (conj F (Forall_cons _ Hx (Forall_nil _)))) I) as (s' & E & _). unfold eval. rewrite E. reflexivity.
  - intros Hk. specialize (I F). unfold eval. cbn [md_score KitNet plain_model]. destruct (model_run (KitNet p) None h) as [o|]. { destruct I as (_ & _ & _ & -> & _). reflexivity. } unfold k in Hk. rewrite I in Hk. cbn in Hk. lia.
Qed.
Print Assumptions C86_single_feature_refuted.
