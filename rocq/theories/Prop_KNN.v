(** * Properties of KNNCAD (C66, C67, C85). *)
From Coq Require Import List ZArith Lia Bool Reals Lra Arith.
From Verif Require Import Base Num Spec Model_Stats Model_Utils Model_Core Model_Trans Model_Simple Model_KNN P_Lists P_Stats P_Utils P_Core P_Post P_Trans P_Models Prop_Utils Prop_RSHash Prop_XStream Prop_Loda.
Import ListNotations.
Open Scope R_scope.

(** ** Specification *)
Notation KNN inverse P := (KNNCAD (1 / 2) (9965 / 10000) inverse P).
(** Squared distance of two windows of 19 values under a matrix. *)
Definition dist (sigma : list (list R)) (a b : list R) : R :=
  Rsum (map (fun j => Rsum (map (fun i => (nth i a 0 - nth i b 0) * nth j (nth i sigma []) 0) (seq 0 19)) * (nth j a 0 - nth j b 0)) (seq 0 19)).
(** Sum of the k smallest distances of an item to a set. *)
Definition conformity (k : nat) (sigma set : list (list R)) (item : list R) : R := Rsum (firstn k (sorted (map (fun x => dist sigma x item) set))).
Definition identity : list (list R) := map (fun i => map (fun j => if (i =? j)%nat then 1 else 0) (seq 0 19)) (seq 0 19).
Section Spec.
Variables (inverse : list (list R) -> option (list (list R))) (P : nat) (vs : list R).
(** The window of the last 19 values at fit m (counting from 1). *)
Definition window_at (m : nat) : list R := firstn 19 (skipn (m - 19) vs).
(** Training set after fit m >= P - 1: P - 19 consecutive windows, moving once 2 P fits have been made. *)
Definition train_at (m : nat) : list (list R) := map window_at (seq (19 + (m + 1 - 2 * P)) (P - 19)).
(** The matrix after fit m: recomputed from the training set at every multiple of P and half way between, unless singular. *)
Definition sigma_at (m : nat) : list (list R) :=
  fold_left (fun sg t => if ((t mod P =? 0) || (t mod P =? P / 2))%nat then match inverse (train_at (t - 1)) with Some sg' => sg' | None => sg end else sg) (seq P (S m - P)) identity.
(** Conformity of the window of fit m at that fit, and of the training windows at fit P (each counts itself). *)
Definition new_value (m : nat) : R := conformity 27 (sigma_at m) (train_at (m - 1)) (window_at m).
Definition initial_values : list R := map (conformity 28 (sigma_at P) (train_at (P - 1))) (train_at (P - 1)).
Definition values_at (m : nat) : list R := lastn (P - 19) (initial_values ++ map new_value (seq P (S m - P))).
(** The conformal score after fit m. *)
Definition conformal (m : nat) : R :=
  INR (length (filter (fun c => Rltb c (conformity 27 (sigma_at m) (train_at m) (window_at m))) (values_at m))) / INR (P - 19).
End Spec.
(** The first features of a list of instances. *)
Definition firsts (xs : list (list R)) : list R := map (hd 0) xs.
(** Number of scoring calls in a history. *)
Definition scorings {X Y} (h : list (mcall X Y)) : nat := length (filter (fun o => match o with CFit _ _ => false | _ => true end) h).

(** ** Numbers *)
Lemma metric_dist : forall sigma a b, kn_metric sigma a b = dist sigma a b.
Proof.
  intros sigma a b. unfold kn_metric, dist. change kn_dim with 19%nat. rewrite Prop_XStream.nsum_Rsum. f_equal. apply map_ext_in. intros j Hj. apply in_seq in Hj. change (@n0 R NumR) with 0. rewrite !nth_map_seq by lia. rewrite Prop_XStream.nsum_Rsum.
  reflexivity.
Qed.
Lemma ncm_value : forall sigma tr it e, kn_ncm sigma tr it e = if (length tr <=? 27 + e)%nat then Raise ValueError else Ok (conformity (27 + e) sigma tr it).
Proof.
  intros sigma tr it e. unfold kn_ncm. rewrite map_length. change kn_k with 27%nat. destruct (length tr <=? 27 + e)%nat; auto. f_equal. rewrite Prop_XStream.nsum_Rsum. unfold conformity. f_equal. f_equal. f_equal. apply map_ext. intros x. apply metric_dist.
Qed.
Lemma item_window : forall vs m, (19 <= m <= length vs)%nat -> kn_item (firstn m vs) = window_at vs m.
Proof.
  intros vs m H. unfold kn_item, window_at. change kn_dim with 19%nat. rewrite firstn_length, Nat.min_l by lia. rewrite firstn_skipn_comm. f_equal. f_equal. lia.
Qed.
Lemma firstn_S_nth : forall B (l : list B) n d, (n < length l)%nat -> firstn (S n) l = firstn n l ++ [nth n l d].
Proof. intros B l. induction l as [|a l IH]; intros [|n] d H; cbn [length] in H; try lia; [reflexivity|]. cbn [firstn nth app]. f_equal. apply IH. lia. Qed.
Lemma lastn_shift : forall B k (l : list B) x, (S k <= length l)%nat -> exists a t, lastn (S k) l = a :: t /\ lastn (S k) (l ++ [x]) = t ++ [x].
Proof.
  intros B k l x H. assert (L : length (lastn (S k) l) = S k) by (rewrite lastn_length; lia). destruct (lastn (S k) l) as [|a t] eqn:E; [discriminate|]. exists a, t. split; auto. rewrite lastn_snoc. f_equal.
  replace k with (length t) by (cbn in L; lia). assert (E2 : lastn k (lastn (S k) l) = lastn k l) by (apply lastn_lastn; lia). rewrite E in E2. cbn in L. assert (k = length t) by lia. subst k. rewrite <- E2. unfold lastn. cbn [length]. replace (S (length t) - length t)%nat with 1%nat by lia. reflexivity.
Qed.
Lemma seq_shift_out : forall B (g : nat -> B) a n, exists t, map g (seq a (S n)) = g a :: t /\ map g (seq (S a) (S n)) = t ++ [g (S a + n)%nat] /\ t = map g (seq (S a) n).
Proof. intros B g a n. exists (map g (seq (S a) n)). split; [reflexivity|]. split; auto. rewrite seq_S, map_app. reflexivity. Qed.

(** ** Invariant, P >= 48 *)
Section KN.
Variables (Y : Type) (inverse : list (list R) -> option (list (list R))) (P : nat).
Hypothesis HP : (48 <= P)%nat.
Definition kn_ok (vs : list R) (n : nat) (s : knst R) : Prop :=
  kn_buf s = firstn n vs /\ kn_count s = n /\ kn_sigma s = (if (n =? 0)%nat then None else Some (sigma_at inverse P vs n)) /\
  if (n <? P)%nat then kn_train s = map (window_at vs) (seq 19 (n - 18)) /\ kn_cal s = [] /\ kn_scores s = []
  else kn_train s = train_at P vs n /\ kn_cal s = map (window_at vs) (seq (P + (n + 1 - 2 * P)) (Nat.min P (n + 1 - P))) /\ kn_scores s = values_at inverse P vs n.
Lemma sigma_before : forall vs n, (n < P)%nat -> sigma_at inverse P vs n = identity.
Proof. intros vs n H. unfold sigma_at. replace (S n - P)%nat with 0%nat by lia. reflexivity. Qed.
Lemma sigma_step : forall vs n, (P <= S n)%nat -> sigma_at inverse P vs (S n) =
  if ((S n mod P =? 0) || (S n mod P =? P / 2))%nat then match inverse (train_at P vs n) with Some sg => sg | None => sigma_at inverse P vs n end else sigma_at inverse P vs n.
Proof.
  intros vs n H. unfold sigma_at at 1. replace (S (S n) - P)%nat with (S (S n - P)) by lia. rewrite seq_S, fold_left_app. cbn [fold_left]. replace (P + (S n - P))%nat with (S n) by lia. replace (S n - 1)%nat with n by lia. reflexivity.
Qed.
Lemma train_len : forall vs n, length (train_at P vs n) = (P - 19)%nat.
Proof. intros. unfold train_at. rewrite map_length, seq_length. reflexivity. Qed.
Lemma values_len : forall vs n, (P <= n)%nat -> length (values_at inverse P vs n) = (P - 19)%nat.
Proof. intros vs n H. unfold values_at. rewrite lastn_length, app_length. unfold initial_values. rewrite map_length, train_len. lia. Qed.
Lemma values_step : forall vs n, (P <= n)%nat -> exists a t, values_at inverse P vs n = a :: t /\ values_at inverse P vs (S n) = t ++ [new_value inverse P vs (S n)].
Proof.
  intros vs n H. unfold values_at. replace (S (S n) - P)%nat with (S (S n - P)) by lia. rewrite seq_S, map_app, app_assoc. cbn [map]. replace (P + (S n - P))%nat with (S n) by lia. replace (P - 19)%nat with (S (P - 20)) by lia. apply lastn_shift. rewrite app_length. unfold initial_values. rewrite map_length, train_len. lia.
Qed.
Lemma values_first : forall vs, exists a t, initial_values inverse P vs = a :: t /\ values_at inverse P vs P = t ++ [new_value inverse P vs P].
Proof.
  intros vs. unfold values_at. replace (S P - P)%nat with 1%nat by lia. cbn [seq map]. assert (L : length (initial_values inverse P vs) = (P - 19)%nat) by (unfold initial_values; rewrite map_length, train_len; auto).
  replace (P - 19)%nat with (S (P - 20)) by lia. destruct (lastn_shift _ (P - 20) (initial_values inverse P vs) (new_value inverse P vs P)) as (a & t & E1 & E2); [lia|]. exists a, t. split; auto. rewrite <- E1. symmetry. apply lastn_all. lia.
Qed.
Lemma train_step : forall vs n, (S n < 2 * P)%nat -> train_at P vs (S n) = train_at P vs n.
Proof. intros vs n H. unfold train_at. replace (S n + 1 - 2 * P)%nat with 0%nat by lia. replace (n + 1 - 2 * P)%nat with 0%nat by lia. reflexivity. Qed.
Lemma kn_fit_step : forall vs n s x (y : option Y), (n < length vs)%nat -> x <> [] -> nth n vs 0 = hd 0 x -> kn_ok vs n s ->
  exists s', md_fit (KNN inverse P) x y s = (Ok tt, s') /\ kn_ok vs (S n) s' /\ kn_pred s' = kn_pred s.
Proof.
  intros vs n s x y Hn Hx Hv (B & C & Sg & T). destruct x as [|x0 x']; [congruence|]. cbn [hd] in Hv. destruct s as [buf train cal scores count pred sigma]. cbn [kn_buf kn_train kn_cal kn_scores kn_count kn_sigma kn_pred] in *. subst buf count.
  cbn [md_fit KNNCAD plain_model]. unfold bind at 1, modify. unfold bind at 1, lift. change (py_index (x0 :: x') 0) with (@Ok R x0). unfold bind at 1.
  set (sg0 := sigma_at inverse P vs n) in *.
  assert (E0 : match sigma with Some _ => mkKN (firstn n vs) train cal scores n pred sigma | None => mkKN (firstn n vs) train cal scores n pred (Some kn_identity) end = mkKN (firstn n vs) train cal scores n pred (Some sg0)).
  { rewrite Sg. destruct (Nat.eqb_spec n 0) as [->|]; auto. unfold sg0. rewrite sigma_before by lia. reflexivity. }
  cbn [kn_sigma kn_buf kn_train kn_cal kn_scores kn_count kn_pred]. rewrite E0. cbn [kn_sigma kn_buf kn_train kn_cal kn_scores kn_count kn_pred]. rewrite <- Hv, <- (firstn_S_nth _ vs n 0) by auto.
  unfold bind at 1, gets. cbn [kn_sigma kn_buf kn_train kn_cal kn_scores kn_count kn_pred]. rewrite firstn_length, Nat.min_l by lia. change kn_dim with 19%nat.
  destruct (Nat.ltb_spec (S n) 19) as [L1|L1].
  - eexists. split; [reflexivity|]. split; [|reflexivity]. unfold kn_ok. cbn [kn_sigma kn_buf kn_train kn_cal kn_scores kn_count kn_pred]. split; auto. split; auto. split; [cbn [Nat.eqb]; unfold sg0; rewrite !sigma_before by lia; reflexivity|].
    destruct (Nat.ltb_spec (S n) P); [|lia]. destruct (Nat.ltb_spec n P); [|lia]. destruct T as (-> & -> & ->). replace (n - 18)%nat with 0%nat by lia. replace (S n - 18)%nat with 0%nat by lia. auto.
  - rewrite item_window by lia. destruct (Nat.ltb_spec (S n) P) as [L2|L2].
    + eexists. split; [reflexivity|]. split; [|reflexivity]. unfold kn_ok. cbn [kn_sigma kn_buf kn_train kn_cal kn_scores kn_count kn_pred]. split; auto. split; auto. split; [cbn [Nat.eqb]; unfold sg0; rewrite !sigma_before by lia; reflexivity|].
      destruct (Nat.ltb_spec (S n) P); [|lia]. destruct (Nat.ltb_spec n P); [|lia]. destruct T as (-> & -> & ->). split; auto. replace (S n - 18)%nat with (S (n - 18)) by lia. rewrite seq_S, map_app. cbn [map]. f_equal. f_equal. f_equal. lia.
    + destruct (Nat.eqb_spec P 0) as [|_]; [lia|].
      assert (Tr : train = train_at P vs n). { destruct (Nat.ltb_spec n P); [|apply T]. destruct T as (-> & _). unfold train_at. replace (n + 1 - 2 * P)%nat with 0%nat by lia. rewrite Nat.add_0_r. f_equal. f_equal. lia. }
      assert (Cl : cal = map (window_at vs) (seq (P + (n + 1 - 2 * P)) (Nat.min P (n + 1 - P)))). { destruct (Nat.ltb_spec n P); [|apply T]. destruct T as (_ & -> & _). replace (n + 1 - P)%nat with 0%nat by lia. rewrite Nat.min_0_r. reflexivity. }
      unfold bind at 1.
      assert (E1 : kn_update_sigma inverse P (mkKN (firstn (S n) vs) train cal scores (S n) pred (Some sg0)) = (Ok tt, mkKN (firstn (S n) vs) train cal scores (S n) pred (Some (sigma_at inverse P vs (S n))))).
      { rewrite sigma_step by auto. fold sg0. rewrite <- Tr. unfold kn_update_sigma, bind, gets, modify. cbn [kn_sigma kn_buf kn_train kn_cal kn_scores kn_count kn_pred]. destruct ((S n mod P =? 0) || (S n mod P =? P / 2))%nat; [|reflexivity]. destruct (inverse train); reflexivity. }
      rewrite E1. clear E1. cbn [kn_sigma kn_buf kn_train kn_cal kn_scores kn_count kn_pred]. set (sg := sigma_at inverse P vs (S n)) in *.
      assert (Ln : length train = (P - 19)%nat) by (rewrite Tr; apply train_len).
      unfold bind at 1.
      assert (E1 : exists a0 t0, kn_init_scores (mkKN (firstn (S n) vs) train cal scores (S n) pred (Some sg)) = (Ok tt, mkKN (firstn (S n) vs) train cal (a0 :: t0) (S n) pred (Some sg)) /\ values_at inverse P vs (S n) = t0 ++ [new_value inverse P vs (S n)]).
      { unfold kn_init_scores, bind, gets, modify, lift, kn_matrix. cbn [kn_sigma kn_buf kn_train kn_cal kn_scores kn_count kn_pred]. destruct (Nat.ltb_spec n P) as [L3|L3].
        - destruct T as (_ & _ & ->). cbn [length Nat.eqb]. assert (En : S n = P) by lia. destruct (values_first vs) as (a0 & t0 & V1 & V2). exists a0, t0. rewrite En. split; [|auto].
          assert (Er : res_map (fun v => kn_ncm sg train v 1) train = Ok (initial_values inverse P vs)).
          { unfold initial_values. replace (P - 1)%nat with n by lia. rewrite <- Tr. unfold sg. rewrite En. assert (G : forall l, res_map (fun v => kn_ncm (sigma_at inverse P vs P) train v 1) l = Ok (map (conformity 28 (sigma_at inverse P vs P) train) l)). { induction l as [|v l IH]; [reflexivity|]. cbn [res_map map]. rewrite ncm_value. destruct (Nat.leb_spec (length train) (27 + 1)); [lia|]. cbn [rbind]. rewrite IH. reflexivity. } apply G. }
          rewrite Er, V1. reflexivity.
        - destruct T as (_ & _ & ->). destruct (values_step vs n L3) as (a0 & t0 & V1 & V2). exists a0, t0. rewrite V1. split; [reflexivity|auto]. }
      destruct E1 as (a0 & t0 & E1 & V2). rewrite E1. clear E1. unfold bind at 1. cbn [kn_sigma kn_buf kn_train kn_cal kn_scores kn_count kn_pred]. change (kn_matrix _) with sg. unfold bind at 1. rewrite ncm_value. destruct (Nat.leb_spec (length train) (27 + 0)); [lia|]. change (27 + 0)%nat with 27%nat.
      assert (En : conformity 27 sg train (window_at vs (S n)) = new_value inverse P vs (S n)). { unfold new_value. replace (S n - 1)%nat with n by lia. rewrite <- Tr. reflexivity. }
      rewrite En. unfold bind at 1. unfold kn_rotate, bind, gets, modify. cbn [kn_sigma kn_buf kn_train kn_cal kn_scores kn_count kn_pred]. destruct (Nat.leb_spec (2 * P) (S n)) as [L4|L4].
      * destruct (seq_shift_out _ (window_at vs) (19 + (n + 1 - 2 * P)) (P - 20)) as (tt1 & A1 & A2 & _). replace (S (P - 20)) with (P - 19)%nat in * by lia.
        replace (Nat.min P (n + 1 - P)) with (S (P - 1)) in Cl by lia. destruct (seq_shift_out _ (window_at vs) (P + (n + 1 - 2 * P)) (P - 1)) as (tt2 & B1 & B2 & _). rewrite B1 in Cl. fold (train_at P vs n) in A1. rewrite A1 in Tr. rewrite Tr, Cl. cbn [kn_sigma kn_buf kn_train kn_cal kn_scores kn_count kn_pred].
        eexists. split; [reflexivity|]. split; [|reflexivity]. unfold kn_ok. cbn [kn_sigma kn_buf kn_train kn_cal kn_scores kn_count kn_pred]. split; auto. split; auto. split; auto. destruct (Nat.ltb_spec (S n) P); [lia|]. split; [|split].
        -- unfold train_at. replace (19 + (S n + 1 - 2 * P))%nat with (S (19 + (n + 1 - 2 * P))) by lia. rewrite A2. f_equal. f_equal. f_equal. lia.
        -- replace (Nat.min P (S n + 1 - P)) with (S (P - 1)) by lia. replace (P + (S n + 1 - 2 * P))%nat with (S (P + (n + 1 - 2 * P))) by lia. rewrite B2. f_equal. f_equal. f_equal. lia.
        -- symmetry. exact V2.
      * unfold ret. eexists. split; [reflexivity|]. split; [|reflexivity]. unfold kn_ok. cbn [kn_sigma kn_buf kn_train kn_cal kn_scores kn_count kn_pred]. split; auto. split; auto. split; auto. destruct (Nat.ltb_spec (S n) P); [lia|]. split; [|split].
        -- rewrite train_step by auto. auto.
        -- rewrite Cl. replace (n + 1 - 2 * P)%nat with 0%nat by lia. replace (S n + 1 - 2 * P)%nat with 0%nat by lia. replace (Nat.min P (S n + 1 - P)) with (S (Nat.min P (n + 1 - P))) by lia. rewrite seq_S, map_app. cbn [map]. f_equal. f_equal. f_equal. lia.
        -- symmetry. exact V2.
Qed.

Notation KM := (KNNCAD (Y := Y) (1 / 2) (9965 / 10000) inverse P).
Lemma kn_score_step : forall vs n s x, (n <= length vs)%nat -> kn_ok vs n s -> exists s', kn_ok vs n s' /\
  if (n =? 0)%nat then md_score KM x s = (Raise AttributeError, s') /\ kn_pred s' = kn_pred s
  else if (n <? P)%nat then md_score KM x s = (Ok (VScalar 0), s') /\ kn_pred s' = kn_pred s
  else if (0 <? kn_pred s)%Z then md_score KM x s = (Ok (VScalar (1 / 2)), s') /\ kn_pred s' = (kn_pred s - 1)%Z
  else let r := conformal inverse P vs n in md_score KM x s = (Ok (VScalar r), s') /\ kn_pred s' = if Rle_dec (9965 / 10000) r then Z.of_nat (P / 5) else kn_pred s.
Proof.
  intros vs n s x Hn (B & C & Sg & T). destruct s as [buf train cal scores count pred sigma]. cbn [kn_buf kn_train kn_cal kn_scores kn_count kn_sigma kn_pred] in *. subst buf count sigma.
  cbn [md_score KNNCAD plain_model]. unfold bind, gets. cbn [kn_buf kn_train kn_cal kn_scores kn_count kn_sigma kn_pred]. destruct (Nat.eqb_spec n 0) as [->|Hn0].
  - eexists. split; [|split; reflexivity]. unfold kn_ok. cbn [kn_buf kn_train kn_cal kn_scores kn_count kn_sigma kn_pred Nat.eqb]. auto.
  - rewrite firstn_length, Nat.min_l by lia. change kn_dim with 19%nat. destruct (Nat.ltb_spec n P) as [L|L].
    + rewrite orb_true_r. eexists. split; [|split; reflexivity]. unfold kn_ok. cbn [kn_buf kn_train kn_cal kn_scores kn_count kn_sigma kn_pred]. destruct (Nat.eqb_spec n 0); [lia|]. destruct (Nat.ltb_spec n P); [|lia]. auto.
    + destruct (Nat.ltb_spec n 19); [lia|]. cbn [orb]. destruct T as (-> & -> & ->). unfold lift. rewrite item_window by lia. rewrite ncm_value, train_len. destruct (Nat.leb_spec (P - 19) (27 + 0)); [lia|]. change (27 + 0)%nat with 27%nat.
      rewrite values_len by auto.
      assert (E : pydiv (nofZ (Z.of_nat (length (filter (fun c => @oltb R (@num_ord R NumR) c (conformity 27 (sigma_at inverse P vs n) (train_at P vs n) (window_at vs n))) (values_at inverse P vs n))))) (nofZ (Z.of_nat (P - 19))) = Ok (conformal inverse P vs n)).
      { unfold pydiv. cbn [nofZ NumR oeqb num_ord OrdR n0]. destruct (Reqb (IZR (Z.of_nat (P - 19))) 0) eqn:Q. { apply Reqb_eq in Q. rewrite <- INR_IZR_INZ in Q. assert (0 < INR (P - 19)) by (apply lt_0_INR; lia). lra. } unfold conformal. cbn [ndiv NumR]. rewrite <- !INR_IZR_INZ. reflexivity. }
      rewrite E. set (r := conformal inverse P vs n).
      assert (OK : forall pr, kn_ok vs n (mkKN (firstn n vs) (train_at P vs n) (map (window_at vs) (seq (P + (n + 1 - 2 * P)) (Nat.min P (n + 1 - P)))) (values_at inverse P vs n) n pr (Some (sigma_at inverse P vs n)))).
      { intros pr. unfold kn_ok. cbn [kn_buf kn_train kn_cal kn_scores kn_count kn_sigma kn_pred]. destruct (Nat.eqb_spec n 0); [lia|]. destruct (Nat.ltb_spec n P); [lia|]. auto 10. }
      destruct (Z.ltb_spec 0 pred).
      * unfold modify, ret. cbn [kn_buf kn_train kn_cal kn_scores kn_count kn_sigma kn_pred]. eexists. split; [|split; [reflexivity|reflexivity]]. apply OK.
      * cbv zeta. cbn [oleb num_ord NumR OrdR]. unfold Rleb. destruct (Rle_dec (9965 / 10000) r); unfold modify, ret; cbn [kn_buf kn_train kn_cal kn_scores kn_count kn_sigma kn_pred]; eexists; (split; [|split; [reflexivity|reflexivity]]); apply OK.
Qed.
(** Runs: the invariant holds whatever values come later. *)
Definition kn_inv (xs : list (list R)) (s : knst R) : Prop := forall rest, Forall (fun x => x <> []) xs -> kn_ok (firsts xs ++ rest) (length xs) s.
Lemma firsts_app : forall xs x rest, firsts (xs ++ [x]) ++ rest = firsts xs ++ (hd 0 x :: rest).
Proof. intros. unfold firsts. rewrite map_app, <- app_assoc. reflexivity. Qed.
Lemma kn_fit_inv : forall xs s x (y : option Y), Forall (fun x => x <> []) (xs ++ [x]) -> kn_inv xs s -> exists s', md_fit KM x y s = (Ok tt, s') /\ kn_inv (xs ++ [x]) s' /\ kn_pred s' = kn_pred s.
Proof.
  intros xs s x y F I. pose proof F as F0. apply Forall_app in F. destruct F as [F Fx]. apply Forall_inv in Fx.
  assert (G : forall rest, exists s', md_fit KM x y s = (Ok tt, s') /\ kn_ok (firsts (xs ++ [x]) ++ rest) (length (xs ++ [x])) s' /\ kn_pred s' = kn_pred s).
  { intros rest. rewrite firsts_app, app_length. cbn [length]. rewrite Nat.add_1_r. apply kn_fit_step; auto.
    - unfold firsts. rewrite app_length, map_length. cbn [length]. lia.
    - unfold firsts. rewrite app_nth2 by (rewrite map_length; lia). rewrite map_length, Nat.sub_diag. reflexivity. }
  destruct (G []) as (s' & E & _ & Pr). exists s'. split; auto. split; auto. intros rest _. destruct (G rest) as (s'' & E' & K & _). rewrite E in E'. injection E' as <-. auto.
Qed.
Lemma kn_score_inv : forall xs s x, Forall (fun x => x <> []) xs -> kn_inv xs s -> exists s', kn_inv xs s' /\ let n := length xs in
  if (n =? 0)%nat then md_score KM x s = (Raise AttributeError, s') /\ kn_pred s' = kn_pred s
  else if (n <? P)%nat then md_score KM x s = (Ok (VScalar 0), s') /\ kn_pred s' = kn_pred s
  else if (0 <? kn_pred s)%Z then md_score KM x s = (Ok (VScalar (1 / 2)), s') /\ kn_pred s' = (kn_pred s - 1)%Z
  else let r := conformal inverse P (firsts xs) n in md_score KM x s = (Ok (VScalar r), s') /\ kn_pred s' = if Rle_dec (9965 / 10000) r then Z.of_nat (P / 5) else kn_pred s.
Proof.
  intros xs s x F I. assert (L : forall rest, (length xs <= length (firsts xs ++ rest))%nat) by (intros; unfold firsts; rewrite app_length, map_length; lia).
  pose proof (I [] F) as I0. rewrite app_nil_r in I0. destruct (kn_score_step (firsts xs) (length xs) s x ltac:(specialize (L []); rewrite app_nil_r in L; auto) I0) as (s' & K & H). exists s'. split.
  - intros rest _. destruct (kn_score_step (firsts xs ++ rest) (length xs) s x (L rest) (I rest F)) as (s2 & K2 & H2). replace s' with s2; auto. revert H H2. cbv zeta. destruct (length xs =? 0)%nat, (length xs <? P)%nat, (0 <? kn_pred s)%Z; intros [A _] [B _]; congruence.
  - exact H.
Qed.
Lemma kn_run : forall (h : list (mcall (list R) Y)), kn_inv (fitted_instances h) (model_run KM KNNCAD_init h).
Proof.
  intros h. refine (plain_run_all _ _ _ _ _ _ kn_inv _ _ h _ _).
  - intros xs s x y I rest F. destruct (kn_fit_inv xs s x y F I) as (s' & E & I' & _). unfold exec. cbn [md_fit KNNCAD plain_model] in E. rewrite E. apply I'. auto.
  - intros xs s x I rest F. destruct (kn_score_inv xs s x F I) as (s' & I' & H). change (kn_ok (firsts xs ++ rest) (length xs) (exec (md_score KM x) s)). unfold exec. revert H. cbv zeta. destruct (length xs =? 0)%nat; [|destruct (length xs <? P)%nat; [|destruct (0 <? kn_pred s)%Z]]; intros [E _]; rewrite E; apply I'; auto.
  - intros rest _. unfold kn_ok. cbn [length KNNCAD_init kn_buf kn_train kn_cal kn_scores kn_count kn_sigma firstn Nat.eqb]. destruct (Nat.ltb_spec 0 P); [|lia]. auto 10.
Qed.
End KN.

(** ** C66 *)
(** After any history of non-empty instances, n of them fitted, with P >= 48: fit_partial succeeds; the training set consists of
    P - 19 windows once n >= P - 1, the score set of P - 19 values and the calibration queue of at most P windows. *)
Theorem C66_reference_sets : forall Y inverse P (h : list (mcall (list R) Y)), (48 <= P)%nat -> let xs := fitted_instances h in let n := length xs in let vs := firsts xs in
  Forall (fun x => x <> []) xs -> let s := model_run (KNN inverse P) KNNCAD_init h in
  (forall x y, x <> [] -> eval (md_fit (KNN inverse P) x y) s = Ok tt) /\
  ((n < P)%nat -> length (kn_train s) = (n - 18)%nat /\ kn_cal s = [] /\ kn_scores s = []) /\
  ((P <= n)%nat -> length (kn_train s) = (P - 19)%nat /\ length (kn_scores s) = (P - 19)%nat /\ length (kn_cal s) = Nat.min P (n + 1 - P) /\
     kn_train s = map (window_at vs) (seq (19 + (n + 1 - 2 * P)) (P - 19)) /\
     kn_cal s = map (window_at vs) (seq (P + (n + 1 - 2 * P)) (Nat.min P (n + 1 - P))) /\
     kn_scores s = values_at inverse P vs n).
Proof.
  intros Y inverse P h HP xs n vs F s. pose proof (kn_run Y inverse P HP h) as I. fold xs in I. fold s in I. split.
  - intros x y Hx. destruct (kn_fit_inv Y inverse P HP xs s x y) as (s' & E & _); auto. { apply Forall_app. auto. } unfold eval. rewrite E. reflexivity.
  - pose proof (I [] F) as (B & C & Sg & T). rewrite app_nil_r in *. fold n in T. fold vs in T. split; intros Hn.
    + destruct (Nat.ltb_spec n P); [|lia]. destruct T as (-> & -> & ->). rewrite map_length, seq_length. auto.
    + destruct (Nat.ltb_spec n P); [lia|]. destruct T as (E1 & E2 & E3). rewrite E1, E2, E3. rewrite train_len, values_len by auto. rewrite map_length, seq_length. auto 10.
Qed.
Print Assumptions C66_reference_sets.
(** The score: an error before the first fit, 0 during the probationary period, and then 1/2 or the conformal score, the
    fraction of the score set below the conformity of the latest window. *)
Theorem C66_score : forall Y inverse P (h : list (mcall (list R) Y)) x, (48 <= P)%nat -> let xs := fitted_instances h in let n := length xs in
  Forall (fun x => x <> []) xs -> let s := model_run (KNN inverse P) KNNCAD_init h in let v := eval (md_score (KNN inverse P) x) s in
  (n = 0%nat -> v = Raise AttributeError) /\ ((1 <= n < P)%nat -> v = Ok (VScalar 0)) /\
  ((P <= n)%nat -> v = Ok (VScalar (if (0 <? kn_pred s)%Z then 1 / 2 else conformal inverse P (firsts xs) n)) /\ 0 <= conformal inverse P (firsts xs) n <= 1).
Proof.
  intros Y inverse P h x HP xs n F s v. pose proof (kn_run Y inverse P HP h) as I. fold xs in I. fold s in I. destruct (kn_score_inv Y inverse P HP xs s x F I) as (s' & _ & H). cbv zeta in H. fold n in H. unfold v, eval. split; [|split]; intros Hn.
  - destruct (Nat.eqb_spec n 0); [|lia]. destruct H as [-> _]. reflexivity.
  - destruct (Nat.eqb_spec n 0); [lia|]. destruct (Nat.ltb_spec n P); [|lia]. destruct H as [-> _]. reflexivity.
  - destruct (Nat.eqb_spec n 0); [lia|]. destruct (Nat.ltb_spec n P); [lia|]. split; [destruct (0 <? kn_pred s)%Z; destruct H as [-> _]; reflexivity|].
    unfold conformal. pose proof (filter_length_le _ (fun c => Rltb c (conformity 27 (sigma_at inverse P (firsts xs) n) (train_at P (firsts xs) n) (window_at (firsts xs) n))) (values_at inverse P (firsts xs) n)) as L. rewrite values_len in L by auto. apply le_INR in L. pose proof (pos_INR (length (filter (fun c => Rltb c (conformity 27 (sigma_at inverse P (firsts xs) n) (train_at P (firsts xs) n) (window_at (firsts xs) n))) (values_at inverse P (firsts xs) n)))).
    assert (0 < INR (P - 19)) by (apply lt_0_INR; lia). split.
    + apply Rmult_le_pos; auto. left. apply Rinv_0_lt_compat; auto.
    + apply Rmult_le_reg_r with (INR (P - 19)); auto. unfold Rdiv. rewrite Rmult_assoc, Rinv_l by lra. lra.
Qed.
Print Assumptions C66_score.
Lemma scorings_app : forall X Y (a b : list (mcall X Y)), scorings (a ++ b) = (scorings a + scorings b)%nat.
Proof. intros. unfold scorings. rewrite filter_app, app_length. reflexivity. Qed.
Lemma pred_run : forall Y inverse P (HP : (48 <= P)%nat) (h : list (mcall (list R) Y)) xs s p, Forall (fun x => x <> []) (xs ++ fitted_instances h) -> kn_inv inverse P xs s -> (P <= length xs)%nat -> kn_pred s = Z.of_nat p -> (scorings h <= p)%nat ->
  kn_pred (model_run (KNN inverse P) s h) = Z.of_nat (p - scorings h).
Proof.
  intros Y inverse P HP h. induction h as [|o h IH]; intros xs s p F I Hn Hp Hk; [cbn; rewrite Hp; f_equal; lia|]. change (model_run (KNN inverse P) s (o :: h)) with (model_run (KNN inverse P) (model_do (KNN inverse P) s o) h).
  assert (SC : forall xs' s1 x, Forall (fun x => x <> []) xs' -> (P <= length xs')%nat -> kn_inv inverse P xs' s1 -> (0 < kn_pred s1)%Z -> kn_inv inverse P xs' (snd (md_score (KNNCAD (Y := Y) (1 / 2) (9965 / 10000) inverse P) x s1)) /\ kn_pred (snd (md_score (KNNCAD (Y := Y) (1 / 2) (9965 / 10000) inverse P) x s1)) = (kn_pred s1 - 1)%Z).
  { intros xs' s1 x F1 L1 I1 P1. destruct (kn_score_inv Y inverse P HP xs' s1 x F1 I1) as (s' & I' & H). cbv zeta in H. destruct (Nat.eqb_spec (length xs') 0); [lia|]. destruct (Nat.ltb_spec (length xs') P); [lia|]. destruct (Z.ltb_spec 0 (kn_pred s1)); [|lia]. destruct H as [-> H]. auto. }
  change (o :: h) with ([o] ++ h) in Hk, F |- *. rewrite scorings_app in *. rewrite fitted_instances_app, app_assoc in F. pose proof F as F'. apply Forall_app in F'. destruct F' as [F1 _].
  destruct o as [x y|x|x y]; unfold model_do, exec, model_call.
  - cbn [fitted_instances fitted_calls flat_map call_fit map fst app] in F, F1. destruct (kn_fit_inv Y inverse P HP xs s x y F1 I) as (s' & E & I' & Pr). rewrite E. cbn [snd]. rewrite (IH (xs ++ [x]) s' p); auto; [rewrite app_length; lia|congruence].
  - cbn [fitted_instances fitted_calls flat_map call_fit map fst app] in F, F1. rewrite app_nil_r in F, F1. change (scorings [@CScore (list R) Y x]) with 1%nat in *. destruct (SC xs s x F1 Hn I ltac:(lia)) as [I' Pr]. destruct (md_score (KNNCAD (Y := Y) (1 / 2) (9965 / 10000) inverse P) x s) as [v s'] eqn:Es. cbn [snd] in *.
    rewrite (IH xs s' (p - 1)%nat); auto; [f_equal; lia|lia|lia].
  - cbn [fitted_instances fitted_calls flat_map call_fit map fst app] in F, F1. change (scorings [@CFitScore (list R) Y x y]) with 1%nat in *. destruct (kn_fit_inv Y inverse P HP xs s x y F1 I) as (s' & E & I' & Pr). cbn [md_fit_score KNNCAD plain_model]. unfold default_fit_score, bind at 1. cbn [md_fit KNNCAD plain_model] in E. rewrite E.
    destruct (SC (xs ++ [x]) s' x F1 ltac:(rewrite app_length; lia) I' ltac:(lia)) as [I2 Pr2]. cbn [md_score KNNCAD plain_model] in I2, Pr2. match goal with |- context [match ?t with (_, _) => _ end] => destruct t as [v s2] eqn:Es end. cbn [snd] in *.
    rewrite (IH (xs ++ [x]) s2 (p - 1)%nat); auto; [f_equal; lia|rewrite app_length; lia|lia|lia].
Qed.
(** After a score of at least 0.9965 (outside a refractory period) the next P / 5 scoring calls all return 1/2, and the one
    after them the conformal score again. *)
Theorem C66_refractory : forall Y inverse P (h h' : list (mcall (list R) Y)) x x', (48 <= P)%nat -> Forall (fun x => x <> []) (fitted_instances (h ++ h')) -> (P <= length (fitted_instances h))%nat ->
  let s := model_run (KNN inverse P) KNNCAD_init h in (kn_pred s <= 0)%Z -> 9965 / 10000 <= conformal inverse P (firsts (fitted_instances h)) (length (fitted_instances h)) ->
  let s' := model_run (KNN inverse P) s (CScore x :: h') in
  ((scorings h' < P / 5)%nat -> eval (md_score (KNN inverse P) x') s' = Ok (VScalar (1 / 2))) /\
  (scorings h' = (P / 5)%nat -> eval (md_score (KNN inverse P) x') s' = Ok (VScalar (conformal inverse P (firsts (fitted_instances (h ++ h'))) (length (fitted_instances (h ++ h')))))).
Proof.
  intros Y inverse P h h' x x' HP F Hn s Hpr Hr s'. pose proof (kn_run Y inverse P HP h) as I. fold s in I. pose proof F as F'. rewrite fitted_instances_app in F'. pose proof F' as F1. apply Forall_app in F1. destruct F1 as [F1 _].
  destruct (kn_score_inv Y inverse P HP _ s x F1 I) as (s1 & I1 & H). cbv zeta in H. destruct (Nat.eqb_spec (length (fitted_instances h)) 0); [lia|]. destruct (Nat.ltb_spec (length (fitted_instances h)) P); [lia|]. destruct (Z.ltb_spec 0 (kn_pred s)); [lia|]. destruct H as [Es Hp1]. destruct (Rle_dec _ _); [|contradiction].
  assert (Es' : s' = model_run (KNN inverse P) s1 h'). { unfold s'. change (model_run (KNN inverse P) s (CScore x :: h')) with (model_run (KNN inverse P) (model_do (KNN inverse P) s (CScore x)) h'). unfold model_do, exec, model_call. rewrite Es. reflexivity. }
  assert (Es2 : s' = model_run (KNN inverse P) KNNCAD_init (h ++ CScore x :: h')) by (unfold s', s; rewrite model_run_app; reflexivity).
  assert (Ef : fitted_instances (h ++ CScore x :: h') = fitted_instances (h ++ h')) by (rewrite !fitted_instances_app; reflexivity).
  assert (Hl : (P <= length (fitted_instances (h ++ h')))%nat) by (rewrite fitted_instances_app, app_length; lia).
  split; intros Hk.
  - destruct (C66_score Y inverse P (h ++ CScore x :: h') x' HP) as (_ & _ & G); [rewrite Ef; auto|]. rewrite Ef in G. destruct (G Hl) as [G1 _]. rewrite Es2, G1, <- Es2, Es'. rewrite (pred_run Y inverse P HP h' _ s1 (P / 5)%nat F' I1 Hn Hp1 ltac:(lia)). destruct (Z.ltb_spec 0 (Z.of_nat (P / 5 - scorings h'))); [reflexivity|lia].
  - destruct (C66_score Y inverse P (h ++ CScore x :: h') x' HP) as (_ & _ & G); [rewrite Ef; auto|]. rewrite Ef in G. destruct (G Hl) as [G1 _]. rewrite Es2, G1, <- Es2, Es'. rewrite (pred_run Y inverse P HP h' _ s1 (P / 5)%nat F' I1 Hn Hp1 ltac:(lia)). destruct (Z.ltb_spec 0 (Z.of_nat (P / 5 - scorings h'))); [lia|reflexivity].
Qed.
Print Assumptions C66_refractory.

(** ** C85 *)
(** score_partial does not look at the instance it is given. *)
Theorem C85_score_ignores_its_argument : forall A Y (NA : Num A) half alarm inverse P x x' (s : knst A),
  md_score (KNNCAD (Y := Y) half alarm inverse P) x s = md_score (KNNCAD (Y := Y) half alarm inverse P) x' s.
Proof. reflexivity. Qed.
Print Assumptions C85_score_ignores_its_argument.
(** Features other than the first are ignored: two histories that agree on them give the same scores. *)
Definition same_first {X Y} (a b : mcall (list X) Y) : Prop :=
  match a, b with
  | CFit x _, CFit x' _ => hd_error x = hd_error x'
  | CScore _, CScore _ => True
  | CFitScore x _, CFitScore x' _ => hd_error x = hd_error x'
  | _, _ => False
  end.
Theorem C85_only_first_feature_matters : forall A Y (NA : Num A) half alarm inverse P (h h' : list (mcall (list A) Y)) s, Forall2 same_first h h' ->
  model_run (KNNCAD half alarm inverse P) s h = model_run (KNNCAD half alarm inverse P) s h' /\ model_scores (KNNCAD half alarm inverse P) s h = model_scores (KNNCAD half alarm inverse P) s h'.
Proof.
  intros A Y NA half alarm inverse P h h' s F. revert s. induction F as [|a b h h' E F IH]; intros s; auto.
  assert (EF : forall x x' (y y' : option Y) s, hd_error x = hd_error x' -> md_fit (KNNCAD half alarm inverse P) x y s = md_fit (KNNCAD half alarm inverse P) x' y' s).
  { intros x x' y y' s0 Eh. cbn [md_fit KNNCAD plain_model]. assert (py_index x 0 = py_index x' 0) as ->; auto. unfold py_index. destruct x, x'; cbn in *; congruence. }
  assert (G : forall s, model_call (KNNCAD half alarm inverse P) a s = model_call (KNNCAD half alarm inverse P) b s).
  { intros s0. destruct a as [x y|x|x y], b as [x' y'|x'|x' y']; try contradiction; cbn [same_first] in E; unfold model_call.
    - rewrite (EF x x' y y' s0 E). reflexivity.
    - reflexivity.
    - cbn [md_fit_score KNNCAD plain_model]. unfold default_fit_score, bind at 1. specialize (EF x x' y y' s0 E). cbn [md_fit KNNCAD plain_model] in EF. rewrite EF. reflexivity. }
  change (model_run (KNNCAD half alarm inverse P) s (a :: h)) with (model_run (KNNCAD half alarm inverse P) (model_do (KNNCAD half alarm inverse P) s a) h). change (model_run (KNNCAD half alarm inverse P) s (b :: h')) with (model_run (KNNCAD half alarm inverse P) (model_do (KNNCAD half alarm inverse P) s b) h').
  cbn [model_scores]. assert (D : model_do (KNNCAD half alarm inverse P) s a = model_do (KNNCAD half alarm inverse P) s b) by (unfold model_do, exec; rewrite G; auto). rewrite D. destruct (IH (model_do (KNNCAD half alarm inverse P) s b)) as [-> ->]. unfold eval. rewrite G. auto.
Qed.
Print Assumptions C85_only_first_feature_matters.
(** During the P fits after the probationary period the latest window is itself in the score set, so the score stays
    below 1; an alarm needs P >= 305. *)
Theorem C85_no_alarm_before_2P : forall inverse P vs n, (48 <= P)%nat -> (P <= n < 2 * P)%nat ->
  conformal inverse P vs n <= INR (P - 20) / INR (P - 19) /\ ((P < 305)%nat -> conformal inverse P vs n < 9965 / 10000).
Proof.
  intros inverse P vs n HP Hn. assert (Hd : 0 < INR (P - 19)) by (apply lt_0_INR; lia).
  assert (G : conformal inverse P vs n <= INR (P - 20) / INR (P - 19)).
  { unfold conformal. apply Rmult_le_compat_r; [left; apply Rinv_0_lt_compat; auto|]. apply le_INR.
    assert (E : conformity 27 (sigma_at inverse P vs n) (train_at P vs n) (window_at vs n) = new_value inverse P vs n). { unfold new_value. f_equal. destruct n as [|n]; [lia|]. replace (S n - 1)%nat with n by lia. apply train_step; lia. }
    rewrite E. assert (V : exists t, values_at inverse P vs n = t ++ [new_value inverse P vs n]). { destruct (Nat.eq_dec n P) as [->|]; [destruct (values_first inverse P HP vs) as (? & t & _ & V); eauto|]. destruct n as [|n]; [lia|]. destruct (values_step inverse P HP vs n ltac:(lia)) as (? & t & _ & V). eauto. }
    destruct V as [t V]. pose proof (values_len inverse P HP vs n ltac:(lia)) as L. rewrite V in *. rewrite app_length in L. cbn [length] in L. rewrite filter_app, app_length. cbn [filter]. assert (Rltb (new_value inverse P vs n) (new_value inverse P vs n) = false) as -> by (apply Rltb_nlt; lra). cbn [length].
    pose proof (filter_length_le _ (fun c => Rltb c (new_value inverse P vs n)) t). lia. }
  split; auto. intros Hp. eapply Rle_lt_trans; [exact G|]. apply Rmult_lt_reg_r with (INR (P - 19)); auto. unfold Rdiv at 1. rewrite Rmult_assoc, Rinv_l by lra. rewrite Rmult_1_r. replace (P - 19)%nat with (S (P - 20)) by lia. rewrite S_INR. assert (INR (P - 20) <= INR 284) by (apply le_INR; lia). replace (INR 284) with 284 in H by (rewrite INR_IZR_INZ; reflexivity). lra.
Qed.
Print Assumptions C85_no_alarm_before_2P.

(** ** C67 *)
Section KNsmall.
Variables (Y : Type) (inverse : list (list R) -> option (list (list R))) (P : nat).
Hypothesis HP : (1 <= P < 48)%nat.
Notation KM := (KNNCAD (Y := Y) (1 / 2) (9965 / 10000) inverse P).
Definition small_inv (xs : list (list R)) (s : knst R) : Prop := Forall (fun x => x <> []) xs ->
  length (kn_buf s) = length xs /\ kn_count s = length xs /\ length (kn_train s) = (Nat.min (length xs) (P - 1) - 18)%nat /\ kn_scores s = [] /\ (kn_sigma s = None <-> xs = []).
Lemma res_map_fail : forall B C (g : B -> res C) l e, l <> [] -> (forall b, In b l -> g b = Raise e) -> res_map g l = Raise e.
Proof. intros B C g [|b l] e Hl H; [congruence|]. cbn [res_map]. rewrite H by (left; auto). reflexivity. Qed.
Lemma small_fit : forall xs s x (y : option Y), Forall (fun x => x <> []) (xs ++ [x]) -> small_inv xs s ->
  exists s', md_fit KM x y s = (if (S (length xs) <? Nat.max 19 P)%nat then Ok tt else Raise ValueError, s') /\ small_inv (xs ++ [x]) s'.
Proof.
  intros xs s x y F I. pose proof F as F0. apply Forall_app in F. destruct F as [F Fx]. apply Forall_inv in Fx. destruct (I F) as (B & C & T & Sc & Sg). destruct x as [|x0 x']; [congruence|]. destruct s as [buf train cal scores count pred sigma]. cbn [kn_buf kn_train kn_cal kn_scores kn_count kn_sigma kn_pred] in *. subst count scores.
  cbn [md_fit KNNCAD plain_model]. unfold bind at 1, modify. unfold bind at 1, lift. change (py_index (x0 :: x') 0) with (@Ok R x0). unfold bind at 1. cbn [kn_sigma kn_buf kn_train kn_cal kn_scores kn_count kn_pred].
  assert (E0 : exists sg, match sigma with Some _ => mkKN buf train cal [] (length xs) pred sigma | None => mkKN buf train cal [] (length xs) pred (Some kn_identity) end = mkKN buf train cal [] (length xs) pred (Some sg)) by (destruct sigma; eexists; reflexivity).
  destruct E0 as [sg0 E0]. rewrite E0. cbn [kn_sigma kn_buf kn_train kn_cal kn_scores kn_count kn_pred]. unfold bind at 1, gets. cbn [kn_sigma kn_buf kn_train kn_cal kn_scores kn_count kn_pred]. rewrite app_length. cbn [length]. rewrite B, Nat.add_1_r. change kn_dim with 19%nat. set (n := length xs) in *.
  assert (OK : forall buf' train' cal' pr sg, length buf' = S n -> length train' = (Nat.min (S n) (P - 1) - 18)%nat -> small_inv (xs ++ [x0 :: x']) (mkKN buf' train' cal' [] (S n) pr (Some sg))).
  { intros buf' train' cal' pr sg L1 L2 _. cbn [kn_sigma kn_buf kn_train kn_cal kn_scores kn_count kn_pred]. rewrite app_length. cbn [length]. fold n. rewrite Nat.add_1_r. split; auto. split; auto. split; auto. split; auto. split; [discriminate|]. intros E. apply app_eq_nil in E. destruct E; discriminate. }
  assert (Lb : length (buf ++ [x0]) = S n) by (rewrite app_length; cbn [length]; lia).
  destruct (Nat.ltb_spec (S n) 19) as [L1|L1].
  - destruct (Nat.ltb_spec (S n) (Nat.max 19 P)); [|lia]. eexists. split; [reflexivity|]. apply OK; auto. lia.
  - destruct (Nat.ltb_spec (S n) P) as [L2|L2].
    + destruct (Nat.ltb_spec (S n) (Nat.max 19 P)); [|lia]. eexists. split; [reflexivity|]. apply OK; auto. cbn [kn_train]. rewrite app_length. cbn [length]. lia.
    + destruct (Nat.ltb_spec (S n) (Nat.max 19 P)); [lia|]. destruct (Nat.eqb_spec P 0) as [|_]; [lia|]. unfold bind at 1.
      assert (E1 : exists sg, kn_update_sigma inverse P (mkKN (buf ++ [x0]) train cal [] (S n) pred (Some sg0)) = (Ok tt, mkKN (buf ++ [x0]) train cal [] (S n) pred (Some sg))).
      { unfold kn_update_sigma, bind, gets, modify. cbn [kn_sigma kn_buf kn_train kn_cal kn_scores kn_count kn_pred]. destruct ((S n mod P =? 0) || (S n mod P =? P / 2))%nat; [|eexists; reflexivity]. destruct (inverse train); eexists; reflexivity. }
      destruct E1 as [sg E1]. rewrite E1. unfold bind at 1. unfold kn_init_scores. unfold bind at 1, gets. cbn [kn_sigma kn_buf kn_train kn_cal kn_scores kn_count kn_pred length Nat.eqb]. unfold bind at 1, lift.
      destruct train as [|v train'].
      * cbn [res_map]. unfold modify. cbn [kn_sigma kn_buf kn_train kn_cal kn_scores kn_count kn_pred]. unfold bind at 1. unfold bind at 1. cbn [kn_sigma kn_buf kn_train kn_cal kn_scores kn_count kn_pred]. rewrite ncm_value. cbn [length Nat.leb]. eexists. split; [reflexivity|]. apply OK; auto. cbn [length] in *. lia.
      * rewrite (res_map_fail _ _ _ (v :: train') ValueError); [|discriminate|]. { eexists. split; [reflexivity|]. apply OK; auto. rewrite T. lia. }
        intros b _. rewrite ncm_value. destruct (Nat.leb_spec (length (v :: train')) (27 + 1)); [reflexivity|lia].
Qed.
Lemma small_score : forall xs s x, Forall (fun x => x <> []) xs -> small_inv xs s -> md_score KM x s =
  ((if (length xs =? 0)%nat then Raise AttributeError else if (length xs <? Nat.max 19 P)%nat then Ok (VScalar 0) else if (P =? 47)%nat then Raise ZeroDivisionError else Raise ValueError), s).
Proof.
  intros xs s x F I. destruct (I F) as (B & C & T & Sc & Sg). destruct s as [buf train cal scores count pred sigma]. cbn [kn_buf kn_train kn_cal kn_scores kn_count kn_sigma kn_pred] in *. subst count scores.
  cbn [md_score KNNCAD plain_model]. unfold bind, gets. cbn [kn_buf kn_train kn_cal kn_scores kn_count kn_sigma kn_pred]. destruct sigma as [sg|].
  - destruct (Nat.eqb_spec (length xs) 0) as [E|E]. { apply length_zero_iff_nil in E. apply Sg in E. discriminate. }
    rewrite B. change kn_dim with 19%nat. destruct (Nat.ltb_spec (length xs) 19), (Nat.ltb_spec (length xs) P), (Nat.ltb_spec (length xs) (Nat.max 19 P)); try lia; cbn [orb]; try reflexivity.
    unfold lift. rewrite ncm_value. destruct (Nat.leb_spec (length train) (27 + 0)), (Nat.eqb_spec P 47); try lia; try reflexivity. cbn [filter length]. change (Z.of_nat 0) with 0%Z. unfold pydiv. cbn [nofZ NumR oeqb num_ord OrdR n0]. destruct (Reqb 0 0) eqn:Q; [reflexivity|]. apply Reqb_neq in Q. congruence.
  - rewrite (proj1 Sg eq_refl) in *. reflexivity.
Qed.
Lemma small_run : forall (h : list (mcall (list R) Y)), small_inv (fitted_instances h) (model_run KM KNNCAD_init h).
Proof.
  intros h. refine (plain_run_all _ _ _ _ _ _ small_inv _ _ h _ _).
  - intros xs s x y I F. destruct (small_fit xs s x y F I) as (s' & E & I'). unfold exec. cbn [md_fit KNNCAD plain_model] in E. rewrite E. apply I'. auto.
  - intros xs s x I F. pose proof (small_score xs s x F I) as E. cbn [md_score KNNCAD plain_model] in E. unfold exec. rewrite E. apply I. auto.
  - intros _. cbn [length KNNCAD_init kn_buf kn_train kn_cal kn_scores kn_count kn_sigma]. split; auto. split; auto. split; auto. split; auto. split; auto.
Qed.
End KNsmall.
(** With a probationary period below 48 the fits up to number max(19, P) - 1 succeed and every later one raises ValueError;
    scoring is then impossible as well (for P = 47 it fails with ZeroDivisionError). *)
Theorem C67_works_for_every_period_refuted : forall Y inverse P (h : list (mcall (list R) Y)) x y, (1 <= P < 48)%nat -> Forall (fun x => x <> []) (fitted_instances h) -> x <> [] ->
  let n := length (fitted_instances h) in let s := model_run (KNN inverse P) KNNCAD_init h in
  eval (md_fit (KNN inverse P) x y) s = (if (n + 1 <? Nat.max 19 P)%nat then Ok tt else Raise ValueError) /\
  ((Nat.max 19 P <= n)%nat -> eval (md_score (KNN inverse P) x) s = Raise (if (P =? 47)%nat then ZeroDivisionError else ValueError)).
Proof.
  intros Y inverse P h x y HP F Hx n s. pose proof (small_run Y inverse P HP h) as I. fold s in I. split.
  - destruct (small_fit Y inverse P HP (fitted_instances h) s x y) as (s2 & E & _); [apply Forall_app; auto|exact I|]. unfold eval. rewrite E. rewrite Nat.add_1_r. reflexivity.
  - intros Hn. unfold eval. rewrite (small_score Y inverse P HP (fitted_instances h) s x F I). cbn [fst]. fold n. destruct (Nat.eqb_spec n 0); [lia|]. destruct (Nat.ltb_spec n (Nat.max 19 P)); [lia|]. destruct (P =? 47)%nat; reflexivity.
Qed.
Print Assumptions C67_works_for_every_period_refuted.
(** With P = 0 the first fit that has a full window raises ZeroDivisionError. *)
Theorem C67_zero_period : forall Y inverse x (y : option Y) (s : knst R), x <> [] -> (18 <= length (kn_buf s))%nat -> eval (md_fit (KNN inverse 0) x y) s = Raise ZeroDivisionError.
Proof.
  intros Y inverse [|x0 x] y s Hx Hl; [congruence|]. unfold eval. cbn [md_fit KNNCAD plain_model]. unfold bind at 1, modify. unfold bind at 1, lift. change (py_index (x0 :: x) 0) with (@Ok R x0). unfold bind at 1, gets. unfold bind.
  cbn [kn_sigma kn_buf kn_train kn_cal kn_scores kn_count kn_pred]. rewrite app_length. cbn [length]. change kn_dim with 19%nat. destruct (Nat.ltb_spec (length (kn_buf (match kn_sigma s with Some _ => s | None => mkKN (kn_buf s) (kn_train s) (kn_cal s) (kn_scores s) (kn_count s) (kn_pred s) (Some kn_identity) end)) + 1) 19) as [L|L]; [|reflexivity].
  destruct (kn_sigma s); cbn [kn_buf] in L; lia.
Qed.
Print Assumptions C67_zero_period.
(** A stream of 60 instances, P = 48: the hypotheses of C66 hold beyond the probationary period. *)
Example C66_ex : let h := repeat (CFit [1; 2] (@None unit)) 60 in Forall (fun x => x <> []) (fitted_instances h) /\ (48 <= length (fitted_instances h))%nat /\ length (window_at (firsts (fitted_instances h)) 48) = 19%nat.
Proof. cbv zeta. split; [|split]; [|vm_compute; lia|reflexivity]. cbn. repeat constructor; discriminate. Qed.
