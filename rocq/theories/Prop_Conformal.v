(** * C105: how often a conformal probability is small.
    The guarantee expected of a conformal p-value: if all orders of arrival of the scores are equally likely, a value of at
    most a comes up with probability at most a.  Here the n scores arrive in each of the n cyclic orders, so that every one of
    them is the newest exactly once. *)
From Coq Require Import List ZArith Lia Bool Reals Lra Permutation Sorted Arith.
From Verif Require Import Base Num Spec Model_Stats Model_Utils Model_Core Model_Post P_Lists P_Stats P_Utils P_Core P_Post Prop_Post.
Import ListNotations.
Open Scope R_scope.

(** The cyclic orders of arrival. *)
Definition orders (l : list R) : list (list R) := map (fun i => skipn (S i) l ++ firstn (S i) l) (seq 0 (length l)).
(** What the newest score of an order of arrival is mapped to: fitted and transformed ... *)
Definition fitted_value (windowed : bool) (w : Z) (o : list R) : res (pyval (npres R)) :=
  eval (pp_fit_transform ConformalProbabilityCalibrator (last o 0)) (post_run ConformalProbabilityCalibrator (Conformal_init windowed w) (map PFit (removelast o))).
(** ... or transformed only. *)
Definition fresh_value (windowed : bool) (w : Z) (o : list R) : res (pyval (npres R)) :=
  eval (pp_transform ConformalProbabilityCalibrator (last o 0)) (post_run ConformalProbabilityCalibrator (Conformal_init windowed w) (map PFit (removelast o))).
Definition at_most (a : R) (v : res (pyval (npres R))) : bool :=
  match v with Ok (VScalar (FinV q)) => if Rle_dec q a then true else false | _ => false end.
Definition number {B} (f : B -> bool) (l : list B) : nat := length (filter f l).
(** The window holds all the scores. *)
Definition large_enough (windowed : bool) (w : Z) (l : list R) : Prop := windowed = true -> (Z.of_nat (length l) <= w)%Z.

(** ** Ranks *)
Definition greater (x : R) (l : list R) : nat := number (above x) l.
Lemma above_true : forall x y, above x y = true <-> x < y.
Proof. intros. unfold above. destruct (Rlt_dec x y); split; auto; congruence. Qed.
Lemma above_false : forall x y, above x y = false <-> y <= x.
Proof. intros. unfold above. destruct (Rlt_dec x y); split; intros; auto; try congruence; lra. Qed.
Lemma number_perm : forall B (f : B -> bool) l l', Permutation l l' -> number f l = number f l'.
Proof.
  intros B f l l' H. unfold number. induction H; cbn [filter length]; auto.
  - destruct (f x); cbn [length]; lia.
  - destruct (f x), (f y); reflexivity.
  - lia.
Qed.
Lemma number_app : forall B (f : B -> bool) l l', number f (l ++ l') = (number f l + number f l')%nat.
Proof. intros. unfold number. rewrite filter_app, app_length. reflexivity. Qed.
Lemma number_ext : forall B (f g : B -> bool) l, (forall x, In x l -> f x = g x) -> number f l = number g l.
Proof. intros. unfold number. rewrite (filter_ext_in f g); auto. Qed.
Lemma number_map : forall B C (g : C -> B) (f : B -> bool) l, number f (map g l) = number (fun x => f (g x)) l.
Proof. intros. unfold number. induction l; cbn [map filter]; auto. destruct (f (g a)); cbn [length]; auto. Qed.
Lemma number_le : forall B (f : B -> bool) l, (number f l <= length l)%nat.
Proof. intros. unfold number. apply filter_length_le. Qed.
Lemma number_all : forall B (f : B -> bool) l, (forall x, In x l -> f x = true) -> number f l = length l.
Proof. intros B f l. unfold number. induction l; cbn [filter]; intros H; auto. rewrite (H a) by (left; auto). cbn [length]. rewrite IHl; auto. intros; apply H; right; auto. Qed.
Lemma number_none : forall B (f : B -> bool) l, (forall x, In x l -> f x = false) -> number f l = 0%nat.
Proof. intros B f l. unfold number. induction l; cbn [filter]; intros H; auto. rewrite (H a) by (left; auto). apply IHl. intros; apply H; right; auto. Qed.
Lemma number_imp : forall B (f g : B -> bool) l, (forall x, In x l -> f x = true -> g x = true) -> (number f l <= number g l)%nat.
Proof.
  intros B f g l. unfold number. induction l; cbn [filter]; intros H; auto.
  assert (IH := IHl (fun x Hx => H x (or_intror Hx))). destruct (f a) eqn:E.
  - rewrite (H a (or_introl eq_refl) E). cbn [length]. lia.
  - destruct (g a); cbn [length]; lia.
Qed.

(** Descending lists. *)
Definition downwards (l : list R) : list R := rev (@sorted R (@num_ord R NumR) l).
Lemma downwards_perm : forall l, Permutation (downwards l) l.
Proof. intros. unfold downwards. rewrite <- Permutation_rev. apply sorted_perm. Qed.
Lemma downwards_split : forall l p x q, downwards l = p ++ x :: q -> (forall y, In y p -> x <= y) /\ (forall y, In y q -> y <= x).
Proof.
  intros l p x q E. assert (S : StronglySorted (@ole R (@num_ord R NumR)) (rev q ++ x :: rev p)).
  { replace (rev q ++ x :: rev p) with (@sorted R (@num_ord R NumR) l); [apply sorted_sorted|].
    rewrite <- (rev_involutive (@sorted R (@num_ord R NumR) l)). fold (downwards l). rewrite E, rev_app_distr. cbn [rev]. rewrite <- app_assoc. reflexivity. }
  clear E. split.
  - intros y Hy. apply in_rev in Hy. revert S. generalize (rev q). induction l0 as [|b l0 IH]; cbn [app]; intros S; inversion S; subst.
    + rewrite Forall_forall in H2. specialize (H2 _ Hy). apply Rleb_le in H2. auto.
    + auto.
  - intros y Hy. apply in_rev in Hy. revert S Hy. generalize (rev q). induction l0 as [|b l0 IH]; cbn [app]; intros S Hy; [destruct Hy|]. inversion S; subst.
    destruct Hy as [<-|Hy]; auto. rewrite Forall_forall in H2. specialize (H2 x ltac:(apply in_or_app; right; left; auto)). apply Rleb_le in H2. auto.
Qed.
Lemma rank_le : forall l p x q, downwards l = p ++ x :: q -> (greater x l <= length p)%nat.
Proof.
  intros l p x q E. destruct (downwards_split _ _ _ _ E) as [_ B]. unfold greater. rewrite <- (number_perm _ _ _ _ (downwards_perm l)), E, number_app.
  rewrite (number_none _ _ (x :: q)). { pose proof (number_le _ (above x) p). lia. }
  intros y [<-|Hy]; apply above_false; [lra|auto].
Qed.
Lemma rank_distinct : forall l p x q, NoDup l -> downwards l = p ++ x :: q -> greater x l = length p.
Proof.
  intros l p x q N E. destruct (downwards_split _ _ _ _ E) as [A B]. unfold greater. rewrite <- (number_perm _ _ _ _ (downwards_perm l)), E, number_app.
  rewrite (number_none _ _ (x :: q)).
  2: { intros y [<-|Hy]; apply above_false; [lra|auto]. }
  rewrite number_all; [lia|]. intros y Hy. apply above_true. specialize (A y Hy). destruct A as [A|A]; auto. exfalso. subst y.
  assert (D : NoDup (p ++ x :: q)) by (rewrite <- E; eapply Permutation_NoDup; [symmetry; apply downwards_perm|auto]).
  apply NoDup_remove_2 in D. apply D. apply in_or_app. auto.
Qed.
Lemma split_at : forall B (d : B) i l, (i < length l)%nat -> l = firstn i l ++ nth i l d :: skipn (S i) l.
Proof. intros B d i. induction i as [|i IH]; intros [|a l] H; cbn [length] in H; try lia; cbn [firstn nth skipn app]; auto. f_equal. apply IH. lia. Qed.
Lemma ranks_count : forall l k, (k < length l)%nat -> (S k <= number (fun x => (greater x l <=? k)%nat) l)%nat.
Proof.
  intros l k H. rewrite <- (number_perm _ _ _ _ (downwards_perm l)). rewrite <- (firstn_skipn (S k) (downwards l)), number_app.
  assert (L : length (downwards l) = length l) by (apply Permutation_length, downwards_perm).
  rewrite number_all; [rewrite firstn_length; lia|].
  intros x Hx. destruct (In_nth _ _ 0 Hx) as (i & Hi & Ei). rewrite firstn_length, L in Hi. apply Nat.leb_le.
  assert (E : downwards l = firstn i (downwards l) ++ x :: skipn (S i) (downwards l)).
  { replace x with (nth i (downwards l) 0); [apply split_at; lia|].
    rewrite <- Ei. rewrite <- (firstn_skipn (S k) (downwards l)) at 1. rewrite app_nth1; auto. rewrite firstn_length. lia. }
  apply rank_le in E. rewrite firstn_length in E. lia.
Qed.
Lemma ranks_perm : forall l, NoDup l -> Permutation (map (fun x => greater x l) l) (seq 0 (length l)).
Proof.
  intros l N. transitivity (map (fun x => greater x l) (downwards l)). { apply Permutation_map. symmetry. apply downwards_perm. }
  assert (L : length (downwards l) = length l) by (apply Permutation_length, downwards_perm).
  replace (map (fun x => greater x l) (downwards l)) with (seq 0 (length l)); auto.
  apply nth_ext with (d := 0%nat) (d' := greater 0 l). { rewrite seq_length, map_length. auto. }
  intros i Hi. rewrite seq_length in Hi. rewrite seq_nth by auto. rewrite (map_nth (fun x => greater x l)). cbn [plus].
  rewrite (rank_distinct l (firstn i (downwards l)) (nth i (downwards l) 0) (skipn (S i) (downwards l))); auto.
  - rewrite firstn_length. lia.
  - apply split_at. lia.
Qed.

(** ** Orders of arrival *)
Lemma order_perm : forall i (l : list R), Permutation (skipn i l ++ firstn i l) l.
Proof. intros. rewrite Permutation_app_comm, firstn_skipn. auto. Qed.
Lemma firstn_S : forall B (d : B) i (l : list B), (i < length l)%nat -> firstn (S i) l = firstn i l ++ [nth i l d].
Proof. intros B d i. induction i as [|i IH]; intros [|a l] H; cbn [length] in H; try lia; auto. change (firstn (S (S i)) (a :: l)) with (a :: firstn (S i) l). rewrite IH by lia. reflexivity. Qed.
Lemma order_newest : forall i (l : list R), (i < length l)%nat -> skipn (S i) l ++ firstn (S i) l = (skipn (S i) l ++ firstn i l) ++ [nth i l 0].
Proof. intros. rewrite (firstn_S _ 0) by auto. apply app_assoc. Qed.
Lemma map_nth_seq : forall B (d : B) (l : list B), map (fun i => nth i l d) (seq 0 (length l)) = l.
Proof.
  intros B d l. apply nth_ext with (d := d) (d' := d). { rewrite map_length, seq_length. auto. }
  intros i Hi. rewrite map_length, seq_length in Hi. rewrite nth_indep with (d' := nth (length l) l d) by (rewrite map_length, seq_length; auto).
  rewrite (map_nth (fun i => nth i l d)), seq_nth by auto. reflexivity.
Qed.
Lemma fitted_PFit : forall l : list R, fitted (map PFit l) = l.
Proof. unfold fitted. induction l; cbn [map flat_map app]; congruence. Qed.
Lemma window_all : forall windowed w l, large_enough windowed w l -> conf_window windowed w l = l.
Proof. intros [] w l H; auto. unfold conf_window. apply lastn_all. specialize (H eq_refl). lia. Qed.
Lemma fit_then_transform : forall windowed w h s,
  eval (pp_fit_transform ConformalProbabilityCalibrator s) (post_run ConformalProbabilityCalibrator (Conformal_init windowed w) h) =
  eval (pp_transform ConformalProbabilityCalibrator s) (post_run (A := npres R) ConformalProbabilityCalibrator (Conformal_init windowed w) (h ++ [PFit s])).
Proof.
  intros. unfold post_run. rewrite fold_left_app. fold (post_run ConformalProbabilityCalibrator (Conformal_init windowed w) h).
  set (st := post_run ConformalProbabilityCalibrator (Conformal_init windowed w) h).
  unfold pp_fit_transform, bind, eval. cbn [fold_left post_do]. unfold exec.
  destruct st as [w0|l0]; cbn [pp_fit ConformalProbabilityCalibrator]; unfold Window_update, UnlimitedWindow_update, bind, modify; reflexivity.
Qed.
Lemma fitted_value_eq : forall windowed w o x, large_enough windowed w (o ++ [x]) ->
  fitted_value windowed w (o ++ [x]) = Ok (VScalar (FinV (INR (greater x (o ++ [x])) / INR (length (o ++ [x]))))).
Proof.
  intros windowed w o x H. unfold fitted_value. rewrite removelast_last, last_last, fit_then_transform, C36_conformal_fraction_above.
  replace (map PFit o ++ [PFit x]) with (map PFit (o ++ [x])) by (rewrite map_app; auto). rewrite fitted_PFit, window_all by auto.
  destruct (o ++ [x]) eqn:E; [destruct o; discriminate|]. reflexivity.
Qed.
Lemma fresh_value_eq : forall windowed w o x, large_enough windowed w o -> o <> [] ->
  fresh_value windowed w (o ++ [x]) = Ok (VScalar (FinV (INR (greater x (o ++ [x])) / INR (length o)))).
Proof.
  intros windowed w o x H N. unfold fresh_value. rewrite removelast_last, last_last, C36_conformal_fraction_above, fitted_PFit, window_all by auto.
  unfold greater. rewrite number_app. replace (number (above x) [x]) with 0%nat.
  2: { symmetry. apply number_none. intros y [<-|[]]. apply above_false. lra. }
  rewrite Nat.add_0_r. destruct o; [congruence|]. reflexivity.
Qed.
Lemma large_perm : forall windowed w l l', length l' = length l -> large_enough windowed w l -> large_enough windowed w l'.
Proof. unfold large_enough. intros windowed w l l' E H W. rewrite E. auto. Qed.
Lemma fitted_values : forall windowed w l, large_enough windowed w l ->
  map (fitted_value windowed w) (orders l) = map (fun x => Ok (VScalar (FinV (INR (greater x l) / INR (length l))))) l.
Proof.
  intros windowed w l H. unfold orders. rewrite map_map.
  transitivity (map (fun i => Ok (VScalar (FinV (INR (greater (nth i l 0) l) / INR (length l))))) (seq 0 (length l))).
  - apply map_ext_in. intros i Hi. apply in_seq in Hi. pose proof (order_perm (S i) l) as P. rewrite order_newest in * by lia.
    pose proof (Permutation_length P) as PL. rewrite fitted_value_eq by (eapply large_perm; eauto). unfold greater. rewrite (number_perm _ _ _ _ P), PL. reflexivity.
  - set (F := fun x => @Ok (pyval (npres R)) (VScalar (FinV (INR (greater x l) / INR (length l))))). symmetry.
    transitivity (map F (map (fun i => nth i l 0) (seq 0 (length l)))); [rewrite map_nth_seq; reflexivity|]. rewrite map_map. reflexivity.
Qed.
Lemma fresh_values : forall windowed w l, large_enough windowed w l -> (2 <= length l)%nat ->
  map (fresh_value windowed w) (orders l) = map (fun x => Ok (VScalar (FinV (INR (greater x l) / INR (length l - 1))))) l.
Proof.
  intros windowed w l H L. unfold orders. rewrite map_map.
  transitivity (map (fun i => Ok (VScalar (FinV (INR (greater (nth i l 0) l) / INR (length l - 1))))) (seq 0 (length l))).
  - apply map_ext_in. intros i Hi. apply in_seq in Hi. pose proof (order_perm (S i) l) as P. rewrite order_newest in * by lia.
    pose proof (Permutation_length P) as PL. rewrite app_length in PL. cbn [length] in PL.
    set (o := skipn (S i) l ++ firstn i l) in *. rewrite fresh_value_eq.
    + unfold greater. rewrite (number_perm _ _ _ _ P). replace (length l - 1)%nat with (length o) by lia. reflexivity.
    + intros W. specialize (H W). lia.
    + intros ->. cbn [length] in PL. lia.
  - set (F := fun x => @Ok (pyval (npres R)) (VScalar (FinV (INR (greater x l) / INR (length l - 1))))). symmetry.
    transitivity (map F (map (fun i => nth i l 0) (seq 0 (length l)))); [rewrite map_nth_seq; reflexivity|]. rewrite map_map. reflexivity.
Qed.
Lemma at_most_ratio : forall k g n, (0 < n)%nat -> at_most (INR k / INR n) (Ok (VScalar (FinV (INR g / INR n)))) = (g <=? k)%nat.
Proof.
  intros k g n H. apply lt_0_INR in H. assert (I : 0 < / INR n) by (apply Rinv_0_lt_compat; auto). cbn [at_most]. unfold Rdiv.
  destruct (Rle_dec _ _) as [L|L]; symmetry.
  - apply Nat.leb_le, INR_le. apply Rmult_le_reg_r in L; auto.
  - apply Nat.leb_gt, INR_lt. apply Rnot_le_lt in L. apply Rmult_lt_reg_r in L; auto.
Qed.

(** ** C105 *)
(** Distinct scores: over the n orders the newest score gets each of 0, 1/n, ..., (n-1)/n exactly once. *)
Theorem C105_uniform : forall windowed w l, NoDup l -> large_enough windowed w l ->
  Permutation (map (fitted_value windowed w) (orders l)) (map (fun k => Ok (VScalar (FinV (INR k / INR (length l))))) (seq 0 (length l))).
Proof.
  intros windowed w l N H. rewrite fitted_values by auto.
  rewrite <- (map_map (fun x => greater x l) (fun k => Ok (VScalar (FinV (INR k / INR (length l)))))). apply Permutation_map, ranks_perm; auto.
Qed.
Print Assumptions C105_uniform.
(** If the newest score is not fitted first, it gets each of 0, 1/n, ..., 1 once, n being the number of older scores. *)
Theorem C105_uniform_fresh : forall windowed w l n, NoDup l -> large_enough windowed w l -> length l = S n -> (1 <= n)%nat ->
  Permutation (map (fresh_value windowed w) (orders l)) (map (fun k => Ok (VScalar (FinV (INR k / INR n)))) (seq 0 (S n))).
Proof.
  intros windowed w l n N H L P. rewrite fresh_values by (auto; lia). rewrite <- L. replace (length l - 1)%nat with n by lia.
  rewrite <- (map_map (fun x => greater x l) (fun k => Ok (VScalar (FinV (INR k / INR n))))). apply Permutation_map, ranks_perm; auto.
Qed.
Print Assumptions C105_uniform_fresh.
(** So small values are too frequent for a p-value, for every data set and every level k/n: more than k of the n orders give
    at most k/n, ties or not ... *)
Theorem C105_small_values_too_frequent : forall windowed w l k, (k < length l)%nat -> large_enough windowed w l ->
  (S k <= number (at_most (INR k / INR (length l))) (map (fitted_value windowed w) (orders l)))%nat.
Proof.
  intros windowed w l k K H. rewrite fitted_values, number_map by auto.
  rewrite (number_ext _ _ (fun x => (greater x l <=? k)%nat)). { apply ranks_count; auto. }
  intros x Hx. apply at_most_ratio. destruct l; [destruct Hx|cbn; lia].
Qed.
Print Assumptions C105_small_values_too_frequent.
(** ... exactly k + 1 of them if the scores differ. *)
Lemma number_seq : forall n k, (k < n)%nat -> number (fun g => (g <=? k)%nat) (seq 0 n) = S k.
Proof.
  intros n k H. replace n with (S k + (n - S k))%nat by lia. rewrite seq_app, number_app, number_all, number_none.
  - rewrite seq_length. lia.
  - intros x Hx. apply in_seq in Hx. apply Nat.leb_gt. lia.
  - intros x Hx. apply in_seq in Hx. apply Nat.leb_le. lia.
Qed.
Theorem C105_small_values_distinct : forall windowed w l k, NoDup l -> (k < length l)%nat -> large_enough windowed w l ->
  number (at_most (INR k / INR (length l))) (map (fitted_value windowed w) (orders l)) = S k.
Proof.
  intros windowed w l k N K H. rewrite (number_perm _ _ _ _ (C105_uniform windowed w l N H)), number_map.
  rewrite (number_ext _ _ (fun g => (g <=? k)%nat)). { apply number_seq; auto. }
  intros x Hx. apply at_most_ratio. lia.
Qed.
Print Assumptions C105_small_values_distinct.
(** The guarantee of a p-value fails at every level k/n below 1 and for all data. *)
Theorem C105_p_value_guarantee_refuted : forall windowed w l k, (k < length l)%nat -> large_enough windowed w l ->
  ~ (INR (number (at_most (INR k / INR (length l))) (map (fitted_value windowed w) (orders l))) <= INR k / INR (length l) * INR (length l)).
Proof.
  intros windowed w l k K H C. pose proof (C105_small_values_too_frequent windowed w l k K H) as L. apply le_INR in L. rewrite S_INR in L.
  assert (P : 0 < INR (length l)) by (apply lt_0_INR; lia). unfold Rdiv in C at 2. rewrite Rmult_assoc, Rinv_l, Rmult_1_r in C by lra. lra.
Qed.
Print Assumptions C105_p_value_guarantee_refuted.
(** Counting the newest score itself (adding 1/n) repairs it for distinct scores: at any level a at most a * n orders give a
    corrected value of at most a. *)
Definition corrected_at_most (n : nat) (a : R) (v : res (pyval (npres R))) : bool :=
  match v with Ok (VScalar (FinV q)) => if Rle_dec (q + 1 / INR n) a then true else false | _ => false end.
Theorem C105_corrected_guarantee : forall windowed w l a, NoDup l -> l <> [] -> large_enough windowed w l -> 0 <= a ->
  INR (number (corrected_at_most (length l) a) (map (fitted_value windowed w) (orders l))) <= a * INR (length l).
Proof.
  intros windowed w l a N NE H A. rewrite (number_perm _ _ _ _ (C105_uniform windowed w l N H)), number_map.
  set (n := length l). assert (P : 0 < INR n) by (apply lt_0_INR; subst n; destruct l; [congruence|cbn; lia]).
  set (m := number (fun x => corrected_at_most n a (Ok (VScalar (FinV (INR x / INR n))))) (seq 0 n)).
  destruct (Rle_dec (INR m) (a * INR n)) as [|G]; auto. exfalso. apply Rnot_le_lt in G.
  (* the numbers g < n with (g + 1) / n <= a, i.e. g + 1 <= a n < m, are among 0, ..., m - 2 *)
  assert (M : (m <= number (fun g => (S g <? m)%nat) (seq 0 n))%nat).
  { apply number_imp. intros g Hg C. cbn [corrected_at_most] in C. destruct (Rle_dec (INR g / INR n + 1 / INR n) a) as [L|]; [|discriminate].
    apply Nat.ltb_lt, INR_lt. rewrite S_INR. apply Rle_lt_trans with (a * INR n); auto.
    replace (INR g + 1) with ((INR g / INR n + 1 / INR n) * INR n) by (field; lra). apply Rmult_le_compat_r; lra. }
  assert (ML : (m <= n)%nat) by (pose proof (number_le _ (fun x => corrected_at_most n a (Ok (VScalar (FinV (INR x / INR n))))) (seq 0 n)) as Q; fold m in Q; rewrite seq_length in Q; auto).
  assert (M0 : (0 < m)%nat). { apply INR_lt. cbn [INR]. apply Rle_lt_trans with (a * INR n); auto. apply Rmult_le_pos; lra. }
  replace n with ((m - 1) + (n - (m - 1)))%nat in M by lia. rewrite seq_app, number_app in M.
  rewrite (number_none _ _ (seq (0 + (m - 1)) (n - (m - 1)))) in M.
  - pose proof (number_le _ (fun g => (S g <? m)%nat) (seq 0 (m - 1))) as Q. rewrite seq_length in Q. lia.
  - intros g Hg. apply in_seq in Hg. apply Nat.ltb_ge. lia.
Qed.
Print Assumptions C105_corrected_guarantee.
(** With ties even that fails: if all scores are equal, every one of them is mapped to 0. *)
Theorem C105_constant_scores : forall windowed w v n, (1 <= n)%nat -> large_enough windowed w (repeat v n) ->
  map (fitted_value windowed w) (orders (repeat v n)) = repeat (Ok (VScalar (FinV 0))) n.
Proof.
  intros windowed w v n P H. rewrite fitted_values by auto.
  assert (G : greater v (repeat v n) = 0%nat). { apply number_none. intros y Hy. apply repeat_spec in Hy. subst. apply above_false. lra. }
  assert (Q : forall m, map (fun x => @Ok (pyval (npres R)) (VScalar (FinV (INR (greater x (repeat v n)) / INR (length (repeat v n)))))) (repeat v m) = repeat (Ok (VScalar (FinV 0))) m).
  { induction m; cbn [repeat map]; auto. rewrite IHm, G. f_equal. f_equal. f_equal. f_equal. cbn [INR]. lra. }
  apply Q.
Qed.
Print Assumptions C105_constant_scores.
(** Four scores and the default window: the values 0, 1/4, 2/4, 3/4 in some order; two of the four orders give at most 1/4. *)
Example C105_ex : Permutation (map (fitted_value true 300) (orders [5; 1; 9; 4])) (map (fun k => Ok (VScalar (FinV (INR k / INR 4)))) [0; 1; 2; 3]%nat) /\
  number (at_most (INR 1 / INR 4)) (map (fitted_value true 300) (orders [5; 1; 9; 4])) = 2%nat /\
  last (nth 2 (orders [5; 1; 9; 4]) []) 0 = 9.
Proof.
  assert (N : NoDup [5; 1; 9; 4]). { repeat constructor; cbn; intuition lra. }
  assert (H : large_enough true 300 [5; 1; 9; 4]) by (intros _; cbn; lia).
  split; [exact (C105_uniform true 300 [5; 1; 9; 4] N H)|]. split; [apply (C105_small_values_distinct true 300 [5; 1; 9; 4] 1 N ltac:(cbn; lia) H)|reflexivity].
Qed.
