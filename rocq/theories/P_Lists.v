(** * General list lemmas: lastn, permutations, sums, sorting, extremes. *)
From Coq Require Import List ZArith Lia Bool Reals Lra Permutation Sorted Arith.
From Verif Require Import Base Num Spec Model_Stats.
Import ListNotations.

(** ** lastn *)
Lemma skipn_skipn : forall A x y (l : list A), skipn x (skipn y l) = skipn (x + y) l.
Proof.
  intros A x y; induction y; intros l; simpl.
  - rewrite Nat.add_0_r. reflexivity.
  - replace (x + S y) with (S (x + y)) by lia. destruct l; simpl; [apply skipn_nil | apply IHy].
Qed.

Lemma lastn_length : forall A n (l : list A), length (lastn n l) = Nat.min n (length l).
Proof. intros. unfold lastn. rewrite skipn_length. lia. Qed.

Lemma lastn_all : forall A n (l : list A), length l <= n -> lastn n l = l.
Proof. intros. unfold lastn. replace (length l - n) with 0 by lia. reflexivity. Qed.

Lemma lastn_nil : forall A n, lastn n (@nil A) = [].
Proof. intros. apply lastn_all. simpl. lia. Qed.

Lemma lastn_0 : forall A (l : list A), lastn 0 l = [].
Proof. intros. unfold lastn. rewrite Nat.sub_0_r. apply skipn_all. Qed.

Lemma lastn_snoc : forall A n (l : list A) x, lastn (S n) (l ++ [x]) = lastn n l ++ [x].
Proof.
  intros. unfold lastn. rewrite app_length. simpl.
  replace (length l + 1 - S n) with (length l - n) by lia.
  rewrite skipn_app.
  replace (length l - n - length l) with 0 by lia. reflexivity.
Qed.

Lemma lastn_app_ge : forall A n (l1 l2 : list A), n <= length l2 -> lastn n (l1 ++ l2) = lastn n l2.
Proof.
  intros. unfold lastn. rewrite app_length, skipn_app.
  rewrite skipn_all2 by lia. simpl.
  f_equal. lia.
Qed.

Lemma lastn_lastn : forall A n m (l : list A), n <= m -> lastn n (lastn m l) = lastn n l.
Proof.
  intros. unfold lastn. rewrite skipn_length, skipn_skipn. f_equal. lia.
Qed.

Lemma lastn_app_lastn : forall A n (l1 l2 : list A), lastn n (lastn n l1 ++ l2) = lastn n (l1 ++ l2).
Proof.
  intros. destruct (le_lt_dec (length l1) n).
  - rewrite (lastn_all _ n l1) by assumption. reflexivity.
  - unfold lastn. rewrite !app_length, skipn_length, !skipn_app, skipn_skipn, skipn_length.
    f_equal; f_equal; lia.
Qed.

(** Push one item and drop the first on overflow: the sliding window step. *)
Lemma lastn_step : forall A w (l : list A) x,
  lastn w (l ++ [x]) =
  if (w <? length (lastn w l ++ [x])) then skipn 1 (lastn w l ++ [x]) else lastn w l ++ [x].
Proof.
  intros. rewrite app_length, lastn_length. change (length [x]) with 1.
  destruct (Nat.ltb_spec w (Nat.min w (length l) + 1)).
  - assert (w <= length l) by lia.
    destruct w as [|w].
    + rewrite !lastn_0. reflexivity.
    + rewrite lastn_snoc.
      unfold lastn at 2.
      rewrite skipn_app.
      rewrite skipn_skipn.
      rewrite skipn_length.
      replace (1 - (length l - (length l - S w))) with 0 by lia.
      unfold lastn. f_equal. f_equal. lia.
  - rewrite (lastn_all _ w l) by lia. apply lastn_all. rewrite app_length; simpl; lia.
Qed.

Lemma In_lastn : forall A n (l : list A) x, In x (lastn n l) -> In x l.
Proof.
  intros. unfold lastn in H. rewrite <- (firstn_skipn (length l - n) l). apply in_or_app. auto.
Qed.

Lemma lastn_map : forall A B (f : A -> B) n l, lastn n (map f l) = map f (lastn n l).
Proof. intros. unfold lastn. rewrite map_length, skipn_map. reflexivity. Qed.

Lemma lastn_nonempty : forall A n (l : list A), 1 <= n -> l <> [] -> lastn n l <> [].
Proof.
  intros A n l Hn Hl E. apply (f_equal (@length A)) in E. rewrite lastn_length in E.
  destruct l; [congruence|]. simpl in E. lia.
Qed.

(** ** remove1 / list_remove *)
Lemma remove1_in_perm : forall A dec (x : A) l, In x l -> Permutation (x :: remove1 dec x l) l.
Proof.
  intros A dec x l; induction l as [|y l IH]; simpl; intros H; [tauto|].
  destruct (dec x y) as [->|N]; [reflexivity|].
  destruct H as [->|H]; [congruence|].
  rewrite perm_swap. constructor. auto.
Qed.

Lemma remove1_notin : forall A dec (x : A) l, ~ In x l -> remove1 dec x l = l.
Proof.
  intros A dec x l; induction l as [|y l IH]; simpl; intros H; auto.
  destruct (dec x y) as [->|N]; [tauto|]. f_equal. apply IH. tauto.
Qed.

Lemma remove1_perm : forall A dec (x : A) l l', Permutation l l' -> Permutation (remove1 dec x l) (remove1 dec x l').
Proof.
  intros. destruct (in_dec dec x l) as [I|N].
  - apply Permutation_cons_inv with x.
    rewrite !remove1_in_perm; auto. eapply Permutation_in; eauto.
  - rewrite !remove1_notin; auto. intro. apply N. eapply Permutation_in; [symmetry|]; eauto.
Qed.

Lemma list_remove_spec : forall A (eqb : A -> A -> bool) (Heq : forall a b, eqb a b = true <-> a = b) x l,
  match list_remove eqb x l with
  | Some l' => Permutation (x :: l') l
  | None => ~ In x l
  end.
Proof.
  intros A eqb Heq x l; induction l as [|y l IH]; simpl; auto.
  destruct (eqb y x) eqn:E.
  - apply Heq in E; subst. reflexivity.
  - destruct (list_remove eqb x l) as [l'|].
    + rewrite perm_swap. constructor. assumption.
    + intros [->|I]; [|auto]. assert (eqb x x = true) by (apply Heq; reflexivity). congruence.
Qed.

Lemma list_remove_in : forall A (eqb : A -> A -> bool) (Heq : forall a b, eqb a b = true <-> a = b) x l,
  In x l -> exists l', list_remove eqb x l = Some l' /\ Permutation (x :: l') l.
Proof.
  intros. pose proof (list_remove_spec A eqb Heq x l) as P.
  destruct (list_remove eqb x l) as [l'|]; [eauto | contradiction].
Qed.

Lemma list_remove_notin : forall A (eqb : A -> A -> bool) (Heq : forall a b, eqb a b = true <-> a = b) x l,
  ~ In x l -> list_remove eqb x l = None.
Proof.
  intros. pose proof (list_remove_spec A eqb Heq x l) as P.
  destruct (list_remove eqb x l) as [l'|]; auto.
  exfalso. apply H. eapply Permutation_in; [exact P | left; reflexivity].
Qed.

(** ** Histories *)
Lemma replay_app : forall A dec (h1 h2 : list (mop A)),
  replay dec (h1 ++ h2) = fold_left (replay1 dec) h2 (replay dec h1).
Proof. intros. unfold replay. apply fold_left_app. Qed.

Lemma replay1_perm : forall A dec (l l' : list A) o,
  Permutation l l' -> Permutation (replay1 dec l o) (replay1 dec l' o).
Proof.
  intros A dec l l' [x|x|] P; simpl; auto. apply remove1_perm; auto.
Qed.

Lemma replay_from_perm : forall A dec (h : list (mop A)) (l l' : list A),
  Permutation l l' -> Permutation (fold_left (replay1 dec) h l) (fold_left (replay1 dec) h l').
Proof.
  intros A dec h; induction h as [|o h IH]; simpl; intros; auto. apply IH. apply replay1_perm; auto.
Qed.

Lemma valid_from_app : forall A dec (h1 h2 : list (mop A)) l,
  valid_from dec l (h1 ++ h2) <-> valid_from dec l h1 /\ valid_from dec (fold_left (replay1 dec) h1 l) h2.
Proof.
  intros A dec h1; induction h1 as [|o h1 IH]; simpl; intros; [tauto|].
  rewrite IH. tauto.
Qed.

Lemma valid_from_perm : forall A dec (h : list (mop A)) l l',
  Permutation l l' -> valid_from dec l h -> valid_from dec l' h.
Proof.
  intros A dec h; induction h as [|o h IH]; simpl; intros l l' P V; auto.
  destruct V as [V W]. split.
  - destruct o; auto. eapply Permutation_in; eauto.
  - eapply IH; [|exact W]. apply replay1_perm; auto.
Qed.

Lemma replay_updates_from : forall A dec (l acc : list A),
  fold_left (replay1 dec) (map (@Upd A) l) acc = rev l ++ acc.
Proof.
  intros A dec l; induction l as [|x l IH]; simpl; intros; auto.
  rewrite IH. rewrite <- app_assoc. reflexivity.
Qed.
Lemma replay_updates : forall A dec (l : list A), replay dec (map (@Upd A) l) = rev l.
Proof. intros. unfold replay. rewrite replay_updates_from, app_nil_r. reflexivity. Qed.

Lemma valid_updates : forall A dec (l acc : list A), valid_from dec acc (map (@Upd A) l).
Proof. intros A dec l; induction l; simpl; auto. Qed.

(** ** Sums over R *)
Open Scope R_scope.
Lemma Rsum_app : forall l1 l2, Rsum (l1 ++ l2) = Rsum l1 + Rsum l2.
Proof. induction l1; intros; simpl; [lra|]. rewrite IHl1. lra. Qed.

Lemma Rsum_perm : forall l l', Permutation l l' -> Rsum l = Rsum l'.
Proof. induction 1; simpl; lra. Qed.

Lemma Rsum_map_perm : forall A (f : A -> R) l l', Permutation l l' -> Rsum (map f l) = Rsum (map f l').
Proof. intros. apply Rsum_perm, Permutation_map; auto. Qed.

Lemma fold_left_Rplus : forall l a, fold_left Rplus l a = a + Rsum l.
Proof. induction l; intros; simpl; [lra|]. rewrite IHl. lra. Qed.

Lemma nsum_Rsum : forall l, nsum l = Rsum l.
Proof. intros. unfold nsum. simpl. rewrite fold_left_Rplus. lra. Qed.

Lemma Rsum_map_plus : forall A (f g : A -> R) l, Rsum (map (fun x => f x + g x) l) = Rsum (map f l) + Rsum (map g l).
Proof. induction l; simpl; lra. Qed.
Lemma Rsum_map_minus : forall A (f g : A -> R) l, Rsum (map (fun x => f x - g x) l) = Rsum (map f l) - Rsum (map g l).
Proof. induction l; simpl; lra. Qed.
Lemma Rsum_map_scal : forall A (c : R) (f : A -> R) l, Rsum (map (fun x => c * f x) l) = c * Rsum (map f l).
Proof. induction l; simpl; [lra|]. rewrite IHl. lra. Qed.
Lemma Rsum_map_const : forall A (c : R) (l : list A), Rsum (map (fun _ => c) l) = INR (length l) * c.
Proof. induction l; [simpl; lra|]. simpl map. simpl Rsum. rewrite IHl. change (length (a :: l)) with (S (length l)). rewrite S_INR. lra. Qed.
Lemma Rsum_nonneg : forall l, (forall x, In x l -> 0 <= x) -> 0 <= Rsum l.
Proof.
  induction l; simpl; intros; [lra|].
  assert (0 <= a) by auto. assert (0 <= Rsum l) by auto. lra.
Qed.
Lemma Rsum_le : forall A (f g : A -> R) l, (forall x, In x l -> f x <= g x) -> Rsum (map f l) <= Rsum (map g l).
Proof.
  induction l; simpl; intros; [lra|].
  assert (f a <= g a) by auto. assert (Rsum (map f l) <= Rsum (map g l)) by auto. lra.
Qed.
Lemma Rsum_zero : forall l, (forall x, In x l -> 0 <= x) -> Rsum l = 0 -> forall x, In x l -> x = 0.
Proof.
  induction l; simpl; intros H E x Hx; [tauto|].
  assert (0 <= a) by auto. assert (0 <= Rsum l) by (apply Rsum_nonneg; auto).
  destruct Hx as [->|Hx]; [lra|]. apply IHl; auto. lra.
Qed.

Lemma Rsum_map_zero : forall A (f : A -> R) l, (forall x, In x l -> f x = 0) -> Rsum (map f l) = 0.
Proof.
  induction l; simpl; intros H; [lra|]. rewrite (H a) by auto. rewrite IHl by auto. lra.
Qed.

Lemma INR_length_pos : forall A (l : list A), l <> [] -> 0 < INR (length l).
Proof. intros A [|x l] H; [congruence|]. apply lt_0_INR. simpl. lia. Qed.

Lemma mean_bounds : forall l lo hi, l <> [] -> (forall x, In x l -> lo <= x <= hi) -> lo <= mean l <= hi.
Proof.
  intros l lo hi Hne Hb.
  pose proof (INR_length_pos _ l Hne) as Hp.
  unfold mean, Rlen.
  assert (INR (length l) * lo <= Rsum l <= INR (length l) * hi).
  { clear Hp Hne. induction l as [|a l IH]; [simpl; lra|].
    simpl Rsum. change (length (a :: l)) with (S (length l)). rewrite S_INR.
    assert (lo <= a <= hi) by (apply Hb; left; auto).
    assert (INR (length l) * lo <= Rsum l <= INR (length l) * hi) by (apply IH; intros; apply Hb; right; auto).
    lra. }
  split.
  - apply Rmult_le_reg_r with (INR (length l)); auto. unfold Rdiv. rewrite Rmult_assoc, Rinv_l by lra. lra.
  - apply Rmult_le_reg_r with (INR (length l)); auto. unfold Rdiv. rewrite Rmult_assoc, Rinv_l by lra. lra.
Qed.

Lemma mean_perm : forall l l', Permutation l l' -> mean l = mean l'.
Proof. intros. unfold mean, Rlen. rewrite (Rsum_perm _ _ H), (Permutation_length H). reflexivity. Qed.

Lemma variance_perm : forall l l', Permutation l l' -> variance l = variance l'.
Proof.
  intros. unfold variance. rewrite (mean_perm _ _ H). apply mean_perm. apply Permutation_map; auto.
Qed.

Lemma variance_shortcut : forall l, l <> [] ->
  variance l = (Rsum (map (fun x => x * x) l) - Rsum l * Rsum l / Rlen l) / Rlen l.
Proof.
  intros l H. pose proof (INR_length_pos _ l H) as Hp.
  unfold variance, mean at 1. unfold Rlen. rewrite map_length.
  f_equal.
  assert (E : forall c, Rsum (map (fun x => (x - c) ^ 2) l) =
              Rsum (map (fun x => x * x) l) - 2 * c * Rsum l + INR (length l) * (c * c)).
  { intro c. rewrite <- (Rsum_map_const _ (c * c) l).
    rewrite <- (map_id l) at 3. rewrite <- Rsum_map_scal.
    rewrite <- Rsum_map_minus, <- Rsum_map_plus. f_equal. apply map_ext. intro. ring. }
  rewrite E. unfold mean, Rlen. field. lra.
Qed.

Lemma variance_nonneg : forall l, 0 <= variance l.
Proof.
  intros l. unfold variance, mean at 1, Rlen. rewrite map_length.
  destruct l as [|a l].
  - simpl. unfold Rdiv. rewrite Rmult_0_l. lra.
  - apply Rmult_le_pos.
    + apply Rsum_nonneg. intros x Hx. apply in_map_iff in Hx. destruct Hx as [y [<- _]]. apply pow2_ge_0.
    + left. apply Rinv_0_lt_compat. apply INR_length_pos. congruence.
Qed.

Lemma variance_zero_iff : forall l, l <> [] ->
  (variance l = 0 <-> forall x y, In x l -> In y l -> x = y).
Proof.
  intros l H. pose proof (INR_length_pos _ l H) as Hp. split.
  - intros E.
    assert (Z : Rsum (map (fun x => (x - mean l) ^ 2) l) = 0).
    { unfold variance, mean at 1, Rlen in E. rewrite map_length in E.
      apply Rmult_eq_reg_r with (/ INR (length l)).
      - unfold Rdiv in E. rewrite E. lra.
      - apply Rinv_neq_0_compat. lra. }
    assert (G : forall x, In x l -> x = mean l).
    { intros x Hx.
      assert (Q : (x - mean l) ^ 2 = 0).
      { apply (Rsum_zero (map (fun x => (x - mean l) ^ 2) l)); auto.
        - intros y Hy. apply in_map_iff in Hy. destruct Hy as [z [<- _]]. apply pow2_ge_0.
        - apply in_map_iff. exists x. split; auto. }
      assert (x - mean l = 0); [|lra].
      apply Rsqr_0_uniq. rewrite Rsqr_pow2. exact Q. }
    intros x y Hx Hy. rewrite (G x Hx), (G y Hy). reflexivity.
  - intros A. destruct l as [|a l]; [congruence|].
    assert (Em : mean (a :: l) = a).
    { destruct (mean_bounds (a :: l) a a) as [G1 G2]; auto.
      - intros x Hx. rewrite (A x a Hx (or_introl eq_refl)). lra.
      - lra. }
    unfold variance. rewrite Em.
    assert (Rsum (map (fun x => (x - a) ^ 2) (a :: l)) = 0).
    { apply Rsum_map_zero. intros x Hx. rewrite (A x a Hx (or_introl eq_refl)). ring. }
    unfold mean. rewrite H0. unfold Rdiv. lra.
Qed.
Close Scope R_scope.

(** ** Extremes and sorting in a total order *)
Section Ordered.
Context {A : Type} `{OL : OrdLaws A}.

Definition ord_dec : forall a b : A, {a = b} + {a <> b}.
Proof.
  intros. destruct (oeqb a b) eqn:E.
  - left. apply oeq_spec; auto.
  - right. intro F. apply oeq_spec in F. congruence.
Defined.

Lemma oltb_true : forall a b : A, oltb a b = true <-> oleb b a = false.
Proof. intros. rewrite olt_spec. destruct (oleb b a); simpl; split; congruence. Qed.
Lemma oltb_false : forall a b : A, oltb a b = false <-> oleb b a = true.
Proof. intros. rewrite olt_spec. destruct (oleb b a); simpl; split; congruence. Qed.
Lemma oleb_false : forall a b : A, oleb a b = false -> oleb b a = true.
Proof. intros a b E. destruct (ole_total a b); congruence. Qed.

Lemma omax_ub : forall a b : A, oleb a (omax a b) = true /\ oleb b (omax a b) = true.
Proof.
  intros. unfold omax. destruct (oltb a b) eqn:E; split; auto using ole_refl.
  - apply oltb_true in E. apply oleb_false; auto.
  - apply oltb_false in E. auto.
Qed.
Lemma omin_lb : forall a b : A, oleb (omin a b) a = true /\ oleb (omin a b) b = true.
Proof.
  intros. unfold omin. destruct (oltb b a) eqn:E; split; auto using ole_refl.
  - apply oltb_true in E. apply oleb_false; auto.
  - apply oltb_false in E. auto.
Qed.
Lemma omax_cases : forall a b : A, omax a b = a \/ omax a b = b.
Proof. intros. unfold omax. destruct (oltb a b); auto. Qed.
Lemma omin_cases : forall a b : A, omin a b = a \/ omin a b = b.
Proof. intros. unfold omin. destruct (oltb b a); auto. Qed.

(** [m] bounds [l] and belongs to it. *)
Definition ext_max (m : A) (l : list A) : Prop := In m l /\ forall x, In x l -> oleb x m = true.
Definition ext_min (m : A) (l : list A) : Prop := In m l /\ forall x, In x l -> oleb m x = true.

Lemma ext_max_unique : forall m m' l, ext_max m l -> ext_max m' l -> m = m'.
Proof. intros m m' l [I U] [I' U']. apply ole_antisym; auto. Qed.
Lemma ext_min_unique : forall m m' l, ext_min m l -> ext_min m' l -> m = m'.
Proof. intros m m' l [I U] [I' U']. apply ole_antisym; auto. Qed.
Lemma ext_max_perm : forall m l l', Permutation l l' -> ext_max m l -> ext_max m l'.
Proof.
  intros m l l' P [I U]. split; [eapply Permutation_in; eauto|].
  intros x Hx. apply U. eapply Permutation_in; [symmetry|]; eauto.
Qed.
Lemma ext_min_perm : forall m l l', Permutation l l' -> ext_min m l -> ext_min m l'.
Proof.
  intros m l l' P [I U]. split; [eapply Permutation_in; eauto|].
  intros x Hx. apply U. eapply Permutation_in; [symmetry|]; eauto.
Qed.

Lemma fold_omax : forall l (a : A), ext_max (fold_left omax l a) (a :: l).
Proof.
  induction l as [|b l IH]; simpl; intros a.
  - split; simpl; auto. intros x [->|[]]. apply ole_refl.
  - destruct (IH (omax a b)) as [I U]. destruct (omax_ub a b) as [Ua Ub].
    split.
    + destruct I as [I|I].
      * destruct (omax_cases a b) as [E|E]; rewrite <- I, E; simpl; auto.
      * simpl; auto.
    + assert (Um : oleb (omax a b) (fold_left omax l (omax a b)) = true) by (apply U; left; auto).
      intros x [->|[->|Hx]].
      * eapply ole_trans; eauto.
      * eapply ole_trans; eauto.
      * apply U; right; auto.
Qed.
Lemma fold_omin : forall l (a : A), ext_min (fold_left omin l a) (a :: l).
Proof.
  induction l as [|b l IH]; simpl; intros a.
  - split; simpl; auto. intros x [->|[]]. apply ole_refl.
  - destruct (IH (omin a b)) as [I U]. destruct (omin_lb a b) as [Ua Ub].
    split.
    + destruct I as [I|I].
      * destruct (omin_cases a b) as [E|E]; rewrite <- I, E; simpl; auto.
      * simpl; auto.
    + assert (Um : oleb (fold_left omin l (omin a b)) (omin a b) = true) by (apply U; left; auto).
      intros x [->|[->|Hx]].
      * eapply ole_trans; [exact Um|]; eauto.
      * eapply ole_trans; [exact Um|]; eauto.
      * apply U; right; auto.
Qed.

(** np.max / np.min *)
Lemma np_max_ok : forall l : list A, l <> [] -> exists m, np_max l = Ok m /\ ext_max m l.
Proof. intros [|a l] E; [congruence|]. simpl. eexists; split; eauto. apply fold_omax. Qed.
Lemma np_min_ok : forall l : list A, l <> [] -> exists m, np_min l = Ok m /\ ext_min m l.
Proof. intros [|a l] E; [congruence|]. simpl. eexists; split; eauto. apply fold_omin. Qed.

(** sorting *)
Definition ole (a b : A) : Prop := oleb a b = true.
Lemma insert_sorted_perm : forall x (l : list A), Permutation (insert_sorted x l) (x :: l).
Proof.
  induction l as [|y l IH]; simpl; auto.
  destruct (oleb x y); auto. rewrite IH. apply perm_swap.
Qed.
Lemma sorted_perm : forall l : list A, Permutation (sorted l) l.
Proof.
  induction l as [|x l IH]; simpl; auto. rewrite insert_sorted_perm. constructor; auto.
Qed.
Lemma insert_sorted_sorted : forall x (l : list A), StronglySorted ole l -> StronglySorted ole (insert_sorted x l).
Proof.
  induction l as [|y l IH]; simpl; intros S.
  - repeat constructor.
  - inversion S as [|? ? S' F]; subst. destruct (oleb x y) eqn:E.
    + constructor; auto. constructor; auto.
      rewrite Forall_forall in *. intros z Hz. eapply ole_trans; [exact E|]. apply F; auto.
    + constructor; auto. rewrite Forall_forall in *. intros z Hz.
      apply (Permutation_in _ (insert_sorted_perm x l)) in Hz. destruct Hz as [->|Hz].
      * apply oleb_false; auto.
      * apply F; auto.
Qed.
Lemma sorted_sorted : forall l : list A, StronglySorted ole (sorted l).
Proof. induction l; simpl; [constructor|]. apply insert_sorted_sorted; auto. Qed.

Lemma sorted_unique : forall l l' : list A,
  StronglySorted ole l -> StronglySorted ole l' -> Permutation l l' -> l = l'.
Proof.
  induction l as [|a l IH]; intros l' S S' P.
  - apply Permutation_nil in P; auto.
  - destruct l' as [|b l'].
    { symmetry in P. apply Permutation_nil in P; discriminate. }
    inversion S as [|? ? Sl Fa]; inversion S' as [|? ? Sl' Fb]; subst.
    assert (a = b).
    { rewrite Forall_forall in *.
      assert (Ia : In a (b :: l')) by (eapply Permutation_in; [exact P|left; auto]).
      assert (Ib : In b (a :: l)) by (eapply Permutation_in; [symmetry; exact P|left; auto]).
      destruct Ia as [->|Ia]; auto. destruct Ib as [->|Ib]; auto.
      apply ole_antisym; [apply Fa | apply Fb]; auto. }
    subst b. f_equal. apply IH; auto. eapply Permutation_cons_inv; eauto.
Qed.

Lemma sorted_eq_of_perm : forall l l' : list A, Permutation l l' -> sorted l = sorted l'.
Proof.
  intros. apply sorted_unique; auto using sorted_sorted.
  rewrite !sorted_perm. assumption.
Qed.
Lemma sorted_length : forall l : list A, length (sorted l) = length l.
Proof. intros. apply Permutation_length, sorted_perm. Qed.

(** ** heappush *)
Lemma set_nth_same : forall B i (l : list B) x, nth_error l i = Some x -> set_nth i x l = l.
Proof.
  intros B i; induction i; intros [|y l] x E; simpl in *; try discriminate; auto.
  - congruence.
  - f_equal; auto.
Qed.

Lemma set_nth_split : forall B i (l : list B) x, i < length l ->
  set_nth i x l = firstn i l ++ x :: skipn (S i) l.
Proof.
  intros B i; induction i; intros [|y l] x L; simpl in *; try lia; auto.
  f_equal. rewrite IHi by lia. reflexivity.
Qed.

Lemma nth_error_split3 : forall B i (l : list B) y, nth_error l i = Some y ->
  l = firstn i l ++ y :: skipn (S i) l.
Proof.
  intros B i; induction i; intros [|z l] y E; simpl in *; try discriminate.
  - congruence.
  - f_equal. apply IHi; auto.
Qed.

(** Moving the element at [i] into the hole at [j] and the new item to [i]. *)
Lemma set_nth_swap_perm : forall B (l : list B) i j p x,
  i <> j -> j < length l -> nth_error l i = Some p ->
  Permutation (set_nth i x (set_nth j p l)) (set_nth j x l).
Proof.
  intros B l; induction l as [|a l IH]; intros i j p x N L E; simpl in *; [lia|].
  destruct i as [|i], j as [|j]; simpl in *; try congruence.
  - inversion E; subst a; clear E. clear IH.
    rewrite !set_nth_split by lia.
    rewrite <- !Permutation_middle. apply perm_swap.
  - assert (Hi : i < length l) by (apply nth_error_Some; congruence).
    rewrite set_nth_split by lia.
    rewrite (nth_error_split3 _ _ _ _ E) at 3.
    rewrite <- !Permutation_middle. apply perm_swap.
  - constructor. apply IH; auto. lia.
Qed.

Lemma parent_lt : forall pos, 0 < pos -> (pos - 1) / 2 < pos.
Proof. intros. apply Nat.div_lt_upper_bound; lia. Qed.

Lemma siftdown_perm : forall fuel (newitem : A) heap pos, pos < length heap ->
  Permutation (siftdown fuel newitem heap pos) (set_nth pos newitem heap).
Proof.
  induction fuel as [|fuel IH]; intros newitem heap pos L; cbn [siftdown]; auto.
  destruct pos as [|pos]; auto.
  assert (P : (S pos - 1) / 2 < S pos) by (apply parent_lt; lia).
  destruct (nth_error heap ((S pos - 1) / 2)) as [parent|] eqn:E; auto.
  destruct (oltb newitem parent); auto.
  rewrite IH by (rewrite set_nth_length; lia).
  apply set_nth_swap_perm; auto. lia.
Qed.

Lemma heappush_perm : forall heap (x : A), Permutation (heappush heap x) (x :: heap).
Proof.
  intros. unfold heappush. rewrite siftdown_perm by (rewrite app_length; simpl; lia).
  rewrite set_nth_same.
  - symmetry. apply Permutation_cons_append.
  - rewrite nth_error_app2, Nat.sub_diag by lia. reflexivity.
Qed.
End Ordered.
