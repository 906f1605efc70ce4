(** * Lemmas about pysad/utils. *)
From Coq Require Import String.
From Coq Require Import List ZArith Lia Bool Arith Permutation.
From Verif Require Import Base Num Spec Model_Stats Model_Utils P_Lists.
Import ListNotations.

(** ** Window *)
Lemma window_update_step : forall A (x : A) w hist,
  wd_items w = lastn (Z.to_nat (wd_size w)) hist ->
  exists w', Window_update x w = (Ok tt, w') /\ wd_size w' = wd_size w /\
    wd_items w' = lastn (Z.to_nat (wd_size w)) (hist ++ [x]).
Proof.
  intros A x [sz it] hist E. simpl in E. subst it.
  unfold Window_update, bind, modify. simpl.
  rewrite (lastn_step A (Z.to_nat sz) hist x).
  assert (HL : (sz <? Z.of_nat (length (lastn (Z.to_nat sz) hist ++ [x])))%Z
             = (Z.to_nat sz <? length (lastn (Z.to_nat sz) hist ++ [x]))).
  { assert (1 <= length (lastn (Z.to_nat sz) hist ++ [x])) by (rewrite app_length; simpl; lia).
    destruct (Nat.ltb_spec (Z.to_nat sz) (length (lastn (Z.to_nat sz) hist ++ [x]))); [apply Z.ltb_lt | apply Z.ltb_ge]; lia. }
  rewrite HL. destruct (Z.to_nat sz <? _); eexists; split; [reflexivity|auto|reflexivity|auto].
Qed.

Lemma window_run_from : forall A (xs : list A) w hist,
  wd_items w = lastn (Z.to_nat (wd_size w)) hist ->
  exists w', iterM Window_update xs w = (Ok tt, w') /\ wd_size w' = wd_size w /\
    wd_items w' = lastn (Z.to_nat (wd_size w)) (hist ++ xs).
Proof.
  intros A xs; induction xs as [|x xs IH]; intros w hist E; simpl.
  - exists w. rewrite app_nil_r. auto.
  - destruct (window_update_step A x w hist E) as (w1 & E1 & S1 & I1).
    rewrite <- S1 in I1. destruct (IH w1 _ I1) as (w2 & E2 & S2 & I2).
    exists w2. unfold bind. rewrite E1. split; auto. split; [congruence|].
    rewrite I2, S1, <- app_assoc. reflexivity.
Qed.

Lemma window_run : forall A (size : Z) (xs : list A), exists w,
  iterM Window_update xs (Window_init size) = (Ok tt, w) /\ wd_size w = size /\
  wd_items w = lastn (Z.to_nat size) xs.
Proof.
  intros. apply (window_run_from A xs (Window_init size) []). simpl. rewrite lastn_nil. reflexivity.
Qed.

Lemma unlimited_run : forall A (xs l : list A),
  iterM UnlimitedWindow_update xs l = (Ok tt, l ++ xs).
Proof.
  intros A xs; induction xs as [|x xs IH]; intros l; simpl.
  - rewrite app_nil_r. reflexivity.
  - unfold bind, UnlimitedWindow_update, modify in *. rewrite IH, <- app_assoc. reflexivity.
Qed.

(** ** Window with identities *)
Definition hw_ok {A} (w : hwindow A) : Prop := hw_ref w < length (hw_heap w).

Lemma hw_update_eq : forall A (x : A) w, hw_ok w ->
  let cur := deref (hw_heap w) (hw_ref w) ++ [x] in
  let h1 := set_nth (hw_ref w) cur (hw_heap w) in
  HWindow_update x w = (Ok tt,
    if (hw_size w <? Z.of_nat (length cur))%Z
    then mkHW (hw_size w) (length h1) (h1 ++ [skipn 1 cur])
    else mkHW (hw_size w) (hw_ref w) h1).
Proof.
  intros A x [sz r h] OK cur h1. unfold hw_ok in OK. simpl in *.
  unfold HWindow_update, bind, modify. simpl.
  assert (D : deref h1 r = cur) by (unfold deref, h1; rewrite nth_set_nth_eq; auto).
  fold cur. fold h1. rewrite D. reflexivity.
Qed.

(** The reference-level window always dereferences to the value-level window, and stale
    references are never written. *)
Lemma hw_run_from : forall A (ys : list A) w hist,
  hw_ok w -> deref (hw_heap w) (hw_ref w) = lastn (Z.to_nat (hw_size w)) hist ->
  exists w', iterM HWindow_update ys w = (Ok tt, w') /\ hw_ok w' /\ hw_size w' = hw_size w /\
    hw_ref w <= hw_ref w' /\
    deref (hw_heap w') (hw_ref w') = lastn (Z.to_nat (hw_size w)) (hist ++ ys) /\
    (forall r, r < hw_ref w -> deref (hw_heap w') r = deref (hw_heap w) r) /\
    deref (hw_heap w') (hw_ref w) =
      let l := lastn (Z.to_nat (hw_size w)) hist in
      l ++ firstn (Z.to_nat (hw_size w) - length l + 1) ys.
Proof.
  intros A ys; induction ys as [|y ys IH]; intros w hist OK D; simpl.
  - exists w. unfold ret. rewrite app_nil_r, firstn_nil, app_nil_r. auto 10.
  - unfold bind. rewrite hw_update_eq by assumption.
    set (cur := deref (hw_heap w) (hw_ref w) ++ [y]).
    set (h1 := set_nth (hw_ref w) cur (hw_heap w)).
    assert (L1 : length h1 = length (hw_heap w)) by apply set_nth_length.
    assert (D1 : deref h1 (hw_ref w) = cur) by (unfold deref, h1; rewrite nth_set_nth_eq; auto).
    assert (FR : forall r, r <> hw_ref w -> deref h1 r = deref (hw_heap w) r).
    { intros r Hr. unfold deref, h1. rewrite nth_set_nth_neq; auto. }
    set (sz := Z.to_nat (hw_size w)) in *.
    assert (LS := lastn_step A sz hist y). rewrite <- D in LS. fold cur in LS.
    assert (HL : (hw_size w <? Z.of_nat (length cur))%Z = (sz <? length cur)).
    { assert (1 <= length cur) by (unfold cur; rewrite app_length; simpl; lia).
      unfold sz. destruct (Nat.ltb_spec (Z.to_nat (hw_size w)) (length cur)); [apply Z.ltb_lt | apply Z.ltb_ge]; lia. }
    rewrite HL.
    assert (LL : length (lastn sz hist) <= sz) by (rewrite lastn_length; lia).
    assert (LC : length cur = length (lastn sz hist) + 1) by (unfold cur; rewrite D, app_length; reflexivity).
    destruct (Nat.ltb_spec sz (length cur)) as [OV|NOV].
    + set (w1 := mkHW (hw_size w) (length h1) (h1 ++ [skipn 1 cur])).
      assert (OK1 : hw_ok w1) by (unfold hw_ok, w1; simpl; rewrite app_length; simpl; lia).
      assert (Dw1 : deref (hw_heap w1) (hw_ref w1) = lastn (Z.to_nat (hw_size w1)) (hist ++ [y])).
      { unfold w1. simpl. unfold deref. rewrite app_nth2, Nat.sub_diag by lia. simpl. fold sz. rewrite LS. reflexivity. }
      destruct (IH w1 _ OK1 Dw1) as (w2 & E2 & OK2 & S2 & R2 & C2 & F2 & _).
      exists w2. split; auto. split; auto. split; auto.
      assert (GE : length (lastn sz hist) = sz) by lia.
      assert (RW : hw_ref w < hw_ref w1) by (unfold w1; simpl; unfold hw_ok in OK; lia).
      split; [lia|]. split; [|split].
      * rewrite C2. unfold w1; simpl. rewrite <- app_assoc. reflexivity.
      * intros r Hr. rewrite F2 by lia. unfold w1, deref. simpl. rewrite app_nth1 by (unfold hw_ok in OK; lia).
        fold (deref h1 r). apply FR. lia.
      * rewrite F2 by assumption. unfold w1, deref. simpl. rewrite app_nth1 by (unfold hw_ok in OK; lia).
        fold (deref h1 (hw_ref w)). rewrite D1. unfold cur. rewrite D.
        replace (sz - length (lastn sz hist) + 1) with 1 by lia. reflexivity.
    + set (w1 := mkHW (hw_size w) (hw_ref w) h1).
      assert (OK1 : hw_ok w1) by (unfold hw_ok, w1 in *; simpl; lia).
      assert (Dw1 : deref (hw_heap w1) (hw_ref w1) = lastn (Z.to_nat (hw_size w1)) (hist ++ [y])).
      { unfold w1. simpl. rewrite D1. fold sz. rewrite LS.
        destruct (Nat.ltb_spec sz (length cur)); [lia|reflexivity]. }
      destruct (IH w1 _ OK1 Dw1) as (w2 & E2 & OK2 & S2 & R2 & C2 & F2 & G2).
      exists w2. split; auto. split; auto. split; auto. split; auto. split; [|split].
      * rewrite C2. unfold w1; simpl. rewrite <- app_assoc. reflexivity.
      * intros r Hr. rewrite F2 by (unfold w1; simpl; lia). unfold w1; simpl. apply FR. lia.
      * change (hw_ref w1) with (hw_ref w) in G2. rewrite G2. unfold w1; simpl hw_size. fold sz.
        assert (LS' : lastn sz (hist ++ [y]) = cur).
        { rewrite LS. destruct (Nat.ltb_spec sz (length cur)); [lia|reflexivity]. }
        cbv zeta. rewrite LS', LC. unfold cur at 1. rewrite D, <- app_assoc. simpl app.
        replace (sz - length (lastn sz hist) + 1) with (S (sz - (length (lastn sz hist) + 1) + 1)) by lia.
        reflexivity.
Qed.

(** ** Generators *)
Lemma yields_ok : forall B (f : nat -> res B) (g : nat -> B) idx,
  (forall i, In i idx -> f i = Ok (g i)) -> yields f idx = (map g idx, None).
Proof.
  intros B f g idx; induction idx as [|i idx IH]; simpl; intros H; auto.
  rewrite H by auto. rewrite IH by auto. reflexivity.
Qed.

Lemma py_index_nth : forall A (l : list A) i d, i < length l -> py_index l i = Ok (nth i l d).
Proof. intros. unfold py_index. rewrite (nth_error_nth' l d) by auto. reflexivity. Qed.

Lemma map_nth_seq : forall A (l : list A) d, map (fun i => nth i l d) (seq 0 (length l)) = l.
Proof.
  intros A l d. induction l as [|a l IH]; simpl; auto.
  f_equal. rewrite <- seq_shift, map_map. exact IH.
Qed.

Lemma combine_as_map : forall A B (l : list A) (l' : list B) a b, length l = length l' ->
  combine l l' = map (fun i => (nth i l a, nth i l' b)) (seq 0 (length l)).
Proof.
  intros A B l; induction l as [|x l IH]; intros [|y l'] a b H; simpl in *; try discriminate; auto.
  f_equal. rewrite <- seq_shift, map_map. apply IH. lia.
Qed.

(** ** Shuffling *)
Lemma swap_perm : forall A i j (l : list A), Permutation (swap i j l) l.
Proof.
  intros. unfold swap. destruct (nth_error l i) as [a|] eqn:Ei; [|reflexivity].
  destruct (nth_error l j) as [b|] eqn:Ej; [|reflexivity].
  destruct (Nat.eq_dec i j) as [->|N].
  - assert (a = b) by congruence. subst b.
    rewrite set_nth_same. { rewrite set_nth_same; auto. }
    apply nth_error_set_nth_eq. apply nth_error_Some. congruence.
  - rewrite set_nth_swap_perm; auto.
    + rewrite set_nth_same; auto.
    + apply nth_error_Some. congruence.
Qed.
Lemma swap_length : forall A i j (l : list A), length (swap i j l) = length l.
Proof. intros. apply Permutation_length, swap_perm. Qed.

Lemma shuffle_from_perm : forall A draw i (l : list A), Permutation (shuffle_from draw i l) l.
Proof.
  intros A draw i; induction i as [|i IH]; intros l; simpl; auto.
  rewrite IH. apply swap_perm.
Qed.
Lemma np_shuffle_perm : forall A draw (l : list A), Permutation (np_shuffle draw l) l.
Proof. intros. apply shuffle_from_perm. Qed.

Lemma stream_indices_perm : forall n sh, Permutation (stream_indices n sh) (seq 0 n).
Proof. intros n [draw|]; simpl; auto. apply np_shuffle_perm. Qed.
Lemma stream_indices_in : forall n sh i, In i (stream_indices n sh) -> i < n.
Proof.
  intros n sh i H. apply (Permutation_in _ (stream_indices_perm n sh)) in H. apply in_seq in H. lia.
Qed.

Lemma array_streamer_eq : forall X sh (xs : list X) d,
  ArrayStreamer_iter sh xs = (map (fun i => nth i xs d) (stream_indices (length xs) sh), None).
Proof.
  intros. unfold ArrayStreamer_iter. apply yields_ok. intros i Hi.
  apply py_index_nth. eapply stream_indices_in; eauto.
Qed.
Lemma array_streamer_xy_eq : forall X Y sh (xs : list X) (ys : list Y) dx dy,
  length xs = length ys ->
  ArrayStreamer_iter_xy sh xs ys =
  (map (fun i => (nth i xs dx, nth i ys dy)) (stream_indices (length xs) sh), None).
Proof.
  intros. unfold ArrayStreamer_iter_xy. rewrite H, Nat.eqb_refl, <- H. apply yields_ok. intros i Hi.
  apply stream_indices_in in Hi. rewrite (py_index_nth _ xs i dx) by auto.
  rewrite (py_index_nth _ ys i dy) by lia. reflexivity.
Qed.

Lemma array_streamer_plain : forall X (xs : list X), ArrayStreamer_iter None xs = (xs, None).
Proof.
  intros X xs. destruct xs as [|d xs']; auto.
  rewrite (array_streamer_eq X None _ d). unfold stream_indices. rewrite map_nth_seq. reflexivity.
Qed.
Lemma array_streamer_xy_plain : forall X Y (xs : list X) (ys : list Y), length xs = length ys ->
  ArrayStreamer_iter_xy None xs ys = (combine xs ys, None).
Proof.
  intros X Y xs ys H. destruct xs as [|dx xs'], ys as [|dy ys']; try discriminate; auto.
  rewrite (array_streamer_xy_eq X Y None _ _ dx dy) by auto. unfold stream_indices.
  rewrite <- combine_as_map by auto. reflexivity.
Qed.
Lemma array_streamer_xy_mismatch : forall X Y sh (xs : list X) (ys : list Y), length xs <> length ys ->
  ArrayStreamer_iter_xy sh xs ys = ([], Some AssertionError).
Proof. intros. unfold ArrayStreamer_iter_xy. destruct (Nat.eqb_spec (length xs) (length ys)); [contradiction|reflexivity]. Qed.

Lemma iterate_none : forall X Y (xs : list X), @iterate X Y xs None = (map (fun x => (x, None)) xs, None).
Proof. intros. unfold iterate. rewrite array_streamer_plain. reflexivity. Qed.
Lemma iterate_some : forall X Y (xs : list X) (ys : list Y), length xs = length ys ->
  iterate xs (Some ys) = (map (fun p => (fst p, Some (snd p))) (combine xs ys), None).
Proof. intros. unfold iterate. rewrite array_streamer_xy_plain by auto. reflexivity. Qed.
Lemma iterate_mismatch : forall X Y (xs : list X) (ys : list Y), length xs <> length ys ->
  iterate xs (Some ys) = ([], Some AssertionError).
Proof. intros. unfold iterate. rewrite array_streamer_xy_mismatch by auto. reflexivity. Qed.

(** The shuffled stream is the shuffled list of pairs. *)
Lemma map_swap : forall A B (f : A -> B) i j l, map f (swap i j l) = swap i j (map f l).
Proof.
  assert (MS : forall A B (f : A -> B) i x l, map f (set_nth i x l) = set_nth i (f x) (map f l)).
  { intros A B f i; induction i; intros x [|y l]; simpl; auto. f_equal; auto. }
  intros. unfold swap. rewrite !nth_error_map.
  destruct (nth_error l i); simpl; auto. destruct (nth_error l j); simpl; auto.
  rewrite !MS. reflexivity.
Qed.
Lemma map_shuffle_from : forall A B (f : A -> B) draw i l, map f (shuffle_from draw i l) = shuffle_from draw i (map f l).
Proof. intros A B f draw i; induction i; intros l; simpl; auto. rewrite IHi, map_swap. reflexivity. Qed.
Lemma map_np_shuffle : forall A B (f : A -> B) draw l, map f (np_shuffle draw l) = np_shuffle draw (map f l).
Proof. intros. unfold np_shuffle. rewrite map_shuffle_from, map_length. reflexivity. Qed.

Lemma array_streamer_shuffled : forall X draw (xs : list X),
  ArrayStreamer_iter (Some draw) xs = (np_shuffle draw xs, None).
Proof.
  intros X draw xs. destruct xs as [|d xs']; [reflexivity|].
  rewrite (array_streamer_eq X _ _ d). unfold stream_indices. rewrite map_np_shuffle.
  rewrite (map_nth_seq X (d :: xs') d). reflexivity.
Qed.
Lemma array_streamer_xy_shuffled : forall X Y draw (xs : list X) (ys : list Y), length xs = length ys ->
  ArrayStreamer_iter_xy (Some draw) xs ys = (np_shuffle draw (combine xs ys), None).
Proof.
  intros X Y draw xs ys H. destruct xs as [|dx xs'], ys as [|dy ys']; try discriminate; [reflexivity|].
  rewrite (array_streamer_xy_eq X Y _ _ _ dx dy) by auto. unfold stream_indices. rewrite map_np_shuffle.
  rewrite <- combine_as_map by auto. reflexivity.
Qed.

(** *** Every permutation is reachable. *)
(** [shuffle_from] only touches positions <= i. *)
Lemma swap_tail : forall A i j (l t : list A), i < length l -> j < length l -> swap i j (l ++ t) = swap i j l ++ t.
Proof.
  assert (SA : forall A i x (l t : list A), i < length l -> set_nth i x (l ++ t) = set_nth i x l ++ t).
  { intros A i; induction i; intros x [|y l] t H; simpl in *; try lia; auto. rewrite IHi by lia. reflexivity. }
  intros. unfold swap. rewrite !nth_error_app1 by auto.
  destruct (nth_error l i); auto. destruct (nth_error l j); auto.
  rewrite SA by auto. rewrite SA by (rewrite set_nth_length; auto). reflexivity.
Qed.
Lemma shuffle_from_tail : forall A draw i (l t : list A), i < length l -> (forall k, draw k <= k) ->
  shuffle_from draw i (l ++ t) = shuffle_from draw i l ++ t.
Proof.
  intros A draw i; induction i as [|i IH]; intros l t H V; simpl; auto.
  assert (draw (S i) <= S i) by auto.
  rewrite swap_tail by lia. apply IH; auto. rewrite swap_length. lia.
Qed.
Lemma shuffle_from_ext : forall A d1 d2 i (l : list A), (forall k, k <= i -> d1 k = d2 k) ->
  shuffle_from d1 i l = shuffle_from d2 i l.
Proof.
  intros A d1 d2 i; induction i as [|i IH]; intros l H; simpl; auto.
  rewrite H by lia. apply IH. intros; apply H; lia.
Qed.

Lemma swap_last : forall A (l : list A) n j x, length l = S n -> j <= n -> nth_error l j = Some x ->
  exists l', swap n j l = l' ++ [x] /\ length l' = n /\ Permutation (l' ++ [x]) l.
Proof.
  intros A l n j x L J E. pose proof (swap_perm A n j l) as P.
  destruct (exists_last (l := swap n j l)) as (l' & y & E').
  { intro Q. rewrite Q in P. apply Permutation_length in P. simpl in P. lia. }
  exists l'. assert (LL : length l' = n).
  { apply (f_equal (@length A)) in E'. rewrite swap_length, app_length in E'. simpl in E'. lia. }
  assert (y = x).
  { assert (Z : nth_error (swap n j l) n = Some x).
    { unfold swap. destruct (nth_error l n) as [a|] eqn:En; [|apply nth_error_None in En; lia].
      rewrite E. destruct (Nat.eq_dec n j) as [->|N].
      - rewrite nth_error_set_nth_eq; [|rewrite set_nth_length; lia]. congruence.
      - rewrite nth_error_set_nth_neq by lia. apply nth_error_set_nth_eq. lia. }
    rewrite E', nth_error_app2 in Z by lia. replace (n - length l') with 0 in Z by lia. simpl in Z. congruence. }
  subst y. split; auto. split; auto. rewrite <- E'. auto.
Qed.

Lemma shuffle_surjective : forall A n (l p : list A), length l = S n -> Permutation p l ->
  exists draw, (forall k, draw k <= k) /\ shuffle_from draw n l = p.
Proof.
  intros A n; induction n as [|n IH]; intros l p L P.
  - exists (fun _ => 0). split; [intros; lia|]. simpl.
    destruct l as [|a [|b l]]; simpl in L; try lia. symmetry in P. apply Permutation_length_1_inv in P. auto.
  - destruct (exists_last (l := p)) as (p' & x & ->).
    { intro Q. subst p. apply Permutation_length in P. simpl in P. lia. }
    assert (I : In x l) by (eapply Permutation_in; [exact P|apply in_or_app; right; left; auto]).
    apply In_nth_error in I. destruct I as [j Ej].
    assert (J : j <= S n).
    { assert (j < length l) by (apply nth_error_Some; congruence). lia. }
    destruct (swap_last A l (S n) j x L J Ej) as (l' & E1 & L1 & P1).
    assert (P2 : Permutation p' l').
    { apply Permutation_app_inv_r with (l := [x]). rewrite P, P1. reflexivity. }
    destruct (IH l' p' L1 P2) as (d & V & E2).
    exists (fun k => if k =? S n then j else d k). split.
    + intros k. destruct (Nat.eqb_spec k (S n)); [lia|auto].
    + cbn [shuffle_from]. rewrite Nat.eqb_refl. rewrite E1.
      rewrite shuffle_from_tail.
      * f_equal. rewrite <- E2. apply shuffle_from_ext. intros k Hk.
        destruct (Nat.eqb_spec k (S n)); [lia|reflexivity].
      * lia.
      * intros k. destruct (Nat.eqb_spec k (S n)); [lia|auto].
Qed.

Lemma np_shuffle_surjective : forall A (l p : list A), Permutation p l ->
  exists draw, (forall k, draw k <= k) /\ np_shuffle draw l = p.
Proof.
  intros A l p P. unfold np_shuffle. destruct l as [|a l].
  - symmetry in P. apply Permutation_nil in P. subst. exists (fun _ => 0). split; [intros; lia|reflexivity].
  - apply shuffle_surjective; auto. simpl. lia.
Qed.

(** ** Data *)
Lemma removelast_last_split : forall A (r : list A), r <> [] ->
  exists x, py_index_Z r (-1) = Ok x /\ r = removelast r ++ [x].
Proof.
  intros A r H. destruct (exists_last H) as (r' & x & ->).
  exists x. split.
  - unfold py_index_Z. rewrite app_length. simpl length.
    destruct (Z.leb_spec 0 (-1)); [lia|].
    destruct (Z.leb_spec 0 (-1 + Z.of_nat (length r' + 1))); [|lia].
    replace (Z.to_nat (-1 + Z.of_nat (length r' + 1))) with (length r') by lia.
    unfold py_index. rewrite nth_error_app2, Nat.sub_diag by lia. reflexivity.
  - rewrite removelast_last. reflexivity.
Qed.

Lemma last_column_ok : forall A (rows : list (list A)), (forall r, In r rows -> r <> []) ->
  exists y, last_column (Arr2 rows) = Ok y /\ length y = length rows /\
    Forall2 (fun r p => r = fst p ++ [snd p]) rows (combine (map (@removelast A) rows) y).
Proof.
  intros A rows; induction rows as [|r rows IH]; intros H.
  - exists []. simpl. auto.
  - destruct IH as (y & E & L & F); [intros; apply H; right; auto|].
    destruct (removelast_last_split A r (H r (or_introl eq_refl))) as (x & Ex & Er).
    exists (x :: y). simpl in *. rewrite Ex. simpl. rewrite E. simpl. split; [reflexivity|]. split; [lia|].
    constructor; auto.
Qed.

(** ** column-wise extremes *)
Lemma column_ok : forall A (rows : list (list A)) d j, (forall r, In r rows -> length r = d) -> j < d ->
  exists c, column j rows = Ok c /\ length c = length rows /\
    forall i r, nth_error rows i = Some r -> nth_error c i = nth_error r j.
Proof.
  intros A rows d j; induction rows as [|r rows IH]; intros H J.
  - exists []. simpl. split; auto. split; auto. intros [|i] r; discriminate.
  - destruct IH as (c & E & L & F); auto. { intros; apply H; right; auto. }
    assert (Lr : length r = d) by (apply H; left; auto).
    destruct (nth_error r j) as [x|] eqn:Ex; [|apply nth_error_None in Ex; lia].
    exists (x :: c). simpl in *. unfold py_index. rewrite Ex. simpl. rewrite E. simpl.
    split; auto. split; [lia|]. intros [|i] r' E'; simpl in *; auto. inversion E'; subst. auto.
Qed.

Lemma res_map_ok : forall A B (f : A -> res B) (P : A -> B -> Prop) l,
  (forall a, In a l -> exists b, f a = Ok b /\ P a b) ->
  exists bs, res_map f l = Ok bs /\ Forall2 P l bs.
Proof.
  intros A B f P l; induction l as [|a l IH]; intros H; simpl.
  - exists []. auto.
  - destruct (H a (or_introl eq_refl)) as (b & E & Hb).
    destruct IH as (bs & Es & Hs); [intros; apply H; right; auto|].
    exists (b :: bs). rewrite E. simpl. rewrite Es. simpl. auto.
Qed.

Lemma Forall2_length : forall A B (P : A -> B -> Prop) l1 l2, Forall2 P l1 l2 -> length l1 = length l2.
Proof. intros A B P l1 l2 F; induction F; simpl; auto. Qed.
