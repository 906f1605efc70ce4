(** * C143: streamers read the arrays when an item is asked for. *)
From Coq Require Import List Arith Lia Bool Permutation.
From Verif Require Import Base Num Spec Model_Stats Model_Utils Model_Lazy P_Lists P_Utils.
Import ListNotations.

(** ** Specification *)
(** [cs] are the contents of the array at the successive calls of next(); [order] the rows in the order they are asked for. *)
(** Row [order k] of the contents at the k-th call. *)
Definition current {X} (order : list nat) (cs : list (list X)) (k : nat) : option X :=
  match nth_error order k, nth_error cs k with Some i, Some c => nth_error c i | _, _ => None end.
(** At every call up to number k the row asked for exists. *)
Definition rows_exist {X} (order : list nat) (cs : list (list X)) (k : nat) : Prop := forall j, j <= k -> j < length order -> current order cs j <> None.
(** Between the calls the client changes only rows that have been handed out. *)
Definition only_delivered_change {X} (order : list nat) (cs : list (list X)) (c0 : list X) : Prop :=
  forall j k i c, j <= k -> nth_error order k = Some i -> nth_error cs j = Some c -> nth_error c i = nth_error c0 i.

(** ** Proofs *)
Lemma over_run : forall C B idx chk (read : C -> nat -> res B) (cs : list C), lazy_run (fun c g => lazy_next (idx c) (chk c) (read c) g) cs Over = repeat Stop (length cs).
Proof. intros. induction cs; auto. cbn. f_equal. auto. Qed.
Lemma run_first : forall X shuffle (c0 : list X) cs, lazy_run (array_next shuffle) (c0 :: cs) Fresh = lazy_run (array_next shuffle) (c0 :: cs) (Live (stream_indices (length c0) shuffle)).
Proof. reflexivity. Qed.
Lemma live_step : forall X shuffle (c : list X) cs i order, lazy_run (array_next shuffle) (c :: cs) (Live (i :: order)) =
  match nth_error c i with Some x => Yield x :: lazy_run (array_next shuffle) cs (Live order) | None => Error IndexError :: repeat Stop (length cs) end.
Proof.
  intros. cbn [lazy_run]. unfold array_next at 1, lazy_next, lazy_loop, py_index. destruct (nth_error c i); [reflexivity|]. f_equal.
  exact (over_run (list X) X (fun c => stream_indices (length c) shuffle) (fun _ => None) (fun c => py_index c) cs).
Qed.
Lemma live_run : forall X shuffle (cs : list (list X)) order k, k < length cs -> rows_exist order cs k ->
  nth_error (lazy_run (array_next shuffle) cs (Live order)) k = Some (match current order cs k with Some x => Yield x | None => Stop end).
Proof.
  intros X shuffle cs. induction cs as [|c cs IH]; intros order k Hk H; [cbn in Hk; lia|]. cbn [lazy_run]. unfold array_next at 1, lazy_next. destruct order as [|i order].
  - cbn [lazy_loop]. destruct k; [reflexivity|]. cbn [nth_error]. unfold array_next. rewrite (over_run (list X) X (fun c => stream_indices (length c) shuffle) (fun _ => None) (fun c => py_index c)). unfold current. destruct (nth_error [] (S k)) eqn:E; [destruct k; discriminate|]. cbn [length] in Hk. apply nth_error_repeat. lia.
  - cbn [lazy_loop]. pose proof (H 0 ltac:(lia) ltac:(cbn; lia)) as H0. unfold current in H0. cbn [nth_error] in H0. unfold py_index. destruct (nth_error c i) as [x|] eqn:E; [|congruence]. destruct k as [|k].
    + cbn [nth_error]. unfold current. cbn [nth_error]. rewrite E. reflexivity.
    + cbn [nth_error]. apply IH; [cbn in Hk; lia|]. intros j Hj Hl. apply (H (S j)); [lia|cbn; lia].
Qed.
(** Every item is the row as it is at the moment it is asked for; how many there are, and in which order, is settled at the
    first call, by the length the array has then. *)
Theorem C143_rows_are_read_when_asked_for : forall X shuffle (c0 : list X) cs k, k <= length cs -> let order := stream_indices (length c0) shuffle in rows_exist order (c0 :: cs) k ->
  Permutation order (seq 0 (length c0)) /\ (shuffle = None -> order = seq 0 (length c0)) /\
  nth_error (lazy_run (array_next shuffle) (c0 :: cs) Fresh) k = Some (match current order (c0 :: cs) k with Some x => Yield x | None => Stop end).
Proof.
  intros X shuffle c0 cs k Hk order H. split; [apply stream_indices_perm|]. split; [intros ->; reflexivity|]. rewrite run_first. apply live_run; [cbn; lia|exact H].
Qed.
Print Assumptions C143_rows_are_read_when_asked_for.
(** A row that is gone when it is asked for raises IndexError, and the stream is over. *)
Theorem C143_row_gone : forall X shuffle (c0 : list X) cs k, k <= length cs -> let order := stream_indices (length c0) shuffle in
  (forall j, j < k -> rows_exist order (c0 :: cs) j) -> k < length order -> current order (c0 :: cs) k = None ->
  nth_error (lazy_run (array_next shuffle) (c0 :: cs) Fresh) k = Some (Error IndexError) /\
  forall j, k < j -> j <= length cs -> nth_error (lazy_run (array_next shuffle) (c0 :: cs) Fresh) j = Some Stop.
Proof.
  intros X shuffle c0 cs k Hk order H Ho Hc. rewrite run_first. fold order. clearbody order. revert order k Hk H Ho Hc. generalize c0 as c. clear c0.
  induction cs as [|c1 cs IH]; intros c order k Hk H Ho Hc; (destruct order as [|i order]; [cbn in Ho; lia|]); rewrite live_step.
  - assert (k = 0) by (cbn in Hk; lia). subst k. unfold current in Hc. cbn [nth_error] in Hc. rewrite Hc. split; [reflexivity|]. intros j H1 H2. cbn in H2. lia.
  - destruct k as [|k].
    + unfold current in Hc. cbn [nth_error] in Hc. rewrite Hc. split; [reflexivity|]. intros j H1 H2. destruct j; [lia|]. cbn [nth_error]. apply nth_error_repeat. cbn in *. lia.
    + pose proof (H 0 ltac:(lia) 0 ltac:(lia) ltac:(cbn; lia)) as H0. unfold current in H0. cbn [nth_error] in H0. destruct (nth_error c i) as [x|]; [|congruence].
      destruct (IH c1 order k) as [I1 I2]; [cbn in Hk; lia| |cbn in Ho; lia|exact Hc|].
      * intros j Hj j' Hj' Hl. apply (H (S j) ltac:(lia) (S j')); [lia|cbn; lia].
      * cbn [nth_error]. split; [exact I1|]. intros j H1 H2. destruct j; [lia|]. cbn [nth_error]. apply I2; [lia|cbn in H2; lia].
Qed.
Print Assumptions C143_row_gone.
(** As long as only rows already handed out are changed, the stream is that of the array as it was at the first call. *)
Theorem C143_changing_delivered_rows_is_safe : forall X shuffle (c0 : list X) cs, let order := stream_indices (length c0) shuffle in only_delivered_change order (c0 :: cs) c0 -> length cs = length c0 ->
  lazy_run (array_next shuffle) (c0 :: cs) Fresh = map Yield (fst (ArrayStreamer_iter shuffle c0)) ++ [Stop] /\ snd (ArrayStreamer_iter shuffle c0) = None.
Proof.
  intros X shuffle c0 cs order H L. rewrite run_first. unfold ArrayStreamer_iter. fold order. assert (Hi : forall i, In i order -> nth_error c0 i <> None) by (intros i Hin; apply nth_error_Some; eapply stream_indices_in; eauto).
  assert (Lo : length order = length cs). { unfold order. rewrite (Permutation_length (stream_indices_perm (length c0) shuffle)), seq_length. lia. }
  assert (G : forall order (cs : list (list X)) c, length order = length cs -> (forall i, In i order -> nth_error c0 i <> None) -> only_delivered_change order (c :: cs) c0 ->
     lazy_run (array_next shuffle) (c :: cs) (Live order) = map Yield (fst (yields (py_index c0) order)) ++ [Stop] /\ snd (yields (py_index c0) order) = None).
  { clear. induction order as [|i order IH]; intros cs c L Hi H.
    - destruct cs; [|discriminate]. split; reflexivity.
    - destruct cs as [|c1 cs]; [discriminate|]. rewrite live_step. rewrite (H 0 0 i c); [|lia|reflexivity|reflexivity]. cbn [yields]. specialize (Hi i (or_introl eq_refl)) as Hx. unfold py_index at 1 3. destruct (nth_error c0 i) as [x|]; [|congruence].
      destruct (IH cs c1) as [I1 I2]; [cbn in L; lia|intros; apply Hi; right; auto| |].
      + intros j k i' c' Hj Hk Hc. apply (H (S j) (S k) i' c'); auto; lia.
      + destruct (yields (py_index c0) order) as [bs e] eqn:Ey. cbn [fst snd] in *. rewrite I1. split; auto. }
  apply G; auto.
Qed.
Print Assumptions C143_changing_delivered_rows_is_safe.
(** Labels that do not match are noticed at the first call of next(), with the arrays as they are then, not when iter is called. *)
Theorem C143_labels_are_checked_at_the_first_call : forall X Y shuffle (xs : list X) (ys : list Y) cs,
  (length xs <> length ys -> lazy_run (array_next_xy shuffle) ((xs, ys) :: cs) Fresh = Error AssertionError :: repeat Stop (length cs)) /\
  (length xs = length ys -> length cs = length xs -> (forall c, In c cs -> c = (xs, ys)) ->
   lazy_run (array_next_xy shuffle) ((xs, ys) :: cs) Fresh = map Yield (fst (ArrayStreamer_iter_xy shuffle xs ys)) ++ [Stop]).
Proof.
  intros X Y shuffle xs ys cs. split.
  - intros H. cbn [lazy_run]. unfold array_next_xy at 1, lazy_next. cbn [fst snd]. destruct (Nat.eqb_spec (length xs) (length ys)); [lia|]. f_equal. unfold array_next_xy.
    exact (over_run (list X * list Y) (X * Y) (fun xy => stream_indices (length (fst xy)) shuffle) (fun xy => if length (fst xy) =? length (snd xy) then None else Some AssertionError) (fun xy i => rbind (py_index (fst xy) i) (fun x => rmap (fun y => (x, y)) (py_index (snd xy) i))) cs).
  - intros H Lc Hc. set (rd := fun i => rbind (py_index xs i) (fun x => rmap (fun y => (x, y)) (py_index ys i))). set (order := stream_indices (length xs) shuffle).
    assert (E : lazy_run (array_next_xy shuffle) ((xs, ys) :: cs) Fresh = lazy_run (array_next_xy shuffle) ((xs, ys) :: cs) (Live order)).
    { cbn [lazy_run]. unfold array_next_xy at 1 3, lazy_next. cbn [fst snd]. destruct (Nat.eqb_spec (length xs) (length ys)); [reflexivity|lia]. }
    rewrite E. unfold ArrayStreamer_iter_xy. destruct (Nat.eqb_spec (length xs) (length ys)); [|lia]. fold rd. fold order.
    assert (Hi : forall i, In i order -> i < length xs) by (intros i Hin; eapply stream_indices_in; eauto).
    assert (Lo : length order = length cs). { unfold order. rewrite (Permutation_length (stream_indices_perm (length xs) shuffle)), seq_length. lia. }
    clearbody order. clear E. revert cs Lc Hc Lo. intros cs _. revert cs. induction order as [|i order IH]; intros cs Hc Lo.
    + destruct cs; [|discriminate]. reflexivity.
    + destruct cs as [|c1 cs]; [discriminate|]. pose proof (Hc c1 (or_introl eq_refl)) as ->. change (lazy_run (array_next_xy shuffle) ((xs, ys) :: (xs, ys) :: cs) (Live (i :: order))) with (let '(a, g) := lazy_loop rd (i :: order) in a :: lazy_run (array_next_xy shuffle) ((xs, ys) :: cs) g).
      cbn [lazy_loop yields]. assert (Rd : exists p, rd i = Ok p). { unfold rd, py_index. pose proof (Hi i (or_introl eq_refl)). destruct (nth_error xs i) as [x|] eqn:E1; [|apply nth_error_None in E1; lia]. destruct (nth_error ys i) as [y|] eqn:E2; [|apply nth_error_None in E2; lia]. exists (x, y). reflexivity. }
      destruct Rd as [p Rd]. rewrite Rd. rewrite IH; [|intros; apply Hi; right; auto|intros; apply Hc; right; auto|cbn in Lo; lia]. destruct (yields rd order). reflexivity.
Qed.
Print Assumptions C143_labels_are_checked_at_the_first_call.
(** A PandasStreamer whose frame was copied hands out the frame as it was at the first call, whatever is written later. *)
Theorem C143_pandas_copy : forall X shuffle (c0 : list X) cs, length cs = length c0 ->
  pandas_run false shuffle (c0 :: cs) = map Yield (fst (ArrayStreamer_iter shuffle c0)) ++ [Stop] /\ pandas_run true shuffle (c0 :: cs) = lazy_run (array_next shuffle) (c0 :: cs) Fresh.
Proof.
  intros X shuffle c0 cs L. split; [|reflexivity]. unfold pandas_run. cbn [map]. apply C143_changing_delivered_rows_is_safe; [|rewrite map_length; auto].
  intros j k i c _ _ Hj. assert (In c (c0 :: map (fun _ => c0) cs)) by (eapply nth_error_In; eauto). destruct H as [<-|H]; [reflexivity|]. apply in_map_iff in H. destruct H as (? & <- & _). reflexivity.
Qed.
Print Assumptions C143_pandas_copy.
(** A stream is not a snapshot: a client that rescales the whole array after the first item gets rescaled rows from then on. *)
Theorem C143_stream_is_a_snapshot_refuted : lazy_run (array_next None) [[1; 2; 3]; [10; 20; 30]; [10; 20; 30]; [10; 20; 30]] Fresh = [Yield 1; Yield 20; Yield 30; Stop] /\
  fst (ArrayStreamer_iter None [1; 2; 3]) = [1; 2; 3].
Proof. split; reflexivity. Qed.
Print Assumptions C143_stream_is_a_snapshot_refuted.
(** Rows appended after the first call are not handed out, rows removed raise IndexError, and overwriting row 0 after it was handed out is safe. *)
Example C143_ex : lazy_run (array_next None) [[1; 2]; [1; 2; 3]; [1; 2; 3]] Fresh = [Yield 1; Yield 2; Stop] /\
  lazy_run (array_next None) [[1; 2]; [1]; [1; 2]] Fresh = [Yield 1; Error IndexError; Stop] /\
  only_delivered_change (stream_indices 2 None) [[1; 2]; [7; 2]; [7; 8]] [1; 2] /\ rows_exist (stream_indices 2 None) [[1; 2]; [7; 2]] 1.
Proof.
  split; [reflexivity|]. split; [reflexivity|]. split.
  - intros j k i c Hj Hk Hc. destruct k as [|[|k]]; cbn in Hk; try (destruct k; discriminate); injection Hk as <-; destruct j as [|[|j]]; try lia; cbn in Hc; injection Hc as <-; reflexivity.
  - intros j Hj Hl. destruct j as [|[|j]]; try lia; cbn; discriminate.
Qed.
