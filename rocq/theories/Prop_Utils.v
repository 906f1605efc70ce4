(** * Properties of pysad/utils (C01-C08). *)
From Coq Require Import String.
From Coq Require Import List ZArith Lia Bool Arith Permutation.
From Verif Require Import Base Num Spec Model_Stats Model_Utils P_Lists P_Utils.
Import ListNotations.

(** ** C01 *)
Theorem C01_window_keeps_last : forall A (size : Z) (xs : list A), exists w,
  iterM Window_update xs (Window_init size) = (Ok tt, w) /\
  eval Window_get w = Ok (lastn (Z.to_nat size) xs) /\ exec Window_get w = w.
Proof.
  intros. destruct (window_run A size xs) as (w & E & _ & I). exists w. split; auto. split; auto.
  unfold eval, Window_get, gets. simpl. rewrite I. reflexivity.
Qed.
Print Assumptions C01_window_keeps_last.
Example C01_ex : exists w, iterM Window_update [1; 2; 3; 4; 5] (Window_init 3) = (Ok tt, w) /\
  eval Window_get w = Ok [3; 4; 5].
Proof. eexists. split; vm_compute; reflexivity. Qed.
Example C01_ex_degenerate : exists w, iterM Window_update [1; 2] (Window_init (-4)) = (Ok tt, w) /\
  eval Window_get w = Ok [].
Proof. eexists. split; vm_compute; reflexivity. Qed.

(** ** C02 *)
Theorem C02_unlimited_window_keeps_all : forall A (xs : list A), exists w,
  iterM UnlimitedWindow_update xs UnlimitedWindow_init = (Ok tt, w) /\ eval UnlimitedWindow_get w = Ok xs.
Proof. intros. exists xs. split; [apply unlimited_run | reflexivity]. Qed.
Print Assumptions C02_unlimited_window_keeps_all.
Example C02_ex : exists w, iterM UnlimitedWindow_update [1; 2; 3] UnlimitedWindow_init = (Ok tt, w) /\
  eval UnlimitedWindow_get w = Ok [1; 2; 3].
Proof. eexists. split; vm_compute; reflexivity. Qed.

(** ** C03: [r] is the list object handed out by get() after the updates [xs]; after the
    further updates [ys] that same object holds what it held plus the next updates up to
    and including the first overflowing one. *)
Theorem C03_get_is_live_until_overflow : forall A (size : Z) (xs ys : list A), exists w1 r w2,
  iterM HWindow_update xs (HWindow_init size) = (Ok tt, w1) /\
  HWindow_get w1 = (Ok r, w1) /\
  iterM HWindow_update ys w1 = (Ok tt, w2) /\
  let n := Z.to_nat size in
  deref (hw_heap w1) r = lastn n xs /\
  deref (hw_heap w2) r = lastn n xs ++ firstn (n - length (lastn n xs) + 1) ys /\
  deref (hw_heap w2) (hw_ref w2) = lastn n (xs ++ ys).
Proof.
  intros A size xs ys.
  destruct (hw_run_from A xs (HWindow_init size) []) as (w1 & E1 & OK1 & S1 & _ & C1 & _ & _).
  { unfold hw_ok; simpl; lia. } { simpl. rewrite lastn_nil. reflexivity. }
  simpl in C1, S1.
  rewrite <- S1 in C1.
  destruct (hw_run_from A ys w1 xs OK1 C1) as (w2 & E2 & OK2 & S2 & _ & C2 & _ & G2).
  exists w1, (hw_ref w1), w2. rewrite S1 in *. auto 10.
Qed.
Print Assumptions C03_get_is_live_until_overflow.
(** It is not a snapshot. *)
Theorem C03_get_is_a_snapshot_refuted : exists (size : Z) (xs ys : list nat) w1 r w2,
  iterM HWindow_update xs (HWindow_init size) = (Ok tt, w1) /\
  HWindow_get w1 = (Ok r, w1) /\
  iterM HWindow_update ys w1 = (Ok tt, w2) /\
  deref (hw_heap w2) r <> deref (hw_heap w1) r.
Proof.
  exists 3%Z, [1; 2], [3; 4; 5], (mkHW 3%Z 0 [[1; 2]]), 0, (mkHW 3%Z 2 [[1; 2; 3; 4]; [2; 3; 4; 5]; [3; 4; 5]]).
  split; [vm_compute; reflexivity|]. split; [vm_compute; reflexivity|].
  split; [vm_compute; reflexivity|]. vm_compute. discriminate.
Qed.
Print Assumptions C03_get_is_a_snapshot_refuted.
Example C03_ex : 
  let w2 := exec (iterM HWindow_update [1; 2; 3; 4; 5]) (HWindow_init 3) in
  deref (hw_heap w2) 0 = [1; 2; 3; 4] /\ deref (hw_heap w2) (hw_ref w2) = [3; 4; 5].
Proof. split; vm_compute; reflexivity. Qed.

(** ** C04 *)
Theorem C04_stream_in_order : forall X (xs : list X), ArrayStreamer_iter None xs = (xs, None).
Proof. exact array_streamer_plain. Qed.
Print Assumptions C04_stream_in_order.
Theorem C04_stream_in_order_labelled : forall X Y (xs : list X) (ys : list Y),
  (length xs = length ys -> ArrayStreamer_iter_xy None xs ys = (combine xs ys, None)) /\
  (length xs <> length ys -> ArrayStreamer_iter_xy None xs ys = ([], Some AssertionError)).
Proof. split; [apply array_streamer_xy_plain | apply array_streamer_xy_mismatch]. Qed.
Print Assumptions C04_stream_in_order_labelled.
(** The internal iterator used by every batch method. *)
Theorem C04_iterate : forall X Y (xs : list X) (ys : list Y),
  @iterate X Y xs None = (map (fun x => (x, None)) xs, None) /\
  (length xs = length ys -> iterate xs (Some ys) = (map (fun p => (fst p, Some (snd p))) (combine xs ys), None)) /\
  (length xs <> length ys -> iterate xs (Some ys) = ([], Some AssertionError)).
Proof.
  intros. split; [apply iterate_none|]. split; [apply iterate_some | apply iterate_mismatch].
Qed.
Print Assumptions C04_iterate.
Example C04_ex : ArrayStreamer_iter_xy None [10; 20; 30] [true; false; true]
  = ([(10, true); (20, false); (30, true)], None) /\
  ArrayStreamer_iter_xy None [10; 20] [true] = ([], Some AssertionError).
Proof. split; reflexivity. Qed.

(** ** C05 *)
Theorem C05_shuffled_is_permutation : forall X draw (xs : list X), exists out,
  ArrayStreamer_iter (Some draw) xs = (out, None) /\ Permutation out xs.
Proof.
  intros. eexists. split; [apply array_streamer_shuffled | apply np_shuffle_perm].
Qed.
Print Assumptions C05_shuffled_is_permutation.
Theorem C05_shuffled_keeps_labels : forall X Y draw (xs : list X) (ys : list Y), length xs = length ys ->
  exists out, ArrayStreamer_iter_xy (Some draw) xs ys = (out, None) /\ Permutation out (combine xs ys).
Proof.
  intros. eexists. split; [apply array_streamer_xy_shuffled; auto | apply np_shuffle_perm].
Qed.
Print Assumptions C05_shuffled_keeps_labels.
Theorem C05_every_order_reachable : forall X (xs p : list X), Permutation p xs ->
  exists draw, (forall i, draw i <= i) /\ ArrayStreamer_iter (Some draw) xs = (p, None).
Proof.
  intros X xs p P. destruct (np_shuffle_surjective X xs p P) as (d & V & E).
  exists d. split; auto. rewrite array_streamer_shuffled, E. reflexivity.
Qed.
Print Assumptions C05_every_order_reachable.
Theorem C05_shuffled_mismatch : forall X Y draw (xs : list X) (ys : list Y), length xs <> length ys ->
  ArrayStreamer_iter_xy (Some draw) xs ys = ([], Some AssertionError).
Proof. intros; apply array_streamer_xy_mismatch; auto. Qed.
Print Assumptions C05_shuffled_mismatch.
Example C05_ex : ArrayStreamer_iter_xy (Some (fun i => i / 2)) [10; 20; 30] ["a"; "b"; "c"]%string
  = ([(30, "c"); (10, "a"); (20, "b")], None)%string.
Proof. vm_compute. reflexivity. Qed.

(** ** C06 *)
Theorem C06_pandas_is_array_streamer : forall X Y sh (df : list X) (ys : list Y),
  PandasStreamer_iter sh df = ArrayStreamer_iter sh df /\
  PandasStreamer_iter_xy sh df ys = ArrayStreamer_iter_xy sh df ys.
Proof.
  intros. split; [reflexivity|]. unfold PandasStreamer_iter_xy.
  destruct (Nat.eqb_spec (length df) (length ys)); auto. rewrite array_streamer_xy_mismatch; auto.
Qed.
Print Assumptions C06_pandas_is_array_streamer.
Example C06_ex : PandasStreamer_iter_xy None [1; 2] [true] = ([], Some AssertionError) /\
  PandasStreamer_iter_xy None [1; 2] [true; false] = ([(1, true); (2, false)], None).
Proof. split; reflexivity. Qed.

(** ** C07 *)
Definition rectangular {A} (m : nat) (table : list (list A)) : Prop := forall r, In r table -> length r = m.
Lemma forallb_rect : forall A m (r0 : list A) rest, rectangular m (r0 :: rest) ->
  forallb (fun r => (length r =? length r0)) rest = true.
Proof.
  intros. apply forallb_forall. intros r Hr. apply Nat.eqb_eq.
  rewrite (H r (or_intror Hr)), (H r0 (or_introl eq_refl)). reflexivity.
Qed.
Theorem C07_text_table_split : forall A fs_mat (fs_txt : string -> list (list A)) file m,
  contains ".mat" file = false -> rectangular m (fs_txt file) -> 2 <= length (fs_txt file) -> 2 <= m ->
  exists X y, get_data fs_mat fs_txt file = Ok (X, y) /\
    length X = length (fs_txt file) /\ length y = length (fs_txt file) /\
    Forall2 (fun row p => row = fst p ++ [snd p]) (fs_txt file) (combine X y).
Proof.
  intros A fs_mat fs_txt file m HC HR HL Hm. unfold get_data. rewrite HC.
  destruct (fs_txt file) as [|r0 rest] eqn:E; [simpl in HL; lia|].
  unfold loadtxt. rewrite (forallb_rect A m r0 rest HR).
  assert (L0 : length r0 = m) by (apply HR; left; auto).
  destruct rest as [|r1 rest]; [simpl in HL; lia|].
  destruct r0 as [|a [|b r0]]; simpl in L0; try lia.
  destruct (last_column_ok A ((a :: b :: r0) :: r1 :: rest)) as (y & Ey & Ly & F).
  { intros r Hr Q. subst r. specialize (HR [] Hr). simpl in HR. lia. }
  exists (map (@removelast A) ((a :: b :: r0) :: r1 :: rest)), y.
  cbn [rbind]. rewrite Ey. cbn [rbind all_but_last_column rmap].
  split; auto. split; [apply map_length|]. split; auto.
Qed.
Print Assumptions C07_text_table_split.
Theorem C07_degenerate_table_rejected : forall A fs_mat (fs_txt : string -> list (list A)) file m,
  contains ".mat" file = false -> rectangular m (fs_txt file) -> 1 <= m ->
  length (fs_txt file) <= 1 \/ m = 1 ->
  get_data fs_mat fs_txt file = Raise IndexError.
Proof.
  intros A fs_mat fs_txt file m HC HR Hm HD. unfold get_data. rewrite HC.
  destruct (fs_txt file) as [|r0 rest] eqn:E; [reflexivity|].
  unfold loadtxt. rewrite (forallb_rect A m r0 rest HR).
  assert (L0 : length r0 = m) by (apply HR; left; auto).
  destruct HD as [HD|HD].
  - simpl in HD. destruct rest; [|simpl in HD; lia].
    destruct r0 as [|a [|b r0]]; reflexivity.
  - rewrite HD in L0. destruct r0 as [|a [|b r0]]; simpl in L0; try lia.
    destruct rest; reflexivity.
Qed.
Print Assumptions C07_degenerate_table_rejected.
(** The format is decided by a substring test, not by the extension. *)
Theorem C07_mat_anywhere_in_the_name : forall A fs_mat (fs_txt : string -> list (list A)) pre post,
  get_data fs_mat fs_txt (pre ++ ".mat" ++ post)%string =
  match fs_mat (pre ++ ".mat" ++ post)%string with
  | Ok (X, y) => Ok (X, concat y) | Raise e => Raise e end.
Proof.
  intros. unfold get_data.
  assert (E : contains ".mat" (pre ++ ".mat" ++ post) = true).
  { induction pre as [|c pre IH].
    - simpl. destruct post; reflexivity.
    - change (contains ".mat" (String c (pre ++ ".mat" ++ post)) = true). cbn [contains].
      rewrite IH. apply orb_true_r. }
  rewrite E. destruct (fs_mat _) as [[X y]|e]; reflexivity.
Qed.
Print Assumptions C07_mat_anywhere_in_the_name.
(** get_iterator streams the table row by row. *)
Theorem C07_get_iterator : forall A fs_mat (fs_txt : string -> list (list A)) file m,
  contains ".mat" file = false -> rectangular m (fs_txt file) -> 2 <= length (fs_txt file) -> 2 <= m ->
  exists out, get_iterator fs_mat fs_txt file None = Ok (out, None) /\
    map (fun p => fst p ++ [snd p]) out = fs_txt file.
Proof.
  intros A fs_mat fs_txt file m HC HR HL Hm.
  destruct (C07_text_table_split A fs_mat fs_txt file m HC HR HL Hm) as (X & y & E & LX & Ly & F).
  exists (combine X y). unfold get_iterator. rewrite E. cbn [rmap fst snd].
  rewrite array_streamer_xy_plain by lia. split; auto.
  clear - F. induction F; simpl; auto. f_equal; auto.
Qed.
Print Assumptions C07_get_iterator.
(** With shuffling (the default) it streams the same rows in some order, and any order can come up. *)
Theorem C07_get_iterator_shuffled : forall A fs_mat (fs_txt : string -> list (list A)) file m,
  contains ".mat" file = false -> rectangular m (fs_txt file) -> 2 <= length (fs_txt file) -> 2 <= m ->
  (forall draw, exists out, get_iterator fs_mat fs_txt file (Some draw) = Ok (out, None) /\
     Permutation (map (fun p => fst p ++ [snd p]) out) (fs_txt file)) /\
  (forall rows, Permutation rows (fs_txt file) -> exists draw out, (forall i, draw i <= i) /\
     get_iterator fs_mat fs_txt file (Some draw) = Ok (out, None) /\ map (fun p => fst p ++ [snd p]) out = rows).
Proof.
  intros A fs_mat fs_txt file m HC HR HL Hm.
  destruct (C07_text_table_split A fs_mat fs_txt file m HC HR HL Hm) as (X & y & E & LX & Ly & F).
  assert (J : map (fun p => fst p ++ [snd p]) (combine X y) = fs_txt file).
  { clear - F. induction F; simpl; auto. f_equal; auto. }
  unfold get_iterator. rewrite E. cbn [rmap fst snd]. split.
  - intros draw. destruct (C05_shuffled_keeps_labels _ _ draw X y) as (out & EO & P); [lia|].
    exists out. rewrite EO. split; auto. rewrite <- J. apply Permutation_map, P.
  - intros rows P. rewrite <- J in P. apply Permutation_map_inv in P. destruct P as (out & -> & P).
    destruct (np_shuffle_surjective _ (combine X y) out (Permutation_sym P)) as (d & V & E2).
    exists d, out. split; auto. rewrite array_streamer_xy_shuffled, E2 by lia. auto.
Qed.
Print Assumptions C07_get_iterator_shuffled.
Example C07_ex : get_data (fun _ => Raise OtherError) (fun _ => [[1; 2; 9]; [3; 4; 8]]) "a.txt" = Ok ([[1; 2]; [3; 4]], [9; 8])
  /\ get_data (fun _ => Raise OtherError) (fun _ => [[1; 2; 9]]) "a.txt" = Raise IndexError
  /\ get_data (fun _ => Raise OtherError) (fun _ => [[1]; [2]]) "a.txt" = Raise IndexError.
Proof. split; [|split]; vm_compute; reflexivity. Qed.

(** ** C08 *)
Theorem C08_minmax_scalar : forall A (O : Ord A) (OL : OrdLaws A) (l : list A),
  (l = [] -> get_minmax_scalar l = Raise ValueError) /\
  (l <> [] -> exists mn mx, get_minmax_scalar l = Ok (mn, mx) /\ In mn l /\ In mx l /\
     forall x, In x l -> oleb mn x = true /\ oleb x mx = true).
Proof.
  intros A O OL l. split; intros H.
  - subst. reflexivity.
  - destruct (np_min_ok l H) as (mn & E1 & I1 & U1). destruct (np_max_ok l H) as (mx & E2 & I2 & U2).
    exists mn, mx. unfold get_minmax_scalar. rewrite E1. cbn [rbind]. rewrite E2. auto 10.
Qed.
Print Assumptions C08_minmax_scalar.
Theorem C08_minmax_array : forall A (O : Ord A) (OL : OrdLaws A) d (rows : list (list A)),
  rows <> [] -> (forall r, In r rows -> length r = d) ->
  exists mins maxs, get_minmax_array d rows = Ok (mins, maxs) /\ length mins = d /\ length maxs = d /\
    forall j, j < d -> exists mn mx, nth_error mins j = Some mn /\ nth_error maxs j = Some mx /\
      (exists r, In r rows /\ nth_error r j = Some mn) /\ (exists r, In r rows /\ nth_error r j = Some mx) /\
      forall r x, In r rows -> nth_error r j = Some x -> oleb mn x = true /\ oleb x mx = true.
Proof.
  intros A O OL d rows HN HR.
  assert (HC : forall j, j < d -> exists c, column j rows = Ok c /\ c <> [] /\
     (forall x, In x c -> exists r, In r rows /\ nth_error r j = Some x) /\
     (forall r x, In r rows -> nth_error r j = Some x -> In x c)).
  { intros j J. destruct (column_ok A rows d j HR J) as (c & E & L & F). exists c. split; auto. split; [|split].
    - destruct rows; [congruence|]. destruct c; [discriminate|congruence].
    - intros x Hx. apply In_nth_error in Hx. destruct Hx as [i Hi].
      destruct (nth_error rows i) as [r|] eqn:Er.
      + exists r. split; [eapply nth_error_In; eauto|]. rewrite <- (F i r Er). auto.
      + apply nth_error_None in Er. assert (i < length c) by (apply nth_error_Some; congruence). lia.
    - intros r x Hr Hx. apply In_nth_error in Hr. destruct Hr as [i Hi].
      rewrite <- (F i r Hi) in Hx. eapply nth_error_In; eauto. }
  destruct (res_map_ok _ _ (fun j => rbind (column j rows) np_min)
    (fun j mn => (exists r, In r rows /\ nth_error r j = Some mn) /\
                 forall r x, In r rows -> nth_error r j = Some x -> oleb mn x = true) (seq 0 d)) as (mins & E1 & F1).
  { intros j Hj. apply in_seq in Hj. destruct (HC j) as (c & E & N & I1 & I2); [lia|].
    destruct (np_min_ok c N) as (mn & En & Im & U). exists mn. rewrite E. cbn [rbind]. split; auto.
    split; auto. intros; apply U; eauto. }
  destruct (res_map_ok _ _ (fun j => rbind (column j rows) np_max)
    (fun j mx => (exists r, In r rows /\ nth_error r j = Some mx) /\
                 forall r x, In r rows -> nth_error r j = Some x -> oleb x mx = true) (seq 0 d)) as (maxs & E2 & F2).
  { intros j Hj. apply in_seq in Hj. destruct (HC j) as (c & E & N & I1 & I2); [lia|].
    destruct (np_max_ok c N) as (mx & En & Im & U). exists mx. rewrite E. cbn [rbind]. split; auto.
    split; auto. intros; apply U; eauto. }
  exists mins, maxs. unfold get_minmax_array. rewrite E1. cbn [rbind]. rewrite E2. split; [reflexivity|].
  assert (L1 : length mins = d) by (rewrite <- (Forall2_length _ _ _ _ _ F1), seq_length; auto).
  assert (L2 : length maxs = d) by (rewrite <- (Forall2_length _ _ _ _ _ F2), seq_length; auto).
  split; auto. split; auto.
  assert (FN : forall (P : nat -> A -> Prop) l k n, Forall2 P (seq k n) l ->
    forall j, j < n -> exists b, nth_error l j = Some b /\ P (k + j) b).
  { clear. intros P l; induction l as [|b l IH]; intros k n F j J.
    - inversion F as [H0|]. destruct n; [lia|discriminate].
    - destruct n; simpl in F; inversion F; subst.
      destruct j as [|j].
      + exists b. rewrite Nat.add_0_r. auto.
      + destruct (IH (S k) n H4 j) as (b' & E & HP); [lia|]. exists b'. simpl.
        replace (k + S j) with (S k + j) by lia. auto. }
  intros j J.
  destruct (FN _ _ _ _ F1 j J) as (mn & N1 & R1 & U1). destruct (FN _ _ _ _ F2 j J) as (mx & N2 & R2 & U2).
  exists mn, mx. simpl in *. repeat split; eauto.
Qed.
Print Assumptions C08_minmax_array.
Theorem C08_minmax_array_empty : forall A (O : Ord A) d, 1 <= d -> get_minmax_array (A := A) d [] = Raise ValueError.
Proof. intros A O [|d] H; [lia|]. reflexivity. Qed.
Print Assumptions C08_minmax_array_empty.
Example C08_ex : get_minmax_array 2 [[3; 10]; [1; 30]; [2; 20]]%Z = Ok ([1; 10], [3; 30])%Z.
Proof. vm_compute. reflexivity. Qed.
