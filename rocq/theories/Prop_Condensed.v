(** * What scipy's linkage is given: the distances of all pairs of features in scipy's condensed order (C63). *)
From Coq Require Import List ZArith Lia Bool Arith Reals Lra.
From Verif Require Import Base Num Spec Model_Stats Model_Utils Model_Core Model_Trans P_Lists Model_KitNET Prop_KitNET Prop_KitNET2.
From Verif Require Prop_XStream.
Import ListNotations.
Open Scope nat_scope.

(** Position of the pair i < j in the condensed vector of n points: after the pairs of the rows before i. *)
Lemma concat_rows : forall B (g : nat -> nat -> B) n m start d i j, i < m -> start + i < j -> j < n -> start + m <= n ->
  exists k, nth k (flat_map (fun i => map (g i) (seq (S i) (n - S i))) (seq start m)) d = g (start + i) j /\
    2 * k + i * i + i + 2 * (start + i) + 2 + 2 * i * start = 2 * i * n + 2 * j /\ k < length (flat_map (fun i => map (g i) (seq (S i) (n - S i))) (seq start m)).
Proof.
  intros B g n m. induction m as [|m IH]; intros start d i j Hi Hij Hj Hm; [lia|]. cbn [seq flat_map]. destruct i as [|i].
  - exists (j - S start). rewrite Nat.add_0_r in *. rewrite app_nth1 by (rewrite map_length, seq_length; lia). split; [|split; [lia|rewrite app_length, map_length, seq_length; lia]].
    rewrite (nth_indep _ d (g start 0)) by (rewrite map_length, seq_length; lia). rewrite (map_nth (g start)), seq_nth by lia. f_equal. lia.
  - destruct (IH (S start) d i j ltac:(lia) ltac:(lia) Hj ltac:(lia)) as (k & E & K & L). exists (n - S start + k). rewrite app_nth2 by (rewrite map_length, seq_length; lia). rewrite map_length, seq_length. replace (n - S start + k - (n - S start)) with k by lia.
    split; [rewrite E; f_equal; lia|]. split; [|rewrite app_length, map_length, seq_length; lia]. nia.
Qed.
Lemma rows_length : forall B (g : nat -> nat -> B) n m start, start + m <= n -> 2 * length (flat_map (fun i => map (g i) (seq (S i) (n - S i))) (seq start m)) + m * m + m + 2 * m * start = 2 * m * n.
Proof.
  intros B g n m. induction m as [|m IH]; intros start H; [cbn; lia|]. cbn [seq flat_map]. rewrite app_length, map_length, seq_length. specialize (IH (S start) ltac:(lia)). nia.
Qed.
(** The vector has n (n - 1) / 2 elements and the pair i < j is at n i - i (i + 1) / 2 + (j - i - 1), as scipy documents. *)
Theorem C63_linkage_input : forall n xs tiny, Forall (fun x => length x = n) xs -> (tiny > 0)%R ->
  let v := condensed n (cc_dist tiny (statistics n xs)) in
  2 * length v = n * (n - 1) /\
  forall i j, i < j -> j < n -> exists k, k < length v /\ 2 * k + i * (i + 1) + 2 * (i + 1) = 2 * n * i + 2 * j /\
    nth k v 0%R = correlation_distance (residuals (feature xs i)) (residuals (feature xs j)).
Proof.
  intros n xs tiny F Ht v. unfold v, condensed. split.
  - pose proof (rows_length R (fun i j => nth j (nth i (cc_dist tiny (statistics n xs)) []) n0) n n 0 ltac:(lia)) as L. destruct n; [reflexivity|]. replace (S n - 1) with n by lia. nia.
  - intros i j Hij Hj. destruct (concat_rows R (fun i j => nth j (nth i (cc_dist tiny (statistics n xs)) []) n0) n n 0 0%R i j ltac:(lia) ltac:(lia) Hj ltac:(lia)) as (k & E & K & L). exists k. split; [exact L|]. split; [nia|].
    refine (eq_trans E _). rewrite Nat.add_0_l. apply (C63_distance n xs tiny i j F Ht); lia.
Qed.
Print Assumptions C63_linkage_input.
Example C63_linkage_ex : Forall (fun x => length x = 3) [[1; 2; 0]; [2; 4; 1]; [3; 6; 5]]%R /\ (1 / 2 > 0)%R.
Proof. split; [repeat constructor|lra]. Qed.
