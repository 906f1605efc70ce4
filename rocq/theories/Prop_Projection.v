(** * C104: what GaussianRandomProjector and SparseRandomProjector do to lengths and distances, on average over their matrices. *)
From Coq Require Import String.
From Coq Require Import List ZArith Lia Bool Reals Lra Arith.
From Verif Require Import Base Num Spec Model_Core Model_Trans P_Lists P_Stats P_Utils P_Core P_Trans Prop_Trans Prop_JL.
Import ListNotations.
Open Scope R_scope.
Local Notation length := List.length.

(** ** Specification *)
(** The entries of a random matrix are independent and uniform in a finite list with repetitions, so that every rational law
    is covered. [centred_law vals n] holds of a law with mean 0 and variance 1 / n, which is what scikit-learn draws. *)
Definition centred_law (vals : list R) (n : Z) : Prop :=
  vals <> [] /\ expectation vals (fun v => v) = 0 /\ expectation vals (fun v => v ^ 2) = 1 / IZR n.
(** SparseRandomProjection with density a / b: the entry is - c or c with probability a / (2 b) each, and otherwise 0,
    where c = sqrt (b / a) / sqrt n. *)
Definition sparse_law (a b : nat) (n : Z) : list R :=
  let c := sqrt (INR b / INR a) / sqrt (IZR n) in repeat (- c) a ++ repeat c a ++ repeat 0 (2 * (b - a)).
(** All n x d matrices, and all sequences of m of them: one for every call of transform_partial. *)
Definition matrices (vals : list R) (n : Z) (d : nat) : list (list (list R)) := tuples (Z.to_nat n) (tuples d vals).
Definition sequences (vals : list R) (n : Z) (d m : nat) : list (list (list (list R))) := tuples m (matrices vals n d).
Definition from_sequence (Ms : list (list (list R))) : nat -> nat -> nat -> list (list R) := fun call _ _ => nth call Ms [].
(** [maps Ms n h x y]: the projector whose successive matrices are Ms, after the calls h, maps x to y. *)
Definition maps (Ms : list (list (list R))) (n : Z) (h : list (top (list R))) (x y : list R) : Prop :=
  eval (tr_transform (RandomProjector (from_sequence Ms) (DInt n)) (AInst x)) (trans_run (RandomProjector (from_sequence Ms) (DInt n)) O h) = Ok (VArray y).
Definition norm4 (x : list R) : R := Rsum (map (fun v => v ^ 4) x).

(** ** Moments *)
Lemma ex_le : forall A (sp : list A) f g, sp <> [] -> (forall a, In a sp -> f a <= g a) -> expectation sp f <= expectation sp g.
Proof.
  intros A sp f g NE H. unfold expectation, mean, Rlen. rewrite !map_length. unfold Rdiv. apply Rmult_le_compat_r.
  - apply Rlt_le, Rinv_0_lt_compat, lt_0_INR. destruct sp; [congruence|cbn; lia].
  - clear NE. induction sp as [|a sp IH]; [apply Rle_refl|]. unfold Rsum in *. cbn [map fold_right]. apply Rplus_le_compat; [apply H; left; auto|]. apply IH. intros b Hb. apply H. right. auto.
Qed.
Section Fourth.
Variables (vals : list R) (m2 m4 : R).
Hypothesis (NE : vals <> []) (M1 : expectation vals (fun v => v) = 0) (M2 : expectation vals (fun v => v ^ 2) = m2) (M4 : expectation vals (fun v => v ^ 4) = m4).
Let rs := rsum (fun v : R => v).
Lemma mom1 : forall x, expectation (tuples (length x) vals) (rs x) = 0.
Proof. intros x. unfold rs. rewrite (moment1 vals (fun v => v) NE). rewrite M1. ring. Qed.
Lemma mom2 : forall x, expectation (tuples (length x) vals) (fun t => rs x t ^ 2) = m2 * norm2 x.
Proof. intros x. unfold rs. rewrite (moment2 vals (fun v => v) NE). rewrite M1, M2. ring. Qed.
Lemma mom4 : forall x, expectation (tuples (length x) vals) (fun t => rs x t ^ 4) = m4 * norm4 x + 3 * m2 ^ 2 * (norm2 x ^ 2 - norm4 x).
Proof.
  induction x as [|a x IH]; cbn [length].
  - unfold expectation, mean, Rlen, norm2, norm4, Rsum, rs. cbn. field.
  - rewrite ex_tuples by auto. unfold rs. cbn [rsum]. fold rs. set (K3 := expectation (tuples (length x) vals) (fun t => rs x t ^ 3)).
    rewrite (ex_ext vals _ (fun v => a ^ 4 * v ^ 4 + (6 * a ^ 2 * m2 * norm2 x * v ^ 2 + (4 * a * K3 * v + (m4 * norm4 x + 3 * m2 ^ 2 * (norm2 x ^ 2 - norm4 x)))))).
    + rewrite ex_plus, ex_scal, ex_plus, ex_scal, ex_plus, ex_scal, ex_const by auto. rewrite M1, M2, M4. unfold norm2, norm4, Rsum. cbn [map fold_right]. ring.
    + intros v _. rewrite (ex_ext (tuples (length x) vals) _ (fun t => (a * v) ^ 4 + (4 * (a * v) ^ 3 * rs x t + (6 * (a * v) ^ 2 * rs x t ^ 2 + (4 * (a * v) * rs x t ^ 3 + rs x t ^ 4))))) by (intros; ring).
      rewrite ex_plus, ex_const by (apply tuples_nonempty; auto). rewrite ex_plus, ex_scal, ex_plus, ex_scal, ex_plus, ex_scal, mom1, mom2, IH. fold K3. ring.
Qed.
End Fourth.
(** Mean and second moment of a sum over independent rows. *)
Lemma rows_second : forall A (vals : list A) (F : A -> R) n, vals <> [] ->
  expectation (tuples n vals) (fun T => Rsum (map F T) ^ 2) = INR n * expectation vals (fun v => F v ^ 2) + INR n * (INR n - 1) * expectation vals F ^ 2.
Proof.
  intros A vals F n NE. induction n as [|n IH].
  - unfold expectation at 1, mean, Rlen, Rsum. cbn. field.
  - rewrite ex_tuples by auto. cbn [map]. rewrite (ex_ext vals _ (fun v => F v ^ 2 + (2 * INR n * expectation vals F * F v + (INR n * expectation vals (fun w => F w ^ 2) + INR n * (INR n - 1) * expectation vals F ^ 2)))).
    + rewrite ex_plus, ex_plus, ex_scal, ex_const by auto. rewrite S_INR. ring.
    + intros v _. rewrite (ex_ext (tuples n vals) _ (fun T => F v ^ 2 + (2 * F v * Rsum (map F T) + Rsum (map F T) ^ 2))) by (intros; unfold Rsum; cbn [fold_right]; ring).
      rewrite ex_plus, ex_const by (apply tuples_nonempty; auto). rewrite ex_plus, ex_scal, ex_rows, IH by auto. ring.
Qed.
(** Two different entries of a sequence are independent. *)
Lemma ex_two : forall A (vals : list A) (F : A -> A -> R) d m i j, vals <> [] -> (i < m)%nat -> (j < m)%nat -> i <> j ->
  expectation (tuples m vals) (fun T => F (nth i T d) (nth j T d)) = expectation vals (fun u => expectation vals (fun v => F u v)) \/
  expectation (tuples m vals) (fun T => F (nth i T d) (nth j T d)) = expectation vals (fun v => expectation vals (fun u => F u v)).
Proof.
  intros A vals F d m. induction m as [|m IH]; intros i j NE Hi Hj D; [lia|]. rewrite ex_tuples by auto. destruct i as [|i], j as [|j]; [lia| | |].
  - left. apply ex_ext. intros u _. cbn [nth]. apply (ex_row _ vals (F u)); auto; lia.
  - right. apply ex_ext. intros v _. cbn [nth]. apply (ex_row _ vals (fun u => F u v)); auto; lia.
  - destruct (IH i j NE ltac:(lia) ltac:(lia) ltac:(lia)) as [E|E]; [left|right]; cbn [nth]; rewrite E; apply ex_const; auto.
Qed.

(** ** The projection *)
Lemma dot_rsum : forall x r : list R, dot x r = rsum (fun v => v) x r.
Proof. intros x r. unfold dot. rewrite nsum_Rsum. revert r. induction x as [|a x IH]; intros [|v r]; try reflexivity. unfold map2 in *. cbn [combine map fst snd rsum]. unfold Rsum in *. cbn [fold_right]. rewrite IH. reflexivity. Qed.
Lemma maps_value : forall Ms n h x y, (1 <= n)%Z -> maps Ms n h x y -> y = map (rsum (fun v => v) x) (nth (draws_made h) Ms []).
Proof. intros Ms n h x y Hn P. unfold maps in P. rewrite C43_fresh_matrix_at_every_call in P by auto. injection P as <-. unfold from_sequence. apply map_ext. intros r. apply dot_rsum. Qed.
Lemma mats_nonempty : forall vals n d, vals <> [] -> matrices vals n d <> [].
Proof. intros. unfold matrices. do 2 apply tuples_nonempty. auto. Qed.
Lemma minus_cons : forall a b l l', minus (a :: l) (b :: l') = (a - b) :: minus l l'.
Proof. intros. unfold minus. cbn [length seq map nth]. rewrite <- seq_shift, map_map. reflexivity. Qed.
Lemma norm2_cons : forall a l, norm2 (a :: l) = a ^ 2 + norm2 l.
Proof. reflexivity. Qed.
Lemma minus_sym : forall l l', length l = length l' -> norm2 (minus l l') = norm2 (minus l' l).
Proof. induction l as [|a l IH]; intros [|b l'] L; try discriminate L; auto. rewrite !minus_cons, !norm2_cons, IH by (cbn in L; lia). ring. Qed.
Lemma against : forall A (rows : list A) (G : A -> R) L, rows <> [] -> expectation rows G = 0 ->
  expectation (tuples (length L) rows) (fun M => norm2 (minus L (map G M))) = norm2 L + INR (length L) * expectation rows (fun r => G r ^ 2).
Proof.
  intros A rows G L NE E0. induction L as [|a L IH].
  - unfold expectation at 1, mean, Rlen, norm2, minus, Rsum. cbn. field.
  - change (length (a :: L)) with (S (length L)). rewrite ex_tuples by auto. rewrite (ex_ext rows _ (fun r => a ^ 2 + (-2 * a * G r + (G r ^ 2 + (norm2 L + INR (length L) * expectation rows (fun r => G r ^ 2)))))).
    + rewrite ex_plus, ex_const, ex_plus, ex_scal, ex_plus, ex_const, E0 by auto. rewrite norm2_cons, S_INR. ring.
    + intros r _. rewrite <- IH. rewrite (ex_ext _ _ (fun M => (a - G r) ^ 2 + norm2 (minus L (map G M)))) by (intros M _; cbn [map]; rewrite minus_cons, norm2_cons; reflexivity).
      rewrite ex_plus, ex_const by (apply tuples_nonempty; auto). ring.
Qed.
Section Law.
Variables (vals : list R) (n : Z).
Hypothesis (Hn : (1 <= n)%Z) (HL : centred_law vals n).
Let rs := rsum (fun v : R => v).
Lemma law_row1 : forall x, expectation (tuples (length x) vals) (rs x) = 0.
Proof. intros x. destruct HL as (NE & M1 & _). apply mom1; auto. Qed.
Lemma law_row2 : forall x, expectation (tuples (length x) vals) (fun r => rs x r ^ 2) = norm2 x / IZR n.
Proof. intros x. destruct HL as (NE & M1 & M2). unfold rs. rewrite (mom2 vals _ NE M1 M2). field. apply not_0_IZR. lia. Qed.
Lemma law_matrix : forall x, expectation (matrices vals n (length x)) (fun M => norm2 (map (rs x) M)) = norm2 x.
Proof.
  intros x. destruct HL as (NE & _). unfold norm2 at 1, matrices. rewrite (ex_ext _ _ (fun M => Rsum (map (fun r => rs x r ^ 2) M))) by (intros; rewrite map_map; reflexivity).
  rewrite ex_rows by (apply tuples_nonempty; auto). rewrite law_row2, INR_IZR_INZ, Z2Nat.id by lia. field. apply not_0_IZR. lia.
Qed.
Lemma law_against : forall x L, length L = Z.to_nat n -> expectation (matrices vals n (length x)) (fun M => norm2 (minus L (map (rs x) M))) = norm2 L + norm2 x.
Proof.
  intros x L E. destruct HL as (NE & _). unfold matrices. rewrite <- E. rewrite against by (try apply tuples_nonempty; auto; apply law_row1).
  rewrite law_row2, E, INR_IZR_INZ, Z2Nat.id by lia. field. apply not_0_IZR. lia.
Qed.
End Law.

(** ** C104 *)
(** Every component of the image is 0 on average. *)
Theorem C104_components_are_centred : forall vals n m h x y k, (1 <= n)%Z -> centred_law vals n -> (draws_made h < m)%nat ->
  let space := sequences vals n (length x) m in (forall Ms, In Ms space -> maps Ms n h x (y Ms)) -> (k < Z.to_nat n)%nat ->
  expectation space (fun Ms => nth k (y Ms) 0) = 0.
Proof.
  intros vals n m h x y k Hn HL Hm space P Hk. pose proof HL as (NE & _). rewrite (ex_ext space _ (fun Ms => rsum (fun v => v) x (nth k (nth (draws_made h) Ms []) []))).
  - unfold space, sequences. rewrite (ex_row _ (matrices vals n (length x)) (fun M => rsum (fun v => v) x (nth k M []))) by (auto using mats_nonempty). unfold matrices. rewrite ex_row by (auto; apply tuples_nonempty; auto). apply (law_row1 vals n HL).
  - intros Ms HM. rewrite (maps_value _ _ _ _ _ Hn (P Ms HM)).
    assert (HT : In (nth (draws_made h) Ms []) (matrices vals n (length x))). { eapply tuples_in; [exact HM|]. apply nth_In. rewrite (tuples_length _ _ _ _ HM). auto. }
    rewrite (nth_indep _ 0 (rsum (fun v => v) x [])) by (rewrite map_length; rewrite (tuples_length _ _ _ _ HT); auto). apply (map_nth (rsum (fun v => v) x)).
Qed.
Print Assumptions C104_components_are_centred.
(** The squared length of the image is the squared length of the instance on average, at every call of every history. *)
Theorem C104_lengths_are_kept : forall vals n m h x y, (1 <= n)%Z -> centred_law vals n -> (draws_made h < m)%nat ->
  let space := sequences vals n (length x) m in (forall Ms, In Ms space -> maps Ms n h x (y Ms)) ->
  expectation space (fun Ms => norm2 (y Ms)) = norm2 x.
Proof.
  intros vals n m h x y Hn HL Hm space P. pose proof HL as (NE & _). rewrite (ex_ext space _ (fun Ms => norm2 (map (rsum (fun v => v) x) (nth (draws_made h) Ms [])))).
  - unfold space, sequences. rewrite (ex_row _ (matrices vals n (length x)) (fun M => norm2 (map (rsum (fun v => v) x) M))) by (auto using mats_nonempty). apply law_matrix; auto.
  - intros Ms HM. rewrite (maps_value _ _ _ _ _ Hn (P Ms HM)). reflexivity.
Qed.
Print Assumptions C104_lengths_are_kept.
(** Distances are not: the images of two instances in two different calls are on average as far apart as if the instances were
    orthogonal, however close they are. *)
Theorem C104_distances_are_forgotten : forall vals n m h h' x x' y y', (1 <= n)%Z -> centred_law vals n -> length x = length x' ->
  (draws_made h < m)%nat -> (draws_made h' < m)%nat -> draws_made h <> draws_made h' ->
  let space := sequences vals n (length x) m in (forall Ms, In Ms space -> maps Ms n h x (y Ms)) -> (forall Ms, In Ms space -> maps Ms n h' x' (y' Ms)) ->
  expectation space (fun Ms => norm2 (minus (y Ms) (y' Ms))) = norm2 x + norm2 x'.
Proof.
  intros vals n m h h' x x' y y' Hn HL L Hm Hm' D space P P'. pose proof HL as (NE & _).
  set (rs := rsum (fun v : R => v)). set (F := fun M M' => norm2 (minus (map (rs x) M) (map (rs x') M'))).
  rewrite (ex_ext space _ (fun Ms => F (nth (draws_made h) Ms []) (nth (draws_made h') Ms []))).
  2: { intros Ms HM. rewrite (maps_value _ _ _ _ _ Hn (P Ms HM)), (maps_value _ _ _ _ _ Hn (P' Ms HM)). reflexivity. }
  assert (ML : forall M, In M (matrices vals n (length x)) -> length M = Z.to_nat n) by (intros M HM; apply (tuples_length _ _ _ _ HM)).
  destruct (ex_two _ (matrices vals n (length x)) F [] m (draws_made h) (draws_made h') ltac:(apply mats_nonempty; auto) Hm Hm' D) as [E|E]; unfold space, sequences; rewrite E; unfold F.
  - rewrite (ex_ext _ _ (fun M => norm2 (map (rs x) M) + norm2 x')).
    + rewrite ex_plus, ex_const by (apply mats_nonempty; auto). f_equal. apply law_matrix; auto.
    + intros M HM. rewrite L. apply law_against; auto. rewrite map_length. auto.
  - rewrite (ex_ext _ _ (fun M' => norm2 (map (rs x') M') + norm2 x)).
    + rewrite ex_plus, ex_const by (apply mats_nonempty; auto). rewrite L. pose proof (law_matrix vals n Hn HL x') as Q. fold rs in Q. rewrite Q. ring.
    + intros M' HM. rewrite (ex_ext _ _ (fun M => norm2 (minus (map (rs x') M') (map (rs x) M)))) by (intros M HM'; apply minus_sym; rewrite !map_length, !ML; auto).
      apply law_against; auto. rewrite map_length. auto.
Qed.
Print Assumptions C104_distances_are_forgotten.
(** The law of SparseRandomProjector. *)
Lemma rsum_repeat : forall (f : R -> R) c k, Rsum (map f (repeat c k)) = INR k * f c.
Proof. intros f c k. induction k as [|k IH]; [unfold Rsum; cbn; ring|]. cbn [repeat map]. change (Rsum (f c :: map f (repeat c k))) with (f c + Rsum (map f (repeat c k))). rewrite IH, S_INR. ring. Qed.
Lemma sparse_moment : forall a b n f, (1 <= a <= b)%nat -> let c := sqrt (INR b / INR a) / sqrt (IZR n) in
  expectation (sparse_law a b n) f = INR a / (2 * INR b) * (f (- c) + f c) + (1 - INR a / INR b) * f 0.
Proof.
  intros a b n f Hab c. unfold expectation, mean, sparse_law. fold c. rewrite !map_app, !Rsum_app, !rsum_repeat. unfold Rlen. rewrite !app_length, !map_length, !repeat_length.
  replace (a + (a + 2 * (b - a)))%nat with (2 * b)%nat by lia. rewrite !mult_INR, minus_INR by lia. change (INR 2) with 2. assert (0 < INR b) by (apply lt_0_INR; lia). field. lra.
Qed.
Lemma sparse_c2 : forall a b n, (1 <= a <= b)%nat -> (1 <= n)%Z -> (sqrt (INR b / INR a) / sqrt (IZR n)) ^ 2 = INR b / INR a / IZR n.
Proof.
  intros a b n Hab Hn. assert (0 < INR b) by (apply lt_0_INR; lia). assert (0 < INR a) by (apply lt_0_INR; lia). assert (0 < IZR n) by (apply IZR_lt; lia).
  assert (0 <= INR b / INR a) by (apply Rlt_le, Rdiv_lt_0_compat; auto). unfold Rdiv at 1. rewrite Rpow_mult_distr, pow_inv, !pow2_sqrt by lra. reflexivity.
Qed.
Theorem C104_sparse_law : forall a b n, (1 <= a <= b)%nat -> (1 <= n)%Z -> centred_law (sparse_law a b n) n.
Proof.
  intros a b n Hab Hn. assert (0 < INR b) by (apply lt_0_INR; lia). assert (0 < INR a) by (apply lt_0_INR; lia). assert (0 < IZR n) by (apply IZR_lt; lia). split; [|split].
  - unfold sparse_law. destruct a; [lia|]. discriminate.
  - rewrite sparse_moment by auto. cbv zeta. unfold Rdiv. ring.
  - rewrite sparse_moment by auto. cbv zeta. set (c := sqrt (INR b / INR a) / sqrt (IZR n)). replace ((- c) ^ 2) with (c ^ 2) by ring. unfold c. rewrite sparse_c2 by auto. field. lra.
Qed.
Print Assumptions C104_sparse_law.
(** How far the squared length of the image spreads around that of the instance, for SparseRandomProjector with density a / b. *)
Theorem C104_spread : forall a b n m h x y, (1 <= a <= b)%nat -> (1 <= n)%Z -> (draws_made h < m)%nat ->
  let space := sequences (sparse_law a b n) n (length x) m in (forall Ms, In Ms space -> maps Ms n h x (y Ms)) ->
  expectation space (fun Ms => (norm2 (y Ms) - norm2 x) ^ 2) = (2 * norm2 x ^ 2 + (INR b / INR a - 3) * norm4 x) / IZR n.
Proof.
  intros a b n m h x y Hab Hn Hm space P. pose proof (C104_sparse_law a b n Hab Hn) as HL. pose proof HL as (NE & M1 & M2). set (vals := sparse_law a b n) in *.
  assert (0 < INR b) by (apply lt_0_INR; lia). assert (0 < INR a) by (apply lt_0_INR; lia). assert (0 < IZR n) by (apply IZR_lt; lia).
  assert (M4 : expectation vals (fun v => v ^ 4) = INR b / INR a / IZR n ^ 2).
  { unfold vals. rewrite sparse_moment by auto. cbv zeta. set (c := sqrt (INR b / INR a) / sqrt (IZR n)). replace ((- c) ^ 4) with ((c ^ 2) ^ 2) by ring. replace (c ^ 4) with ((c ^ 2) ^ 2) by ring. unfold c. rewrite sparse_c2 by auto. field. lra. }
  rewrite (ex_ext space _ (fun Ms => (fun M => norm2 (map (rsum (fun v => v) x) M) ^ 2 + (-2 * norm2 x * norm2 (map (rsum (fun v => v) x) M) + norm2 x ^ 2)) (nth (draws_made h) Ms []))).
  2: { intros Ms HM. rewrite (maps_value _ _ _ _ _ Hn (P Ms HM)). ring. }
  unfold space, sequences. rewrite (ex_row _ (matrices vals n (length x)) (fun M => norm2 (map (rsum (fun v => v) x) M) ^ 2 + (-2 * norm2 x * norm2 (map (rsum (fun v => v) x) M) + norm2 x ^ 2))) by (auto; apply mats_nonempty; auto). rewrite ex_plus, ex_plus, ex_scal, ex_const by (apply mats_nonempty; auto). rewrite law_matrix by auto.
  unfold matrices. rewrite (ex_ext _ _ (fun M => Rsum (map (fun r => rsum (fun v => v) x r ^ 2) M) ^ 2)) by (intros; unfold norm2; rewrite map_map; reflexivity).
  rewrite rows_second by (apply tuples_nonempty; auto). rewrite (law_row2 vals n Hn HL).
  rewrite (ex_ext _ (fun r => (rsum (fun v => v) x r ^ 2) ^ 2) (fun r => rsum (fun v => v) x r ^ 4)) by (intros; ring). rewrite (mom4 vals _ _ NE M1 M2 M4).
  rewrite INR_IZR_INZ, Z2Nat.id by lia. field. lra.
Qed.
Print Assumptions C104_spread.
(** Hence, by Chebyshev, the proportion of the matrices that distort the squared length by a factor eps or more falls as 1 / n. *)
Lemma norm4_le : forall x, norm4 x <= norm2 x ^ 2.
Proof.
  induction x as [|a x IH]; [unfold norm4, norm2, Rsum; cbn; lra|]. change (norm4 (a :: x)) with (a ^ 4 + norm4 x). rewrite norm2_cons. pose proof (norm2_nonneg x). pose proof (pow2_ge_0 a). replace (a ^ 4) with ((a ^ 2) ^ 2) by ring. set (u := a ^ 2) in *. nra.
Qed.
Lemma norm4_nonneg : forall x, 0 <= norm4 x.
Proof. intros x. apply Rsum_nonneg. intros v Hv. apply in_map_iff in Hv. destruct Hv as (u & <- & _). replace (u ^ 4) with ((u ^ 2) ^ 2) by ring. apply pow2_ge_0. Qed.
Theorem C104_concentration : forall a b n m h x y eps, (1 <= a <= b)%nat -> (1 <= n)%Z -> (draws_made h < m)%nat -> 0 < eps -> 0 < norm2 x ->
  let space := sequences (sparse_law a b n) n (length x) m in (forall Ms, In Ms space -> maps Ms n h x (y Ms)) ->
  expectation space (fun Ms => if Rle_dec (eps * norm2 x) (Rabs (norm2 (y Ms) - norm2 x)) then 1 else 0) <= Rmax 2 (INR b / INR a - 1) / (IZR n * eps ^ 2).
Proof.
  intros a b n m h x y eps Hab Hn Hm He Hx space P. assert (0 < IZR n) by (apply IZR_lt; lia).
  pose proof (C104_spread a b n m h x y Hab Hn Hm P) as V. cbv zeta in V. fold space in V.
  assert (SN : space <> []) by (apply tuples_nonempty, mats_nonempty; apply (C104_sparse_law a b n Hab Hn)).
  assert (D : 0 < (eps * norm2 x) ^ 2) by (apply pow_lt, Rmult_lt_0_compat; auto).
  apply Rle_trans with (expectation space (fun Ms => / (eps * norm2 x) ^ 2 * (norm2 (y Ms) - norm2 x) ^ 2)).
  - apply ex_le; auto. intros Ms _. destruct (Rle_dec _ _) as [L|L].
    + apply Rmult_le_reg_l with ((eps * norm2 x) ^ 2); auto. rewrite <- Rmult_assoc, Rinv_r, Rmult_1_r, Rmult_1_l by lra. rewrite <- (pow2_abs (norm2 (y Ms) - norm2 x)). apply pow_incr. split; auto. apply Rlt_le, Rmult_lt_0_compat; auto.
    + apply Rmult_le_pos; [apply Rlt_le, Rinv_0_lt_compat; auto|apply pow2_ge_0].
  - rewrite ex_scal, V. set (r := INR b / INR a). assert (B : 2 * norm2 x ^ 2 + (r - 3) * norm4 x <= Rmax 2 (r - 1) * norm2 x ^ 2).
    { pose proof (norm4_le x). pose proof (norm4_nonneg x). unfold Rmax. destruct (Rle_dec 2 (r - 1)); nra. }
    replace (/ (eps * norm2 x) ^ 2 * ((2 * norm2 x ^ 2 + (r - 3) * norm4 x) / IZR n)) with ((2 * norm2 x ^ 2 + (r - 3) * norm4 x) * / (IZR n * eps ^ 2 * norm2 x ^ 2)) by (field; lra).
    replace (Rmax 2 (r - 1) / (IZR n * eps ^ 2)) with (Rmax 2 (r - 1) * norm2 x ^ 2 * / (IZR n * eps ^ 2 * norm2 x ^ 2)) by (field; lra).
    apply Rmult_le_compat_r; auto. apply Rlt_le, Rinv_0_lt_compat. apply Rmult_lt_0_compat; [apply Rmult_lt_0_compat; auto; apply pow_lt; auto|apply pow_lt; auto].
Qed.
Print Assumptions C104_concentration.

(** ** Concrete cases: density 1/3 and 100 components; two successive calls on the same instance. *)
Example C104_ex : centred_law (sparse_law 1 3 100) 100 /\ length (sparse_law 1 3 100) = 6%nat /\
  (forall Ms x, maps Ms 100 [] x (map (dot x) (nth 0 Ms []))) /\ draws_made (@nil (top (list R))) <> draws_made [TTransform (AInst [1; 2])] /\
  norm2 [1; 2] + norm2 [1; 2] = 10 /\ norm2 (minus [1; 2] [1; 2]) = 0.
Proof.
  split; [apply C104_sparse_law; lia|]. split; [reflexivity|]. split; [|split; [discriminate|]].
  - intros Ms x. unfold maps. rewrite C43_fresh_matrix_at_every_call by lia. reflexivity.
  - unfold norm2, minus, Rsum. cbn. lra.
Qed.
