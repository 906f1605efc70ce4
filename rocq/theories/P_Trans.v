(** * Lemmas for projection and preprocessing. *)
From Coq Require Import String.
From Coq Require Import List ZArith Lia Bool Reals Lra Permutation Arith Decimal DecimalString DecimalNat DecimalFacts.
From Verif Require Import Base Num Spec Model_Stats Model_Utils Model_Core Model_Post Model_Trans P_Lists P_Stats P_Utils P_Core P_Post.
Import ListNotations.
Open Scope R_scope.

(** ** Histories of calls on a transformer *)
Inductive top (X : Type) : Type := TFit (a : pyarg X) | TTransform (a : pyarg X) | TFitTransform (a : pyarg X).
Arguments TFit {X}.
Arguments TTransform {X}.
Arguments TFitTransform {X}.
Definition trans_do {X A} (t : Transformer X A) (s : tr_state t) (o : top X) : tr_state t :=
  match o with
  | TFit a => exec (tr_fit t a) s
  | TTransform a => exec (tr_transform t a) s
  | TFitTransform a => exec (tr_fit_transform t a) s
  end.
Definition trans_run {X A} (t : Transformer X A) (s0 : tr_state t) (h : list (top X)) : tr_state t := fold_left (trans_do t) h s0.
(** The instances a history has fitted, in order. *)
Definition learned {X} (h : list (top X)) : list X :=
  flat_map (fun o => match o with TFit a => [as_array a] | TFitTransform a => [as_array a] | TTransform _ => [] end) h.
Definition op_arg {X} (o : top X) : X := match o with TFit a => as_array a | TTransform a => as_array a | TFitTransform a => as_array a end.
(** Entries of a projected vector. *)
Definition components {A} (v : pyval A) : list A := match v with VNone => [] | VScalar a => [a] | VArray l => l end.
Lemma components_squeeze : forall A (l : list A), components (squeeze l) = l.
Proof. intros A [|a [|b l]]; reflexivity. Qed.

(** ** Vectors as functions of the index *)
Lemma list_as_map : forall (l : list R) n, length l = n -> l = map (fun j => nth j l 0) (seq 0 n).
Proof.
  intros l n <-. induction l as [|a l IH]; auto. cbn [length seq map nth]. f_equal.
  rewrite <- seq_shift, map_map. exact IH.
Qed.
Lemma map2_map : forall A B C D (f : A -> B -> C) (g : D -> A) (h : D -> B) l, map2 f (map g l) (map h l) = map (fun d => f (g d) (h d)) l.
Proof. intros. unfold map2. induction l; simpl; auto. f_equal. exact IHl. Qed.
Lemma np_zip_map : forall (f : R -> R -> R) g h (l : list nat), np_zip f (map g l) (map h l) = Ok (map (fun j => f (g j) (h j)) l).
Proof. intros. unfold np_zip. rewrite !map_length, Nat.eqb_refl, map2_map. reflexivity. Qed.
Lemma dot_sum : forall x y, length x = length y -> dot x y = Rsum (map (fun j => nth j x 0 * nth j y 0) (seq 0 (length x))).
Proof.
  intros x y L. unfold dot. rewrite nsum_Rsum. f_equal.
  rewrite (list_as_map x (length x) eq_refl) at 1. rewrite (list_as_map y (length x)) at 1 by auto. rewrite map2_map. reflexivity.
Qed.

(** ** str(i) is injective *)
Lemma py_str_inj : forall i j, py_str i = py_str j -> i = j.
Proof.
  intros i j H. unfold py_str in H.
  assert (N : forall n, Nat.to_uint n <> Nil).
  { intros n Q. pose proof (Unsigned.to_of (Nat.to_uint n)) as T. rewrite Q in T.
    pose proof (Unsigned.of_to n) as O. rewrite Q in O. cbn in O. subst n. discriminate Q. }
  assert (E : Some (Nat.to_uint i) = Some (Nat.to_uint j)).
  { rewrite <- (NilZero.usu _ (N i)), <- (NilZero.usu _ (N j)), H. reflexivity. }
  injection E as E. rewrite <- (Unsigned.of_to i), <- (Unsigned.of_to j), E. reflexivity.
Qed.

(** ** Powers *)
Lemma Rpower_pos : forall x y, 0 < Rpower x y.
Proof. intros. unfold Rpower. apply exp_pos. Qed.
Lemma Rpower_div : forall a b p, 0 < a -> 0 < b -> Rpower (a / b) p = Rpower a p / Rpower b p.
Proof.
  intros a b p Ha Hb. unfold Rdiv. rewrite <- (Rpower_mult_distr a (/ b)) by (auto using Rinv_0_lt_compat).
  f_equal. unfold Rpower. rewrite ln_Rinv by auto. rewrite <- exp_Ropp. f_equal. ring.
Qed.
Lemma Rpower_root : forall a p, 0 < a -> p <> 0 -> Rpower (Rpower a (1 / p)) p = a.
Proof. intros a p Ha Hp. rewrite Rpower_mult. replace (1 / p * p) with 1 by (field; auto). apply Rpower_1; auto. Qed.
Lemma Rsum_pos : forall l, (forall x, In x l -> 0 <= x) -> (exists x, In x l /\ 0 < x) -> 0 < Rsum l.
Proof.
  intros l H (x & Hx & Px). induction l as [|a l IH]; [contradiction|].
  change (Rsum (a :: l)) with (a + Rsum l).
  assert (0 <= Rsum l) by (apply Rsum_nonneg; intros; apply H; right; auto).
  pose proof (H a (or_introl eq_refl)). destruct Hx as [->|Hx]; [lra|].
  assert (0 < Rsum l) by (apply IH; auto; intros; apply H; right; auto). lra.
Qed.
