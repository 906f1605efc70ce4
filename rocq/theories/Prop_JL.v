(** * C93: StreamhashProjector keeps lengths and distances on average over the hash functions. *)
From Coq Require Import String DecimalString DecimalNat.
From Coq Require Import List ZArith Lia Bool Reals Lra Arith.
From Verif Require Import Base Num Spec Model_Core Model_Trans P_Lists P_Stats P_Utils P_Core P_Trans Prop_Trans.
Import ListNotations.
Open Scope R_scope.
Local Notation length := List.length.

(** ** Specification *)
(** All lists of n values. *)
Fixpoint tuples {A} (n : nat) (vals : list A) : list (list A) :=
  match n with O => [[]] | S n' => flat_map (fun v => map (cons v) (tuples n' vals)) vals end.
(** Average of f over a finite space. *)
Definition expectation {A} (space : list A) (f : A -> R) : R := mean (map f space).
(** 0, ..., N - 1; the 2^32 values of a 32 bit hash. *)
Definition values (N : Z) : list Z := map Z.of_nat (seq 0 (Z.to_nat N)).
Definition hash_values : list Z := values (2 ^ 32).
(** All tables of hash values: a row for each of n components, an entry for each of d features. *)
Definition hash_tables (n d : nat) : list (list (list Z)) := tuples n (tuples d hash_values).
(** [H T] is a hash function whose values on the feature names are those of the table T. *)
Definition hash_from (H : list (list Z) -> string -> nat -> Z) : Prop := forall T i k, H T (py_str i) k = nth i (nth k T []) 0%Z.
Definition norm2 (x : list R) : R := Rsum (map (fun v => v ^ 2) x).
Definition minus (x y : list R) : list R := map (fun i => nth i x 0 - nth i y 0) (seq 0 (length x)).

(** ** Expectations *)
Section Exp.
Context {A : Type}.
Implicit Types (sp : list A) (f g : A -> R).
Lemma ex_plus : forall sp f g, expectation sp (fun a => f a + g a) = expectation sp f + expectation sp g.
Proof. intros. unfold expectation, mean. rewrite Rsum_map_plus. unfold Rlen. rewrite !map_length. unfold Rdiv. ring. Qed.
Lemma ex_scal : forall sp c f, expectation sp (fun a => c * f a) = c * expectation sp f.
Proof. intros. unfold expectation, mean. rewrite Rsum_map_scal. unfold Rlen. rewrite !map_length. unfold Rdiv. ring. Qed.
Lemma ex_const : forall sp c, sp <> [] -> expectation sp (fun _ => c) = c.
Proof. intros sp c H. unfold expectation, mean, Rlen. rewrite Rsum_map_const, map_length. field. apply not_0_INR. destruct sp; [congruence|discriminate]. Qed.
Lemma ex_ext : forall sp f g, (forall a, In a sp -> f a = g a) -> expectation sp f = expectation sp g.
Proof. intros sp f g H. unfold expectation. f_equal. apply map_ext_in. auto. Qed.
End Exp.
Lemma ex_tuples : forall A (vals : list A) n f, vals <> [] -> expectation (tuples (S n) vals) f = expectation vals (fun v => expectation (tuples n vals) (fun t => f (v :: t))).
Proof.
  intros A vals n f NE. unfold expectation, mean, Rlen. rewrite !map_length. cbn [tuples].
  assert (L : forall l : list A, length (flat_map (fun v => map (cons v) (tuples n vals)) l) = (length l * length (tuples n vals))%nat).
  { induction l as [|v l IH]; auto. cbn [flat_map length]. rewrite app_length, map_length, IH. reflexivity. }
  assert (S0 : forall l : list A, Rsum (map f (flat_map (fun v => map (cons v) (tuples n vals)) l)) = Rsum (map (fun v => Rsum (map (fun t => f (v :: t)) (tuples n vals))) l)).
  { induction l as [|v l IH]; auto. cbn [flat_map map]. rewrite map_app, Rsum_app, IH, map_map. reflexivity. }
  rewrite L, S0, mult_INR.
  assert (P : forall m, length (tuples m vals) <> 0%nat).
  { induction m as [|m IH]; cbn [tuples length]; auto. destruct vals as [|v l]; [congruence|]. cbn [flat_map]. rewrite app_length, map_length. lia. }
  specialize (P n). rewrite (map_ext (fun v => Rsum (map (fun t => f (v :: t)) (tuples n vals)) / INR (length (map (fun t => f (v :: t)) (tuples n vals)))) (fun v => / INR (length (tuples n vals)) * Rsum (map (fun t => f (v :: t)) (tuples n vals)))) by (intros v; rewrite map_length; unfold Rdiv; ring).
  rewrite Rsum_map_scal. assert (INR (length vals) <> 0) by (apply not_0_INR; destruct vals; [congruence|cbn; lia]). assert (INR (length (tuples n vals)) <> 0) by (apply not_0_INR; auto). field. auto.
Qed.
Lemma tuples_nonempty : forall A n (vals : list A), vals <> [] -> tuples n vals <> [].
Proof. intros A n vals NE. induction n as [|n IH]; [discriminate|]. cbn [tuples]. destruct vals as [|v l]; [congruence|]. cbn [flat_map]. destruct (tuples n (v :: l)); [congruence|discriminate]. Qed.
Lemma tuples_length : forall A n (vals : list A) t, In t (tuples n vals) -> length t = n.
Proof. intros A n vals. induction n as [|n IH]; intros t H; cbn [tuples] in H; [destruct H as [<-|[]]; reflexivity|]. apply in_flat_map in H. destruct H as (v & _ & H). apply in_map_iff in H. destruct H as (t' & <- & H). cbn [length]. f_equal. auto. Qed.
Lemma tuples_in : forall A n (vals : list A) t, In t (tuples n vals) -> forall v, In v t -> In v vals.
Proof. intros A n vals. induction n as [|n IH]; intros t H v Hv; cbn [tuples] in H; [destruct H as [<-|[]]; destruct Hv|]. apply in_flat_map in H. destruct H as (w & W & H). apply in_map_iff in H. destruct H as (t' & <- & H). destruct Hv as [<-|Hv]; eauto. Qed.
(** The random sum: coefficients g of independent values. *)
Fixpoint rsum {A} (g : A -> R) (x : list R) (h : list A) : R := match x, h with a :: x', v :: h' => a * g v + rsum g x' h' | _, _ => 0 end.
Section Moments.
Context {A : Type} (vals : list A) (g : A -> R) (NE : vals <> []).
Let mu := expectation vals g.
Let sg := expectation vals (fun v => g v ^ 2).
Lemma moment1 : forall x, expectation (tuples (length x) vals) (rsum g x) = mu * Rsum x.
Proof.
  induction x as [|a x IH]; cbn [length].
  - unfold expectation, mean, Rlen, Rsum. cbn. field.
  - rewrite ex_tuples by auto. cbn [rsum]. rewrite (ex_ext vals _ (fun v => a * g v + mu * Rsum x)).
    + rewrite ex_plus, ex_scal, ex_const by auto. unfold Rsum at 2. cbn [fold_right]. fold (Rsum x). fold mu. ring.
    + intros v _. rewrite ex_plus, ex_const by (apply tuples_nonempty; auto). rewrite IH. reflexivity.
Qed.
Lemma moment2 : forall x, expectation (tuples (length x) vals) (fun t => rsum g x t ^ 2) = sg * norm2 x + mu ^ 2 * (Rsum x ^ 2 - norm2 x).
Proof.
  induction x as [|a x IH]; cbn [length].
  - unfold expectation, mean, Rlen, Rsum, norm2, Rsum. cbn. field.
  - rewrite ex_tuples by auto. cbn [rsum]. rewrite (ex_ext vals _ (fun v => a ^ 2 * g v ^ 2 + (2 * a * mu * Rsum x * g v + (sg * norm2 x + mu ^ 2 * (Rsum x ^ 2 - norm2 x))))).
    + rewrite ex_plus, ex_scal, ex_plus, ex_scal, ex_const by auto. fold mu. fold sg. unfold norm2, Rsum. cbn [map fold_right]. ring.
    + intros v _. rewrite (ex_ext (tuples (length x) vals) _ (fun t => (a * g v) ^ 2 + (2 * (a * g v) * rsum g x t + rsum g x t ^ 2))) by (intros; ring). rewrite ex_plus, ex_const by (apply tuples_nonempty; auto). rewrite ex_plus, ex_scal, moment1, IH. ring.
Qed.
End Moments.
Lemma ex_rows : forall A (vals : list A) (F : A -> R) n, vals <> [] -> expectation (tuples n vals) (fun T => Rsum (map F T)) = INR n * expectation vals F.
Proof.
  intros A vals F n NE. induction n as [|n IH].
  - unfold expectation at 1, mean, Rlen, Rsum. cbn. field.
  - rewrite ex_tuples by auto. cbn [map]. rewrite (ex_ext vals _ (fun v => F v + INR n * expectation vals F)).
    + rewrite ex_plus, ex_const by auto. rewrite S_INR. ring.
    + intros v _. rewrite (ex_ext (tuples n vals) _ (fun T => F v + Rsum (map F T))) by reflexivity. rewrite ex_plus, ex_const by (apply tuples_nonempty; auto). rewrite IH. reflexivity.
Qed.
Lemma ex_row : forall A (vals : list A) (F : A -> R) d n k, vals <> [] -> (k < n)%nat -> expectation (tuples n vals) (fun T => F (nth k T d)) = expectation vals F.
Proof.
  intros A vals F d n k NE. revert k. induction n as [|n IH]; intros k Hk; [lia|]. rewrite ex_tuples by auto. destruct k as [|k]; cbn [nth].
  - apply ex_ext. intros v _. apply ex_const, tuples_nonempty; auto.
  - rewrite IH by lia. apply ex_const; auto.
Qed.

(** ** Counting hash values *)
Definition below (tau : R) (v : Z) : R := if Rle_dec (IZR v) tau then 1 else 0.
Lemma count_below : forall tau M, 0 <= tau -> Rsum (map (below tau) (map Z.of_nat (seq 0 M))) = IZR (Z.min (Z.of_nat M) (up tau)).
Proof.
  intros tau M Ht. destruct (archimed tau) as [U1 U2]. induction M as [|M IH].
  - cbn [seq map]. assert (0 < up tau)%Z by (apply lt_IZR; lra). rewrite Z.min_l by (cbn; lia). reflexivity.
  - rewrite seq_S, !map_app, Rsum_app, IH. cbn [map Nat.add]. unfold Rsum at 1. cbn [fold_right]. unfold below. rewrite Nat2Z.inj_succ. destruct (Rle_dec (IZR (Z.of_nat M)) tau) as [L|L].
    + assert (Z.of_nat M < up tau)%Z by (apply lt_IZR; lra). rewrite !Z.min_l by lia. unfold Z.succ. rewrite plus_IZR. lra.
    + assert (up tau <= Z.of_nat M)%Z. { apply Z.lt_succ_r. apply lt_IZR. unfold Z.succ. rewrite plus_IZR. lra. } rewrite !Z.min_r by lia. lra.
Qed.
Definition NN : R := IZR (2 ^ 32).
Lemma NN_pos : 1 < NN.
Proof. unfold NN. apply IZR_lt. reflexivity. Qed.
Lemma values_len : forall N, (0 <= N)%Z -> Rlen (values N) = IZR N.
Proof. intros N H. unfold Rlen, values. rewrite map_length, seq_length, INR_IZR_INZ, Z2Nat.id by lia. reflexivity. Qed.
Lemma values_nonempty : forall N, (0 < N)%Z -> values N <> [].
Proof. intros N H E. pose proof (values_len N ltac:(lia)) as L. rewrite E in L. unfold Rlen in L. cbn in L. apply eq_IZR in L. lia. Qed.
Lemma values_below : forall N tau, (1 <= N)%Z -> 0 <= tau <= IZR N - 1 -> expectation (values N) (below tau) = IZR (up tau) / IZR N.
Proof.
  intros N tau HN [H1 H2]. unfold expectation, mean. unfold Rlen. rewrite map_length. fold (Rlen (values N)). rewrite values_len by lia. f_equal. unfold values. rewrite count_below by auto. f_equal. rewrite Z2Nat.id by lia. apply Z.min_r. destruct (archimed tau) as [U1 U2]. apply le_IZR. lra.
Qed.
Lemma hv_nonempty : hash_values <> [].
Proof. unfold hash_values. apply values_nonempty. lia. Qed.
Lemma ex_below : forall tau, 0 <= tau <= NN - 1 -> expectation hash_values (below tau) = IZR (up tau) / NN.
Proof. intros tau H. unfold hash_values. apply values_below; [lia|exact H]. Qed.
Opaque hash_values.
(** The coefficient as a function of the hash value. *)
Definition coef (s c : R) (v : Z) : R := let u := IZR v / IZR (2 ^ 32 - 1) in if Rle_dec u (s / 2) then - c else if Rle_dec u s then c else 0.
Lemma coef_below : forall s c v, 0 < s -> coef s c v = c * below (s * (NN - 1)) v + - 2 * c * below (s / 2 * (NN - 1)) v /\ coef s c v ^ 2 = c ^ 2 * below (s * (NN - 1)) v.
Proof.
  intros s c v Hs. unfold coef, below. assert (E : IZR (2 ^ 32 - 1) = NN - 1) by (unfold NN; rewrite <- minus_IZR; reflexivity). rewrite E. pose proof NN_pos as P.
  assert (Q : forall t, IZR v / (NN - 1) <= t <-> IZR v <= t * (NN - 1)).
  { intros t. split; intros H. - apply Rmult_le_reg_r with (/ (NN - 1)); [apply Rinv_0_lt_compat; lra|]. rewrite Rmult_assoc, Rinv_r, Rmult_1_r by lra. exact H. - apply Rmult_le_reg_r with (NN - 1); [lra|]. unfold Rdiv. rewrite Rmult_assoc, Rinv_l by lra. lra. }
  pose proof (Q (s / 2)) as Q1. pose proof (Q s) as Q2. assert (s / 2 * (NN - 1) <= s * (NN - 1)) by (apply Rmult_le_compat_r; lra).
  destruct (Rle_dec (IZR v / (NN - 1)) (s / 2)), (Rle_dec (IZR v / (NN - 1)) s), (Rle_dec (IZR v) (s * (NN - 1))), (Rle_dec (IZR v) (s / 2 * (NN - 1))); try (exfalso; tauto); try (exfalso; lra); split; ring.
Qed.
Lemma coef_moments : forall s c, 0 < s <= 1 -> let mu := expectation hash_values (coef s c) in let sg := expectation hash_values (fun v => coef s c v ^ 2) in
  exists e m, mu = c * (e / NN) /\ -1 <= e <= 0 /\ sg = c ^ 2 * (m / NN) /\ s * (NN - 1) < m <= s * (NN - 1) + 1.
Proof.
  intros s c Hs mu sg. pose proof NN_pos as P. assert (B1 : 0 <= s * (NN - 1) <= NN - 1). { split; [apply Rmult_le_pos; lra|]. rewrite <- (Rmult_1_l (NN - 1)) at 2. apply Rmult_le_compat_r; lra. }
  assert (B2 : 0 <= s / 2 * (NN - 1) <= NN - 1) by lra.
  exists (IZR (up (s * (NN - 1)) - 2 * up (s / 2 * (NN - 1)))), (IZR (up (s * (NN - 1)))). destruct (archimed (s * (NN - 1))) as [U1 U2]. destruct (archimed (s / 2 * (NN - 1))) as [V1 V2].
  split; [|split; [|split]].
  - unfold mu. rewrite (ex_ext hash_values _ (fun v => c * below (s * (NN - 1)) v + - 2 * c * below (s / 2 * (NN - 1)) v)) by (intros v _; apply coef_below; lra). rewrite ex_plus, !ex_scal, !ex_below by auto. rewrite minus_IZR, mult_IZR. unfold Rdiv. ring.
  - assert (Z1 : (up (s * (NN - 1)) - 2 * up (s / 2 * (NN - 1)) < 1)%Z) by (apply lt_IZR; rewrite minus_IZR, mult_IZR; lra).
    assert (Z2 : (-2 < up (s * (NN - 1)) - 2 * up (s / 2 * (NN - 1)))%Z) by (apply lt_IZR; rewrite minus_IZR, mult_IZR; lra). split; apply IZR_le; lia.
  - unfold sg. rewrite (ex_ext hash_values _ (fun v => c ^ 2 * below (s * (NN - 1)) v)) by (intros v _; apply coef_below; lra). rewrite ex_scal, ex_below by auto. reflexivity.
  - lra.
Qed.

(** ** Projections of a table *)
Lemma rsum_seq : forall A (g : A -> R) dflt x h, length h = length x -> Rsum (map (fun i => nth i x 0 * g (nth i h dflt)) (seq 0 (length x))) = rsum g x h.
Proof.
  intros A g dflt. induction x as [|a x IH]; intros [|v h] L; cbn [length] in L; try discriminate; auto. cbn [length seq map rsum nth]. rewrite <- seq_shift, map_map. unfold Rsum. cbn [fold_right]. f_equal. rewrite <- (IH h) by lia. reflexivity.
Qed.
Lemma map_as_seq : forall A B (F : A -> B) dflt T, map F T = map (fun k => F (nth k T dflt)) (seq 0 (length T)).
Proof. intros A B F dflt. induction T as [|t T IH]; auto. cbn [length seq map nth]. f_equal. rewrite <- seq_shift, map_map. exact IH. Qed.
Lemma norm2_nonneg : forall x, 0 <= norm2 x.
Proof. intros x. apply Rsum_nonneg. intros v Hv. apply in_map_iff in Hv. destruct Hv as (u & <- & _). apply pow2_ge_0. Qed.
Lemma sum_square : forall x, Rsum x ^ 2 <= INR (length x) * norm2 x.
Proof.
  induction x as [|a x IH]; [unfold norm2, Rsum; cbn; lra|]. change (length (a :: x)) with (S (length x)). rewrite S_INR. change (Rsum (a :: x)) with (a + Rsum x). change (norm2 (a :: x)) with (a ^ 2 + norm2 x). pose proof (norm2_nonneg x) as Q. pose proof (pos_INR (length x)) as D. set (S0 := Rsum x) in *. set (q := norm2 x) in *. set (d := INR (length x)) in *. clearbody S0 q d.
  destruct (Req_dec d 0) as [->|N].
  - assert (S0 = 0) by nra. subst S0. nra.
  - assert (0 < d) by lra. assert (0 <= d * (d * a ^ 2 + q - 2 * a * S0)) by (pose proof (pow2_ge_0 (d * a - S0)); nra). assert (0 <= d * a ^ 2 + q - 2 * a * S0). { apply Rmult_le_reg_l with d; lra. } nra.
Qed.
Section Project.
Variables (H : list (list Z) -> string -> nat -> Z) (n : Z) (s : R) (p : shproj R).
Hypothesis (HH : hash_from H) (Hn : (1 <= n)%Z) (Hs : 0 < s) (E : Streamhash_init 1 n s = Ok p).
Let c := sqrt (1 / s) / sqrt (IZR n).
Let K := Z.to_nat n.
Lemma project_table : forall x T y, In T (hash_tables K (length x)) -> projects (H T) p x y -> y = map (rsum (coef s c) x) T.
Proof.
  intros x T y HT P. rewrite (projects_unique _ _ _ _ _ P (projects_value (H T) n s p x Hn E)). fold c. fold K. rewrite (map_as_seq _ _ _ [] T), (tuples_length _ _ _ _ HT). apply map_ext_in. intros k Hk. apply in_seq in Hk.
  unfold weighted. rewrite <- (rsum_seq _ (coef s c) 0%Z).
  - f_equal. apply map_ext. intros i. f_equal. unfold sh_weight. rewrite HH. reflexivity.
  - eapply tuples_length. eapply tuples_in; [exact HT|]. apply nth_In. rewrite (tuples_length _ _ _ _ HT). lia.
Qed.
Lemma c_square : c ^ 2 = 1 / (s * IZR n).
Proof.
  assert (0 < IZR n) by (apply IZR_lt; lia). unfold c, Rdiv. rewrite Rpow_mult_distr, pow_inv, !pow2_sqrt; try lra. - field. split; lra. - apply Rlt_le, Rmult_lt_0_compat; [lra|]. apply Rinv_0_lt_compat; lra. 
Qed.
Lemma c_pos : 0 < c.
Proof. assert (0 < IZR n) by (apply IZR_lt; lia). unfold c. apply Rdiv_lt_0_compat; apply sqrt_lt_R0; auto. apply Rdiv_lt_0_compat; lra. Qed.
End Project.

(** ** C93 *)
(** For a density of at most 1, every component is 0 on average, up to 2^-32 of the sum of the features. *)
Theorem C93_components_are_centred : forall H n s p x y k, hash_from H -> (1 <= n)%Z -> 0 < s <= 1 -> Streamhash_init 1 n s = Ok p ->
  let space := hash_tables (Z.to_nat n) (length x) in (forall T, In T space -> projects (H T) p x (y T)) -> (k < Z.to_nat n)%nat ->
  Rabs (expectation space (fun T => nth k (y T) 0)) <= sqrt (1 / s) / sqrt (IZR n) * Rabs (Rsum x) / 2 ^ 32.
Proof.
  intros H n s p x y k HH Hn [Hs H1] E space P Hk. set (c := sqrt (1 / s) / sqrt (IZR n)). assert (Hc : 0 < c) by (apply (c_pos n s); auto).
  rewrite (ex_ext space _ (fun T => rsum (coef s c) x (nth k T []))).
  - unfold space, hash_tables. rewrite ex_row by (auto; apply tuples_nonempty, hv_nonempty). rewrite moment1 by apply hv_nonempty.
    destruct (coef_moments s c (conj Hs H1)) as (e & m & -> & [E1 E2] & _). change (2 ^ 32) with (2 ^ 32)%R. assert (EN : (2 ^ 32)%R = NN) by (unfold NN; rewrite pow_IZR; reflexivity). rewrite EN. pose proof NN_pos as PN. rewrite !Rabs_mult. rewrite (Rabs_pos_eq c) by lra.
    unfold Rdiv. rewrite Rabs_mult, (Rabs_pos_eq (/ NN)) by (apply Rlt_le, Rinv_0_lt_compat; lra). assert (Rabs e <= 1) by (apply Rabs_le; lra). assert (0 < / NN) by (apply Rinv_0_lt_compat; lra). pose proof (Rabs_pos (Rsum x)). pose proof (Rabs_pos e).
    replace (c * Rabs (Rsum x) * / NN) with (c * (1 * / NN) * Rabs (Rsum x)) by ring. apply Rmult_le_compat_r; auto. apply Rmult_le_compat_l; [lra|]. apply Rmult_le_compat_r; lra.
  - intros T HT. rewrite (project_table H n s p HH Hn E x T (y T) HT (P T HT)). fold c.
    rewrite (nth_indep _ 0 (rsum (coef s c) x [])) by (rewrite map_length; rewrite (tuples_length _ _ _ _ HT); auto). apply map_nth.
Qed.
Print Assumptions C93_components_are_centred.
(** The squared length of the image is on average the squared length of the instance, up to 2^-32 / density. *)
Theorem C93_lengths_are_kept : forall H n s p x y, hash_from H -> (1 <= n)%Z -> 0 < s <= 1 -> Streamhash_init 1 n s = Ok p ->
  let space := hash_tables (Z.to_nat n) (length x) in (forall T, In T space -> projects (H T) p x (y T)) ->
  Rabs (expectation space (fun T => norm2 (y T)) - norm2 x) <= norm2 x * (1 + Rlen x / 2 ^ 32) / (s * 2 ^ 32).
Proof.
  intros H n s p x y HH Hn [Hs H1] E space P. set (c := sqrt (1 / s) / sqrt (IZR n)). assert (Hc : 0 < c) by (apply (c_pos n s); auto).
  rewrite (ex_ext space _ (fun T => Rsum (map (fun h => rsum (coef s c) x h ^ 2) T))).
  2: { intros T HT. rewrite (project_table H n s p HH Hn E x T (y T) HT (P T HT)). fold c. unfold norm2. rewrite map_map. reflexivity. }
  unfold space, hash_tables. rewrite ex_rows by (apply tuples_nonempty, hv_nonempty). rewrite moment2 by apply hv_nonempty.
  destruct (coef_moments s c (conj Hs H1)) as (e & m & -> & [E1 E2] & -> & [M1 M2]). assert (EN : (2 ^ 32)%R = NN) by (unfold NN; rewrite pow_IZR; reflexivity). rewrite EN. pose proof NN_pos as PN.
  rewrite INR_IZR_INZ, Z2Nat.id by lia. assert (0 < IZR n) by (apply IZR_lt; lia).
  replace ((c * (e / NN)) ^ 2) with (c ^ 2 * (e / NN) ^ 2) by ring. unfold c. rewrite (c_square n s Hn Hs).
  pose proof (norm2_nonneg x) as Q. pose proof (sum_square x) as CS. fold (Rlen x) in CS. set (q := norm2 x) in *. set (S0 := Rsum x) in *. set (d := Rlen x) in *.
  assert (D : 0 <= d) by (apply pos_INR).
  replace (IZR n * (1 / (s * IZR n) * (m / NN) * q + 1 / (s * IZR n) * (e / NN) ^ 2 * (S0 ^ 2 - q)) - q) with (((m - s * NN) * q + e ^ 2 / NN * (S0 ^ 2 - q)) / (s * NN)) by (field; lra).
  unfold Rdiv at 1. rewrite Rabs_mult. assert (0 < s * NN) by (apply Rmult_lt_0_compat; lra). rewrite (Rabs_pos_eq (/ (s * NN))) by (apply Rlt_le, Rinv_0_lt_compat; auto). unfold Rdiv at 2. apply Rmult_le_compat_r; [apply Rlt_le, Rinv_0_lt_compat; auto|].
  eapply Rle_trans; [apply Rabs_triang|]. rewrite Rmult_plus_distr_l, Rmult_1_r. apply Rplus_le_compat.
  - rewrite Rabs_mult, (Rabs_pos_eq q) by auto. rewrite <- (Rmult_1_l q) at 2. apply Rmult_le_compat_r; auto. apply Rabs_le. nra.
  - assert (B : Rabs (S0 ^ 2 - q) <= d * q).
    { unfold d, q, S0, Rlen. destruct x as [|a x]; [unfold norm2, Rsum; cbn; rewrite Rabs_pos_eq; lra|]. apply Rabs_le. fold S0 q. pose proof (pow2_ge_0 S0). assert (1 <= INR (length (a :: x))). { change (length (a :: x)) with (S (length x)). rewrite S_INR. pose proof (pos_INR (length x)). lra. } fold S0 q in CS. unfold d, Rlen in CS. split; nra. }
    unfold Rdiv. rewrite !Rabs_mult. replace (q * (d * / NN)) with (1 * / NN * (d * q)) by ring. apply Rmult_le_compat; auto using Rabs_pos.
    + apply Rmult_le_pos; apply Rabs_pos.
    + rewrite (Rabs_pos_eq (/ NN)) by (apply Rlt_le, Rinv_0_lt_compat; lra). apply Rmult_le_compat_r; [apply Rlt_le, Rinv_0_lt_compat; lra|]. rewrite Rabs_pos_eq by apply pow2_ge_0. nra.
Qed.
Print Assumptions C93_lengths_are_kept.
(** Hence squared distances are kept on average. *)
Theorem C93_distances_are_kept : forall H n s p x x' y y', hash_from H -> (1 <= n)%Z -> 0 < s <= 1 -> Streamhash_init 1 n s = Ok p -> length x = length x' ->
  let space := hash_tables (Z.to_nat n) (length x) in (forall T, In T space -> projects (H T) p x (y T)) -> (forall T, In T space -> projects (H T) p x' (y' T)) ->
  Rabs (expectation space (fun T => norm2 (minus (y T) (y' T))) - norm2 (minus x x')) <= norm2 (minus x x') * (1 + Rlen x / 2 ^ 32) / (s * 2 ^ 32).
Proof.
  intros H n s p x x' y y' HH Hn Hs E L space P P'. assert (LM : length (minus x x') = length x) by (unfold minus; rewrite map_length, seq_length; auto).
  pose proof (C93_lengths_are_kept H n s p (minus x x') (fun T => minus (y T) (y' T)) HH Hn Hs E) as G. cbv zeta in G. rewrite LM in G. fold space in G. unfold Rlen in *. rewrite LM in G. apply G. intros T HT.
  pose proof (C42_linear (H T) n s p x x' _ _ 1 (-1) Hn E L (P T HT) (P' T HT)) as Q. unfold minus.
  replace (map (fun i => nth i x 0 - nth i x' 0) (seq 0 (length x))) with (map (fun i => 1 * nth i x 0 + -1 * nth i x' 0) (seq 0 (length x))) by (apply map_ext; intros; ring).
  replace (map (fun i => nth i (y T) 0 - nth i (y' T) 0) (seq 0 (length (y T)))) with (map (fun k => 1 * nth k (y T) 0 + -1 * nth k (y' T) 0) (seq 0 (length (y T)))) by (apply map_ext; intros; ring). exact Q.
Qed.
Print Assumptions C93_distances_are_kept.
(** Refuted for densities above 1, which the constructor accepts: from density 2 on every coefficient is the same, whatever
    the hash function, so that instances with equal sums become indistinguishable. *)
Theorem C93_any_density_refuted : forall mmh3 n s p x y, (forall t k, (0 <= mmh3 t k < 2 ^ 32)%Z) -> (1 <= n)%Z -> 2 <= s -> Streamhash_init 1 n s = Ok p -> projects mmh3 p x y ->
  y = repeat (- (sqrt (1 / s) / sqrt (IZR n)) * Rsum x) (Z.to_nat n).
Proof.
  intros mmh3 n s p x y Hm Hn Hs E P. rewrite (projects_unique _ _ _ _ _ P (projects_value mmh3 n s p x Hn E)). set (c := sqrt (1 / s) / sqrt (IZR n)). 
  assert (W : forall k i, sh_weight mmh3 s c k i = - c).
  { intros k i. unfold sh_weight. destruct (Rle_dec _ _) as [|N]; auto. exfalso. apply N. specialize (Hm (py_str i) k). assert (B : 0 <= IZR (mmh3 (py_str i) k) <= IZR (2 ^ 32 - 1)) by (split; apply IZR_le; lia). assert (0 < IZR (2 ^ 32 - 1)) by (apply IZR_lt; reflexivity). apply Rle_trans with 1; [|lra]. apply Rmult_le_reg_r with (IZR (2 ^ 32 - 1)); auto. unfold Rdiv. rewrite Rmult_assoc, Rinv_l by lra. lra. }
  replace (repeat (- c * Rsum x) (Z.to_nat n)) with (map (fun _ : nat => - c * Rsum x) (seq 0 (Z.to_nat n))).
  - apply map_ext. intros k. unfold weighted. rewrite (map_ext _ (fun i => - c * nth i x 0)) by (intros i; rewrite W; ring). rewrite Rsum_map_scal. f_equal. f_equal. symmetry. apply (P_Trans.list_as_map x (length x) eq_refl).
  - assert (G : forall (l : list nat), map (fun _ => - c * Rsum x) l = repeat (- c * Rsum x) (length l)) by (induction l; cbn; [auto|f_equal; auto]). rewrite G, seq_length. reflexivity.
Qed.
Print Assumptions C93_any_density_refuted.

(** ** Concrete case: a family of hash functions indexed by the tables, and the default density. *)
Definition table_hash (T : list (list Z)) (t : string) (k : nat) : Z :=
  match NilZero.uint_of_string t with Some u => nth (Nat.of_uint u) (nth k T []) 0%Z | None => 0%Z end.
Example C93_ex : hash_from table_hash /\ (exists p, Streamhash_init 1 100 (1 / 3) = Ok p) /\ 0 < 1 / 3 <= 1.
Proof.
  split; [|split; [|lra]].
  - assert (N : forall n, Nat.to_uint n <> Decimal.Nil).
    { intros n Q. pose proof (DecimalNat.Unsigned.of_to n) as O. rewrite Q in O. cbn in O. subst n. discriminate Q. }
    intros T i k. unfold table_hash, py_str. rewrite NilZero.usu by apply N. rewrite DecimalNat.Unsigned.of_to. reflexivity.
  - unfold Streamhash_init, pydiv. cbn [oeqb num_ord NumR OrdR n0]. destruct (Reqb (1 / 3) 0) eqn:Q; [apply Reqb_eq in Q; lra|]. eexists. reflexivity.
Qed.
(** [1; 2] and [0; 3] have the same image at density 2. *)
Example C93_ex_density : exists p, Streamhash_init 1 5 2 = Ok p /\ forall mmh3 y y', (forall t k, (0 <= mmh3 t k < 2 ^ 32)%Z) -> projects mmh3 p [1; 2] y -> projects mmh3 p [0; 3] y' -> y = y'.
Proof.
  assert (E : exists p, Streamhash_init (A := R) 1 5 2 = Ok p). { unfold Streamhash_init, pydiv. cbn [oeqb num_ord NumR OrdR n0]. destruct (Reqb 2 0) eqn:Q; [apply Reqb_eq in Q; lra|]. eexists. reflexivity. }
  destruct E as [p E]. exists p. split; auto. intros mmh3 y y' Hm P P'. rewrite (C93_any_density_refuted mmh3 5 2 p _ y Hm ltac:(lia) ltac:(lra) E P), (C93_any_density_refuted mmh3 5 2 p _ y' Hm ltac:(lia) ltac:(lra) E P'). f_equal. unfold Rsum. cbn [fold_right]. f_equal. ring.
Qed.
