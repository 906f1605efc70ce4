(** * Inqmad: what it learns and when (C80), the meaning of its score (C88). *)
From Coq Require Import List ZArith Lia Bool Arith.
From Coq Require Import Reals Lra.
From Verif Require Import Base Num Spec Model_Stats Model_Utils Model_Core Model_Post Model_Trans Model_Simple P_Lists P_Utils P_Stats P_Post P_Models Model_Inqmad.
From Verif Require Import Prop_Post Prop_KitNET Prop_KitNET2.
Import ListNotations.
Open Scope R_scope.

(** ** Specification *)
Definition inner (u v : list R) : R := Rsum (map2 Rmult u v).
(** u is the (normalised) feature vector of the instance x. *)
Definition feature_of (p : rffpar R) (x u : list R) : Prop := rff_call p x = Ok (FinV u).
(** The documented behaviour: the density matrix is the mean of the projectors of the n training feature vectors vs, and
    the score of a feature vector u is the squared norm of its product with that matrix. *)
Definition mean_density (vs : list (list R)) (i j : nat) : R := mean (map (fun v => nth i v 0 * nth j v 0) vs).
Definition density_score (vs : list (list R)) (u : list R) : R :=
  Rsum (map (fun j => (Rsum (map (fun i => nth i u 0 * mean_density vs i j) (seq 0 (length u)))) ^ 2) (seq 0 (length u))).

(** ** Lemmas *)
Lemma feature_length : forall p x u, feature_of p x u -> length u = Nat.min (length (rf_weights p)) (length (rf_offset p)).
Proof.
  intros p x u. unfold feature_of, rff_call, rff_compute. destruct (_ =? _)%nat; [|discriminate]. cbn [rbind]. destruct (oeqb _ _); [discriminate|]. intros E. inversion E. rewrite map_length. unfold map2. rewrite map_length, combine_length. reflexivity.
Qed.
Lemma inner_scale : forall c u, inner (map (fun v => v / c) u) (map (fun v => v / c) u) = inner u u / c / c.
Proof.
  intros c u. unfold inner. change (cosum (map (fun v => v / c) u) (map (fun v => v / c) u) = cosum u u / c / c). induction u as [|a u IH]. { unfold cosum. cbn. unfold Rdiv. ring. } cbn [map]. rewrite !cosum_cons, IH. unfold Rdiv. ring.
Qed.
Lemma feature_unit : forall p x u, feature_of p x u -> inner u u = 1.
Proof.
  intros p x u. unfold feature_of, rff_call. destruct (rff_compute p x) as [vals|]; [|discriminate]. cbn [rbind]. destruct (oeqb _ _) eqn:E; [discriminate|]. intros Q. inversion Q. clear Q. cbn [oeqb num_ord NumR OrdR n0] in E. apply Reqb_neq in E.
  assert (EN : nsum (map nsq vals) = inner vals vals). { rewrite Prop_XStream.nsum_Rsum. unfold inner, map2. f_equal. clear. induction vals as [|a l IH]; auto. cbn. rewrite IH. reflexivity. }
  rewrite EN in *. cbn [nsqrt ndiv NumR] in *. change (fun v => v / sqrt (inner vals vals)) with (fun v => v / sqrt (inner vals vals)). rewrite inner_scale. assert (P : 0 <= inner vals vals) by apply cosum_sq_nonneg.
  rewrite <- (sqrt_sqrt _ P) at 1. field. auto.
Qed.
Lemma batches_one : forall X b (x : X), (1 <= b)%nat -> iq_batches b [x] = [[x]].
Proof.
  intros X b x H. unfold iq_batches. cbn [length]. assert (E : (1 / b + (if (1 mod b =? 0)%nat then 0 else 1) = 1)%nat). { destruct (Nat.eq_dec b 1) as [->|]; [reflexivity|]. rewrite Nat.div_small, Nat.mod_small by lia. reflexivity. } rewrite E. cbn [seq map Nat.mul skipn]. rewrite firstn_all2 by (cbn; lia). reflexivity.
Qed.
Lemma madd_zero : forall M N : list (list R), Forall2 (fun a b => length a = length b) M N -> madd (mscale 1 M) (mscale (1 - 1) N) = M.
Proof.
  intros M N F. induction F as [|a b M N L F IH]; auto. unfold madd, mscale in *. cbn [map]. unfold map2 in *. cbn [combine map fst snd]. rewrite IH. f_equal. clear - L. revert b L. induction a as [|x a IH]; intros [|y b] L; try discriminate; auto. cbn [map combine fst snd]. rewrite IH by (cbn in L; lia). f_equal. cbn [nadd nmul NumR]. ring.
Qed.
Lemma outer_shape : forall u v : list R, length u = length v -> Forall2 (fun a b : list R => length a = length b) (outer u u) (outer v v).
Proof.
  intros u v L. unfold outer. cut (forall u0 v0 : list R, length u0 = length v0 -> Forall2 (fun a b : list R => length a = length b) (map (fun a => map (nmul a) u0) u) (map (fun a => map (nmul a) v0) v)); auto. revert v L. induction u as [|x u IH]; intros [|y v] L u0 v0 L0; try discriminate; cbn [map]; constructor; [rewrite !map_length; auto|]. apply IH; auto.
Qed.
Lemma collapse_outer : forall u v n, length u = length v -> iq_collapse u (map (map (fun x => x / n)) (outer v v)) = (inner u v) ^ 2 * inner v v / n ^ 2.
Proof.
  intros u v n L. unfold iq_collapse. rewrite Prop_XStream.nsum_Rsum, map_map.
  assert (E : forall w j, (j < length w)%nat -> nsum (map (fun a => nmul (fst a) (nth j (snd a) n0)) (combine u (map (map (fun x => x / n)) (map (fun a => map (nmul a) w) v)))) = nth j w 0 / n * inner u v).
  { intros w j Hj. rewrite Prop_XStream.nsum_Rsum. revert v L. induction u as [|a u IH]; intros [|b v] L; try discriminate. { unfold inner. cbn. ring. } cbn [map combine fst snd]. rewrite Prop_RSHash.Rsum_cons, IH by (cbn in L; lia). change (inner (a :: u) (b :: v)) with (cosum (a :: u) (b :: v)). rewrite cosum_cons. fold (inner u v). change (cosum u v) with (inner u v).
    rewrite map_map. rewrite (nth_indep _ n0 (nmul b 0 / n)) by (rewrite map_length; auto). rewrite (map_nth (fun x => nmul b x / n) w 0 j). cbn [nmul NumR]. unfold Rdiv. ring. }
  rewrite (map_ext_in _ (fun j => (nth j v 0 * nth j v 0) * ((inner u v) ^ 2 / n ^ 2))).
  - rewrite L. rewrite <- (map_map (fun j => nth j v 0 * nth j v 0) (fun t => t * ((inner u v) ^ 2 / n ^ 2))).
    assert (S0 : forall c l, Rsum (map (fun t => t * c) l) = Rsum l * c). { intros c l. induction l as [|a l IH]. { unfold Rsum. cbn. ring. } cbn [map]. rewrite !Prop_RSHash.Rsum_cons, IH. ring. }
    rewrite S0. assert (S1 : Rsum (map (fun j => nth j v 0 * nth j v 0) (seq 0 (length v))) = inner v v). { clear. change (inner v v) with (cosum v v). induction v as [|a v IH]; auto. cbn [length seq map nth]. rewrite Prop_RSHash.Rsum_cons, cosum_cons. rewrite <- (seq_shift (length v) 0), map_map. cbn [nth]. rewrite IH. reflexivity. } rewrite S1. unfold Rdiv. ring.
  - intros j Hj. apply in_seq in Hj. unfold outer. rewrite E by lia. unfold nsq. cbn [nmul NumR]. unfold Rdiv. replace (n ^ 2) with (n * n) by ring. rewrite Rinv_mult. ring.
Qed.

Lemma inner_components : forall u v k, length u = k -> length v = k -> Rsum (map2 Rmult u v) = Rsum (map (fun i => nth i u 0 * nth i v 0) (seq 0 k)).
Proof.
  intros u v k <- L. f_equal. apply (nth_ext _ _ 0 0); [rewrite map2_length, map_length, seq_length; lia|]. intros i Hi. rewrite map2_length in Hi. rewrite (nth_map2 _ _ _ _ _ _ i 0 0) by lia. rewrite Prop_XStream.nth_map_seq by lia. reflexivity.
Qed.
Lemma In_skipn : forall X n (l : list X) a, In a (skipn n l) -> In a l.
Proof. intros X n l a H. rewrite <- (firstn_skipn n l). apply in_or_app. auto. Qed.
Lemma In_firstn : forall X n (l : list X) a, In a (firstn n l) -> In a l.
Proof. intros X n l a H. rewrite <- (firstn_skipn n l). apply in_or_app. auto. Qed.

(** ** Arrays of rows *)
(** The rows of the last batch of an array. *)
Definition last_batch {X} (b : nat) (rows : list X) : list X := skipn ((length rows - 1) / b * b) rows.
Lemma batches_last : forall X b (rows : list X), (1 <= b)%nat -> rows <> [] -> exists bs, iq_batches b rows = bs ++ [last_batch b rows] /\ Forall (fun r => r <> [] /\ incl r rows) bs /\ last_batch b rows <> [].
Proof.
  intros X b rows Hb NE. assert (Hn : (1 <= length rows)%nat) by (destruct rows; [congruence|cbn; lia]). unfold iq_batches, last_batch. set (n := length rows) in *. set (k := ((n - 1) / b)%nat).
  assert (K1 : (k * b <= n - 1)%nat) by (unfold k; rewrite Nat.mul_comm; apply Nat.mul_div_le; lia). assert (K2 : (n - 1 < k * b + b)%nat) by (unfold k; pose proof (Nat.mul_succ_div_gt (n - 1) b); lia).
  assert (E : (n / b + (if (n mod b =? 0)%nat then 0 else 1) = S k)%nat).
  { pose proof (Nat.div_mod n b ltac:(lia)) as D. pose proof (Nat.mod_upper_bound n b ltac:(lia)) as U. destruct (Nat.eqb_spec (n mod b) 0) as [Z|Z].
    - rewrite Z in D. assert (n / b = S k)%nat; [|lia]. assert (k < n / b)%nat by nia. assert (n / b < S (S k))%nat by nia. lia.
    - assert (n / b = k)%nat; [|lia]. assert (n / b < S k)%nat by nia. assert (k < S (n / b))%nat by nia. lia. }
  rewrite E, seq_S, map_app. cbn [map plus]. exists (map (fun i => firstn b (skipn (i * b) rows)) (seq 0 k)). split; [|split].
  - f_equal. f_equal. apply firstn_all2. rewrite skipn_length. fold n. lia.
  - apply Forall_forall. intros r Hr. apply in_map_iff in Hr. destruct Hr as (i & <- & Hi). apply in_seq in Hi. split.
    + intros Z. apply (f_equal (@length _)) in Z. rewrite firstn_length, skipn_length in Z. fold n in Z. cbn [length] in Z. nia.
    + intros a Ha. apply (In_skipn _ (i * b)). eapply In_firstn. exact Ha.
  - intros Z. apply (f_equal (@length _)) in Z. rewrite skipn_length in Z. fold n in Z. cbn [length] in Z. lia.
Qed.
Definition square (k : nat) (m : list (list R)) : Prop := length m = k /\ Forall (fun r => length r = k) m.
Lemma square_outer : forall k u, length u = k -> square k (outer u u).
Proof. intros k u L. split; [unfold outer; rewrite map_length; auto|]. apply Forall_forall. intros r Hr. unfold outer in Hr. apply in_map_iff in Hr. destruct Hr as (a & <- & _). rewrite map_length. auto. Qed.
Lemma square_madd : forall k m n, square k m -> square k n -> square k (madd m n).
Proof.
  intros k m n [L1 F1] [L2 F2]. unfold madd. split; [rewrite map2_length; lia|]. apply Forall_forall. intros r Hr. unfold map2 in Hr at 1. apply in_map_iff in Hr. destruct Hr as ([a c] & <- & Hr). cbn [fst snd]. rewrite Forall_forall in F1, F2. pose proof (F1 a (in_combine_l _ _ _ _ Hr)). pose proof (F2 c (in_combine_r _ _ _ _ Hr)). rewrite map2_length. lia.
Qed.
Lemma madd_entry : forall k m n i j, square k m -> square k n -> (i < k)%nat -> (j < k)%nat -> nth j (nth i (madd m n) []) 0 = nth j (nth i m []) 0 + nth j (nth i n []) 0.
Proof.
  intros k m n i j [L1 F1] [L2 F2] Hi Hj. unfold madd. rewrite (nth_map2 _ _ _ _ _ _ i [] []) by lia. rewrite Forall_forall in F1, F2. pose proof (F1 (nth i m []) ltac:(apply nth_In; lia)). pose proof (F2 (nth i n []) ltac:(apply nth_In; lia)). rewrite (nth_map2 _ _ _ _ _ _ j 0 0) by lia. reflexivity.
Qed.
Lemma outer_entry : forall u i j, (i < length u)%nat -> (j < length u)%nat -> nth j (nth i (outer u u) []) 0 = nth i u 0 * nth j u 0.
Proof. intros u i j Hi Hj. unfold outer. rewrite (nth_map_any _ _ _ _ i 0) by lia. rewrite (nth_map_any _ _ _ _ j 0) by lia. reflexivity. Qed.
Lemma madd_zero_square : forall k m n, square k m -> square k n -> madd (mscale 1 m) (mscale (1 - 1) n) = m.
Proof.
  intros k m n [L1 F1] [L2 F2]. apply madd_zero. rewrite <- L2 in L1. clear L2. revert n L1 F2. induction m as [|a m IH]; intros [|c n] L F2; try discriminate; [constructor|]. apply Forall_cons_iff in F1. apply Forall_cons_iff in F2. destruct F1 as [Fa F1], F2 as [Fc F2]. constructor; [lia|]. apply IH; auto.
Qed.
(** The sum of the projectors of the vectors us. *)
Definition projectors (k : nat) (us : list (list R)) (m : list (list R)) : Prop := square k m /\ forall i j, (i < k)%nat -> (j < k)%nat -> nth j (nth i m []) 0 = Rsum (map (fun v => nth i v 0 * nth j v 0) us).
Lemma iq_sum_projectors : forall k us, us <> [] -> Forall (fun u => length u = k) us -> exists m, iq_sum (map FinV us) = FinV m /\ projectors k us m.
Proof.
  intros k us NE F. destruct us as [|u us]; [congruence|]. clear NE. apply Forall_cons_iff in F. destruct F as [Fu F]. unfold iq_sum. cbn [map npmap].
  assert (G : forall us m ps, Forall (fun u => length u = k) us -> projectors k ps m -> exists m', fold_left (np_lift2 madd) (map (npmap (fun u => outer u u)) (map FinV us)) (FinV m) = FinV m' /\ projectors k (ps ++ us) m').
  { clear. induction us as [|u us IH]; intros m ps F P. { exists m. rewrite app_nil_r. auto. } apply Forall_cons_iff in F. destruct F as [Fu F]. cbn [map fold_left npmap np_lift2]. destruct P as [Sq E]. destruct (IH (madd m (outer u u)) (ps ++ [u]) F) as (m' & E' & P').
    - split; [apply square_madd; auto; apply square_outer; auto|]. intros i j Hi Hj. rewrite (madd_entry k) by (auto; apply square_outer; auto). rewrite E, outer_entry by lia. rewrite map_app, Rsum_app. cbn [map Rsum fold_right]. ring.
    - exists m'. split; auto. rewrite <- app_assoc in P'. exact P'. }
  apply (G us (outer u u) [u] F). split; [apply square_outer; auto|]. intros i j Hi Hj. rewrite outer_entry by lia. cbn [map Rsum fold_right]. ring.
Qed.
Lemma collapse_projectors : forall k us u m n, projectors k us m -> length u = k -> Forall (fun v => length v = k) us ->
  iq_collapse u (map (map (fun x => x / n)) m) = Rsum (map (fun j => (Rsum (map (fun v => inner u v * nth j v 0) us)) ^ 2) (seq 0 k)) / n ^ 2.
Proof.
  intros k us u m n [[L Fm] E] Lu F. unfold iq_collapse. rewrite Prop_XStream.nsum_Rsum, map_map, Lu. unfold Rdiv at 2. rewrite Rmult_comm, <- Rsum_map_scal. f_equal. apply map_ext_in. intros j Hj. apply in_seq in Hj.
  assert (EJ : nsum (map (fun a => nmul (fst a) (nth j (snd a) n0)) (combine u (map (map (fun x => x / n)) m))) = Rsum (map (fun v => inner u v * nth j v 0) us) / n).
  { rewrite Prop_XStream.nsum_Rsum. transitivity (Rsum (map (fun i => nth i u 0 * (Rsum (map (fun v => nth i v 0 * nth j v 0) us) / n)) (seq 0 k))).
    - f_equal. apply (nth_ext _ _ 0 0); [rewrite !map_length, combine_length, map_length, seq_length; lia|]. intros i Hi. rewrite map_length, combine_length, map_length in Hi. rewrite Prop_XStream.nth_map_seq by lia. rewrite (Prop_XStream.combine_nth_gen _ _ _ (fun a => nmul (fst a) (nth j (snd a) n0)) u (map (map (fun x => x / n)) m) i 0 [] 0) by (rewrite ?map_length; lia). cbn [fst snd nmul NumR n0]. rewrite (nth_map_any _ _ _ _ i []) by lia.
      rewrite Forall_forall in Fm. pose proof (Fm (nth i m []) ltac:(apply nth_In; lia)). rewrite (nth_map_any _ _ _ _ j 0) by lia. rewrite E by lia. reflexivity.
    - clear - F Lu. unfold Rdiv. induction us as [|v us IH]. { cbn [map]. rewrite Prop_RSHash.Rsum_nil. rewrite (map_ext _ (fun _ => 0)) by (intros; ring). rewrite Rsum_map_const. ring. }
      apply Forall_cons_iff in F. destruct F as [Fv F]. cbn [map]. rewrite Prop_RSHash.Rsum_cons, Rmult_plus_distr_r, <- (IH F). rewrite (map_ext _ (fun i => (nth i u 0 * nth i v 0) * (nth j v 0 * / n) + nth i u 0 * (Rsum (map (fun v0 => nth i v0 0 * nth j v0 0) us) * / n))) by (intros; rewrite Prop_RSHash.Rsum_cons; ring). rewrite Rsum_map_plus. f_equal.
      rewrite (map_ext _ (fun i => (nth j v 0 * / n) * (nth i u 0 * nth i v 0))) by (intros; ring). rewrite Rsum_map_scal. unfold inner. rewrite (inner_components u v k Lu Fv). ring. }
  rewrite EJ. unfold nsq. cbn [nmul NumR]. unfold Rdiv. replace (n ^ 2) with (n * n) by ring. rewrite Rinv_mult. ring.
Qed.

(** ** Random Fourier features *)
(** The raw features of x: the cosine of the offset inner product with each random direction. *)
Definition cosines (p : rffpar R) (x : list R) : list R := map2 (fun w o => rf_cos p (inner x w + o)) (rf_weights p) (rf_offset p).
Lemma compute_cosines : forall p x, length x = rf_input p -> rff_compute p x = Ok (map (fun c => c * (sqrt 2 / sqrt (IZR (rf_dim p)))) (cosines p x)).
Proof.
  intros p x L. unfold rff_compute, cosines. rewrite (proj2 (Nat.eqb_eq _ _) L). f_equal. unfold map2. rewrite map_map. apply map_ext. intros [w o]. cbn [fst snd nmul ndiv nsqrt nofZ NumR nadd]. f_equal. unfold dot, inner. rewrite Prop_XStream.nsum_Rsum. reflexivity.
Qed.
Lemma inner_scal : forall c u, inner (map (fun v => v * c) u) (map (fun v => v * c) u) = inner u u * (c * c).
Proof. intros c u. change (cosum (map (fun v => v * c) u) (map (fun v => v * c) u) = cosum u u * (c * c)). induction u as [|a u IH]. { unfold cosum. cbn. ring. } cbn [map]. rewrite !cosum_cons, IH. ring. Qed.
Lemma nsq_inner : forall u, nsum (map nsq u) = inner u u.
Proof. intros u. rewrite Prop_XStream.nsum_Rsum. unfold inner, map2. f_equal. induction u as [|a l IH]; auto. cbn. rewrite IH. reflexivity. Qed.
(** An instance is mapped to its cosines divided by their Euclidean norm (the factor of the random features cancels); it
    has no finite features exactly when all the cosines are 0, and a wrong number of features raises TypeError. *)
Theorem C88_features : forall p x, (1 <= rf_dim p)%Z ->
  (length x <> rf_input p -> rff_call p x = Raise TypeError) /\
  (length x = rf_input p -> inner (cosines p x) (cosines p x) = 0 -> rff_call p x = Ok NonFin) /\
  (length x = rf_input p -> inner (cosines p x) (cosines p x) <> 0 -> feature_of p x (map (fun c => c / sqrt (inner (cosines p x) (cosines p x))) (cosines p x))).
Proof.
  intros p x D. set (f := sqrt 2 / sqrt (IZR (rf_dim p))). assert (F : 0 < f). { unfold f. apply Rdiv_lt_0_compat; apply sqrt_lt_R0; [lra|]. apply IZR_lt. lia. }
  split; [|split]; intros L.
  - unfold rff_call, rff_compute. rewrite (proj2 (Nat.eqb_neq _ _) L). reflexivity.
  - intros Z. unfold rff_call. rewrite compute_cosines by auto. fold f. cbn [rbind]. rewrite nsq_inner, inner_scal, Z. rewrite Rmult_0_l. cbn [nsqrt NumR]. rewrite sqrt_0. cbn [oeqb num_ord NumR OrdR n0]. destruct (Reqb 0 0) eqn:Q; auto. apply Reqb_neq in Q. congruence.
  - intros NZ. unfold feature_of, rff_call. rewrite compute_cosines by auto. fold f. cbn [rbind]. rewrite nsq_inner, inner_scal. set (c := cosines p x) in *. assert (P : 0 < inner c c). { pose proof (cosum_sq_nonneg c) as P. change (cosum c c) with (inner c c) in P. lra. }
    cbn [nsqrt ndiv NumR]. rewrite sqrt_mult_alt by lra. rewrite sqrt_square by lra. assert (Q : 0 < sqrt (inner c c)) by (apply sqrt_lt_R0; auto). cbn [oeqb num_ord NumR OrdR n0]. destruct (Reqb (sqrt (inner c c) * f) 0) eqn:E. { apply Reqb_eq in E. nra. } do 2 f_equal. rewrite map_map. apply map_ext. intros a. field. split; lra.
Qed.
Print Assumptions C88_features.

Section Inq.
Variables (Y : Type) (p : rffpar R) (b : nat).
Hypothesis Hb : (1 <= b)%nat.
Notation M := (Inqmad (Y := Y) p b).
Definition fits (xs : list (list R)) : list (mcall (list (list R)) Y) := map (fun x => CFit [x] None) xs.
Lemma fit_one : forall (s : inq R) x q, rff_call p x = Ok q ->
  iq_initial_train p b (nofZ 1) [x] s = (Ok tt, mkInq (Some (match iq_rho s with Some r => np_lift2 madd (npmap (mscale 1) (npmap (fun u => outer u u) q)) (npmap (mscale (1 - 1)) r) | None => npmap (fun u => outer u u) q end)) (iq_num s + 1) (iq_cache s)).
Proof.
  intros s x q E. unfold iq_initial_train. destruct (Nat.eqb_spec b 0); [lia|]. rewrite batches_one by auto. unfold bind at 1. cbn [ret iterM]. unfold bind, gets, lift, iq_train, modify. cbn [res_map]. rewrite E. cbn [rbind res_map]. destruct (iq_rho s); reflexivity.
Qed.
Lemma fits_state : forall xs l ul, Forall (fun x => exists u, feature_of p x u) xs -> feature_of p l ul ->
  model_run M Inq_init (fits (xs ++ [l])) = mkInq (Some (FinV (outer ul ul))) (Z.of_nat (length xs) + 1) [].
Proof.
  intros xs. induction xs as [|x xs IH] using rev_ind; intros l ul F Hl.
  - cbn. unfold model_do, exec. cbn [model_call Inqmad md_fit plain_model]. unfold feature_of in Hl. rewrite (fit_one Inq_init l _ Hl). reflexivity.
  - apply Forall_app in F. destruct F as [F F1]. inversion F1 as [|? ? (u & Hu) _]; subst. unfold fits in *. rewrite map_app, model_run_app, (IH _ u F Hu). cbn. unfold model_do, exec. cbn [model_call Inqmad md_fit plain_model]. unfold feature_of in Hl. rewrite (fit_one _ l _ Hl). cbn [iq_rho iq_num iq_cache npmap np_lift2]. rewrite madd_zero; [rewrite app_length; cbn [length snd]; f_equal; lia|]. apply outer_shape. rewrite (feature_length _ _ _ Hl), (feature_length _ _ _ Hu). reflexivity.
Qed.
(** After any stream of instances, score_partial sees only the last one: the score of x is the squared inner product of
    the two feature vectors divided by the square of the number of instances. *)
Theorem C80_only_last_instance : forall xs l ul x u, Forall (fun x => exists u, feature_of p x u) xs -> feature_of p l ul -> feature_of p x u ->
  eval (md_score M [x]) (model_run M Inq_init (fits (xs ++ [l]))) = Ok (VArray [FinV ((inner u ul) ^ 2 / INR (length (xs ++ [l])) ^ 2)]).
Proof.
  intros xs l ul x u F Hl Hx. rewrite (fits_state xs l ul F Hl). unfold eval. cbn [md_score Inqmad plain_model]. unfold iq_predict, bind, gets. cbn [iq_cache find]. destruct (Nat.eqb_spec b 0); [lia|]. cbn [ret iq_rho iq_num]. unfold iq_predict_with, lift. cbn [res_map]. unfold feature_of in Hx. rewrite Hx. cbn [rbind res_map map np_lift2 npmap]. unfold modify. cbn [ret fst].
  cbn [ndiv nofZ NumR]. cbn [rmap rbind map np_lift2 fst ret]. rewrite collapse_outer by (rewrite (feature_length _ _ _ Hl), (feature_length _ _ _ Hx); auto). rewrite (feature_unit _ _ _ Hl). rewrite app_length. cbn [length]. rewrite INR_IZR_INZ, Nat2Z.inj_add. change (Z.of_nat 1) with 1%Z. do 4 f_equal. unfold Rdiv. ring.
Qed.
Definition fit_arrays (rs : list (list (list R))) : list (mcall (list (list R)) Y) := map (fun r => CFit r None) rs.
Notation dims := (Nat.min (length (rf_weights p)) (length (rf_offset p))).
Definition good (o : option (npres (list (list R)))) : Prop := o = None \/ exists m, o = Some (FinV m) /\ square dims m.
Lemma rows_features : forall rows, Forall (fun x => exists u, feature_of p x u) rows -> exists us, Forall2 (feature_of p) rows us.
Proof. induction rows as [|r rows IH]; intros F; [exists []; constructor|]. apply Forall_cons_iff in F. destruct F as [(u & Hu) F]. destruct (IH F) as (us & Hus). exists (u :: us). constructor; auto. Qed.
Lemma features_map : forall rows us, Forall2 (feature_of p) rows us -> res_map (rff_call p) rows = Ok (map FinV us) /\ Forall (fun u => length u = dims) us.
Proof. intros rows us F. induction F as [|x u rows us Hx F [IH1 IH2]]; [split; [reflexivity|constructor]|]. split. { cbn [res_map map]. unfold feature_of in Hx. rewrite Hx, IH1. reflexivity. } constructor; auto. apply (feature_length _ _ _ Hx). Qed.
Lemma train_batch : forall rho rows us, good rho -> rows <> [] -> Forall2 (feature_of p) rows us -> exists m, iq_train p (nofZ 1) rho rows = Ok (FinV m) /\ projectors dims us m.
Proof.
  intros rho rows us G NE F. destruct (features_map _ _ F) as [E L]. unfold iq_train. rewrite E. cbn [rbind]. assert (NE' : us <> []) by (inversion F; congruence). destruct (iq_sum_projectors dims us NE' L) as (m & Em & Pm). rewrite Em. exists m. split; auto. destruct G as [->|(m0 & -> & S0)]; auto. cbn [npmap np_lift2]. cbn [nofZ nsub NumR]. rewrite (madd_zero_square dims) by (auto; apply Pm). reflexivity.
Qed.
Notation fit_step := (fun (batch : list (list R)) => s <- gets (fun s : inq R => s) ;; r <- lift (iq_train p (nofZ 1) (iq_rho s) batch) ;; modify (fun s : inq R => mkInq (Some r) (iq_num s) (iq_cache s))).
Lemma train_batches_good : forall bs s, good (iq_rho s) -> Forall (fun r => r <> [] /\ Forall (fun x => exists u, feature_of p x u) r) bs ->
  exists rho, good rho /\ iterM fit_step bs s = (Ok tt, mkInq rho (iq_num s) (iq_cache s)).
Proof.
  induction bs as [|r bs IH]; intros s G F. { exists (iq_rho s). split; auto. destruct s; reflexivity. } apply Forall_cons_iff in F. destruct F as [[NE Fr] F]. destruct (rows_features r Fr) as (us & Hus). destruct (train_batch _ _ _ G NE Hus) as (m & Em & Pm).
  destruct (IH (mkInq (Some (FinV m)) (iq_num s) (iq_cache s))) as (rho & Gr & E); auto. { right. exists m. split; auto. apply Pm. } exists rho. split; auto. cbn [iterM]. unfold bind at 1. unfold bind at 1. unfold gets at 1. unfold bind at 1, lift. rewrite Em. unfold modify at 1. cbn [iq_num iq_cache] in E. exact E.
Qed.
Lemma iterM_snoc : forall S X (f : X -> Base.M S unit) l x s s1, iterM f l s = (Ok tt, s1) -> iterM f (l ++ [x]) s = f x s1.
Proof. intros S X f l x. induction l as [|a l IH]; intros s s1 E; cbn [app iterM] in *. { unfold ret in E. inversion E. subst. unfold bind. destruct (f x s1) as [[[]|] ?]; reflexivity. } unfold bind in *. destruct (f a s) as [[u|e] s']; [|discriminate]. apply IH. auto. Qed.
Lemma fit_array : forall s rows vs, good (iq_rho s) -> Forall (fun x => exists u, feature_of p x u) rows -> rows <> [] -> Forall2 (feature_of p) (last_batch b rows) vs ->
  exists m, projectors dims vs m /\ iq_initial_train p b (nofZ 1) rows s = (Ok tt, mkInq (Some (FinV m)) (iq_num s + Z.of_nat (length rows)) (iq_cache s)).
Proof.
  intros s rows vs G F NE Hv. destruct (batches_last _ b rows Hb NE) as (bs & Eb & Fb & NL). unfold iq_initial_train. destruct (Nat.eqb_spec b 0); [lia|]. unfold bind at 1. cbn [ret]. rewrite Eb.
  destruct (train_batches_good bs s G) as (rho & Gr & E). { rewrite Forall_forall in *. intros r Hr. destruct (Fb r Hr) as [Nr Ir]. split; auto. apply Forall_forall. intros a Ha. apply F. auto. }
  destruct (train_batch rho (last_batch b rows) vs Gr NL Hv) as (m & Em & Pm). exists m. split; auto. unfold bind at 1. rewrite (iterM_snoc _ _ _ _ _ _ _ E). unfold bind, gets, lift. cbn [iq_rho]. rewrite Em. reflexivity.
Qed.
Lemma fit_arrays_good : forall rs, Forall (Forall (fun x => exists u, feature_of p x u)) rs -> exists rho, good rho /\ model_run M Inq_init (fit_arrays rs) = mkInq rho (Z.of_nat (length (concat rs))) [].
Proof.
  intros rs. induction rs as [|r rs IH] using rev_ind; intros F. { exists None. split; [left; auto|reflexivity]. } apply Forall_app in F. destruct F as [F F1]. inversion F1 as [|? ? Fr _]; subst. destruct (IH F) as (rho & G & E). unfold fit_arrays in *. rewrite map_app, model_run_app, E. cbn. unfold model_do, exec. cbn [model_call Inqmad md_fit plain_model].
  rewrite concat_app, app_length. cbn [concat]. rewrite app_nil_r. destruct r as [|x0 r].
  - exists rho. split; auto. unfold iq_initial_train. destruct (Nat.eqb_spec b 0); [lia|]. unfold iq_batches. cbn [length]. rewrite Nat.div_0_l, Nat.mod_0_l by lia. cbn. f_equal. lia.
  - destruct (rows_features (last_batch b (x0 :: r))) as (vs & Hv). { apply Forall_forall. intros a Ha. rewrite Forall_forall in Fr. apply Fr. unfold last_batch in Ha. eapply In_skipn. exact Ha. }
    destruct (fit_array (mkInq rho (Z.of_nat (length (concat rs))) []) (x0 :: r) vs) as (m & Pm & Ef); auto; [discriminate|]. rewrite Ef. exists (Some (FinV m)). split. { right. exists m. split; auto. apply Pm. } cbn [snd iq_num iq_cache]. f_equal. lia.
Qed.
(** The same when arrays of rows are fitted: only the last batch_size-aligned batch of the last non-empty array counts,
    and the score divides by the square of the number of all the rows ever fitted. *)
Theorem C80_only_last_batch : forall rs l vs x u, Forall (Forall (fun x => exists u, feature_of p x u)) rs -> Forall (fun x => exists u, feature_of p x u) l -> l <> [] ->
  Forall2 (feature_of p) (last_batch b l) vs -> feature_of p x u ->
  eval (md_score M [x]) (model_run M Inq_init (fit_arrays (rs ++ [l]))) =
  Ok (VArray [FinV (Rsum (map (fun j => (Rsum (map (fun v => inner u v * nth j v 0) vs)) ^ 2) (seq 0 (length u))) / INR (length (concat (rs ++ [l]))) ^ 2)]).
Proof.
  intros rs l vs x u F Fl NE Hv Hx. destruct (fit_arrays_good rs F) as (rho & G & E). unfold fit_arrays in *. rewrite map_app, model_run_app, E.
  destruct (fit_array (mkInq rho (Z.of_nat (length (concat rs))) []) l vs G Fl NE Hv) as (m & Pm & Ef). cbn [map model_run fold_left]. unfold model_run. cbn [fold_left]. unfold model_do, exec. cbn [model_call Inqmad md_fit plain_model]. rewrite Ef. cbn [snd iq_num iq_cache].
  unfold eval. cbn [md_score Inqmad plain_model]. unfold iq_predict, bind, gets. cbn [iq_cache find]. destruct (Nat.eqb_spec b 0); [lia|]. cbn [ret iq_rho iq_num]. unfold iq_predict_with, lift. cbn [res_map]. unfold feature_of in Hx. rewrite Hx. cbn [rbind res_map map np_lift2 npmap]. unfold modify. cbn [ret fst].
  cbn [ndiv nofZ NumR]. cbn [rmap rbind map np_lift2 fst ret]. rewrite (collapse_projectors dims vs); auto.
  - rewrite (feature_length _ _ _ Hx). rewrite concat_app, app_length. cbn [concat]. rewrite app_nil_r, INR_IZR_INZ, Nat2Z.inj_add. reflexivity.
  - apply (feature_length _ _ _ Hx).
  - apply (features_map _ _ Hv).
Qed.
(** The first successful score_partial with instances of a shape freezes the model for that shape: whatever is fitted
    and scored afterwards, every later score of such an instance is what it would have been then. *)
Theorem C80_frozen_after_first_score : forall h x v h' x', let s := model_run M Inq_init h in
  eval (md_score M x) s = Ok v -> iq_shape x' = iq_shape x ->
  eval (md_score M x') (model_run M (exec (md_score M x) s) h') = eval (md_score M x') s.
Proof.
  intros h x v h' x' s Ev Sh. clearbody s.
  assert (G : exists e, find (fun e => shape_eqb (fst e) (iq_shape x)) (iq_cache (exec (md_score M x) s)) = Some e /\ eval (md_score M x') s = iq_predict_with p (fst (snd e)) (snd (snd e)) x').
  { revert Ev. unfold exec, eval. cbn [md_score Inqmad plain_model]. unfold iq_predict, bind, gets. rewrite Sh. destruct (find _ _) as [[k [rho n]]|] eqn:Fd.
    - intros _. exists (k, (rho, n)). cbn [lift snd]. split; auto.
    - destruct (Nat.eqb_spec b 0); [lia|]. cbn [ret]. destruct (iq_rho s) as [rho|] eqn:Er; [|discriminate]. unfold lift. destruct (iq_predict_with p rho (iq_num s) x) eqn:Ep; [|discriminate]. intros _. exists (iq_shape x, (rho, iq_num s)). split.
      + unfold modify. cbn [snd ret iq_cache]. clear - Fd. induction (iq_cache s) as [|a l IH]; cbn [app find fst] in *. { unfold shape_eqb. rewrite !Nat.eqb_refl. reflexivity. } destruct (shape_eqb (fst a) (iq_shape x)); [discriminate|auto].
      + cbn [fst snd]. destruct (iq_predict_with p rho (iq_num s) x'); reflexivity. }
  destruct G as (e & Fe & Ee). rewrite Ee. generalize dependent (exec (md_score M x) s). intros s1 Fe. clear Ee Ev s.
  assert (I : find (fun e => shape_eqb (fst e) (iq_shape x)) (iq_cache (model_run M s1 h')) = Some e).
  { refine (plain_run_inv (list (list R)) Y (npres R) nat (inq R) (fun x _ => iq_initial_train p b (nofZ 1) x) (iq_predict p b) (fun _ _ => []) (fun _ s => find (fun e => shape_eqb (fst e) (iq_shape x)) (iq_cache s) = Some e) _ _ h' [] s1 _); auto; clear.
    - intros _ s r _ I. unfold exec, iq_initial_train, bind. destruct (b =? 0)%nat; cbn [raise ret]; auto.
      assert (J : forall bs (s : inq R), find (fun e => shape_eqb (fst e) (iq_shape x)) (iq_cache s) = Some e -> find (fun e => shape_eqb (fst e) (iq_shape x)) (iq_cache (snd (iterM (fun batch (s0 : inq R) => match gets (fun s => s) s0 with (Ok a, s') => match lift (iq_train p (nofZ 1) (iq_rho a) batch) s' with (Ok a0, s'0) => modify (fun s1 => mkInq (Some a0) (iq_num s1) (iq_cache s1)) s'0 | (Raise e0, s'0) => (Raise e0, s'0) end | (Raise e0, s') => (Raise e0, s') end) bs s))) = Some e).
      { induction bs as [|a bs IH]; intros s0 I0; cbn [iterM]; auto. unfold bind at 1, gets, lift. destruct (iq_train p (nofZ 1) (iq_rho s0) a); cbn [modify]; auto. apply IH. auto. }
      specialize (J (iq_batches b r) s I). destruct (iterM _ _ s) as [[u|ex] s2]; cbn [snd] in *; auto.
    - intros _ s r I. unfold exec, iq_predict, bind, gets. destruct (find (fun e => shape_eqb (fst e) (iq_shape r)) (iq_cache s)) as [[k [rho n]]|]; [exact I|]. destruct (b =? 0)%nat; cbn [ret raise]; auto. destruct (iq_rho s); cbn [raise]; auto. unfold lift. destruct (iq_predict_with p n (iq_num s) r); auto. unfold modify. cbn [ret snd iq_cache]. clear - I. induction (iq_cache s) as [|a l IH]; cbn [app find] in *; [discriminate|]. destruct (shape_eqb (fst a) (iq_shape x)); auto. }
  unfold eval. cbn [md_score Inqmad plain_model]. unfold iq_predict, bind, gets. rewrite Sh, I. destruct e as [k [rho n]]. reflexivity.
Qed.
(** One instance whose random features are all zero makes every later score nan, whatever is fitted afterwards. *)
Theorem C80_nan_for_ever : forall xs x h r v, rff_call p x = Ok NonFin -> Forall (fun x => exists q, rff_call p x = Ok q) xs ->
  eval (md_score M r) (model_run M Inq_init (fits (xs ++ [x]) ++ h)) = Ok v -> v = VNone \/ exists k, v = VArray (repeat NonFin k).
Proof.
  intros xs x h r v Hx F. rewrite model_run_app.
  pose (Inv := fun s : inq R => iq_rho s = Some NonFin /\ Forall (fun e => fst (snd e) = NonFin) (iq_cache s)).
  assert (I0 : Inv (model_run M Inq_init (fits (xs ++ [x])))).
  { unfold fits. rewrite map_app, model_run_app. assert (C : iq_cache (model_run M Inq_init (map (fun x => CFit [x] None) xs)) = []). { clear - F Hb. induction xs as [|a xs IH] using rev_ind; auto. apply Forall_app in F. destruct F as [F F1]. inversion F1 as [|? ? (q & Hq) _]; subst. rewrite map_app, model_run_app. cbn. unfold model_do, exec. cbn [model_call Inqmad md_fit plain_model]. rewrite (fit_one _ _ _ Hq). cbn [snd iq_cache]. auto. }
    cbn. unfold model_do, exec. cbn [model_call Inqmad md_fit plain_model]. rewrite (fit_one _ _ _ Hx). unfold Inv. cbn [snd iq_cache iq_rho npmap np_lift2]. rewrite C. split; auto. destruct (iq_rho _); auto. }
  generalize dependent (model_run M Inq_init (fits (xs ++ [x]))). intros s I0.
  assert (I : Inv (model_run M s h)).
  { refine (plain_run_inv (list (list R)) Y (npres R) nat (inq R) (fun x _ => iq_initial_train p b (nofZ 1) x) (iq_predict p b) (fun _ _ => []) (fun _ s => Inv s) _ _ h [] s _); auto; clear.
    - intros _ s r _ I. unfold exec, iq_initial_train, bind. destruct (b =? 0)%nat; cbn [raise ret]; auto.
      assert (J : forall bs (s : inq R), Inv s -> Inv (snd (iterM (fun batch (s0 : inq R) => match gets (fun s => s) s0 with (Ok a, s') => match lift (iq_train p (nofZ 1) (iq_rho a) batch) s' with (Ok a0, s'0) => modify (fun s1 => mkInq (Some a0) (iq_num s1) (iq_cache s1)) s'0 | (Raise e0, s'0) => (Raise e0, s'0) end | (Raise e0, s') => (Raise e0, s') end) bs s))).
      { induction bs as [|a bs IH]; intros s0 I0; cbn [iterM]; auto. unfold bind at 1, gets, lift. destruct (iq_train p (nofZ 1) (iq_rho s0) a) eqn:Et; cbn [modify]; auto. apply IH. destruct I0 as [E0 C0]. split; auto. cbn [iq_rho]. rewrite E0 in Et. unfold iq_train in Et. destruct (res_map (rff_call p) a); [|discriminate]. cbn [rbind npmap] in Et. inversion Et. destruct (npmap _ _); reflexivity. }
      specialize (J (iq_batches b r) s I). destruct (iterM _ _ s) as [[u|ex] s2]; cbn [snd] in *; auto.
    - intros _ s r I. unfold exec, iq_predict, bind, gets. destruct (find _ _) as [[k [rho n]]|]; [exact I|]. destruct (b =? 0)%nat; cbn [ret raise]; auto. destruct (iq_rho s) as [rho|] eqn:Er; cbn [raise]; auto. unfold lift. destruct (iq_predict_with p rho (iq_num s) r); auto. destruct I as [E0 C0]. unfold modify. cbn [ret snd]. split; auto. cbn [iq_cache]. apply Forall_app. split; auto. constructor; auto. cbn. rewrite Er in E0. inversion E0. auto. }
  assert (K : forall n, iq_predict_with p NonFin n r = Ok v -> v = VNone \/ exists k, v = VArray (repeat NonFin k)).
  { intros n E. unfold iq_predict_with in E. destruct (res_map (rff_call p) r) as [us|]; [|discriminate]. cbn [rbind npmap] in E. inversion E. destruct us as [|u us]; auto. right. exists (length (u :: us)). f_equal. rewrite (map_ext _ (fun _ => NonFin)) by (intros []; reflexivity). clear. induction (u :: us) as [|a l IH]; auto. cbn. rewrite IH. reflexivity. }
  unfold eval. cbn [md_score Inqmad plain_model]. unfold iq_predict, bind, gets. destruct I as [E0 C0]. destruct (find _ _) as [[k [rho n]]|] eqn:Fd.
  - apply find_some in Fd. destruct Fd as [Fd _]. rewrite Forall_forall in C0. specialize (C0 _ Fd). cbn in C0. subst rho. intros E. apply (K n). exact E.
  - destruct (Nat.eqb_spec b 0); [lia|]. cbn [ret]. rewrite E0. unfold lift. destruct (iq_predict_with p NonFin (iq_num (model_run M s h)) r) eqn:Ep; [|discriminate]. intros E. apply (K (iq_num (model_run M s h))). rewrite Ep. unfold modify in E. cbn in E. exact E.
Qed.
(** The score is a similarity, not an anomaly score: no instance scores higher than the one just learned, and an
    instance with orthogonal features scores 0. *)
Theorem C88_highest_for_learned_instance : forall xs l ul, Forall (fun x => exists u, feature_of p x u) xs -> feature_of p l ul ->
  let s := model_run M Inq_init (fits (xs ++ [l])) in let n := INR (length (xs ++ [l])) in
  eval (md_score M [l]) s = Ok (VArray [FinV (1 / n ^ 2)]) /\
  (forall x u, feature_of p x u -> exists r, eval (md_score M [x]) s = Ok (VArray [FinV r]) /\ 0 <= r <= 1 / n ^ 2) /\
  (forall x u, feature_of p x u -> inner u ul = 0 -> eval (md_score M [x]) s = Ok (VArray [FinV 0])).
Proof.
  intros xs l ul F Hl s n. assert (P : 0 < n ^ 2). { apply pow_lt. unfold n. apply lt_0_INR. rewrite app_length. cbn. lia. } assert (P1 : 0 < / n ^ 2) by (apply Rinv_0_lt_compat; auto). split; [|split].
  - unfold s. rewrite (C80_only_last_instance xs l ul l ul F Hl Hl), (feature_unit _ _ _ Hl). unfold n, Rdiv. do 4 f_equal. ring.
  - intros x u Hx. exists (inner u ul ^ 2 / n ^ 2). split; [apply C80_only_last_instance; auto|]. assert (CS : inner u ul ^ 2 <= 1). { pose proof (cauchy_schwarz u ul) as CS. rewrite (feature_length _ _ _ Hl), (feature_length _ _ _ Hx) in CS. specialize (CS eq_refl). change (cosum u ul) with (inner u ul) in CS. change (cosum u u) with (inner u u) in CS. change (cosum ul ul) with (inner ul ul) in CS. rewrite (feature_unit _ _ _ Hl), (feature_unit _ _ _ Hx) in CS. lra. } pose proof (pow2_ge_0 (inner u ul)). unfold Rdiv. split; [apply Rmult_le_pos; lra|]. apply Rmult_le_compat_r; lra.
  - intros x u Hx E. unfold s. rewrite (C80_only_last_instance xs l ul x u F Hl Hx), E. unfold Rdiv. do 4 f_equal. ring.
Qed.
End Inq.
Print Assumptions C80_only_last_instance.
Print Assumptions C80_only_last_batch.
Print Assumptions C80_frozen_after_first_score.
Print Assumptions C80_nan_for_ever.
Print Assumptions C88_highest_for_learned_instance.

(** ** Concrete detectors: one feature, two random Fourier features cos(x) and cos(x + pi/2) *)
Definition ex_rff : rffpar R := mkRff 1 2 [[1]; [1]] [0; PI / 2] cos.
Lemma ex_feature : forall x c d, cos x = c -> cos (x + PI / 2) = d -> c * c + d * d = 1 -> feature_of ex_rff [x] [c; d].
Proof.
  intros x c d Ec Ed E1. unfold feature_of, rff_call, rff_compute, ex_rff. cbn [rf_input rf_dim rf_weights rf_offset rf_cos length Nat.eqb rbind]. unfold map2, dot, map2. cbn [combine map fst snd]. rewrite !Prop_XStream.nsum_Rsum. cbn [map nadd nmul ndiv nsqrt nofZ NumR]. rewrite !Prop_RSHash.Rsum_cons, Prop_RSHash.Rsum_nil.
  replace (x * 1 + 0 + 0) with x by ring. replace (x * 1 + 0 + PI / 2) with (x + PI / 2) by ring. rewrite Ec, Ed. assert (S2 : 0 < sqrt 2) by (apply sqrt_lt_R0; lra). replace (sqrt 2 / sqrt 2) with 1 by (field; lra). unfold nsq. cbn [nmul NumR].
  replace (sqrt (c * 1 * (c * 1) + (d * 1 * (d * 1) + 0))) with 1. 2: { replace (c * 1 * (c * 1) + (d * 1 * (d * 1) + 0)) with 1 by lra. symmetry. apply sqrt_1. }
  cbn [oeqb num_ord NumR OrdR n0]. destruct (Reqb 1 0) eqn:Q; [apply Reqb_eq in Q; lra|]. do 2 f_equal. unfold Rdiv. rewrite Rinv_1. f_equal; [ring|]. f_equal. ring.
Qed.
Lemma ex_feature_0 : feature_of ex_rff [0] [1; 0].
Proof. apply ex_feature; [apply cos_0|rewrite Rplus_0_l; apply cos_PI2|lra]. Qed.
Lemma ex_feature_1 : feature_of ex_rff [PI / 2] [0; -1].
Proof. apply ex_feature; [apply cos_PI2| |lra]. replace (PI / 2 + PI / 2) with PI by field. apply cos_PI. Qed.
(** Two arrays with batches of two rows: of the second array, three rows long, only the third row counts. *)
Example C80_ex_batches : forall Y, eval (md_score (Inqmad (Y := Y) ex_rff 2) [[PI / 2]]) (model_run (Inqmad (Y := Y) ex_rff 2) Inq_init (fit_arrays Y [[[0]]; [[0]; [0]; [PI / 2]]])) = Ok (VArray [FinV (1 / 4 ^ 2)]).
Proof.
  intros Y. pose proof (C80_only_last_batch Y ex_rff 2 ltac:(lia) [[[0]]] [[0]; [0]; [PI / 2]] [[0; -1]] [PI / 2] [0; -1]) as T. cbn [app] in T. rewrite T; clear T.
  - unfold inner, map2. cbn [combine map fst snd length seq nth app concat INR]. rewrite ?Prop_RSHash.Rsum_cons, ?Prop_RSHash.Rsum_nil. do 4 f_equal. field.
  - repeat constructor. exists [1; 0]. apply ex_feature_0.
  - repeat constructor; eauto using ex_feature_0, ex_feature_1.
  - discriminate.
  - unfold last_batch. cbn. repeat constructor. apply ex_feature_1.
  - apply ex_feature_1.
Qed.
(** The score is not the documented one, even for two training instances. *)
Theorem C80_accumulates_refuted : exists (p : rffpar R) a b x ua ub u, feature_of p a ua /\ feature_of p b ub /\ feature_of p x u /\
  forall Y batch, (1 <= batch)%nat -> exists r, eval (md_score (Inqmad (Y := Y) p batch) [x]) (model_run (Inqmad (Y := Y) p batch) Inq_init (fits Y [a; b])) = Ok (VArray [FinV r]) /\ r <> density_score [ua; ub] u.
Proof.
  exists ex_rff, [0], [PI / 2], [0], [1; 0], [0; -1], [1; 0]. split; [apply ex_feature_0|]. split; [apply ex_feature_1|]. split; [apply ex_feature_0|]. intros Y batch H. eexists. split.
  - apply (C80_only_last_instance Y ex_rff batch H [[0]] [PI / 2] [0; -1] [0] [1; 0]); [constructor; [exists [1; 0]; apply ex_feature_0|constructor]|apply ex_feature_1|apply ex_feature_0].
  - unfold inner, map2, density_score, mean_density, mean, Rlen. cbn [combine map fst snd length seq nth app INR]. rewrite ?Prop_RSHash.Rsum_cons, ?Prop_RSHash.Rsum_nil. intros Q. field_simplify in Q. lra.
Qed.
Print Assumptions C80_accumulates_refuted.
(** A score between two fits changes what the second fit teaches. *)
Theorem C80_scores_do_not_matter_refuted : exists (p : rffpar R) a b x, forall Y batch, (1 <= batch)%nat ->
  let M := Inqmad (Y := Y) p batch in
  eval (md_score M x) (model_run M Inq_init [CFit a None; CScore x; CFit b None]) <> eval (md_score M x) (model_run M Inq_init [CFit a None; CFit b None]).
Proof.
  exists ex_rff, [[0]], [[PI / 2]], [[0]]. intros Y batch H M.
  assert (E1 : eval (md_score M [[0]]) (model_run M Inq_init [CFit [[0]] None]) = Ok (VArray [FinV ((inner [1; 0] [1; 0]) ^ 2 / INR (length ([] ++ [[0]])) ^ 2)])). { apply (C80_only_last_instance Y ex_rff batch H [] [0] [1; 0] [0] [1; 0]); auto using ex_feature_0. }
  assert (E2 : eval (md_score M [[0]]) (model_run M Inq_init [CFit [[0]] None; CFit [[PI / 2]] None]) = Ok (VArray [FinV ((inner [1; 0] [0; -1]) ^ 2 / INR (length ([[0]] ++ [[PI / 2]])) ^ 2)])). { apply (C80_only_last_instance Y ex_rff batch H [[0]] [PI / 2] [0; -1] [0] [1; 0]); auto using ex_feature_0, ex_feature_1. constructor; [exists [1; 0]; apply ex_feature_0|constructor]. }
  rewrite E2. pose proof (C80_frozen_after_first_score Y ex_rff batch H [CFit [[0]] None] [[0]] _ [CFit [[PI / 2]] None] [[0]] E1 eq_refl) as Fz. fold M in Fz.
  assert (ER : model_run M Inq_init [CFit [[0]] None; CScore [[0]]; CFit [[PI / 2]] None] = model_run M (exec (md_score M [[0]]) (model_run M Inq_init [CFit [[0]] None])) [CFit [[PI / 2]] None]).
  { unfold model_run. cbn [fold_left]. f_equal. unfold model_do at 1. unfold exec at 1. cbn [model_call]. unfold exec. destruct (md_score M [[0]] _); reflexivity. }
  rewrite ER, Fz, E1. intros Q. inversion Q as [Q1]. unfold inner, map2 in Q1. cbn [combine map fst snd length app INR] in Q1. rewrite ?Prop_RSHash.Rsum_cons, ?Prop_RSHash.Rsum_nil in Q1. field_simplify in Q1. lra.
Qed.
Print Assumptions C80_scores_do_not_matter_refuted.
(** With one random feature, cos(x), the instance pi/2 has no finite feature vector. *)
Example C80_ex_nan : rff_call (mkRff 1 1 [[1]] [0] cos) [PI / 2] = Ok NonFin.
Proof.
  unfold rff_call, rff_compute. cbn [rf_input rf_dim rf_weights rf_offset rf_cos length Nat.eqb rbind]. unfold map2, dot, map2. cbn [combine map fst snd]. rewrite !Prop_XStream.nsum_Rsum. cbn [map nadd nmul ndiv nsqrt nofZ NumR]. rewrite !Prop_RSHash.Rsum_cons, Prop_RSHash.Rsum_nil. replace (PI / 2 * 1 + 0 + 0) with (PI / 2) by ring. rewrite cos_PI2. unfold nsq. cbn [nmul NumR].
  match goal with |- context [sqrt (?a * ?a + 0)] => replace (a * a + 0) with 0 by ring end. rewrite sqrt_0. cbn [oeqb num_ord NumR OrdR n0]. destruct (Reqb 0 0) eqn:Q; auto. apply Reqb_neq in Q. congruence.
Qed.
