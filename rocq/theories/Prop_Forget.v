(** * C92: detectors with a window forget what is older than a fixed number of instances. *)
From Coq Require Import String.
From Coq Require Import List ZArith Lia Bool Arith Floats Reals Lra.
From Verif Require Import Base Num Spec Model_Stats Model_Utils Model_Core Model_Post Model_Trans Model_Simple Model_Integrations Model_HST Model_Sketch Model_XStream Model_SESD P_Models P_Stats P_Lists P_Utils Prop_Utils Prop_Trans Prop_Simple Prop_HST Prop_XStream Prop_Integrations Prop_SESD.
Import ListNotations.
Open Scope nat_scope.
Local Notation length := List.length.

(** ** Specification *)
(** Two streams agree on their last n elements. *)
Definition agree {X} (n : nat) (xs ys : list X) : Prop := lastn n xs = lastn n ys.
(** They are in the same phase with respect to windows of W elements. *)
Definition in_phase {X} (W : nat) (xs ys : list X) : Prop := length xs mod W = length ys mod W.

(** ** Lemmas *)
Lemma agree_le : forall X n m (xs ys : list X), n <= m -> agree m xs ys -> agree n xs ys.
Proof. intros X n m xs ys H E. unfold agree in *. rewrite <- (lastn_lastn _ n m xs), <- (lastn_lastn _ n m ys) by auto. congruence. Qed.
Lemma agree_map : forall X Z (f : X -> Z) n xs ys, agree n xs ys -> agree n (map f xs) (map f ys).
Proof. intros X Z f n xs ys E. unfold agree in *. rewrite !lastn_map. congruence. Qed.
Lemma block_of_lastn : forall X W j (xs : list X), 1 <= W -> 1 <= j -> j <= length xs / W ->
  block W (length xs / W - j) xs = firstn W (lastn (j * W + length xs mod W) xs).
Proof.
  intros X W j xs HW Hj Hq. unfold block, lastn. f_equal. f_equal. pose proof (Nat.div_mod (length xs) W ltac:(lia)). set (q := length xs / W) in *. nia.
Qed.
Lemma agree_block : forall X W j (xs ys : list X), 1 <= W -> 1 <= j -> j <= length xs / W -> j <= length ys / W -> in_phase W xs ys -> agree (S j * W - 1) xs ys ->
  block W (length xs / W - j) xs = block W (length ys / W - j) ys.
Proof.
  intros X W j xs ys HW Hj H1 H2 P E. rewrite !block_of_lastn by auto. f_equal. rewrite <- P. apply (agree_le _ _ (S j * W - 1)); auto. pose proof (Nat.mod_upper_bound (length xs) W ltac:(lia)). nia.
Qed.
Lemma block_map : forall X Z (f : X -> Z) W q xs, block W q (map f xs) = map f (block W q xs).
Proof. intros. unfold block. rewrite skipn_map, firstn_map. reflexivity. Qed.

(** ** ExactStorm: the last window_size instances decide everything, whatever the lengths of the histories. *)
Theorem C92_exact_storm : forall Y radius w (h1 h2 : list (mcall (list R) Y)), agree (Z.to_nat w) (fitted_instances h1) (fitted_instances h2) ->
  forall c, eval (model_call (ExactStorm radius) c) (model_run (ExactStorm radius) (Window_init w) h1) = eval (model_call (ExactStorm radius) c) (model_run (ExactStorm radius) (Window_init w) h2).
Proof.
  intros Y radius w h1 h2 E c. destruct (storm_run Y radius w h1) as [A1 A2], (storm_run Y radius w h2) as [B1 B2].
  assert (S : model_run (ExactStorm (Y := Y) radius) (Window_init w) h1 = model_run (ExactStorm radius) (Window_init w) h2).
  { destruct (model_run _ _ h1) as [a1 a2], (model_run _ _ h2) as [b1 b2]. cbn [wd_size wd_items] in *. unfold agree in E. subst. congruence. }
  rewrite S. reflexivity.
Qed.
Print Assumptions C92_exact_storm.
(** ** SeasonalESD: likewise, for the values that were accepted. *)
Theorem C92_seasonal_esd : forall Y eps cs ppf stl period w m alpha s0 (h1 h2 : list (mcall (list R) Y)), SESD_init period w m alpha = Ok s0 -> agree (Z.to_nat w) (se_stored h1) (se_stored h2) ->
  forall c, let m := SeasonalESD eps cs ppf stl in eval (model_call m c) (model_run m s0 h1) = eval (model_call m c) (model_run m s0 h2).
Proof.
  intros Y eps cs ppf stl period w m alpha s0 h1 h2 E A c mm. destruct (se_run Y eps cs ppf stl _ _ _ _ _ h1 E) as (A1 & A2 & A3 & A4 & A5 & A6), (se_run Y eps cs ppf stl _ _ _ _ _ h2 E) as (B1 & B2 & B3 & B4 & B5 & B6).
  assert (S : model_run mm s0 h1 = model_run mm s0 h2).
  { subst mm. destruct (model_run _ _ h1) as [a1 a2 a3 a4 [a5 a6]], (model_run _ _ h2) as [b1 b2 b3 b4 [b5 b6]]. cbn [se_period se_wsize se_max se_alpha se_window wd_size wd_items] in *. unfold agree in A. subst. congruence. }
  rewrite S. reflexivity.
Qed.
Print Assumptions C92_seasonal_esd.

(** ** HalfSpaceTrees *)
Lemma counted_eq : forall A (NA : Num A) (t t' : hst A) cur ref, skeleton t = skeleton t' -> counted t cur ref -> counted t' cur ref -> t = t'.
Proof.
  intros A NA. induction t as [|L IHL R' IHR r l q p k]; intros [|L' R'' r' l' q' p' k'] cur ref E C C'; cbn [skeleton counted] in *; try discriminate; auto.
  injection E as E1 E2 -> -> ->. destruct C as (-> & -> & C1 & C2), C' as (-> & -> & C1' & C2'). rewrite (IHL _ _ _ E1 C1 C1'), (IHR _ _ _ E2 C2 C2'). reflexivity.
Qed.
(** Once both histories have filled a window, in phase, the last 2 window_size - 1 instances decide every score; any number
    type, floating point included. *)
Theorem C92_half_space_trees : forall A Y (NA : Num A) cast draw mins maxes W T D (h1 h2 : list (mcall (list A) Y)) s0, let dim := length maxes in
  length mins = dim -> 1 <= dim -> (forall i, draw i < dim) -> 1 <= W -> HST_init (Y := Y) cast draw mins maxes W T D IWNone = Ok s0 ->
  let xs := fitted_instances h1 in let ys := fitted_instances h2 in
  Forall (fun x => dim <= length x) xs -> Forall (fun x => dim <= length x) ys ->
  W <= length xs -> W <= length ys -> in_phase W xs ys -> agree (2 * W - 1) xs ys ->
  forall x, eval (md_score (HalfSpaceTrees (Y := Y) W D) x) (model_run (HalfSpaceTrees W D) s0 h1) = eval (md_score (HalfSpaceTrees (Y := Y) W D) x) (model_run (HalfSpaceTrees W D) s0 h2).
Proof.
  intros A Y NA cast draw mins maxes W T D h1 h2 s0 dim HL Hd Hq HW E xs ys F1 F2 L1 L2 P Ag x.
  destruct (C53_masses A Y NA cast draw mins maxes W T D h1 HL Hd Hq HW F1) as (s1 & E1 & _ & M1 & _). destruct (C53_masses A Y NA cast draw mins maxes W T D h2 HL Hd Hq HW F2) as (s2 & E2 & _ & M2 & _). rewrite E in E1, E2. injection E1 as <-. injection E2 as <-.
  fold xs in M1. fold ys in M2. cbv zeta in M1, M2. destruct (Nat.ltb_spec (length xs) W); [lia|]. destruct (Nat.ltb_spec (length ys) W); [lia|].
  assert (B : block W (length xs / W - 1) xs = block W (length ys / W - 1) ys).
  { apply agree_block; auto; apply Nat.div_le_lower_bound; lia. }
  assert (C : lastn (length xs mod W) xs = lastn (length ys mod W) ys).
  { rewrite <- P. apply (agree_le _ _ (2 * W - 1)); auto. pose proof (Nat.mod_upper_bound (length xs) W ltac:(lia)). lia. }
  rewrite B, C in M1. set (sa := model_run (HalfSpaceTrees W D) s0 h1) in *. set (sb := model_run (HalfSpaceTrees W D) s0 h2) in *. clearbody sa sb.
  assert (R : hs_roots sa = hs_roots sb).
  { revert M1 M2. generalize (hs_roots s0) (hs_roots sa) (hs_roots sb). clear. intros l la lb M1. revert lb. induction M1 as [|t0 t l la (Q1 & Q2 & Q3) M1 IH]; intros lb M2; inversion M2 as [|? t' ? lb' (Q1' & Q2' & Q3') M2']; subst; auto. f_equal; [eapply counted_eq; eauto; congruence|apply IH; auto]. }
  unfold eval. cbn [md_score HalfSpaceTrees plain_model]. unfold bind, gets, lift. rewrite R. destruct (res_map _ _); reflexivity.
Qed.
Print Assumptions C92_half_space_trees.

(** ** ReferenceWindowModel (and IForestASD, LODA-like wrappers): the last window_size + sliding_size - 1 instances. *)
Lemma training_gap : forall due m k, (forall i, m < i <= m + k -> due i = false) -> training_steps due (m + k) = training_steps due m.
Proof.
  intros due m k. induction k as [|k IH]; intros H; [rewrite Nat.add_0_r; reflexivity|]. rewrite Nat.add_succ_r, training_steps_S, H by lia. rewrite app_nil_r. apply IH. intros i Hi. apply H. lia.
Qed.
Lemma last_training : forall due n m, 1 <= m -> m <= n -> due m = true -> (forall i, m < i <= n -> due i = false) -> last (training_steps due n) 0 = m /\ training_steps due n <> [].
Proof.
  intros due n m H1 H2 D G. replace n with (m + (n - m)) by lia. rewrite training_gap by (intros i Hi; apply G; lia). destruct m as [|m]; [lia|]. rewrite training_steps_S, D. split; [apply last_last|]. intros Q. apply app_eq_nil in Q. destruct Q. discriminate.
Qed.
Lemma no_multiple_above : forall sl n i, 1 <= sl -> n - n mod sl < i <= n -> i mod sl <> 0.
Proof.
  intros sl n i Hs Hi Q. pose proof (Nat.div_mod n sl ltac:(lia)) as E1. pose proof (Nat.div_mod i sl ltac:(lia)) as E2. pose proof (Nat.mod_upper_bound n sl ltac:(lia)). rewrite Q in E2. set (r := n mod sl) in *. set (a := n / sl) in *. set (b := i / sl) in *. clearbody a b r.
  assert (sl * a < sl * b) by lia. assert (a < b) by (apply (Nat.mul_lt_mono_pos_l sl); lia). assert (sl * S a <= sl * b) by (apply Nat.mul_le_mono_l; lia). lia.
Qed.
Lemma multiple_below : forall sl n, 1 <= sl -> (n - n mod sl) mod sl = 0.
Proof. intros sl n Hs. pose proof (Nat.div_mod n sl ltac:(lia)). replace (n - n mod sl) with (n / sl * sl) by lia. apply Nat.mod_mul. lia. Qed.
Lemma training_set : forall P W sl (ps qs : list P), 1 <= sl -> W + sl - 1 <= length ps -> W + sl - 1 <= length qs -> in_phase sl ps qs -> agree (W + sl - 1) ps qs ->
  lastn W (firstn (length ps - length ps mod sl) ps) = lastn W (firstn (length qs - length qs mod sl) qs).
Proof.
  assert (G : forall P W sl (ps : list P), 1 <= sl -> W + sl - 1 <= length ps -> lastn W (firstn (length ps - length ps mod sl) ps) = firstn W (lastn (W + length ps mod sl) ps)).
  { intros P W sl ps Hs L. pose proof (Nat.mod_upper_bound (length ps) sl ltac:(lia)) as B. set (r := length ps mod sl) in *. unfold lastn. rewrite firstn_length, firstn_skipn_comm. replace (Nat.min (length ps - r) (length ps) - W) with (length ps - (W + r)) by lia. f_equal. f_equal. lia. }
  intros P W sl ps qs Hs L1 L2 Ph E. rewrite !G by auto. f_equal. rewrite <- Ph. apply (agree_le _ _ (W + sl - 1)); auto. pose proof (Nat.mod_upper_bound (length ps) sl ltac:(lia)). lia.
Qed.
(** Started without an initial window; the detector class is deterministic. *)
Theorem C92_reference_window_cold : forall X Y A (d : Detector X Y A) W sl lab y0 (h1 h2 : list (mcall X Y)) ps qs, 2 <= W -> 1 <= sl -> (forall k, dt_new d k = dt_new d 0) ->
  stream_of lab ps h1 -> stream_of lab qs h2 -> W + sl - 1 <= length ps -> W + sl - 1 <= length qs -> in_phase sl ps qs -> agree (W + sl - 1) ps qs ->
  forall x, let m := ReferenceWindowModel d W sl in let s0 := snd (RW_init d None y0) in
  eval (md_score m x) (model_run m s0 h1) = eval (md_score m x) (model_run m s0 h2).
Proof.
  intros X Y A d W sl lab y0 h1 h2 ps qs HW Hs Dn S1 S2 L1 L2 Ph Ag x m s0. unfold m, s0. rewrite (C57_cold_start_schedule X Y A d W sl lab y0 h1 ps x HW Hs S1), (C57_cold_start_schedule X Y A d W sl lab y0 h2 qs x HW Hs S2).
  assert (G : forall rs : list (X * Y), W + sl - 1 <= length rs -> last (training_steps (due_cold W sl) (length rs)) 0 = length rs - length rs mod sl /\ training_steps (due_cold W sl) (length rs) <> []).
  { intros rs L. pose proof (Nat.mod_upper_bound (length rs) sl ltac:(lia)). apply last_training; try lia.
    - unfold due_cold. rewrite multiple_below by auto. rewrite orb_true_r. reflexivity.
    - intros i Hi. unfold due_cold. destruct (Nat.ltb_spec i W); [lia|]. cbn [orb]. apply Nat.eqb_neq. apply (no_multiple_above sl (length rs)); auto. }
  destruct (G ps L1) as [E1 N1], (G qs L2) as [E2 N2]. destruct (training_steps _ (length ps)) as [|a T1]; [congruence|]. destruct (training_steps _ (length qs)) as [|b T2]; [congruence|]. cbv zeta. rewrite E1, E2, (training_set _ W sl ps qs) by auto. unfold trained_score. rewrite !(Dn (_ - 1)). reflexivity.
Qed.
Print Assumptions C92_reference_window_cold.
(** Started with initial windows, which may differ. *)
Theorem C92_reference_window_warm : forall X Y A (d : Detector X Y A) W sl lab i1 i2 (h1 h2 : list (mcall X Y)) ps qs, 1 <= W -> 1 <= sl -> (forall k, dt_new d k = dt_new d 0) ->
  stream_of lab ps h1 -> stream_of lab qs h2 -> W + sl - 1 <= length ps -> W + sl - 1 <= length qs -> in_phase sl ps qs -> agree (W + sl - 1) ps qs ->
  forall x, let m := ReferenceWindowModel d W sl in let start := fun i => snd (RW_init d (Some (map fst i)) (labels_of lab i)) in
  eval (md_score m x) (model_run m (start i1) h1) = eval (md_score m x) (model_run m (start i2) h2).
Proof.
  intros X Y A d W sl lab i1 i2 h1 h2 ps qs HW Hs Dn S1 S2 L1 L2 Ph Ag x m start. unfold m, start. rewrite (C57_warm_start_schedule X Y A d W sl lab i1 h1 ps x Hs S1), (C57_warm_start_schedule X Y A d W sl lab i2 h2 qs x Hs S2).
  assert (G : forall rs : list (X * Y), W + sl - 1 <= length rs -> (last (training_steps (due_warm sl) (length rs)) 0 = length rs - length rs mod sl /\ training_steps (due_warm sl) (length rs) <> []) /\ W <= length (firstn (length rs - length rs mod sl) rs)).
  { intros rs L. pose proof (Nat.mod_upper_bound (length rs) sl ltac:(lia)). split; [|rewrite firstn_length; lia]. apply last_training; try lia.
    - unfold due_warm. rewrite multiple_below by auto. reflexivity.
    - intros i Hi. unfold due_warm. apply Nat.eqb_neq. apply (no_multiple_above sl (length rs)); auto. }
  destruct (G ps L1) as [[E1 N1] K1], (G qs L2) as [[E2 N2] K2]. destruct (training_steps _ (length ps)) as [|a T1]; [congruence|]. destruct (training_steps _ (length qs)) as [|b T2]; [congruence|]. cbv zeta. rewrite E1, E2, !lastn_app_ge by auto. rewrite (training_set _ W sl ps qs) by auto. unfold trained_score. rewrite (Dn (length (a :: T1))), (Dn (length (b :: T2))). reflexivity.
Qed.
Print Assumptions C92_reference_window_warm.

(** ** xStream: the last 3 window_size - 1 instances, once two windows are complete (the newest ranges, the ranges used to
    fill the reference window, and the reference window itself). *)
Lemma half_ranges_unique : forall K w d d', half_ranges K w d -> half_ranges K w d' -> d = d'.
Proof.
  intros K w d d' [L H] [L' H']. apply (nth_ext _ _ 0%R 0%R); [congruence|]. intros j Hj. rewrite L in Hj. destruct (H j Hj) as (mn & mx & A1 & A2 & ->), (H' j Hj) as (mn' & mx' & B1 & B2 & ->).
  assert (mn = mn') as -> by (destruct A1 as [I1 Q1], B1 as [I2 Q2]; specialize (Q1 _ I2); specialize (Q2 _ I1); lra). assert (mx = mx') as -> by (destruct A2 as [I1 Q1], B2 as [I2 Q2]; specialize (Q1 _ I2); specialize (Q2 _ I1); lra). reflexivity.
Qed.
Lemma projects_list : forall mmh3 p P xs zs, (forall x, projects mmh3 p x (P x)) -> Forall2 (projects mmh3 p) xs zs -> zs = map P xs.
Proof. intros mmh3 p P xs zs HP F. induction F as [|x z xs zs H F IH]; auto. cbn [map]. f_equal; auto. eapply projects_unique; eauto. Qed.
Theorem C92_xstream : forall Y mmh3 n density p floor W draws (h1 h2 : list (mcall (list R) Y)), (1 <= n)%Z -> Streamhash_init 1%R n density = Ok p -> 1 <= W ->
  let K := Z.to_nat n in let m := XStream mmh3 p floor K W in let xs := fitted_instances h1 in let ys := fitted_instances h2 in chain_draws K draws ->
  2 * W <= length xs -> 2 * W <= length ys -> in_phase W xs ys -> agree (3 * W - 1) xs ys ->
  forall x, eval (md_score m x) (model_run m (xstream_new K draws) h1) = eval (md_score m x) (model_run m (xstream_new K draws) h2).
Proof.
  intros Y mmh3 n density p floor W draws h1 h2 Hn E HW K m xs ys CD L1 L2 Ph Ag x. destruct (project_total mmh3 n density p Hn E) as (P & _ & _ & HP).
  destruct (C75_score Y mmh3 n density p floor W draws h1 x Hn E HW CD) as (za & z & dr & de & mi & F1 & F2 & R1 & R2 & M1 & S1 & _).
  destruct (C75_score Y mmh3 n density p floor W draws h2 x Hn E HW CD) as (zb & z' & dr' & de' & mi' & F1' & F2' & R1' & R2' & M1' & S1' & _).
  rewrite (projects_unique _ _ _ _ _ F2' F2) in *. rewrite (projects_list _ _ _ _ _ HP F1) in *. rewrite (projects_list _ _ _ _ _ HP F1') in *. fold xs in R1, R2, M1. fold ys in R1', R2', M1'.
  assert (D1 : 2 <= length xs / W) by (apply Nat.div_le_lower_bound; lia). assert (D2 : 2 <= length ys / W) by (apply Nat.div_le_lower_bound; lia).
  assert (B : forall j, 1 <= j -> j <= 2 -> block W (length xs / W - j) (map P xs) = block W (length ys / W - j) (map P ys)).
  { intros j J1 J2. rewrite !block_map. f_equal. apply agree_block; auto; try lia. apply (agree_le _ _ (3 * W - 1)); auto. nia. }
  assert (E1 : dr = dr').
  { replace (length xs / W - 1) with (S (length xs / W - 2)) in R1 by lia. replace (length ys / W - 1) with (S (length ys / W - 2)) in R1' by lia. cbn [ranges_after] in *. rewrite (B 2) in R1 by lia. eapply half_ranges_unique; eauto. }
  assert (E2 : de = de').
  { replace (length xs / W) with (S (length xs / W - 1)) in R2 by lia. replace (length ys / W) with (S (length ys / W - 1)) in R2' by lia. cbn [ranges_after] in *. rewrite (B 1) in R2 by lia. eapply half_ranges_unique; eauto. }
  subst dr' de'. destruct (Nat.ltb_spec (length xs) W); [lia|]. destruct (Nat.ltb_spec (length ys) W); [lia|]. rewrite (B 1) in M1 by lia.
  assert (E3 : mi = mi').
  { clear - M1 M1'. revert mi' M1'. induction M1 as [|d v ds vs H M1 IH]; intros vs' M'; inversion M' as [|? v' ? vs'' H' M'']; subst; auto. f_equal; auto. destruct H as [I1 Q1], H' as [I2 Q2]. specialize (Q1 _ I2). specialize (Q2 _ I1). lra. }
  subst mi'. unfold eval, m, K. rewrite S1, S1'. reflexivity.
Qed.
Print Assumptions C92_xstream.

(** ** Concrete cases *)
(** Two different histories of lengths 5 and 7 that agree on their last 3 instances: half-space trees with window 2 give the
    same scores (binary64). *)
Definition fit_all {A} (xs : list (list A)) : list (mcall (list A) unit) := map (fun x => CFit x None) xs.
Definition hist_a : list (list float) := [[0.5]; [0.9]; [0.1]; [0.2]; [0.7]]%float.
Definition hist_b : list (list float) := [[0.3]; [0.3]; [0.8]; [0.6]; [0.1]; [0.2]; [0.7]]%float.
Definition hst_scores (xs : list (list float)) : list (res (pyval float)) :=
  match HST_init (Y := unit) (fun a => a) (fun _ => 0) [0%float] [1%float] 2 3 2 IWNone with
  | Ok s0 => map (fun x => eval (md_score (HalfSpaceTrees (Y := unit) 2 2) x) (model_run (HalfSpaceTrees 2 2) s0 (fit_all xs))) [[0.1]; [0.9]]%float
  | Raise e => []
  end.
Example C92_ex_hst : hist_a <> hist_b /\ in_phase 2 hist_a hist_b /\ agree 3 hist_a hist_b /\
  hst_scores hist_a = hst_scores hist_b /\ hst_scores hist_b = [Ok (VScalar (-42)%float); Ok (VScalar (-6)%float)].
Proof. split; [discriminate|]. repeat split; vm_compute; reflexivity. Qed.
(** ExactStorm with a window of 3, on the same histories. *)
Example C92_ex_storm : map (fun h => eval (md_score (ExactStorm 0.15%float) [0.1%float]) (model_run (ExactStorm (Y := unit) 0.15%float) (Window_init 3) (fit_all h))) [hist_a; hist_b] = repeat (Ok (VScalar 1%float)) 2.
Proof. vm_compute. reflexivity. Qed.
(** A detector that sums its training instances; W = 2, retrained at every second instance. *)
Definition sum_detector : Detector Z bool Z := mkDetector Z bool Z Z (fun _ => 0%Z) (fun xs _ _ => (Ok tt, fold_right Z.add 0%Z xs)) (fun x s => Ok (x + s)%Z).
Example C92_ex_rw : map (fun h => eval (md_score (ReferenceWindowModel sum_detector 2 2) 0%Z) (model_run (ReferenceWindowModel sum_detector 2 2) (snd (RW_init sum_detector None None)) (map (fun x => CFit x None) h))) [[1; 2; 30; 40; 50]; [7; 30; 40]; [9; 9; 9; 9; 30; 40; 50]; [1; 2; 30; 4; 50]]%Z
  = [Ok (VScalar 70); Ok (VScalar 37); Ok (VScalar 70); Ok (VScalar 34)]%Z.
Proof. reflexivity. Qed.
