(** * C125: RelativeEntropy in terms of its constructor arguments and the values of the stream (exact arithmetic). *)
From Coq Require Import List ZArith Lia Bool Reals Lra Permutation Arith.
From Verif Require Import Base Num Spec Model_Stats Model_Utils Model_Core Model_Simple Model_Sketch P_Lists P_Stats P_Utils P_Core P_Post P_Models Prop_Sketch Prop_Sketch2.
Import ListNotations.
Open Scope R_scope.

(** ** Specification *)
(** math.ceil *)
Definition Rceil (r : R) : Z := (- Int_part (- r))%Z.
(** The width of a slice of [lo, hi]; a value counts if it is above lo by more than minus one slice and not above hi. *)
Definition slice (lo hi : R) (N : nat) : R := (hi - lo) / INR N.
Definition counted (lo hi : R) (N : nat) (v : R) : bool := Rltb (lo - slice lo hi N) v && Rleb v hi.
(** Bin i < N - 1 is the slice that ends at lo + i slices (so bin 0 lies below lo); the last bin has the last two slices. *)
Definition in_slot (lo hi : R) (N i : nat) (v : R) : bool :=
  Rltb (lo + (INR i - 1) * slice lo hi N) v && (Rleb v (lo + INR i * slice lo hi N) || (i + 1 =? N)%nat).
Definition slot_distribution (lo hi : R) (N : nat) (vs : list R) : option (list R) :=
  match filter (counted lo hi N) vs with [] => None | l => Some (map (fun i => fraction (in_slot lo hi N i) l) (seq 0 N)) end.

Lemma Rceil_spec : forall r z, Rceil r = z <-> IZR z - 1 < r <= IZR z.
Proof.
  intros r z. unfold Rceil. destruct (base_Int_part (- r)) as [H1 H2]. split.
  - intros <-. rewrite opp_IZR. lra.
  - intros [A B]. assert (E : (Int_part (- r) = - z)%Z); [|lia].
    assert (C1 : (Int_part (- r) < - z + 1)%Z) by (apply lt_IZR; rewrite plus_IZR, opp_IZR; lra).
    assert (C2 : (- z < Int_part (- r) + 1)%Z) by (apply lt_IZR; rewrite plus_IZR, opp_IZR; lra). lia.
Qed.
Lemma Rceil_le : forall r z, (Rceil r <= z)%Z <-> r <= IZR z.
Proof.
  intros r z. destruct (proj1 (Rceil_spec r (Rceil r)) eq_refl) as [A B]. split; intros H.
  - apply IZR_le in H. lra.
  - apply Z.lt_succ_r. apply lt_IZR. rewrite succ_IZR. lra.
Qed.
Lemma Rceil_gt : forall r z, (z < Rceil r)%Z <-> IZR z < r.
Proof. intros r z. pose proof (Rceil_le r z) as H. split; intros Q; [apply Rnot_le_lt; intros C; apply H in C; lia|apply Z.nle_gt; intros C; apply H in C; lra]. Qed.
Lemma step_value : forall lo hi N, (1 <= N)%nat -> RE_step lo hi N = Ok (slice lo hi N).
Proof. intros lo hi N HN. unfold RE_step, slice, pydiv. cbn [nofZ nsub ndiv n0 NumR oeqb num_ord OrdR]. rewrite INR_Zof_nat. destruct (Reqb (INR N) 0) eqn:Q; [|reflexivity]. apply Reqb_eq in Q. exfalso. revert Q. apply not_0_INR. lia. Qed.
Section Bins.
Variables (lo hi : R) (N : nat).
Hypothesis (HN : (1 <= N)%nat) (Hr : lo < hi).
Let w := slice lo hi N.
Lemma w_pos : 0 < w.
Proof. unfold w, slice. apply Rmult_lt_0_compat; [lra|]. apply Rinv_0_lt_compat, lt_0_INR. lia. Qed.
Lemma w_total : hi = lo + INR N * w.
Proof. unfold w, slice. field. apply not_0_INR. lia. Qed.
Lemma q_le : forall v z, (Rceil ((v - lo) / w) <= z)%Z <-> v <= lo + IZR z * w.
Proof.
  intros v z. rewrite Rceil_le. pose proof w_pos. split; intros Q.
  - apply (Rmult_le_compat_r w) in Q; [|lra]. replace ((v - lo) / w * w) with (v - lo) in Q by (field; lra). lra.
  - apply (Rmult_le_reg_r w); [lra|]. replace ((v - lo) / w * w) with (v - lo) by (field; lra). lra.
Qed.
Lemma q_gt : forall v z, (z < Rceil ((v - lo) / w))%Z <-> lo + IZR z * w < v.
Proof. intros v z. pose proof (q_le v z) as H. split; intros Q; [apply Rnot_le_lt; intros C; apply H in C; lia|apply Z.nle_gt; intros C; apply H in C; lra]. Qed.
Lemma counted_spec : forall v, in_range N (Rceil ((v - lo) / w)) = counted lo hi N v.
Proof.
  intros v. unfold in_range, counted. fold w. pose proof (q_gt v (-1)) as A. pose proof (q_le v (Z.of_nat N)) as B. replace (IZR (Z.of_nat N)) with (INR N) in B by apply INR_IZR_INZ. rewrite <- w_total in B. f_equal.
  - destruct (Z.leb_spec 0 (Rceil ((v - lo) / w))) as [Q|Q]; symmetry; [apply Rltb_lt|apply Rltb_nlt].
    + assert (Q' : (-1 < Rceil ((v - lo) / w))%Z) by lia. apply A in Q'. lra.
    + intros C. assert (Q' : (-1 < Rceil ((v - lo) / w))%Z) by (apply A; lra). lia.
  - destruct (Z.leb_spec (Rceil ((v - lo) / w)) (Z.of_nat N)) as [Q|Q]; symmetry; [apply Rleb_le, B, Q|apply Rleb_nle]. intros C. apply B in C. lia.
Qed.
Lemma slot_spec : forall v i, (i < N)%nat -> counted lo hi N v = true -> (Z.min (Rceil ((v - lo) / w)) (Z.of_nat N - 1) =? Z.of_nat i)%Z = in_slot lo hi N i v.
Proof.
  intros v i Hi Cv. rewrite <- counted_spec in Cv. unfold in_range in Cv. apply andb_prop in Cv. destruct Cv as [C1 C2]. apply Z.leb_le in C1, C2. unfold in_slot. fold w.
  pose proof (q_gt v (Z.of_nat i - 1)) as A. pose proof (q_le v (Z.of_nat i)) as B. rewrite minus_IZR in A. replace (IZR (Z.of_nat i)) with (INR i) in A, B by apply INR_IZR_INZ. set (q := Rceil ((v - lo) / w)) in *. clearbody q.
  destruct (Z.eqb_spec (Z.min q (Z.of_nat N - 1)) (Z.of_nat i)) as [Q|Q]; symmetry.
  - apply andb_true_intro. split; [apply Rltb_lt, A; lia|]. apply orb_true_intro. destruct (Nat.eq_dec (i + 1) N) as [E|E]; [right; apply Nat.eqb_eq; auto|left; apply Rleb_le, B; lia].
  - apply andb_false_iff. destruct (Z.lt_ge_cases q (Z.of_nat i)) as [L|L]; [left; apply Rltb_nlt; intros C; apply A in C; lia|]. right. apply orb_false_intro; [apply Rleb_nle; intros C; apply B in C; lia|apply Nat.eqb_neq; lia].
Qed.
Lemma filter_map : forall (A B : Type) (f : A -> B) (P : B -> bool) l, filter P (map f l) = map f (filter (fun a => P (f a)) l).
Proof. intros A B f P l. induction l as [|a l IH]; auto. cbn. destruct (P (f a)); cbn; rewrite IH; auto. Qed.
Lemma distribution_values : forall vs, distribution N (map (fun v => Rceil ((v - lo) / w)) vs) = slot_distribution lo hi N vs.
Proof.
  intros vs. unfold distribution, slot_distribution. rewrite filter_map. rewrite (filter_ext (fun a => in_range N (Rceil ((a - lo) / w))) (counted lo hi N)) by apply counted_spec.
  destruct (filter (counted lo hi N) vs) as [|u l] eqn:E; [reflexivity|]. cbn [map]. f_equal. apply map_ext_in. intros i Hi. apply in_seq in Hi.
  change (Rceil ((u - lo) / w) :: map (fun v => Rceil ((v - lo) / w)) l) with (map (fun v => Rceil ((v - lo) / w)) (u :: l)). rewrite <- E. unfold fraction. rewrite filter_map. unfold Rlen. rewrite !map_length. do 3 f_equal. apply filter_ext_in. intros v Hv. apply filter_In in Hv. apply slot_spec; [lia|tauto].
Qed.
End Bins.
Notation singles vs := (map (fun v : R => [v]) vs).
(** ** The score *)
Theorem C125_score : forall Y thr lo hi N W step (h : list (mcall (list R) Y)) vs x, lo < hi -> (1 <= N)%nat -> (1 <= W)%nat -> RE_step lo hi N = Ok step -> fitted_instances h = singles vs ->
  let m := RelativeEntropy ln Rceil thr lo step N W in let a := eval (md_score m x) (model_run m RE_init h) in let dist := slot_distribution lo hi N in
  ((length vs < W)%nat -> a = Ok (VScalar 0)) /\
  ((W <= length vs)%nat -> (agrees thr W (dist (lastn W vs)) (dist (firstn W vs)) -> a = Ok (VScalar 0)) /\ (~ agrees thr W (dist (lastn W vs)) (dist (firstn W vs)) -> a = Ok (VScalar (-1)))).
Proof.
  intros Y thr lo hi N W step h vs x Hr HN HW Es E. rewrite (step_value lo hi N HN) in Es. injection Es as <-. pose proof (w_pos lo hi N HN Hr) as Hw.
  pose proof (C72_compares_with_first_window Y Rceil thr lo (slice lo hi N) N W h vs x HN HW ltac:(lra) E) as C. cbv beta zeta in C. rewrite !(distribution_values lo hi N HN Hr) in C. exact C.
Qed.
Print Assumptions C125_score.
(** Windows without a single value in range never agree with anything. *)
Theorem C125_out_of_range : forall Y thr lo hi N W step (h : list (mcall (list R) Y)) vs x, lo < hi -> (1 <= N)%nat -> (1 <= W)%nat -> RE_step lo hi N = Ok step -> fitted_instances h = singles vs -> (W <= length vs)%nat ->
  (Forall (fun v => v <= lo - (hi - lo) / INR N \/ hi < v) (lastn W vs) \/ Forall (fun v => v <= lo - (hi - lo) / INR N \/ hi < v) (firstn W vs)) ->
  let m := RelativeEntropy ln Rceil thr lo step N W in eval (md_score m x) (model_run m RE_init h) = Ok (VScalar (-1)).
Proof.
  intros Y thr lo hi N W step h vs x Hr HN HW Es E HL Out. apply (C125_score Y thr lo hi N W step h vs x Hr HN HW Es E); auto.
  assert (G : forall l, Forall (fun v => v <= lo - (hi - lo) / INR N \/ hi < v) l -> slot_distribution lo hi N l = None).
  { intros l F. unfold slot_distribution. replace (filter (counted lo hi N) l) with (@nil R); [reflexivity|]. symmetry. induction F as [|v l Hv F IH]; auto. cbn [filter]. rewrite IH. unfold counted, slice. destruct (Rltb _ _ && Rleb _ _) eqn:Q; auto. apply andb_prop in Q. destruct Q as [Q1 Q2]. apply Rltb_lt in Q1. apply Rleb_le in Q2. lra. }
  intros (p & q & D & E1 & E2 & _). destruct Out as [F|F]; rewrite (G _ F) in *; discriminate.
Qed.
Print Assumptions C125_out_of_range.
(** With one or two bins nothing inside (lo, hi] is ever reported: the last bin holds the last two slices. *)
Theorem C125_two_bins_are_blind : forall Y thr lo hi N W step (h : list (mcall (list R) Y)) vs x, lo < hi -> (1 <= N <= 2)%nat -> (1 <= W)%nat -> 0 < thr -> RE_step lo hi N = Ok step -> fitted_instances h = singles vs ->
  Forall (fun v => lo < v <= hi) vs ->
  let m := RelativeEntropy ln Rceil thr lo step N W in eval (md_score m x) (model_run m RE_init h) = Ok (VScalar 0).
Proof.
  intros Y thr lo hi N W step h vs x Hr HN HW Ht Es E F m. destruct (C125_score Y thr lo hi N W step h vs x Hr (proj1 HN) HW Es E) as [C1 C2]. fold m in C1, C2.
  destruct (Nat.lt_ge_cases (length vs) W) as [Q|Q]; [exact (C1 Q)|]. apply (proj1 (C2 Q)). clear C1 C2.
  assert (HN1 : (1 <= N)%nat) by lia. pose proof (w_pos lo hi N HN1 Hr) as Hw. pose proof (w_total lo hi N HN1) as Htot.
  assert (G : forall l, l <> [] -> Forall (fun v => lo < v <= hi) l -> slot_distribution lo hi N l = Some (map (fun i => if (i + 1 =? N)%nat then 1 else 0) (seq 0 N))).
  { intros l NE Fl. unfold slot_distribution. assert (Ef : filter (counted lo hi N) l = l). { clear NE. induction Fl as [|v l Hv Fl IH]; auto. cbn [filter]. rewrite IH. replace (counted lo hi N v) with true; auto. symmetry. apply andb_true_intro. split; [apply Rltb_lt; lra|apply Rleb_le; lra]. }
    rewrite Ef. destruct l as [|u l0] eqn:El; [congruence|]. rewrite <- El in *. clear El Ef. f_equal. apply map_ext_in. intros i Hi. apply in_seq in Hi.
    assert (Ha : forall v, In v l -> in_slot lo hi N i v = (i + 1 =? N)%nat).
    { intros v Hv. rewrite Forall_forall in Fl. specialize (Fl v Hv). unfold in_slot. destruct (Nat.eqb_spec (i + 1) N) as [Ei|Ei].
      - rewrite orb_true_r, andb_true_r. apply Rltb_lt. assert (INR i <= 1) by (change 1 with (INR 1); apply le_INR; lia). assert ((INR i - 1) * slice lo hi N <= 0) by nra. lra.
      - assert (i = 0%nat) by lia. subst i. rewrite orb_false_r. apply andb_false_iff. right. apply Rleb_nle. cbn [INR]. lra. }
    unfold fraction. rewrite (filter_ext_in _ _ _ Ha). destruct (i + 1 =? N)%nat.
    - replace (filter (fun _ => true) l) with l by (clear; induction l; cbn; congruence). unfold Rlen. field. apply not_0_INR. destruct l; [congruence|discriminate].
    - replace (filter (fun _ => false) l) with (@nil R) by (clear; induction l; cbn; congruence). unfold Rlen. cbn. lra. }
  assert (N1 : lastn W vs <> []) by (apply lastn_nonempty; auto; intros ->; cbn in Q; lia). assert (N2 : firstn W vs <> []) by (destruct vs; [cbn in Q; lia|]; destruct W; [lia|discriminate]).
  rewrite (G (lastn W vs)), (G (firstn W vs)); auto.
  - set (p := map _ _). exists p, p, 0. rewrite divergence_refl; [repeat split; auto; lra|]. intros v Hv. unfold p in Hv. apply in_map_iff in Hv. destruct Hv as (i & <- & _). destruct (i + 1 =? N)%nat; lra.
  - apply Forall_forall. intros v Hv. rewrite Forall_forall in F. apply F. rewrite <- (firstn_skipn W vs). apply in_or_app. auto.
  - apply Forall_forall. intros v Hv. rewrite Forall_forall in F. apply F. eapply In_lastn; eauto.
Qed.
Print Assumptions C125_two_bins_are_blind.
Lemma agrees_dec : forall ceil thr lo step N W p q, (1 <= N)%nat -> {agrees thr W (distribution N (quantized ceil lo step p)) (distribution N (quantized ceil lo step q))} + {~ agrees thr W (distribution N (quantized ceil lo step p)) (distribution N (quantized ceil lo step q))}.
Proof.
  intros ceil thr lo step N W p q HN. destruct (Z.eq_dec (agreement ln thr (IZR (2 * Z.of_nat W)) (re_dens ceil lo step N p) [re_dens ceil lo step N q] 0 None (-1)) 0) as [E|E]; [left|right]; rewrite <- (agreement_one' ceil thr lo step N W p q HN); auto.
Qed.
(** Changing the unit and the zero of the values and of min_val and max_val alike changes nothing, whatever the rounding to integers. *)
Theorem C125_units : forall Y ceil thr lo hi N W step step' (a b : R) (h h' : list (mcall (list R) Y)) vs x x', lo <> hi -> (1 <= N)%nat -> (1 <= W)%nat -> a <> 0 ->
  RE_step lo hi N = Ok step -> RE_step (a * lo + b) (a * hi + b) N = Ok step' -> fitted_instances h = singles vs -> fitted_instances h' = singles (map (fun v => a * v + b) vs) ->
  let m := RelativeEntropy ln ceil thr lo step N W in let m' := RelativeEntropy ln ceil thr (a * lo + b) step' N W in
  eval (md_score m x) (model_run m RE_init h) = eval (md_score m' x') (model_run m' RE_init h').
Proof.
  intros Y ceil thr lo hi N W step step' a b h h' vs x x' Hr HN HW Ha Es Es' E E' m m'. rewrite (step_value _ _ _ HN) in Es. rewrite (step_value _ _ _ HN) in Es'. injection Es as <-. injection Es' as <-.
  assert (NZ : INR N <> 0) by (apply not_0_INR; lia). assert (S1 : slice lo hi N <> 0). { unfold slice, Rdiv. apply Rmult_integral_contrapositive_currified; [lra|]. apply Rinv_neq_0_compat; auto. }
  assert (S2 : slice (a * lo + b) (a * hi + b) N = a * slice lo hi N) by (unfold slice; field; auto). assert (S3 : slice (a * lo + b) (a * hi + b) N <> 0) by (rewrite S2; apply Rmult_integral_contrapositive_currified; auto).
  pose proof (C72_compares_with_first_window Y ceil thr lo (slice lo hi N) N W h vs x HN HW S1 E) as C. pose proof (C72_compares_with_first_window Y ceil thr (a * lo + b) (slice (a * lo + b) (a * hi + b) N) N W h' _ x' HN HW S3 E') as C'. fold m in C. fold m' in C'. cbv beta zeta in C, C'. rewrite map_length in C'.
  assert (Q : forall l, map (fun v => ceil ((v - (a * lo + b)) / slice (a * lo + b) (a * hi + b) N)) (map (fun v => a * v + b) l) = map (fun v => ceil ((v - lo) / slice lo hi N)) l). { intros l. rewrite map_map. apply map_ext. intros v. f_equal. rewrite S2. field. auto. }
  rewrite lastn_map, firstn_map, !Q in C'. destruct C as [C1 C2], C' as [C1' C2']. destruct (Nat.lt_ge_cases (length vs) W) as [L|L]; [rewrite C1, C1'; auto|]. destruct (C2 L) as [D1 D2]. destruct (C2' L) as [D1' D2'].
  destruct (agrees_dec ceil thr lo (slice lo hi N) N W (lastn W vs) (firstn W vs) HN) as [G|G]; unfold quantized in G; [rewrite D1, D1'|rewrite D2, D2']; auto.
Qed.
Print Assumptions C125_units.
(** ** Degenerate constructor arguments *)
Theorem C125_no_bins : forall lo hi : R, RE_step lo hi 0 = Raise ZeroDivisionError.
Proof. intros. unfold RE_step, pydiv. cbn [nofZ n0 NumR oeqb num_ord OrdR]. match goal with |- context [Reqb ?a ?b] => destruct (Reqb a b) eqn:Q end; [reflexivity|]. apply Reqb_neq in Q. exfalso. apply Q. reflexivity. Qed.
Print Assumptions C125_no_bins.
(** min_val = max_val is accepted by the constructor; from the first full window on every fit_partial fails, and the score stays 0. *)
Theorem C125_empty_range : forall Y ceil thr lo N W step (h : list (mcall (list R) Y)) vs v y x, (1 <= N)%nat -> RE_step lo lo N = Ok step -> fitted_instances h = singles vs ->
  let m := RelativeEntropy ln ceil thr lo step N W in let s := model_run m RE_init h in
  eval (md_fit m [v] y) s = (if (W <=? S (length vs))%nat then Raise ZeroDivisionError else Ok tt) /\ eval (md_score m x) s = Ok (VScalar 0).
Proof.
  intros Y ceil thr lo N W step h vs v y x HN Es E m s. rewrite (step_value _ _ _ HN) in Es. injection Es as <-. assert (S0 : slice lo lo N = 0) by (unfold slice; field; apply not_0_INR; lia).
  assert (Q : forall u l, res_map (re_quantize ceil lo (slice lo lo N)) ([u] :: l) = Raise ZeroDivisionError). { intros u l. cbn [res_map re_quantize]. unfold pydiv. rewrite S0. cbn [n0 NumR oeqb num_ord OrdR]. match goal with |- context [Reqb ?a ?b] => destruct (Reqb a b) eqn:Qz end; [reflexivity|]. apply Reqb_neq in Qz. exfalso. apply Qz. reflexivity. }
  assert (P : forall us : list R, us <> [] -> exists u l, py_last W (singles us) = [u] :: l).
  { intros us NE. assert (L : py_last W (singles us) <> []). { unfold py_last. destruct (Nat.eqb_spec W 0); [destruct us; [congruence|discriminate]|]. intros C. apply (f_equal (@length _)) in C. rewrite skipn_length, map_length in C. destruct us; [congruence|]. cbn [length] in C. lia. }
    assert (I : forall r, In r (py_last W (singles us)) -> exists u, r = [u]). { intros r Hr. assert (Hr' : In r (singles us)). { unfold py_last in Hr. destruct (W =? 0)%nat; auto. rewrite <- (firstn_skipn (length (singles us) - W) (singles us)). apply in_or_app. auto. } apply in_map_iff in Hr'. destruct Hr' as (u & <- & _). eauto. }
    destruct (py_last W (singles us)) as [|r l]; [congruence|]. destruct (I r (or_introl eq_refl)) as (u & ->). eauto. }
  assert (I : re_util s = singles vs /\ re_hat s = None).
  { unfold s. refine (plain_run_all _ _ _ _ _ _ (fun l s => forall vs, l = singles vs -> re_util s = singles vs /\ re_hat s = None) _ _ h _ _ vs E).
    - clear s vs E v y x h. intros l s xx yy H vs E. destruct vs as [|v vs _] using rev_ind; [destruct l; discriminate|]. rewrite map_app in E. cbn in E. apply app_inj_tail in E. destruct E as [E1 ->]. destruct (H vs E1) as [H1 H2].
      unfold exec, bind, modify, gets, lift, ret. cbn [re_util re_m re_P re_c re_hat]. rewrite H1. replace (singles vs ++ [[v]]) with (singles (vs ++ [v])) by (rewrite map_app; reflexivity). destruct (W <=? _)%nat; [|cbn; auto]. destruct (P (vs ++ [v])) as (u & l' & EP); [destruct vs; discriminate|]. rewrite EP, Q. cbn. auto.
    - intros l s0 xx H vs' E'. specialize (H vs' E'). unfold exec, bind, gets, ret. destruct (re_hat s0) eqn:Hh; [destruct (_ && _)|]; cbn [snd]; rewrite ?Hh; exact H.
    - intros [|u vs'] Q0; [|discriminate]. split; reflexivity. }
  destruct I as [I1 I2]. clearbody s. split.
  - unfold eval. cbn [md_fit RelativeEntropy plain_model m]. unfold bind, modify, gets, lift, ret. cbn [re_util re_m re_P re_c re_hat]. rewrite I1. replace (singles vs ++ [[v]]) with (singles (vs ++ [v])) by (rewrite map_app; reflexivity). rewrite map_length, app_length. cbn [length]. replace (length vs + 1)%nat with (S (length vs)) by lia.
    destruct (W <=? S (length vs))%nat; [|reflexivity]. destruct (P (vs ++ [v])) as (u & l' & EP); [destruct vs; discriminate|]. rewrite EP, Q. reflexivity.
  - unfold eval. cbn [md_score RelativeEntropy plain_model m]. unfold bind, gets, ret. rewrite I2. reflexivity.
Qed.
Print Assumptions C125_empty_range.
(** ** Examples *)
(** [0, 4] in two bins of width 2: a jump from 1 to 3 is invisible; in four bins of width 1 it is reported. *)
Example C125_ex : forall thr, 0 < thr -> exists step2 step4, RE_step 0 4 2 = Ok step2 /\ RE_step 0 4 4 = Ok step4 /\ let h := [CFit [1] None; CFit [3] None] in
  eval (md_score (RelativeEntropy (Y := unit) ln Rceil thr 0 step2 2 1) [0]) (model_run (RelativeEntropy ln Rceil thr 0 step2 2 1) RE_init h) = Ok (VScalar 0) /\
  eval (md_score (RelativeEntropy (Y := unit) ln Rceil thr 0 step4 4 1) [0]) (model_run (RelativeEntropy ln Rceil thr 0 step4 4 1) RE_init h) = Ok (VScalar (-1)) /\
  eval (md_score (RelativeEntropy (Y := unit) ln Rceil thr 0 step4 4 1) [0]) (model_run (RelativeEntropy ln Rceil thr 0 step4 4 1) RE_init [CFit [5] None; CFit [5] None]) = Ok (VScalar (-1)).
Proof.
  intros thr Ht. exists (slice 0 4 2), (slice 0 4 4). split; [apply step_value; lia|]. split; [apply step_value; lia|]. intros h. split; [|split].
  - apply (C125_two_bins_are_blind unit thr 0 4 2 1 _ h [1; 3]); auto; try lra; try lia; [apply step_value; lia|]. repeat constructor; lra.
  - assert (S4 : slice 0 4 4 = 1) by (unfold slice; cbn; lra).
    assert (C1 : Rceil ((1 - 0) / slice 0 4 4) = 1%Z) by (apply Rceil_spec; rewrite S4; lra). assert (C3 : Rceil ((3 - 0) / slice 0 4 4) = 3%Z) by (apply Rceil_spec; rewrite S4; lra).
    apply (C72_same_distribution_0_new_bin_minus_1 unit Rceil thr 0 (slice 0 4 4) 4 1 h [1; 3] [0] [0 / 1; 0 / 1; 0 / 1; 1 / 1] [0 / 1; 1 / 1; 0 / 1; 0 / 1]); auto; try lra; try (cbn; lia).
    + cbn [lastn length Nat.sub skipn map]. rewrite C3. reflexivity.
    + cbn [firstn map]. rewrite C1. reflexivity.
    + exists 3%nat. cbn. split; [lia|]. lra.
  - apply (C125_out_of_range unit thr 0 4 4 1 _ _ [5; 5]); auto; try lra; try lia; [apply step_value; lia|cbn; lia|]. left. apply Forall_forall. intros v Hv. right. cbn in Hv. destruct Hv as [<-|[]]. lra.
Qed.
