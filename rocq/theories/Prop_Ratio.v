(** * C96: probabilities and neighbour ratios on IEEE-754 binary64, for every stream of doubles (nan and infinities included). *)
From Coq Require Import List ZArith Lia Bool Arith.
From Coq Require Import Floats Reals Lra Psatz.
From Verif Require Import Base Num Spec Model_Stats Model_Core Model_Utils Model_Post Model_Simple P_Lists P_Utils P_Post P_Models P_Float Prop_Simple.
Import ListNotations.
Open Scope R_scope.

(** ** Specification: [real], [finite], [nearest] of P_Float, and: *)
(** what the calibrator remembers of the fitted scores *)
Definition remembered (windowed : bool) (w : Z) (l : list float) : list float := if windowed then lastn (Z.to_nat w) l else l.
(** how many of them are larger than [s] (a comparison with a nan is false) *)
Definition larger (s : float) (win : list float) : nat := length (filter (fun v => (s <? v)%float) win).
(** [q] is the correctly rounded ratio [k / n], a probability, that is 0 and 1 exactly when it should be. *)
Definition is_ratio (k n : nat) (q : float) : Prop :=
  nearest (INR k / INR n) q /\ 0 <= real q <= 1 /\ (real q = 0 <-> k = 0%nat) /\ (real q = 1 <-> k = n).

Lemma ratio_ok : forall k n, (k <= n)%nat -> (1 <= n)%nat -> (Z.of_nat n <= 2 ^ 53)%Z -> is_ratio k n (float_ofZ (Z.of_nat k) / float_ofZ (Z.of_nat n)).
Proof.
  intros k n Hk Hn Hb. destruct (ratio_real (Z.of_nat k) (Z.of_nat n)) as (N & _ & B & Z0 & Z1); [lia|lia|]. rewrite <- !INR_IZR_INZ in N. split; auto. split; auto. split; [rewrite Z0; lia|rewrite Z1; lia].
Qed.
Lemma float_ofZ_nz : forall n, (1 <= n)%nat -> (Z.of_nat n <= 2 ^ 53)%Z -> (float_ofZ (Z.of_nat n) =? 0)%float = false.
Proof.
  intros n Hn Hb. destruct (ofZ_real (Z.of_nat n) ltac:(lia)) as [F E]. destruct (float_ofZ (Z.of_nat n) =? 0)%float eqn:Q; auto. exfalso.
  assert (real (float_ofZ (Z.of_nat n)) = real 0). { apply eqb_real in Q; auto. reflexivity. } rewrite E in H. change (real 0) with 0 in H. apply (eq_IZR _ 0) in H. lia.
Qed.
Lemma conformal_finv : forall (windowed : bool) (w : Z),
  let Rl := fun (l : list float) (c : pp_state (ConformalProbabilityCalibrator (A := float))) =>
    if windowed then exists w0, c = CW w0 /\ wd_size w0 = w /\ wd_items w0 = lastn (Z.to_nat w) l else c = CU l in
  Rl [] (Conformal_init windowed w) /\
  (forall l s x, Rl l s -> exists s', pp_fit ConformalProbabilityCalibrator x s = (Ok tt, s') /\ Rl (l ++ [x]) s') /\
  (forall l s x, Rl l s -> exists s', pp_transform ConformalProbabilityCalibrator x s =
     (Ok (VScalar (npdiv (float_ofZ (Z.of_nat (larger x (remembered windowed w l)))) (float_ofZ (Z.of_nat (length (remembered windowed w l)))))), s') /\ Rl l s').
Proof.
  intros windowed w. cbv zeta. unfold remembered. destruct windowed; split; [|split| |split].
  - exists (Window_init w). simpl. rewrite lastn_nil. auto.
  - intros l s x (w0 & -> & S & I). cbn [pp_fit ConformalProbabilityCalibrator].
    destruct (window_update_step _ x w0 l) as (w1 & E & S1 & I1); [rewrite I, S; auto|].
    rewrite E. eexists. split; [reflexivity|]. exists w1. rewrite S1, I1, S. auto.
  - intros l s x (w0 & -> & S & I). eexists. split; [|exists w0; eauto].
    cbn [pp_transform ConformalProbabilityCalibrator]. unfold bind, gets, ret. cbn [cwin_get]. rewrite I. reflexivity.
  - reflexivity.
  - intros l s x ->. eexists. split; reflexivity.
  - intros l s x ->. eexists. split; reflexivity.
Qed.
Lemma conformal_value : forall windowed w h s, eval (pp_transform ConformalProbabilityCalibrator s) (post_run ConformalProbabilityCalibrator (Conformal_init windowed w) h) =
  Ok (VScalar (npdiv (float_ofZ (Z.of_nat (larger s (remembered windowed w (fitted h))))) (float_ofZ (Z.of_nat (length (remembered windowed w (fitted h))))))).
Proof.
  intros windowed w. destruct (conformal_finv windowed w) as (I & F & T). exact (history_of_inv _ _ ConformalProbabilityCalibrator _ (fun l s => Ok (VScalar (npdiv (float_ofZ (Z.of_nat (larger s (remembered windowed w l)))) (float_ofZ (Z.of_nat (length (remembered windowed w l))))))) _ I F T).
Qed.
(** ** The conformal calibrator *)
Theorem C96_conformal_correctly_rounded : forall windowed w h s, let win := remembered windowed w (fitted h) in
  win <> [] -> (Z.of_nat (length win) <= 2 ^ 53)%Z ->
  exists q, eval (pp_transform ConformalProbabilityCalibrator s) (post_run ConformalProbabilityCalibrator (Conformal_init windowed w) h) = Ok (VScalar (FinV q)) /\ is_ratio (larger s win) (length win) q.
Proof.
  intros windowed w h s win Hw Hb. rewrite conformal_value. fold win. assert (L : (1 <= length win)%nat) by (destruct win; [congruence|cbn; lia]).
  unfold npdiv. cbn [oeqb num_ord NumF OrdF n0 ndiv]. change zero with 0%float. rewrite float_ofZ_nz; auto. eexists. split; [reflexivity|]. apply ratio_ok; auto. apply filter_length_le.
Qed.
Print Assumptions C96_conformal_correctly_rounded.
(** Rounding loses no ranking: two scores get different probabilities exactly when different numbers of remembered scores exceed them. *)
Theorem C96_conformal_order_faithful : forall windowed w h s t, let win := remembered windowed w (fitted h) in
  win <> [] -> (Z.of_nat (length win) <= 2 ^ 51)%Z ->
  exists p q, eval (pp_transform ConformalProbabilityCalibrator s) (post_run ConformalProbabilityCalibrator (Conformal_init windowed w) h) = Ok (VScalar (FinV p)) /\
    eval (pp_transform ConformalProbabilityCalibrator t) (post_run ConformalProbabilityCalibrator (Conformal_init windowed w) h) = Ok (VScalar (FinV q)) /\
    (real p < real q <-> (larger s win < larger t win)%nat).
Proof.
  intros windowed w h s t win Hw Hb. rewrite !conformal_value. fold win. assert (L : (1 <= length win)%nat) by (destruct win; [congruence|cbn; lia]).
  unfold npdiv. cbn [oeqb num_ord NumF OrdF n0 ndiv]. change zero with 0%float. rewrite float_ofZ_nz; [|auto|lia]. do 2 eexists. split; [reflexivity|]. split; [reflexivity|].
  assert (Ls : (larger s win <= length win)%nat) by apply filter_length_le. assert (Lt : (larger t win <= length win)%nat) by apply filter_length_le.
  destruct (ratio_real (Z.of_nat (larger s win)) (Z.of_nat (length win))) as (_ & -> & _); [lia|lia|]. destruct (ratio_real (Z.of_nat (larger t win)) (Z.of_nat (length win))) as (_ & -> & _); [lia|lia|]. split.
  - intros H. destruct (Nat.lt_ge_cases (larger s win) (larger t win)) as [|G]; auto. exfalso. destruct (Nat.eq_dec (larger s win) (larger t win)) as [E|N]; [rewrite E in H; lra|]. pose proof (ratio_lt (Z.of_nat (larger t win)) (Z.of_nat (larger s win)) (Z.of_nat (length win)) ltac:(lia) ltac:(lia) ltac:(lia)). lra.
  - intros H. apply ratio_lt; lia.
Qed.
Print Assumptions C96_conformal_order_faithful.
(** In particular larger finite scores never get larger probabilities. *)
Theorem C96_conformal_antitone : forall windowed w h s t, let win := remembered windowed w (fitted h) in
  win <> [] -> (Z.of_nat (length win) <= 2 ^ 51)%Z -> finite s -> finite t -> Forall finite win -> real s <= real t ->
  exists p q, eval (pp_transform ConformalProbabilityCalibrator s) (post_run ConformalProbabilityCalibrator (Conformal_init windowed w) h) = Ok (VScalar (FinV p)) /\
    eval (pp_transform ConformalProbabilityCalibrator t) (post_run ConformalProbabilityCalibrator (Conformal_init windowed w) h) = Ok (VScalar (FinV q)) /\ real q <= real p.
Proof.
  intros windowed w h s t win Hw Hb Fs Ft Fw Hst. destruct (C96_conformal_order_faithful windowed w h s t Hw Hb) as (p & q & Ep & Eq & O). exists p, q. split; auto. split; auto. apply Rnot_lt_le. intros H. apply O in H. fold win in H.
  assert ((larger t win <= larger s win)%nat); [|lia]. unfold larger. apply filter_impl_length. intros v Hv Hlt. rewrite Forall_forall in Fw. apply ltb_real in Hlt; auto. apply ltb_real; auto. lra.
Qed.
Print Assumptions C96_conformal_antitone.

(** ** ExactStorm *)
(** the fraction of the stored instances (all but the newest) closer than the radius, with distances computed on doubles *)
Definition close_to (radius : float) (x : list float) (stored : list (list float)) : nat := length (filter (fun r => (euclid r x <? radius)%float) stored).
Theorem C96_exact_storm_correctly_rounded : forall Y radius w (h : list (mcall (list float) Y)) x, (forall r, In r (fitted_instances h) -> length r = length x) ->
  let stored := removelast (lastn (Z.to_nat w) (fitted_instances h)) in (Z.of_nat (length stored) <= 2 ^ 53)%Z ->
  exists q, eval (md_score (ExactStorm radius) x) (model_run (ExactStorm radius) (Window_init w) h) = Ok (VScalar q) /\
    (stored = [] -> q = 0%float) /\ (stored <> [] -> is_ratio (close_to radius x stored) (length stored) q).
Proof.
  intros Y radius w h x Hx stored Hb.
  assert (R : wd_size (model_run (ExactStorm radius) (Window_init w) h) = w /\ wd_items (model_run (ExactStorm radius) (Window_init w) h) = lastn (Z.to_nat w) (fitted_instances h)).
  { refine (plain_run_all _ _ _ _ _ _ (fun l (s : window (list float)) => wd_size s = w /\ wd_items s = lastn (Z.to_nat w) l) _ _ h _ _).
    - intros l s y v [E1 E2]. destruct (window_update_step _ y s l) as (s' & E & S1 & I1); [rewrite E1; auto|]. unfold exec. rewrite E. cbn [snd]. rewrite S1, I1, E1. auto.
    - intros l s y R0. unfold exec, bind, Window_get, gets, lift, ret. destruct (storm_score _ _ _); auto.
    - split; auto. }
  destruct R as [_ E2]. unfold eval. cbn. unfold bind, Window_get, gets, lift, ret. rewrite E2. unfold storm_score. fold stored. destruct (Nat.eqb_spec (length stored) 0) as [Z0|NZ].
  - eexists. split; [reflexivity|]. destruct stored; [|discriminate]. split; [reflexivity|congruence].
  - replace (forallb (fun r => (length r =? length x)%nat) stored) with true.
    + eexists. split; [reflexivity|]. split. { intros E. rewrite E in NZ. cbn in NZ. lia. } intros _. apply ratio_ok; auto; [apply filter_length_le|lia].
    + symmetry. apply forallb_forall. intros r Hr. apply Nat.eqb_eq, Hx. unfold stored in Hr. eapply In_lastn. eapply In_removelast. exact Hr.
Qed.
Print Assumptions C96_exact_storm_correctly_rounded.
(** A window of three scores with a nan and an infinity in the history. *)
Example C96_ex : exists q, eval (pp_transform ConformalProbabilityCalibrator 1%float)
  (post_run ConformalProbabilityCalibrator (Conformal_init true 3%Z) [PFit nan; PFit infinity; PTransform nan; PFit nan; PFit 2%float]) = Ok (VScalar (FinV q)) /\ is_ratio 2 3 q.
Proof.
  destruct (C96_conformal_correctly_rounded true 3 [PFit nan; PFit infinity; PTransform nan; PFit nan; PFit 2%float] 1%float) as (q & E & R).
  - vm_compute. discriminate.
  - change (remembered true 3 (fitted [PFit nan; PFit infinity; PTransform nan; PFit nan; PFit 2%float])) with [infinity; nan; 2%float]. cbn [length]. lia.
  - exists q. split; [exact E|]. exact R.
Qed.
Example C96_ex_storm : exists q, eval (md_score (ExactStorm (Y := unit) 1%float) [0%float]) (model_run (ExactStorm 1%float) (Window_init 4) [CFit [nan] None; CFit [0.5%float] None; CFit [3%float] None; CFit [0%float] None]) = Ok (VScalar q) /\ is_ratio 1 3 q.
Proof.
  destruct (C96_exact_storm_correctly_rounded unit 1%float 4 [CFit [nan] None; CFit [0.5%float] None; CFit [3%float] None; CFit [0%float] None] [0%float]) as (q & E & _ & R).
  - cbn. intros r [<-|[<-|[<-|[<-|[]]]]]; reflexivity.
  - match goal with |- (Z.of_nat ?n <= _)%Z => replace n with 3%nat by (vm_compute; reflexivity) end. lia.
  - exists q. split; [exact E|]. apply R. vm_compute. discriminate.
Qed.
