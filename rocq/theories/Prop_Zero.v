(** * C141: parameters that are 0, and decays that are integers. *)
From Coq Require Import List ZArith Lia Bool Reals Lra Arith String.
From Verif Require Import Base Num Spec Model_Stats Model_Utils Model_Core Model_Trans Model_Simple Model_Sketch Model_Loda Model_XStream Model_Int Model_Zero P_Lists P_Stats P_Utils P_Core P_Post P_Models Prop_RSHash Prop_XStream.
Import ListNotations.
Local Notation length := List.length.
Open Scope R_scope.

(** ** Specification *)
(** The answer with a number made of each entry. *)
Definition numbers {A} (v : pyval A) : pyval (npres A) := match v with VNone => VNone | VScalar a => VScalar (FinV a) | VArray l => VArray (map FinV l) end.
(** nan *)
Definition not_a_number {A} : pyval (npres A) := VArray [NonFin].
(** The number of earlier instances in the cell of x, all counting the same. *)
Definition plain_count (floor : R -> Z) (c : rscomp R) (past : list (list R)) (x : list R) : nat := length (filter (fun p => same_cell floor c p x) past).

(** ** LODA *)
Lemma run_np : forall X Y A B St (fit : X -> option Y -> M St unit) (sc : X -> M St (pyval A)) (sc' : X -> M St (pyval B)) (h : list (mcall X Y)) s,
  (forall x s, exec (sc x) s = s) -> (forall x s, exec (sc' x) s = s) -> model_run (plain_model St fit sc') s h = model_run (plain_model St fit sc) s h.
Proof.
  intros X Y A B St fit sc sc' h. induction h as [|o h IH]; intros s H1 H2; [reflexivity|]. cbn [model_run fold_left]. replace (model_do (plain_model St fit sc') s o) with (model_do (plain_model St fit sc) s o); [apply IH; auto|].
  unfold model_do, exec, model_call. destruct o as [x y|x|x y]; cbn [md_fit md_score md_fit_score plain_model].
  - destruct (fit x y s). reflexivity.
  - specialize (H1 x s). specialize (H2 x s). unfold exec in *. destruct (sc x s), (sc' x s). cbn [snd] in *. congruence.
  - unfold default_fit_score, bind. destruct (fit x y s) as [[u|e] s']; [|reflexivity]. specialize (H1 x s'). specialize (H2 x s'). unfold exec in *. destruct (sc x s'), (sc' x s'). cbn [snd] in *. congruence.
Qed.
Lemma Reqb_INR : forall n, (1 <= n)%nat -> Reqb (IZR (Z.of_nat n)) 0 = false.
Proof. intros n H. unfold Reqb. destruct (Req_EM_T (IZR (Z.of_nat n)) 0) as [E|]; auto. apply (eq_IZR _ 0) in E. lia. Qed.
(** With at least one random cut the division by their number is the ordinary one. *)
Theorem C141_loda_cuts : forall Y half eps log randn perms n_bins n_cuts (h : list (mcall (list R) Y)) x, (1 <= n_cuts)%nat ->
  eval (md_score (LODA_np (Y := Y) half eps log randn perms n_bins n_cuts) x) (model_run (LODA_np (Y := Y) half eps log randn perms n_bins n_cuts) LODA_init h) =
  rmap numbers (eval (md_score (LODA (Y := Y) half eps log randn perms n_bins n_cuts) x) (model_run (LODA (Y := Y) half eps log randn perms n_bins n_cuts) LODA_init h)).
Proof.
  intros Y half eps log randn perms n_bins n_cuts h x H.
  assert (E : model_run (LODA_np (Y := Y) half eps log randn perms n_bins n_cuts) LODA_init h = model_run (LODA (Y := Y) half eps log randn perms n_bins n_cuts) LODA_init h).
  { refine (run_np (list R) Y R (npres R) (lodast R) (md_fit (LODA (Y := Y) half eps log randn perms n_bins n_cuts)) (md_score (LODA (Y := Y) half eps log randn perms n_bins n_cuts)) (md_score (LODA_np (Y := Y) half eps log randn perms n_bins n_cuts)) h LODA_init _ _).
    - intros z s. unfold exec. cbn [md_score LODA plain_model]. unfold bind, gets, lift, ret, raise. destruct (loda_obj s); [|reflexivity]. destruct (res_map _ _); reflexivity.
    - intros z s. unfold exec. cbn [md_score LODA_np plain_model]. unfold bind, gets, lift, ret, raise. destruct (loda_obj s); [|reflexivity]. destruct (res_map _ _); reflexivity. }
  rewrite E. set (s := model_run _ _ h). clearbody s. unfold eval. cbn [md_score LODA LODA_np plain_model]. unfold bind, gets, lift, ret, raise.
  destruct (loda_obj s) as [o|]; [|reflexivity]. destruct (res_map _ _) as [vs|e]; [|reflexivity]. cbn [fst rmap numbers map]. unfold npdiv. cbn [oeqb num_ord NumR OrdR nofZ n0]. rewrite Reqb_INR by auto. reflexivity.
Qed.
Print Assumptions C141_loda_cuts.
(** With no random cut LODA accepts everything and every score after the first fit is nan. *)
Theorem C141_loda_no_cuts : forall Y half eps log randn perms n_bins (h : list (mcall (list R) Y)) x,
  let m := LODA_np (Y := Y) half eps log randn perms n_bins 0 in let s := model_run m LODA_init h in
  (forall y, eval (md_fit m x y) s = Ok tt) /\ eval (md_score m x) s = if (length (fitted_instances h) =? 0)%nat then Raise AttributeError else Ok not_a_number.
Proof.
  intros Y half eps log randn perms n_bins h x m s. split; [intros y; reflexivity|].
  assert (G : match loda_obj s with None => fitted_instances h = [] | Some _ => fitted_instances h <> [] end).
  { subst s. unfold m, LODA_np. refine (plain_run_all _ _ _ _ _ _ (fun xs s => match loda_obj s with None => xs = [] | Some _ => xs <> [] end) _ _ h _ _).
    - intros xs st z y Q. unfold exec. cbn. unfold bind, modify, ret. cbn. destruct (loda_obj st) eqn:E; cbn; rewrite ?E; intros Q'; apply app_eq_nil in Q'; destruct Q'; discriminate.
    - intros xs st z Q. unfold exec, bind, gets, lift, ret, raise. destruct (loda_obj st) eqn:E; [destruct (res_map _ _)|]; cbn [snd]; rewrite ?E in *; exact Q.
    - reflexivity. }
  unfold eval, m. cbn [md_score LODA_np plain_model]. unfold bind, gets, lift, ret, raise. destruct (loda_obj s).
  - destruct (fitted_instances h) as [|fa fl]; [congruence|]. cbn [seq res_map length Nat.eqb fst]. unfold npdiv. cbn. unfold Reqb. destruct (Req_EM_T 0 0); [reflexivity|congruence].
  - rewrite G. reflexivity.
Qed.
Print Assumptions C141_loda_no_cuts.

(** ** xStream *)
Notation XStream_np mmh3 p floor K W := (xStream_np 2 1 (1 / 10000) mmh3 p floor log2 K W).
Lemma xs_np_run : forall Y mmh3 p floor K W s (h : list (mcall (list R) Y)), model_run (XStream_np mmh3 p floor K W) s h = model_run (XStream mmh3 p floor K W) s h.
Proof.
  intros Y mmh3 p floor K W s h. refine (run_np (list R) Y R (npres R) (xsst R) (md_fit (xStream (Y := Y) 2 1 (1 / 10000) mmh3 p floor log2 K W)) (md_score (xStream (Y := Y) 2 1 (1 / 10000) mmh3 p floor log2 K W)) (md_score (xStream_np (Y := Y) 2 1 (1 / 10000) mmh3 p floor log2 K W)) h s _ _).
  - intros z st. unfold exec. cbn [md_score xStream plain_model]. unfold bind, gets, lift, ret. destruct (xs_project _ _ _ _ _); auto. destruct (xs_score _ _ _ _); reflexivity.
  - intros z st. unfold exec. cbn [md_score xStream_np plain_model]. unfold bind, gets, lift, ret. destruct (xs_project _ _ _ _ _); auto. destruct (res_map _ _); reflexivity.
Qed.
(** With at least one chain the division by their number is the ordinary one. *)
Theorem C141_xstream_chains : forall Y mmh3 n density p floor W draws (h : list (mcall (list R) Y)) x, (1 <= n)%Z -> Streamhash_init 1 n density = Ok p -> (1 <= W)%nat ->
  let K := Z.to_nat n in Forall (fun d => Forall (fun f => (f < K)%nat) (fst d) /\ length (snd d) = K) draws -> draws <> [] ->
  eval (md_score (XStream_np mmh3 p floor K W) x) (model_run (XStream_np mmh3 p floor K W) (xstream_new K draws) h) =
  rmap numbers (eval (md_score (XStream mmh3 p floor K W) x) (model_run (XStream mmh3 p floor K W) (xstream_new K draws) h)).
Proof.
  intros Y mmh3 n density p floor W draws h x Hn E HW K FD DN. rewrite xs_np_run. destruct (project_total mmh3 n density p Hn E) as (P & HP & HK & _).
  pose proof (xs_run Y mmh3 p floor K W P HP HK HW draws h FD) as (dref & delta & _ & _ & _ & _ & _ & _ & _ & F2). unfold xstream_new. set (s := model_run _ _ h) in *. clearbody s. unfold eval. cbn [md_score xStream xStream_np plain_model]. unfold bind, gets, lift, ret. rewrite HP. unfold xs_score.
  destruct (res_map _ _) as [vs|e]; [|reflexivity]. cbn [fst rmap numbers map]. unfold npdiv. cbn [oeqb num_ord NumR OrdR nofZ n0]. rewrite Reqb_INR; [reflexivity|]. inversion F2; subst; [congruence|]. cbn [List.length]. lia.
Qed.
Print Assumptions C141_xstream_chains.
(** With no chain every fit succeeds and every score is nan, fitted or not. *)
Theorem C141_xstream_no_chains : forall Y mmh3 n density p floor W (h : list (mcall (list R) Y)) x, (1 <= n)%Z -> Streamhash_init 1 n density = Ok p -> (1 <= W)%nat ->
  let K := Z.to_nat n in let m := XStream_np mmh3 p floor K W in let s := model_run m (xstream_new K []) h in
  (forall y, eval (md_fit m x y) s = Ok tt) /\ eval (md_score m x) s = Ok not_a_number.
Proof.
  intros Y mmh3 n density p floor W h x Hn E HW K m s. subst m s. rewrite xs_np_run. destruct (project_total mmh3 n density p Hn E) as (P & HP & HK & _).
  pose proof (xs_run Y mmh3 p floor K W P HP HK HW [] h ltac:(constructor)) as I. unfold xstream_new. set (s := model_run _ _ h) in *. clearbody s. split.
  - intros y. destruct (xs_fit_step Y mmh3 p floor K W P HP HK HW [] _ _ x y ltac:(constructor) I) as (s' & Es & _). unfold eval. cbn [md_fit xStream_np plain_model]. cbn [md_fit] in Es. rewrite Es. reflexivity.
  - destruct I as (dref & delta & _ & _ & _ & _ & _ & _ & _ & F2). assert (Ec : xs_chains s = []) by (inversion F2; auto). unfold eval. cbn [md_score xStream_np plain_model]. unfold bind, gets, lift, ret. rewrite HP, Ec. cbn [res_map List.length fst]. unfold npdiv. cbn. unfold Reqb. destruct (Req_EM_T 0 0); [reflexivity|congruence].
Qed.
Print Assumptions C141_xstream_no_chains.
(** With depth 0 every fit succeeds and every score raises ValueError. *)
Theorem C141_xstream_no_depth : forall Y mmh3 n density p floor W draws (h : list (mcall (list R) Y)) x, (1 <= n)%Z -> Streamhash_init 1 n density = Ok p -> (1 <= W)%nat ->
  let K := Z.to_nat n in draws <> [] -> Forall (fun d => fst d = [] /\ length (snd d) = K) draws -> let m := XStream_np mmh3 p floor K W in let s := model_run m (xstream_new K draws) h in
  (forall y, eval (md_fit m x y) s = Ok tt) /\ eval (md_score m x) s = Raise ValueError.
Proof.
  intros Y mmh3 n density p floor W draws h x Hn E HW K DN FD m s. subst m s. rewrite xs_np_run. destruct (project_total mmh3 n density p Hn E) as (P & HP & HK & _).
  assert (FD' : Forall (fun d => Forall (fun f => (f < K)%nat) (fst d) /\ length (snd d) = K) draws) by (eapply Forall_impl; [|exact FD]; intros d [E1 E2]; rewrite E1; auto).
  pose proof (xs_run Y mmh3 p floor K W P HP HK HW draws h FD') as I. unfold xstream_new. set (s := model_run _ _ h) in *. clearbody s. split.
  - intros y. destruct (xs_fit_step Y mmh3 p floor K W P HP HK HW draws _ _ x y FD' I) as (s' & Es & _). unfold eval. cbn [md_fit xStream_np plain_model]. cbn [md_fit] in Es. rewrite Es. reflexivity.
  - destruct I as (dref & delta & _ & _ & _ & _ & _ & _ & _ & F2). unfold eval. cbn [md_score xStream_np plain_model]. unfold bind, gets, lift, ret. rewrite HP. inversion F2 as [|d c ds cs C F Ed Ec]; [subst; congruence|]. subst draws. inversion FD as [|? ? [D1 _] _]; subst. destruct C as (C1 & _). cbn [res_map].
    unfold xc_score. rewrite C1, D1. reflexivity.
Qed.
Print Assumptions C141_xstream_no_depth.

(** ** RSHash *)
Lemma wrap_parity : forall w z, (1 <= w)%nat -> Z.odd (wrap (SInt (S w)) z) = Z.odd z.
Proof.
  intros w z Hw. cbn [wrap]. replace (Z.of_nat (S w) - 1)%Z with (Z.of_nat w) by lia. set (m := (2 ^ Z.of_nat w)%Z). assert (Em : exists k, m = (2 * k)%Z). { exists (2 ^ (Z.of_nat w - 1))%Z. unfold m. rewrite <- Z.pow_succ_r by lia. f_equal. lia. } destruct Em as [k Em].
  assert (E2 : (2 ^ Z.of_nat (S w))%Z = (2 * m)%Z) by (unfold m; rewrite <- Z.pow_succ_r by lia; f_equal; lia). rewrite E2. pose proof (Z.mod_eq (z + m) (2 * m)) as Q. destruct (Z.eq_dec (2 * m) 0) as [Z0|Z0]; [assert (0 < m)%Z by (unfold m; apply Z.pow_pos_nonneg; lia); lia|]. rewrite (Q Z0), Em.
  rewrite !Z.odd_sub, !Z.odd_add, <- !Z.mul_assoc, !Z.odd_mul. cbn. destruct (Z.odd z); reflexivity.
Qed.
(** A decay that is a positive Python integer is refused, with ValueError; the same number as a float is not. *)
Theorem C141_rshash_integer_decay_refuted : forall z, (rs_effS_py (Rpower 2) (DecayInt z) = Raise ValueError <-> (0 < z)%Z) /\ exists e, rs_effS_py (Rpower 2) (DecayFloat (IZR z)) = Ok e.
Proof.
  intros z. split; [|eexists; reflexivity]. cbn [rs_effS_py]. destruct (Z.ltb_spec (- z) 0); split; intros Q; try lia; auto; discriminate.
Qed.
Print Assumptions C141_rshash_integer_decay_refuted.
(** A negative integer decay counts as 1000 sampling points, and decay 0, integer or float, as infinitely many. *)
Theorem C141_rshash_sample_size : (forall z, (z < 0)%Z -> rs_effS_py (Rpower 2) (DecayInt z) = Ok (FinV 1000)) /\
  rs_effS_py (Rpower 2) (DecayInt 0) = Ok NonFin /\ rs_effS_py (Rpower 2) (DecayFloat 0) = Ok NonFin /\
  forall r, r <> 0 -> rs_effS_py (Rpower 2) (DecayFloat r) = Ok (FinV (Rmax 1000 (1 / (1 - Rpower 2 (- r))))).
Proof.
  split; [|split; [|split]].
  - intros z Hz. cbn [rs_effS_py]. destruct (Z.ltb_spec (- z) 0); [lia|]. set (q := wrap (SInt 64) (1 - wrap (SInt 64) (2 ^ (- z)))). assert (O : Z.odd q = true).
    { unfold q. rewrite (wrap_parity 63), Z.odd_sub, (wrap_parity 63) by lia. replace (2 ^ (- z))%Z with (2 * 2 ^ (- z - 1))%Z by (rewrite <- Z.pow_succ_r by lia; f_equal; lia). rewrite Z.odd_mul. reflexivity. }
    assert (Nq : q <> 0%Z) by (intros Q; rewrite Q in O; discriminate). unfold npdiv. cbn [oeqb num_ord NumR OrdR n0]. unfold Reqb. destruct (Req_EM_T (IZR q) 0) as [Q|_]; [apply eq_IZR in Q; lia|]. cbn [npmap ndiv NumR]. do 2 f_equal. rewrite omax_Rmax. apply Rmax_left.
    destruct (Z.le_gt_cases q 0) as [L|G].
    + assert (IZR q < 0) by (apply IZR_lt; lia). unfold Rdiv. assert (/ IZR q < 0) by (apply Rinv_lt_0_compat; auto). lra.
    + assert (1 <= IZR q) by (apply (IZR_le 1); lia). unfold Rdiv. assert (/ IZR q <= / 1) by (apply Rinv_le_contravar; lra). rewrite Rinv_1 in *. lra.
  - cbn [rs_effS_py]. change (wrap (SInt 64) (1 - wrap (SInt 64) (2 ^ (- 0))))%Z with 0%Z. unfold npdiv. cbn -[IZR]. unfold Reqb. destruct (Req_EM_T 0 0); [reflexivity|congruence].
  - cbn [rs_effS_py]. rewrite Ropp_0, Rpower_O by lra. unfold npdiv. cbn [oeqb num_ord NumR OrdR n0]. unfold Reqb. destruct (Req_EM_T (1 - 1) 0); [reflexivity|lra].
  - intros r Hr. cbn [rs_effS_py]. unfold npdiv. cbn [oeqb num_ord NumR OrdR n0]. unfold Reqb. destruct (Req_EM_T (1 - Rpower 2 (- r)) 0) as [Q|_].
    + exfalso. assert (Q1 : Rpower 2 (- r) = 1) by lra. unfold Rpower in Q1. assert (L := ln_exp (- r * ln 2)). rewrite Q1, ln_1 in L. assert (0 < ln 2) by (rewrite <- ln_1; apply ln_increasing; lra). nra.
    + cbn [npmap ndiv NumR]. rewrite omax_Rmax. reflexivity.
Qed.
Print Assumptions C141_rshash_sample_size.
(** With a finite sample size the components are those of C83. *)
Theorem C141_rshash_components : forall r fl draw pick shifts fs arrays mins maxs, r <> 0 -> exists e, rs_effS_py (Rpower 2) (DecayFloat r) = Ok e /\
  rs_f_range_py R_sqrt.sqrt e = (rs_f_low R_sqrt.sqrt (rs_effS (Rpower 2) r), rs_f_high R_sqrt.sqrt (rs_effS (Rpower 2) r)) /\
  rs_components_py ln fl draw pick shifts e fs arrays mins maxs = rs_components ln fl draw pick shifts (rs_effS (Rpower 2) r) fs arrays mins maxs.
Proof.
  intros r fl draw pick shifts fs arrays mins maxs Hr. rewrite (proj2 (proj2 (proj2 C141_rshash_sample_size)) r Hr), effS_eq. eexists. split; [reflexivity|]. split; reflexivity.
Qed.
Print Assumptions C141_rshash_components.
(** With decay 0 the cell sizes are drawn from [0, 1), and unless one of them is 0 the construction succeeds and every component
    looks at exactly one feature, however many there are; with numpy bounds one whose bounds differ, provided there is one. *)
Theorem C141_rshash_zero_decay : forall decay fl draw pick shifts fs arrays mins maxs, decay = DecayInt 0 \/ decay = DecayFloat 0 -> random_sources draw pick shifts -> (1 <= length mins)%nat -> length mins = length maxs ->
  exists e, rs_effS_py (Rpower 2) decay = Ok e /\ rs_f_range_py R_sqrt.sqrt e = (0, 1) /\ forall (RF : Forall (fun f => 0 < f < 1) fs),
  exists comps, rs_components_py ln fl draw pick shifts e fs arrays mins maxs = Ok comps /\
  Forall2 (fun f c => rs_f c = f /\ exists v a, rs_V c = [v] /\ rs_alpha c = [a] /\ (v < length mins)%nat /\ 0 <= a < f /\
     (arrays = true -> (exists v, (v < length mins)%nat /\ non_constant mins maxs v) -> non_constant mins maxs v)) fs comps /\
  (forall x, length x = length mins -> fits_components comps x).
Proof.
  intros decay fl draw pick shifts fs arrays mins maxs HD (_ & RP & RS) Hdim HL. exists NonFin. split; [destruct HD; subst; apply C141_rshash_sample_size|]. split; [reflexivity|]. intros RF. unfold rs_components_py.
  set (Q := fun (f : R) (c : rscomp R) => rs_f c = f /\ exists v a, rs_V c = [v] /\ rs_alpha c = [a] /\ (v < length mins)%nat /\ 0 <= a < f /\
     (arrays = true -> (exists v, (v < length mins)%nat /\ non_constant mins maxs v) -> non_constant mins maxs v)).
  destruct (choice_feats_ok arrays mins maxs HL) as (C1 & C2 & C3).
  set (feats := match rs_choice_feats arrays mins maxs with [] => seq 0 (length mins) | cf => cf end).
  assert (F : NoDup feats /\ incl feats (seq 0 (length mins)) /\ (1 <= length feats)%nat /\ (arrays = true -> (exists v, (v < length mins)%nat /\ non_constant mins maxs v) -> forall v, In v feats -> non_constant mins maxs v)).
  { unfold feats. destruct (rs_choice_feats arrays mins maxs) as [|a l] eqn:Ec.
    - split; [apply seq_NoDup|]. split; [apply incl_refl|]. split; [rewrite seq_length; auto|]. intros Ha (v & Hv & Hn). exfalso. apply (proj2 (C3 Ha v)). auto.
    - split; auto. split; auto. split; [cbn; lia|]. intros Ha _ v Hv. apply C3; auto. }
  destruct F as (F1 & F2 & F3 & F4). clearbody feats.
  destruct (res_map_all _ _ (fun p => rmap (fun V => mkComp V (shifts (fst p) (snd p) (length V)) (snd p))
           (rbind (rs_num_feats_py ln fl (draw (fst p)) NonFin (snd p) (length mins)) (fun r => np_choice (pick (fst p)) feats (Nat.min (Z.to_nat r) (length feats)))))
       (fun p c => Q (snd p) c) (combine (seq 0 (length fs)) fs)) as (comps & E & G).
  { intros [i f] Hin. cbn [fst snd]. assert (Hf : 0 < f < 1) by (rewrite Forall_forall in RF; apply RF; eapply in_combine_r; eauto).
    unfold rs_num_feats_py. cbn [oeqb num_ord NumR OrdR n0]. unfold Reqb. destruct (Req_EM_T f 0); [lra|]. cbn [rbind]. change (Z.to_nat 1) with 1%nat. replace (Nat.min 1 (length feats)) with 1%nat by lia. unfold np_choice. destruct (Nat.ltb_spec (length feats) 1); [lia|].
    destruct (RP i feats 1%nat F1 F3) as (P1 & P2 & P3). cbn [rmap]. eexists. split; [reflexivity|]. unfold Q. cbn [rs_f rs_V rs_alpha]. split; [reflexivity|].
    destruct (pick i feats 1%nat) as [|v [|]] eqn:EP; try discriminate. destruct (RS i f (length [v]) (proj1 Hf)) as [S1 S2]. destruct (shifts i f (length [v])) as [|a [|]] eqn:ES; try discriminate.
    exists v, a. assert (Iv : In v feats) by (apply P3; left; auto). split; [reflexivity|]. split; [reflexivity|]. split; [apply F2, in_seq in Iv; lia|]. split; [inversion S2; auto|]. intros; apply F4; auto. }
  exists comps. split; [exact E|]. assert (G' : Forall2 Q fs comps).
  { clear - G. revert G. generalize 0%nat. revert comps. induction fs as [|f fs IH]; intros comps st F; cbn [length seq combine] in F; inversion F; subst; constructor; auto. eapply IH. eauto. }
  split; [exact G'|]. intros x Hx. unfold fits_components. clear - G' Hx. induction G' as [|f c fs' cs (_ & v & a & E1 & E2 & B & _) F IH]; constructor; auto. rewrite E1, E2. split; [reflexivity|]. constructor; [lia|constructor].
Qed.
Print Assumptions C141_rshash_zero_decay.
(** A cell size that is 0, which is in the range, is refused. *)
Theorem C141_rshash_zero_cell_refuted : forall fl draw pick shifts fs arrays mins maxs, rs_components_py ln fl draw pick shifts NonFin (0 :: fs) arrays mins maxs = Raise ValueError.
Proof.
  intros fl draw pick shifts fs arrays mins maxs. unfold rs_components_py. cbn [length seq combine res_map fst snd]. unfold rs_num_feats_py. cbn [oeqb num_ord NumR OrdR n0]. unfold Reqb. destruct (Req_EM_T 0 0); [reflexivity|congruence].
Qed.
Print Assumptions C141_rshash_zero_cell_refuted.
(** With decay 0 nothing is forgotten: the score is made of the plain numbers of earlier instances in the same cell. *)
Theorem C141_rshash_zero_decay_score : forall Y floor comps sp w (h : list (mcall (list R) Y)) z past x, comps <> [] -> (1 <= w)%nat -> Forall (fits_components comps) (fitted_instances h) -> fitted_instances h = past ++ [x] ->
  let m := RSHash (Rpower 2) ln floor 0 comps in
  eval (md_score m z) (model_run m (RSHash_init sp w) h) = Ok (VScalar (mean (map (fun c => ln (1 + INR (plain_count floor c past x))) comps))).
Proof.
  intros Y floor comps sp w h z past x HC Hw F Eh m. unfold eval, m. rewrite (proj1 (proj2 (C74_score Y floor 0 comps sp w h z HC Hw F)) past x Eh). cbn [fst]. do 3 f_equal. apply map_ext. intros c. do 2 f_equal.
  unfold decayed_count, plain_count. rewrite (map_ext _ (fun j => if same_cell floor c (nth j past []) x then 1 else 0)).
  2:{ intros j. destruct (same_cell _ _ _ _); auto. rewrite Ropp_0, Rmult_0_l, Rpower_O; lra. }
  clear. induction past as [|p past IH]; [reflexivity|]. cbn [length seq map filter]. rewrite <- seq_shift, map_map, Rsum_cons. cbn [nth]. rewrite IH. destruct (same_cell floor c p x); [|lra]. cbn [length]. rewrite S_INR. lra.
Qed.
Print Assumptions C141_rshash_zero_decay_score.
(** Two equal instances and an instance far away, one component: the scores are 0, ln 2 and 0. *)
Example C141_ex : forall fl, is_floor fl -> let c := mkComp [0%nat] [0] (1 / 2) in plain_count fl c [[1]; [9]] [1] = 1%nat /\ fits_components [c] [1].
Proof.
  intros fl HF c. split; [|constructor; [|constructor]; split; [reflexivity|]; constructor; [cbn; lia|constructor]].
  unfold plain_count, same_cell, cell_of, c. cbn [rs_V rs_alpha rs_f map combine filter nth fst snd].
  destruct (list_eq_dec _ _ _); [|congruence]. destruct (list_eq_dec _ _ _) as [Q|]; [|reflexivity]. exfalso. injection Q as Q.
  pose proof (HF ((9 + 0) / (1 / 2))). pose proof (HF ((1 + 0) / (1 / 2))). rewrite Q in *. lra.
Qed.
