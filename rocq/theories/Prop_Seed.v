(** * C123: fix_seed, and detectors that share numpy's global random generator. *)
From Coq Require Import List ZArith Lia Bool Arith Permutation.
From Coq Require Import Floats Reals.
From Verif Require Import Base Num Spec Model_Stats Model_Utils Model_Core Model_Trans Model_Simple Model_Sketch Model_HST Model_Loda P_Models Model_Seed.
From Verif Require Prop_Loda.
Import ListNotations.
Open Scope nat_scope.

(** ** Specification *)
Section Spec.
Context {X Y G A : Type}.
(** The answers of a detector that is alone in its process. *)
Fixpoint model_answers (m : Model X Y A) (s : md_state m) (h : list (mcall X Y)) : list (res (option (pyval A))) :=
  match h with [] => [] | c :: h' => eval (model_call m c) s :: model_answers m (model_do m s c) h' end.
(** The calls of the i-th detector in a program, and what it answered. *)
Definition calls_to (i : nat) (l : list (op X Y G A)) : list (mcall X Y) :=
  flat_map (fun o => match o with OCall j c => if (j =? i)%nat then [c] else [] | _ => [] end) l.
Definition answers_of (i : nat) (l : list (op X Y G A)) (t : list (seen A)) : list (res (option (pyval A))) :=
  flat_map (fun os => match os with (OCall j _, Answer r) => if (j =? i)%nat then [r] else [] | _ => [] end) (combine l t).
(** A program written for detectors numbered from 0, run when [k] detectors exist already. *)
Definition renumber (k : nat) (l : list (op X Y G A)) : list (op X Y G A) := map (fun o => match o with OCall j c => OCall (k + j) c | _ => o end) l.
Definition valid_seed (n : Z) : Prop := (0 <= n < 2 ^ 32)%Z.
End Spec.

(** ** Lemmas *)
Section Lemmas.
Context {X Y G A : Type} (R : rng G A).
Notation step := (@step X Y G A R).
Notation trace := (@trace X Y G A R).
Notation after := (@after X Y G A R).
Lemma set_nth_app : forall B (l k : list B) i x, set_nth (length l + i) x (l ++ k) = l ++ set_nth i x k.
Proof. intros B l k i x. induction l as [|a l IH]; auto. cbn [length Nat.add app set_nth]. rewrite IH. reflexivity. Qed.
Lemma fix_seed_valid : forall n g, valid_seed n -> fix_seed R n g = (Ok tt, rg_seed R n).
Proof. intros n g [H1 H2]. unfold fix_seed. apply Z.leb_le in H1. apply Z.ltb_lt in H2. rewrite H1, H2. reflexivity. Qed.
Lemma renumber_step : forall old g objs o, step (mkProc g (old ++ objs)) (match o with OCall j c => OCall (length old + j) c | _ => o end) =
  (fst (step (mkProc g objs) o), mkProc (pr_g (snd (step (mkProc g objs) o))) (old ++ pr_objs (snd (step (mkProc g objs) o)))).
Proof.
  intros old g objs [n|mk|j c|[n|]|n]; cbn [Model_Seed.step pr_g pr_objs].
  - destruct (fix_seed R n g). reflexivity.
  - destruct (mk g) as [[b|e] g']; cbn [fst snd pr_g pr_objs]; rewrite ?app_assoc; reflexivity.
  - rewrite nth_error_app2 by lia. replace (length old + j - length old) with j by lia. destruct (nth_error objs j) as [b|]; [|reflexivity]. destruct (ob_call b c (g, ob_now b)) as [r gs]. cbn [fst snd pr_g pr_objs]. rewrite set_nth_app. reflexivity.
  - destruct (fix_seed R n g). reflexivity.
  - reflexivity.
  - destruct (rg_shuffle R n g). reflexivity.
Qed.
Lemma renumber_trace : forall l old g objs, trace (mkProc g (old ++ objs)) (renumber (length old) l) = trace (mkProc g objs) l.
Proof.
  induction l as [|o l IH]; intros old g objs; auto. cbn [renumber map Model_Seed.trace]. fold (renumber (length old) l). rewrite renumber_step. cbn [fst snd]. rewrite IH. f_equal. destruct (snd (step (mkProc g objs) o)); reflexivity.
Qed.
End Lemmas.

(** ** What fix_seed achieves *)
(** After fix_seed with a valid seed, a program that uses only detectors it creates itself sees the same, whatever happened in
    the process before. *)
Theorem C123_fix_seed : forall X Y G A (R : rng G A) n (prog : list (op X Y G A)) (p : process X Y G A) g, valid_seed n ->
  trace R p (OSeed n :: renumber (length (pr_objs p)) prog) = trace R (mkProc g []) (OSeed n :: prog).
Proof.
  intros X Y G A R n prog [g0 objs] g Hn. cbn [pr_objs trace step pr_g]. rewrite !fix_seed_valid by auto. cbn [fst snd]. f_equal.
  rewrite <- (app_nil_r objs) at 1. apply renumber_trace.
Qed.
Print Assumptions C123_fix_seed.
(** Any other seed raises ValueError and leaves the generator alone. *)
Theorem C123_fix_seed_rejects : forall X Y G A (R : rng G A) n (p : process X Y G A), ~ valid_seed n -> step R p (OSeed n) = (Done (Raise ValueError), p).
Proof.
  intros X Y G A R n [g objs] H. unfold step, fix_seed. cbn [pr_g pr_objs]. destruct (Z.leb_spec 0 n), (Z.ltb_spec n (2 ^ 32)); cbn [andb]; auto. exfalso. apply H. split; auto.
Qed.
Print Assumptions C123_fix_seed_rejects.

(** ** Detectors that draw nothing in their methods *)
Lemma nth_set_nth_other : forall B (l : list B) i j x, i <> j -> nth_error (set_nth i x l) j = nth_error l j.
Proof. intros B l. induction l as [|a l IH]; intros [|i] [|j] x H; try reflexivity; try congruence. cbn [set_nth nth_error]. apply IH. congruence. Qed.
Lemma nth_set_nth_same : forall B (l : list B) i x, i < length l -> nth_error (set_nth i x l) i = Some x.
Proof. intros B l. induction l as [|a l IH]; intros [|i] x H; cbn [length] in H; try lia; [reflexivity|]. cbn [set_nth nth_error]. apply IH. lia. Qed.
(** A step that is no call of detector i leaves it as it is. *)
Lemma step_other : forall X Y G A (R : rng G A) (p : process X Y G A) o i b, nth_error (pr_objs p) i = Some b -> (forall c, o <> OCall i c) -> nth_error (pr_objs (snd (step R p o))) i = Some b.
Proof.
  intros X Y G A R [g objs] o i b E N. cbn [pr_objs] in E. destruct o as [n|mk|j c|[n|]|n]; cbn [step pr_g pr_objs].
  - destruct (fix_seed R n g). auto.
  - destruct (mk g) as [[b'|e] g']; cbn [fst snd pr_g pr_objs]; auto. rewrite nth_error_app1; auto. apply nth_error_Some. congruence.
  - destruct (nth_error objs j) as [b'|]; auto. destruct (ob_call b' c (g, ob_now b')) as [r gs]. cbn [fst snd pr_objs]. rewrite nth_set_nth_other; auto. intros ->. apply (N c). reflexivity.
  - destruct (fix_seed R n g). auto.
  - auto.
  - destruct (rg_shuffle R n g). auto.
Qed.
Lemma step_call : forall X Y G A (R : rng G A) (p : process X Y G A) c i b, nth_error (pr_objs p) i = Some b ->
  fst (step R p (OCall i c)) = Answer (fst (ob_call b c (pr_g p, ob_now b))) /\ nth_error (pr_objs (snd (step R p (OCall i c)))) i = Some (Obj (ob_state b) (ob_call b) (snd (snd (ob_call b c (pr_g p, ob_now b))))).
Proof.
  intros X Y G A R [g objs] c i b E. cbn [pr_objs pr_g] in *. cbn [step pr_g pr_objs]. rewrite E. destruct (ob_call b c (g, ob_now b)) as [r gs]. cbn [fst snd pr_objs]. split; auto. apply nth_set_nth_same. apply nth_error_Some. congruence.
Qed.
Lemma is_call : forall X Y G A (o : op X Y G A) i, (exists c, o = OCall i c) \/ (forall c, o <> OCall i c).
Proof. intros X Y G A o i. destruct o as [n|mk|j c|s|n]; try (right; intros c'; discriminate). destruct (Nat.eq_dec j i) as [-> | N]; [left; eauto|right; congruence]. Qed.
Lemma other_calls : forall X Y G A (o : op X Y G A) i l s t, (forall c, o <> OCall i c) -> calls_to i (o :: l) = calls_to i l /\ answers_of i (o :: l) (s :: t) = answers_of i l t.
Proof.
  intros X Y G A o i l s t N. unfold calls_to, answers_of. cbn [flat_map combine]. destruct o as [n|mk|j c|sd|n]; auto. destruct (Nat.eqb_spec j i) as [-> | _]; [exfalso; apply (N c); reflexivity|]. split; auto. destruct s; reflexivity.
Qed.
Lemma own_calls : forall X Y G A i c (l : list (op X Y G A)) r t, calls_to i (OCall i c :: l) = c :: calls_to i l /\ answers_of i (OCall i c :: l) (Answer r :: t) = r :: answers_of i l t.
Proof. intros. unfold calls_to, answers_of. cbn [flat_map combine]. rewrite Nat.eqb_refl. split; reflexivity. Qed.
(** Whatever else runs in the process, and whatever it seeds, such a detector answers as if it were alone. *)
Theorem C123_no_interference : forall X Y G A (R : rng G A) (m : Model X Y A) s (prog : list (op X Y G A)) p i,
  nth_error (pr_objs p) i = Some (own m s) -> answers_of i prog (trace R p prog) = model_answers m s (calls_to i prog).
Proof.
  intros X Y G A R m s prog. revert s. induction prog as [|o prog IH]; intros s p i E; auto. cbn [trace]. destruct (is_call _ _ _ _ o i) as [[c ->]|N].
  - destruct (step_call _ _ _ _ R p c i _ E) as [E1 E2]. rewrite E1. destruct (own_calls X Y G A i c prog (fst (ob_call (own m s) c (pr_g p, ob_now (own m s)))) (trace R (snd (step R p (OCall i c))) prog)) as [-> ->]. cbn [model_answers].
    cbn [own ob_call ob_now fst snd ob_state] in *. rewrite (IH (model_do m s c)).
    + unfold eval. destruct (model_call m c s). reflexivity.
    + rewrite E2. unfold own. unfold model_do, exec. destruct (model_call m c s) as [r s']. reflexivity.
  - destruct (other_calls _ _ _ _ o i prog (fst (step R p o)) (trace R (snd (step R p o)) prog) N) as [-> ->]. apply IH. apply step_other; auto.
Qed.
Print Assumptions C123_no_interference.

(** ** RandomModel and LODA: some sequence of draws explains the answers *)
Lemma random_explained : forall X Y G A (R : rng G A) prog (p : process X Y G A) i k, nth_error (pr_objs p) i = Some (new_random R) ->
  exists vs, Forall (fun v => exists g, v = fst (rg_uniform R g)) vs /\ forall draw, (forall j v, nth_error vs j = Some v -> draw (k + j) = v) ->
    answers_of i prog (trace R p prog) = model_answers (RandomModel draw) k (calls_to i prog).
Proof.
  intros X Y G A R prog. induction prog as [|o prog IH]; intros p i k E; [exists []; split; auto|]. cbn [trace]. destruct (is_call _ _ _ _ o i) as [[c ->]|N].
  - destruct (step_call _ _ _ _ R p c i _ E) as [E1 E2]. rewrite E1. set (cl := ob_call (new_random R) c (pr_g p, ob_now (new_random R))) in *. set (p1 := snd (step R p (OCall i c))) in *. destruct (own_calls X Y G A i c prog (fst cl) (trace R p1 prog)) as [-> ->]. cbn [model_answers].
    assert (E3 : nth_error (pr_objs p1) i = Some (new_random R)). { rewrite E2. clear. generalize (snd (snd cl)). clear. intros u. change unit in u. destruct u. reflexivity. }
    destruct c as [x y|x|x y].
    + destruct (IH p1 i k E3) as (vs & F & H). exists vs. split; auto. intros draw Hd. rewrite (H draw Hd). reflexivity.
    + destruct (IH p1 i (S k) E3) as (vs & F & H). exists (fst (rg_uniform R (pr_g p)) :: vs). split; [constructor; eauto|]. intros draw Hd. assert (Dk : draw k = fst (rg_uniform R (pr_g p))) by (rewrite <- (Nat.add_0_r k); apply Hd; reflexivity). rewrite (H draw).
      * unfold model_do, exec, eval. cbn [model_call RandomModel plain_model md_score]. unfold bind, gets, modify, ret. cbn [fst snd]. rewrite Dk. unfold cl, new_random, shared. cbn [ob_call ob_now model_call plain_model md_score]. unfold random_score. cbn [fst]. destruct (rg_uniform R (pr_g p)). reflexivity.
      * intros j v Hj. rewrite <- (Hd (S j) v Hj). f_equal. lia.
    + destruct (IH p1 i (S k) E3) as (vs & F & H). exists (fst (rg_uniform R (pr_g p)) :: vs). split; [constructor; eauto|]. intros draw Hd. assert (Dk : draw k = fst (rg_uniform R (pr_g p))) by (rewrite <- (Nat.add_0_r k); apply Hd; reflexivity). rewrite (H draw).
      * unfold model_do, exec, eval. cbn [model_call RandomModel plain_model md_fit_score md_score]. unfold default_fit_score, bind, gets, modify, ret. cbn [fst snd]. rewrite Dk. unfold cl, new_random, shared. cbn [ob_call ob_now model_call plain_model md_fit_score]. unfold default_fit_score, bind, ret, random_score. cbn [fst]. destruct (rg_uniform R (pr_g p)). reflexivity.
      * intros j v Hj. rewrite <- (Hd (S j) v Hj). f_equal. lia.
  - destruct (other_calls _ _ _ _ o i prog (fst (step R p o)) (trace R (snd (step R p o)) prog) N) as [-> ->]. apply IH. apply step_other; auto.
Qed.
(** The scores of a RandomModel are numbers the generator returned, one after the other; all theorems about RandomModel apply. *)
Theorem C123_random : forall X Y G A (R : rng G A) prog (p : process X Y G A) i, nth_error (pr_objs p) i = Some (new_random R) ->
  exists draw, (forall k, exists g, draw k = fst (rg_uniform R g)) /\ answers_of i prog (trace R p prog) = model_answers (RandomModel draw) 0 (calls_to i prog).
Proof.
  intros X Y G A R prog p i E. destruct (random_explained _ _ _ _ R prog p i 0 E) as (vs & F & H). exists (fun k => nth k vs (fst (rg_uniform R (pr_g p)))). split.
  - intros k. destruct (nth_in_or_default k vs (fst (rg_uniform R (pr_g p)))) as [I| ->]; eauto. rewrite Forall_forall in F. apply F, I.
  - apply H. intros j v Hj. apply nth_error_nth. exact Hj.
Qed.
Print Assumptions C123_random.

(** *** LODA *)
Section Loda.
Context {G A : Type} {NA : Num A} (R : rng G A).
Variable (half eps : A) (log : A -> A) (nb nc : nat).
Definition dim_ok (d : nat) (l : lodast A) : Prop := exists o, loda_obj l = Some o /\ lo_dim o = d.
Definition drawn (d : nat) (q : list nat) : Prop := exists g, q = fst (rg_permutation R d g).
Lemma cut_explained : forall d x i g l r g' l', dim_ok d l -> loda_cut_shared R half eps nb x i (g, l) = (r, (g', l')) ->
  exists q, drawn d q /\ dim_ok d l' /\ loda_draws l' = S (loda_draws l) /\ forall perms, perms (loda_draws l) = q -> loda_cut half eps perms nb x i l = (r, l').
Proof.
  intros d x i g l r g' l' (o & Eo & Ed) H. unfold loda_cut_shared in H. cbn [fst snd] in H. rewrite Eo in H. destruct (rg_permutation R (lo_dim o) g) as [q g1] eqn:Eq. exists q. split; [exists g; rewrite <- Ed, Eq; reflexivity|].
  destruct (loda_cut half eps (fun _ => q) nb x i l) as [r1 l1] eqn:Ec. apply (f_equal (fun z => (fst z, snd (snd z)))) in H. cbn [fst snd] in H. apply pair_equal_spec in H. destruct H as [-> ->].
  unfold loda_cut, bind, gets in Ec. unfold loda_cut, bind, gets. rewrite Eo in *. unfold modify, raise in *.
  destruct (negb (length x =? lo_dim o)); [|destruct (nb =? 0)]; apply pair_equal_spec in Ec; destruct Ec as [<- <-]; cbn [loda_draws loda_obj]; (split; [eexists; split; [reflexivity|exact Ed]|]); (split; [reflexivity|]); intros perms ->; reflexivity.
Qed.
Lemma cuts_explained : forall d x is g l r g' l', dim_ok d l -> iterM (loda_cut_shared R half eps nb x) is (g, l) = (r, (g', l')) ->
  exists qs, Forall (drawn d) qs /\ dim_ok d l' /\ loda_draws l' = loda_draws l + length qs /\
    forall perms, (forall k q, nth_error qs k = Some q -> perms (loda_draws l + k) = q) -> iterM (loda_cut half eps perms nb x) is l = (r, l').
Proof.
  intros d x is. induction is as [|i is IH]; intros g l r g' l' D H.
  - cbn in H. apply (f_equal (fun z => (fst z, snd (snd z)))) in H. cbn [fst snd] in H. apply pair_equal_spec in H. destruct H as [<- <-]. exists []. cbn [length]. rewrite Nat.add_0_r. auto.
  - cbn [iterM] in H |- *. unfold bind in H |- *. destruct (loda_cut_shared R half eps nb x i (g, l)) as [r1 [g1 l1]] eqn:E1. destruct (cut_explained d x i g l r1 g1 l1 D E1) as (q & Q & D1 & S1 & P1). destruct r1 as [[]|e].
    + destruct (IH g1 l1 r g' l' D1 H) as (qs & Qs & D2 & S2 & P2). exists (q :: qs). split; [constructor; auto|]. split; auto. split; [cbn [length]; lia|]. intros perms Hp. rewrite (P1 perms); [|rewrite <- (Nat.add_0_r (loda_draws l)); apply Hp; reflexivity]. apply P2. intros k q' Hk. rewrite S1. rewrite <- (Hp (S k) q' Hk). f_equal. lia.
    + apply (f_equal (fun z => (fst z, snd (snd z)))) in H. cbn [fst snd] in H. apply pair_equal_spec in H. destruct H as [<- <-]. exists [q]. split; auto. split; auto. split; [cbn [length]; lia|]. intros perms Hp. rewrite (P1 perms); [reflexivity|]. rewrite <- (Nat.add_0_r (loda_draws l)). apply Hp. reflexivity.
Qed.
(** The matrix, once drawn, and the permutations drawn so far. *)
Definition lodalog : Type := option (nat -> nat -> A) * list (list nat).
Definition agree (lg : lodalog) (randn : nat -> nat -> A) (perms : nat -> list nat) : Prop :=
  (forall z, fst lg = Some z -> randn = z) /\ forall k q, nth_error (snd lg) k = Some q -> perms k = q.
Definition extends (lg lg' : lodalog) : Prop := (forall z, fst lg = Some z -> fst lg' = Some z) /\ exists qs, snd lg' = snd lg ++ qs.
Lemma agree_extends : forall lg lg' randn perms, extends lg lg' -> agree lg' randn perms -> agree lg randn perms.
Proof.
  intros lg lg' randn perms [E (qs & Eq)] [H1 H2]. split; [intros z Hz; apply H1, E, Hz|]. intros k q Hk. apply H2. rewrite Eq, nth_error_app1; auto. apply nth_error_Some. congruence.
Qed.
Lemma extends_refl : forall lg, extends lg lg.
Proof. intros lg. split; auto. exists []. rewrite app_nil_r. reflexivity. Qed.
Lemma extends_trans : forall a b c, extends a b -> extends b c -> extends a c.
Proof. intros a b c [A1 (q1 & A2)] [B1 (q2 & B2)]. split; auto. exists (q1 ++ q2). rewrite B2, A2, app_assoc. reflexivity. Qed.
Definition logged (lg : lodalog) (l : lodast A) : Prop := loda_draws l = length (snd lg) /\ (loda_obj l = None -> lg = (None, [])) /\ (forall o, loda_obj l = Some o -> fst lg <> None /\ Forall (drawn (lo_dim o)) (snd lg)).
Lemma fit_explained : forall Y lg x g l r g' l', logged lg l -> loda_fit_shared R half eps nb nc x (g, l) = (r, (g', l')) ->
  exists lg', extends lg lg' /\ logged lg' l' /\ loda_obj l' <> None /\ (forall o, loda_obj l = Some o -> dim_ok (lo_dim o) l') /\ (loda_obj l = None -> dim_ok (length x) l') /\
    forall randn perms (y : option Y), agree lg' randn perms -> md_fit (LODA half eps log randn perms nb nc) x y l = (r, l').
Proof.
  intros Y [z0 qs0] x g l r g' l' (L1 & L2 & L3) H. cbn [fst snd] in *. unfold loda_fit_shared, bind, modify in H. cbn [fst snd] in H. destruct (loda_obj l) as [o|] eqn:Eo.
  - destruct (L3 o eq_refl) as [Lz Lq]. assert (D : dim_ok (lo_dim o) l) by (exists o; auto). destruct (cuts_explained _ _ _ _ _ _ _ _ D H) as (qs & Q & D' & S' & P). exists (z0, qs0 ++ qs).
    split; [split; [auto|exists qs; reflexivity]|]. split; [split; [cbn [snd]; rewrite app_length; lia|]|].
    + destruct D' as (o' & Eo' & Ed'). split; [congruence|]. intros o2 Ho2. cbn [fst snd]. rewrite Eo' in Ho2. inversion Ho2; subst o2. rewrite Ed'. split; auto. apply Forall_app. auto.
    + split; [destruct D' as (o' & Eo' & _); congruence|]. split; [intros o2 Ho2; inversion Ho2; subst; auto|]. split; [discriminate|]. intros randn perms y [_ Hp]. cbn [md_fit LODA plain_model]. unfold bind, modify. rewrite Eo. apply P. intros k q Hk. apply Hp. cbn [snd]. rewrite L1, nth_error_app2 by lia. replace (length qs0 + k - length qs0) with k by lia. exact Hk.
  - specialize (L2 eq_refl). inversion L2; subst z0 qs0. cbn [length] in L1. destruct (rg_randn R nc (length x) g) as [z g1]. set (l0 := mkLoda (Some (loda_setup z nb nc (length x))) (loda_draws l)) in *.
    assert (D : dim_ok (length x) l0) by (eexists; split; [reflexivity|reflexivity]). destruct (cuts_explained _ _ _ _ _ _ _ _ D H) as (qs & Q & D' & S' & P). exists (Some z, qs).
    split; [split; [discriminate|exists qs; reflexivity]|]. change (loda_draws l0) with (loda_draws l) in *. split; [split; [cbn [snd]; lia|]|].
    + destruct D' as (o' & Eo' & Ed'). split; [congruence|]. intros o2 Ho2. cbn [fst snd]. rewrite Eo' in Ho2. inversion Ho2; subst o2. rewrite Ed'. split; [discriminate|auto].
    + split; [destruct D' as (o' & Eo' & _); congruence|]. split; [discriminate|]. split; [auto|]. intros randn perms y [Hz Hp]. cbn [md_fit LODA plain_model]. unfold bind, modify. rewrite Eo. rewrite (Hz z eq_refl). apply P. intros k q Hk. apply Hp. cbn [snd]. rewrite L1. exact Hk.
Qed.
Definition loda_at {Y} (l : lodast A) : object (list A) Y G A := Obj (lodast A) (ob_call (new_loda (Y := Y) R half eps log nb nc)) l.
Definition first_dim {Y} (l : lodast A) (h : list (mcall (list A) Y)) (d : nat) : Prop := match loda_obj l with Some o => lo_dim o = d | None => match fitted_instances h with [] => True | x :: _ => length x = d end end.
Lemma score_same : forall Y randn perms randn' perms' x l, md_score (LODA (Y := Y) half eps log randn perms nb nc) x l = md_score (LODA (Y := Y) half eps log randn' perms' nb nc) x l.
Proof. reflexivity. Qed.
Lemma score_keeps : forall Y randn perms x l, snd (md_score (LODA (Y := Y) half eps log randn perms nb nc) x l) = l.
Proof. intros. cbn [md_score LODA plain_model]. unfold bind, gets. destruct (loda_obj l); [|reflexivity]. unfold lift, ret. destruct (res_map _ _); reflexivity. Qed.
Lemma call_explained : forall Y lg (c : mcall (list A) Y) g l, logged lg l -> let cl := ob_call (loda_at (Y := Y) l) c (g, l) in
  exists lg', extends lg lg' /\ logged lg' (snd (snd cl)) /\ (forall h d, first_dim l (c :: h) d -> first_dim (snd (snd cl)) h d) /\
    forall randn perms, agree lg' randn perms -> model_call (LODA half eps log randn perms nb nc) c l = (fst cl, snd (snd cl)).
Proof.
  intros Y lg c g l Lg cl. subst cl. unfold loda_at, new_loda, shared. cbn [ob_call]. destruct c as [x y|x|x y]; cbn [model_call plain_model md_fit md_score md_fit_score].
  - destruct (loda_fit_shared R half eps nb nc x (g, l)) as [r [g' l']] eqn:E. destruct (fit_explained Y lg x g l r g' l' Lg E) as (lg' & X1 & X2 & X3 & X4 & X5 & X6). exists lg'. cbn [fst snd]. split; auto. split; auto. split.
    + intros h d H. unfold first_dim in *. destruct (loda_obj l) as [o|].
      * destruct (X4 o eq_refl) as (o' & -> & ->). exact H.
      * destruct (X5 eq_refl) as (o' & -> & ->). exact H.
    + intros randn perms Ha. rewrite (X6 randn perms y Ha). reflexivity.
  - exists lg. cbn [snd fst]. pose proof (score_keeps Y (fun _ _ => n0) (fun _ => []) x l) as K. destruct (md_score (LODA half eps log (fun _ _ => n0) (fun _ => []) nb nc) x l) as [r l'] eqn:E. cbn [fst snd] in *. subst l'. split; [apply extends_refl|]. split; auto. split; [auto|].
    intros randn perms _. rewrite (score_same Y randn perms (fun _ _ => n0) (fun _ => [])), E. reflexivity.
  - unfold default_fit_score, bind. destruct (loda_fit_shared R half eps nb nc x (g, l)) as [r [g' l']] eqn:E. destruct (fit_explained Y lg x g l r g' l' Lg E) as (lg' & X1 & X2 & X3 & X4 & X5 & X6). exists lg'.
    assert (Fd : forall h d, first_dim l (CFitScore x y :: h) d -> first_dim l' h d). { intros h d H. unfold first_dim in *. destruct (loda_obj l) as [o|]. - destruct (X4 o eq_refl) as (o' & -> & ->). exact H. - destruct (X5 eq_refl) as (o' & -> & ->). exact H. }
    destruct r as [[]|e].
    + cbn [snd fst]. pose proof (score_keeps Y (fun _ _ => n0) (fun _ => []) x l') as K. destruct (md_score (LODA half eps log (fun _ _ => n0) (fun _ => []) nb nc) x l') as [r l2] eqn:E2. cbn [fst snd] in *. subst l2. split; auto. split; auto. split; auto. intros randn perms Ha. cbn [LODA plain_model md_fit_score]. unfold default_fit_score, bind. pose proof (X6 randn perms y Ha) as Hf. cbn [md_fit LODA plain_model] in Hf. unfold bind in Hf. rewrite Hf. rewrite (score_same Y (fun _ _ => n0) (fun _ => []) randn perms) in E2. cbn [md_score LODA plain_model] in E2. unfold bind in E2. rewrite E2. reflexivity.
    + cbn [snd fst]. split; auto. split; auto. split; auto. intros randn perms Ha. cbn [LODA plain_model md_fit_score]. unfold default_fit_score, bind. pose proof (X6 randn perms y Ha) as Hf. cbn [md_fit LODA plain_model] in Hf. unfold bind in Hf. rewrite Hf. reflexivity.
Qed.
Lemma loda_explained : forall Y (prog : list (op (list A) Y G A)) p i lg l, nth_error (pr_objs p) i = Some (loda_at l) -> logged lg l ->
  exists lg', extends lg lg' /\ (forall d, first_dim l (calls_to i prog) d -> Forall (drawn d) (snd lg')) /\
    forall randn perms, agree lg' randn perms -> answers_of i prog (trace R p prog) = model_answers (LODA half eps log randn perms nb nc) l (calls_to i prog).
Proof.
  intros Y prog. induction prog as [|o prog IH]; intros p i lg l E Lg.
  - exists lg. split; [apply extends_refl|]. split; [|reflexivity]. intros d H. destruct Lg as (L1 & L2 & L3). unfold first_dim in H. destruct (loda_obj l) as [ob|]; [subst d; apply L3; auto|]. rewrite (L2 eq_refl). constructor.
  - cbn [trace]. destruct (is_call _ _ _ _ o i) as [[c ->]|N].
    + destruct (step_call _ _ _ _ R p c i _ E) as [E1 E2]. rewrite E1. cbn [loda_at ob_state ob_now] in E2. destruct (call_explained Y lg c (pr_g p) l Lg) as (lg1 & X1 & X2 & X3 & X4). set (cl := ob_call (loda_at l) c (pr_g p, ob_now (loda_at l))) in *. change (ob_call (loda_at l) c (pr_g p, l)) with cl in *.
      destruct (IH (snd (step R p (OCall i c))) i lg1 (snd (snd cl)) E2 X2) as (lg2 & Y1 & Y2 & Y3). exists lg2. destruct (own_calls _ _ _ _ i c prog (fst cl) (trace R (snd (step R p (OCall i c))) prog)) as [-> ->].
      split; [eapply extends_trans; eauto|]. split; [intros d H; apply Y2, X3, H|]. intros randn perms Ha. cbn [model_answers]. unfold eval, model_do, exec. rewrite (X4 randn perms (agree_extends _ _ _ _ Y1 Ha)). cbn [fst snd]. f_equal. apply Y3, Ha.
    + destruct (other_calls _ _ _ _ o i prog (fst (step R p o)) (trace R (snd (step R p o)) prog) N) as [-> ->]. apply IH; auto. apply step_other; auto.
Qed.
End Loda.
(** Whatever else draws random numbers in the process or reseeds the generator, some matrix and some permutations explain the
    answers of a LODA detector: all theorems about LODA apply. *)
Theorem C123_loda : forall Y G A (NA : Num A) (R : rng G A) half eps log nb nc (prog : list (op (list A) Y G A)) p i, nth_error (pr_objs p) i = Some (new_loda R half eps log nb nc) ->
  exists randn perms, answers_of i prog (trace R p prog) = model_answers (LODA half eps log randn perms nb nc) LODA_init (calls_to i prog) /\
    ((forall n g, Permutation (fst (rg_permutation R n g)) (seq 0 n)) -> forall x rest, fitted_instances (calls_to i prog) = x :: rest -> forall k, Permutation (perms k) (seq 0 (length x))).
Proof.
  intros Y G A NA R half eps log nb nc prog p i E. destruct (loda_explained R half eps log nb nc Y prog p i (None, []) LODA_init E) as (lg & _ & X2 & X3). { split; [reflexivity|]. split; [reflexivity|discriminate]. }
  set (d := match fitted_instances (calls_to i prog) with [] => 0 | x :: _ => length x end). exists (match fst lg with Some z => z | None => fun _ _ => n0 end), (fun k => nth k (snd lg) (seq 0 d)). split.
  - apply X3. split; [intros z ->; reflexivity|]. intros k q Hk. apply nth_error_nth. exact Hk.
  - intros HP x rest Ef k. assert (F : Forall (drawn R (length x)) (snd lg)). { apply X2. unfold first_dim. cbn [LODA_init loda_obj]. rewrite Ef. reflexivity. }
    unfold d. rewrite Ef. destruct (nth_in_or_default k (snd lg) (seq 0 (length x))) as [I| ->]; [|apply Permutation_refl]. rewrite Forall_forall in F. destruct (F _ I) as (g & ->). apply HP.
Qed.
Print Assumptions C123_loda.

Lemma model_answers_app : forall X Y A (m : Model X Y A) h1 h2 s, model_answers m s (h1 ++ h2) = model_answers m s h1 ++ model_answers m (model_run m s h1) h2.
Proof. intros X Y A m h1. induction h1 as [|c h1 IH]; intros h2 s; auto. cbn [app model_answers]. rewrite IH. reflexivity. Qed.
(** For example: in any process, a LODA detector with an even number of bins that was fitted with xl last answers the same when
    asked about xl, whatever the generator returned to it and to others (C84, exact arithmetic). *)
Theorem C123_loda_own_instance : forall Y G (rg : rng G R) nb c d (prog : list (op (list R) Y G R)) p i h xs xl, nth_error (pr_objs p) i = Some (new_loda rg (1 / 2)%R (1 / 10 ^ 12)%R ln nb c) ->
  (1 <= nb)%nat -> (1 <= c)%nat -> Nat.Even nb \/ nb = 1%nat -> calls_to i prog = h ++ [CScore xl] -> fitted_instances h = xs ++ [xl] -> Forall (fun x => length x = d) (xs ++ [xl]) ->
  last (answers_of i prog (trace rg p prog)) (Raise IndexError) = Ok (Some (VArray [(- ln ((1 + 1 / 10 ^ 12) / (1 + INR nb / 10 ^ 12)) / INR c)%R])).
Proof.
  intros Y G rg nb c d prog p i h xs xl E Hnb Hc Hev Ec Ef F. destruct (C123_loda Y G _ _ rg _ _ _ nb c prog p i E) as (randn & perms & -> & _). rewrite Ec, model_answers_app. cbn [model_answers]. rewrite last_last.
  pose proof (Prop_Loda.C84_even_bins Y randn perms nb c d h xs xl Hnb Hc Ef F Hev) as H. unfold eval in *. cbn [model_call]. destruct (md_score _ xl _) as [r s']. cbn [fst] in *. rewrite H. reflexivity.
Qed.
Print Assumptions C123_loda_own_instance.

(** ** Seeded iterators *)
(** With a seed, and nothing drawn between get_iterator and the first instance, the order is always the same. *)
Theorem C123_seeded_order : forall X Y G A (R : rng G A) n k (p p' : process X Y G A), valid_seed n -> trace R p [OGetIterator (Some n); OStart k] = trace R p' [OGetIterator (Some n); OStart k].
Proof. intros X Y G A R n k p p' Hn. cbn [trace step]. rewrite !fix_seed_valid by auto. cbn [fst snd pr_g]. destruct (rg_shuffle R k (rg_seed R n)). reflexivity. Qed.
Print Assumptions C123_seeded_order.
Lemma random_stays : forall X Y G A (R : rng G A) o (p : process X Y G A) i, nth_error (pr_objs p) i = Some (new_random R) -> nth_error (pr_objs (snd (step R p o))) i = Some (new_random R).
Proof.
  intros X Y G A R o p i E. destruct (is_call _ _ _ _ o i) as [[c ->]|N]; [|apply step_other; auto]. destruct (step_call _ _ _ _ R p c i _ E) as [_ ->]. generalize (snd (snd (ob_call (new_random R) c (pr_g p, ob_now (new_random R))))). intros u. change unit in u. destruct u. reflexivity.
Qed.
(** The seed resets the generator for everybody: in each such pass over a file a RandomModel gives the same scores again,
    whatever happens between the passes. *)
Theorem C123_random_repeats : forall X Y G A (R : rng G A) n k cs between (p : process X Y G A) i, valid_seed n -> nth_error (pr_objs p) i = Some (new_random R) ->
  let pass := OGetIterator (Some n) :: OStart k :: map (OCall i) cs in trace R (after R p between) pass = trace R p pass.
Proof.
  intros X Y G A R n k cs between p i Hn E pass. assert (E' : nth_error (pr_objs (after R p between)) i = Some (new_random R)). { clear pass. revert p E. induction between as [|o l IH]; intros p E; auto. unfold after in *. cbn [fold_left]. apply IH. apply random_stays, E. }
  assert (T : forall p1 p2, nth_error (pr_objs p1) i = Some (new_random R) -> nth_error (pr_objs p2) i = Some (new_random R) -> pr_g p1 = pr_g p2 -> trace R p1 (map (OCall i) cs) = trace R p2 (map (OCall i) cs)).
  { clear. induction cs as [|c cs IH]; intros p1 p2 E1 E2 Eg; auto. cbn [map trace]. f_equal.
    - destruct (step_call _ _ _ _ R p1 c i _ E1) as [-> _]. destruct (step_call _ _ _ _ R p2 c i _ E2) as [-> _]. rewrite Eg. reflexivity.
    - apply IH; try (apply random_stays; auto). cbn [step]. rewrite E1, E2, Eg. destruct (ob_call (new_random R) c (pr_g p2, ob_now (new_random R))). reflexivity. }
  subst pass. cbn [trace step]. rewrite !fix_seed_valid by auto. cbn [fst snd pr_g pr_objs]. destruct (rg_shuffle R k (rg_seed R n)) as [dr g]. cbn [fst snd pr_g pr_objs]. f_equal. f_equal. apply T; auto.
Qed.
Print Assumptions C123_random_repeats.

(** ** What fix_seed and a seeded iterator do not achieve *)
(** A generator for the counterexamples: its state counts the draws. *)
Definition counting : rng nat float :=
  mkRng Z.to_nat (fun g => (float_ofZ (Z.of_nat g), S g)) (fun _ _ g => (fun _ _ => 1%float, S g))
    (fun n g => (if Nat.even g then seq 0 n else rev (seq 0 n), S g)) (fun _ g => (fun i => if Nat.even g then i else 0, S g)) (fun n g => (g mod n, S g))
    (fun k g => (repeat 0x1p-1%float k, S g)) (fun lo _ k g => (repeat lo k, S g)) (fun lo _ g => (lo, S g)) (fun l k g => (firstn k l, S g)).
Definition hst_program (n : Z) : list (op (list float) unit nat float) := [OSeed n; ONew (new_hst counting (fun v => v) [0; 0]%float [1; 1]%float 1 1 1 IWNone)].
Definition loda_program (between : list (op (list float) unit nat float)) : list (op (list float) unit nat float) :=
  [ONew (fun g => (Ok (new_loda counting 0.5%float 0x1p-30%float (fun x => x) 2 1), g)); ONew (fun g => (Ok (new_random counting), g)); OSeed 3; OCall 0 (CFit [1; 0; 0; 0]%float None)] ++ between ++ [OCall 0 (CFit [1; 0; 0; 0]%float None); OCall 0 (CScore [5; 5; -5; -5]%float)].
Lemma by_test : forall B (f : B -> bool) a b, f a <> f b -> a <> b.
Proof. congruence. Qed.
Definition well_below_0 (a : seen float) : bool := match a with Answer (Ok (Some (VScalar v))) => PrimFloat.ltb v (-2) | Answer (Ok (Some (VArray [v]))) => PrimFloat.ltb v (-0x1p-1) | _ => false end.
(** fix_seed does not make detectors reproducible that were created before. *)
Theorem C123_seed_too_late_refuted : exists (R : rng nat float) (first second rest : list (op (list float) unit nat float)), let p := mkProc 0 [] in
  length (pr_objs (after R p first)) = 1 /\ length (pr_objs (after R p second)) = 1 /\
  trace R (after R p first) (OSeed 5 :: rest) <> trace R (after R p second) (OSeed 5 :: rest).
Proof.
  exists counting, (hst_program 0), (hst_program 1), [OCall 0 (CFit [0.75; 0.25]%float None); OCall 0 (CScore [0.75; 0.75]%float)]. cbv zeta. split; [reflexivity|]. split; [reflexivity|]. apply (by_test _ (existsb well_below_0)). vm_compute. discriminate.
Qed.
Print Assumptions C123_seed_too_late_refuted.
(** Asking a RandomModel for a score changes the answers of a LODA detector in the same process. *)
Theorem C123_no_interference_refuted : exists (R : rng nat float) (prog1 prog2 : list (op (list float) unit nat float)) i, nth_error (pr_objs (after R (mkProc 0 []) prog1)) i <> None /\ calls_to i prog1 = calls_to i prog2 /\
  answers_of i prog1 (trace R (mkProc 0 []) prog1) <> answers_of i prog2 (trace R (mkProc 0 []) prog2).
Proof. exists counting, (loda_program []), (loda_program [OCall 1 (CScore [])]), 0. split; [discriminate|]. split; [reflexivity|]. apply (by_test _ (existsb (fun r => well_below_0 (Answer r)))). vm_compute. discriminate. Qed.
Print Assumptions C123_no_interference_refuted.
(** Creating a detector between get_iterator and the loop changes the order of a seeded iterator: the shuffling is done when
    the first instance is asked for. *)
Theorem C123_seeded_order_refuted : exists (R : rng nat float) (mk : nat -> res (object (list float) unit nat float) * nat) n k,
  last (trace R (mkProc 0 []) [OGetIterator (Some n); ONew mk; OStart k]) (Done (Ok tt)) <> last (trace R (mkProc 0 []) [ONew mk; OGetIterator (Some n); OStart k]) (Done (Ok tt)).
Proof. exists counting, (new_hst counting (fun v => v) [0; 0]%float [1; 1]%float 1 1 1 IWNone), 4%Z, 3. vm_compute. discriminate. Qed.
Print Assumptions C123_seeded_order_refuted.

(** ** Cases *)
(** An HST and a RandomModel used in turns, with fix_seed in between: the hypotheses hold, and the answers are not all equal. *)
Definition turns : list (op (list float) unit nat float) :=
  [ONew (new_hst counting (fun v => v) [0; 0]%float [1; 1]%float 1 1 1 IWNone); ONew (fun g => (Ok (new_random counting), g)); OCall 0 (CFit [0.75; 0.25]%float None); OCall 1 (CScore []); OCall 0 (CScore [0.75; 0.75]%float); OSeed 9; OCall 1 (CScore []); OCall 0 (CScore [0.25; 0.75]%float)].
Example C123_ex_turns : trace counting (mkProc 7 []) (OSeed 2 :: turns) = trace counting (mkProc 0 []) (OSeed 2 :: turns) /\
  answers_of 0 turns (trace counting (mkProc 2 []) turns) = [Ok None; Ok (Some (VScalar (-3)%float)); Ok (Some (VScalar (-1)%float))].
Proof. split; vm_compute; reflexivity. Qed.
Example C123_ex_loda : let prog := loda_program [OCall 1 (CScore [])] in nth_error (pr_objs (after counting (mkProc 0 []) (firstn 2 prog))) 0 = Some (new_loda counting 0.5%float 0x1p-30%float (fun x => x) 2 1) /\
  length (calls_to 0 prog) = 3 /\ forall n g, Permutation (fst (rg_permutation counting n g)) (seq 0 n).
Proof. split; [reflexivity|]. split; [reflexivity|]. intros n g. cbn [counting rg_permutation fst]. destruct (Nat.even g); [apply Permutation_refl|apply Permutation_sym, Permutation_rev]. Qed.
