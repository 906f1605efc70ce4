(** * C128: exactly which random numbers every statement of a program takes from numpy's global generator. *)
From Coq Require Import List ZArith Lia Bool Arith.
From Coq Require Import Floats Reals Lra String.
From Verif Require Import Base Num Spec Model_Stats Model_Utils Model_Core Model_Trans Model_Simple Model_Sketch Model_HST Model_Loda Model_XStream P_Utils P_Models Model_Seed Prop_Seed.
From Verif Require Prop_RSHash Prop_XStream.
Import ListNotations.
Open Scope nat_scope.
Local Notation length := List.length.

(** ** Specification *)
(** One use of numpy's generator, and the state it leaves. *)
Inductive request : Type := QSeed (n : Z) | QUniform | QRandn (rows columns : nat) | QPermutation (n : nat) | QShuffle (n : nat) | QRandint (n : nat) | QRand (n : nat).
Definition perform {G A} (R : rng G A) (g : G) (q : request) : G :=
  match q with
  | QSeed n => rg_seed R n
  | QUniform => snd (rg_uniform R g)
  | QRandn r c => snd (rg_randn R r c g)
  | QPermutation n => snd (rg_permutation R n g)
  | QShuffle n => snd (rg_shuffle R n g)
  | QRandint n => snd (rg_randint R n g)
  | QRand n => snd (rg_rand R n g)
  end.
Section Spec.
Context {Y A : Type}.
(** A program: which detectors it creates, and what it does with them. *)
Inductive creation : Type :=
  | NewRandom
  | NewLoda (half eps : A) (log : A -> A) (n_bins n_cuts : nat)
  | NewHst (cast : A -> A) (mins maxes : list A) (window_size num_trees max_depth : nat)
  | NewXStream (two one tiny half : A) (mmh3 : string -> nat -> Z) (p : shproj A) (floor : A -> Z) (log2 : A -> A) (num_components n_chains depth window_size : nat)
  | NewOther (m : Model (list A) Y A) (s : md_state m).
Inductive statement : Type := New (c : creation) | Seed (n : Z) | Call (i : nat) (c : mcall (list A) Y) | GetIterator (seed : option Z) | Start (n : nat).
(** What matters of a detector: it never draws; it is a RandomModel; it is a LODA detector, not fitted yet or fitted first with
    an instance of so many features. *)
Inductive kind : Type := Quiet | Uniform | Cuts (n_bins n_cuts : nat) (features : option nat).
Definition asks_seed (n : Z) : list request := if ((0 <=? n) && (n <? 2 ^ 32))%Z then [QSeed n] else [].
Definition asks_fit (k : kind) (features : nat) : list request :=
  match k with
  | Quiet | Uniform => []
  | Cuts nb nc None => QRandn nc features :: repeat (QPermutation features) (if nb =? 0 then Nat.min 1 nc else nc)
  | Cuts nb nc (Some d) => repeat (QPermutation d) (if (features =? d) && negb (nb =? 0) then nc else Nat.min 1 nc)
  end.
Definition asks_score (k : kind) : list request := match k with Uniform => [QUniform] | _ => [] end.
Definition asks_call (k : kind) (c : mcall (list A) Y) : list request :=
  match c with CFit x _ => asks_fit k (length x) | CScore _ => asks_score k | CFitScore x _ => asks_fit k (length x) ++ asks_score k end.
Definition kind_after (k : kind) (c : mcall (list A) Y) : kind :=
  match k, c with Cuts nb nc None, (CFit x _ | CFitScore x _) => Cuts nb nc (Some (length x)) | _, _ => k end.
Definition asks_new (c : creation) : list request := match c with NewHst _ _ maxes _ t d => repeat (QRandint (length maxes)) (t * (2 ^ d - 1))
  | NewXStream _ _ _ _ _ _ _ _ K n d _ => List.concat (repeat (repeat (QRandint K) d ++ [QRand K]) n) | _ => [] end.
Definition kind_new (c : creation) : kind := match c with NewRandom => Uniform | NewLoda _ _ _ nb nc => Cuts nb nc None | _ => Quiet end.
Fixpoint asks (ks : list kind) (prog : list statement) : list request :=
  match prog with
  | [] => []
  | New c :: r => asks_new c ++ asks (ks ++ [kind_new c]) r
  | Seed n :: r => asks_seed n ++ asks ks r
  | Call i c :: r => match nth_error ks i with None => asks ks r | Some k => asks_call k c ++ asks (set_nth i (kind_after k c) ks) r end
  | GetIterator None :: r => asks ks r
  | GetIterator (Some n) :: r => asks_seed n ++ asks ks r
  | Start n :: r => QShuffle n :: asks ks r
  end.
(** An HST over at least one feature, with as many minima as maxima; xStream with at least one component. *)
Definition sound (s : statement) : Prop := match s with New (NewHst _ mins maxes _ _ _) => length mins = length maxes /\ 1 <= length maxes
  | New (NewXStream _ _ _ _ _ _ _ _ K _ _ _) => 1 <= K | _ => True end.
End Spec.
Arguments creation : clear implicits.
Arguments statement : clear implicits.
(** The statement in the model. *)
Definition perform_new {Y G A} `{Num A} (R : rng G A) (c : creation Y A) (g : G) : res (object (list A) Y G A) * G :=
  match c with
  | NewRandom => (Ok (new_random R), g)
  | NewLoda half eps log nb nc => (Ok (new_loda R half eps log nb nc), g)
  | NewHst cast mins maxes w t d => new_hst R cast mins maxes w t d IWNone g
  | NewXStream two one tiny half mmh3 p floor log2 K n d w => new_xstream R two one tiny half mmh3 p floor log2 K n d w g
  | NewOther m s => (Ok (own m s), g)
  end.
Definition compile {Y G A} `{Num A} (R : rng G A) (s : statement Y A) : op (list A) Y G A :=
  match s with New c => ONew (perform_new R c) | Seed n => OSeed n | Call i c => OCall i c | GetIterator s => OGetIterator s | Start n => OStart n end.

(** ** Proofs *)
Section Proofs.
Context {Y G A : Type} {NA : Num A} (R : rng G A).
Notation process := (process (list A) Y G A).
Notation object := (object (list A) Y G A).
Definition of_kind (k : kind) (b : object) : Prop :=
  match k with
  | Quiet => exists m s, b = own m s
  | Uniform => b = new_random R
  | Cuts nb nc d => exists half eps log l, b = loda_at R half eps log nb nc l /\ match d with None => loda_obj l = None | Some d => dim_ok d l end
  end.
Definition pending (qs : list request) (g : G) : G := fold_left (perform R) qs g.
Lemma pending_app : forall a b g, pending (a ++ b) g = pending b (pending a g).
Proof. intros. apply fold_left_app. Qed.
Lemma cut_draws : forall half eps nb x i g l d, dim_ok d l -> let o := loda_cut_shared R half eps nb x i (g, l) in
  fst (snd o) = perform R g (QPermutation d) /\ dim_ok d (snd (snd o)) /\ (fst o = Ok tt <-> length x = d /\ nb <> 0).
Proof.
  intros half eps nb x i g l d (ob & E & Ed) o. subst o. unfold loda_cut_shared. cbn [fst snd]. rewrite E. cbn [perform]. rewrite <- Ed. destruct (rg_permutation R (lo_dim ob) g) as [q g1]. unfold loda_cut, bind, gets. rewrite E. unfold modify, raise.
  destruct (Nat.eqb_spec (length x) (lo_dim ob)) as [Hx|Hx]; cbn [negb]; [destruct (Nat.eqb_spec nb 0) as [Hn|Hn]|]; cbn [fst snd]; (split; [reflexivity|]); (split; [eexists; split; reflexivity|]); (split; [try discriminate; intros _; auto|]); intros [H1 H2]; congruence.
Qed.
Lemma cuts_draws : forall half eps nb x d is g l, dim_ok d l -> let o := iterM (loda_cut_shared R half eps nb x) is (g, l) in
  fst (snd o) = pending (repeat (QPermutation d) (if (length x =? d) && negb (nb =? 0) then length is else Nat.min 1 (length is))) g /\ dim_ok d (snd (snd o)).
Proof.
  intros half eps nb x d is. induction is as [|i is IH]; intros g l D o; subst o.
  - cbn. destruct (_ && _); auto.
  - cbn [iterM]. unfold bind. destruct (cut_draws half eps nb x i g l d D) as (H1 & H2 & H3). destruct (loda_cut_shared R half eps nb x i (g, l)) as [r [g1 l1]]. cbn [fst snd] in *. destruct r as [[]|e].
    + destruct (proj1 H3 eq_refl) as [Hx Hn]. destruct (IH g1 l1 H2) as [I1 I2]. rewrite I1. split; [|exact I2]. rewrite Hx, Nat.eqb_refl in *. destruct (Nat.eqb_spec nb 0) as [|_]; [contradiction|]. cbn [negb andb length repeat]. unfold pending. cbn [fold_left]. rewrite <- H1. reflexivity.
    + cbn [fst snd]. split; [|exact H2]. destruct (Nat.eqb_spec (length x) d) as [Hx|Hx]; [destruct (Nat.eqb_spec nb 0) as [Hn|Hn]|]; cbn [negb andb].
      * exact H1.
      * discriminate (proj2 H3 (conj Hx Hn)).
      * exact H1.
Qed.
Lemma fit_draws : forall half eps nb nc x g (l : lodast A) d, match d with None => loda_obj l = None | Some d => dim_ok d l end -> let o := loda_fit_shared R half eps nb nc x (g, l) in
  fst (snd o) = pending (asks_fit (Cuts nb nc d) (length x)) g /\ dim_ok (match d with None => length x | Some d => d end) (snd (snd o)).
Proof.
  intros half eps nb nc x g l d D o. subst o. unfold loda_fit_shared, bind, modify. cbn [fst snd]. destruct d as [d|].
  - destruct D as (ob & E & Ed). rewrite E. destruct (cuts_draws half eps nb x d (seq 0 nc) g l (ex_intro _ ob (conj E Ed))) as [H1 H2]. rewrite seq_length in H1. split; [exact H1|exact H2].
  - rewrite D. cbn [asks_fit]. unfold pending. cbn [fold_left perform]. destruct (rg_randn R nc (length x) g) as [z g1]. cbn [snd].
    destruct (cuts_draws half eps nb x (length x) (seq 0 nc) g1 (mkLoda (Some (loda_setup z nb nc (length x))) (loda_draws l))) as [H1 H2]; [eexists; split; reflexivity|]. rewrite seq_length, Nat.eqb_refl in H1. cbn [andb] in H1. split; [|exact H2]. rewrite H1. destruct (nb =? 0); reflexivity.
Qed.
Lemma call_draws : forall k b (c : mcall (list A) Y) g, of_kind k b -> let o := ob_call b c (g, ob_now b) in
  fst (snd o) = pending (asks_call k c) g /\ of_kind (kind_after k c) (Obj (ob_state b) (ob_call b) (snd (snd o))).
Proof.
  intros k b c g K o. subst o. destruct k as [| |nb nc d].
  - destruct K as (m & s & ->). cbn [own ob_call ob_now ob_state snd fst]. destruct (model_call m c s) as [r s']. cbn [fst snd]. split; [destruct c; reflexivity|]. destruct c; exists m, s'; reflexivity.
  - rewrite K. unfold new_random, shared. cbn [ob_call ob_now ob_state]. destruct c as [x y|x|x y]; cbn [model_call plain_model md_fit md_score md_fit_score asks_call asks_fit asks_score app].
    + unfold ret. cbn [fst snd]. split; reflexivity.
    + unfold random_score. cbn [fst]. unfold pending. cbn [fold_left perform]. destruct (rg_uniform R g). split; reflexivity.
    + unfold default_fit_score, bind, ret, random_score. cbn [fst]. unfold pending. cbn [fold_left perform]. destruct (rg_uniform R g). split; reflexivity.
  - destruct K as (half & eps & log & l & -> & D). cbn [loda_at ob_call ob_now ob_state new_loda shared]. destruct c as [x y|x|x y]; cbn [model_call plain_model md_fit md_score md_fit_score asks_call].
    + destruct (fit_draws half eps nb nc x g l d D) as [H1 H2]. destruct (loda_fit_shared R half eps nb nc x (g, l)) as [r [g' l']]. cbn [fst snd] in *. split; [exact H1|]. destruct d as [d|]; (exists half, eps, log, l'; split; [reflexivity|exact H2]).
    + cbn [snd fst asks_score]. pose proof (score_keeps half eps log nb nc Y (fun _ _ => n0) (fun _ => []) x l) as K. destruct (md_score (LODA half eps log (fun _ _ => n0) (fun _ => []) nb nc) x l) as [r l']. cbn [snd] in K. subst l'. cbn [fst snd]. split; [reflexivity|]. cbn [kind_after]. destruct d; (exists half, eps, log, l; split; [reflexivity|exact D]).
    + unfold default_fit_score, bind. destruct (fit_draws half eps nb nc x g l d D) as [H1 H2]. destruct (loda_fit_shared R half eps nb nc x (g, l)) as [r [g' l']]. cbn [fst snd asks_score] in *. rewrite app_nil_r. destruct r as [[]|e].
      * cbn [fst snd]. pose proof (score_keeps half eps log nb nc Y (fun _ _ => n0) (fun _ => []) x l') as K. destruct (md_score (LODA half eps log (fun _ _ => n0) (fun _ => []) nb nc) x l') as [r l2]. cbn [snd] in K. subst l2. cbn [fst snd]. split; [exact H1|]. destruct d as [d|]; (exists half, eps, log, l'; split; [reflexivity|exact H2]).
      * cbn [fst snd]. split; [exact H1|]. destruct d as [d|]; (exists half, eps, log, l'; split; [reflexivity|exact H2]).
Qed.
Lemma iter_inside : forall B (f : B -> B) k b, Nat.iter k f (f b) = f (Nat.iter k f b).
Proof. intros B f k b. induction k as [|k IH]; auto. change (f (Nat.iter k f (f b)) = f (f (Nat.iter k f b))). rewrite IH. reflexivity. Qed.
Lemma randint_state_pending : forall d k g, randint_state R d g k = pending (repeat (QRandint d) k) g.
Proof.
  intros d k. induction k as [|k IH]; intros g; auto. unfold pending in *. cbn [repeat fold_left]. rewrite <- IH. unfold randint_state. cbn [perform]. rewrite (iter_inside G (fun g => snd (rg_randint R d g))). reflexivity.
Qed.
Lemma build_count : forall cast draw n (mins maxes : list A) depth i, length mins = length maxes -> 1 <= length maxes -> (forall i, draw i < length maxes) -> exists t, hs_build cast draw n mins maxes depth i = (Ok t, i + (2 ^ n - 1)).
Proof.
  intros cast draw n. induction n as [|n IH]; intros mins maxes depth i HL H1 Hq; cbn [hs_build].
  - unfold ret. eexists. cbn. rewrite Nat.add_0_r. reflexivity.
  - unfold bind, gets, lift, modify, ret, raise. destruct (Nat.eqb_spec (length maxes) 0) as [|_]; [lia|]. rewrite (py_index_nth _ maxes _ n0) by auto. rewrite (py_index_nth _ mins _ n0) by (rewrite HL; auto).
    match goal with |- context [hs_build cast draw n mins ?m ?k ?j] => destruct (IH mins m k j) as (t1 & E1); rewrite ?set_nth_length; auto end. rewrite E1.
    match goal with |- context [hs_build cast draw n ?m maxes ?k ?j] => destruct (IH m maxes k j) as (t2 & E2); rewrite ?set_nth_length; auto end. rewrite E2. eexists. f_equal. cbn [Nat.pow]. assert (0 < 2 ^ n) by (apply Nat.neq_0_lt_0, Nat.pow_nonzero; lia). lia.
Qed.
Lemma builds_count : forall cast draw n (mins maxes : list A) l i, length mins = length maxes -> 1 <= length maxes -> (forall i, draw i < length maxes) -> exists ts, mapM (fun _ : nat => hs_build cast draw n mins maxes 0) l i = (Ok ts, i + length l * (2 ^ n - 1)).
Proof.
  intros cast draw n mins maxes l. induction l as [|a l IH]; intros i HL H1 Hq; cbn [mapM].
  - unfold ret. eexists. cbn. rewrite Nat.add_0_r. reflexivity.
  - unfold bind, ret. destruct (build_count cast draw n mins maxes 0 i HL H1 Hq) as (t & ->). destruct (IH (i + (2 ^ n - 1)) HL H1 Hq) as (ts & ->). eexists. f_equal. cbn [length Nat.mul]. lia.
Qed.
Lemma mapM_steps : forall B (m : M G B) (v : G -> B) (nx : G -> G), (forall g, m g = (Ok (v g), nx g)) -> forall C (l : list C) g,
  mapM (fun _ => m) l g = (Ok (map (fun j => v (Nat.iter j nx g)) (seq 0 (length l))), Nat.iter (length l) nx g).
Proof.
  intros B m v nx H C l. induction l as [|a l IH]; intros g; [reflexivity|]. cbn [mapM]. unfold bind, ret. rewrite H, IH. cbn [length seq map]. rewrite (iter_inside G nx). f_equal. f_equal. f_equal. rewrite <- seq_shift, map_map. apply map_ext. intros j. rewrite (iter_inside G nx). reflexivity.
Qed.
(** What xStream's constructor draws. *)
Definition next_feature (K : nat) (g : G) : G := snd (rg_randint R K g).
Definition chain_end (K depth : nat) (g : G) : G := snd (rg_rand R K (Nat.iter depth (next_feature K) g)).
Definition chain_drawn (K depth : nat) (g : G) : list nat * list A :=
  (map (fun j => fst (rg_randint R K (Nat.iter j (next_feature K) g))) (seq 0 depth), fst (rg_rand R K (Nat.iter depth (next_feature K) g))).
Lemma chain_draws_eq : forall K depth g, 1 <= K -> xs_draw_chain R K depth g = (Ok (chain_drawn K depth g), chain_end K depth g).
Proof.
  intros K depth g HK. unfold xs_draw_chain. destruct (Nat.eqb_spec K 0) as [|_]; [lia|]. unfold bind. rewrite (mapM_steps nat (drawing (rg_randint R K)) (fun g => fst (rg_randint R K g)) (next_feature K)).
  - rewrite seq_length. unfold drawing at 1, chain_drawn, chain_end, ret. destruct (rg_rand R K (Nat.iter depth (next_feature K) g)). reflexivity.
  - intros g'. unfold drawing, next_feature. destruct (rg_randint R K g'). reflexivity.
Qed.
Lemma pending_repeat : forall q k g, pending (repeat q k) g = Nat.iter k (fun g => perform R g q) g.
Proof. intros q k. induction k as [|k IH]; intros g; auto. unfold pending in *. cbn [repeat fold_left]. rewrite IH, (iter_inside G (fun g => perform R g q)). reflexivity. Qed.
Lemma chains_pending : forall K d n g, pending (List.concat (repeat (repeat (QRandint K) d ++ [QRand K]) n)) g = Nat.iter n (chain_end K d) g.
Proof.
  intros K d n. induction n as [|n IH]; intros g; auto. cbn [repeat List.concat]. rewrite pending_app, IH, pending_app, pending_repeat. change (pending [QRand K] (Nat.iter d (fun g0 : G => perform R g0 (QRandint K)) g)) with (chain_end K d g). rewrite (iter_inside G (chain_end K d)). reflexivity.
Qed.
Lemma new_xstream_eq : forall two one tiny half mmh3 p floor log2 K n depth W g, 1 <= K ->
  new_xstream (Y := Y) R two one tiny half mmh3 p floor log2 K n depth W g =
  (Ok (own (xStream two one tiny mmh3 p floor log2 K W) (xStream_init tiny half K (map (fun i => chain_drawn K depth (Nat.iter i (chain_end K depth) g)) (seq 0 n)))), Nat.iter n (chain_end K depth) g).
Proof.
  intros two one tiny half mmh3 p floor log2 K n depth W g HK. unfold new_xstream, bind, ret. rewrite (mapM_steps _ (xs_draw_chain R K depth) (chain_drawn K depth) (chain_end K depth)) by (intros; apply chain_draws_eq, HK). rewrite seq_length. reflexivity.
Qed.
Lemma new_draws : forall (c : creation Y A) g, (forall n g, 1 <= n -> fst (rg_randint R n g) < n) -> sound (New c) -> exists b, perform_new R c g = (Ok b, pending (asks_new c) g) /\ of_kind (kind_new c) b.
Proof.
  intros c g Hr S. destruct c as [|half eps log nb nc|cast mins maxes w t d|two one tiny half mmh3 p floor log2 K n d w|m s]; cbn [perform_new asks_new kind_new of_kind].
  - eexists. split; reflexivity.
  - eexists. split; [reflexivity|]. exists half, eps, log, LODA_init. split; reflexivity.
  - destruct S as [S1 S2]. unfold new_hst, HST_init. cbv zeta. destruct (builds_count cast (fun k => fst (rg_randint R (length maxes) (randint_state R (length maxes) g k))) d mins maxes (seq 0 t) 0 S1 S2 (fun i => Hr _ _ S2)) as (ts & ->). cbn [fst snd rbind iw_truth rmap]. rewrite seq_length, Nat.add_0_l, randint_state_pending. eexists. split; [reflexivity|]. exists (HalfSpaceTrees w d), (mkHST ts true 0). reflexivity.
  - rewrite new_xstream_eq by exact S. rewrite chains_pending. eexists. split; [reflexivity|]. eexists (xStream two one tiny mmh3 p floor log2 K w), (xStream_init tiny half K _). reflexivity.
  - eexists. split; [reflexivity|]. exists m, s. reflexivity.
Qed.
Lemma seed_draws : forall n g, snd (fix_seed R n g) = pending (asks_seed n) g.
Proof. intros n g. unfold fix_seed, asks_seed. destruct (_ && _)%bool; reflexivity. Qed.
Lemma Forall2_set_nth : forall B C (P : B -> C -> Prop) l l' i b c, Forall2 P l l' -> P b c -> Forall2 P (set_nth i b l) (set_nth i c l').
Proof. intros B C P l l' i b c F. revert i. induction F; intros [|i] H0; cbn [set_nth]; auto. Qed.
Lemma Forall2_nth_error : forall B C (P : B -> C -> Prop) l l' i, Forall2 P l l' -> match nth_error l i with None => nth_error l' i = None | Some b => exists c, nth_error l' i = Some c /\ P b c end.
Proof. intros B C P l l' i F. revert i. induction F; intros [|i]; cbn [nth_error]; auto; eauto. apply IHF. Qed.
Lemma draws_from : forall prog ks (p : process), (forall n g, 1 <= n -> fst (rg_randint R n g) < n) -> Forall sound prog -> Forall2 of_kind ks (pr_objs p) ->
  pr_g (after R p (map (compile R) prog)) = pending (asks ks prog) (pr_g p).
Proof.
  intros prog ks p Hr S. revert ks p. induction S as [|st prog S1 S IH]; intros ks [g objs] F; [reflexivity|]. cbn [pr_objs pr_g] in *. unfold after in *. cbn [map fold_left asks].
  destruct st as [c|n|i c|[n|]|n]; cbn [compile step pr_g pr_objs].
  - destruct (new_draws c g Hr S1) as (b & -> & K). cbn [snd]. rewrite pending_app. rewrite (IH (ks ++ [kind_new c])); [reflexivity|]. cbn [pr_objs]. apply Forall2_app; auto.
  - rewrite pending_app, <- seed_draws. destruct (fix_seed R n g) as [r g']. cbn [snd]. rewrite (IH ks); [reflexivity|exact F].
  - pose proof (Forall2_nth_error _ _ _ _ _ i F) as N. destruct (nth_error ks i) as [k|].
    + destruct N as (b & -> & K). destruct (call_draws k b c g K) as [D1 D2]. destruct (ob_call b c (g, ob_now b)) as [r [g' s']]. cbn [fst snd] in *. rewrite pending_app, <- D1. rewrite (IH (set_nth i (kind_after k c) ks)); [reflexivity|]. cbn [pr_objs]. apply Forall2_set_nth; auto.
    + rewrite N. cbn [snd]. rewrite (IH ks); [reflexivity|exact F].
  - rewrite pending_app, <- seed_draws. destruct (fix_seed R n g) as [r g']. cbn [snd]. rewrite (IH ks); [reflexivity|exact F].
  - cbn [snd]. rewrite (IH ks); [reflexivity|exact F].
  - unfold pending. cbn [fold_left perform]. destruct (rg_shuffle R n g) as [dr g']. cbn [snd]. rewrite (IH ks); [reflexivity|exact F].
Qed.
End Proofs.
(** After any program, numpy's generator is where the requests of the program have taken it: a RandomModel draws one number per
    score and none per fit; LODA draws one matrix in the first fit and one permutation per cut in every fit (only one if the
    instance has the wrong number of features or there are no bins), and nothing when scoring; HalfSpaceTrees draws one feature
    per inner node in its constructor and nothing afterwards; every other detector draws nothing. *)
Theorem C128_generator : forall Y G A (NA : Num A) (R : rng G A) (prog : list (statement Y A)) g, (forall n g, 1 <= n -> fst (rg_randint R n g) < n) -> Forall sound prog ->
  pr_g (after R (mkProc g []) (map (compile R) prog)) = fold_left (perform R) (asks [] prog) g.
Proof. intros Y G A NA R prog g Hr S. apply (draws_from R prog [] (mkProc g []) Hr S). constructor. Qed.
Print Assumptions C128_generator.
Lemma after_app : forall X Y G A (R : rng G A) a b (p : process X Y G A), after R p (a ++ b) = after R (after R p a) b.
Proof. intros. apply fold_left_app. Qed.
Lemma trace_app : forall X Y G A (R : rng G A) a b (p : process X Y G A), trace R p (a ++ b) = trace R p a ++ trace R (after R p a) b.
Proof. intros X Y G A R a. induction a as [|o a IH]; intros b p; auto. cbn [app trace]. rewrite IH. reflexivity. Qed.
(** What a RandomModel answers next, and the order of a shuffled iterator, depend on nothing else. *)
Theorem C128_next_score : forall Y G A (NA : Num A) (R : rng G A) (prog : list (statement Y A)) g i x, (forall n g, 1 <= n -> fst (rg_randint R n g) < n) -> Forall sound prog ->
  nth_error (pr_objs (after R (mkProc g []) (map (compile R) prog))) i = Some (new_random R) ->
  fst (step R (after R (mkProc g []) (map (compile R) prog)) (OCall i (CScore x))) = Answer (Ok (Some (VScalar (fst (rg_uniform R (fold_left (perform R) (asks [] prog) g)))))).
Proof.
  intros Y G A NA R prog g i x Hr S E. destruct (step_call _ _ _ _ R _ (CScore x) i _ E) as [-> _]. rewrite (C128_generator Y G A NA R prog g Hr S). unfold new_random, shared. cbn [ob_call ob_now model_call plain_model md_score]. unfold random_score. cbn [fst]. destruct (rg_uniform R _). reflexivity.
Qed.
Print Assumptions C128_next_score.
(** A seeded iterator keeps its order if nothing that runs between get_iterator and the loop draws: fitting and scoring any
    detector but these, fitting a RandomModel, scoring with LODA. *)
Theorem C128_seeded_order : forall Y G A (NA : Num A) (R : rng G A) (before between : list (statement Y A)) g n k, (forall n g, 1 <= n -> fst (rg_randint R n g) < n) -> Forall sound before -> Forall sound between ->
  valid_seed n -> asks [] (before ++ GetIterator (Some n) :: between) = asks [] before ++ [QSeed n] ->
  last (trace R (mkProc g []) (map (compile R) (before ++ GetIterator (Some n) :: between ++ [Start k]))) (Done (Ok tt)) = Order (stream_indices k (Some (fst (rg_shuffle R k (rg_seed R n))))).
Proof.
  intros Y G A NA R before between g n k Hr S1 S2 Hn E. change (before ++ GetIterator (Some n) :: between ++ [Start k]) with (before ++ (GetIterator (Some n) :: between) ++ [Start k]). rewrite app_assoc, map_app, trace_app. cbn [map trace compile]. rewrite last_last.
  pose proof (C128_generator Y G A NA R (before ++ GetIterator (Some n) :: between) g Hr ltac:(apply Forall_app; split; auto; constructor; auto; exact I)) as P. rewrite E in P. rewrite fold_left_app in P. cbn [fold_left perform] in P. cbn [step]. rewrite P. destruct (rg_shuffle R k (rg_seed R n)). reflexivity.
Qed.
Print Assumptions C128_seeded_order.

(** ** A LODA detector that is alone uses the generator's next numbers, one after the other *)
Section Lone.
Context {Y G A : Type} {NA : Num A} (R : rng G A) (half eps : A) (log : A -> A) (nb nc : nat).
Definition lone_matrix (g : G) (d : nat) : nat -> nat -> A := fst (rg_randn R nc d g).
Definition lone_state (g : G) (d k : nat) : G := Nat.iter k (fun g => snd (rg_permutation R d g)) (snd (rg_randn R nc d g)).
Definition lone_perms (g : G) (d k : nat) : list nat := fst (rg_permutation R d (lone_state g d k)).
Definition at_draw (g : G) (d : nat) (gl : G * lodast A) : Prop := dim_ok d (snd gl) /\ fst gl = lone_state g d (loda_draws (snd gl)).
Lemma lone_cut : forall g d x i gl, at_draw g d gl -> let o := loda_cut_shared R half eps nb x i gl in at_draw g d (snd o) /\ loda_cut half eps (lone_perms g d) nb x i (snd gl) = (fst o, snd (snd o)).
Proof.
  intros g d x i [g1 l] [D E] o. subst o. cbn [fst snd] in *. unfold loda_cut_shared. cbn [fst snd]. destruct D as (ob & Eo & Ed). rewrite Eo, Ed. destruct (rg_permutation R d g1) as [q g2] eqn:Eq.
  assert (Q : lone_perms g d (loda_draws l) = q) by (unfold lone_perms; rewrite <- E, Eq; reflexivity). assert (Q2 : g2 = lone_state g d (S (loda_draws l))) by (change (g2 = snd (rg_permutation R d (lone_state g d (loda_draws l)))); rewrite <- E, Eq; reflexivity).
  unfold loda_cut, bind, gets. rewrite Eo, Q. unfold modify, raise. destruct (negb (length x =? lo_dim ob)); [|destruct (nb =? 0)]; cbn [fst snd]; (split; [split; [eexists; split; [reflexivity|exact Ed]|exact Q2]|reflexivity]).
Qed.
Lemma lone_cuts : forall g d x is gl, at_draw g d gl -> let o := iterM (loda_cut_shared R half eps nb x) is gl in at_draw g d (snd o) /\ iterM (loda_cut half eps (lone_perms g d) nb x) is (snd gl) = (fst o, snd (snd o)).
Proof.
  intros g d x is. induction is as [|i is IH]; intros gl D o; subst o.
  - cbn. auto.
  - cbn [iterM]. unfold bind. destruct (lone_cut g d x i gl D) as [H1 H2]. rewrite H2. destruct (loda_cut_shared R half eps nb x i gl) as [[[]|e] gl1]; cbn [fst snd] in *; [apply (IH gl1 H1)|auto].
Qed.
Definition lone_ok (g : G) (h : list (mcall (list A) Y)) (d : nat) (gl : G * lodast A) : Prop :=
  (loda_obj (snd gl) = None /\ fst gl = g /\ loda_draws (snd gl) = 0 /\ match fitted_instances h with [] => True | x :: _ => length x = d end) \/ at_draw g d gl.
Lemma lone_fit : forall g x y h d gl, lone_ok g (CFit x y :: h) d gl -> let o := loda_fit_shared R half eps nb nc x gl in
  at_draw g d (snd o) /\ md_fit (LODA (Y := Y) half eps log (lone_matrix g d) (lone_perms g d) nb nc) x y (snd gl) = (fst o, snd (snd o)).
Proof.
  intros g x y h d [g1 l] [(E1 & E2 & E3 & E4)|D] o; subst o; cbn [fst snd fitted_instances] in *; unfold loda_fit_shared, bind, modify; cbn [fst snd md_fit LODA plain_model]; unfold bind, modify.
  - rewrite E1. cbn in E4. subst d g1. unfold lone_matrix. destruct (rg_randn R nc (length x) g) as [z g2] eqn:Ez. cbn [fst snd]. refine (lone_cuts g (length x) x (seq 0 nc) (g2, _) _). split; [eexists; split; reflexivity|]. cbn [fst snd loda_draws]. rewrite E3. unfold lone_state. rewrite Ez. reflexivity.
  - pose proof D as D'. destruct D as [(ob & Eo & Ed) E]. cbn [fst snd] in *. rewrite Eo. apply (lone_cuts g d x (seq 0 nc) (g1, l) D').
Qed.
Lemma lone_call : forall g c h d gl, lone_ok g (c :: h) d gl -> let o := ob_call (new_loda (Y := Y) R half eps log nb nc) c gl in
  lone_ok g h d (snd o) /\ model_call (LODA half eps log (lone_matrix g d) (lone_perms g d) nb nc) c (snd gl) = (fst o, snd (snd o)).
Proof.
  intros g c h d gl D o. subst o. unfold new_loda, shared. cbn [ob_call]. destruct c as [x y|x|x y]; cbn [model_call plain_model md_fit md_score md_fit_score].
  - destruct (lone_fit g x y h d gl D) as [H1 H2]. destruct (loda_fit_shared R half eps nb nc x gl) as [r gl']. cbn [fst snd] in *. split; [right; exact H1|]. rewrite H2. reflexivity.
  - pose proof (score_keeps half eps log nb nc Y (fun _ _ => n0) (fun _ => []) x (snd gl)) as K. rewrite (score_same half eps log nb nc Y (lone_matrix g d) (lone_perms g d) (fun _ _ => n0) (fun _ => [])). destruct (md_score (LODA half eps log (fun _ _ => n0) (fun _ => []) nb nc) x (snd gl)) as [r l']. cbn [snd] in K. subst l'. cbn [fst snd]. split; [|reflexivity].
    destruct D as [(E1 & E2 & E3 & E4)|D]; [left; auto|right; exact D].
  - assert (D' : lone_ok g (CFit x y :: h) d gl) by exact D. destruct (lone_fit g x y h d gl D') as [H1 H2]. unfold default_fit_score, bind. cbn [md_fit LODA plain_model] in H2. unfold bind in H2. destruct (loda_fit_shared R half eps nb nc x gl) as [r gl']. cbn [fst snd] in *. cbn [LODA plain_model md_fit_score]. unfold default_fit_score, bind. rewrite H2. destruct r as [[]|e]; [|split; [right; exact H1|reflexivity]].
    pose proof (score_keeps half eps log nb nc Y (fun _ _ => n0) (fun _ => []) x (snd gl')) as K. cbn [md_score LODA plain_model] in K |- *. unfold bind in K |- *. match type of K with snd ?e = _ => destruct e as [r l'] end. cbn [snd] in K. subst l'. cbn [fst snd]. split; [right; exact H1|reflexivity].
Qed.
Lemma lone_trace : forall h g g1 d l, lone_ok g h d (g1, l) -> trace R (mkProc g1 [loda_at (Y := Y) R half eps log nb nc l]) (map (OCall 0) h) = map Answer (model_answers (LODA half eps log (lone_matrix g d) (lone_perms g d) nb nc) l h).
Proof.
  induction h as [|c h IH]; intros g g1 d l D; auto. cbn [map trace model_answers]. destruct (lone_call g c h d (g1, l) D) as [H1 H2]. cbn [step pr_objs pr_g nth_error]. cbn [loda_at ob_call ob_now ob_state]. unfold eval, model_do, exec. cbn [fst snd] in H2. rewrite H2.
  destruct (ob_call (new_loda R half eps log nb nc) c (g1, l)) as [r [g2 l2]]. cbn [fst snd set_nth]. f_equal. apply (IH g g2 d l2). exact H1.
Qed.
End Lone.
(** If [d] is the number of features of the first fitted instance, the projection is the next matrix the generator yields, and
    the k-th cut uses the k-th of the permutations of [d] it yields after that. *)
Theorem C128_loda_alone : forall Y G A (NA : Num A) (R : rng G A) half eps log nb nc g (h : list (mcall (list A) Y)) d, match fitted_instances h with [] => True | x :: _ => length x = d end ->
  let randn := fst (rg_randn R nc d g) in let start := snd (rg_randn R nc d g) in
  let perms := fun k => fst (rg_permutation R d (Nat.iter k (fun g => snd (rg_permutation R d g)) start)) in
  trace R (mkProc g [new_loda R half eps log nb nc]) (map (OCall 0) h) = map Answer (model_answers (LODA half eps log randn perms nb nc) LODA_init h).
Proof. intros Y G A NA R half eps log nb nc g h d H. apply (lone_trace R half eps log nb nc h g g d LODA_init). left. cbn [fst snd LODA_init loda_obj loda_draws]. auto. Qed.
Print Assumptions C128_loda_alone.
(** And HalfSpaceTrees takes the next features the generator yields, one per inner node. *)
Theorem C128_half_space_trees : forall Y G A (NA : Num A) (R : rng G A) cast mins maxes W T D g, (forall n g, 1 <= n -> fst (rg_randint R n g) < n) -> length mins = length maxes -> 1 <= length maxes ->
  let d := length maxes in let next := fun g => snd (rg_randint R d g) in
  exists s, HST_init (Y := Y) cast (fun k => fst (rg_randint R d (Nat.iter k next g))) mins maxes W T D IWNone = Ok s /\
    step R (mkProc g []) (ONew (new_hst (Y := Y) R cast mins maxes W T D IWNone)) = (Done (Ok tt), mkProc (Nat.iter (T * (2 ^ D - 1)) next g) [own (HalfSpaceTrees W D) s]).
Proof.
  intros Y G A NA R cast mins maxes W T D g Hr S1 S2 d next. cbn [step pr_g pr_objs]. unfold new_hst, HST_init. cbv zeta. change (fun k => fst (rg_randint R (length maxes) (randint_state R (length maxes) g k))) with (fun k => fst (rg_randint R d (Nat.iter k next g))).
  destruct (builds_count cast (fun k => fst (rg_randint R d (Nat.iter k next g))) D mins maxes (seq 0 T) 0 S1 S2 (fun i => Hr _ _ S2)) as (ts & ->). cbn [fst snd rbind iw_truth rmap]. rewrite seq_length, Nat.add_0_l. eexists. split; [reflexivity|]. reflexivity.
Qed.
Print Assumptions C128_half_space_trees.

(** xStream: chain after chain, [depth] features and then the offsets. *)
Theorem C128_xstream : forall Y G A (NA : Num A) (R : rng G A) two one tiny half mmh3 p floor log2 K n depth W g, 1 <= K ->
  let next := fun g => snd (rg_randint R K g) in let next_chain := fun g => snd (rg_rand R K (Nat.iter depth next g)) in
  let start := fun i => Nat.iter i next_chain g in
  let draws := map (fun i => (map (fun j => fst (rg_randint R K (Nat.iter j next (start i)))) (seq 0 depth), fst (rg_rand R K (Nat.iter depth next (start i))))) (seq 0 n) in
  step R (mkProc g []) (ONew (new_xstream (Y := Y) R two one tiny half mmh3 p floor log2 K n depth W)) = (Done (Ok tt), mkProc (start n) [own (xStream two one tiny mmh3 p floor log2 K W) (xStream_init tiny half K draws)]).
Proof. intros. cbn [step pr_g pr_objs]. rewrite new_xstream_eq by auto. reflexivity. Qed.
Print Assumptions C128_xstream.
(** Hence what the theorems about xStream assume of the draws holds for every state of the generator. *)
Theorem C128_xstream_draws : forall Y G (rg : rng G R) two one tiny half mmh3 p floor log2 K n depth W g, 1 <= K -> 1 <= n -> 1 <= depth -> (forall n g, 1 <= n -> fst (rg_randint rg n g) < n) -> (forall k g, length (fst (rg_rand rg k g)) = k) ->
  exists draws, Prop_XStream.chain_draws K draws /\ length draws = n /\ Forall (fun d => length (fst d) = depth) draws /\
    fst (new_xstream (Y := Y) rg two one tiny half mmh3 p floor log2 K n depth W g) = Ok (own (xStream two one tiny mmh3 p floor log2 K W) (xStream_init tiny half K draws)).
Proof.
  intros Y G rg two one tiny half mmh3 p floor log2 K n depth W g HK Hn Hd H1 H2. rewrite new_xstream_eq by auto. eexists. split; [|split; [|split; [|reflexivity]]].
  - split; [destruct n; [lia|discriminate]|]. apply Forall_forall. intros d I. apply in_map_iff in I. destruct I as (i & <- & _). unfold chain_drawn. cbn [fst snd]. split; [destruct depth; [lia|discriminate]|]. split; [|apply H2]. apply Forall_forall. intros f I. apply in_map_iff in I. destruct I as (j & <- & _). apply H1, HK.
  - rewrite map_length, seq_length. reflexivity.
  - apply Forall_forall. intros d I. apply in_map_iff in I. destruct I as (i & <- & _). unfold chain_drawn. cbn [fst]. rewrite map_length, seq_length. reflexivity.
Qed.
Print Assumptions C128_xstream_draws.

(** ** RSHash: some numbers that the generator can yield explain the components *)
Section RSHash.
Context {Y G A : Type} {NA : Num A} (R : rng G A).
Variable (pow2 log sqrt : A -> A) (floor : A -> Z) (effS : A) (arrays : bool) (mins maxs : list A).
Definition between (gs : nat -> G) (i : nat) (a b : Z) : Z := fst (rg_between R a b (gs i)).
Definition chosen (gs : nat -> G) (i : nat) (a : list nat) (k : nat) : list nat := fst (rg_choice R a k (gs i)).
Definition shifted (gs : nat -> G) (i : nat) (f : A) (k : nat) : list A := fst (rg_uniforms R n0 f k (gs i)).
Definition selected (gb gc : nat -> G) (i : nat) (f : A) : res (list nat) := rs_sel log floor (between gb i) (chosen gc i) effS f arrays mins maxs.
Lemma features_explained : forall f g, exists g1 g2, fst (rs_draw_features R log floor effS arrays mins maxs f g) = selected (fun _ => g1) (fun _ => g2) 0 f.
Proof.
  intros f g. exists g. unfold rs_draw_features, selected, rs_sel, rs_num_feats, np_choice, np_randint, between, chosen, bind, ret, raise. cbv zeta. destruct (_ =? _)%Z.
  - exists g. cbn [rbind]. destruct (_ <? _); [reflexivity|]. unfold drawing. destruct (rg_choice R _ _ g). reflexivity.
  - destruct (_ <=? _)%Z; [exists g; reflexivity|]. unfold drawing at 1. destruct (rg_between R _ _ g) as [v g1]. exists g1. cbn [fst rmap rbind]. destruct (_ <? _); [reflexivity|]. unfold drawing. destruct (rg_choice R _ _ g1). reflexivity.
Qed.
(** The components numbered from [k] on. *)
Definition all_selected (gb gc : nat -> G) (k : nat) (fs : list A) : res (list (list nat)) := res_map (fun q => selected gb gc (fst q) (snd q)) (combine (seq k (length fs)) fs).
Lemma all_features_explained : forall fs k g (gb0 gc0 : nat -> G), exists gb gc, fst (mapM (rs_draw_features R log floor effS arrays mins maxs) fs g) = all_selected gb gc k fs /\ forall i, i < k -> gb i = gb0 i /\ gc i = gc0 i.
Proof.
  induction fs as [|f fs IH]; intros k g gb0 gc0.
  - exists gb0, gc0. split; [reflexivity|auto].
  - cbn [mapM]. unfold bind, ret. destruct (features_explained f g) as (g1 & g2 & E). destruct (rs_draw_features R log floor effS arrays mins maxs f g) as [o g'] eqn:Eo. cbn [fst] in E.
    destruct (IH (S k) g' (fun i => if i =? k then g1 else gb0 i) (fun i => if i =? k then g2 else gc0 i)) as (gb & gc & E2 & K). exists gb, gc. split; [|intros i Hi; destruct (K i ltac:(lia)) as [-> ->]; destruct (Nat.eqb_spec i k); [lia|auto]].
    assert (S0 : selected gb gc k f = o). { rewrite E. unfold selected, rs_sel, rs_num_feats, between, chosen. destruct (K k ltac:(lia)) as [-> ->]. rewrite Nat.eqb_refl. reflexivity. }
    unfold all_selected in *. cbn [length seq combine res_map fst snd]. rewrite S0. destruct o as [V|e]; [|reflexivity]. rewrite <- E2. destruct (mapM _ fs g') as [[Vs|e] g'']; reflexivity.
Qed.
Lemma all_shifts_explained : forall fVs k g (gs0 : nat -> G), exists gs, fst (mapM (fun q : A * list nat => drawing (rg_uniforms R n0 (fst q) (length (snd q)))) fVs g) = Ok (map (fun q => shifted gs (fst q) (fst (snd q)) (length (snd (snd q)))) (combine (seq k (length fVs)) fVs)) /\ forall i, i < k -> gs i = gs0 i.
Proof.
  induction fVs as [|[f V] l IH]; intros k g gs0.
  - exists gs0. split; [reflexivity|auto].
  - cbn [mapM]. unfold bind, ret, drawing at 1. cbn [fst snd]. destruct (rg_uniforms R n0 f (length V) g) as [al g'] eqn:E. destruct (IH (S k) g' (fun i => if i =? k then g else gs0 i)) as (gs & E2 & K). exists gs. split; [|intros i Hi; rewrite (K i ltac:(lia)); destruct (Nat.eqb_spec i k); [lia|auto]].
    destruct (mapM _ l g') as [o g'']. cbn [fst] in E2. subst o. cbn [fst length seq combine map snd]. f_equal. f_equal. unfold shifted. rewrite (K k ltac:(lia)), Nat.eqb_refl, E. reflexivity.
Qed.
Lemma components_from_parts : forall gb gc gs fs k Vs, all_selected gb gc k fs = Ok Vs ->
  res_map (fun p => rmap (fun V => mkComp V (shifted gs (fst p) (snd p) (length V)) (snd p)) (selected gb gc (fst p) (snd p))) (combine (seq k (length fs)) fs) =
  Ok (map (fun q => mkComp (fst (snd q)) (snd (snd q)) (fst q)) (combine fs (combine Vs (map (fun q => shifted gs (fst q) (fst (snd q)) (length (snd (snd q)))) (combine (seq k (length (combine fs Vs))) (combine fs Vs)))))).
Proof.
  intros gb gc gs fs. induction fs as [|f fs IH]; intros k Vs E; unfold all_selected in E; cbn [length seq combine res_map fst snd] in *.
  - reflexivity.
  - destruct (selected gb gc k f) as [V|e]; [|discriminate]. destruct (res_map _ (combine (seq (S k) (length fs)) fs)) as [Vs'|e] eqn:E'; [|discriminate]. inversion E; subst Vs. cbn [rmap combine length seq map fst snd]. rewrite (IH (S k) Vs' E'). reflexivity.
Qed.
Lemma components_fail : forall gb gc gs fs k e, all_selected gb gc k fs = Raise e ->
  res_map (fun p => rmap (fun V => mkComp V (shifted gs (fst p) (snd p) (length V)) (snd p)) (selected gb gc (fst p) (snd p))) (combine (seq k (length fs)) fs) = Raise e.
Proof.
  intros gb gc gs fs. induction fs as [|f fs IH]; intros k e E; unfold all_selected in E; cbn [length seq combine res_map fst snd] in *.
  - discriminate.
  - destruct (selected gb gc k f) as [V|e']; [|inversion E; reflexivity]. cbn [rmap]. destruct (res_map _ (combine (seq (S k) (length fs)) fs)) as [Vs'|e'] eqn:E'; [discriminate|]. inversion E; subst. rewrite (IH (S k) e E'). reflexivity.
Qed.
End RSHash.
(** The cell sizes are the next numbers that the generator yields; component i selects its features and shifts with numbers that
    the generator yields in some states. *)
Theorem C128_rshash : forall Y G A (NA : Num A) (R : rng G A) pow2 log sqrt floor decay arrays mins maxs sp m w g, exists gb gc gs : nat -> G,
  let effS := rs_effS pow2 decay in let fs := fst (rg_uniforms R (rs_f_low sqrt effS) (rs_f_high sqrt effS) m g) in
  fst (new_rshash (Y := Y) R pow2 log sqrt floor decay arrays mins maxs sp m w g) =
  rmap (fun comps => own (RSHash pow2 log floor decay comps) (RSHash_init sp w))
    (rs_components log floor (fun i a b => fst (rg_between R a b (gb i))) (fun i l k => fst (rg_choice R l k (gc i))) (fun i f k => fst (rg_uniforms R n0 f k (gs i))) effS fs arrays mins maxs).
Proof.
  intros Y G A NA R pow2 log sqrt floor decay arrays mins maxs sp m w g. unfold new_rshash. unfold bind, ret, drawing at 1. destruct (rg_uniforms R _ _ m g) as [fs g1]. cbn [fst].
  destruct (all_features_explained R log floor (rs_effS pow2 decay) arrays mins maxs fs 0 g1 (fun _ => g) (fun _ => g)) as (gb & gc & E & _). destruct (mapM (rs_draw_features R log floor (rs_effS pow2 decay) arrays mins maxs) fs g1) as [o g2]. cbn [fst] in E. destruct o as [Vs|e].
  - destruct (all_shifts_explained R (combine fs Vs) 0 g2 (fun _ => g)) as (gs & E2 & _). exists gb, gc, gs. destruct (mapM _ (combine fs Vs) g2) as [o g3]. cbn [fst] in E2. subst o. cbn [fst].
    pose proof (components_from_parts R log floor (rs_effS pow2 decay) arrays mins maxs gb gc gs fs 0 Vs (eq_sym E)) as C. unfold selected, between, chosen, shifted in C. unfold rs_components. rewrite C. reflexivity.
  - exists gb, gc, (fun _ => g). cbn [fst]. pose proof (components_fail R log floor (rs_effS pow2 decay) arrays mins maxs gb gc (fun _ => g) fs 0 e (eq_sym E)) as C. unfold selected, between, chosen, shifted in C. unfold rs_components. rewrite C. reflexivity.
Qed.
Print Assumptions C128_rshash.
(** What np.random promises, in exact arithmetic. *)
Definition numpy_laws {G} (rg : rng G R) : Prop :=
  (forall a b g, (a < b)%Z -> (a <= fst (rg_between rg a b g) < b)%Z) /\
  (forall l k g, NoDup l -> k <= length l -> length (fst (rg_choice rg l k g)) = k /\ NoDup (fst (rg_choice rg l k g)) /\ incl (fst (rg_choice rg l k g)) l) /\
  (forall a b k g, (a < b)%R -> length (fst (rg_uniforms rg a b k g)) = k /\ Forall (fun v => (a <= v < b)%R) (fst (rg_uniforms rg a b k g))).
(** Then the constructor succeeds in every state of the generator, and the detector accepts every instance with as many features. *)
Theorem C128_rshash_created : forall Y G (rg : rng G R) fl decay arrays mins maxs sp m w g, numpy_laws rg -> Prop_RSHash.is_floor fl -> 1 <= length mins -> length mins = length maxs ->
  exists comps, fst (new_rshash (Y := Y) rg (Rpower 2) ln sqrt fl decay arrays mins maxs sp m w g) = Ok (own (RSHash (Rpower 2) ln fl decay comps) (RSHash_init sp w)) /\
    length comps = m /\ forall x, length x = length mins -> Prop_RSHash.fits_components comps x.
Proof.
  intros Y G rg fl decay arrays mins maxs sp m w g (L1 & L2 & L3) F Hm Hl. destruct (C128_rshash Y G R NumR rg (Rpower 2) ln sqrt fl decay arrays mins maxs sp m w g) as (gb & gc & gs & E). cbv zeta in E. rewrite E. clear E.
  assert (Lt : (rs_f_low sqrt (rs_effS (Rpower 2) decay) < rs_f_high sqrt (rs_effS (Rpower 2) decay))%R).
  { rewrite Prop_RSHash.effS_eq. unfold rs_f_low, rs_f_high. cbn [ndiv nofZ nsub NumR]. set (e := Prop_RSHash.effective_sample decay). assert (E9 : (9 < e)%R) by (subst e; unfold Prop_RSHash.effective_sample; eapply Rlt_le_trans; [|apply Rmax_l]; lra).
    assert (Q : (3 < sqrt e)%R) by (replace 3%R with (sqrt (3 * 3)) by (apply sqrt_square; lra); apply sqrt_lt_1; lra). assert (I : (/ sqrt e < / 3)%R) by (apply Rinv_lt_contravar; lra). unfold Rdiv. lra. }
  destruct (L3 _ _ m g Lt) as [Lf Ff].
  destruct (Prop_RSHash.C83_constructor_sampling fl (fun i a b => fst (rg_between rg a b (gb i))) (fun i l k => fst (rg_choice rg l k (gc i))) (fun i f k => fst (rg_uniforms rg 0%R f k (gs i))) decay (fst (rg_uniforms rg (rs_f_low sqrt (rs_effS (Rpower 2) decay)) (rs_f_high sqrt (rs_effS (Rpower 2) decay)) m g)) arrays mins maxs F) as (comps & Ec & Lc & _ & Fc).
  - split; [intros; apply L1; auto|]. split; [intros; apply L2; auto|]. intros; apply L3; auto.
  - exact Ff.
  - exact Hm.
  - exact Hl.
  - exists comps. change (@n0 R NumR) with 0%R. rewrite Ec. cbn [rmap]. rewrite Lc, Lf. auto.
Qed.
Print Assumptions C128_rshash_created.

(** ** Cases *)
(** A program with all three, a wrong instance and an invalid seed. *)
Definition mixed : list (statement unit float) :=
  [New (NewHst (fun v => v) [0; 0]%float [1; 1]%float 5 2 2); New NewRandom; New (NewLoda 0.5%float 0x1p-30%float (fun x => x) 2 3);
   New (NewXStream 2 1 0x1p-13 0.5 (fun _ _ => 0%Z) (mkSH [0%nat] 1 1 1)%float (fun _ => 0%Z) (fun x => x) 1 2 3 4)%float;
   Call 1 (CFitScore [] None); Call 0 (CFit [0.5; 0.5]%float None); Call 2 (CScore [1]%float); Call 2 (CFit [1; 2]%float None); Call 2 (CFitScore [3; 4]%float None); Call 2 (CFit [1]%float None); Call 2 (CScore [1; 1]%float); Seed (-1); GetIterator (Some 7%Z); Call 0 (CScore [0.5; 0.5]%float); Call 2 (CScore [0; 0]%float); Start 9].
Example C128_ex_mixed : Forall sound mixed /\ asks [] mixed = repeat (QRandint 2) 6 ++ [QRandint 1; QRandint 1; QRandint 1; QRand 1; QRandint 1; QRandint 1; QRandint 1; QRand 1; QUniform] ++ QRandn 3 2 :: repeat (QPermutation 2) 6 ++ [QPermutation 2; QSeed 7; QShuffle 9].
Proof. split; [repeat constructor|reflexivity]. Qed.
Example C128_ex_generator : (forall n g, 1 <= n -> fst (rg_randint counting n g) < n) /\ pr_g (after counting (mkProc 3 []) (map (compile counting) mixed)) = fold_left (perform counting) (asks [] mixed) 3.
Proof. assert (H : forall n g, 1 <= n -> fst (rg_randint counting n g) < n). { intros n g Hn. cbn [counting rg_randint fst]. apply Nat.mod_upper_bound. lia. } split; [exact H|]. apply C128_generator; [exact H|repeat constructor]. Qed.
(** Laws that a generator can meet. *)
Definition lowest : rng nat R :=
  mkRng Z.to_nat (fun g => (0%R, S g)) (fun _ _ g => (fun _ _ => 0%R, S g)) (fun n g => (seq 0 n, S g)) (fun _ g => (fun i => i, S g)) (fun _ g => (0, S g))
    (fun k g => (repeat 0%R k, S g)) (fun lo _ k g => (repeat lo k, S g)) (fun lo _ g => (lo, S g)) (fun l k g => (firstn k l, S g)).
Example C128_ex_laws : numpy_laws lowest /\ (forall n g, 1 <= n -> fst (rg_randint lowest n g) < n) /\ forall k g, length (fst (rg_rand lowest k g)) = k.
Proof.
  split; [|split; [cbn; auto|intros; apply repeat_length]]. split; [cbn; intros; lia|]. split.
  - intros l k g ND Hk. cbn [lowest rg_choice fst]. rewrite firstn_length. split; [lia|]. split.
    + rewrite <- (firstn_skipn k l) in ND. revert ND. generalize (skipn k l). clear. intros l2. induction (firstn k l) as [|a l1 IH]; intros ND; [constructor|]. inversion ND; subst. constructor; auto. intros I. apply H1. apply in_or_app. auto.
    + intros a Ha. rewrite <- (firstn_skipn k l). apply in_or_app. auto.
  - intros a b k g Hab. cbn [lowest rg_uniforms fst]. split; [apply repeat_length|]. apply Forall_forall. intros v Hv. apply repeat_spec in Hv. subst. lra.
Qed.
