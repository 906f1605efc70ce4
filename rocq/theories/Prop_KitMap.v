(** * C107: giving KitNET a feature map. *)
From Coq Require Import List ZArith Lia Bool Arith.
From Verif Require Import Base Num Spec Model_Stats Model_Utils Model_Core Model_Trans Model_Simple Model_KitNET.
Import ListNotations.
Open Scope m_scope.
Open Scope nat_scope.

(** ** Specification *)
(** A feature map: the groups of feature numbers, one for each autoencoder.  It is usable if there is a group and every
    group has a feature. *)
Definition usable (v : list (list nat)) : Prop := v <> [] /\ Forall (fun g => g <> []) v.
(** The constructor with lines 42-43 moved behind line 46, so that the attributes exist when the networks are made. *)
Definition repaired {A} `{Num A} (p : kitpar A) (n : nat) (v : list (list nat)) : res (kitobj A) :=
  match kit_raw_create p v (mkRaw (Some []) (Some None)) with
  | (Raise e, _) => Raise e
  | (Ok _, s) => match kr_ens s, kr_out s with Some l, Some o => Ok (mkKit n (cc_init n) 0 0 (Some v) l o) | _, _ => Raise AttributeError end
  end.

(** ** C107 *)
(** No feature map is accepted; without one the constructor returns the object of the other properties. *)
Theorem C107_feature_map_refuted : forall A (NA : Num A) (p : kitpar A) n v,
  kit_new p n (Some v) = Raise (match v with [] => ZeroDivisionError | _ => AttributeError end) /\ kit_new p n None = Ok (kit_init n).
Proof. intros A NA p n v. split; [|reflexivity]. destruct v as [|g v]; reflexivity. Qed.
Print Assumptions C107_feature_map_refuted.

Section Repaired.
Context {A : Type} `{NA : Num A} (p : kitpar A).
Lemma da_init_ok : forall k, 1 <= k -> exists d, da_init p k = Ok d /\ length (da_max d) = k.
Proof. intros k K. unfold da_init. destruct (Nat.eqb_spec k 0); [lia|]. eexists. split; [reflexivity|]. cbn. apply repeat_length. Qed.
Let kstep : list nat -> M (kitraw A) unit := fun f : list nat => s <- gets (fun s => s) ;; l <- lift (match kr_ens s with None => Raise AttributeError | Some l => Ok l end) ;; d <- lift (da_init p (length f)) ;; modify (fun s => mkRaw (Some (l ++ [d])) (kr_out s)).
Lemma kstep_eq : forall g l o, kstep g (mkRaw (Some l) o) = match da_init p (length g) with Ok d => (Ok tt, mkRaw (Some (l ++ [d])) o) | Raise e => (Raise e, mkRaw (Some l) o) end.
Proof. intros. unfold kstep, bind, gets, lift, modify. cbn [kr_ens kr_out]. destruct (da_init p (length g)); reflexivity. Qed.
Lemma create_ok : forall (v : list (list nat)) l o, Forall (fun g => g <> []) v -> exists ds, length ds = length v /\ (forall i, i < length v -> exists d, nth_error ds i = Some d /\ length (da_max d) = length (nth i v []) /\ da_init p (length (nth i v [])) = Ok d) /\
  iterM kstep v (mkRaw (Some l) o) = (Ok tt, mkRaw (Some (l ++ ds)) o).
Proof.
  induction v as [|g v IH]; intros l o F.
  - exists []. split; auto. split; [cbn; lia|]. cbn. rewrite app_nil_r. reflexivity.
  - inversion F; subst. destruct (da_init_ok (length g)) as (d & D & Dl). { destruct g; [congruence|cbn; lia]. }
    destruct (IH (l ++ [d]) o H2) as (ds & L & N & E). exists (d :: ds). split; [cbn; lia|]. split.
    + intros [|i] Hi; cbn in *. { exists d. auto. } apply N. lia.
    + cbn [iterM]. unfold bind at 1. rewrite kstep_eq, D, E, <- app_assoc. reflexivity.
Qed.
Lemma create_bad : forall (v : list (list nat)) l o, Exists (fun g => g = []) v -> exists s,
  iterM kstep v (mkRaw (Some l) o) = (Raise ZeroDivisionError, s).
Proof.
  induction v as [|g v IH]; intros l o F; [inversion F|].
  cbn [iterM]. unfold bind at 1. rewrite kstep_eq.
  destruct g as [|i g]; [eexists; reflexivity|]. inversion F; subst; [discriminate|]. destruct (da_init_ok (length (i :: g))) as (d & D & _); [cbn; lia|]. rewrite D. apply IH; auto.
Qed.
End Repaired.
(** With the attributes created first, exactly the usable maps are accepted, and the object has one autoencoder per group, with
    one input per feature of the group, and an output autoencoder with one input per group. *)
Theorem C107_repaired_constructor : forall A (NA : Num A) (p : kitpar A) n v,
  (~ usable v -> repaired p n v = Raise ZeroDivisionError) /\
  (usable v -> exists k out, repaired p n v = Ok k /\ kt_map k = Some v /\ length (kt_ens k) = length v /\
     (forall i, i < length v -> exists d, nth_error (kt_ens k) i = Some d /\ length (da_max d) = length (nth i v [])) /\
     kt_out k = Some out /\ length (da_max out) = length v).
Proof.
  intros A NA p n v. split.
  - intros U. unfold repaired, kit_raw_create. unfold bind at 1. destruct (Exists_dec (fun g : list nat => g = []) v) as [E|E].
    { intros [|]; [left; auto|right; discriminate]. }
    + destruct (create_bad p v [] (Some None) E) as (s & ->). reflexivity.
    + destruct v as [|g v]; [reflexivity|]. exfalso. apply U. split; [discriminate|]. apply Forall_Exists_neg in E. exact E.
  - intros [U1 U2]. destruct (create_ok p v [] (Some None) U2) as (ds & L & N & E). destruct (da_init_ok p (length v)) as (out & O & Ol). { destruct v; [congruence|cbn; lia]. }
    unfold repaired, kit_raw_create. unfold bind at 1. rewrite E. unfold bind, lift. rewrite O. cbn. do 2 eexists. split; [reflexivity|]. cbn [kt_map kt_ens kt_out]. repeat split; auto.
    intros i Hi. destruct (N i Hi) as (d & D1 & D2 & _). exists d. auto.
Qed.
Print Assumptions C107_repaired_constructor.
(** The map of the code's own comment (lines 17-19) is usable. *)
Example C107_ex : usable [[2; 5; 3]; [4; 0; 1]; [6; 7]].
Proof. split; [discriminate|]. repeat constructor; discriminate. Qed.
