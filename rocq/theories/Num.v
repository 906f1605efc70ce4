(** * Num: the arithmetic the Python code uses, abstracted over the number type.

    Model code is written once over [Ord]/[Num] and instantiated with the reals
    (exact arithmetic) and with the kernel's IEEE-754 binary64 floats. *)
From Coq Require Import List ZArith Lia Bool Reals Lra.
From Coq Require PrimFloat Uint63.
From Verif Require Import Base.
Import ListNotations.

(** Comparison operators [<], [<=], [==]. *)
Class Ord (A : Type) : Type := {
  oltb : A -> A -> bool;
  oleb : A -> A -> bool;
  oeqb : A -> A -> bool
}.

Class Num (A : Type) : Type := {
  num_ord :> Ord A;
  n0 : A;
  nadd : A -> A -> A;
  nsub : A -> A -> A;
  nmul : A -> A -> A;
  ndiv : A -> A -> A;      (* only ever applied after a test that the divisor is not 0 *)
  nneg : A -> A;
  nabs : A -> A;
  nsqrt : A -> A;
  nofZ : Z -> A
}.

(** Laws of a total order; satisfied by Z, R and [ext R] below. *)
Class OrdLaws (A : Type) {O : Ord A} : Prop := {
  ole_refl : forall a, oleb a a = true;
  ole_trans : forall a b c, oleb a b = true -> oleb b c = true -> oleb a c = true;
  ole_antisym : forall a b, oleb a b = true -> oleb b a = true -> a = b;
  ole_total : forall a b, oleb a b = true \/ oleb b a = true;
  olt_spec : forall a b, oltb a b = negb (oleb b a);
  oeq_spec : forall a b, oeqb a b = true <-> a = b
}.

(** Python scalar division: [ZeroDivisionError] on a zero divisor.
    (numpy scalars would give nan/inf and a warning instead; see [npdiv].) *)
Definition pydiv {A} `{Num A} (a b : A) : res A :=
  if oeqb b n0 then Raise ZeroDivisionError else Ok (ndiv a b).

(** numpy division: [NonFin] stands for the nan / +inf / -inf that numpy returns,
    with a RuntimeWarning, on a zero divisor. *)
Inductive npres (A : Type) : Type := FinV (a : A) | NonFin.
Arguments FinV {A} a.
Arguments NonFin {A}.
Definition npdiv {A} `{Num A} (a b : A) : npres A :=
  if oeqb b n0 then NonFin else FinV (ndiv a b).
Definition npmap {A B} (f : A -> B) (x : npres A) : npres B :=
  match x with FinV a => FinV (f a) | NonFin => NonFin end.

(** Python [float ** 2] and [sum(...)] loops. *)
Definition nsq {A} `{Num A} (a : A) : A := nmul a a.
Definition nsum {A} `{Num A} (l : list A) : A := fold_left nadd l n0.

(** ** Z *)
#[export] Instance OrdZ : Ord Z := {| oltb := Z.ltb; oleb := Z.leb; oeqb := Z.eqb |}.
#[export] Instance OrdLawsZ : OrdLaws Z.
Proof.
  constructor; simpl; intros.
  - apply Z.leb_refl.
  - rewrite Z.leb_le in *; lia.
  - rewrite Z.leb_le in *; lia.
  - rewrite !Z.leb_le; lia.
  - apply Z.ltb_antisym.
  - apply Z.eqb_eq.
Qed.

(** ** R *)
Definition Rltb (a b : R) : bool := if Rlt_dec a b then true else false.
Definition Rleb (a b : R) : bool := if Rle_dec a b then true else false.
Definition Reqb (a b : R) : bool := if Req_EM_T a b then true else false.

Lemma Rltb_lt : forall a b, Rltb a b = true <-> (a < b)%R.
Proof. intros; unfold Rltb; destruct (Rlt_dec a b); split; auto; discriminate. Qed.
Lemma Rleb_le : forall a b, Rleb a b = true <-> (a <= b)%R.
Proof. intros; unfold Rleb; destruct (Rle_dec a b); split; auto; discriminate. Qed.
Lemma Reqb_eq : forall a b, Reqb a b = true <-> a = b.
Proof. intros; unfold Reqb; destruct (Req_EM_T a b); split; auto; discriminate. Qed.
Lemma Rltb_nlt : forall a b, Rltb a b = false <-> ~ (a < b)%R.
Proof. intros; unfold Rltb; destruct (Rlt_dec a b); split; auto; try discriminate; tauto. Qed.
Lemma Rleb_nle : forall a b, Rleb a b = false <-> ~ (a <= b)%R.
Proof. intros; unfold Rleb; destruct (Rle_dec a b); split; auto; try discriminate; tauto. Qed.
Lemma Reqb_neq : forall a b, Reqb a b = false <-> a <> b.
Proof. intros; unfold Reqb; destruct (Req_EM_T a b); split; auto; try discriminate; tauto. Qed.

#[export] Instance OrdR : Ord R := {| oltb := Rltb; oleb := Rleb; oeqb := Reqb |}.
#[export] Instance OrdLawsR : OrdLaws R.
Proof.
  constructor; simpl; intros.
  - rewrite Rleb_le; lra.
  - rewrite Rleb_le in *; lra.
  - rewrite Rleb_le in *; lra.
  - rewrite !Rleb_le; lra.
  - unfold Rltb, Rleb; destruct (Rlt_dec a b), (Rle_dec b a); simpl; auto; lra.
  - apply Reqb_eq.
Qed.
#[export] Instance NumR : Num R := {|
  num_ord := OrdR; n0 := 0%R;
  nadd := Rplus; nsub := Rminus; nmul := Rmult; ndiv := Rdiv;
  nneg := Ropp; nabs := Rabs; nsqrt := R_sqrt.sqrt; nofZ := IZR |}.

(** ** binary64 *)
(** int -> float conversion, exact below 2^53 and correctly rounded below 2^63. *)
Definition float_ofZ (z : Z) : PrimFloat.float :=
  if (z <? 0)%Z then PrimFloat.opp (PrimFloat.of_uint63 (Uint63.of_Z (- z)))
  else PrimFloat.of_uint63 (Uint63.of_Z z).
#[export] Instance OrdF : Ord PrimFloat.float :=
  {| oltb := PrimFloat.ltb; oleb := PrimFloat.leb; oeqb := PrimFloat.eqb |}.
#[export] Instance NumF : Num PrimFloat.float := {|
  num_ord := OrdF; n0 := PrimFloat.zero;
  nadd := PrimFloat.add; nsub := PrimFloat.sub; nmul := PrimFloat.mul; ndiv := PrimFloat.div;
  nneg := PrimFloat.opp; nabs := PrimFloat.abs; nsqrt := PrimFloat.sqrt; nofZ := float_ofZ |}.

(** ** Adding -inf and +inf to an ordered type.
    The values of a double other than NaN: [ext R] in the exact reading. *)
Inductive ext (A : Type) : Type := MInf | Fin (a : A) | PInf.
Arguments MInf {A}.
Arguments Fin {A} a.
Arguments PInf {A}.

Definition ext_leb {A} `{Ord A} (x y : ext A) : bool :=
  match x, y with
  | MInf, _ => true
  | _, PInf => true
  | Fin a, Fin b => oleb a b
  | _, _ => false
  end.
Definition ext_ltb {A} `{Ord A} (x y : ext A) : bool :=
  match x, y with
  | Fin a, Fin b => oltb a b
  | MInf, MInf => false
  | MInf, _ => true
  | Fin _, PInf => true
  | _, _ => false
  end.
Definition ext_eqb {A} `{Ord A} (x y : ext A) : bool :=
  match x, y with
  | Fin a, Fin b => oeqb a b
  | MInf, MInf => true
  | PInf, PInf => true
  | _, _ => false
  end.
#[export] Instance OrdExt (A : Type) `{Ord A} : Ord (ext A) :=
  {| oltb := ext_ltb; oleb := ext_leb; oeqb := ext_eqb |}.
#[export] Instance OrdLawsExt (A : Type) `{OrdLaws A} : OrdLaws (ext A).
Proof.
  constructor; simpl.
  - intros [|a|]; simpl; auto. apply ole_refl.
  - intros [|a|] [|b|] [|c|]; simpl; auto; try discriminate. apply ole_trans.
  - intros [|a|] [|b|]; simpl; auto; try discriminate.
    intros h1 h2; f_equal; apply ole_antisym; assumption.
  - intros [|a|] [|b|]; simpl; auto. apply ole_total.
  - intros [|a|] [|b|]; simpl; auto. apply olt_spec.
  - intros [|a|] [|b|]; simpl; split; intro h; try discriminate; auto.
    + f_equal. apply oeq_spec; assumption.
    + inversion h. apply oeq_spec; reflexivity.
Qed.
