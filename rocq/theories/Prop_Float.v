(** * What rounding breaks: counterexamples on IEEE-754 binary64 (C24, C25).

    The same model code as in Prop_Stats.v, instantiated with the kernel's binary64 floats.
    The statements quantify existentially: there is a stream of ordinary finite doubles on
    which the exact-arithmetic law fails. *)
From Coq Require Import List ZArith Bool.
From Coq Require Import Floats.
From Verif Require Import Base Num Spec Model_Stats.
Import ListNotations.
Open Scope float_scope.
#[local] Set Warnings "-inexact-float".

(** ** C24: RunningStatistic(AverageMeter, 1) should return the value just pushed. *)
Theorem C24_running_average_absorption_refuted :
  exists (xs : list float) s1,
    forallb is_finite xs = true /\ last xs 0 = 1 /\
    iterM (RunningStatistic_update AverageMeter) xs (mkRun (mt_init AverageMeter) 1%Z []) = (Ok tt, s1) /\
    eval (RunningStatistic_get AverageMeter) s1 = Ok 0 /\
    mt_answer AverageMeter (map (@Upd float) (lastn 1 xs)) = Ok 1.
Proof. exists [1e16; 1]. eexists. repeat (match goal with |- _ /\ _ => split; [vm_compute; reflexivity|] end); vm_compute; reflexivity. Qed.
Print Assumptions C24_running_average_absorption_refuted.

Theorem C24_running_sum_absorption_refuted :
  exists (xs : list float) s1,
    forallb is_finite xs = true /\
    iterM (RunningStatistic_update SumMeter) xs (mkRun (mt_init SumMeter) 3%Z []) = (Ok tt, s1) /\
    eval (RunningStatistic_get SumMeter) s1 = Ok 0 /\
    mt_answer SumMeter (map (@Upd float) (lastn 3 xs)) = Ok 3.
Proof. exists [1e16; 1; 1; 1]. eexists. repeat (match goal with |- _ /\ _ => split; [vm_compute; reflexivity|] end); vm_compute; reflexivity. Qed.
Print Assumptions C24_running_sum_absorption_refuted.

(** update x then remove x does not restore the meter (C21 fails on doubles). *)
Theorem C24_remove_does_not_undo_update_refuted :
  exists x y : float, is_finite x = true /\ is_finite y = true /\
    mt_answer AverageMeter [Upd y; Upd x; Rem x] <> mt_answer AverageMeter [Upd y].
Proof.
  exists 1e16, 1. split; [reflexivity|]. split; [reflexivity|].
  intro H.
  assert (E : (match mt_answer AverageMeter [Upd 1; Upd 1e16; Rem 1e16] with Ok v => PrimFloat.eqb v 1 | _ => true end) = true).
  { rewrite H. vm_compute. reflexivity. }
  vm_compute in E. discriminate.
Qed.
Print Assumptions C24_remove_does_not_undo_update_refuted.

(** The order of arrival matters on doubles (C23 fails). *)
Theorem C24_order_matters_refuted :
  exists x y z : float, forallb is_finite [x; y; z] = true /\
    mt_answer SumMeter [Upd x; Upd y; Upd z] = Ok 0 /\
    mt_answer SumMeter [Upd x; Upd z; Upd y] = Ok 1.
Proof. exists 1e16, 1, (-1e16). repeat (match goal with |- _ /\ _ => split; [vm_compute; reflexivity|] end); vm_compute; reflexivity. Qed.
Print Assumptions C24_order_matters_refuted.

(** ** C25: a negative variance. *)
Theorem C25_negative_variance_refuted :
  exists (x : float) (n : nat) v, is_finite x = true /\
    mt_answer VarianceMeter (map (@Upd float) (repeat x n)) = Ok v /\ PrimFloat.ltb v 0 = true.
Proof. exists 0.1, 3%nat. eexists. repeat (match goal with |- _ /\ _ => split; [vm_compute; reflexivity|] end); vm_compute; reflexivity. Qed.
Print Assumptions C25_negative_variance_refuted.
(** ... and its square root, which ZScorePostprocessor divides by, is NaN. *)
Theorem C25_negative_variance_std_is_nan_refuted :
  exists (x : float) (n : nat) v, is_finite x = true /\
    mt_answer VarianceMeter (map (@Upd float) (repeat x n)) = Ok v /\ is_nan (PrimFloat.sqrt v) = true.
Proof. exists 0.1, 3%nat. eexists. repeat (match goal with |- _ /\ _ => split; [vm_compute; reflexivity|] end); vm_compute; reflexivity. Qed.
Print Assumptions C25_negative_variance_std_is_nan_refuted.
