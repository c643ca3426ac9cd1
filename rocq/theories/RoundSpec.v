(** What a rounding is, for the properties about floating-point results. *)
From Coq Require Import Reals.
From Verif Require Import Num.
Local Open Scope R_scope.

(** The facts every IEEE rounding mode has as long as nothing overflows: it keeps the order,
    it keeps 0, 1 and -1, it is idempotent, and the difference of two different representable
    numbers is not rounded to zero (gradual underflow). *)
Record rounding (rnd : R -> R) : Prop := {
  rd_mono : forall x y, x <= y -> rnd x <= rnd y;
  rd_zero : rnd 0 = 0;
  rd_one : rnd 1 = 1;
  rd_mone : rnd (-1) = -1;
  rd_idem : forall x, rnd (rnd x) = rnd x;
  rd_gap : forall x y, rnd x = x -> rnd y = y -> x < y -> 0 < rnd (y - x)
}.

(** Additionally without underflow: relative error at most [u]. *)
Record precise (rnd : R -> R) (u : R) : Prop := {
  pr_rounding : rounding rnd;
  pr_err : forall x, Rabs (rnd x - x) <= u * Rabs x
}.

(** What is asked of the functions of <cmath>; they need not be correctly rounded. *)
Record cmath (t : TransOps R) : Prop := {
  cm_exp_pos : forall x, 0 <= nexp x;
  cm_exp_mono : forall x y, x <= y -> nexp x <= nexp y;
  cm_exp_0 : nexp 0 = 1;
  cm_ln : forall x, 0 < x <= 1 -> nln x <= 0;
  cm_tanh : forall x, -1 <= ntanh x <= 1
}.
