(** Arithmetics of growing precision. *)
From Coq Require Import Reals.
From Verif Require Import Num RoundModel RoundSpec.
Local Open Scope R_scope.

(** Relative error at most [u] of the functions of <cmath> used by the layers. *)
Record accurate (t : TransOps R) (u : R) : Prop := {
  ac_exp : forall x, Rabs (nexp x - exp x) <= u * exp x;
  ac_tanh : forall x, Rabs (ntanh x - tanh x) <= u * Rabs (tanh x)
}.

(** An arithmetic: how results are rounded, the functions of <cmath>, and a bound on the
    relative error of a single operation. *)
Record arith := mkArith {
  a_rnd : R -> R;
  a_fun : TransOps R;
  a_unit : R;
  a_precise : precise a_rnd a_unit;
  a_accurate : accurate a_fun a_unit
}.
Definition a_num (a : arith) : NumOps R := NumF (a_rnd a).

(** True for every arithmetic that is precise enough. *)
Definition eventually (P : arith -> Prop) : Prop :=
  exists u0, 0 < u0 /\ forall a, a_unit a <= u0 -> P a.
(** The values computed by the arithmetics come as close to [x] as one likes. *)
Definition tends (f : arith -> R) (x : R) : Prop :=
  forall eps, 0 < eps -> eventually (fun a => Rabs (f a - x) <= eps).
(** Vectors: always of the same length, and entry by entry. *)
Definition vtends (f : arith -> list R) (x : list R) : Prop :=
  (forall a, length (f a) = length x) /\ forall i, tends (fun a => List.nth i (f a) 0) (List.nth i x 0).
