(** Specification of the loss statistics: what each call should contribute, computed from
    the call history alone. *)
From Verif Require Import Base Num RSum LossModel.
From Coq Require Import Reals.
Local Open Scope R_scope.

(** Cross entropy of a target and a prediction (prediction clamped below at [eps]). *)
Definition ce_value (eps : R) (t x : list R) : R :=
  Rsum (length x) (fun i => - nth i t 0 * ln (Rmax (nth i x 0) eps)).
Definition mse_value (t x : list R) : R :=
  Rsum (length x) (fun i => (nth i t 0 - nth i x 0) ^ 2) / INR (length x).

(** The prediction is correct: the first largest entry of [x] is the first non-zero entry of
    the target. *)
Definition ce_hit (t x : list R) : Prop :=
  exists k, (k < length x)%nat /\ nth k t 0 <> 0 /\ (forall j, (j < k)%nat -> nth j t 0 = 0) /\
    (forall j, (j < length x)%nat -> nth j x 0 <= nth k x 0) /\
    (forall j, (j < k)%nat -> nth j x 0 < nth k x 0).
Definition mse_hit (tol : R) (t x : list R) : Prop := - tol <= mse_value t x <= tol.

(** Does a forward call with this target succeed? *)
Definition ce_valid (t : list R) : Prop := exists i, (i < length t)%nat /\ nth i t 0 <> 0.
Definition mse_valid (t : list R) : Prop := t <> [].

(** The (target, prediction) pairs evaluated successfully since the last reset, newest
    first; [t] is the current target. *)
Inductive evaluated (valid : list R -> Prop) :
  list (lop R) -> list R -> list (list R * list R) -> Prop :=
| ev_nil : evaluated valid [] [] []
| ev_target : forall os t h t', evaluated valid os t h -> evaluated valid (os ++ [OTarget t']) t' h
| ev_reset : forall os t h, evaluated valid os t h -> evaluated valid (os ++ [OReset]) t []
| ev_ok : forall os t h x, evaluated valid os t h -> valid t ->
    evaluated valid (os ++ [OForward x]) t ((t, x) :: h)
| ev_throw : forall os t h x, evaluated valid os t h -> ~ valid t ->
    evaluated valid (os ++ [OForward x]) t h.

Definition total (v : list R -> list R -> R) (h : list (list R * list R)) : R :=
  fold_right (fun p a => v (fst p) (snd p) + a) 0 h.

Inductive count_of (P : list R -> list R -> Prop) : list (list R * list R) -> nat -> Prop :=
| co_nil : count_of P [] 0
| co_yes : forall p h n, P (fst p) (snd p) -> count_of P h n -> count_of P (p :: h) (S n)
| co_no : forall p h n, ~ P (fst p) (snd p) -> count_of P h n -> count_of P (p :: h) n.

(** Calls with matching sizes. *)
Definition sized (n : nat) (o : lop R) : Prop :=
  match o with
  | OTarget t => t = [] \/ length t = n
  | OForward x => length x = n
  | OReset => True
  end.
