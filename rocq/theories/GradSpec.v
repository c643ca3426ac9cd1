(** Specification vocabulary for gradients.

    A gradient is characterised through curves: [g'] is the gradient with respect to the
    input iff, along every differentiable curve x(t) of inputs, the output is a
    differentiable curve y(t) and <g, y'(0)> = <g', x'(0)>. Taking straight lines gives the
    partial derivatives. *)
From Verif Require Import Base Num RSum LayerModel.
From Coq Require Import Reals.

(** [v] is the derivative at 0 of the curve [c] of vectors of length [n]. *)
Definition vec_deriv (n : nat) (c : R -> list R) (v : list R) : Prop :=
  (forall t, length (c t) = n) /\ length v = n /\
  forall i, i < n -> derivable_pt_lim (fun t => nth i (c t) 0%R) 0 (nth i v 0%R).

(** <a, b> of the first [n] entries. *)
Definition dotl (n : nat) (a b : list R) : R :=
  Rsum n (fun i => (nth i a 0 * nth i b 0)%R).

(** <a' - a, b>: contribution of what was added to an accumulator. *)
Definition ddot (n : nat) (a' a b : list R) : R :=
  Rsum n (fun i => ((nth i a' 0 - nth i a 0) * nth i b 0)%R).

(** Where an activation layer is differentiable. *)
Definition act_smooth (a : act R) (x : list R) : Prop :=
  match a with
  | Relu => forall i, i < length x -> nth i x 0%R <> 0%R
  | Elu alpha =>
      (0 <= alpha)%R /\ (alpha = 1%R \/ forall i, i < length x -> nth i x 0%R <> 0%R)
  | Softmax => 0 < length x
  | _ => True
  end.

Definition layer_smooth (l : layer R) (x : list R) : Prop :=
  match knd l with KDense => True | KAct a => act_smooth a x end.

(** A layer constructed for [n] inputs and [k] outputs. *)
Definition layer_shape (l : layer R) (n k : nat) : Prop :=
  insz l = n /\ length (ig l) = n /\ length (out l) = k /\
  match knd l with
  | KDense => length (wts l) = k * n /\ length (wgrad l) = k * n /\
              length (bias l) = k /\ length (bgrad l) = k
  | KAct _ => k = n
  end.

Fixpoint chain_shape (ls : list (layer R)) (n m : nat) : Prop :=
  match ls with
  | [] => n = m
  | l :: ls' => exists k, layer_shape l n k /\ chain_shape ls' k m
  end.

(** Every layer is differentiable at the input it receives. *)
Fixpoint chain_smooth (ls : list (layer R)) (x : list R) : Prop :=
  match ls with
  | [] => True
  | l :: ls' => layer_smooth l x /\
                forall l', layer_forward l x = Ok l' -> chain_smooth ls' (out l')
  end.

(** A layer whose weights and biases move along curves. *)
Record lcurve := mkLcurve {
  base : layer R;
  cw : R -> list R; cb : R -> list R;
  dw : list R; db : list R
}.

Definition at_t (t : R) (c : lcurve) : layer R :=
  mkLayer (knd (base c)) (insz (base c)) (cw c t) (cb c t)
          (wgrad (base c)) (bgrad (base c)) (out (base c)) (ig (base c)).

Definition lcurve_ok (c : lcurve) : Prop :=
  cw c 0%R = wts (base c) /\ cb c 0%R = bias (base c) /\
  vec_deriv (length (wts (base c))) (cw c) (dw c) /\
  vec_deriv (length (bias (base c))) (cb c) (db c).

(** Sum over the layers of <what was added to the weight gradient, dw> and the same for the
    biases. *)
Fixpoint param_terms (cs : list lcurve) (ls : list (layer R)) : R :=
  match cs, ls with
  | c :: cs', l :: ls' =>
      (ddot (length (dw c)) (wgrad l) (wgrad (base c)) (dw c)
       + ddot (length (db c)) (bgrad l) (bgrad (base c)) (db c)
       + param_terms cs' ls')%R
  | _, _ => 0%R
  end.
