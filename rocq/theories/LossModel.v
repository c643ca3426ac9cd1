(** Loss layers: loss.cpp, cce_loss.cpp, mse_loss.cpp. *)
From Verif Require Import Base Num MathModel.

Section Loss.
Context {T : Type} `{NumOps T} `{TransOps T} `{LimOps T}.

(** Members of LossLayer (loss.hpp 172-189); [ls_in] is input_size(). *)
Record lossl := mkLoss {
  ls_in : nat; ls_target : list T; ls_grad : list T; ls_inv : T;
  ls_loss : T; ls_cum : T; ls_cor : nat; ls_inc : nat
}.

(** Constructor, loss.cpp 34-49. *)
Definition loss_new (input_size batch_size : nat) : lossl :=
  mkLoss input_size [] (repeat n0 input_size) (ndiv n1 (nofnat (Nat.max batch_size 1)))
    n0 n0 0 0.

(** set_target, loss.cpp 51-54; reset_score 68-73. *)
Definition set_target (l : lossl) (t : list T) : lossl :=
  mkLoss (ls_in l) t (ls_grad l) (ls_inv l) (ls_loss l) (ls_cum l) (ls_cor l) (ls_inc l).
Definition reset_score (l : lossl) : lossl :=
  mkLoss (ls_in l) (ls_target l) (ls_grad l) (ls_inv l) (ls_loss l) n0 0 0.

(** accuracy 56-60, avg_loss 62-66 (a zero denominator gives NaN in C++; the theorems ask
    for at least one call). *)
Definition accuracy (l : lossl) : T := ndiv (nofnat (ls_cor l)) (nofnat (ls_cor l + ls_inc l)).
Definition avg_loss (l : lossl) : T := ndiv (ls_cum l) (nofnat (ls_cor l + ls_inc l)).

Definition add_loss (l : lossl) (x : T) : lossl :=
  mkLoss (ls_in l) (ls_target l) (ls_grad l) (ls_inv l) x (nadd (ls_cum l) x) (ls_cor l) (ls_inc l).
Definition count (l : lossl) (hit : bool) : lossl :=
  mkLoss (ls_in l) (ls_target l) (ls_grad l) (ls_inv l) (ls_loss l) (ls_cum l)
    (if hit then S (ls_cor l) else ls_cor l) (if hit then ls_inc l else S (ls_inc l)).

(** _argactive, cce_loss.cpp 93-104: first non-zero of the first [n] target entries. *)
Fixpoint argactive (t : list T) (i n : nat) : res nat :=
  match n with
  | O => Throw
  | S m => x <- rd t i ;; if negb (neqb x n0) then Ok i else argactive t (S i) m
  end.

(** CategoricalCrossEntropyLossLayer::forward, cce_loss.cpp 51-79. The state is returned
    also when the call throws. *)
Definition cce_forward (l : lossl) (x : list T) : lossl * res unit :=
  match ls_target l with
  | [] => (l, Throw)
  | _ =>
      match cross_entropy (ls_target l) x (length x) with
      | Ok v =>
          let l := add_loss l v in
          match max_and_argmax x (length x) with
          | Ok (_, mi) =>
              match argactive (ls_target l) 0 (ls_in l) with
              | Ok act => (count l (mi =? act), Ok tt)
              | Throw => (l, Throw)
              | UB => (l, UB)
              end
          | Throw => (l, Throw)
          | UB => (l, UB)
          end
      | Throw => (l, Throw)
      | UB => (l, UB)
      end
  end.

(** MeanSquaredLossLayer::forward, mse_loss.cpp 42-66; [a <= b] is less or equal, false for
    NaN as in C++. *)
Definition nle (a b : T) : bool := nltb a b || neqb a b.
Definition mse_forward (tol : T) (l : lossl) (x : list T) : lossl * res unit :=
  match ls_target l with
  | [] => (l, Throw)
  | _ =>
      match mean_squared_error (ls_target l) x (length x) with
      | Ok v =>
          let l := add_loss l v in
          (count l (nle (nopp tol) v && nle v tol), Ok tt)
      | Throw => (l, Throw)
      | UB => (l, UB)
      end
  end.

(** backward, cce_loss.cpp 81-91 and mse_loss.cpp 68-77; [last] is what _last_input points
    to. Returns the gradient buffer. *)
Definition cce_backward (l : lossl) (last : list T) : res (list T) :=
  cross_entropy_1_arr (ls_grad l) (ls_target l) last (ls_inv l) (length (ls_grad l)).
Definition mse_backward (l : lossl) (last : list T) : res (list T) :=
  mean_squared_error_1 (ls_grad l) (ls_target l) last (ls_inv l) (length (ls_grad l)).

(** Histories of calls. *)
Inductive lop := OTarget (t : list T) | OForward (x : list T) | OReset.
Definition loss_step (fwd : lossl -> list T -> lossl * res unit) (l : lossl) (o : lop)
  : lossl * res unit :=
  match o with
  | OTarget t => (set_target l t, Ok tt)
  | OForward x => fwd l x
  | OReset => (reset_score l, Ok tt)
  end.
Fixpoint loss_run (fwd : lossl -> list T -> lossl * res unit) (l : lossl) (os : list lop)
  : lossl * list (res unit) :=
  match os with
  | [] => (l, [])
  | o :: os' =>
      let '(l1, r) := loss_step fwd l o in
      let '(l2, rs) := loss_run fwd l1 os' in (l2, r :: rs)
  end.
End Loss.
Arguments lossl T : clear implicits.
Arguments lop T : clear implicits.
