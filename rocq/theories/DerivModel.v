(** The derivative functions over arrays, and what happens when arrays coincide. *)
From Verif Require Import Base Num MathModel.

Section Deriv.
Context {T : Type} `{NumOps T} `{TransOps T}.

(** The scalar functions an array version exists of. *)
Inductive fn := FRelu | FRelu_1 | FElu (alpha : T) | FElu_1_opt (alpha : T) | FElu_1 (alpha : T)
  | FTanh | FTanh_1_opt | FTanh_1 | FSigmoid | FSigmoid_1_opt | FSigmoid_1.
Definition fn_at (f : fn) (x : T) : T :=
  match f with
  | FRelu => relu x | FRelu_1 => relu_1 x
  | FElu a => elu a x | FElu_1_opt a => elu_1_opt a x | FElu_1 a => elu_1 a x
  | FTanh => ntanh x | FTanh_1_opt => tanh_1_opt x | FTanh_1 => tanh_1 x
  | FSigmoid => sigmoid x | FSigmoid_1_opt => sigmoid_1_opt x | FSigmoid_1 => sigmoid_1 x
  end.

(** The array versions: dlmath.hpp relu 562-569, relu_1 594-601, elu 628-635, elu_1_opt 662-669,
    elu_1 696-703, tanh 726-733, tanh_1_opt 758-765, tanh_1 789-796, sigmoid 819-826,
    sigmoid_1_opt 851-858, sigmoid_1 882-889, all the same loop dst[i] = f(src[i]).
    [fn_arr] for separate arrays, [fn_inplace] for dst == src. *)
Definition fn_arr (f : fn) (dst src : list T) (n : nat) : res (list T) := map_into (fn_at f) dst src n.
Definition fn_inplace (f : fn) (dst : list T) (n : nat) : res (list T) := map_inplace (fn_at f) dst n.

(** softmax_1, dlmath.hpp 1045-1054: softmax into a new array (contents [tmp] before), then
    softmax_1_opt_no_check. dst may be src, which is no longer read by then; so [dst] is the only
    array argument that is written. *)
Definition softmax_1 (tmp dst src grad : list T) (n : nat) : res (list T) :=
  tmp <- softmax tmp src n ;; softmax_1_opt dst tmp grad n.

(** softmax_1_opt with its check, dlmath.hpp 984-993; [alias] says whether src == dst. *)
Definition softmax_1_opt_checked (alias : bool) (dst src grad : list T) (n : nat) : res (list T) :=
  _ <- guard (negb alias) ;; softmax_1_opt dst src grad n.

(** softmax_1_opt_no_check, dlmath.hpp 1014-1027, called with dst == gradients: the cells of
    [dst] are read as gradients while they are overwritten. *)
Definition softmax_1_opt_over (dst src : list T) (n : nat) : res (list T) :=
  for_ n (fun i dst =>
    dst <- wr dst i n0 ;;
    for_ n (fun j dst =>
      si <- rd src i ;; sj <- rd src j ;; g <- rd dst j ;; c <- rd dst i ;;
      wr dst i (nadd c (nmul (nmul si (nsub (if i =? j then n1 else n0) sj)) g))) dst) dst.
Definition softmax_1_over (tmp dst src : list T) (n : nat) : res (list T) :=
  tmp <- softmax tmp src n ;; softmax_1_opt_over dst tmp n.
End Deriv.
Arguments fn : clear implicits.
