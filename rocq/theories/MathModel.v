(** Model of the numeric kernels of /repo/source/dnn/dlmath.hpp (class [DLMath]).
    Every array argument is a checked buffer: an index outside it is [UB]. Destination
    and source are separate buffers here; calls that pass the same pointer twice are
    modelled by the [_inplace] variants. *)
From Verif Require Import Base Num.
From Coq Require Import Reals.

(** [std::numeric_limits<T>::epsilon()] and [min()]. *)
Class LimOps (T : Type) := { neps : T; nmin : T }.
#[global] Instance LimR : LimOps R := {| neps := (/ 2 ^ 52)%R; nmin := (/ 2 ^ 1022)%R |}.

Section Kernels.
Context {T : Type} `{NumOps T} `{TransOps T} `{LimOps T}.

(** [std::max(a, b)]: [(a < b) ? b : a]. *)
Definition nmax (a b : T) : T := if nltb a b then b else a.

(** Loop [dst[i] = f(src[i])], the shape of arr_mul(dst,src,val) lines 447-454,
    arr_sum(dst,src,val) 491-498, relu 562-569, relu_1 594-601, elu 628-635, elu_1_opt 662-669,
    elu_1 696-703, tanh 730-737, tanh_1_opt 758-765, tanh_1 789-796, sigmoid 820-827,
    sigmoid_1_opt 851-858, sigmoid_1 883-890. *)
Definition map_into (f : T -> T) (dst src : list T) (n : nat) : res (list T) :=
  for_ n (fun i dst => x <- rd src i ;; wr dst i (f x)) dst.

(** The same loop when [dst == src]. *)
Definition map_inplace (f : T -> T) (dst : list T) (n : nat) : res (list T) :=
  for_ n (fun i dst => x <- rd dst i ;; wr dst i (f x)) dst.

(** Loop [dst[i] = f(src1[i], src2[i])]: arr_mul 428-436, arr_sum 472-480. *)
Definition map2_into (f : T -> T -> T) (dst src1 src2 : list T) (n : nat) : res (list T) :=
  for_ n (fun i dst => x <- rd src1 i ;; y <- rd src2 i ;; wr dst i (f x y)) dst.

(** The same loop when [dst == src1]. *)
Definition map2_inplace (f : T -> T -> T) (dst src2 : list T) (n : nat) : res (list T) :=
  for_ n (fun i dst => x <- rd dst i ;; y <- rd src2 i ;; wr dst i (f x y)) dst.

(** dlmath.hpp 428-436 *)
Definition arr_mul := map2_into nmul.
(** dlmath.hpp 447-454 *)
Definition arr_mul_val (dst src : list T) (v : T) (n : nat) := map_into (fun x => nmul x v) dst src n.
(** dlmath.hpp 472-480 *)
Definition arr_sum := map2_into nadd.

(** matarr_mul_no_check, dlmath.hpp 512-525 *)
Definition matarr_mul_no_check (dst mat src : list T) (rows cols : nat) : res (list T) :=
  for_ rows (fun i dst =>
    dst <- wr dst i n0 ;;
    for_ cols (fun j dst =>
      m <- rd mat (i * cols + j) ;;
      x <- rd src j ;;
      c <- rd dst i ;;
      wr dst i (nadd c (nmul m x))) dst) dst.

(** matarr_mul, dlmath.hpp 528-538; [alias] says whether the two pointers are equal. *)
Definition matarr_mul (alias : bool) (dst mat src : list T) (rows cols : nat) : res (list T) :=
  _ <- guard (negb alias) ;; matarr_mul_no_check dst mat src rows cols.

(** relu 546-550, relu_1 580-583, elu 613-616, elu_1_opt 647-650, elu_1 681-684 *)
Definition relu (x : T) : T := nmax x n0.
Definition relu_1 (x : T) : T := if nltb n0 x then n1 else n0.
Definition elu (alpha x : T) : T := if nltb n0 x then x else nmul alpha (nsub (nexp x) n1).
Definition elu_1_opt (alpha x : T) : T := if nltb n0 x then n1 else nadd x alpha.
Definition elu_1 (alpha x : T) : T := if nltb n0 x then n1 else nmul alpha (nexp x).

(** tanh_1_opt 743-746, tanh_1 773-777, sigmoid 806-809, sigmoid_1_opt 837-840,
    sigmoid_1 867-871 *)
Definition tanh_1_opt (x : T) : T := nsub n1 (nmul x x).
Definition tanh_1 (x : T) : T := tanh_1_opt (ntanh x).
Definition sigmoid (x : T) : T := ndiv n1 (nadd n1 (nexp (nopp x))).
Definition sigmoid_1_opt (x : T) : T := nmul x (nsub n1 x).
Definition sigmoid_1 (x : T) : T := sigmoid_1_opt (sigmoid x).

(** std::max_element(src, src + n): position of the first largest element; [n] (the end
    iterator) for an empty range. Used at dlmath.hpp 1211, 1226, 1240. *)
Definition max_element (src : list T) (n : nat) : res nat :=
  if n =? 0 then Ok 0 else
  for_from 1 (n - 1) (fun i best =>
    a <- rd src best ;; b <- rd src i ;; Ok (if nltb a b then i else best)) 0.

(** max, dlmath.hpp 1208-1212: dereferences the iterator. *)
Definition max_ (src : list T) (n : nat) : res T :=
  i <- max_element src n ;; _ <- require (i <? n) ;; rd src i.

(** argmax, dlmath.hpp 1222-1227 *)
Definition argmax (src : list T) (n : nat) : res nat := max_element src n.

(** max_and_argmax, dlmath.hpp 1236-1242 *)
Definition max_and_argmax (src : list T) (n : nat) : res (T * nat) :=
  i <- max_element src n ;; _ <- require (i <? n) ;; m <- rd src i ;; Ok (m, i).

(** Second half of softmax and stable_softmax: exponentials, sum, scaling.
    dlmath.hpp 904-919 with [d = 0 absent], 937-952. *)
Definition softmax_with (e : T -> T) (dst src : list T) (n : nat) : res (list T) :=
  '(dst, s) <- for_ n (fun i '(dst, s) =>
      x <- rd src i ;; dst <- wr dst i (e x) ;; v <- rd dst i ;; Ok (dst, nadd s v)) (dst, n0) ;;
  let inv := ndiv n1 s in
  map_inplace (fun v => nmul v inv) dst n.

(** softmax, dlmath.hpp 901-920 *)
Definition softmax (dst src : list T) (n : nat) : res (list T) := softmax_with nexp dst src n.

(** stable_softmax(_no_check), dlmath.hpp 932-963 (src is never null here) *)
Definition stable_softmax (dst src : list T) (n : nat) : res (list T) :=
  d <- max_ src n ;; softmax_with (fun x => nexp (nsub x d)) dst src n.

(** softmax_1_opt_no_check, dlmath.hpp 1012-1027 *)
Definition softmax_1_opt (dst src grad : list T) (n : nat) : res (list T) :=
  for_ n (fun i dst =>
    dst <- wr dst i n0 ;;
    for_ n (fun j dst =>
      si <- rd src i ;; sj <- rd src j ;; g <- rd grad j ;; c <- rd dst i ;;
      wr dst i (nadd c (nmul (nmul si (nsub (if i =? j then n1 else n0) sj)) g))) dst) dst.

(** cross_entropy, dlmath.hpp 1065-1069 and 1081-1089 *)
Definition cross_entropy1 (y y_hat : T) : T := nmul (nopp y) (nln (nmax y_hat neps)).
Definition cross_entropy (y y_hat : list T) (n : nat) : res T :=
  for_ n (fun i acc => a <- rd y i ;; b <- rd y_hat i ;; Ok (nadd acc (cross_entropy1 a b))) n0.

(** cross_entropy_1, dlmath.hpp 1101-1104 and 1117-1126 *)
Definition cross_entropy_1 (norm y y_hat : T) : T := nmul norm (ndiv (nopp y) (nmax y_hat nmin)).
Definition cross_entropy_1_arr (dst y y_hat : list T) (norm : T) (n : nat) : res (list T) :=
  map2_into (cross_entropy_1 norm) dst y y_hat n.

(** squared_error 1138-1141, mean_squared_error 1153-1161 *)
Definition squared_error (y y_hat : T) : T := nmul (nsub y y_hat) (nsub y y_hat).
Definition mean_squared_error (y y_hat : list T) (n : nat) : res T :=
  s <- for_ n (fun i acc => a <- rd y i ;; b <- rd y_hat i ;; Ok (nadd acc (squared_error a b))) n0 ;;
  Ok (ndiv s (nofnat n)).

(** squared_error_1 1173-1176, mean_squared_error_1 1190-1199 *)
Definition squared_error_1 (norm y y_hat : T) : T :=
  nmul (nmul (nopp (nofZ 2)) norm) (nsub y y_hat).
Definition mean_squared_error_1 (dst y y_hat : list T) (norm : T) (n : nat) : res (list T) :=
  map2_into (squared_error_1 norm) dst y y_hat n.

(** dense, dlmath.hpp 1784-1798 (dense_simd_opt 1824-1850 calls it) *)
Definition dense_row (dst src w bias : list T) (inp i : nat) : res (list T) :=
  b <- rd bias i ;;
  dst <- wr dst i b ;;
  for_ inp (fun j dst =>
    m <- rd w (i * inp + j) ;; x <- rd src j ;; c <- rd dst i ;;
    wr dst i (nadd c (nmul m x))) dst.
Definition dense (dst src w bias : list T) (inp out : nat) : res (list T) :=
  for_ out (fun i dst => dense_row dst src w bias inp i) dst.

(** dense_1, dlmath.hpp 1852-1871. State: input, weight and bias gradients. *)
Definition dense_1_row (g last w : list T) (inp i : nat) (st : list T * list T * list T)
  : res (list T * list T * list T) :=
  let '(ig, wg, bg) := st in
  gi <- rd g i ;; b <- rd bg i ;; bg <- wr bg i (nadd b gi) ;;
  for_ inp (fun j '(ig, wg, bg) =>
    gi <- rd g i ;; x <- rd last j ;;
    c <- rd wg (i * inp + j) ;; wg <- wr wg (i * inp + j) (nadd c (nmul gi x)) ;;
    m <- rd w (i * inp + j) ;;
    c <- rd ig j ;; ig <- wr ig j (nadd c (nmul gi m)) ;;
    Ok (ig, wg, bg)) (ig, wg, bg).
Definition fill0 (l : list T) (n : nat) : res (list T) := for_ n (fun i l => wr l i n0) l.
Definition dense_1 (ig wg bg g last w : list T) (inp out : nat)
  : res (list T * list T * list T) :=
  ig <- fill0 ig inp ;;
  for_ out (fun i st => dense_1_row g last w inp i st) (ig, wg, bg).

End Kernels.
