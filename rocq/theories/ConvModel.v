(** Model of the sliding-window kernels of /repo/source/dnn/dlmath.hpp and of the layers
    built on them (convolutional.cpp, pooling.cpp, avg_pooling.cpp, max_pooling.cpp).
    A cube of shape (height, width, channels) is stored row-major as in the code. *)
From Verif Require Import Base Num MathModel.

(** Unsigned 64-bit arithmetic ([SizeType]). *)
Definition w64 (z : Z) : Z := (z mod 2 ^ 64)%Z.

(** Output side computed by kernel_slide, dlmath.hpp 1436-1441: the stride is first clamped
    to at least 1 (1434-1435); the subtraction wraps. *)
Definition slide_side (n k s p : nat) : nat :=
  if n =? 0 then 0
  else Z.to_nat (w64 (w64 (Z.of_nat n - Z.of_nat k + 2 * Z.of_nat p)
                      / Z.of_nat (Nat.max s 1) + 1)).

(** convolutional_output_side, convolutional.cpp 33-40: no clamp, so a zero stride divides
    by zero. *)
Definition conv_output_side (n k s p : nat) : res nat :=
  if n =? 0 then Ok 0
  else _ <- require (negb (s =? 0)) ;;
       Ok (Z.to_nat (w64 (w64 (Z.of_nat n - Z.of_nat k + 2 * Z.of_nat p) / Z.of_nat s + 1))).

(** pooling_output_side, pooling.cpp 31-36 *)
Definition pool_output_side (n k s : nat) : res nat := conv_output_side n k s 0.

(** Access with a signed index. *)
Definition rdZ {A} (l : list A) (z : Z) : res A :=
  if (z <? 0)%Z then UB else rd l (Z.to_nat z).

(** kernel_slide, dlmath.hpp 1424-1456. [op hd wd row_dst col_dst row col] is
    k_to_src_operation; int64 arithmetic on row/col is taken without overflow. *)
Definition kernel_slide {S : Type} (op : nat -> nat -> nat -> nat -> Z -> Z -> S -> res S)
    (H W C kh kw sh sw ph pw : nat) (st : S) : res S :=
  let sh := Nat.max sh 1 in
  let sw := Nat.max sw 1 in
  let wd := slide_side W kw sw pw in
  let hd := slide_side H kh sh ph in
  for_ hd (fun r st =>
    for_ wd (fun c st =>
      op hd wd r c (Z.of_nat (r * sh) - Z.of_nat ph)%Z
         ((Z.of_nat (c * sw) - Z.of_nat pw) * Z.of_nat C)%Z st) st) st.

Section Ops.
Context {T : Type} `{NumOps T}.

(** The zero-padding test of dlmath.hpp 1938-1941, convolutional.cpp 165-168. *)
Definition inside (row_src col_src : Z) (H src_step : nat) : bool :=
  negb ((col_src <? 0) || (row_src <? 0) || (Z.of_nat src_step <=? col_src)
        || (Z.of_nat H <=? row_src))%Z.

(** _conv4d_op, dlmath.hpp 1920-1951 *)
Definition conv4d_op (src k : list T) (H W C kh kw nf : nat)
    (hd wd r c : nat) (row col : Z) (dst : list T) : res (list T) :=
  let k_size := kh * kw * C in
  let k_step := kw * C in
  let src_step := W * C in
  for_ nf (fun f dst =>
    sum <- for_ k_size (fun ki sum =>
      _ <- require (negb (k_step =? 0)) ;;
      let row_src := (row + Z.of_nat (ki / k_step))%Z in
      let col_src := (col + Z.of_nat (ki mod k_step))%Z in
      if inside row_src col_src H src_step then
        x <- rdZ src (row_src * Z.of_nat src_step + col_src)%Z ;;
        w <- rd k (ki * nf + f) ;;
        Ok (nadd sum (nmul x w))
      else Ok sum) n0 ;;
    wr dst (r * wd * nf + c * nf + f) sum) dst.

(** cross_correlation, dlmath.hpp 1330-1337 *)
Definition cross_correlation (dst src k : list T) (H W C kh kw nf sh sw ph pw : nat)
  : res (list T) :=
  kernel_slide (conv4d_op src k H W C kh kw nf) H W C kh kw sh sw ph pw dst.

(** Source index of cell [ki] of a pooling window, dlmath.hpp 1985-1991, 2034-2040 *)
Definition pool_idx (W C kw : nat) (row col : Z) (c ki : nat) : Z :=
  let src_step := W * C in
  ((row + Z.of_nat (ki / kw)) * Z.of_nat src_step
   + (col + Z.of_nat (ki mod kw * C) + Z.of_nat c))%Z.

(** _max_pool_op, dlmath.hpp 1970-2001. The division by the kernel width is only reached
    when kh * kw > 1. *)
Definition max_pool_op (src : list T) (W C kh kw : nat)
    (hd wd r c : nat) (row col : Z) (dst : list T) : res (list T) :=
  let dst_step := wd * C in
  for_ C (fun ch dst =>
    m0 <- rdZ src (row * Z.of_nat (W * C) + col + Z.of_nat ch)%Z ;;
    m <- for_from 1 (kh * kw - 1) (fun ki m =>
      v <- rdZ src (pool_idx W C kw row col ch ki) ;;
      Ok (if nltb m v then v else m)) m0 ;;
    wr dst (r * dst_step + c * C + ch) m) dst.

(** max_pool, dlmath.hpp 1358-1364 *)
Definition max_pool (dst src : list T) (H W C kh kw sh sw : nat) : res (list T) :=
  kernel_slide (max_pool_op src W C kh kw) H W C kh kw sh sw 0 0 dst.

(** _avg_pool_op, dlmath.hpp 2021-2049 *)
Definition avg_pool_op (src : list T) (W C kh kw : nat)
    (hd wd r c : nat) (row col : Z) (dst : list T) : res (list T) :=
  let dst_step := wd * C in
  for_ C (fun ch dst =>
    s <- for_ (kh * kw) (fun ki s =>
      v <- rdZ src (pool_idx W C kw row col ch ki) ;; Ok (nadd s v)) n0 ;;
    wr dst (r * dst_step + c * C + ch) (ndiv s (nofnat (kh * kw)))) dst.

(** avg_pool, dlmath.hpp 1386-1392 *)
Definition avg_pool (dst src : list T) (H W C kh kw sh sw : nat) : res (list T) :=
  kernel_slide (avg_pool_op src W C kh kw) H W C kh kw sh sw 0 0 dst.

(** [l[z] += v] with a signed index. *)
Definition addZ (l : list T) (z : Z) (v : T) : res (list T) :=
  x <- rdZ l z ;; wr l (Z.to_nat z) (nadd x v).

(** AveragePoolingLayer::backward, avg_pooling.cpp 51-94: [ig] is _input_gradients. The
    inner loop starts at 1. *)
Definition avg_pool_bwd_op (g : list T) (W C kh kw : nat)
    (hd wd r c : nat) (row col : Z) (ig : list T) : res (list T) :=
  let dst_step := wd * C in
  for_ C (fun ch ig =>
    gv <- rd g (r * dst_step + c * C + ch) ;;
    let og := ndiv gv (nofnat (kw * kh)) in
    for_from 1 (kh * kw - 1) (fun ki ig => addZ ig (pool_idx W C kw row col ch ki) og) ig) ig.
Definition avg_pool_backward (ig g : list T) (H W C kh kw sh sw : nat) : res (list T) :=
  ig <- fill0 ig (length ig) ;;
  kernel_slide (avg_pool_bwd_op g W C kh kw) H W C kh kw sh sw 0 0 ig.

(** MaxPoolingLayer::backward, max_pooling.cpp 50-104. The position of the maximum starts
    as index 0 and is only set when a later cell is larger. *)
Definition max_pool_bwd_op (src g : list T) (W C kh kw : nat)
    (hd wd r c : nat) (row col : Z) (ig : list T) : res (list T) :=
  let dst_step := wd * C in
  for_ C (fun ch ig =>
    og <- rd g (r * dst_step + c * C + ch) ;;
    m0 <- rdZ src (row * Z.of_nat (W * C) + col + Z.of_nat ch)%Z ;;
    '(_, pos) <- for_from 1 (kh * kw - 1) (fun ki '(m, pos) =>
      v <- rdZ src (pool_idx W C kw row col ch ki) ;;
      Ok (if nltb m v then (v, pool_idx W C kw row col ch ki) else (m, pos))) (m0, 0%Z) ;;
    addZ ig pos og) ig.
Definition max_pool_backward (ig src g : list T) (H W C kh kw sh sw : nat) : res (list T) :=
  ig <- fill0 ig (length ig) ;;
  kernel_slide (max_pool_bwd_op src g W C kh kw) H W C kh kw sh sw 0 0 ig.

(** ConvolutionalLayer::forward, convolutional.cpp 97-110: cross-correlation, biases unused. *)
Definition conv_forward (out src w b : list T) (H W C kh kw nf sh sw ph pw : nat)
  : res (list T) := cross_correlation out src w H W C kh kw nf sh sw ph pw.

(** Bias part of ConvolutionalLayer::backward, convolutional.cpp 121-133: the bias gradient
    is assigned. [oh], [ow]: output shape of the layer. *)
Definition conv_bias_bwd (bg g : list T) (oh ow nf : nat) : res (list T) :=
  for_ nf (fun f bg =>
    s <- for_ oh (fun r s =>
      for_ ow (fun c s => x <- rd g (r * (ow * nf) + c * nf + f) ;; Ok (nadd s x)) s) n0 ;;
    wr bg f s) bg.

(** gradients_op of ConvolutionalLayer::backward, convolutional.cpp 147-181.
    State: input gradients and weight gradients. *)
Definition conv_bwd_op (src k g : list T) (H W C kh kw nf : nat)
    (hd wd r c : nat) (row col : Z) (st : list T * list T) : res (list T * list T) :=
  let k_size := kh * kw * C in
  let k_step := kw * C in
  let src_step := W * C in
  for_ nf (fun f st =>
    og <- rd g (r * wd * nf + c * nf + f) ;;
    for_ k_size (fun ki '(ig, wg) =>
      _ <- require (negb (k_step =? 0)) ;;
      let row_src := (row + Z.of_nat (ki / k_step))%Z in
      let col_src := (col + Z.of_nat (ki mod k_step))%Z in
      if inside row_src col_src H src_step then
        let q := (row_src * Z.of_nat src_step + col_src)%Z in
        kv <- rd k (ki * nf + f) ;;
        ig <- addZ ig q (nmul kv og) ;;
        x <- rdZ src q ;;
        wv <- rd wg (ki * nf + f) ;;
        wg <- wr wg (ki * nf + f) (nadd wv (nmul x og)) ;;
        Ok (ig, wg)
      else Ok (ig, wg)) st) st.

(** ConvolutionalLayer::backward, convolutional.cpp 112-190 *)
Definition conv_backward (ig wg bg src k g : list T) (H W C oh ow kh kw nf sh sw ph pw : nat)
  : res (list T * list T * list T) :=
  bg <- conv_bias_bwd bg g oh ow nf ;;
  ig <- fill0 ig (length ig) ;;
  '(ig, wg) <- kernel_slide (conv_bwd_op src k g H W C kh kw nf)
                 H W C kh kw sh sw ph pw (ig, wg) ;;
  Ok (ig, wg, bg).

End Ops.
