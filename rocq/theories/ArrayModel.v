(** Strided copies of /repo/source/dnn/dlmath.hpp: append, extract, concatenate,
    separate. Shapes are lists of sizes; a pointer argument [p + base] is the buffer
    together with the offset [base]. *)
From Verif Require Import Base.

Section Array.
Context {T : Type}.

(** dlmath.hpp:89-94 Shape::size. *)
Definition shape_size (sh : list nat) : nat := fold_left Nat.mul sh 1.

(** dlmath.hpp:1475-1488 (same code at 1524-1537): the products of the dimensions
    before and after [axis]. *)
Definition axis_products (sh : list nat) (axis : nat) : nat * nat :=
  fold_left
    (fun '(it, off) i =>
       if i <? axis then (it * nth i sh 0, off)
       else if axis <? i then (it, off * nth i sh 0)
       else (it, off))
    (seq 0 (length sh)) (1, 1).

(** dlmath.hpp:1471-1503 append; the source pointer is [src + base]. *)
Definition append_at (dst : list T) (dst_shape : list nat) (src : list T) (base : nat)
    (src_axis axis dst_axis_offset : nat) : res (list T) :=
  let '(iters, tmp) := axis_products dst_shape axis in
  ax <- rd dst_shape axis ;;
  let dst_offset := tmp * ax in
  let src_offset := tmp * src_axis in
  let offset := tmp * dst_axis_offset in
  for_ iters (fun i dst =>
    for_ src_offset (fun s dst =>
      v <- rd src (base + (i * src_offset + s)) ;;
      wr dst (i * dst_offset + offset + s) v) dst) dst.

Definition append dst dst_shape src src_axis axis off :=
  append_at dst dst_shape src 0 src_axis axis off.

(** dlmath.hpp:1520-1552 extract; the destination pointer is [dst + base]. *)
Definition extract_at (dst : list T) (base : nat) (dst_shape : list nat) (src : list T)
    (src_axis axis src_axis_offset : nat) : res (list T) :=
  let '(iters, tmp) := axis_products dst_shape axis in
  ax <- rd dst_shape axis ;;
  let dst_offset := tmp * ax in
  let src_offset := tmp * src_axis in
  let offset := tmp * src_axis_offset in
  for_ iters (fun i dst =>
    for_ dst_offset (fun s dst =>
      v <- rd src (i * src_offset + offset + s) ;;
      wr dst (base + (i * dst_offset + s)) v) dst) dst.

Definition extract dst dst_shape src src_axis axis off :=
  extract_at dst 0 dst_shape src src_axis axis off.

(** dlmath.hpp:1570-1580 append_check. *)
Definition append_check dst dst_shape src src_axis axis off :=
  _ <- guard (axis <? length dst_shape) ;;
  append dst dst_shape src src_axis axis off.

(** dlmath.hpp:1598-1608 extract_check. *)
Definition extract_check dst dst_shape src src_axis axis off :=
  _ <- guard (axis <? length dst_shape) ;;
  extract dst dst_shape src src_axis axis off.

(** The loop at dlmath.hpp:1632-1638 and 1667-1673: equal on every axis but one. *)
Definition same_but (axis : nat) (s1 s2 : list nat) : bool :=
  forallb (fun i => (i =? axis) || (nth i s1 0 =? nth i s2 0)) (seq 0 3).

(** [dst_shape(src1_shape); dst_shape\[axis\] += n]. *)
Definition grow (sh : list nat) (axis n : nat) : list nat :=
  upd sh axis (nth axis sh 0 + n).

(** dlmath.hpp:1623-1644 concatenate of two cubes. *)
Definition concatenate2 (dst src1 : list T) (sh1 : list nat) (src2 : list T)
    (sh2 : list nat) (axis : nat) : res (list T) :=
  _ <- guard (axis <? 3) ;;
  _ <- guard (same_but axis sh1 sh2) ;;
  let dst_shape := grow sh1 axis (nth axis sh2 0) in
  dst <- append dst dst_shape src1 (nth axis sh1 0) axis 0 ;;
  append dst dst_shape src2 (nth axis sh2 0) axis (nth axis sh1 0).

(** dlmath.hpp:1658-1679 separate into two cubes. *)
Definition separate2 (dst1 : list T) (sh1 : list nat) (dst2 : list T) (sh2 : list nat)
    (src : list T) (axis : nat) : res (list T * list T) :=
  _ <- guard (axis <? 3) ;;
  _ <- guard (same_but axis sh1 sh2) ;;
  let n := nth axis sh1 0 + nth axis sh2 0 in
  dst1 <- extract dst1 sh1 src n axis 0 ;;
  dst2 <- extract dst2 sh2 src n axis (nth axis sh1 0) ;;
  Ok (dst1, dst2).

(** dlmath.hpp:1699-1710 (and 1751-1762): consecutive shapes agree off the axis. *)
Fixpoint shapes_agree (axis : nat) (shs : list (list nat)) : bool :=
  match shs with
  | s1 :: ((s2 :: _) as t) => same_but axis s1 s2 && shapes_agree axis t
  | _ => true
  end.

(** dlmath.hpp:1719-1727: the loop over the source shapes. *)
Fixpoint concat_loop (dst : list T) (dst_shape : list nat) (src : list T)
    (shs : list (list nat)) (axis dst_off src_off : nat) : res (list T) :=
  match shs with
  | [] => Ok dst
  | sh :: t =>
    dst <- append_at dst dst_shape src src_off (nth axis sh 0) axis dst_off ;;
    concat_loop dst dst_shape src t axis (dst_off + nth axis sh 0)
                (src_off + shape_size sh)
  end.

(** dlmath.hpp:1691-1730 concatenate of N cubes; [src_shapes\[0\]] of an empty vector
    is undefined. *)
Definition concatenateN (dst src : list T) (shs : list (list nat)) (axis : nat)
  : res (list T) :=
  _ <- guard (axis <? 3) ;;
  _ <- guard (shapes_agree axis shs) ;;
  sh0 <- rd shs 0 ;;
  let dst_shape :=
    fold_left (fun d sh => grow d axis (nth axis sh 0)) (tl shs) sh0 in
  concat_loop dst dst_shape src shs axis 0 0.

(** dlmath.hpp:1771-1779. *)
Fixpoint separate_loop (dst : list T) (shs : list (list nat)) (src : list T)
    (n axis src_off dst_off : nat) : res (list T) :=
  match shs with
  | [] => Ok dst
  | sh :: t =>
    dst <- extract_at dst dst_off sh src n axis src_off ;;
    separate_loop dst t src n axis (src_off + nth axis sh 0) (dst_off + shape_size sh)
  end.

(** dlmath.hpp:1743-1782 separate into N cubes. *)
Definition separateN (dst : list T) (shs : list (list nat)) (src : list T) (axis : nat)
  : res (list T) :=
  _ <- guard (axis <? 3) ;;
  _ <- guard (shapes_agree axis shs) ;;
  let n := fold_left (fun a sh => a + nth axis sh 0) shs 0 in
  separate_loop dst shs src n axis 0 0.

End Array.
