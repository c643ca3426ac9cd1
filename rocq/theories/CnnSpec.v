(** Specification vocabulary for convolutional networks: sizes, values and where the layers are
    differentiable. *)
From Verif Require Import Base Num RSum ConvSpec LayerModel LossModel NodeModel CnnModel GradSpec ModelProofs.
From Coq Require Import Reals.

(** Row, column and channel of position [q] in an image of width [W] with [C] channels. *)
Definition row_of (W C q : nat) : nat := q / (W * C).
Definition col_of (W C q : nat) : nat := (q / C) mod W.
Definition chan_of (C q : nat) : nat := q mod C.

(** Largest of f 0, ..., f n. *)
Fixpoint Rmaxs (n : nat) (f : nat -> R) : R :=
  match n with 0 => f 0 | S m => Rmax (Rmaxs m f) (f (S m)) end.

(** Zero-padded cross-correlation of the whole image. *)
Definition conv_value (c : convl R) (x : list R) : list R :=
  tab (cv_oh c * cv_ow c * cv_nf c) (fun q =>
    xcorr x (cv_w c) (cv_H c) (cv_W c) (cv_C c) (cv_kh c) (cv_kw c) (cv_nf c) (cv_sh c) (cv_sw c)
      (cv_ph c) (cv_pw c) (row_of (cv_ow c) (cv_nf c) q) (col_of (cv_ow c) (cv_nf c) q) (chan_of (cv_nf c) q)).

Definition pl_oh {T} (p : pooll T) : nat := side (pl_H p) (pl_kh p) (pl_sh p) 0.
Definition pl_ow {T} (p : pooll T) : nat := side (pl_W p) (pl_kw p) (pl_sw p) 0.
(** Entry [m] of the window at output (r, c), channel ch. *)
Definition window (p : pooll R) (x : list R) (r c ch m : nat) : R :=
  nth (wcell (pl_W p) (pl_C p) (pl_kw p) (pl_sh p) (pl_sw p) r c m ch) x 0%R.
(** Window maxima, window means. *)
Definition pool_value (p : pooll R) (x : list R) : list R :=
  tab (pl_oh p * pl_ow p * pl_C p) (fun q =>
    let f := window p x (row_of (pl_ow p) (pl_C p) q) (col_of (pl_ow p) (pl_C p) q) (chan_of (pl_C p) q) in
    let a := pl_kh p * pl_kw p in
    if pl_max p then Rmaxs (a - 1) f else (Rsum a f / INR a)%R).

(** Sizes of layers built for [n] inputs and [k] outputs. *)
Definition conv_shape {T} (c : convl T) (n k : nat) : Prop :=
  (0 < cv_H c /\ 0 < cv_W c) /\
  (1 <= cv_kh c <= cv_H c + 2 * cv_ph c /\ 1 <= cv_kw c <= cv_W c + 2 * cv_pw c) /\
  (1 <= cv_sh c /\ 1 <= cv_sw c) /\
  ((Z.of_nat (cv_H c + 2 * cv_ph c) < 2 ^ 64)%Z /\ (Z.of_nat (cv_W c + 2 * cv_pw c) < 2 ^ 64)%Z) /\
  (cv_oh c = side (cv_H c) (cv_kh c) (cv_sh c) (cv_ph c) /\ cv_ow c = side (cv_W c) (cv_kw c) (cv_sw c) (cv_pw c)) /\
  (n = cv_H c * cv_W c * cv_C c /\ k = cv_oh c * cv_ow c * cv_nf c) /\
  (length (cv_w c) = cv_kh c * cv_kw c * cv_C c * cv_nf c /\ length (cv_wg c) = cv_kh c * cv_kw c * cv_C c * cv_nf c) /\
  (length (cv_b c) = cv_nf c /\ length (cv_bg c) = cv_nf c) /\
  (length (cv_out c) = k /\ length (cv_ig c) = n).
Definition pool_shape {T} (p : pooll T) (n k : nat) : Prop :=
  (0 < pl_H p /\ 0 < pl_W p) /\
  (1 <= pl_kh p <= pl_H p /\ 1 <= pl_kw p <= pl_W p) /\
  (1 <= pl_sh p /\ 1 <= pl_sw p) /\
  ((Z.of_nat (pl_H p) < 2 ^ 64)%Z /\ (Z.of_nat (pl_W p) < 2 ^ 64)%Z) /\
  (n = pl_H p * pl_W p * pl_C p /\ k = pl_oh p * pl_ow p * pl_C p) /\
  (length (pl_out p) = k /\ length (pl_ig p) = n).
Definition cnode_shape {T} (s : cnode T) (n k : nat) : Prop :=
  match s with
  | CL l => lshape l n k
  | CV c => conv_shape c n k
  | CP p => pool_shape p n k
  | CO _ _ => False
  end.

(** Where the gradient of a layer's backward pass is right: the activation layers where they
    are differentiable; a max pooling where every window has one largest entry, which is not the
    window's own first entry except in the very first window (see c24_max_pool_backward_refuted);
    an average pooling never (see c23_avg_pool_backward_refuted). *)
Definition cnode_smooth (s : cnode R) (x : list R) : Prop :=
  match s with
  | CL l => layer_smooth l x
  | CV _ => True
  | CP p => pl_max p = true /\
      forall r c ch, r < pl_oh p -> c < pl_ow p -> ch < pl_C p -> exists m, m < pl_kh p * pl_kw p /\
        (forall i, i < pl_kh p * pl_kw p -> i <> m -> (window p x r c ch i < window p x r c ch m)%R) /\
        (m = 0 -> r = 0 /\ c = 0 /\ ch = 0)
  | CO _ _ => False
  end.
