(** Specification vocabulary for the sliding-window layers, independent of the loops. *)
From Verif Require Import Base RSum.
From Coq Require Import Reals.

(** Number of positions of a window of side [k] moved by [s] over a side [n] padded with
    [p] cells at both ends (meaningful for 1 <= k <= n + 2 p, 1 <= s). *)
Definition side (n k s p : nat) : nat := (n + 2 * p - k) / s + 1.

(** Row-major position of (row y, column x, channel c) in an image of width W with C
    channels. *)
Definition cell (W C y x c : nat) : nat := (y * W + x) * C + c.

(** Source value with zero padding: pixel (y, x), channel c. *)
Definition pix {T} (z : T) (src : list T) (H W C : nat) (y x : Z) (c : nat) : T :=
  if ((0 <=? y) && (y <? Z.of_nat H) && (0 <=? x) && (x <? Z.of_nat W))%Z
  then nth ((Z.to_nat y * W + Z.to_nat x) * C + c) src z else z.

(** Zero-padded cross-correlation at output (r, c), filter f: top-left corner of the window at
    (r*sh - ph, c*sw - pw). *)
Definition xcorr (src k : list R) (H W C kh kw nf sh sw ph pw r c f : nat) : R :=
  Rsum kh (fun a => Rsum kw (fun b => Rsum C (fun ch =>
    (pix 0 src H W C (Z.of_nat (r * sh) - Z.of_nat ph + Z.of_nat a)
                     (Z.of_nat (c * sw) - Z.of_nat pw + Z.of_nat b) ch
     * nth (cell kw C a b ch * nf + f)%nat k 0)%R))).

(** Cell number [m] (row-major) of the pooling window at output (r, c), channel ch. *)
Definition wcell (W C kw sh sw r c m ch : nat) : nat :=
  cell W C (r * sh + m / kw) (c * sw + m mod kw) ch.

(** [m] is the first of the largest cells of that window. *)
Definition first_max (src : list R) (W C kh kw sh sw r c ch m : nat) : Prop :=
  m < kh * kw /\
  (forall i, i < kh * kw ->
     (nth (wcell W C kw sh sw r c i ch) src 0 <= nth (wcell W C kw sh sw r c m ch) src 0)%R) /\
  (forall i, i < m ->
     (nth (wcell W C kw sh sw r c i ch) src 0 < nth (wcell W C kw sh sw r c m ch) src 0)%R).

(** Sum over all outputs (r, c, ch) of an [hd] x [wd] x [C] block. *)
Definition Rsum3 (hd wd C : nat) (f : nat -> nat -> nat -> R) : R :=
  Rsum hd (fun r => Rsum wd (fun c => Rsum C (fun ch => f r c ch))).
