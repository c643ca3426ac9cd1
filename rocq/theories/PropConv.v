(** C17-C19, C23-C25: sliding windows, convolution and pooling. *)
From Verif Require Import Base Num RSum MathModel MathProofs ConvModel ConvSpec ConvProofs ConvBwd.
From Coq Require Import Reals Lra.
Local Open Scope R_scope.

(** *** C17 *)
Theorem c17_output_side :
  forall n k s p r,
    (0 < n)%nat -> (1 <= k <= n + 2 * p)%nat -> (1 <= s)%nat -> (Z.of_nat (n + 2 * p) < 2 ^ 64)%Z ->
    (* both places that compute the side agree and give the formula *)
    conv_output_side n k s p = Ok (side n k s p) /\
    slide_side n k s p = side n k s p /\
    (* position r is used iff its window [r*s, r*s+k) lies inside the padded source *)
    ((r < side n k s p)%nat <-> (r * s + k <= n + 2 * p)%nat).
Proof.
  intros n k s p r Hn Hk Hs Hb.
  assert (E : slide_side n k s p = side n k s p) by now apply slide_side_eq.
  split; [rewrite conv_output_side_eq by auto; now rewrite E|]. split; [exact E|].
  rewrite <- E. now apply slide_side_windows.
Qed.
Print Assumptions c17_output_side.

Theorem c17_large_kernel_wraps :
  forall n k s p,
    (0 < n)%nat -> (n + 2 * p < k)%nat -> (1 <= s)%nat -> (Z.of_nat k < 2 ^ 64)%Z ->
    conv_output_side n k s p = Ok (slide_side n k s p) /\
    Z.of_nat (slide_side n k s p)
    = (((2 ^ 64 - Z.of_nat (k - n - 2 * p)) / Z.of_nat s + 1) mod 2 ^ 64)%Z.
Proof.
  intros n k s p Hn Hk Hs Hb. split; [now apply conv_output_side_eq|now apply slide_side_wrap].
Qed.
Print Assumptions c17_large_kernel_wraps.

(** The wrapped side is not the number of windows that fit (none): with stride 2 and a
    kernel one larger than the image it is 2^63. *)
Theorem c17_large_kernel_rejected_refuted :
  exists n k s p, (0 < n)%nat /\ (1 <= s)%nat /\ (n + 2 * p < k)%nat /\
    (forall r, ~ (r * s + k <= n + 2 * p)%nat) /\
    exists m, conv_output_side n k s p = Ok m /\ Z.of_nat m = (2 ^ 63)%Z.
Proof.
  exists 3%nat, 4%nat, 2%nat, 0%nat. split; [lia|]. split; [lia|]. split; [lia|].
  split; [intros r; lia|]. exists (slide_side 3 4 2 0). split; [apply conv_output_side_eq; lia|].
  rewrite slide_side_wrap by lia. reflexivity.
Qed.
Print Assumptions c17_large_kernel_rejected_refuted.

Theorem c17_zero_stride : forall n k p, n <> 0%nat -> conv_output_side n k 0 p = UB.
Proof. exact conv_output_side_0. Qed.

Example c17_example : conv_output_side 28 3 2 1 = Ok 14%nat /\ side 28 3 2 1 = 14%nat.
Proof. split; reflexivity. Qed.

Lemma side_slide n k s p :
  (0 < n)%nat -> (1 <= k <= n + 2 * p)%nat -> (1 <= s)%nat -> (Z.of_nat (n + 2 * p) < 2 ^ 64)%Z ->
  side n k s p = slide_side n k (Nat.max s 1) p.
Proof. intros. rewrite Nat.max_l by lia. symmetry. now apply slide_side_eq. Qed.

(** *** C18 *)
Theorem c18_convolution_forward :
  forall (dst src k b : list R) H W C kh kw nf sh sw ph pw,
    (0 < H)%nat -> (0 < W)%nat -> (1 <= kh <= H + 2 * ph)%nat -> (1 <= kw <= W + 2 * pw)%nat ->
    (1 <= sh)%nat -> (1 <= sw)%nat ->
    (Z.of_nat (H + 2 * ph) < 2 ^ 64)%Z -> (Z.of_nat (W + 2 * pw) < 2 ^ 64)%Z ->
    let hd := side H kh sh ph in let wd := side W kw sw pw in
    (hd * wd * nf <= length dst)%nat -> (H * W * C <= length src)%nat ->
    (kh * kw * C * nf <= length k)%nat ->
    exists dst', conv_forward dst src k b H W C kh kw nf sh sw ph pw = Ok dst' /\
      length dst' = length dst /\
      (forall r c f, (r < hd)%nat -> (c < wd)%nat -> (f < nf)%nat ->
         nth (cell wd nf r c f) dst' 0 = xcorr src k H W C kh kw nf sh sw ph pw r c f) /\
      (forall p, (hd * wd * nf <= p)%nat -> nth p dst' 0 = nth p dst 0).
Proof.
  intros dst src k b H W C kh kw nf sh sw ph pw HH HW Hkh Hkw Hsh Hsw BH BW hd wd Hd Hs Hk.
  destruct (cross_correlation_spec 0 dst src k H W C kh kw nf sh sw ph pw hd wd)
    as (dst' & E & L & I & J); auto; try (now apply side_slide).
  exists dst'. split; [exact E|]. split; [exact L|]. split; [|exact J].
  intros r c f Hr Hc Hf. unfold cell. rewrite I by auto. rewrite conv_cell_R.
  rewrite !Nat.max_l by lia. reflexivity.
Qed.
Print Assumptions c18_convolution_forward.

(** 2x2 image, 2x2 kernel, padding 1: the four corners and the full overlap. *)
Example c18_example :
  conv_forward (repeat 0%Z 9) [1; 2; 3; 4]%Z [1; 10; 100; 1000]%Z [] 2 2 1 2 2 1 1 1 1 1
  = Ok [1000; 2100; 200; 3010; 4321; 402; 30; 43; 4]%Z.
Proof. reflexivity. Qed.

(** *** C19 *)
Theorem c19_max_pooling_forward :
  forall (dst src : list R) H W C kh kw sh sw,
    (0 < H)%nat -> (0 < W)%nat -> (1 <= kh <= H)%nat -> (1 <= kw <= W)%nat ->
    (1 <= sh)%nat -> (1 <= sw)%nat -> (Z.of_nat H < 2 ^ 64)%Z -> (Z.of_nat W < 2 ^ 64)%Z ->
    let hd := side H kh sh 0 in let wd := side W kw sw 0 in
    (hd * wd * C <= length dst)%nat -> (H * W * C <= length src)%nat ->
    exists dst', max_pool dst src H W C kh kw sh sw = Ok dst' /\ length dst' = length dst /\
      (forall r c ch, (r < hd)%nat -> (c < wd)%nat -> (ch < C)%nat ->
         let v := nth (cell wd C r c ch) dst' 0 in
         (exists a b, (a < kh)%nat /\ (b < kw)%nat /\
            v = nth (cell W C (r * sh + a) (c * sw + b) ch) src 0) /\
         (forall a b, (a < kh)%nat -> (b < kw)%nat ->
            nth (cell W C (r * sh + a) (c * sw + b) ch) src 0 <= v)) /\
      (forall p, (hd * wd * C <= p)%nat -> nth p dst' 0 = nth p dst 0).
Proof.
  intros dst src H W C kh kw sh sw HH HW Hkh Hkw Hsh Hsw BH BW hd wd Hd Hs.
  destruct (max_pool_spec 0 dst src H W C kh kw sh sw hd wd) as (dst' & E & L & I & J); auto;
    try (unfold hd, wd; symmetry; apply slide_side_eq; lia).
  exists dst'. split; [exact E|]. split; [exact L|]. split; [|exact J].
  intros r c ch Hr Hc Hch v. unfold v, cell. rewrite I by auto. cbv zeta.
  set (f := fun ki => nth (pool_pos W C sh sw r c (ki / kw) (ki mod kw) ch) src 0).
  destruct (fold_max_spec f (kh * kw - 1) strict_weak_R) as ((m & Hm & Em) & Hle).
  assert (Hk : (0 < kh * kw)%nat) by nia.
  replace (S (kh * kw - 1)) with (kh * kw)%nat in * by lia. split.
  - destruct (ki_pool kh kw m Hm) as (Ha & Hb).
    exists (m / kw)%nat, (m mod kw)%nat. split; [auto|]. split; [auto|]. exact Em.
  - intros a b Ha Hb. assert (Hi : (a * kw + b < kh * kw)%nat) by now apply mul_add_le.
    specialize (Hle _ Hi). apply Rltb_false in Hle. unfold f at 1 in Hle.
    destruct (divmod_unique kw a b Hb) as (E1 & E2). rewrite E1, E2 in Hle. exact Hle.
Qed.
Print Assumptions c19_max_pooling_forward.

Theorem c19_average_pooling_forward :
  forall (dst src : list R) H W C kh kw sh sw,
    (0 < H)%nat -> (0 < W)%nat -> (1 <= kh <= H)%nat -> (1 <= kw <= W)%nat ->
    (1 <= sh)%nat -> (1 <= sw)%nat -> (Z.of_nat H < 2 ^ 64)%Z -> (Z.of_nat W < 2 ^ 64)%Z ->
    let hd := side H kh sh 0 in let wd := side W kw sw 0 in
    (hd * wd * C <= length dst)%nat -> (H * W * C <= length src)%nat ->
    exists dst', avg_pool dst src H W C kh kw sh sw = Ok dst' /\ length dst' = length dst /\
      (forall r c ch, (r < hd)%nat -> (c < wd)%nat -> (ch < C)%nat ->
         nth (cell wd C r c ch) dst' 0 =
         Rsum kh (fun a => Rsum kw (fun b =>
           nth (cell W C (r * sh + a) (c * sw + b) ch) src 0)) / INR (kh * kw)) /\
      (forall p, (hd * wd * C <= p)%nat -> nth p dst' 0 = nth p dst 0).
Proof.
  intros dst src H W C kh kw sh sw HH HW Hkh Hkw Hsh Hsw BH BW hd wd Hd Hs.
  destruct (avg_pool_spec 0 dst src H W C kh kw sh sw hd wd) as (dst' & E & L & I & J); auto;
    try (unfold hd, wd; symmetry; apply slide_side_eq; lia).
  exists dst'. split; [exact E|]. split; [exact L|]. split; [|exact J].
  intros r c ch Hr Hc Hch. unfold cell at 1. rewrite I by auto.
  rewrite nsum_Rsum, Rsum_mul. unfold nofnat. cbn [ndiv nofZ NumR]. rewrite <- INR_IZR_INZ.
  f_equal. apply Rsum_ext. intros a Ha. apply Rsum_ext. intros b Hb.
  destruct (divmod_unique kw a b Hb) as (-> & ->). reflexivity.
Qed.
Print Assumptions c19_average_pooling_forward.

Example c19_example :
  max_pool [0; 0]%Z [1; 9; 3; 4; 5; 6]%Z 2 3 1 2 2 1 1 = Ok [9; 9]%Z /\
  avg_pool [0; 0]%Z [1; 9; 3; 3; 7; 5]%Z 2 3 1 2 2 1 1 = Ok [5; 6]%Z.
Proof. split; reflexivity. Qed.

(** *** C23 *)

(** What the property asks for: input cell [p] receives g/(kh*kw) from every window that
    contains it. *)
Definition avg_pool_gradient (g : list R) (W C kh kw sh sw hd wd p : nat) : R :=
  Rsum3 hd wd C (fun r c ch =>
    Rsum (kh * kw) (fun m => if (p =? wcell W C kw sh sw r c m ch)%nat
                             then nth (cell wd C r c ch) g 0 / INR (kh * kw) else 0)).

(** That is the gradient of the forward pass: the forward pass is linear and this is its
    adjoint. *)
Theorem c23_specified_gradient_is_the_derivative :
  forall (dst v g o : list R) H W C kh kw sh sw,
    (0 < H)%nat -> (0 < W)%nat -> (1 <= kh <= H)%nat -> (1 <= kw <= W)%nat ->
    (1 <= sh)%nat -> (1 <= sw)%nat -> (Z.of_nat H < 2 ^ 64)%Z -> (Z.of_nat W < 2 ^ 64)%Z ->
    let hd := side H kh sh 0 in let wd := side W kw sw 0 in
    (hd * wd * C <= length dst)%nat -> (H * W * C <= length v)%nat ->
    avg_pool dst v H W C kh kw sh sw = Ok o ->
    Rsum (hd * wd * C) (fun q => nth q g 0 * nth q o 0) =
    Rsum (H * W * C) (fun p => avg_pool_gradient g W C kh kw sh sw hd wd p * nth p v 0).
Proof.
  intros dst v g o H W C kh kw sh sw HH HW Hkh Hkw Hsh Hsw BH BW hd wd Hd Hv Eo.
  destruct (avg_pool_spec 0 dst v H W C kh kw sh sw hd wd) as (o' & E & L & I & J); auto;
    try (unfold hd, wd; symmetry; apply slide_side_eq; lia).
  rewrite E in Eo. inversion Eo; subst o'. clear Eo.
  symmetry.
  etransitivity; [apply (avg_grad_adjoint H W C kh kw sh sw hd wd); auto;
    unfold hd, wd; symmetry; apply slide_side_eq; lia|].
  rewrite Rsum_mul, Rsum_mul. apply Rsum_ext. intros r Hr. apply Rsum_ext. intros c Hc.
  apply Rsum_ext. intros ch Hch. rewrite I by auto. f_equal.
  rewrite nsum_Rsum. unfold nofnat. cbn [ndiv nofZ NumR]. rewrite <- INR_IZR_INZ. reflexivity.
Qed.
Print Assumptions c23_specified_gradient_is_the_derivative.

(** What the code computes: every window's first (top-left) cell is left out. The missing
    part of the property is exactly the second summand. *)
Theorem c23_avg_pool_backward_partial :
  forall (ig g : list R) H W C kh kw sh sw,
    (0 < H)%nat -> (0 < W)%nat -> (1 <= kh <= H)%nat -> (1 <= kw <= W)%nat ->
    (1 <= sh)%nat -> (1 <= sw)%nat -> (Z.of_nat H < 2 ^ 64)%Z -> (Z.of_nat W < 2 ^ 64)%Z ->
    let hd := side H kh sh 0 in let wd := side W kw sw 0 in
    length ig = (H * W * C)%nat -> (hd * wd * C <= length g)%nat ->
    exists ig', avg_pool_backward ig g H W C kh kw sh sw = Ok ig' /\ length ig' = length ig /\
      forall p, nth p ig' 0 =
        avg_pool_gradient g W C kh kw sh sw hd wd p
        - Rsum3 hd wd C (fun r c ch =>
            if (p =? cell W C (r * sh) (c * sw) ch)%nat
            then nth (cell wd C r c ch) g 0 / INR (kh * kw) else 0).
Proof.
  intros ig g H W C kh kw sh sw HH HW Hkh Hkw Hsh Hsw BH BW hd wd Hig Hg.
  assert (Eh : hd = slide_side H kh sh 0) by (symmetry; apply slide_side_eq; lia).
  assert (Ew : wd = slide_side W kw sw 0) by (symmetry; apply slide_side_eq; lia).
  destruct (avg_backward_actual H W C kh kw sh sw hd wd HH HW Hkh Hkw Hsh Hsw BH BW Eh Ew
              ig g Hig Hg) as (ig' & E & L & I).
  exists ig'. split; [exact E|]. split; [exact L|]. intros p. rewrite I.
  pose proof (avg_grad_split H W C kh kw sh sw hd wd HH HW Hkh Hkw Hsh Hsw Eh Ew g p) as S.
  match type of S with ?a = ?b + ?c => assert (Ec : c = a - b) by lra end.
  rewrite Ec. f_equal. unfold Rsum3.
  apply Rsum_ext. intros r Hr. apply Rsum_ext. intros c Hc. apply Rsum_ext. intros ch Hch.
  unfold avg_share, ppos, pool_pos, cell. rewrite Nat.div_0_l, Nat.mod_0_l, !Nat.add_0_r by lia.
  reflexivity.
Qed.
Print Assumptions c23_avg_pool_backward_partial.

Theorem c23_avg_pool_backward_refuted :
  exists (ig g : list R) H W C kh kw sh sw,
    (0 < H)%nat /\ (0 < W)%nat /\ (1 <= kh <= H)%nat /\ (1 <= kw <= W)%nat /\
    (1 <= sh)%nat /\ (1 <= sw)%nat /\ length ig = (H * W * C)%nat /\
    (side H kh sh 0 * side W kw sw 0 * C <= length g)%nat /\
    exists ig' p, avg_pool_backward ig g H W C kh kw sh sw = Ok ig' /\ (p < length ig')%nat /\
      nth p ig' 0 <> avg_pool_gradient g W C kh kw sh sw (side H kh sh 0) (side W kw sw 0) p.
Proof.
  exists [0; 0; 0; 0], [4], 2%nat, 2%nat, 1%nat, 2%nat, 2%nat, 1%nat, 1%nat.
  repeat (split; [simpl; lia|]).
  destruct (c23_avg_pool_backward_partial [0; 0; 0; 0] [4] 2 2 1 2 2 1 1)
    as (ig' & E & L & I); try (simpl; lia).
  exists ig', 0%nat. split; [exact E|]. split; [rewrite L; simpl; lia|].
  rewrite I. cbn. lra.
Qed.
Print Assumptions c23_avg_pool_backward_refuted.

Example c23_example :
  avg_pool_backward [7; 7; 7; 7]%Z [4]%Z 2 2 1 2 2 1 1 = Ok [0; 1; 1; 1]%Z.
Proof. reflexivity. Qed.

(** *** C24 *)
(** What the property asks for, given the position [best r c ch] of each window's first
    maximum. *)
Definition max_pool_gradient (g : list R) (W C kw sh sw hd wd : nat)
    (best : nat -> nat -> nat -> nat) (p : nat) : R :=
  Rsum3 hd wd C (fun r c ch =>
    if (p =? wcell W C kw sh sw r c (best r c ch) ch)%nat then nth (cell wd C r c ch) g 0 else 0).

(** What the code computes: windows whose maximum is their own first cell send their
    gradient to buffer index 0. *)
Theorem c24_max_pool_backward_actual :
  forall (ig src g : list R) H W C kh kw sh sw,
    (0 < H)%nat -> (0 < W)%nat -> (1 <= kh <= H)%nat -> (1 <= kw <= W)%nat ->
    (1 <= sh)%nat -> (1 <= sw)%nat -> (Z.of_nat H < 2 ^ 64)%Z -> (Z.of_nat W < 2 ^ 64)%Z ->
    let hd := side H kh sh 0 in let wd := side W kw sw 0 in
    length ig = (H * W * C)%nat -> (H * W * C <= length src)%nat -> (hd * wd * C <= length g)%nat ->
    exists best ig',
      (forall r c ch, (r < hd)%nat -> (c < wd)%nat -> (ch < C)%nat ->
         first_max src W C kh kw sh sw r c ch (best r c ch)) /\
      max_pool_backward ig src g H W C kh kw sh sw = Ok ig' /\ length ig' = length ig /\
      forall p, nth p ig' 0 =
        Rsum3 hd wd C (fun r c ch =>
          if (p =? if (best r c ch =? 0)%nat then 0
                   else wcell W C kw sh sw r c (best r c ch) ch)%nat
          then nth (cell wd C r c ch) g 0 else 0).
Proof.
  intros ig src g H W C kh kw sh sw HH HW Hkh Hkw Hsh Hsw BH BW hd wd Hig Hs Hg.
  apply (max_backward_actual H W C kh kw sh sw hd wd); auto;
    symmetry; apply slide_side_eq; lia.
Qed.
Print Assumptions c24_max_pool_backward_actual.

(** The property holds when no window has its first maximum in its own first cell, except
    the window that starts at buffer index 0. *)
Theorem c24_max_pool_backward_partial :
  forall (ig src g : list R) H W C kh kw sh sw best,
    (0 < H)%nat -> (0 < W)%nat -> (1 <= kh <= H)%nat -> (1 <= kw <= W)%nat ->
    (1 <= sh)%nat -> (1 <= sw)%nat -> (Z.of_nat H < 2 ^ 64)%Z -> (Z.of_nat W < 2 ^ 64)%Z ->
    let hd := side H kh sh 0 in let wd := side W kw sw 0 in
    length ig = (H * W * C)%nat -> (H * W * C <= length src)%nat -> (hd * wd * C <= length g)%nat ->
    (forall r c ch, (r < hd)%nat -> (c < wd)%nat -> (ch < C)%nat ->
       first_max src W C kh kw sh sw r c ch (best r c ch) /\
       (best r c ch = 0%nat -> r = 0%nat /\ c = 0%nat /\ ch = 0%nat)) ->
    exists ig', max_pool_backward ig src g H W C kh kw sh sw = Ok ig' /\ length ig' = length ig /\
      forall p, nth p ig' 0 = max_pool_gradient g W C kw sh sw hd wd best p.
Proof.
  intros ig src g H W C kh kw sh sw best HH HW Hkh Hkw Hsh Hsw BH BW hd wd Hig Hs Hg Hbest.
  destruct (c24_max_pool_backward_actual ig src g H W C kh kw sh sw HH HW Hkh Hkw Hsh Hsw BH BW
              Hig Hs Hg) as (best' & ig' & Hb & E & L & I).
  fold hd in Hb, I. fold wd in Hb, I.
  exists ig'. split; [exact E|]. split; [exact L|]. intros p. rewrite I.
  unfold max_pool_gradient, Rsum3.
  apply Rsum_ext. intros r Hr. apply Rsum_ext. intros c Hc. apply Rsum_ext. intros ch Hch.
  destruct (Hbest r c ch Hr Hc Hch) as (F & H0).
  assert (Eb : best' r c ch = best r c ch).
  { apply (fmax_unique W C kh kw sh sw src r c ch); [apply (Hb r c ch); auto|exact F]. }
  rewrite Eb. destruct (Nat.eqb_spec (best r c ch) 0) as [Ez|Ez]; [|reflexivity].
  destruct (H0 Ez) as (-> & -> & ->). rewrite Ez. unfold wcell, cell.
  rewrite Nat.div_0_l, Nat.mod_0_l by lia. reflexivity.
Qed.
Print Assumptions c24_max_pool_backward_partial.

(** 1x4 image, windows {1,0} and {5,3}: the second window's gradient lands in cell 0. *)
Theorem c24_max_pool_backward_refuted :
  exists (ig src g : list R) H W C kh kw sh sw best,
    (0 < H)%nat /\ (0 < W)%nat /\ (1 <= kh <= H)%nat /\ (1 <= kw <= W)%nat /\
    (1 <= sh)%nat /\ (1 <= sw)%nat /\
    length ig = (H * W * C)%nat /\ (H * W * C <= length src)%nat /\
    (side H kh sh 0 * side W kw sw 0 * C <= length g)%nat /\
    (forall r c ch, (r < side H kh sh 0)%nat -> (c < side W kw sw 0)%nat -> (ch < C)%nat ->
       first_max src W C kh kw sh sw r c ch (best r c ch)) /\
    exists ig' p, max_pool_backward ig src g H W C kh kw sh sw = Ok ig' /\ (p < length ig')%nat /\
      nth p ig' 0 <> max_pool_gradient g W C kw sh sw (side H kh sh 0) (side W kw sw 0) best p.
Proof.
  exists [0; 0; 0; 0], [1; 0; 5; 3], [10; 20], 1%nat, 4%nat, 1%nat, 1%nat, 2%nat, 1%nat, 2%nat.
  exists (fun _ _ _ => 0%nat).
  repeat (split; [simpl; lia|]).
  assert (F : forall r c ch, (r < 1)%nat -> (c < 2)%nat -> (ch < 1)%nat ->
    first_max [1; 0; 5; 3] 4 1 1 2 1 2 r c ch 0).
  { intros r c ch Hr Hc Hch. assert (r = 0%nat) by lia. assert (ch = 0%nat) by lia. subst.
    split; [lia|]. split; [|intros i Hi; lia]. intros i Hi.
    destruct c as [|[|c]]; [| |lia]; destruct i as [|[|i]]; try lia; cbn; lra. }
  split; [exact F|].
  destruct (c24_max_pool_backward_actual [0; 0; 0; 0] [1; 0; 5; 3] [10; 20] 1 4 1 1 2 1 2)
    as (best & ig' & Hb & E & L & I); try (simpl; lia).
  exists ig', 0%nat. split; [exact E|]. split; [rewrite L; simpl; lia|].
  rewrite I. change (side 1 1 1 0) with 1%nat in *. change (side 4 2 2 0) with 2%nat in *.
  assert (E0 : best 0%nat 0%nat 0%nat = 0%nat).
  { apply (fmax_unique 4 1 1 2 1 2 [1; 0; 5; 3] 0 0 0); [apply Hb; lia|apply F; lia]. }
  assert (E1 : best 0%nat 1%nat 0%nat = 0%nat).
  { apply (fmax_unique 4 1 1 2 1 2 [1; 0; 5; 3] 0 1 0); [apply Hb; lia|apply F; lia]. }
  unfold max_pool_gradient, Rsum3. cbn [Rsum]. rewrite E0, E1. cbn. lra.
Qed.
Print Assumptions c24_max_pool_backward_refuted.

Example c24_example :
  max_pool_backward [0; 0; 0; 0]%Z [1; 0; 5; 3]%Z [10; 20]%Z 1 4 1 1 2 1 2 = Ok [30; 0; 0; 0]%Z /\
  max_pool_backward [0; 0; 0; 0]%Z [1; 0; 3; 5]%Z [10; 20]%Z 1 4 1 1 2 1 2 = Ok [10; 0; 0; 20]%Z.
Proof. split; reflexivity. Qed.

(** *** C25 *)
(** Input and weight gradients are those of the forward pass (which is linear in the image
    and in the kernel, so the adjoint identity is the derivative) and the weight gradient
    accumulates. Missing from the property: the bias. *)
Theorem c25_conv_backward_partial :
  forall (ig wg bg src k b g : list R) H W C kh kw nf sh sw ph pw,
    (0 < H)%nat -> (0 < W)%nat -> (1 <= kh <= H + 2 * ph)%nat -> (1 <= kw <= W + 2 * pw)%nat ->
    (1 <= sh)%nat -> (1 <= sw)%nat ->
    (Z.of_nat (H + 2 * ph) < 2 ^ 64)%Z -> (Z.of_nat (W + 2 * pw) < 2 ^ 64)%Z ->
    let hd := side H kh sh ph in let wd := side W kw sw pw in
    length ig = (H * W * C)%nat -> length wg = (kh * kw * C * nf)%nat -> length bg = nf ->
    (H * W * C <= length src)%nat -> (kh * kw * C * nf <= length k)%nat ->
    (hd * wd * nf <= length g)%nat ->
    exists ig' wg' bg',
      conv_backward ig wg bg src k g H W C hd wd kh kw nf sh sw ph pw = Ok (ig', wg', bg') /\
      length ig' = length ig /\ length wg' = length wg /\ length bg' = nf /\
      (forall v dst o, (H * W * C <= length v)%nat -> (hd * wd * nf <= length dst)%nat ->
         conv_forward dst v k b H W C kh kw nf sh sw ph pw = Ok o ->
         Rsum (hd * wd * nf) (fun q => nth q g 0 * nth q o 0) =
         Rsum (H * W * C) (fun p => nth p ig' 0 * nth p v 0)) /\
      (forall u dst o, (kh * kw * C * nf <= length u)%nat -> (hd * wd * nf <= length dst)%nat ->
         conv_forward dst src u b H W C kh kw nf sh sw ph pw = Ok o ->
         Rsum (hd * wd * nf) (fun q => nth q g 0 * nth q o 0) =
         Rsum (kh * kw * C * nf) (fun p => (nth p wg' 0 - nth p wg 0) * nth p u 0)) /\
      (forall f, (f < nf)%nat ->
         nth f bg' 0 = Rsum hd (fun r => Rsum wd (fun c => nth (cell wd nf r c f) g 0))).
Proof.
  intros ig wg bg src k b g H W C kh kw nf sh sw ph pw HH HW Hkh Hkw Hsh Hsw BH BW hd wd
    Hig Hwg Hbg Hs Hk Hg.
  assert (Eh : hd = slide_side H kh (Nat.max sh 1) ph) by now apply side_slide.
  assert (Ew : wd = slide_side W kw (Nat.max sw 1) pw) by now apply side_slide.
  destruct (conv_backward_spec H W C kh kw nf sh sw ph pw hd wd Eh Ew ig wg bg src k g hd wd)
    as (ig' & wg' & E & L1 & L2 & I1 & I2); auto.
  exists ig', wg'. eexists. split; [exact E|]. split; [exact L1|]. split; [exact L2|].
  split; [apply tab_length|]. split; [|split].
  - intros v dst o Hv Hd Eo.
    destruct (cross_correlation_spec 0 dst v k H W C kh kw nf sh sw ph pw hd wd)
      as (o' & E' & L & I & J); auto.
    unfold conv_forward in Eo. rewrite E' in Eo. inversion Eo; subst o'.
    rewrite (Rsum_ext (H * W * C) _ (fun p => conv_ig H W C kh kw nf sh sw ph pw hd wd k g p * nth p v 0))
      by (intros; now rewrite I1).
    rewrite conv_ig_adjoint by auto. rewrite Rsum_mul, Rsum_mul.
    apply Rsum_ext. intros r Hr. apply Rsum_ext. intros c Hc. apply Rsum_ext. intros f Hf.
    now rewrite I by auto.
  - intros u dst o Hu Hd Eo.
    destruct (cross_correlation_spec 0 dst src u H W C kh kw nf sh sw ph pw hd wd)
      as (o' & E' & L & I & J); auto.
    unfold conv_forward in Eo. rewrite E' in Eo. inversion Eo; subst o'.
    rewrite (Rsum_ext (kh * kw * C * nf) _
      (fun p => conv_wg H W C kh kw nf sh sw ph pw hd wd src g p * nth p u 0))
      by (intros; rewrite I2; ring).
    rewrite conv_wg_adjoint by auto. rewrite Rsum_mul, Rsum_mul.
    apply Rsum_ext. intros r Hr. apply Rsum_ext. intros c Hc. apply Rsum_ext. intros f Hf.
    now rewrite I by auto.
  - intros f Hf. now rewrite nth_tab by auto.
Qed.
Print Assumptions c25_conv_backward_partial.

(** The forward pass ignores the biases: the output is never "cross-correlation plus bias"
    for a non-zero bias. *)
Theorem c25_bias_used_refuted :
  exists (dst src k b : list R) o, 
    conv_forward dst src k b 1 1 1 1 1 1 1 1 0 0 = Ok o /\
    nth 0 o 0 <> xcorr src k 1 1 1 1 1 1 1 1 0 0 0 0 0 + nth 0 b 0.
Proof.
  exists [0], [2], [3], [5].
  destruct (c18_convolution_forward [0] [2] [3] [5] 1 1 1 1 1 1 1 1 0 0)
    as (o & E & _ & I & _); try (simpl; lia).
  exists o. split; [exact E|]. change (nth 0 o 0) with (nth (cell (side 1 1 1 0) 1 0 0 0) o 0).
  rewrite (I 0%nat 0%nat 0%nat) by (cbn; lia).
  set (x := xcorr _ _ _ _ _ _ _ _ _ _ _ _ _ _ _). simpl. lra.
Qed.
Print Assumptions c25_bias_used_refuted.

Theorem c25_bias_ignored :
  forall (T : Type) (NT : NumOps T) (dst src k b b' : list T) H W C kh kw nf sh sw ph pw,
    conv_forward dst src k b H W C kh kw nf sh sw ph pw
    = conv_forward dst src k b' H W C kh kw nf sh sw ph pw.
Proof. reflexivity. Qed.

(** Bias gradients do not accumulate: whatever was accumulated before is overwritten. *)
Theorem c25_bias_gradient_accumulates_refuted :
  exists (ig wg bg src k g : list R) ig' wg' bg',
    conv_backward ig wg bg src k g 1 1 1 1 1 1 1 1 1 1 0 0 = Ok (ig', wg', bg') /\
    nth 0 bg 0 = 7 /\ nth 0 g 0 = 1 /\ nth 0 bg' 0 <> nth 0 bg 0 + nth 0 g 0.
Proof.
  exists [0], [0], [7], [2], [3], [1].
  destruct (c25_conv_backward_partial [0] [0] [7] [2] [3] [] [1] 1 1 1 1 1 1 1 1 0 0)
    as (ig' & wg' & bg' & E & _ & _ & _ & _ & _ & I); try (simpl; lia).
  exists ig', wg', bg'. split; [exact E|]. split; [reflexivity|]. split; [reflexivity|].
  rewrite I by lia. cbn. lra.
Qed.
Print Assumptions c25_bias_gradient_accumulates_refuted.

Example c25_example :
  conv_backward [0; 0; 0; 0]%Z [1]%Z [7]%Z [1; 2; 3; 4]%Z [10]%Z [1; 0; 0; 5]%Z
    2 2 1 2 2 1 1 1 1 1 0 0 = Ok ([10; 0; 0; 50], [22], [6])%Z.
Proof. reflexivity. Qed.
