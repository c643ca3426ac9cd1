(** Backward passes of the sliding-window layers, over the reals. *)
From Verif Require Import Base Num RSum MathModel MathProofs ConvModel ConvSpec ConvProofs.
From Coq Require Import Reals Lra.
Local Open Scope R_scope.

(** *** Loops that only add to a buffer *)
Definition adds (L : nat) (body : list R -> res (list R)) (A : nat -> R) : Prop :=
  forall d, length d = L ->
  exists d', body d = Ok d' /\ length d' = L /\ forall p, nth p d' 0 = nth p d 0 + A p.

Lemma adds_for_from L i n body A :
  (forall k, (i <= k < i + n)%nat -> adds L (body k) (A k)) ->
  adds L (for_from i n body) (fun p => Rsum n (fun k => A (i + k)%nat p)).
Proof.
  revert i. induction n as [|n IH]; intros i Hb d Hd.
  - exists d. simpl. repeat split; auto. intros p. lra.
  - destruct (Hb i ltac:(lia) d Hd) as (d1 & E1 & L1 & I1).
    destruct (IH (S i) (fun k Hk => Hb k ltac:(lia)) d1 L1) as (d2 & E2 & L2 & I2).
    exists d2. cbn [for_from]. rewrite E1. cbn [bind]. split; [exact E2|]. split; [auto|].
    intros p. rewrite I2, I1, Rsum_shift, Nat.add_0_r.
    rewrite (Rsum_ext n (fun k => A (S i + k)%nat p) (fun k => A (i + S k)%nat p))
      by (intros; f_equal; lia).
    lra.
Qed.

Lemma adds_for L n body A :
  (forall k, (k < n)%nat -> adds L (body k) (A k)) ->
  adds L (for_ n body) (fun p => Rsum n (fun k => A k p)).
Proof. intros Hb. apply (adds_for_from L 0 n body A). intros k Hk. apply Hb. lia. Qed.

Lemma adds_ext L body A B : adds L body A -> (forall p, A p = B p) -> adds L body B.
Proof.
  intros HA E d Hd. destruct (HA d Hd) as (d' & E1 & E2 & E3). exists d'.
  repeat split; auto. intros p. now rewrite <- E.
Qed.

Lemma adds_addZ L q v :
  (q < L)%nat -> adds L (fun d => addZ d (Z.of_nat q) v) (fun p => if (p =? q)%nat then v else 0).
Proof.
  intros Hq d Hd. unfold addZ. rewrite (rdZ_ok _ _ 0) by lia. cbn [bind].
  rewrite Nat2Z.id, wr_ok by lia. eexists. split; [reflexivity|].
  rewrite upd_length. split; [auto|]. intros p. rewrite nth_upd.
  destruct (Nat.eqb_spec p q) as [->|]; simpl.
  - destruct (Nat.ltb_spec q (length d)); [reflexivity|lia].
  - lra.
Qed.

(** Two buffers at once. *)
Definition adds2 (L M : nat) (body : list R * list R -> res (list R * list R))
    (A B : nat -> R) : Prop :=
  forall d e, length d = L -> length e = M ->
  exists d' e', body (d, e) = Ok (d', e') /\ length d' = L /\ length e' = M /\
    (forall p, nth p d' 0 = nth p d 0 + A p) /\ (forall p, nth p e' 0 = nth p e 0 + B p).

Lemma adds2_for L M n body A B :
  (forall k, (k < n)%nat -> adds2 L M (body k) (A k) (B k)) ->
  adds2 L M (for_ n body) (fun p => Rsum n (fun k => A k p)) (fun p => Rsum n (fun k => B k p)).
Proof.
  induction n as [|n IH]; intros Hb d e Hd He.
  - exists d, e. unfold for_. simpl. repeat split; auto; intros p; lra.
  - destruct (IH (fun k Hk => Hb k ltac:(lia)) d e Hd He) as (d1 & e1 & E1 & L1 & M1 & I1 & J1).
    destruct (Hb n ltac:(lia) d1 e1 L1 M1) as (d2 & e2 & E2 & L2 & M2 & I2 & J2).
    exists d2, e2. rewrite for_S, E1. cbn [bind]. split; [exact E2|].
    repeat split; auto; intros p; simpl; rewrite ?I2, ?I1, ?J2, ?J1; lra.
Qed.

(** Sum against an indicator. *)
Lemma Rsum_indicator L q a (v : nat -> R) : (q < L)%nat ->
  Rsum L (fun p => (if (p =? q)%nat then a else 0) * v p) = a * v q.
Proof.
  intros Hq. rewrite (Rsum_single L q); auto.
  - now rewrite Nat.eqb_refl.
  - intros i Hi Hne. destruct (Nat.eqb_spec i q); [contradiction|]. ring.
Qed.

Lemma dot_Rsum L n (A : nat -> nat -> R) v :
  Rsum L (fun p => Rsum n (fun i => A i p) * v p) = Rsum n (fun i => Rsum L (fun p => A i p * v p)).
Proof.
  rewrite <- Rsum_swap. apply Rsum_ext. intros p Hp. now rewrite Rsum_scal_r.
Qed.

Lemma fill0_zero (ig : list R) :
  exists z, fill0 ig (length ig) = Ok z /\ length z = length ig /\ forall p, nth p z 0 = 0.
Proof.
  rewrite fill0_spec by auto. eexists. split; [reflexivity|]. rewrite skipn_all, app_nil_r.
  split; [apply tab_length|]. intros p. destruct (Nat.lt_ge_cases p (length ig)).
  - now rewrite nth_tab.
  - apply nth_overflow. now rewrite tab_length.
Qed.

Section Pool.
Variables (H W C kh kw sh sw hd wd : nat).
Hypothesis HH : (0 < H)%nat.
Hypothesis HW : (0 < W)%nat.
Hypothesis Hkh : (1 <= kh <= H)%nat.
Hypothesis Hkw : (1 <= kw <= W)%nat.
Hypothesis Hsh : (1 <= sh)%nat.
Hypothesis Hsw : (1 <= sw)%nat.
Hypothesis BH : (Z.of_nat H < 2 ^ 64)%Z.
Hypothesis BW : (Z.of_nat W < 2 ^ 64)%Z.
Hypothesis Eh : hd = slide_side H kh sh 0.
Hypothesis Ew : wd = slide_side W kw sw 0.

Definition ppos r c ki ch : nat := pool_pos W C sh sw r c (ki / kw) (ki mod kw) ch.

Lemma ppos_lt r c ki ch : (r < hd)%nat -> (c < wd)%nat -> (ki < kh * kw)%nat -> (ch < C)%nat ->
  (ppos r c ki ch < H * W * C)%nat.
Proof.
  intros Hr Hc Hki Hch. destruct (ki_pool kh kw ki Hki) as (Ha & Hb).
  apply (pool_pos_lt H W C kh kw); auto; congruence.
Qed.

Lemma out_lt r c ch : (r < hd)%nat -> (c < wd)%nat -> (ch < C)%nat ->
  ((r * wd + c) * C + ch < hd * wd * C)%nat.
Proof. intros. apply mul_add_le; auto. apply mul_add_le; auto. Qed.

(** Contribution [k] of every window to input cell [p]. *)
Definition avg_share (g : list R) (p r c ch ki : nat) : R :=
  if (p =? ppos r c ki ch)%nat then nth ((r * wd + c) * C + ch) g 0 / INR (kh * kw) else 0.

Lemma avg_backward_actual (ig g : list R) :
  length ig = (H * W * C)%nat -> (hd * wd * C <= length g)%nat ->
  exists ig', avg_pool_backward ig g H W C kh kw sh sw = Ok ig' /\ length ig' = length ig /\
    forall p, nth p ig' 0 =
      Rsum hd (fun r => Rsum wd (fun c => Rsum C (fun ch =>
        Rsum (kh * kw - 1) (fun ki => avg_share g p r c ch (1 + ki))))).
Proof.
  intros Hig Hg. unfold avg_pool_backward.
  destruct (fill0_zero ig) as (z & Ez & Lz & Iz). rewrite Ez. cbn [bind].
  unfold kernel_slide. rewrite (Nat.max_l sh 1), (Nat.max_l sw 1) by lia. rewrite <- Eh, <- Ew.
  assert (A : adds (H * W * C) (for_ hd (fun r st => for_ wd (fun c st =>
      avg_pool_bwd_op g W C kh kw hd wd r c (Z.of_nat (r * sh) - Z.of_nat 0)
        ((Z.of_nat (c * sw) - Z.of_nat 0) * Z.of_nat C) st) st))
    (fun p => Rsum hd (fun r => Rsum wd (fun c => Rsum C (fun ch =>
        Rsum (kh * kw - 1) (fun ki => avg_share g p r c ch (1 + ki))))))).
  { apply (adds_for _ _ _ (fun r p => Rsum wd (fun c => Rsum C (fun ch =>
        Rsum (kh * kw - 1) (fun ki => avg_share g p r c ch (1 + ki)))))). intros r Hr.
    apply (adds_for _ _ _ (fun c p => Rsum C (fun ch =>
        Rsum (kh * kw - 1) (fun ki => avg_share g p r c ch (1 + ki))))). intros c Hc.
    apply (adds_for _ _ _ (fun ch p =>
        Rsum (kh * kw - 1) (fun ki => avg_share g p r c ch (1 + ki)))). intros ch Hch.
    intros d Hd.
    pose proof (out_lt r c ch Hr Hc Hch) as Hq.
    replace (r * (wd * C) + c * C + ch)%nat with ((r * wd + c) * C + ch)%nat by lia.
    rewrite (rd_nth g _ 0) by lia. cbn [bind].
    revert d Hd. fold (adds (H * W * C)).
    apply (adds_for_from _ 1 _ _ (fun ki p => avg_share g p r c ch ki)). intros ki Hki.
    rewrite !Z.sub_0_r.
    assert (Hp : (ppos r c ki ch < H * W * C)%nat) by (apply ppos_lt; auto; lia).
    intros d Hd. rewrite pool_idx_pos. fold (ppos r c ki ch). revert d Hd.
    fold (adds (H * W * C)).
    eapply adds_ext; [apply adds_addZ; exact Hp|].
    intros p. unfold avg_share. cbn [ndiv NumR nofnat nofZ].
    unfold nofnat. cbn [nofZ NumR]. rewrite <- INR_IZR_INZ, (Nat.mul_comm kw kh). reflexivity. }
  destruct (A z ltac:(lia)) as (ig' & E & L & I).
  exists ig'. split; [exact E|]. split; [lia|]. intros p. rewrite I, Iz. lra.
Qed.

(** The gradient of average pooling. *)
Definition avg_grad (g : list R) (p : nat) : R :=
  Rsum hd (fun r => Rsum wd (fun c => Rsum C (fun ch =>
    Rsum (kh * kw) (fun ki => avg_share g p r c ch ki)))).

Lemma avg_grad_split (g : list R) p :
  avg_grad g p =
  Rsum hd (fun r => Rsum wd (fun c => Rsum C (fun ch => avg_share g p r c ch 0))) +
  Rsum hd (fun r => Rsum wd (fun c => Rsum C (fun ch =>
    Rsum (kh * kw - 1) (fun ki => avg_share g p r c ch (1 + ki))))).
Proof.
  unfold avg_grad. rewrite <- Rsum_plus. apply Rsum_ext. intros r Hr.
  rewrite <- Rsum_plus. apply Rsum_ext. intros c Hc.
  rewrite <- Rsum_plus. apply Rsum_ext. intros ch Hch.
  assert (Hk : (0 < kh * kw)%nat) by nia.
  replace (kh * kw)%nat with (S (kh * kw - 1)) at 1 by lia. now rewrite Rsum_shift.
Qed.

(** It is the adjoint of the forward pass (which is linear). *)
Lemma avg_grad_adjoint (g : list R) (v : nat -> R) :
  Rsum (H * W * C) (fun p => avg_grad g p * v p) =
  Rsum hd (fun r => Rsum wd (fun c => Rsum C (fun ch =>
    nth ((r * wd + c) * C + ch) g 0 *
    (Rsum (kh * kw) (fun ki => v (ppos r c ki ch)) / INR (kh * kw))))).
Proof.
  unfold avg_grad. rewrite dot_Rsum. apply Rsum_ext. intros r Hr.
  rewrite dot_Rsum. apply Rsum_ext. intros c Hc.
  rewrite dot_Rsum. apply Rsum_ext. intros ch Hch.
  rewrite dot_Rsum. unfold Rdiv. rewrite <- Rsum_scal_r, <- Rsum_scal_l.
  apply Rsum_ext. intros ki Hki. unfold avg_share.
  rewrite Rsum_indicator by (apply ppos_lt; auto). unfold Rdiv. ring.
Qed.

(** *** Max pooling *)

(** First maximum of a window. *)
Definition fmax (src : list R) (r c ch m : nat) : Prop :=
  (m < kh * kw)%nat /\
  (forall ki, (ki < kh * kw)%nat -> nth (ppos r c ki ch) src 0 <= nth (ppos r c m ch) src 0) /\
  (forall ki, (ki < m)%nat -> nth (ppos r c ki ch) src 0 < nth (ppos r c m ch) src 0).

Lemma fmax_unique src r c ch m m' :
  fmax src r c ch m -> fmax src r c ch m' -> m = m'.
Proof.
  intros (A1 & A2 & A3) (B1 & B2 & B3). destruct (Nat.lt_trichotomy m m') as [L|[E|L]]; auto.
  - specialize (B3 m L). specialize (A2 m' B1). lra.
  - specialize (A3 m' L). specialize (B2 m A1). lra.
Qed.

Lemma max_window_loop (src : list R) r c ch :
  (H * W * C <= length src)%nat -> (r < hd)%nat -> (c < wd)%nat -> (ch < C)%nat ->
  exists m, fmax src r c ch m /\
    for_from 1 (kh * kw - 1) (fun ki '(mx, pos) =>
      v <- rdZ src (pool_idx W C kw (Z.of_nat (r * sh)) (Z.of_nat (c * sw) * Z.of_nat C) ch ki) ;;
      Ok (if nltb mx v then
            (v, pool_idx W C kw (Z.of_nat (r * sh)) (Z.of_nat (c * sw) * Z.of_nat C) ch ki)
          else (mx, pos))) (nth (ppos r c 0 ch) src 0, 0%Z)
    = Ok (nth (ppos r c m ch) src 0, if (m =? 0)%nat then 0%Z else Z.of_nat (ppos r c m ch)).
Proof.
  intros Hs Hr Hc Hch.
  match goal with |- context [for_from 1 ?n ?b ?s] =>
    destruct (for_from_inv (fun k (st : R * Z) => exists m, (m < k)%nat /\
      (forall ki, (ki < k)%nat -> nth (ppos r c ki ch) src 0 <= nth (ppos r c m ch) src 0) /\
      (forall ki, (ki < m)%nat -> nth (ppos r c ki ch) src 0 < nth (ppos r c m ch) src 0) /\
      st = (nth (ppos r c m ch) src 0, if (m =? 0)%nat then 0%Z else Z.of_nat (ppos r c m ch)))
      1 n b s) as (st & E & m & I1 & I2 & I3 & ->) end.
  - exists 0%nat. split; [lia|]. split; [|split; [|reflexivity]]; intros ki Hki; [|lia].
    assert (ki = 0)%nat by lia. subst. lra.
  - intros ki st Hki (m & I1 & I2 & I3 & ->). cbv beta iota. rewrite pool_idx_pos.
    fold (ppos r c ki ch).
    assert (Hp : (ppos r c ki ch < H * W * C)%nat) by (apply ppos_lt; auto; lia).
    rewrite (rdZ_ok _ _ 0) by lia. rewrite Nat2Z.id. cbn [bind].
    eexists. split; [reflexivity|]. cbn [nltb NumR].
    destruct (Rltb _ _) eqn:Elt.
    + apply Rltb_true in Elt. exists ki. split; [lia|]. split; [|split].
      * intros k Hk. destruct (Nat.eq_dec k ki) as [->|]; [lra|].
        specialize (I2 k ltac:(lia)). lra.
      * intros k Hk. specialize (I2 k Hk). lra.
      * destruct (Nat.eqb_spec ki 0); [lia|reflexivity].
    + apply Rltb_false in Elt. exists m. split; [lia|]. split; [|split; [exact I3|reflexivity]].
      intros k Hk. destruct (Nat.eq_dec k ki) as [->|]; [exact Elt|]. apply I2. lia.
  - exists m. assert (Hk : (0 < kh * kw)%nat) by nia.
    replace (1 + (kh * kw - 1))%nat with (kh * kw)%nat in * by lia.
    split; [split; [auto|split; auto]|exact E].
Qed.

Lemma max_backward_actual (ig src g : list R) :
  length ig = (H * W * C)%nat -> (H * W * C <= length src)%nat -> (hd * wd * C <= length g)%nat ->
  exists best ig',
    (forall r c ch, (r < hd)%nat -> (c < wd)%nat -> (ch < C)%nat ->
       fmax src r c ch (best r c ch)) /\
    max_pool_backward ig src g H W C kh kw sh sw = Ok ig' /\ length ig' = length ig /\
    forall p, nth p ig' 0 =
      Rsum hd (fun r => Rsum wd (fun c => Rsum C (fun ch =>
        if (p =? if (best r c ch =? 0)%nat then 0%nat else ppos r c (best r c ch) ch)%nat
        then nth ((r * wd + c) * C + ch) g 0 else 0))).
Proof.
  intros Hig Hs Hg.
  assert (Hbest : exists best, forall r c ch, (r < hd)%nat -> (c < wd)%nat -> (ch < C)%nat ->
    fmax src r c ch (best r c ch) /\
    for_from 1 (kh * kw - 1) (fun ki '(mx, pos) =>
      v <- rdZ src (pool_idx W C kw (Z.of_nat (r * sh)) (Z.of_nat (c * sw) * Z.of_nat C) ch ki) ;;
      Ok (if nltb mx v then
            (v, pool_idx W C kw (Z.of_nat (r * sh)) (Z.of_nat (c * sw) * Z.of_nat C) ch ki)
          else (mx, pos))) (nth (ppos r c 0 ch) src 0, 0%Z)
    = Ok (nth (ppos r c (best r c ch) ch) src 0,
          if (best r c ch =? 0)%nat then 0%Z else Z.of_nat (ppos r c (best r c ch) ch))).
  { (* read the index back from the loop, so that no choice axiom is needed *)
    exists (fun r c ch =>
      match for_from 1 (kh * kw - 1) (fun ki '(mx, m) =>
        v <- rdZ src (pool_idx W C kw (Z.of_nat (r * sh)) (Z.of_nat (c * sw) * Z.of_nat C) ch ki) ;;
        Ok (if nltb mx v then (v, ki) else (mx, m))) (nth (ppos r c 0 ch) src 0, 0%nat)
      with Ok (_, m) => m | _ => 0%nat end).
    intros r c ch Hr Hc Hch. destruct (max_window_loop src r c ch Hs Hr Hc Hch) as (m & F & E).
    match goal with |- fmax _ _ _ _ ?b /\ _ => assert (Eb : b = m) end.
    2:{ rewrite Eb. auto. }
    match goal with |- context [for_from 1 ?n ?b ?s] =>
      destruct (for_from_inv (fun k (st : R * nat) => let m := snd st in
        fst st = nth (ppos r c m ch) src 0 /\ (m < k)%nat /\
        (forall ki, (ki < k)%nat -> nth (ppos r c ki ch) src 0 <= nth (ppos r c m ch) src 0) /\
        (forall ki, (ki < m)%nat -> nth (ppos r c ki ch) src 0 < nth (ppos r c m ch) src 0))
        1 n b s) as ((mx & m') & E' & I0 & I1 & I2 & I3) end.
    - cbn [fst snd]. split; [auto|]. split; [lia|]. split; intros ki Hki; [|lia].
      assert (ki = 0)%nat by lia. subst. lra.
    - intros ki (mx, m') Hki (I0 & I1 & I2 & I3). cbn [fst snd] in *. rewrite pool_idx_pos.
      fold (ppos r c ki ch).
      assert (Hp : (ppos r c ki ch < H * W * C)%nat) by (apply ppos_lt; auto; lia).
      rewrite (rdZ_ok _ _ 0) by lia. rewrite Nat2Z.id. cbn [bind].
      eexists. split; [reflexivity|]. cbn [nltb NumR]. rewrite I0.
      destruct (Rltb _ _) eqn:Elt; cbn [fst snd].
      + apply Rltb_true in Elt. split; [auto|]. split; [lia|]. split.
        * intros k Hk. destruct (Nat.eq_dec k ki) as [->|]; [lra|].
          specialize (I2 k ltac:(lia)). lra.
        * intros k Hk. specialize (I2 k Hk). lra.
      + apply Rltb_false in Elt. split; [auto|]. split; [lia|]. split; [|exact I3].
        intros k Hk. destruct (Nat.eq_dec k ki) as [->|]; [exact Elt|]. apply I2. lia.
    - rewrite E'. cbn [fst snd] in *. assert (Hk : (0 < kh * kw)%nat) by nia.
      replace (1 + (kh * kw - 1))%nat with (kh * kw)%nat in * by lia.
      apply (fmax_unique src r c ch); [|exact F]. split; [auto|split; auto]. }
  destruct Hbest as (best & Hbest). exists best.
  unfold max_pool_backward.
  destruct (fill0_zero ig) as (z & Ez & Lz & Iz). rewrite Ez. cbn [bind].
  unfold kernel_slide. rewrite (Nat.max_l sh 1), (Nat.max_l sw 1) by lia. rewrite <- Eh, <- Ew.
  set (share := fun r c ch p =>
    if (p =? if (best r c ch =? 0)%nat then 0%nat else ppos r c (best r c ch) ch)%nat
        then nth ((r * wd + c) * C + ch) g 0 else 0).
  assert (A : adds (H * W * C) (for_ hd (fun r st => for_ wd (fun c st =>
      max_pool_bwd_op src g W C kh kw hd wd r c (Z.of_nat (r * sh) - Z.of_nat 0)
        ((Z.of_nat (c * sw) - Z.of_nat 0) * Z.of_nat C) st) st))
    (fun p => Rsum hd (fun r => Rsum wd (fun c => Rsum C (fun ch => share r c ch p))))).
  { apply (adds_for _ _ _ (fun r p => Rsum wd (fun c => Rsum C (fun ch => share r c ch p)))).
    intros r Hr.
    apply (adds_for _ _ _ (fun c p => Rsum C (fun ch => share r c ch p))). intros c Hc.
    apply (adds_for _ _ _ (fun ch p => share r c ch p)). intros ch Hch.
    intros d Hd.
    pose proof (out_lt r c ch Hr Hc Hch) as Hq.
    replace (r * (wd * C) + c * C + ch)%nat with ((r * wd + c) * C + ch)%nat by lia.
    rewrite (rd_nth g _ 0) by lia. cbn [bind]. rewrite !Z.sub_0_r.
    assert (Hk : (0 < kh * kw)%nat) by nia.
    assert (Hp0 : (ppos r c 0 ch < H * W * C)%nat) by (apply ppos_lt; auto).
    assert (E0 : rdZ src (Z.of_nat (r * sh) * Z.of_nat (W * C)
        + Z.of_nat (c * sw) * Z.of_nat C + Z.of_nat ch) = Ok (nth (ppos r c 0 ch) src 0)).
    { replace (Z.of_nat (r * sh) * Z.of_nat (W * C)
        + Z.of_nat (c * sw) * Z.of_nat C + Z.of_nat ch)%Z with (Z.of_nat (ppos r c 0 ch)).
      - rewrite (rdZ_ok _ _ 0) by lia. now rewrite Nat2Z.id.
      - unfold ppos, pool_pos. rewrite Nat.div_0_l, Nat.mod_0_l by lia. lia. }
    rewrite E0. cbn [bind].
    destruct (Hbest r c ch Hr Hc Hch) as (F & E). rewrite E. cbn [bind]. cbv beta iota.
    unfold share. destruct (Nat.eqb_spec (best r c ch) 0) as [Eb|Eb].
    - apply (adds_addZ (H * W * C) 0); [lia|exact Hd].
    - apply (adds_addZ (H * W * C)); [|exact Hd]. apply ppos_lt; auto. apply F. }
  destruct (A z ltac:(lia)) as (ig' & E & L & I).
  exists ig'. split; [intros r c ch Hr Hc Hch; now apply Hbest|]. split; [exact E|].
  split; [lia|]. intros p. rewrite I, Iz. unfold share. lra.
Qed.

End Pool.

(** *** Convolution *)
Section Conv.
Variables (H W C kh kw nf sh sw ph pw hd wd : nat).
Hypothesis Eh : hd = slide_side H kh (Nat.max sh 1) ph.
Hypothesis Ew : wd = slide_side W kw (Nat.max sw 1) pw.

(** Top-left corner of the window at output (r, c), in source coordinates. *)
Definition wy (r : nat) : Z := (Z.of_nat (r * Nat.max sh 1) - Z.of_nat ph)%Z.
Definition wx (c : nat) : Z := (Z.of_nat (c * Nat.max sw 1) - Z.of_nat pw)%Z.

(** Is kernel cell [ki] of the window inside the image, and where. *)
Definition cin (r c ki : nat) : bool :=
  let a := (ki / (kw * C))%nat in let b := ((ki / C) mod kw)%nat in
  ((0 <=? wy r + Z.of_nat a) && (wy r + Z.of_nat a <? Z.of_nat H)
   && (0 <=? wx c + Z.of_nat b) && (wx c + Z.of_nat b <? Z.of_nat W))%Z.
Definition cpos (r c ki : nat) : nat :=
  ((Z.to_nat (wy r + Z.of_nat (ki / (kw * C))) * W
    + Z.to_nat (wx c + Z.of_nat ((ki / C) mod kw))) * C + ki mod C)%nat.

Lemma cpos_lt r c ki : (ki < kh * kw * C)%nat -> cin r c ki = true ->
  (cpos r c ki < H * W * C)%nat /\
  ((wy r + Z.of_nat (ki / (kw * C))) * Z.of_nat (W * C)
   + (wx c * Z.of_nat C + Z.of_nat (ki mod (kw * C))))%Z = Z.of_nat (cpos r c ki).
Proof.
  intros Hki Ein. destruct (ki_split kh kw C ki Hki) as (Ha & Hbb & Hc & Hp & E & Em).
  unfold cin in Ein.
  apply andb_prop in Ein. destruct Ein as (Ein & E4).
  apply andb_prop in Ein. destruct Ein as (Ein & E3).
  apply andb_prop in Ein. destruct Ein as (E1 & E2).
  apply Z.leb_le in E1. apply Z.ltb_lt in E2. apply Z.leb_le in E3. apply Z.ltb_lt in E4.
  destruct (pix_index H W C (wy r + Z.of_nat (ki / (kw * C)))
              (wx c + Z.of_nat ((ki / C) mod kw)) (ki mod C)) as (P1 & P2); [lia|lia|auto|].
  split; [exact P2|]. rewrite Em. unfold cpos. clear P1 P2.
  destruct (Z_of_nat_complete _ E1) as (y & Ey). destruct (Z_of_nat_complete _ E3) as (x & Ex).
  rewrite Ey, Ex, !Nat2Z.id.
  replace (wx c * Z.of_nat C + Z.of_nat ((ki / C) mod kw * C + ki mod C))%Z
    with ((wx c + Z.of_nat ((ki / C) mod kw)) * Z.of_nat C + Z.of_nat (ki mod C))%Z by lia.
  rewrite Ex. lia.
Qed.

Lemma conv_cell_pos (v k : list R) r c f :
  conv_cell 0 v k H W C kh kw nf (wy r) (wx c) f =
  Rsum (kh * kw * C) (fun ki => if cin r c ki
    then nth (cpos r c ki) v 0 * nth (ki * nf + f)%nat k 0 else 0).
Proof.
  unfold conv_cell. rewrite csum_Rsum. apply Rsum_ext. intros ki Hki. cbv zeta.
  change (((0 <=? wy r + Z.of_nat (ki / (kw * C))) && (wy r + Z.of_nat (ki / (kw * C)) <? Z.of_nat H)
   && (0 <=? wx c + Z.of_nat ((ki / C) mod kw)) && (wx c + Z.of_nat ((ki / C) mod kw) <? Z.of_nat W))%Z)
    with (cin r c ki).
  destruct (cin r c ki) eqn:Ein; [|reflexivity].
  unfold pix. unfold cin in Ein. rewrite Ein. reflexivity.
Qed.

Definition conv_ig (k g : list R) (p : nat) : R :=
  Rsum hd (fun r => Rsum wd (fun c => Rsum nf (fun f => Rsum (kh * kw * C) (fun ki =>
    if cin r c ki then
      (if (p =? cpos r c ki)%nat then nth (ki * nf + f)%nat k 0 * nth ((r * wd + c) * nf + f)%nat g 0
       else 0)
    else 0)))).
Definition conv_wg (src g : list R) (p : nat) : R :=
  Rsum hd (fun r => Rsum wd (fun c => Rsum nf (fun f => Rsum (kh * kw * C) (fun ki =>
    if cin r c ki then
      (if (p =? ki * nf + f)%nat then nth (cpos r c ki) src 0 * nth ((r * wd + c) * nf + f)%nat g 0
       else 0)
    else 0)))).

Lemma conv_backward_spec (ig wg bg src k g : list R) oh ow :
  length ig = (H * W * C)%nat -> length wg = (kh * kw * C * nf)%nat -> length bg = nf ->
  (H * W * C <= length src)%nat -> (kh * kw * C * nf <= length k)%nat ->
  (hd * wd * nf <= length g)%nat -> oh = hd -> ow = wd ->
  exists ig' wg', conv_backward ig wg bg src k g H W C oh ow kh kw nf sh sw ph pw =
    Ok (ig', wg', tab nf (fun f => Rsum hd (fun r => Rsum wd (fun c =>
                     nth ((r * wd + c) * nf + f)%nat g 0)))) /\
    length ig' = length ig /\ length wg' = length wg /\
    (forall p, nth p ig' 0 = conv_ig k g p) /\
    (forall p, nth p wg' 0 = nth p wg 0 + conv_wg src g p).
Proof.
  intros Hig Hwg Hbg Hs Hk Hg -> ->. unfold conv_backward.
  assert (Hlt : forall r c f, (r < hd)%nat -> (c < wd)%nat -> (f < nf)%nat ->
    ((r * wd + c) * nf + f < hd * wd * nf)%nat).
  { intros. apply mul_add_le; auto. apply mul_add_le; auto. }
  assert (Eb : conv_bias_bwd bg g hd wd nf = Ok (tab nf (fun f => Rsum hd (fun r => Rsum wd (fun c =>
                     nth ((r * wd + c) * nf + f)%nat g 0))))).
  { unfold conv_bias_bwd. apply for_fill; [exact Hbg|]. intros f d Hf Hd.
    match goal with |- bind ?m _ = _ => assert (E : m = Ok (Rsum hd (fun r => Rsum wd (fun c =>
                     nth ((r * wd + c) * nf + f)%nat g 0)))) end.
    2:{ rewrite E. cbn [bind]. apply wr_ok. lia. }
    assert (G1 : forall r, (r < hd)%nat -> forall n s, (n <= wd)%nat ->
      for_ n (fun c s => x <- rd g (r * (wd * nf) + c * nf + f) ;; Ok (nadd s x)) s
      = Ok (s + Rsum n (fun c => nth ((r * wd + c) * nf + f)%nat g 0))).
    { intros r Hr n s. induction n as [|n IH]; intros Hn.
      - unfold for_. simpl. f_equal. lra.
      - rewrite for_S, IH by lia. cbn [bind].
        pose proof (Hlt r n f Hr ltac:(lia) Hf).
        replace (r * (wd * nf) + n * nf + f)%nat with ((r * wd + n) * nf + f)%nat by lia.
        rewrite (rd_nth g _ 0) by lia. cbn [bind nadd NumR]. simpl Rsum. f_equal. lra. }
    assert (G2 : forall m s, (m <= hd)%nat ->
      for_ m (fun r s => for_ wd (fun c s => x <- rd g (r * (wd * nf) + c * nf + f) ;;
                                             Ok (nadd s x)) s) s
      = Ok (s + Rsum m (fun r => Rsum wd (fun c => nth ((r * wd + c) * nf + f)%nat g 0)))).
    { intros m. induction m as [|m IH]; intros s Hm.
      - unfold for_. simpl. f_equal. lra.
      - rewrite for_S, IH by lia. cbn [bind]. rewrite G1 by lia. simpl Rsum. f_equal. lra. }
    rewrite G2 by lia. cbn [n0 NumR]. f_equal. lra. }
  rewrite Eb. cbn [bind].
  destruct (fill0_zero ig) as (z & Ez & Lz & Iz). rewrite Ez. cbn [bind].
  unfold kernel_slide. rewrite <- Eh, <- Ew.
  assert (A : adds2 (H * W * C) (kh * kw * C * nf) (for_ hd (fun r st => for_ wd (fun c st =>
      conv_bwd_op src k g H W C kh kw nf hd wd r c
        (Z.of_nat (r * Nat.max sh 1) - Z.of_nat ph)
        ((Z.of_nat (c * Nat.max sw 1) - Z.of_nat pw) * Z.of_nat C) st) st))
    (conv_ig k g) (conv_wg src g)).
  { apply (adds2_for _ _ _ _ (fun r p => Rsum wd (fun c => Rsum nf (fun f =>
      Rsum (kh * kw * C) (fun ki => if cin r c ki then
        (if (p =? cpos r c ki)%nat then nth (ki * nf + f)%nat k 0 * nth ((r * wd + c) * nf + f)%nat g 0
         else 0) else 0))))
      (fun r p => Rsum wd (fun c => Rsum nf (fun f =>
      Rsum (kh * kw * C) (fun ki => if cin r c ki then
        (if (p =? ki * nf + f)%nat then nth (cpos r c ki) src 0 * nth ((r * wd + c) * nf + f)%nat g 0
         else 0) else 0))))).
    intros r Hr.
    apply (adds2_for _ _ _ _ (fun c p => Rsum nf (fun f =>
      Rsum (kh * kw * C) (fun ki => if cin r c ki then
        (if (p =? cpos r c ki)%nat then nth (ki * nf + f)%nat k 0 * nth ((r * wd + c) * nf + f)%nat g 0
         else 0) else 0)))
      (fun c p => Rsum nf (fun f =>
      Rsum (kh * kw * C) (fun ki => if cin r c ki then
        (if (p =? ki * nf + f)%nat then nth (cpos r c ki) src 0 * nth ((r * wd + c) * nf + f)%nat g 0
         else 0) else 0)))).
    intros c Hc.
    apply (adds2_for _ _ _ _ (fun f p =>
      Rsum (kh * kw * C) (fun ki => if cin r c ki then
        (if (p =? cpos r c ki)%nat then nth (ki * nf + f)%nat k 0 * nth ((r * wd + c) * nf + f)%nat g 0
         else 0) else 0))
      (fun f p =>
      Rsum (kh * kw * C) (fun ki => if cin r c ki then
        (if (p =? ki * nf + f)%nat then nth (cpos r c ki) src 0 * nth ((r * wd + c) * nf + f)%nat g 0
         else 0) else 0))).
    intros f Hf d e Hd He. cbv beta.
    pose proof (Hlt r c f Hr Hc Hf) as Hq.
    replace (r * wd * nf + c * nf + f)%nat with ((r * wd + c) * nf + f)%nat by lia.
    rewrite (rd_nth g _ 0) by lia. cbn [bind]. set (og := nth ((r * wd + c) * nf + f) g 0).
    revert d e Hd He.
    apply (adds2_for _ _ _ _ (fun ki p => if cin r c ki then
        (if (p =? cpos r c ki)%nat then nth (ki * nf + f)%nat k 0 * og else 0) else 0)
      (fun ki p => if cin r c ki then
        (if (p =? ki * nf + f)%nat then nth (cpos r c ki) src 0 * og else 0) else 0)).
    intros ki Hki d e Hd He. cbv beta iota.
    destruct (ki_split kh kw C ki Hki) as (Ha & Hbb & Hcc & Hp & E & Em).
    destruct (Nat.eqb_spec (kw * C) 0); [lia|]. cbn [negb require bind]. cbv zeta.
    fold (wy r). fold (wx c).
    assert (Ei : inside (wy r + Z.of_nat (ki / (kw * C)))
                   (wx c * Z.of_nat C + Z.of_nat (ki mod (kw * C))) H (W * C) = cin r c ki).
    { rewrite Em. rewrite inside_true by auto. reflexivity. }
    rewrite Ei. destruct (cin r c ki) eqn:Ein.
    2:{ exists d, e. repeat split; auto; intros p; lra. }
    destruct (cpos_lt r c ki Hki Ein) as (Pl & Pe).
    assert (Hkf : (ki * nf + f < kh * kw * C * nf)%nat) by (apply mul_add_le; auto).
    rewrite (rd_nth k _ 0) by lia. cbn [bind].
    rewrite Pe.
    destruct (adds_addZ (H * W * C) (cpos r c ki) (nth (ki * nf + f) k 0 * og) Pl d Hd)
      as (d' & E1 & L1 & I1).
    cbn [nmul NumR]. rewrite E1. cbn [bind].
    rewrite (rdZ_ok _ _ 0) by lia. rewrite Nat2Z.id. cbn [bind].
    rewrite (rd_nth e _ 0) by lia. cbn [bind]. rewrite wr_ok by lia. cbn [bind].
    eexists. eexists. split; [reflexivity|]. split; [auto|]. split; [now rewrite upd_length|].
    split; [exact I1|]. intros p. rewrite nth_upd.
    destruct (Nat.eqb_spec p (ki * nf + f)) as [->|]; simpl.
    - destruct (Nat.ltb_spec (ki * nf + f) (length e)); [reflexivity|lia].
    - lra. }
  destruct (A z wg ltac:(lia) Hwg) as (ig' & wg' & E & L1 & L2 & I1 & I2).
  exists ig', wg'. fold (wy). match goal with |- context [bind ?m _] => replace m with (Ok (ig', wg')) end.
  cbn [bind]. split; [reflexivity|]. split; [lia|]. split; [lia|]. split; [|exact I2].
  intros p. rewrite I1, Iz. lra.
Qed.

(** Input gradient: adjoint of the forward pass in the image. *)
Lemma conv_ig_adjoint (k g v : list R) :
  Rsum (H * W * C) (fun p => conv_ig k g p * nth p v 0) =
  Rsum hd (fun r => Rsum wd (fun c => Rsum nf (fun f =>
    nth ((r * wd + c) * nf + f)%nat g 0 * conv_cell 0 v k H W C kh kw nf (wy r) (wx c) f))).
Proof.
  unfold conv_ig. rewrite dot_Rsum. apply Rsum_ext. intros r Hr.
  rewrite dot_Rsum. apply Rsum_ext. intros c Hc.
  rewrite dot_Rsum. apply Rsum_ext. intros f Hf.
  rewrite dot_Rsum, conv_cell_pos, <- Rsum_scal_l. apply Rsum_ext. intros ki Hki.
  destruct (cin r c ki) eqn:Ein.
  - destruct (cpos_lt r c ki Hki Ein) as (Pl & _). rewrite Rsum_indicator by auto. ring.
  - rewrite (Rsum_0 (H * W * C)); [ring|intros; ring].
Qed.

(** Weight gradient: adjoint of the forward pass in the kernel. *)
Lemma conv_wg_adjoint (src g u : list R) :
  Rsum (kh * kw * C * nf) (fun p => conv_wg src g p * nth p u 0) =
  Rsum hd (fun r => Rsum wd (fun c => Rsum nf (fun f =>
    nth ((r * wd + c) * nf + f)%nat g 0 * conv_cell 0 src u H W C kh kw nf (wy r) (wx c) f))).
Proof.
  unfold conv_wg. rewrite dot_Rsum. apply Rsum_ext. intros r Hr.
  rewrite dot_Rsum. apply Rsum_ext. intros c Hc.
  rewrite dot_Rsum. apply Rsum_ext. intros f Hf.
  rewrite dot_Rsum, conv_cell_pos, <- Rsum_scal_l. apply Rsum_ext. intros ki Hki.
  destruct (cin r c ki) eqn:Ein.
  - assert (Hkf : (ki * nf + f < kh * kw * C * nf)%nat) by (apply mul_add_le; auto).
    rewrite Rsum_indicator by auto. ring.
  - rewrite (Rsum_0 (kh * kw * C * nf)); [ring|intros; ring].
Qed.

End Conv.
