(** Doubles: the assumptions on the unit, and what the operations keep. *)
From Coq Require Import Reals Lra Lia.
From Verif Require Import Base Num MathModel MathProofs DumpModel FloatModel.
Local Open Scope R_scope.

(** *** Specification *)
Definition tiny : R := / 2 ^ 1022.
Definition eps : R := / 2 ^ 52.
(** What IEEE 754 doubles with rounding to nearest satisfy, and a <cmath> in its usual accuracy. *)
Record ieee (a : fpu) : Prop := {
  ie_mono : forall x y, x <= y -> fl a x <= fl a y;
  ie_opp : forall x, fl a (- x) = - fl a x;
  ie_idem : forall x, fl a (fl a x) = fl a x;
  ie_int : forall z : Z, (Z.abs z <= 2 ^ 53)%Z -> fl a (IZR z) = IZR z;
  ie_tiny : fl a tiny = tiny;
  ie_eps : fl a eps = eps;
  ie_big : fl a (big a) = big a;
  ie_range : 2 ^ 1023 <= big a < 2 ^ 1024;
  ie_rel : forall x, tiny <= x -> Rabs (fl a x - x) <= x * / 2 ^ 53;
  ie_under : forall x, 0 <= x < / 2 ^ 1075 -> fl a x = 0;
  ie_exp0 : fexp a 0 = 1;
  ie_exp_neg : forall x, x <= 0 -> 0 <= fexp a x <= 1;
  ie_exp_pos : forall x, 0 <= x -> 1 <= fexp a x;
  ie_exp_near : forall x, exp x / 2 <= fexp a x <= 2 * exp x;
  ie_ln : forall x, eps <= x <= 1 -> - 37 <= fln a x <= 0;
  ie_tanh : forall x, - 1 <= ftanh a x <= 1
}.
(** The values of the type: a magnitude is representable. *)
Definition isd (a : fpu) (x : dbl) : Prop := match x with DFin _ m => 0 <= m <= big a /\ fl a m = m | _ => True end.
Definition isnan (x : dbl) : Prop := exists s, x = DNan s.
Definition fin (a : fpu) (x : dbl) : Prop := isd a x /\ exists s m, x = DFin s m.
(** Finite, and between the bounds *)
Definition within (a : fpu) (lo hi : R) (x : dbl) : Prop := fin a x /\ lo <= dval x <= hi.

Section Facts.
  Variable a : fpu.
  Hypothesis IE : ieee a.
  Notation fl := (fl a). Notation big := (big a).
  Notation within := (within a). Notation fin := (fin a). Notation isd := (isd a).

  Lemma fl_0 : fl 0 = 0.
  Proof. apply (ie_int a IE 0). discriminate. Qed.
  Lemma fl_1 : fl 1 = 1.
  Proof. apply (ie_int a IE 1). discriminate. Qed.
  Lemma fl_pos x : 0 <= x -> 0 <= fl x.
  Proof. intros H. rewrite <- fl_0. now apply (ie_mono a IE). Qed.
  Lemma fl_neg x : x <= 0 -> fl x <= 0.
  Proof. intros H. rewrite <- fl_0. now apply (ie_mono a IE). Qed.
  Lemma fl_abs x : Rabs (fl x) = fl (Rabs x).
  Proof.
    destruct (Rle_dec 0 x) as [H|H].
    - rewrite !Rabs_right; [reflexivity|lra|apply Rle_ge, fl_pos; lra].
    - rewrite (Rabs_left x) by lra. rewrite (ie_opp a IE). apply Rabs_left1. apply fl_neg; lra.
  Qed.
  Lemma pow_le1 k : 1 <= 2 ^ k.
  Proof. apply pow_R1_Rle. lra. Qed.
  Lemma pow_ge j k : (j <= k)%nat -> 2 ^ j <= 2 ^ k.
  Proof. intros L. apply Rle_pow; [lra|exact L]. Qed.
  Lemma big_ge : 2 ^ 1022 <= big.
  Proof. destruct (ie_range a IE) as (H & _). eapply Rle_trans; [apply (pow_ge 1022 1023); lia|exact H]. Qed.
  Lemma big_Z z : (Z.abs z <= 2 ^ 53)%Z -> Rabs (IZR z) <= big.
  Proof.
    intros H. rewrite <- abs_IZR. eapply Rle_trans; [apply IZR_le; exact H|]. eapply Rle_trans; [|apply big_ge].
    eapply Rle_trans; [|apply (pow_ge 53 1022); lia]. change (2 ^ 53)%Z with (2 ^ Z.of_nat 53)%Z. rewrite <- (pow_IZR 2 53). lra.
  Qed.
  Lemma big_1 : 1 <= big.
  Proof. pose proof (big_Z 1 ltac:(discriminate)) as H. rewrite Rabs_right in H; lra. Qed.
  Lemma tiny_pos : 0 < tiny.
  Proof. apply Rinv_0_lt_compat, pow_lt. lra. Qed.
  Lemma tiny_1 : tiny <= 1.
  Proof. unfold tiny. rewrite <- Rinv_1. apply Rinv_le_contravar; [lra|apply pow_le1]. Qed.
  Lemma eps_pos : 0 < eps.
  Proof. apply Rinv_0_lt_compat, pow_lt. lra. Qed.
  Lemma eps_1 : eps <= 1.
  Proof. unfold eps. rewrite <- Rinv_1. apply Rinv_le_contravar; [lra|apply pow_le1]. Qed.

  (** Values *)
  Lemma dval_abs s m : 0 <= m -> Rabs (dval (DFin s m)) = m.
  Proof. intros H. cbn. destruct s; [rewrite Rabs_left1|rewrite Rabs_right]; lra. Qed.
  Lemma fin_val x : fin x -> Rabs (dval x) <= big /\ fl (dval x) = dval x.
  Proof.
    intros (D & s & m & ->). cbn in D. destruct D as (H & F). fold (dval (DFin s m)). split; [rewrite dval_abs; lra|].
    cbn. destruct s; [now rewrite (ie_opp a IE), F|exact F].
  Qed.
  Lemma fin_mk s m : 0 <= m <= big -> fl m = m -> fin (DFin s m).
  Proof. intros H F. split; [now split|eauto]. Qed.
  Lemma round_small s r : Rabs (fl r) <= big -> fin (dround a s r) /\ dval (dround a s r) = fl r.
  Proof.
    intros H. unfold dround. rewrite (proj2 (Rltb_false _ _)) by exact H. split.
    - apply fin_mk; [split; [apply Rabs_pos|exact H]|]. now rewrite fl_abs, (ie_idem a IE).
    - cbn. destruct (Reqb r 0) eqn:E.
      + apply Reqb_true in E. subst r. rewrite fl_0, Rabs_R0. destruct s; lra.
      + destruct (Rltb r 0) eqn:E2.
        * apply Rltb_true in E2. rewrite Rabs_left1 by (apply fl_neg; lra). lra.
        * apply Rltb_false in E2. apply Rabs_right. apply Rle_ge, fl_pos. exact E2.
  Qed.
  (** Between representable bounds, rounding stays there. *)
  Lemma round_within s r lo hi : lo <= r <= hi -> fl lo = lo -> fl hi = hi -> - big <= lo -> hi <= big -> within lo hi (dround a s r).
  Proof.
    intros H F1 F2 B1 B2. assert (L : lo <= fl r <= hi) by (split; [rewrite <- F1|rewrite <- F2]; now apply (ie_mono a IE)).
    destruct (round_small s r) as (A & V); [apply Rabs_le; lra|]. split; [exact A|]. now rewrite V.
  Qed.
  Lemma round_isd s r : isd (dround a s r).
  Proof.
    unfold dround. destruct (Rltb big (Rabs (fl r))) eqn:E; [exact I|]. apply Rltb_false in E. cbn. split; [split; [apply Rabs_pos|exact E]|]. now rewrite fl_abs, (ie_idem a IE).
  Qed.
  Lemma round_over s r : 0 < r -> big < fl r -> dround a s r = DInf false.
  Proof.
    intros H B. unfold dround. rewrite (proj2 (Rltb_true _ _)); [|eapply Rlt_le_trans; [exact B|apply Rle_abs]]. now rewrite (proj2 (Rltb_false r 0)) by lra.
  Qed.
  Lemma round_0 s r : fl r = 0 -> exists t, dround a s r = DFin t 0.
  Proof. intros E. unfold dround. rewrite E, Rabs_R0. rewrite (proj2 (Rltb_false _ _)) by (pose proof big_1; lra). eauto. Qed.
  Lemma round_pos r : 0 <= r -> fl r <= big -> dround a false r = DFin false (fl r).
  Proof.
    intros H B. unfold dround. rewrite Rabs_right by (apply Rle_ge, fl_pos; exact H). rewrite (proj2 (Rltb_false _ _)) by exact B.
    rewrite (proj2 (Rltb_false r 0)) by exact H. now destruct (Reqb r 0).
  Qed.

  Lemma within_weaken lo hi lo' hi' x : within lo hi x -> lo' <= lo -> hi <= hi' -> within lo' hi' x.
  Proof. intros (F & H) L1 L2. split; [exact F|lra]. Qed.
  Lemma within_fl lo hi x : within lo hi x -> fl (dval x) = dval x.
  Proof. intros (F & _). now apply fin_val. Qed.
  Lemma fin_inv x : fin x -> exists s m, x = DFin s m.
  Proof. now intros (_ & F). Qed.
  Lemma add_fin x y : fin x -> fin y -> exists s, dadd a x y = dround a s (dval x + dval y).
  Proof. intros (_ & s & m & ->) (_ & t & k & ->). cbn [dadd]. eauto. Qed.
  Lemma mul_fin x y : fin x -> fin y -> exists s, dmul a x y = dround a s (dval x * dval y).
  Proof. intros (_ & s & m & ->) (_ & t & k & ->). cbn [dmul]. eauto. Qed.
  Lemma div_fin x y : fin x -> fin y -> dval y <> 0 -> exists s, ddiv a x y = dround a s (dval x / dval y).
  Proof.
    intros (_ & s & m & ->) (_ & t & k & ->) N. cbn [ddiv]. rewrite (proj2 (Reqb_false k 0)); [eauto|].
    intros ->. apply N. cbn. destruct t; lra.
  Qed.
  Lemma opp_fin x : fin x -> fin (dopp x) /\ dval (dopp x) = - dval x.
  Proof. intros (D & s & m & ->). cbn in D. destruct D as (H & F). split; [now apply fin_mk|]. destruct s; cbn; lra. Qed.
  Lemma sub_fin x y : fin x -> fin y -> exists s, dsub a x y = dround a s (dval x - dval y).
  Proof. intros A B. destruct (opp_fin y B) as (B' & V). destruct (add_fin x (dopp y) A B') as (s & E). exists s. unfold dsub. rewrite E, V. f_equal. Qed.

  Lemma nan_add_l s y : isnan (dadd a (DNan s) y).
  Proof. exists false. now destruct y. Qed.
  Lemma nan_add_r x s : isnan (dadd a x (DNan s)).
  Proof. exists false. now destruct x. Qed.
  Lemma nan_mul_l s y : isnan (dmul a (DNan s) y).
  Proof. exists false. now destruct y. Qed.
  Lemma nan_mul_r x s : isnan (dmul a x (DNan s)).
  Proof. exists false. now destruct x. Qed.
  Lemma nan_add x y : isnan x \/ isnan y -> isnan (dadd a x y).
  Proof. intros [(s & ->)|(s & ->)]; [apply nan_add_l|apply nan_add_r]. Qed.
  Lemma nan_sub x y : isnan x \/ isnan y -> isnan (dsub a x y).
  Proof. intros [H|(s & ->)]; apply nan_add; [now left|right; now exists (negb s)]. Qed.
  Lemma nan_mul x y : isnan x \/ isnan y -> isnan (dmul a x y).
  Proof. intros [(s & ->)|(s & ->)]; [apply nan_mul_l|apply nan_mul_r]. Qed.
  Lemma nan_div x y : isnan x \/ isnan y -> isnan (ddiv a x y).
  Proof. intros [(s & ->)|(s & ->)]; exists false; [now destruct y|now destruct x]. Qed.

  (** Sums in the order of the loops *)
  Notation dsum := (@nsum_from dbl (NumD a)).
  Lemma sum_nan n : forall acc f, (isnan acc \/ exists i, (i < n)%nat /\ isnan (f i)) -> isnan (dsum acc n f).
  Proof.
    induction n as [|n IH]; intros acc f H; [destruct H as [H|(i & Hi & _)]; [exact H|lia]|].
    rewrite nsum_from_S. change (isnan (dadd a (dsum acc n f) (f n))). apply nan_add. destruct H as [H|(i & Hi & H)]; [left; auto|].
    destruct (Nat.eq_dec i n) as [->|]; [now right|]. left. apply IH. right. exists i. split; [lia|exact H].
  Qed.
  Lemma sum_within (lo hi : Z) n : forall f, (lo <= 0)%Z -> (0 <= hi)%Z -> (Z.of_nat n * Z.max (- lo) hi <= 2 ^ 53)%Z -> (forall i, (i < n)%nat -> within (IZR lo) (IZR hi) (f i)) ->
    within (IZR (Z.of_nat n * lo)) (IZR (Z.of_nat n * hi)) (dsum (DFin false 0) n f).
  Proof.
    induction n as [|n IH]; intros f Hl Hh B W.
    - cbn. split; [apply fin_mk; [pose proof big_1; lra|apply fl_0]|cbn; lra].
    - rewrite nsum_from_S. change (within (IZR (Z.of_nat (S n) * lo)) (IZR (Z.of_nat (S n) * hi)) (dadd a (dsum (DFin false 0) n f) (f n))).
      assert (B1 : (Z.of_nat n * Z.max (- lo) hi <= 2 ^ 53)%Z) by nia.
      specialize (IH f Hl Hh B1 (fun i Hi => W i (Nat.lt_trans _ _ _ Hi (Nat.lt_succ_diag_r n)))). destruct IH as (F1 & V1). destruct (W n ltac:(lia)) as (F2 & V2).
      destruct (add_fin _ _ F1 F2) as (s & ->).
      assert (A1 : (Z.abs (Z.of_nat (S n) * lo) <= 2 ^ 53)%Z) by nia. assert (A2 : (Z.abs (Z.of_nat (S n) * hi) <= 2 ^ 53)%Z) by nia.
      apply round_within.
      + rewrite Nat2Z.inj_succ, !Z.mul_succ_l, !plus_IZR. lra.
      + now apply (ie_int a IE).
      + now apply (ie_int a IE).
      + pose proof (big_Z _ A1). split_Rabs; lra.
      + pose proof (big_Z _ A2). split_Rabs; lra.
  Qed.
  Lemma sum_zero n : forall f, (forall i, (i < n)%nat -> exists s, f i = DFin s 0) -> exists s, dsum (DFin false 0) n f = DFin s 0.
  Proof.
    induction n as [|n IH]; intros f H; [cbn; eauto|]. rewrite nsum_from_S. destruct (IH f (fun i Hi => H i (Nat.lt_trans _ _ _ Hi (Nat.lt_succ_diag_r n)))) as (s & E). destruct (H n ltac:(lia)) as (t & Et).
    change (exists s0, dadd a (dsum (DFin false 0) n f) (f n) = DFin s0 0). rewrite E, Et. cbn [dadd]. apply round_0. cbn. destruct s, t; rewrite ?Ropp_0, Rplus_0_l; apply fl_0.
  Qed.
  Lemma mul_zero x s : fin x -> exists t, dmul a x (DFin s 0) = DFin t 0.
  Proof.
    intros F. destruct (mul_fin x (DFin s 0) F) as (t & ->); [apply fin_mk; [pose proof big_1; lra|apply fl_0]|].
    apply round_0. cbn. destruct s; rewrite ?Ropp_0, Rmult_0_r; apply fl_0.
  Qed.
  Lemma zero_mul x s : fin x -> exists t, dmul a (DFin s 0) x = DFin t 0.
  Proof.
    intros F. destruct (mul_fin (DFin s 0) x) as (t & ->); [apply fin_mk; [pose proof big_1; lra|apply fl_0]|exact F|].
    apply round_0. cbn. destruct s; rewrite ?Ropp_0, Rmult_0_l; apply fl_0.
  Qed.
  Lemma fin_0 s : fin (DFin s 0).
  Proof. apply fin_mk; [pose proof big_1; lra|apply fl_0]. Qed.
  Lemma fin_1 : fin (DFin false 1).
  Proof. apply fin_mk; [pose proof big_1; lra|apply fl_1]. Qed.
  (** A factor of at most one *)
  Lemma mul_shrinks x y c : within (-1) 1 x -> fin y -> Rabs (dval y) <= c -> fl c = c -> c <= big -> 0 <= c -> within (- c) c (dmul a x y).
  Proof.
    intros (Fx & Hx) Fy Hy Fc Bc C0. destruct (mul_fin x y Fx Fy) as (s & ->).
    assert (H : Rabs (dval x * dval y) <= c).
    { rewrite Rabs_mult. rewrite <- (Rmult_1_l c). apply Rmult_le_compat; try apply Rabs_pos; [apply Rabs_le; lra|exact Hy]. }
    apply round_within; [split_Rabs; lra|now rewrite (ie_opp a IE), Fc|exact Fc|lra|exact Bc].
  Qed.
End Facts.
