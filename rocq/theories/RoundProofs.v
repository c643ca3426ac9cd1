(** Truncation to [p] binary digits is a rounding. *)
From Verif Require Import Base Num RoundModel RoundSpec.
From Coq Require Import Reals Lra Lia.
Local Open Scope R_scope.

Lemma p2_pos z : 0 < powerRZ 2 z.
Proof. apply powerRZ_lt. lra. Qed.
Lemma p2_add a b : powerRZ 2 (a + b) = powerRZ 2 a * powerRZ 2 b.
Proof. apply powerRZ_add. lra. Qed.
Lemma p2_S a : powerRZ 2 (a + 1) = 2 * powerRZ 2 a.
Proof. rewrite p2_add. cbn [powerRZ]. change (Pos.to_nat 1) with 1%nat. cbn [pow]. ring. Qed.
Lemma p2_opp a : powerRZ 2 a * powerRZ 2 (- a) = 1.
Proof. rewrite <- p2_add. replace (a + - a)%Z with 0%Z by lia. reflexivity. Qed.
Lemma p2_exp z : powerRZ 2 z = exp (IZR z * ln 2).
Proof. rewrite powerRZ_Rpower by lra. reflexivity. Qed.
Lemma ln2_pos : 0 < ln 2.
Proof. rewrite <- ln_1. apply ln_increasing; lra. Qed.
Lemma p2_le a b : (a <= b)%Z -> powerRZ 2 a <= powerRZ 2 b.
Proof.
  intros Hab. rewrite !p2_exp. pose proof ln2_pos as L2. apply IZR_le in Hab.
  destruct (Rle_lt_or_eq_dec _ _ Hab) as [Hlt|He].
  - left. apply exp_increasing. apply Rmult_lt_compat_r; lra.
  - rewrite He. lra.
Qed.
Lemma p2_lt_inv a b : powerRZ 2 a < powerRZ 2 b -> (a < b)%Z.
Proof.
  intros Hlt. destruct (Z_lt_le_dec a b) as [|Hge]; [assumption|].
  apply p2_le in Hge. lra.
Qed.
Lemma p2_nat p : powerRZ 2 (Z.of_nat p) = IZR (2 ^ Z.of_nat p).
Proof. rewrite <- pow_powerRZ, <- pow_IZR. reflexivity. Qed.

Lemma expo_bounds x : 0 < x -> powerRZ 2 (expo x) <= x < powerRZ 2 (expo x + 1).
Proof.
  intros Hx. unfold expo. pose proof ln2_pos as L2.
  destruct (base_Int_part (ln x / ln 2)) as (A & B).
  assert (E : x = exp (ln x / ln 2 * ln 2)).
  { replace (ln x / ln 2 * ln 2) with (ln x) by (field; lra). now rewrite exp_ln. }
  rewrite !p2_exp, plus_IZR. split.
  - rewrite E at 2. destruct (Rle_lt_or_eq_dec _ _ A) as [Hlt|He].
    + left. apply exp_increasing. apply Rmult_lt_compat_r; lra.
    + rewrite He. lra.
  - rewrite E at 1. apply exp_increasing. apply Rmult_lt_compat_r; lra.
Qed.

Lemma expo_unique x e : powerRZ 2 e <= x < powerRZ 2 (e + 1) -> expo x = e.
Proof.
  intros (A & B). pose proof (p2_pos e). destruct (expo_bounds x ltac:(lra)) as (C & D).
  assert (expo x < e + 1)%Z by (apply p2_lt_inv; lra).
  assert (e < expo x + 1)%Z by (apply p2_lt_inv; lra). lia.
Qed.

Lemma Int_part_IZR z : Int_part (IZR z) = z.
Proof.
  unfold Int_part. rewrite <- (tech_up (IZR z) (z + 1)); [lia| |]; rewrite plus_IZR; lra.
Qed.
Lemma Int_part_mono x y : x <= y -> (Int_part x <= Int_part y)%Z.
Proof.
  intros Hxy. destruct (base_Int_part x) as (A & _), (base_Int_part y) as (_ & D).
  assert (X : IZR (Int_part x) < IZR (Int_part y + 1)) by (rewrite plus_IZR; lra).
  apply lt_IZR in X. lia.
Qed.

Section Trunc.
Variable p : nat.

Lemma scaled x : 0 < x ->
  powerRZ 2 (Z.of_nat p) <= x * powerRZ 2 (Z.of_nat p - expo x).
Proof.
  intros Hx. destruct (expo_bounds x Hx) as (A & _).
  replace (powerRZ 2 (Z.of_nat p)) with (powerRZ 2 (expo x) * powerRZ 2 (Z.of_nat p - expo x)).
  - apply Rmult_le_compat_r; [left; apply p2_pos|exact A].
  - rewrite <- p2_add. f_equal. lia.
Qed.

Lemma trunc_pos_bounds x : 0 < x ->
  powerRZ 2 (expo x) <= trunc_pos p x <= x /\ x - trunc_pos p x <= / 2 ^ p * x.
Proof.
  intros Hx. unfold trunc_pos. set (e := (Z.of_nat p - expo x)%Z).
  destruct (base_Int_part (x * powerRZ 2 e)) as (A & B).
  pose proof (p2_pos (- e)) as P. pose proof (p2_opp e) as Q. pose proof (scaled x Hx) as S0. fold e in S0.
  assert (C : powerRZ 2 (Z.of_nat p) <= IZR (Int_part (x * powerRZ 2 e))).
  { rewrite p2_nat in *. apply IZR_le. rewrite <- (Int_part_IZR (2 ^ Z.of_nat p)).
    now apply Int_part_mono. }
  assert (X : x = x * powerRZ 2 e * powerRZ 2 (- e)) by (rewrite Rmult_assoc, Q; ring).
  assert (Y : powerRZ 2 (expo x) = powerRZ 2 (Z.of_nat p) * powerRZ 2 (- e)).
  { rewrite <- p2_add. f_equal. unfold e. lia. }
  split; [split|].
  - rewrite Y. apply Rmult_le_compat_r; lra.
  - eapply Rle_trans; [apply Rmult_le_compat_r; [lra|exact A]|]. lra.
  - assert (Z1 : x - IZR (Int_part (x * powerRZ 2 e)) * powerRZ 2 (- e) <= powerRZ 2 (- e)).
    { assert (W : (x * powerRZ 2 e - IZR (Int_part (x * powerRZ 2 e))) * powerRZ 2 (- e) <= 1 * powerRZ 2 (- e))
        by (apply Rmult_le_compat_r; lra).
      rewrite Rmult_minus_distr_r in W. lra. }
    eapply Rle_trans; [exact Z1|].
    destruct (expo_bounds x Hx) as (D & _). rewrite Y in D.
    rewrite <- pow_powerRZ in D.
    assert (0 < 2 ^ p) by (apply pow_lt; lra).
    apply (Rmult_le_reg_l (2 ^ p)); [lra|]. rewrite <- Rmult_assoc, Rinv_r by lra. lra.
Qed.

Lemma trunc_pos_pos x : 0 < x -> 0 < trunc_pos p x.
Proof. intros Hx. pose proof (trunc_pos_bounds x Hx). pose proof (p2_pos (expo x)). lra. Qed.

Lemma trunc_pos_expo x : 0 < x -> expo (trunc_pos p x) = expo x.
Proof.
  intros Hx. apply expo_unique. pose proof (trunc_pos_bounds x Hx). pose proof (expo_bounds x Hx). lra.
Qed.

Lemma trunc_pos_mono x y : 0 < x -> x <= y -> trunc_pos p x <= trunc_pos p y.
Proof.
  intros Hx Hxy.
  destruct (Z.eq_dec (expo x) (expo y)) as [E|E].
  - unfold trunc_pos. rewrite E. apply Rmult_le_compat_r; [left; apply p2_pos|].
    apply IZR_le, Int_part_mono. apply Rmult_le_compat_r; [left; apply p2_pos|lra].
  - destruct (expo_bounds x Hx) as (A & B). destruct (expo_bounds y ltac:(lra)) as (C & D).
    assert (expo x < expo y + 1)%Z by (apply p2_lt_inv; lra).
    assert (F : powerRZ 2 (expo x + 1) <= powerRZ 2 (expo y)) by (apply p2_le; lia).
    pose proof (trunc_pos_bounds x Hx). pose proof (trunc_pos_bounds y ltac:(lra)). lra.
Qed.

Lemma trunc_pos_idem x : 0 < x -> trunc_pos p (trunc_pos p x) = trunc_pos p x.
Proof.
  intros Hx. unfold trunc_pos at 1. rewrite trunc_pos_expo by exact Hx.
  unfold trunc_pos. set (e := (Z.of_nat p - expo x)%Z).
  rewrite (Rmult_assoc _ (powerRZ 2 (- e)) (powerRZ 2 e)), (Rmult_comm (powerRZ 2 (- e))), p2_opp, Rmult_1_r.
  now rewrite Int_part_IZR.
Qed.

Lemma trunc_of_pos x : 0 < x -> trunc p x = trunc_pos p x.
Proof. intros Hx. unfold trunc. destruct (Rltb 0 x) eqn:E; [reflexivity|]. apply Rltb_false in E. lra. Qed.
Lemma trunc_of_neg x : x < 0 -> trunc p x = - trunc_pos p (- x).
Proof.
  intros Hx. unfold trunc. destruct (Rltb 0 x) eqn:E; [apply Rltb_true in E; lra|].
  destruct (Rltb x 0) eqn:F; [reflexivity|]. apply Rltb_false in F. lra.
Qed.
Lemma trunc_0 : trunc p 0 = 0.
Proof.
  unfold trunc. destruct (Rltb 0 0) eqn:E; [apply Rltb_true in E; lra|]. reflexivity.
Qed.
Lemma trunc_opp x : trunc p (- x) = - trunc p x.
Proof.
  destruct (Rtotal_order x 0) as [Hx|[->|Hx]].
  - rewrite (trunc_of_neg x), (trunc_of_pos (- x)) by lra. ring.
  - rewrite Ropp_0, trunc_0. ring.
  - rewrite (trunc_of_pos x), (trunc_of_neg (- x)) by lra. now rewrite Ropp_involutive.
Qed.

Lemma trunc_1 : trunc p 1 = 1.
Proof.
  rewrite trunc_of_pos by lra.
  assert (E : expo 1 = 0%Z).
  { apply expo_unique. rewrite p2_S. cbn [powerRZ]. lra. }
  unfold trunc_pos. rewrite E, Z.sub_0_r, Rmult_1_l, p2_nat, Int_part_IZR, <- p2_nat. apply p2_opp.
Qed.

Lemma trunc_rounding : precise (trunc p) (/ 2 ^ p).
Proof.
  constructor; [constructor|].
  - intros x y Hxy.
    destruct (Rtotal_order x 0) as [Hx|[->|Hx]].
    + rewrite (trunc_of_neg x Hx). pose proof (trunc_pos_pos (- x) ltac:(lra)).
      destruct (Rtotal_order y 0) as [Hy|[->|Hy]].
      * rewrite (trunc_of_neg y Hy). apply Ropp_le_contravar. apply trunc_pos_mono; lra.
      * rewrite trunc_0. lra.
      * rewrite (trunc_of_pos y Hy). pose proof (trunc_pos_pos y Hy). lra.
    + rewrite trunc_0. destruct (Req_dec y 0) as [->|Hy]; [rewrite trunc_0; lra|].
      rewrite trunc_of_pos by lra. pose proof (trunc_pos_pos y ltac:(lra)). lra.
    + rewrite !trunc_of_pos by lra. now apply trunc_pos_mono.
  - apply trunc_0.
  - apply trunc_1.
  - replace (-1) with (- (1)) by ring. now rewrite trunc_opp, trunc_1.
  - intros x. destruct (Rtotal_order x 0) as [Hx|[->|Hx]].
    + rewrite (trunc_of_neg x Hx), trunc_opp. f_equal.
      rewrite trunc_of_pos by (apply trunc_pos_pos; lra). apply trunc_pos_idem. lra.
    + now rewrite !trunc_0.
    + rewrite (trunc_of_pos x Hx). rewrite trunc_of_pos by now apply trunc_pos_pos.
      now apply trunc_pos_idem.
  - intros x y _ _ Hxy. rewrite trunc_of_pos by lra. apply trunc_pos_pos. lra.
  - intros x. destruct (Rtotal_order x 0) as [Hx|[->|Hx]].
    + rewrite (trunc_of_neg x Hx), (Rabs_left x Hx).
      pose proof (trunc_pos_bounds (- x) ltac:(lra)) as (A & B). rewrite Rabs_right; lra.
    + rewrite trunc_0, Rminus_0_r, Rabs_R0. lra.
    + rewrite (trunc_of_pos x Hx), (Rabs_right x) by lra.
      pose proof (trunc_pos_bounds x Hx) as (A & B). rewrite Rabs_left1; lra.
Qed.
End Trunc.

(** The functions themselves, and their truncations, meet what is asked of <cmath>. *)
Lemma tanh_bounds x : -1 < tanh x < 1.
Proof.
  unfold tanh, sinh, cosh. pose proof (exp_pos x). pose proof (exp_pos (- x)).
  set (a := exp x) in *. set (b := exp (- x)) in *. clearbody a b.
  replace ((a - b) / 2 / ((a + b) / 2)) with ((a - b) / (a + b)) by (field; lra).
  split; apply (Rmult_lt_reg_r (a + b)); try lra;
    (replace ((a - b) / (a + b) * (a + b)) with (a - b) by (field; lra)); lra.
Qed.
Lemma exp_le x y : x <= y -> exp x <= exp y.
Proof. intros [Hlt|He]; [left; now apply exp_increasing|rewrite He; lra]. Qed.
Lemma ln_nonpos x : 0 < x <= 1 -> ln x <= 0.
Proof.
  intros (A & B). rewrite <- ln_1. destruct (Rle_lt_or_eq_dec _ _ B) as [Hlt|He].
  - left. now apply ln_increasing.
  - rewrite He. lra.
Qed.
Definition TransF (rnd : R -> R) : TransOps R := {|
  nexp := fun x => rnd (exp x); nln := fun x => rnd (ln x); ntanh := fun x => rnd (tanh x);
  nsqrt := fun x => rnd (sqrt x); npow := fun x n => rnd (x ^ n) |}.
Lemma cmath_rounded rnd : rounding rnd -> cmath (TransF rnd).
Proof.
  intros Hr. constructor; cbn [nexp nln ntanh TransF].
  - intros x. rewrite <- (rd_zero rnd Hr). apply (rd_mono rnd Hr). left. apply exp_pos.
  - intros x y Hxy. apply (rd_mono rnd Hr). now apply exp_le.
  - rewrite exp_0. apply (rd_one rnd Hr).
  - intros x Hx. rewrite <- (rd_zero rnd Hr). apply (rd_mono rnd Hr). now apply ln_nonpos.
  - intros x. pose proof (tanh_bounds x). split.
    + rewrite <- (rd_mone rnd Hr). apply (rd_mono rnd Hr). lra.
    + rewrite <- (rd_one rnd Hr). apply (rd_mono rnd Hr). lra.
Qed.
