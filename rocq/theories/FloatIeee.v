(** binary64 with rounding to nearest, ties to even, satisfies the assumptions on the unit. *)
From Coq Require Import Reals Lra Lia.
From Verif Require Import Base Num MathModel DumpModel RoundModel RoundProofs PropDump FloatModel FloatProofs.
Local Open Scope R_scope.

(** Exponent of the last place: 53 binary digits, no place below 2^-1074 *)
Definition place (x : R) : Z := Z.max (expo x - 52) (- 1074).
Definition near_pos (x : R) : R := IZR (rne (x * powerRZ 2 (- place x))) * powerRZ 2 (place x).
Definition round64 (x : R) : R := if Rltb 0 x then near_pos x else if Rltb x 0 then - near_pos (- x) else 0.
(** The largest finite double, and exp, log and tanh without error *)
Definition binary64 : fpu := mkFpu round64 (IZR (2 ^ 53 - 1) * powerRZ 2 971) exp ln tanh (fun x n => x ^ n).

Lemma rne_mono x y : x <= y -> (rne x <= rne y)%Z.
Proof.
  intros L. destruct (Req_dec x y) as [->|N]; [lia|]. pose proof (rne_half x) as A. pose proof (rne_half y) as B.
  destruct (Z_lt_le_dec (rne y) (rne x)) as [C|C]; [|exact C]. exfalso. assert (D : IZR (rne y) + 1 <= IZR (rne x)) by (rewrite <- plus_IZR; apply IZR_le; lia). split_Rabs; lra.
Qed.
Lemma p2_int k : (0 <= k)%Z -> powerRZ 2 k = IZR (2 ^ k).
Proof. intros H. rewrite <- (Z2Nat.id k H). apply p2_nat. Qed.
Lemma near_exact m e : (0 < m < 2 ^ 53)%Z -> (- 1074 <= e)%Z -> near_pos (IZR m * powerRZ 2 e) = IZR m * powerRZ 2 e.
Proof.
  intros Hm He. set (y := IZR m * powerRZ 2 e). pose proof (p2_pos e) as P. assert (M : 1 <= IZR m) by (apply IZR_le; lia).
  assert (Y : 0 < y) by (unfold y; nra). assert (L : (place y <= e)%Z).
  { unfold place. assert (expo y < 53 + e)%Z; [|lia]. apply p2_lt_inv. eapply Rle_lt_trans; [apply (expo_bounds y Y)|]. rewrite p2_add, (p2_int 53) by lia.
    unfold y. apply Rmult_lt_compat_r; [exact P|]. apply IZR_lt. lia. }
  unfold near_pos. replace (y * powerRZ 2 (- place y)) with (IZR (m * 2 ^ (e - place y))).
  - rewrite rne_IZR, mult_IZR, <- p2_int, Rmult_assoc, <- p2_add by lia. unfold y. now replace (e - place (IZR m * powerRZ 2 e) + place (IZR m * powerRZ 2 e))%Z with e by lia.
  - rewrite mult_IZR, <- p2_int by lia. unfold y at 2. now rewrite Rmult_assoc, <- p2_add.
Qed.
Lemma near_repr m e : (0 < m <= 2 ^ 53)%Z -> (- 1074 <= e)%Z -> near_pos (IZR m * powerRZ 2 e) = IZR m * powerRZ 2 e.
Proof.
  intros Hm He. destruct (Z.eq_dec m (2 ^ 53)) as [->|N]; [|apply near_exact; lia].
  replace (IZR (2 ^ 53) * powerRZ 2 e) with (IZR (2 ^ 52) * powerRZ 2 (e + 1)); [apply near_exact; lia|].
  rewrite <- !p2_int by lia. rewrite <- !p2_add. f_equal. lia.
Qed.
Lemma near_le x k : 0 < x <= powerRZ 2 k -> (place x <= k)%Z -> near_pos x <= powerRZ 2 k.
Proof.
  intros (X & L) P. unfold near_pos. replace (powerRZ 2 k) with (IZR (2 ^ (k - place x)) * powerRZ 2 (place x)).
  - apply Rmult_le_compat_r; [left; apply p2_pos|]. apply IZR_le. rewrite <- (rne_IZR (2 ^ (k - place x))). apply rne_mono. rewrite <- p2_int by lia.
    unfold Z.sub. rewrite p2_add. apply Rmult_le_compat_r; [left; apply p2_pos|exact L].
  - rewrite <- p2_int, <- p2_add by lia. f_equal. lia.
Qed.
Lemma near_ge x k : powerRZ 2 k <= x -> (place x <= k)%Z -> powerRZ 2 k <= near_pos x.
Proof.
  intros L P. unfold near_pos. replace (powerRZ 2 k) with (IZR (2 ^ (k - place x)) * powerRZ 2 (place x)).
  - apply Rmult_le_compat_r; [left; apply p2_pos|]. apply IZR_le. rewrite <- (rne_IZR (2 ^ (k - place x))). apply rne_mono. rewrite <- p2_int by lia.
    unfold Z.sub. rewrite p2_add. apply Rmult_le_compat_r; [left; apply p2_pos|exact L].
  - rewrite <- p2_int, <- p2_add by lia. f_equal. lia.
Qed.
Lemma near_nonneg x : 0 < x -> 0 <= near_pos x.
Proof. intros X. unfold near_pos. apply Rmult_le_pos; [|left; apply p2_pos]. apply IZR_le, rne_nonneg. apply Rmult_le_pos; [lra|left; apply p2_pos]. Qed.
Lemma expo_mono x y : 0 < x <= y -> (expo x <= expo y)%Z.
Proof.
  intros (X & L). assert (expo x < expo y + 1)%Z; [|lia]. apply p2_lt_inv. pose proof (expo_bounds x X). pose proof (expo_bounds y ltac:(lra)). lra.
Qed.
Lemma near_mono x y : 0 < x <= y -> near_pos x <= near_pos y.
Proof.
  intros (X & L). pose proof (expo_mono x y (conj X L)) as E. destruct (Z.eq_dec (place x) (place y)) as [Q|Q].
  - unfold near_pos. rewrite Q. apply Rmult_le_compat_r; [left; apply p2_pos|]. apply IZR_le, rne_mono. apply Rmult_le_compat_r; [left; apply p2_pos|exact L].
  - assert (Py : place y = (expo y - 52)%Z /\ (expo x < expo y)%Z /\ (place x <= expo y)%Z) by (unfold place in *; lia). destruct Py as (Py & Ex & Px).
    apply Rle_trans with (powerRZ 2 (expo y)).
    + apply near_le; [|exact Px]. split; [exact X|]. left. eapply Rlt_le_trans; [apply (expo_bounds x X)|]. apply p2_le. lia.
    + apply near_ge; [apply expo_bounds; lra|lia].
Qed.
Lemma near_err x : 0 < x -> Rabs (near_pos x - x) <= powerRZ 2 (place x) / 2.
Proof.
  intros X. pose proof (rne_half (x * powerRZ 2 (- place x))) as Hh. pose proof (p2_pos (place x)) as P. pose proof (p2_opp (place x)) as O. unfold near_pos. set (r := IZR (rne _)) in *.
  replace (r * powerRZ 2 (place x) - x) with (- ((x * powerRZ 2 (- place x) - r) * powerRZ 2 (place x))).
  - rewrite Rabs_Ropp, Rabs_mult, (Rabs_right (powerRZ 2 (place x))) by lra. nra.
  - set (u := powerRZ 2 (place x)) in *. set (v := powerRZ 2 (- place x)) in *. transitivity (r * u - x * (u * v)); [|rewrite O]; ring.
Qed.
Lemma near_idem x : 0 < x -> near_pos x = 0 \/ 0 < near_pos x /\ near_pos (near_pos x) = near_pos x.
Proof.
  intros X. pose proof (near_nonneg x X) as N. destruct (Req_dec (near_pos x) 0) as [->|Z]; [now left|right]. split; [lra|].
  unfold near_pos at 2 3. apply near_repr; [|unfold place; lia]. split.
  - assert (0 <= rne (x * powerRZ 2 (- place x)))%Z by (apply rne_nonneg, Rmult_le_pos; [lra|left; apply p2_pos]).
    destruct (Z.eq_dec (rne (x * powerRZ 2 (- place x))) 0) as [E|]; [|lia]. exfalso. apply Z. unfold near_pos. rewrite E. ring.
  - rewrite <- (rne_IZR (2 ^ 53)). apply rne_mono. rewrite <- p2_int by lia. left. apply Rlt_le_trans with (powerRZ 2 (expo x + 1) * powerRZ 2 (- place x)).
    + apply Rmult_lt_compat_r; [apply p2_pos|apply (expo_bounds x X)].
    + rewrite <- p2_add. apply p2_le. unfold place. lia.
Qed.
Lemma round64_pos x : 0 < x -> round64 x = near_pos x.
Proof. intros X. unfold round64. now rewrite (proj2 (Rltb_true _ _) X). Qed.
Lemma round64_0 : round64 0 = 0.
Proof. unfold round64. now rewrite !(proj2 (Rltb_false 0 0)) by lra. Qed.
Lemma round64_opp x : round64 (- x) = - round64 x.
Proof.
  destruct (Rtotal_order x 0) as [X|[->|X]].
  - rewrite (round64_pos (- x)) by lra. unfold round64. rewrite (proj2 (Rltb_false 0 x)), (proj2 (Rltb_true x 0)) by lra. ring.
  - rewrite Ropp_0, round64_0. ring.
  - rewrite (round64_pos x) by lra. unfold round64. rewrite (proj2 (Rltb_false 0 (- x))), (proj2 (Rltb_true (- x) 0)) by lra. now rewrite Ropp_involutive.
Qed.
Lemma round64_repr m e : (0 <= m <= 2 ^ 53)%Z -> (- 1074 <= e)%Z -> round64 (IZR m * powerRZ 2 e) = IZR m * powerRZ 2 e.
Proof.
  intros Hm He. destruct (Z.eq_dec m 0) as [->|N]; [rewrite Rmult_0_l; apply round64_0|]. rewrite round64_pos; [apply near_repr; lia|].
  apply Rmult_lt_0_compat; [apply IZR_lt; lia|apply p2_pos].
Qed.
Lemma round64_nonneg x : 0 <= x -> 0 <= round64 x.
Proof. intros [X| <-]; [rewrite round64_pos by exact X; now apply near_nonneg|rewrite round64_0; lra]. Qed.
Lemma pow_p2 n : 2 ^ n = powerRZ 2 (Z.of_nat n).
Proof. apply pow_powerRZ. Qed.
Lemma inv_p2 n : / 2 ^ n = powerRZ 2 (- Z.of_nat n).
Proof. rewrite pow_p2. pose proof (p2_opp (Z.of_nat n)) as O. pose proof (p2_pos (Z.of_nat n)). symmetry. apply Rmult_eq_reg_l with (powerRZ 2 (Z.of_nat n)); [|lra]. rewrite O. field. lra. Qed.
Lemma ln2_bound : 52 * ln 2 <= 37.
Proof.
  apply Rnot_lt_le. intros L. assert (A : exp (37 / 832) < exp (ln 2 / 16)) by (apply exp_increasing; lra).
  assert (B : 1 + 37 / 832 < exp (37 / 832)) by (apply exp_ineq1; lra).
  assert (C : exp (ln 2 / 16) ^ 16 = 2).
  { rewrite <- (exp_ln 2) at 2 by lra. replace (ln 2) with (INR 16 * (ln 2 / 16)) at 2 by (cbn; lra). 
    assert (G : forall n z, exp z ^ n = exp (INR n * z)).
    { intros n z. induction n as [|n IH]; [cbn [pow INR]; now rewrite Rmult_0_l, exp_0|]. rewrite S_INR, Rmult_plus_distr_r, Rmult_1_l, exp_plus, <- IH. cbn [pow]. ring. }
    apply G. }
  assert (D : (1 + 37 / 832) ^ 16 <= exp (ln 2 / 16) ^ 16) by (apply pow_incr; lra). rewrite C in D.
  assert (E : 2 < (1 + 37 / 832) ^ 16) by lra. lra.
Qed.

Lemma ieee_binary64 : ieee binary64.
Proof.
  constructor; cbn [fl big fexp fln ftanh binary64].
  - intros x y L. destruct (Rlt_le_dec 0 x) as [X|X]; [rewrite !round64_pos by lra; apply near_mono; lra|].
    destruct (Rle_lt_dec 0 y) as [Y|Y].
    + apply Rle_trans with 0; [|now apply round64_nonneg]. rewrite <- (Ropp_involutive x), round64_opp. pose proof (round64_nonneg (- x)). lra.
    + rewrite <- (Ropp_involutive x), <- (Ropp_involutive y), !(round64_opp (- _)). rewrite !round64_pos by lra. apply Ropp_le_contravar, near_mono. lra.
  - apply round64_opp.
  - assert (X : forall x, 0 < x -> round64 (round64 x) = round64 x).
    { intros x X. rewrite (round64_pos x X). destruct (near_idem x X) as [->|(P & E)]; [apply round64_0|now rewrite round64_pos]. }
    intros x. destruct (Rtotal_order x 0) as [L|[->|L]]; [|now rewrite !round64_0|now apply X]. rewrite <- (Ropp_involutive x), !(round64_opp (- x)), round64_opp. f_equal. apply X. lra.
  - assert (X : forall z, (0 <= z <= 2 ^ 53)%Z -> round64 (IZR z) = IZR z).
    { intros z Hz. pose proof (round64_repr z 0 Hz ltac:(lia)) as E. cbn [powerRZ] in E. now rewrite Rmult_1_r in E. }
    intros z Hz. destruct (Z_lt_le_dec z 0) as [N|N]; [|apply X; lia]. rewrite <- (Z.opp_involutive z), opp_IZR, round64_opp. f_equal. apply X. lia.
  - unfold tiny. rewrite inv_p2. rewrite <- (Rmult_1_l (powerRZ 2 _)). apply round64_repr; lia.
  - unfold eps. rewrite inv_p2. rewrite <- (Rmult_1_l (powerRZ 2 _)). apply round64_repr; lia.
  - apply round64_repr; lia.
  - rewrite !pow_p2. change (Z.of_nat 1023) with (52 + 971)%Z. change (Z.of_nat 1024) with (53 + 971)%Z. rewrite !(p2_add _ 971), !p2_int by lia. pose proof (p2_pos 971) as P.
    rewrite <- p2_int by lia. split; [apply Rmult_le_compat_r; [lra|]|apply Rmult_lt_compat_r; [lra|]]; rewrite ?p2_int by lia; [apply IZR_le|apply IZR_lt]; lia.
  - intros x T. unfold tiny in T. rewrite inv_p2 in T. change (- Z.of_nat 1022)%Z with (- 1022)%Z in T. pose proof (p2_pos (-1022)) as P. assert (X : 0 < x) by lra.
    rewrite round64_pos by exact X. eapply Rle_trans; [now apply near_err|]. rewrite inv_p2. change (- Z.of_nat 53)%Z with (-53)%Z.
    assert (E : place x = (expo x - 52)%Z). { unfold place. assert (-1022 < expo x + 1)%Z; [|lia]. apply p2_lt_inv. pose proof (expo_bounds x X). lra. }
    rewrite E. replace (powerRZ 2 (expo x - 52) / 2) with (powerRZ 2 (expo x) * powerRZ 2 (-53)).
    + apply Rmult_le_compat_r; [left; apply p2_pos|apply (expo_bounds x X)].
    + replace (expo x - 52)%Z with (expo x + -53 + 1)%Z by lia. rewrite p2_S, p2_add. field.
  - intros x ([X| <-] & U); [|apply round64_0]. rewrite inv_p2 in U. change (- Z.of_nat 1075)%Z with (-1075)%Z in U. rewrite round64_pos by exact X.
    assert (E : place x = (-1074)%Z). { unfold place. assert (expo x < -1075)%Z; [|lia]. apply p2_lt_inv. pose proof (expo_bounds x X). lra. }
    unfold near_pos. rewrite E. replace (rne (x * powerRZ 2 (- -1074))) with 0%Z; [ring|]. symmetry. apply rne_unique. left. rewrite Rminus_0_r. pose proof (p2_pos 1074) as P. change (- -1074)%Z with 1074%Z.
    rewrite Rabs_right by (apply Rle_ge, Rmult_le_pos; lra). apply Rlt_le_trans with (powerRZ 2 (-1075) * powerRZ 2 1074); [now apply Rmult_lt_compat_r|]. rewrite <- p2_add. change (-1075 + 1074)%Z with (-1)%Z. assert (Q : powerRZ 2 (-1) = / 2) by (change (/ (2 * 1) = / 2); f_equal; ring). lra.
  - apply exp_0.
  - intros x L. split; [left; apply exp_pos|]. rewrite <- exp_0. now apply exp_le.
  - intros x L. rewrite <- exp_0. now apply exp_le.
  - intros x. pose proof (exp_pos x). lra.
  - intros x (L & U). assert (P : 0 < eps) by apply eps_pos. split.
    + apply Rle_trans with (ln eps); [|destruct L as [L| <-]; [left; now apply ln_increasing|lra]]. unfold eps. rewrite inv_p2. change (- Z.of_nat 52)%Z with (-52)%Z. rewrite p2_exp, ln_exp. pose proof ln2_bound. lra.
    + apply ln_nonpos. lra.
  - intros x. pose proof (tanh_bounds x). lra.
Qed.
