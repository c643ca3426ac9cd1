(** C92: how far predictions computed with doubles are from the exact ones. *)
From Coq Require Import Reals Lra Lia.
From Verif Require Import Base Num RSum MathModel MathProofs MathProofsR DumpModel LayerModel LossModel GradProofs GradChain OptModel GraphModel GraphProofs ModelModel NodeModel ChainProofs ModelProofs PropGraph PropModel PropMath FloatModel FloatProofs FloatIeee PropFloat DriftProofs.
Local Open Scope R_scope.
Existing Class fpu.
#[local] Existing Instances NumD TransD LimD.

(** *** Specification *)
(** The layer with the same numbers, as reals *)
Definition exact_act (f : act dbl) : act R :=
  match f with Relu => Relu | Elu x => Elu (dval x) | Softmax => Softmax | Tanh => Tanh | Sigmoid => Sigmoid | Linear => Linear end.
Definition exactl (l : layer dbl) : layer R :=
  mkLayer (match knd l with KDense => KDense | KAct f => KAct (exact_act f) end) (insz l)
    (map dval (wts l)) (map dval (bias l)) (map dval (wgrad l)) (map dval (bgrad l)) (map dval (out l)) (map dval (ig l)).
(** exp and tanh of <cmath> have a relative error of at most [del]. *)
Definition accurate (a : fpu) (del : R) : Prop :=
  0 <= del <= / 4 /\ (forall x, Rabs (fexp a x - exp x) <= del * exp x) /\ (forall x, Rabs (ftanh a x - tanh x) <= del * Rabs (tanh x)).
(** A rounding changes a number of size at most [y] by at most [roff y]. *)
Definition uround : R := / 2 ^ 53.
Definition roff (y : R) : R := uround * y + tiny.
Definition rounded_up (y : R) : R := y + roff y.
(** Adding [n] rounded products of size at most [p] to a number of size at most [b]: bounds for the
    sums and for their error *)
Fixpoint summed (n : nat) (p b : R) : R * R :=
  match n with O => (b, 0) | S n => let (s, e) := summed n p b in (rounded_up (s + rounded_up p), e + roff p + roff (s + rounded_up p)) end.
(** The error a layer makes itself, for inputs of size at most [X] *)
Definition round1 (del : R) (l : layer dbl) (X : R) : R :=
  match knd l with
  | KDense => snd (summed (insz l) (largest (map dval (wts l)) * X) (largest (map dval (bias l))))
  | KAct Relu | KAct Linear => 0
  | KAct Tanh => del + roff 1
  | KAct (Elu x) => Rabs (dval x) * (del + 2 * roff 1) + roff (Rabs (dval x))
  | KAct Sigmoid => let k := del + roff (1 + del) in k + roff (1 + k) + roff 1
  | KAct Softmax => let n := INR (insz l) in
      2 * (exp (roff (2 * X)) * (1 + del) - 1) + n * (roff 1 + roff n) + 3 * roff 1
  end.
(** No overflow *)
Definition safe1 (a : fpu) (l : layer dbl) (X : R) : Prop :=
  match knd l with
  | KDense => fst (summed (insz l) (largest (map dval (wts l)) * X) (largest (map dval (bias l)))) <= big a
  | KAct Softmax => 2 * X <= big a /\ (Z.of_nat (insz l) <= 2 ^ 53)%Z
  | _ => True
  end.
(** Inputs of size at most [X], with an error of at most [e] *)
Fixpoint rounded (del : R) (ls : list (layer dbl)) (X e : R) : R * R :=
  match ls with
  | [] => (X, e)
  | l :: ls => let (X1, e1) := drift1 0 (exactl l) X e in rounded del ls X1 (e1 + round1 del l (X + e))
  end.
Fixpoint safe (a : fpu) (del : R) (ls : list (layer dbl)) (X e : R) : Prop :=
  match ls with
  | [] => True
  | l :: ls => safe1 a l (X + e) /\ let (X1, e1) := drift1 0 (exactl l) X e in safe a del ls X1 (e1 + round1 del l (X + e))
  end.
(** Weights, biases and the alpha of ELU layers are finite. *)
Definition finite_layer (a : fpu) (l : layer dbl) : Prop :=
  match knd l with KDense => Forall (fin a) (wts l) /\ Forall (fin a) (bias l) | KAct (Elu x) => fin a x | _ => True end.

(** *** One operation *)
Section Err.
Context (a : fpu) (IE : ieee a) (del : R) (AC : accurate a del).
Notation fl := (fl a). Notation big := (big a). Notation fin := (fin a).
Notation z0 := (DFin false 0).
Lemma unit_pos : 0 < uround /\ uround <= / 4.
Proof.
  unfold uround. split; [apply Rinv_0_lt_compat, pow_lt; lra|]. replace 4 with (2 ^ 2) by ring. apply Rinv_le_contravar; [apply pow_lt; lra|]. apply Rle_pow; [lra|lia].
Qed.
Lemma tiny_small : tiny <= / 4.
Proof. unfold tiny. replace 4 with (2 ^ 2) by ring. apply Rinv_le_contravar; [apply pow_lt; lra|]. apply Rle_pow; [lra|lia]. Qed.
Lemma roff_mono x y : x <= y -> roff x <= roff y.
Proof. intros L. unfold roff. pose proof unit_pos as (P & _). assert (uround * x <= uround * y) by (apply Rmult_le_compat_l; lra). lra. Qed.
Lemma roff_pos x : 0 <= x -> 0 < roff x.
Proof. intros L. unfold roff. pose proof unit_pos as (P & _). pose proof tiny_pos. assert (0 <= uround * x) by (apply Rmult_le_pos; lra). lra. Qed.
Lemma fl_err x : Rabs (fl x - x) <= roff (Rabs x).
Proof.
  assert (G : forall x, 0 <= x -> Rabs (fl x - x) <= roff x).
  { intros y Hy. unfold roff, uround. destruct (Rle_lt_dec tiny y) as [L|L].
    - pose proof (ie_rel a IE y L). pose proof tiny_pos. lra.
    - pose proof (ie_mono a IE 0 y Hy) as M1. pose proof (ie_mono a IE y tiny ltac:(lra)) as M2. rewrite (fl_0 a IE) in M1. rewrite (ie_tiny a IE) in M2.
      assert (0 <= / 2 ^ 53 * y) by (apply Rmult_le_pos; [left; apply unit_pos|lra]). apply Rabs_le. lra. }
  destruct (Rle_dec 0 x) as [L|L]; [rewrite (Rabs_right x) by lra; now apply G|]. rewrite (Rabs_left x) by lra. specialize (G (- x) ltac:(lra)). rewrite (ie_opp a IE) in G.
  replace (fl x - x) with (- (- fl x - - x)) by ring. now rewrite Rabs_Ropp.
Qed.
Definition approx (x : dbl) (r e : R) : Prop := fin x /\ Rabs (dval x - r) <= e.
Lemma fl_big x : Rabs x <= big -> Rabs (fl x) <= big.
Proof. intros L. rewrite (fl_abs a IE). rewrite <- (ie_big a IE). now apply (ie_mono a IE). Qed.
Lemma round_app s r c : Rabs r <= c -> c <= big -> approx (dround a s r) r (roff c).
Proof.
  intros L B. destruct (round_small a IE s r) as (F & V); [apply fl_big; lra|]. split; [exact F|]. rewrite V. eapply Rle_trans; [apply fl_err|now apply roff_mono].
Qed.
Lemma app_weaken x r e f : approx x r e -> e <= f -> approx x r f.
Proof. intros (F & L) M. split; [exact F|lra]. Qed.
Lemma app_size x r e : approx x r e -> Rabs (dval x) <= Rabs r + e.
Proof. intros (_ & L). split_Rabs; lra. Qed.
Lemma app_self x : fin x -> approx x (dval x) 0.
Proof. intros F. split; [exact F|]. rewrite Rminus_diag_eq, Rabs_R0 by reflexivity. lra. Qed.
Lemma app_trans x r e q f : approx x r e -> Rabs (r - q) <= f -> approx x q (e + f).
Proof. intros (F & L) M. split; [exact F|]. split_Rabs; lra. Qed.
Lemma add_app x y r q e f c : approx x r e -> approx y q f -> Rabs (dval x + dval y) <= c -> c <= big -> approx (dadd a x y) (r + q) (e + f + roff c).
Proof.
  intros (Fx & Lx) (Fy & Ly) L B. destruct (add_fin a x y Fx Fy) as (s & ->). destruct (round_app s _ c L B) as (F & V). split; [exact F|]. split_Rabs; lra.
Qed.
Lemma sub_app x y r q e f c : approx x r e -> approx y q f -> Rabs (dval x - dval y) <= c -> c <= big -> approx (dsub a x y) (r - q) (e + f + roff c).
Proof.
  intros (Fx & Lx) (Fy & Ly) L B. destruct (sub_fin a x y Fx Fy) as (s & ->). destruct (round_app s _ c L B) as (F & V). split; [exact F|]. split_Rabs; lra.
Qed.
Lemma mul_app x y c : fin x -> fin y -> Rabs (dval x * dval y) <= c -> c <= big -> approx (dmul a x y) (dval x * dval y) (roff c).
Proof. intros Fx Fy L B. destruct (mul_fin a x y Fx Fy) as (s & ->). now apply round_app. Qed.

(** *** Dense layers *)
Lemma summed_0 n p b : 0 <= p -> 0 <= b -> 0 <= fst (summed n p b) /\ 0 <= snd (summed n p b) /\ fst (summed n p b) <= fst (summed (S n) p b).
Proof.
  intros Pp Pb. assert (G : forall n, 0 <= fst (summed n p b) /\ 0 <= snd (summed n p b)).
  { clear n. induction n as [|n IH]; [cbn; lra|]. cbn [summed]. destruct (summed n p b) as (s, e). cbn [fst snd] in *. pose proof (roff_pos p Pp). assert (0 <= s + rounded_up p) by (unfold rounded_up; lra). pose proof (roff_pos (s + rounded_up p) ltac:(assumption)).
    unfold rounded_up in *. lra. }
  destruct (G n) as (A & B). split; [exact A|]. split; [exact B|]. cbn [summed]. destruct (summed n p b) as (s, e). cbn [fst snd] in *. pose proof (roff_pos p Pp). assert (0 <= s + rounded_up p) by (unfold rounded_up; lra). pose proof (roff_pos (s + rounded_up p) ltac:(assumption)).
  unfold rounded_up in *. lra.
Qed.
Lemma sum_app (b : dbl) (w x : nat -> dbl) A X B n : 0 <= A -> 0 <= X -> fin b -> Rabs (dval b) <= B -> (forall j, (j < n)%nat -> fin (w j) /\ fin (x j) /\ Rabs (dval (w j)) <= A /\ Rabs (dval (x j)) <= X) ->
  fst (summed n (A * X) B) <= big -> approx (nsum_from b n (fun j => nmul (w j) (x j))) (dval b + Rsum n (fun j => dval (w j) * dval (x j))) (snd (summed n (A * X) B)) /\
    Rabs (dval (nsum_from b n (fun j => nmul (w j) (x j)))) <= fst (summed n (A * X) B).
Proof.
  intros PA PX Fb Lb. induction n as [|n IH]; intros H Bg; [cbn; rewrite Rplus_0_r; split; [now apply app_self|exact Lb]|].
  assert (PB : 0 <= B) by (eapply Rle_trans; [apply Rabs_pos|exact Lb]). assert (PP : 0 <= A * X) by now apply Rmult_le_pos.
  destruct (summed_0 n (A * X) B PP PB) as (Q1 & Q2 & Q3).
  destruct (IH (fun j Hj => H j ltac:(lia)) ltac:(lra)) as (As & Ls). rewrite nsum_from_S. cbn [Rsum]. set (acc := nsum_from b n (fun j => nmul (w j) (x j))) in *.
  destruct (H n ltac:(lia)) as (Fw & Fx & Lw & Lx). cbn [summed] in *. destruct (summed n (A * X) B) as (s, e). cbn [fst snd] in *.
  pose proof (roff_pos (A * X) PP) as R1. assert (S1 : 0 <= s + rounded_up (A * X)) by (unfold rounded_up; lra). pose proof (roff_pos _ S1) as R2.
  assert (Lp : Rabs (dval (w n) * dval (x n)) <= A * X) by (rewrite Rabs_mult; apply Rmult_le_compat; try apply Rabs_pos; assumption).
  assert (Mp : approx (dmul a (w n) (x n)) (dval (w n) * dval (x n)) (roff (A * X))) by (apply mul_app; auto; unfold rounded_up in *; lra).
  assert (Sp : Rabs (dval (dmul a (w n) (x n))) <= rounded_up (A * X)) by (pose proof (app_size _ _ _ Mp); unfold rounded_up; lra).
  assert (Sum : Rabs (dval acc + dval (dmul a (w n) (x n))) <= s + rounded_up (A * X)) by (eapply Rle_trans; [apply Rabs_triang|lra]).
  pose proof (add_app _ _ _ _ _ _ _ As Mp Sum ltac:(unfold rounded_up in *; lra)) as Ad. change (nadd acc (nmul (w n) (x n))) with (dadd a acc (dmul a (w n) (x n))).
  split; [replace (dval b + (Rsum n (fun j => dval (w j) * dval (x j)) + dval (w n) * dval (x n))) with (dval b + Rsum n (fun j => dval (w j) * dval (x j)) + dval (w n) * dval (x n)) by ring; exact Ad|].
  destruct As as (Fa & _), Mp as (Fm & _). destruct (add_fin a _ _ Fa Fm) as (t & ->). pose proof (app_size _ _ _ (round_app t _ _ Sum ltac:(unfold rounded_up in *; lra))). unfold rounded_up at 1. lra.
Qed.

(** *** Activations *)
Definition apps (e : R) (y : list dbl) (z : list R) : Prop := length z = length y /\ forall i, (i < length y)%nat -> approx (nth i y z0) (nth i z 0) e.
Lemma fins_nth l i : Forall fin l -> (i < length l)%nat -> fin (nth i l z0).
Proof. intros F L. rewrite Forall_forall in F. apply F, nth_In, L. Qed.
Lemma dval_nth l i : nth i (map dval l) 0 = dval (nth i l z0).
Proof. change 0 with (dval z0) at 1. apply map_nth. Qed.
Lemma tab_apps e n f g : (forall i, (i < n)%nat -> approx (f i) (g i) e) -> apps e (tab n f) (tab n g).
Proof. intros H. split; [now rewrite !tab_length|]. rewrite tab_length. intros i Hi. rewrite !nth_tab by exact Hi. auto. Qed.
Lemma del_pos : 0 <= del <= / 4.
Proof. apply AC. Qed.
Lemma exp_app x : fin x -> dval x <= 0 -> approx (dexp a x) (exp (dval x)) (del + roff 1) /\ 0 <= dval (dexp a x) <= 1.
Proof.
  intros (_ & s & m & ->) L. set (v := dval (DFin s m)) in *. cbn [dexp]. fold v. destruct AC as (Pd & Ae & _). pose proof (ie_exp_neg a IE v L) as B. pose proof (big_1 a IE) as B1.
  pose proof (round_app false (fexp a v) 1 ltac:(rewrite Rabs_right; lra) B1) as Q. pose proof (exp_le_1 v L) as E1. pose proof (exp_pos v) as E0. split.
  - apply app_weaken with (roff 1 + del); [|lra]. eapply app_trans; [exact Q|]. eapply Rle_trans; [apply Ae|]. rewrite <- (Rmult_1_r del) at 2. apply Rmult_le_compat_l; lra.
  - destruct (round_within a IE false (fexp a v) 0 1 B (fl_0 a IE) (fl_1 a IE) ltac:(lra) B1) as (_ & W). exact W.
Qed.
Lemma tanh_app x : fin x -> approx (dtanh a x) (tanh (dval x)) (del + roff 1).
Proof.
  intros (_ & s & m & ->). set (v := dval (DFin s m)) in *. cbn [dtanh]. fold v. destruct AC as (Pd & _ & At). pose proof (ie_tanh a IE v) as B. pose proof (big_1 a IE) as B1.
  pose proof (round_app s (ftanh a v) 1 ltac:(apply Rabs_le; lra) B1) as Q. apply app_weaken with (roff 1 + del); [|lra]. eapply app_trans; [exact Q|]. eapply Rle_trans; [apply At|].
  rewrite <- (Rmult_1_r del) at 2. apply Rmult_le_compat_l; [lra|]. pose proof (tanh_sq v) as T.
  apply Rnot_lt_le. intros C. assert (Q1 : 1 * 1 < Rabs (tanh v) * Rabs (tanh v)) by (apply Rmult_gt_0_lt_compat; lra). rewrite <- Rabs_mult in Q1. rewrite Rabs_right in Q1 by (apply Rle_ge, Rle_0_sqr). lra.
Qed.
Lemma relu_app x : fin x -> approx (relu x) (relu (dval x)) 0.
Proof.
  intros F. pose proof F as (_ & s & m & ->). unfold relu, nmax. change (nltb (DFin s m) n0) with (Rltb (dval (DFin s m)) 0). cbn [nltb NumR n0]. destruct (Rltb (dval (DFin s m)) 0); [|now apply app_self].
  apply (app_self z0). apply (fin_0 a IE).
Qed.
Lemma elu_app al x : fin al -> fin x -> approx (elu al x) (elu (dval al) (dval x)) (Rabs (dval al) * (del + 2 * roff 1) + roff (Rabs (dval al))).
Proof.
  intros Fa F. pose proof del_pos as Pd. pose proof (roff_pos 1 ltac:(lra)) as R1. pose proof (Rabs_pos (dval al)) as P. pose proof (roff_pos _ P) as R2. pose proof (big_1 a IE) as B1.
  assert (T : 0 <= Rabs (dval al) * (del + 2 * roff 1)) by (apply Rmult_le_pos; lra).
  unfold elu. pose proof F as (_ & s & m & E). assert (C : nltb n0 x = Rltb 0 (dval x)) by now rewrite E. rewrite C. cbn [nltb NumR n0].
  destruct (Rltb 0 (dval x)) eqn:Q; [apply app_weaken with 0; [now apply app_self|lra]|]. apply Rltb_false in Q. destruct (exp_app x F Q) as (Ae & Be).
  assert (S : approx (dsub a (dexp a x) (DFin false 1)) (exp (dval x) - 1) (del + roff 1 + 0 + roff 1)).
  { apply sub_app; [exact Ae|apply (app_self (DFin false 1)), (fin_1 a IE)|cbn [dval]; rewrite Rabs_left1; lra|exact B1]. }
  assert (W : Rabs (dval (dsub a (dexp a x) (DFin false 1))) <= 1).
  { destruct Ae as (Fe & _). destruct (sub_fin a _ _ Fe (fin_1 a IE)) as (t & ->). cbn [dval]. pose proof (fl_0 a IE) as F0. pose proof (ie_int a IE (-1) ltac:(discriminate)) as F1.
    destruct (round_within a IE t (dval (dexp a x) - 1) (-1) 0 ltac:(lra) F1 F0 ltac:(lra) ltac:(lra)) as (_ & W). apply Rabs_le. lra. }
  pose proof S as (Fs & Ls). destruct (fin_val a IE al Fa) as (Ba & _). change (nmul al (nsub (nexp x) n1)) with (dmul a al (dsub a (dexp a x) (DFin false 1))). cbn [nmul nsub nexp n1 NumR TransR].
  pose proof (mul_app al _ (Rabs (dval al)) Fa Fs) as Mm. eapply app_weaken; [eapply app_trans; [apply Mm; [|exact Ba]|]|].
  - rewrite Rabs_mult. rewrite <- (Rmult_1_r (Rabs (dval al))) at 2. now apply Rmult_le_compat_l.
  - rewrite <- Rmult_minus_distr_l, Rabs_mult. apply Rmult_le_compat_l; [exact P|exact Ls].
  - lra.
Qed.
Lemma under c y r : 0 < c -> c <= 2 -> big < c * y -> 0 <= y -> tiny <= r -> approx z0 (/ y) r.
Proof.
  intros C1 C2 L P T. split; [apply (fin_0 a IE)|]. cbn [dval]. destruct (ie_range a IE) as (B & _). cbn [pow] in B. change (2 * 2 ^ 1022 <= big) in B.
  assert (Q : 2 ^ 1022 <= y). { assert (c * y <= 2 * y) by (apply Rmult_le_compat_r; lra). lra. } assert (P2 : 0 < 2 ^ 1022) by (apply pow_lt; lra).
  assert (I1 : / y <= tiny) by (apply Rinv_le_contravar; lra). assert (0 < / y) by (apply Rinv_0_lt_compat; lra). rewrite Rabs_left1; lra.
Qed.
Lemma sigmoid_app x : fin x -> let k := del + roff (1 + del) in approx (sigmoid x) (sigmoid (dval x)) (k + roff (1 + k) + roff 1).
Proof.
  intros F k. destruct AC as (Pd & Ae & _). pose proof unit_pos as (U0 & U1). pose proof tiny_pos as T0. pose proof tiny_small as T1. pose proof (big_1 a IE) as B1.
  destruct (opp_fin a x F) as (Fo & Vo). unfold sigmoid. change (ndiv n1 (nadd n1 (nexp (nopp x)))) with (ddiv a (DFin false 1) (dadd a (DFin false 1) (dexp a (dopp x)))).
  cbn [ndiv n1 nadd nexp nopp NumR TransR]. rewrite <- Vo. destruct Fo as (_ & s & m & Eo). rewrite Eo. cbn [dexp]. set (t := dval (DFin s m)). set (E := exp t). pose proof (exp_pos t) as PE. fold E in PE.
  specialize (Ae t). fold E in Ae. set (f := fexp a t) in *. assert (Lf : (1 - del) * E <= f <= (1 + del) * E) by (split_Rabs; lra).
  assert (Pf : 0 < f) by (assert (0 < (1 - del) * E) by (apply Rmult_lt_0_compat; lra); lra). assert (DE : 0 <= del * E) by (apply Rmult_le_pos; lra).
  assert (K0 : 0 <= k) by (unfold k, roff; assert (0 <= uround * (1 + del)) by (apply Rmult_le_pos; lra); lra).
  assert (K1 : k <= 1). { unfold k, roff. assert (uround * (1 + del) <= / 4 * (1 + del)) by (apply Rmult_le_compat_r; lra). lra. }
  pose proof (roff_pos (1 + k) ltac:(lra)) as R1. assert (R2 : tiny <= roff 1) by (unfold roff; lra).
  unfold Rdiv. rewrite Rmult_1_l. destruct (Rle_lt_dec (fl f) big) as [Lb|Lb].
  2: { rewrite (round_over a false f Pf Lb). cbn [dadd ddiv]. cbn. apply under with 2; try lra. assert (~ f <= big). { intros C. pose proof (ie_mono a IE _ _ C) as M. rewrite (ie_big a IE) in M. lra. } nra. }
  rewrite (round_pos a IE f) by lra. pose proof (fl_err f) as Ef. rewrite (Rabs_right f) in Ef by lra. set (g := fl f) in *. assert (Pg : 0 <= g) by (apply (fl_pos a IE); lra).
  assert (Fg : fin (DFin false g)) by (apply (fin_mk a); [lra|apply (ie_idem a IE)]).
  assert (Lg : Rabs (g - E) <= k * (1 + E)).
  { assert (roff f <= uround * ((1 + del) * E) + tiny) by (unfold roff; assert (uround * f <= uround * ((1 + del) * E)) by (apply Rmult_le_compat_l; lra); lra).
    assert (Rabs (g - E) <= del * E + (uround * ((1 + del) * E) + tiny)) by (split_Rabs; lra). unfold k, roff.
    replace ((del + (uround * (1 + del) + tiny)) * (1 + E)) with (del * E + uround * ((1 + del) * E) + tiny + (del + uround * (1 + del) + tiny * E)) by ring.
    assert (0 <= uround * (1 + del)) by (apply Rmult_le_pos; lra). assert (0 <= tiny * E) by (apply Rmult_le_pos; lra). lra. }
  destruct (add_fin a (DFin false 1) (DFin false g) (fin_1 a IE) Fg) as (sg & ->). cbn [dval]. set (D := 1 + E) in *. assert (PD : 1 < D) by (unfold D; lra).
  assert (LD : Rabs (1 + g - D) <= k * D) by (unfold D in *; replace (1 + g - (1 + E)) with (g - E) by ring; exact Lg).
  destruct (Rle_lt_dec (fl (1 + g)) big) as [Lc|Lc].
  2: { rewrite (round_over a sg (1 + g) ltac:(lra) Lc). cbn [ddiv]. cbn. apply under with 2; try lra. assert (~ 1 + g <= big). { intros C. pose proof (ie_mono a IE _ _ C) as M. rewrite (ie_big a IE) in M. lra. } assert (k * D <= 1 * D) by (apply Rmult_le_compat_r; lra). split_Rabs; lra. }
  destruct (round_small a IE sg (1 + g)) as (Fh & Vh); [rewrite Rabs_right; [exact Lc|apply Rle_ge, (fl_pos a IE); lra]|].
  pose proof (fl_err (1 + g)) as Eh. rewrite (Rabs_right (1 + g)) in Eh by lra. assert (H1 : 1 <= fl (1 + g)) by (rewrite <- (fl_1 a IE) at 1; apply (ie_mono a IE); lra). set (h := fl (1 + g)) in *.
  assert (Lh : Rabs (h - D) <= (k + roff (1 + k)) * D).
  { assert (1 + g <= (1 + k) * D) by (split_Rabs; lra). assert (roff (1 + g) <= uround * ((1 + k) * D) + tiny) by (unfold roff; assert (uround * (1 + g) <= uround * ((1 + k) * D)) by (apply Rmult_le_compat_l; lra); lra).
    assert (tiny * 1 <= tiny * D) by (apply Rmult_le_compat_l; lra). unfold roff at 1. replace ((k + (uround * (1 + k) + tiny)) * D) with (k * D + uround * ((1 + k) * D) + tiny * D) by ring. split_Rabs; lra. }
  destruct (div_fin a (DFin false 1) _ (fin_1 a IE) Fh ltac:(rewrite Vh; lra)) as (sd & ->). rewrite Vh. cbn [dval].
  assert (I1 : 0 < / h <= 1) by (split; [apply Rinv_0_lt_compat; lra|rewrite <- Rinv_1; apply Rinv_le_contravar; lra]).
  eapply app_weaken; [eapply app_trans; [apply (round_app sd (1 / h) 1); [unfold Rdiv; rewrite Rmult_1_l, Rabs_right; lra|exact B1]|]|].
  - instantiate (1 := k + roff (1 + k)). replace (1 / h - / D) with ((D - h) * (/ h * / D)) by (field; lra). rewrite Rabs_mult, Rabs_minus_sym.
    assert (ID : 0 < / D) by (apply Rinv_0_lt_compat; lra). rewrite (Rabs_right (/ h * / D)) by (apply Rle_ge, Rmult_le_pos; lra).
    apply Rle_trans with ((k + roff (1 + k)) * D * (/ h * / D)); [apply Rmult_le_compat_r; [apply Rmult_le_pos; lra|exact Lh]|].
    replace ((k + roff (1 + k)) * D * (/ h * / D)) with ((k + roff (1 + k)) * / h) by (field; lra). rewrite <- (Rmult_1_r (k + roff (1 + k))) at 2. apply Rmult_le_compat_l; lra.
  - lra.
Qed.

(** *** Softmax *)
Lemma sums_app (e : nat -> dbl) n N : (n <= N)%nat -> (Z.of_nat N <= 2 ^ 53)%Z -> (forall i, (i < n)%nat -> within a 0 1 (e i)) ->
  approx (nsum_from z0 n e) (Rsum n (fun i => dval (e i))) (INR n * roff (INR N)).
Proof.
  intros HN BN. induction n as [|n IH]; intros W; [cbn [nsum_from Rsum INR]; apply app_weaken with 0; [apply (app_self z0), (fin_0 a IE)|lra]|].
  rewrite nsum_from_S. cbn [Rsum]. specialize (IH ltac:(lia) (fun i Hi => W i ltac:(lia))). destruct (W n ltac:(lia)) as (Fe & Ve).
  destruct (sum_within a IE 0 1 n e ltac:(lia) ltac:(lia) ltac:(lia) (fun i Hi => W i ltac:(lia))) as (_ & Vs). rewrite Z.mul_0_r, Z.mul_1_r, <- INR_IZR_INZ in Vs.
  assert (LN : INR n + 1 <= INR N) by (rewrite <- S_INR; apply le_INR; exact HN). assert (BN' : INR N <= big). { pose proof (big_Z a IE (Z.of_nat N) ltac:(lia)) as Q. rewrite <- INR_IZR_INZ in Q. pose proof (pos_INR N). rewrite Rabs_right in Q; lra. }
  change (nadd (nsum_from z0 n e) (e n)) with (dadd a (nsum_from z0 n e) (e n)).
  eapply app_weaken; [apply add_app with (c := INR N) (1 := IH) (2 := app_self _ Fe); [rewrite Rabs_right; lra|exact BN']|]. rewrite S_INR. lra.
Qed.
Lemma exp_shift x y d : Rabs (x - y) <= d -> Rabs (exp x - exp y) <= (exp d - 1) * exp y.
Proof.
  intros L. pose proof (exp_pos y) as P. replace (exp x - exp y) with ((exp (x - y) - 1) * exp y) by (rewrite Rmult_minus_distr_r, <- exp_plus; replace (x - y + y) with x by ring; ring).
  rewrite Rabs_mult, (Rabs_right (exp y)) by lra. apply Rmult_le_compat_r; [lra|].
  assert (M : forall u v, u <= v -> exp u <= exp v) by (intros u v [Q| ->]; [left; now apply exp_increasing|lra]).
  pose proof (M (x - y) d ltac:(split_Rabs; lra)) as M1. pose proof (M (- d) (x - y) ltac:(split_Rabs; lra)) as M2. rewrite exp_Ropp in M2.
  pose proof (exp_ineq1_le d) as E1. assert (0 <= d) by (pose proof (Rabs_pos (x - y)); lra). assert (I1 : 2 - exp d <= / exp d).
  { apply (Rmult_le_reg_r (exp d)); [lra|]. rewrite Rinv_l by lra. pose proof (Rle_0_sqr (exp d - 1)) as Q. unfold Rsqr in Q. lra. }
  apply Rabs_le. lra.
Qed.
Lemma softmax_app o x n X : (0 < n)%nat -> (Z.of_nat n <= 2 ^ 53)%Z -> length o = n -> length x = n -> Forall fin x -> within_ X (map dval x) -> 2 * X <= big ->
  exists y, stable_softmax o x n = Ok y /\
    apps (2 * (exp (roff (2 * X)) * (1 + del) - 1) + INR n * (roff 1 + roff (INR n)) + 3 * roff 1) y (tab n (sm n (map dval x))).
Proof.
  intros Hn Bn Lo Lx Fx W BX. destruct AC as (Pd & Ae & _). pose proof (roff_pos 1 ltac:(lra)) as R1. pose proof (big_1 a IE) as B1.
  assert (Fi : forall i, (i < n)%nat -> fin (nth i x z0)) by (intros i Hi; apply fins_nth; [exact Fx|lia]).
  assert (Wi : forall i, Rabs (dval (nth i x z0)) <= X) by (intros i; rewrite <- dval_nth; apply W).
  assert (NN : forall i, (i < n)%nat -> number (nth i x z0)). { intros i Hi (s & E). destruct (Fi i Hi) as (_ & t & m & E'). congruence. }
  destruct (max_numbers a z0 x n Hn ltac:(lia) NN) as (m & Hm & Em & Mx).
  destruct (softmax_form a o x n z0 Hn Lo Lx ltac:(eauto)) as (m' & Hm' & Em' & E). rewrite Em in Em'. injection Em' as Em'. cbv zeta in E. rewrite <- Em' in E. clear m' Hm' Em'.
  set (e := fun i => dexp a (dsub a (nth i x z0) (nth m x z0))) in *. eexists. split; [exact E|].
  set (d := roff (2 * X)) in *. set (v := fun i => dval (nth i x z0)). set (ex := fun i => exp (v i - v m)). set (kap := exp d * (1 + del) - 1).
  assert (PX : 0 <= X) by (pose proof (Wi 0%nat); pose proof (Rabs_pos (dval (nth 0 x z0))); lra). assert (Pdd : 0 < d) by (apply roff_pos; lra). pose proof (exp_ineq1_le d) as E1.
  assert (Kp : 0 <= kap). { unfold kap. assert (1 * 1 <= exp d * (1 + del)) by (apply Rmult_le_compat; lra). lra. }
  assert (Mx' : forall i, (i < n)%nat -> v i <= v m). { intros i Hi. specialize (Mx i Hi). unfold v. destruct (Fi i Hi) as (_ & s & k & Ei), (Fi m Hm) as (_ & t & q & Eq). rewrite Ei, Eq in *. cbn [dltb] in Mx. now apply Rltb_false in Mx. }
  assert (ex1 : forall i, (i < n)%nat -> 0 < ex i <= 1) by (intros i Hi; unfold ex; split; [apply exp_pos|apply exp_le_1; specialize (Mx' i Hi); lra]).
  assert (Ei : forall i, (i < n)%nat -> within a 0 1 (e i) /\ Rabs (dval (e i) - ex i) <= kap * ex i + roff 1).
  { intros i Hi. unfold e, ex. destruct (sub_fin a _ _ (Fi i Hi) (Fi m Hm)) as (s & ->). fold (v i) (v m). assert (Ld : Rabs (v i - v m) <= 2 * X) by (pose proof (Wi i); pose proof (Wi m); fold (v i) (v m) in *; split_Rabs; lra).
    pose proof (round_app s (v i - v m) (2 * X) Ld BX) as (Fh & Lh). fold d in Lh. assert (N0 : dval (dround a s (v i - v m)) <= 0).
    { destruct (round_small a IE s (v i - v m)) as (_ & ->); [apply fl_big; lra|]. apply (fl_neg a IE). specialize (Mx' i Hi). lra. }
    set (h := dround a s (v i - v m)) in *. destruct (exp_app h Fh N0) as (_ & V01). pose proof Fh as (_ & sh & mh & Eh). pose proof (exp_shift _ _ _ Lh) as Sh. fold (ex i) in Sh. specialize (Ae (dval h)).
    pose proof (ie_exp_neg a IE (dval h) N0) as N1. assert (Q : Rabs (dval (dexp a h) - fexp a (dval h)) <= roff 1).
    { rewrite Eh in *. cbn [dexp]. destruct (round_app false (fexp a (dval (DFin sh mh))) 1 ltac:(rewrite Rabs_right; lra) B1) as (_ & Q). exact Q. }
    split; [split; [|exact V01]; destruct (exp_app h Fh N0) as ((F & _) & _); exact F|]. fold (ex i). set (z := exp (dval h)) in *. specialize (ex1 i Hi).
    assert (Z1 : z <= exp d * ex i) by (split_Rabs; lra). assert (del * z <= del * (exp d * ex i)) by (apply Rmult_le_compat_l; lra).
    unfold kap. replace ((exp d * (1 + del) - 1) * ex i) with ((exp d - 1) * ex i + del * (exp d * ex i)) by ring. split_Rabs; lra. }
  assert (We : forall i, (i < n)%nat -> within a 0 1 (e i)) by (intros; now apply Ei).
  assert (Em1 : e m = DFin false 1).
  { unfold e. destruct (sub_fin a _ _ (Fi m Hm) (Fi m Hm)) as (t & ->). rewrite Rminus_diag_eq by reflexivity. destruct (round_0 a IE t 0 (fl_0 a IE)) as (t' & ->). cbn [dexp dval]. replace (if t' then - 0 else 0) with 0 by (destruct t'; lra).
    rewrite (ie_exp0 a IE). rewrite (round_pos a IE); [now rewrite (fl_1 a IE)|lra|rewrite (fl_1 a IE); exact B1]. }
  pose proof (sum_ge_1 a IE n e Bn We ltac:(eauto)) as (Fs & (Vs & _)). destruct (sums_app e n n (le_n n) Bn We) as (_ & Ss). set (sum := @nsum_from dbl (NumD a) (DFin false 0) n e) in *.
  set (Sx := Rsum n ex). set (N := INR n) in *. pose proof (roff_pos N (pos_INR n)) as RN. assert (PN : 0 <= N) by apply pos_INR.
  assert (S1 : 1 <= Sx). { apply Rle_trans with (ex m); [unfold ex; rewrite Rminus_diag_eq, exp_0 by reflexivity; lra|]. apply (Rsum_one n ex m); [intros; left; apply exp_pos|exact Hm]. }
  assert (SE : Rabs (Rsum n (fun i => dval (e i)) - Sx) <= kap * Sx + N * roff 1).
  { unfold Sx. rewrite <- Rsum_minus. eapply Rle_trans; [apply Rsum_abs|]. rewrite <- Rsum_scal_l. unfold N. rewrite <- Rsum_const, <- Rsum_plus. apply Rsum_le. intros i Hi. now apply Ei. }
  assert (ST : Rabs (dval sum - Sx) <= kap * Sx + N * (roff 1 + roff N)) by (split_Rabs; lra). set (s := dval sum) in *.
  destruct (div_fin a _ sum (fin_1 a IE) Fs ltac:(fold s; lra)) as (t & Einv). fold s in Einv. assert (I1 : 0 < / s <= 1) by (split; [apply Rinv_0_lt_compat; lra|rewrite <- Rinv_1; apply Rinv_le_contravar; lra]).
  assert (Q1 : 1 / s = / s) by (unfold Rdiv; ring). change (dval (DFin false 1) / s) with (1 / s) in Einv. rewrite Q1 in Einv.
  destruct (round_app t (/ s) 1 ltac:(rewrite Rabs_right; lra) B1) as (Fi' & Li). destruct (round_within a IE t (/ s) 0 1 ltac:(lra) (fl_0 a IE) (fl_1 a IE) ltac:(lra) B1) as (_ & Vi). rewrite <- Einv in Fi', Li, Vi. set (inv := ddiv a (DFin false 1) sum) in *.
  apply tab_apps. intros i Hi. destruct (Ei i Hi) as ((Fe & Ve) & Le). specialize (ex1 i Hi). set (q := dval (e i)) in *.
  eapply app_weaken; [eapply app_trans; [apply (mul_app (e i) inv 1 Fe Fi'); [fold q; rewrite Rabs_right by (apply Rle_ge, Rmult_le_pos; lra); apply Rle_trans with (1 * 1); [apply Rmult_le_compat; lra|lra]|exact B1]|]|].
  - instantiate (1 := roff 1 + (2 * kap + roff 1 + N * (roff 1 + roff N))). fold q.
    assert (SM : sm n (map dval x) i = ex i / Sx).
    { unfold sm. rewrite dval_nth. fold (v i). rewrite (Rsum_ext n (fun j => exp (nth j (map dval x) 0)) (fun j => exp (v m) * ex j)) by (intros j _; rewrite dval_nth; fold (v j); unfold ex; rewrite <- exp_plus; f_equal; ring).
      rewrite Rsum_scal_l. fold Sx. replace (exp (v i)) with (exp (v m) * ex i) by (unfold ex; rewrite <- exp_plus; f_equal; ring). pose proof (exp_pos (v m)). field. split; lra. }
    rewrite SM. replace (q * dval inv - ex i / Sx) with (q * (dval inv - / s) + ((q - ex i) * / s + ex i / Sx * (Sx - s) * / s)) by (field; lra).
    assert (EX : 0 <= ex i / Sx <= 1).
    { split; [apply Rmult_le_pos; [lra|left; apply Rinv_0_lt_compat; lra]|]. apply (Rmult_le_reg_r Sx); [lra|]. unfold Rdiv. rewrite Rmult_assoc, Rinv_l by lra. lra. }
    assert (T1 : Rabs (q * (dval inv - / s)) <= roff 1). { rewrite Rabs_mult, (Rabs_right q) by lra. rewrite <- (Rmult_1_l (roff 1)). apply Rmult_le_compat; try lra. apply Rabs_pos. }
    assert (T2 : Rabs ((q - ex i) * / s) <= kap + roff 1).
    { rewrite Rabs_mult, (Rabs_right (/ s)) by lra. rewrite <- (Rmult_1_r (kap + roff 1)). apply Rmult_le_compat; try lra; [apply Rabs_pos|]. assert (kap * ex i <= kap * 1) by (apply Rmult_le_compat_l; lra). lra. }
    assert (T3 : Rabs (ex i / Sx * (Sx - s) * / s) <= kap + N * (roff 1 + roff N)).
    { rewrite !Rabs_mult, (Rabs_right (/ s)), (Rabs_right (ex i / Sx)) by lra. assert (PNN : 0 <= N * (roff 1 + roff N)) by (apply Rmult_le_pos; lra).
      rewrite <- (Rmult_1_r (kap + N * (roff 1 + roff N))). apply Rmult_le_compat; try lra; [apply Rmult_le_pos; [lra|apply Rabs_pos]|]. rewrite Rabs_minus_sym.
      apply Rle_trans with (ex i / Sx * (kap * Sx + N * (roff 1 + roff N))); [apply Rmult_le_compat_l; lra|].
      replace (ex i / Sx * (kap * Sx + N * (roff 1 + roff N))) with (kap * ex i + ex i / Sx * (N * (roff 1 + roff N))) by (field; lra).
      assert (kap * ex i <= kap * 1) by (apply Rmult_le_compat_l; lra). assert (ex i / Sx * (N * (roff 1 + roff N)) <= 1 * (N * (roff 1 + roff N))) by (apply Rmult_le_compat_r; lra). lra. }
    eapply Rle_trans; [apply Rabs_triang|]. pose proof (Rabs_triang ((q - ex i) * / s) (ex i / Sx * (Sx - s) * / s)). lra.
  - lra.
Qed.

(** *** Layers and networks *)
Lemma exact_shape l n k : lshape l n k -> lshape (exactl l) n k.
Proof.
  intros (S1 & S2 & S3 & S4). unfold lshape, exactl. cbn [insz ig out knd wts wgrad bias bgrad]. rewrite !map_length. split; [exact S1|]. split; [exact S2|]. split; [exact S3|].
  destruct (knd l) as [|f]; [exact S4|]. destruct S4 as (E & P). split; [exact E|]. intros Q. apply P. destruct f; now try discriminate.
Qed.
Lemma round1_0 l X : 0 <= X -> 0 <= round1 del l X.
Proof.
  intros PX. pose proof del_pos as Pd. pose proof (roff_pos 1 ltac:(lra)) as R1. unfold round1. destruct (knd l) as [|[|x| | | |]]; try lra.
  - pose proof (largest_0 (map dval (wts l))). apply summed_0; [now apply Rmult_le_pos|apply largest_0].
  - pose proof (Rabs_pos (dval x)) as P. pose proof (roff_pos _ P). assert (0 <= Rabs (dval x) * (del + 2 * roff 1)) by (apply Rmult_le_pos; lra). lra.
  - cbv zeta. pose proof (pos_INR (insz l)) as Pn. pose proof (roff_pos _ Pn). assert (0 <= INR (insz l) * (roff 1 + roff (INR (insz l)))) by (apply Rmult_le_pos; lra).
    pose proof (roff_pos (2 * X) ltac:(lra)). pose proof (exp_ineq1_le (roff (2 * X))). assert (1 * 1 <= exp (roff (2 * X)) * (1 + del)) by (apply Rmult_le_compat; lra). lra.
  - cbv zeta. pose proof (roff_pos (1 + del) ltac:(lra)). pose proof (roff_pos (1 + (del + roff (1 + del))) ltac:(lra)). lra.
Qed.
Lemma layer_app l n k x X : lshape l n k -> finite_layer a l -> length x = n -> Forall fin x -> 0 <= X -> within_ X (map dval x) -> safe1 a l X ->
  exists y, layer_forward l x = Ok (set_out l y) /\ length y = k /\ apps (round1 del l X) y (layer_sem (exactl l) (map dval x)).
Proof.
  intros (S1 & S2 & S3 & S4) FL Lx Fx PX W SF. unfold finite_layer in FL. unfold layer_forward, layer_sem, safe1, round1 in *. cbn [exactl knd out wts bias].
  destruct (knd l) as [|f].
  - destruct S4 as (L1 & L2 & L3 & L4), FL as (Fw & Fb). rewrite (dense_spec z0) by (rewrite ?S3; lia). cbn [bind]. rewrite S3, skipn_all2, app_nil_r, map_length, Lx by lia. rewrite map_length, S3. rewrite S1 in *.
    eexists. split; [reflexivity|]. split; [apply tab_length|]. unfold dense_sem. apply tab_apps. intros i Hi. rewrite dval_nth.
    rewrite (Rsum_ext n _ (fun j => dval (nth (i * n + j) (wts l) z0) * dval (nth j x z0))) by (intros j _; now rewrite !dval_nth).
    apply (sum_app (nth i (bias l) z0) (fun j => nth (i * n + j) (wts l) z0) (fun j => nth j x z0)); try apply largest_0; auto.
    + apply fins_nth; [exact Fb|lia].
    + rewrite <- dval_nth. apply largest_nth.
    + intros j Hj. split; [apply fins_nth; [exact Fw|nia]|]. split; [apply fins_nth; [exact Fx|lia]|]. rewrite <- !dval_nth. split; [apply largest_nth|apply W].
  - destruct S4 as (L1 & L2). assert (PW : forall (g : dbl -> dbl) (h : R -> R) e, (forall v, fin v -> approx (g v) (h (dval v)) e) ->
      exists y, (o <- map_into g (out l) x (length (out l)) ;; Ok (set_out l o)) = Ok (set_out l y) /\ length y = k /\ apps e y (tab (length (map dval x)) (fun i => h (nth i (map dval x) 0)))).
    { intros g h e G. rewrite (map_into_spec z0) by lia. cbn [bind]. rewrite S3, skipn_all2, app_nil_r by lia. eexists. split; [reflexivity|]. split; [apply tab_length|]. rewrite map_length, Lx, L1.
      apply tab_apps. intros i Hi. rewrite dval_nth. apply G, fins_nth; [exact Fx|lia]. }
    destruct f as [|al| | | |]; cbn [exact_act act_sem act_forward].
    + apply (PW relu relu). intros. now apply relu_app.
    + apply (PW (elu al) (elu (dval al))). intros. now apply elu_app.
    + destruct SF as (B1 & B2). destruct (softmax_app (out l) x n X (L2 eq_refl) ltac:(now rewrite S1 in B2) ltac:(lia) Lx Fx W B1) as (y & E & A). rewrite S3, L1, E. cbn [bind]. exists y. split; [reflexivity|].
      rewrite map_length, Lx, S1. split; [|exact A]. destruct A as (A & _). rewrite tab_length in A. lia.
    + apply (PW ntanh tanh). intros. now apply tanh_app.
    + apply (PW sigmoid sigmoid). intros. now apply sigmoid_app.
    + cbn [bind]. exists x. split; [reflexivity|]. split; [lia|]. split; [apply map_length|]. intros i Hi. rewrite dval_nth. apply app_self, fins_nth; [exact Fx|lia].
Qed.
Lemma apps_fins e y z : apps e y z -> Forall fin y.
Proof. intros (_ & A). apply Forall_forall. intros v I. destruct (In_nth _ _ z0 I) as (i & Hi & <-). now apply A. Qed.
Lemma apps_apart e y z : 0 <= e -> apps e y z -> apart e z (map dval y).
Proof.
  intros P (L & A) i. rewrite dval_nth. destruct (Nat.lt_ge_cases i (length y)) as [Hi|Hi]; [rewrite Rabs_minus_sym; now apply A|]. rewrite !nth_overflow by lia. cbn [dval]. rewrite Rminus_0_r, Rabs_R0. exact P.
Qed.
Lemma within_apart X e x y : within_ X x -> apart e x y -> within_ (X + e) y.
Proof. intros W A i. specialize (W i). specialize (A i). split_Rabs; lra. Qed.
Lemma near_self l : near 0 l l.
Proof. constructor; auto; intros _ i; rewrite Rminus_diag_eq, Rabs_R0 by reflexivity; lra. Qed.
Lemma run_app ls : forall n k X e x r, 0 <= X -> 0 <= e -> nshape ls n k -> Forall (finite_layer a) ls -> length x = n -> Forall fin x -> length r = n -> within_ X r -> apart e r (map dval x) -> safe a del ls X e ->
  exists ls' y, chain_forward ls x = Ok (ls', y) /\ length y = k /\ Forall fin y /\ apart (snd (rounded del ls X e)) (run (map exactl ls) r) (map dval y).
Proof.
  induction ls as [|l ls IH]; intros n k X e x r PX Pe Sh FL Lx Fx Lr W A SF; cbn [nshape safe rounded chain_forward map run fold_left] in *; [exists [], x; subst; auto|].
  destruct Sh as (j & Sl & Sh). destruct SF as (SF1 & SF2). pose proof (within_apart _ _ _ _ W A) as W'. destruct (layer_app l n j x (X + e) Sl (Forall_inv FL) Lx Fx ltac:(lra) W' SF1) as (y & E & Ly & Ay).
  pose proof (drift1_0 0 (exactl l) X e (Rle_refl 0) PX Pe) as (D1 & D2). pose proof (round1_0 l (X + e) ltac:(lra)) as R0. pose proof (exact_shape _ _ _ Sl) as Sl'.
  destruct (layer_drift 0 (exactl l) (exactl l) X e r (map dval x) n j (Rle_refl 0) PX Pe Sl' (near_self _) Lr ltac:(now rewrite map_length) W A) as (W1 & A1).
  destruct (drift1 0 (exactl l) X e) as (X1, e1). cbn [fst snd] in *. rewrite E. cbn [bind]. cbn [set_out out].
  destruct (IH j k X1 (e1 + round1 del l (X + e)) y (layer_sem (exactl l) r) D1 ltac:(lra) Sh (Forall_inv_tail FL) Ly (apps_fins _ _ _ Ay)) as (ls' & z & Ez & Lz & Fz & Az); auto.
  - now apply (layer_sem_length (exactl l) n j).
  - intros i. pose proof (A1 i). pose proof (apps_apart _ _ _ R0 Ay i). split_Rabs; lra.
  - rewrite Ez. cbn [bind]. exists (set_out l y :: ls'), z. auto.
Qed.
End Err.
Notation z0 := (DFin false 0).
Lemma exact_nshape ls : forall n k, nshape ls n k -> nshape (map exactl ls) n k.
Proof. induction ls as [|l ls IH]; intros n k; cbn [nshape map]; [auto|]. intros (j & H1 & H2). exists j. split; [now apply exact_shape|auto]. Qed.
(** The same network computed exactly exists. *)
Lemma exact_network m ls kd lo n k : network m ls kd lo n k -> exists mr kdr lor, network mr (map exactl ls) kdr lor n k.
Proof.
  intros W. exists (mkModel (mgraph m) (map (fun s => (s, SNull)) (map NL (map exactl ls) ++ [NO (MSE 0) (loss_new k 1)]))), (MSE 0), (loss_new k 1). constructor; cbn [mgraph mnodes].
  - rewrite map_length. apply (nw_graph _ _ _ _ _ _ W).
  - rewrite map_length. apply (nw_some _ _ _ _ _ _ W).
  - rewrite map_map. cbn [fst]. apply map_id.
  - apply exact_nshape, (nw_shape _ _ _ _ _ _ W).
  - cbn. now rewrite repeat_length.
Qed.
Lemma predict_app a del draw m ls kd lo n k x : ieee a -> accurate a del -> network m ls kd lo n k -> Forall (finite_layer a) ls -> length x = n -> Forall (fin a) x ->
  safe a del ls (largest (map dval x)) 0 ->
  exists m' y, m_predict (node_ops draw) m x = Ok (m', y) /\ length y = k /\ Forall (fin a) y /\ apart (snd (rounded del ls (largest (map dval x)) 0)) (run (map exactl ls) (map dval x)) (map dval y).
Proof.
  intros IE AC W FL Lx Fx SF.
  assert (A0 : apart 0 (map dval x) (map dval x)) by (intros i; rewrite Rminus_diag_eq, Rabs_R0 by reflexivity; lra).
  destruct (run_app a IE del AC ls n k (largest (map dval x)) 0 x (map dval x) (largest_0 _) (Rle_refl 0) (nw_shape _ _ _ _ _ _ W) FL Lx Fx ltac:(now rewrite map_length) (largest_nth _) A0 SF) as (ls' & y & E & Ly & Fy & Ay).
  destruct (predict_network draw true (length ls) m ls [NO kd lo] x ls' y (nw_graph _ _ _ _ _ _ W)
      (nw_some _ _ _ _ _ _ W) (network_length _ _ _ _ _ _ W) (nw_nodes _ _ _ _ _ _ W) eq_refl E) as (m1 & E1 & _).
  exists m1, y. auto.
Qed.

(** *** Theorems *)
(** A network of finite doubles predicts finite doubles within [rounded] of what the same network
    predicts exactly. *)
Theorem c92_predict : forall a del draw draw' m ls kd lo n k mr kdr lor x, ieee a -> accurate a del ->
  network m ls kd lo n k -> network mr (map exactl ls) kdr lor n k -> Forall (finite_layer a) ls -> length x = n -> Forall (fin a) x ->
  safe a del ls (largest (map dval x)) 0 ->
  exists m' y mr' z, m_predict (node_ops draw) m x = Ok (m', y) /\ m_predict (node_ops draw') mr (map dval x) = Ok (mr', z) /\ length y = k /\ length z = k /\ Forall (fin a) y /\
    forall i, Rabs (dval (nth i y z0) - nth i z 0) <= snd (rounded del ls (largest (map dval x)) 0).
Proof.
  intros a del draw draw' m ls kd lo n k mr kdr lor x IE AC W Wr FL Lx Fx SF. destruct (predict_app a del draw m ls kd lo n k x IE AC W FL Lx Fx SF) as (m' & y & E & Ly & Fy & Ay).
  destruct (c36_predict_value draw' mr _ kdr lor n k (map dval x) Wr ltac:(now rewrite map_length)) as (mr' & Er). exists m', y, mr', (run (map exactl ls) (map dval x)).
  split; [exact E|]. split; [exact Er|]. split; [exact Ly|]. split.
  - clear - Wr Lx. pose proof (nw_shape _ _ _ _ _ _ Wr) as Sh. assert (G : forall ls n x, nshape ls n k -> length x = n -> length (run ls x) = k).
    { clear. induction ls as [|l ls IH]; intros n x; cbn [nshape run fold_left]; [congruence|]. intros (j & H1 & H2) Lx. apply (IH j); [exact H2|]. now apply (layer_sem_length l n j). }
    apply (G _ n); [exact Sh|now rewrite map_length].
  - split; [exact Fy|]. intros i. rewrite <- dval_nth, Rabs_minus_sym. apply Ay.
Qed.
(** A class is told apart by more than twice the bound, exactly or in the computed outputs: both
    predict it. *)
Definition ahead (c k : nat) (e : R) (y : list R) : Prop := forall j, (j < k)%nat -> j <> c -> nth j y 0 + 2 * e < nth c y 0.
Lemma argmax_dbl a y k c : length y = k -> (c < k)%nat -> Forall (fin a) y -> (forall j, (j < k)%nat -> j <> c -> nth j (map dval y) 0 < nth c (map dval y) 0) -> argmax y k = Ok c.
Proof.
  intros Ly Hc Fy M. assert (Fi : forall i, (i < k)%nat -> fin a (nth i y z0)) by (intros i Hi; apply fins_nth; [exact Fy|lia]).
  assert (NN : forall i, (i < k)%nat -> number (nth i y z0)). { intros i Hi (s & E). destruct (Fi i Hi) as (_ & t & q & E'). congruence. }
  destruct (max_numbers a z0 y k ltac:(lia) ltac:(lia) NN) as (b & Hb & Eb & Mb). destruct (max_any a z0 y k ltac:(lia) ltac:(lia)) as (b' & Hb' & Ee & Em & _).
  rewrite Eb in Em. injection Em as Em. unfold argmax. rewrite Ee. f_equal. destruct (Nat.eq_dec b' c) as [|N]; [assumption|]. exfalso. specialize (M b' Hb' N). specialize (Mb c Hc). rewrite !dval_nth in M. rewrite Em in Mb.
  destruct (Fi b' Hb') as (_ & s & q & E1), (Fi c Hc) as (_ & t & w & E2). rewrite E1, E2 in *. cbn [dltb] in Mb. apply Rltb_false in Mb. lra.
Qed.
Theorem c92_decision : forall a del draw draw' m ls kd lo n k mr kdr lor x m' y mr' z c, ieee a -> accurate a del ->
  network m ls kd lo n k -> network mr (map exactl ls) kdr lor n k -> Forall (finite_layer a) ls -> length x = n -> Forall (fin a) x ->
  safe a del ls (largest (map dval x)) 0 ->
  m_predict (node_ops draw) m x = Ok (m', y) -> m_predict (node_ops draw') mr (map dval x) = Ok (mr', z) -> (c < k)%nat ->
  (let e := snd (rounded del ls (largest (map dval x)) 0) in ahead c k e z \/ ahead c k e (map dval y)) ->
  argmax y k = Ok c /\ argmax z k = Ok c.
Proof.
  intros a del draw draw' m ls kd lo n k mr kdr lor x m' y mr' z c IE AC W Wr FL Lx Fx SF Ey Ez Hc M.
  destruct (c92_predict a del draw draw' m ls kd lo n k mr kdr lor x IE AC W Wr FL Lx Fx SF) as (m1 & y1 & mr1 & z1 & E1 & E2 & Ly & Lz & Fy & B). rewrite Ey in E1. injection E1 as <- <-. rewrite Ez in E2. injection E2 as <- <-. cbv zeta in M. set (e := snd _) in *.
  assert (Pe : 0 <= e) by (eapply Rle_trans; [apply Rabs_pos|apply (B 0%nat)]).
  split.
  - apply (argmax_dbl a); auto. intros j Hj N. pose proof (B j) as Bj. pose proof (B c) as Bc. rewrite <- !dval_nth in *. destruct M as [M|M]; specialize (M j Hj N); split_Rabs; lra.
  - destruct (c16_argmax_R z k ltac:(lia) ltac:(lia)) as (b & E & _ & Hb & B1 & _). rewrite E. f_equal. destruct (Nat.eq_dec b c) as [|N]; [assumption|]. specialize (B1 c Hc). pose proof (B b) as Bj. pose proof (B c) as Bc. rewrite <- !dval_nth in *.
    destruct M as [M|M]; specialize (M b Hb N); split_Rabs; lra.
Qed.
(** Two networks of doubles whose parameters differ by at most [eps], as a network and its saved
    and loaded copy do (C91) *)
Theorem c92_perturbed : forall a del draw eps m m1 ls ls1 kd kd1 lo lo1 n k x, ieee a -> accurate a del -> 0 <= eps ->
  network m ls kd lo n k -> network m1 ls1 kd1 lo1 n k -> Forall2 (near eps) (map exactl ls) (map exactl ls1) -> Forall (finite_layer a) ls -> Forall (finite_layer a) ls1 ->
  length x = n -> Forall (fin a) x -> let X := largest (map dval x) in safe a del ls X 0 -> safe a del ls1 X 0 ->
  exists ma y mb y1, m_predict (node_ops draw) m x = Ok (ma, y) /\ m_predict (node_ops draw) m1 x = Ok (mb, y1) /\ Forall (fin a) y /\ Forall (fin a) y1 /\
    forall i, Rabs (dval (nth i y z0) - dval (nth i y1 z0)) <= snd (rounded del ls X 0) + snd (drift eps (map exactl ls) X 0) + snd (rounded del ls1 X 0).
Proof.
  intros a del draw eps m m1 ls ls1 kd kd1 lo lo1 n k x IE AC Pe W W1 N FL FL1 Lx Fx X SF SF1.
  destruct (predict_app a del draw m ls kd lo n k x IE AC W FL Lx Fx SF) as (ma & y & E & Ly & Fy & Ay). destruct (predict_app a del draw m1 ls1 kd1 lo1 n k x IE AC W1 FL1 Lx Fx SF1) as (mb & y1 & E1 & Ly1 & Fy1 & Ay1).
  exists ma, y, mb, y1. split; [exact E|]. split; [exact E1|]. split; [exact Fy|]. split; [exact Fy1|]. intros i. rewrite <- !dval_nth.
  assert (A0 : apart 0 (map dval x) (map dval x)) by (intros j; rewrite Rminus_diag_eq, Rabs_R0 by reflexivity; lra).
  destruct (run_drift eps _ _ Pe N n k X 0 (map dval x) (map dval x) (largest_0 _) (Rle_refl 0) (exact_nshape _ _ _ (nw_shape _ _ _ _ _ _ W)) ltac:(now rewrite map_length) ltac:(now rewrite map_length) (largest_nth _) A0) as (_ & _ & D).
  specialize (Ay i). specialize (Ay1 i). specialize (D i). fold X in Ay, Ay1. split_Rabs; lra.
Qed.
(** Without [safe] nothing holds: finite weights and inputs give NaN where the exact prediction
    is zero. *)
Definition cancel (b : R) : list (layer dbl) := [mkLayer KDense 2 [DFin false b; DFin true b] [z0] [z0; z0] [z0] [z0] [z0; z0]; mkLayer (KAct Linear) 1 [] [] [] [] [z0] [z0]].
Theorem c92_refuted : forall a draw draw', ieee a -> exists m ls kd lo mr kdr lor x m' y mr',
  network m ls kd lo 2 1 /\ network mr (map exactl ls) kdr lor 2 1 /\ Forall (finite_layer a) ls /\ length x = 2%nat /\ Forall (fin a) x /\
  m_predict (node_ops draw) m x = Ok (m', y) /\ isnan (nth 0 y z0) /\ m_predict (node_ops draw') mr (map dval x) = Ok (mr', [0]).
Proof.
  intros a draw draw' IE. set (b := big a). set (ls := cancel b). destruct (c36_built true 2 (le_n 2)) as (s & E & C). destruct C as (H1 & H2 & H3 & H4 & H5).
  assert (W : network (mkModel s (map (fun q => (q, SNull)) (map NL ls ++ [NO (MSE z0) (loss_new 1 1)]))) ls (MSE z0) (loss_new 1 1) 2 1).
  { constructor; cbn [mgraph mnodes ls cancel length]; [exact (is_chain_built _ _ true 2 E (le_n 2) H1 H2 H3 H4 H5)|lia|reflexivity| |reflexivity].
    cbn [nshape]. exists 1%nat. split; [unfold lshape; cbn; auto 10|]. exists 1%nat. split; [|reflexivity]. unfold lshape. cbn. split; [auto|]. split; [auto|]. split; [auto|]. split; [auto|]. lia. }
  destruct (exact_network _ _ _ _ _ _ W) as (mr & kdr & lor & Wr). pose proof (big_1 a IE) as B1. fold b in B1.
  assert (F2 : fin a (DFin false 2)) by (apply (fin_mk a); [pose proof (big_Z a IE 2 ltac:(discriminate)) as Q; rewrite Rabs_right in Q; lra|apply (ie_int a IE 2); discriminate]).
  assert (Fb : forall t, fin a (DFin t b)) by (intros t; apply (fin_mk a); [unfold b in *; lra|apply (ie_big a IE)]).
  assert (Ov : big a < fl a (b * 2)).
  { assert (T : tiny <= b * 2) by (pose proof tiny_1; lra). pose proof (ie_rel a IE _ T) as Q. pose proof unit_pos as (U1 & U2). unfold uround in *. assert (b * 2 * / 2 ^ 53 <= b * 2 * / 4) by (apply Rmult_le_compat_l; lra). fold b. split_Rabs; lra. }
  assert (M1 : dmul a (DFin false b) (DFin false 2) = DInf false) by (apply round_over; [cbn; lra|exact Ov]).
  assert (M2 : dmul a (DFin true b) (DFin false 2) = DInf true).
  { change (dround a true (- b * 2) = DInf true). unfold dround. replace (- b * 2) with (- (b * 2)) by ring. rewrite (ie_opp a IE), Rabs_Ropp, Rabs_right by (unfold b in *; lra). rewrite (proj2 (Rltb_true _ _) Ov). now rewrite (proj2 (Rltb_true _ _)) by lra. }
  assert (EF : exists ls', chain_forward ls [DFin false 2; DFin false 2] = Ok (ls', [dnan])).
  { unfold ls, cancel. cbn [chain_forward layer_forward knd]. rewrite (dense_spec z0) by (cbn; lia). cbn [bind out length wts bias tab map seq].
    match goal with |- context [nsum_from ?z ?q ?f] => replace (nsum_from z q f) with dnan end; [cbn; eauto|]. rewrite !nsum_from_S.
    change (dnan = dadd a (dadd a z0 (dmul a (DFin false b) (DFin false 2))) (dmul a (DFin true b) (DFin false 2))). now rewrite M1, M2. }
  destruct EF as (ls' & EF). destruct (predict_network draw true (length ls) _ ls [NO (MSE z0) (loss_new 1 1)] _ ls' _ (nw_graph _ _ _ _ _ _ W) (nw_some _ _ _ _ _ _ W) (network_length _ _ _ _ _ _ W) (nw_nodes _ _ _ _ _ _ W) eq_refl EF) as (m1 & E1 & _).
  destruct (c36_predict_value draw' mr _ kdr lor 2 1 (map dval [DFin false 2; DFin false 2]) Wr eq_refl) as (mr' & Er).
  do 11 eexists. split; [exact W|]. split; [exact Wr|]. split; [|split; [|split; [|split; [exact E1|split; [now exists false|]]]]].
  - apply Forall_cons; [|apply Forall_cons; [exact Logic.I|constructor]]. unfold finite_layer. cbn [knd wts bias]. split; [apply Forall_cons; [apply Fb|apply Forall_cons; [apply Fb|constructor]]|apply Forall_cons; [apply (fin_0 a IE)|constructor]].
  - reflexivity.
  - apply Forall_cons; [exact F2|apply Forall_cons; [exact F2|constructor]].
  - rewrite Er. do 2 f_equal. cbn. f_equal. ring.
Qed.

(** *** The hypotheses are met *)
Lemma accurate_64 : accurate binary64 0.
Proof. split; [lra|]. cbn [fexp ftanh binary64]. split; intros x; rewrite Rminus_diag_eq, Rabs_R0 by reflexivity; lra. Qed.
(** A dense layer of weights 1 and -w and a softmax layer *)
Definition err_ls (w : R) : list (layer dbl) := [mkLayer KDense 1 [DFin false 1; DFin true w] [z0; z0] [z0; z0] [z0; z0] [z0; z0] [z0]; mkLayer (KAct Softmax) 2 [] [] [] [] [z0; z0] [z0; z0]].
Lemma unit_small : uround <= / 10 ^ 15 /\ tiny <= / 10 ^ 15.
Proof.
  assert (P : 10 ^ 15 <= 2 ^ 53) by lra. assert (Q : 2 ^ 53 <= 2 ^ 1022) by (apply Rle_pow; [lra|lia]). unfold uround, tiny. split; apply Rinv_le_contravar; lra.
Qed.
Lemma exp_small t : 0 <= t <= / 2 -> exp t <= 1 + 2 * t.
Proof.
  intros H. pose proof (exp_ineq1_le (- t)) as Q. rewrite exp_Ropp in Q. pose proof (exp_pos t) as P. cut (~ 1 + 2 * t < exp t); [lra|]. intros C. assert (M : (1 + - t) * exp t <= 1) by (apply Rle_trans with (/ exp t * exp t); [apply Rmult_le_compat_r; lra|rewrite Rinv_l; lra]).
  assert ((1 - t) * (1 + 2 * t) >= 1) by (assert (0 <= t * (1 - 2 * t)) by (apply Rmult_le_pos; lra); lra). assert ((1 - t) * (1 + 2 * t) < (1 - t) * exp t) by (apply Rmult_lt_compat_l; lra). lra.
Qed.
Lemma err_bound a (w : R) : ieee a -> 1 <= w <= 2 -> safe a 0 (err_ls w) 1 0 /\ snd (rounded 0 (err_ls w) 1 0) <= / 10 ^ 13.
Proof.
  intros IE Hw. unfold err_ls. cbn [safe rounded]. unfold safe1, round1. cbn [knd insz wts bias map dval].
  assert (LW : forall z, largest [1; - w] * z = w * z) by (intros z; cbn [largest]; rewrite Rabs_Ropp, !Rabs_right, (Rmax_left w 0), Rmax_right by lra; reflexivity).
  assert (LB : largest [0; 0] = 0) by (cbn [largest]; rewrite Rabs_R0; rewrite !(Rmax_left 0 0) by lra; reflexivity).
  unfold drift1. cbn [exactl knd insz wts bias map dval exact_act]. rewrite !LW, LB. cbn [summed fst snd INR]. rewrite ?Rplus_0_l, ?Rplus_0_r, ?Rmult_1_r, ?Rmult_0_r, ?Rmult_0_l, ?Rplus_0_l, ?Rplus_0_r, ?Rmult_1_r, ?Rmult_0_r, ?Rplus_0_l, ?Rplus_0_r, ?Rmult_1_l.
  pose proof unit_small as (U1 & T1). pose proof unit_pos as (U0 & _). pose proof tiny_pos as T0. set (h := / 10 ^ 15) in *. assert (Eh : / 10 ^ 13 = 100 * h) by (unfold h; field). assert (Hh : 0 < h <= / 1000000) by (unfold h; lra). rewrite Eh. clearbody h.
  assert (RF : forall y c, 0 <= y <= c -> 0 <= roff y <= (c + 1) * h).
  { intros y c Hy. unfold roff. assert (uround * y <= h * c) by (apply Rmult_le_compat; lra). assert (0 <= uround * y) by (apply Rmult_le_pos; lra). lra. }
  pose proof (RF w 2 ltac:(lra)) as A1. assert (A2 : 1 <= rounded_up w <= 3) by (unfold rounded_up; lra). pose proof (RF (rounded_up w) 3 ltac:(lra)) as A3. set (e1 := roff w + roff (rounded_up w)) in *. assert (A4 : 0 <= e1 <= 7 * h) by (unfold e1; lra).
  pose proof (big_Z a IE 16 ltac:(discriminate)) as B. rewrite Rabs_right in B by lra. split.
  - split; [unfold rounded_up at 1; lra|]. split; [|exact Logic.I]. split; [lra|lia].
  - pose proof (RF (2 * (w + e1)) 5 ltac:(lra)) as A5. pose proof (RF 1 1 ltac:(lra)) as A6. pose proof (RF (1 + 1) 2 ltac:(lra)) as A7.
    pose proof (exp_small (2 * e1) ltac:(lra)) as X1. pose proof (exp_small (roff (2 * (w + e1))) ltac:(lra)) as X2. lra.
Qed.
Lemma err_network (a : fpu) w : exists m, network m (err_ls w) (MSE z0) (loss_new 2 1) 1 2.
Proof.
  destruct (c36_built true 2 (le_n 2)) as (s & E & C). destruct C as (H1 & H2 & H3 & H4 & H5).
  match goal with |- exists m, network m ?ls _ _ _ _ => exists (mkModel s (map (fun q => (q, SNull)) (map NL ls ++ [NO (MSE z0) (loss_new 2 1)]))) end.
  constructor; cbn [mgraph mnodes err_ls length]; [exact (is_chain_built _ _ true 2 E (le_n 2) H1 H2 H3 H4 H5)|lia|reflexivity| |reflexivity].
  cbn [nshape]. exists 2%nat. split; [unfold lshape; cbn; auto 10|]. exists 2%nat. split; [|reflexivity]. unfold lshape. cbn. split; [auto|]. split; [auto|]. split; [auto|]. split; [auto|]. intros _. lia.
Qed.
Lemma err_finite w : fin binary64 (DFin true w) -> Forall (finite_layer binary64) (err_ls w).
Proof.
  intros F. pose proof ieee_binary64 as IE. apply Forall_cons; [|apply Forall_cons; [exact Logic.I|constructor]]. unfold finite_layer. cbn [knd wts bias].
  split; [apply Forall_cons; [apply (fin_1 _ IE)|apply Forall_cons; [exact F|constructor]]|apply Forall_cons; [apply (fin_0 _ IE)|apply Forall_cons; [apply (fin_0 _ IE)|constructor]]].
Qed.
Lemma err_input : largest (map dval [DFin false 1]) = 1.
Proof. cbn. rewrite Rabs_right, Rmax_left; lra. Qed.
(** The hypotheses of [c92_predict] and [c92_decision]: the error is at most 10^-13, and the first
    class is ahead. *)
Example c92_met : exists m mr kdr lor, ieee binary64 /\ accurate binary64 0 /\ network m (err_ls 2) (MSE z0) (@loss_new dbl (NumD binary64) 2 1) 1 2 /\ network mr (map exactl (err_ls 2)) kdr lor 1 2 /\
  Forall (finite_layer binary64) (err_ls 2) /\ Forall (fin binary64) [DFin false 1] /\
  safe binary64 0 (err_ls 2) (largest (map dval [DFin false 1])) 0 /\ snd (rounded 0 (err_ls 2) (largest (map dval [DFin false 1])) 0) <= / 10 ^ 13 /\
  exists mr' z, m_predict (node_ops (fun _ => 0)) mr (map dval [DFin false 1]) = Ok (mr', z) /\ ahead 0 2 (snd (rounded 0 (err_ls 2) (largest (map dval [DFin false 1])) 0)) z.
Proof.
  pose proof ieee_binary64 as IE. destruct (err_network binary64 2) as (m & W). destruct (exact_network _ _ _ _ _ _ W) as (mr & kdr & lor & Wr). destruct (err_bound binary64 2 IE ltac:(lra)) as (SF & B). rewrite err_input.
  exists m, mr, kdr, lor. split; [exact IE|]. split; [exact accurate_64|]. split; [exact W|]. split; [exact Wr|]. split; [apply err_finite, (b64_int 2); lia|]. split; [apply Forall_cons; [apply (fin_1 _ IE)|constructor]|].
  split; [exact SF|]. split; [exact B|]. destruct (c36_predict_value (fun _ => 0) mr _ kdr lor 1 2 (map dval [DFin false 1]) Wr eq_refl) as (mr' & Er). exists mr'. eexists. split; [exact Er|].
  intros j Hj N. assert (j = 1%nat) by lia. subst j. set (e := snd _) in *. clearbody e. cbn. replace (0 + (0 + 1 * 1)) with 1 by ring. replace (0 + (0 + - (2) * 1)) with (- (2)) by ring.
  assert (E2 : exp (- (2)) <= / 3) by (rewrite exp_Ropp; apply Rinv_le_contravar; [lra|pose proof (exp_ineq1_le 2); lra]). pose proof (exp_ineq1_le 1) as E1. pose proof (exp_pos (- (2))) as P2. set (p := exp 1) in *. set (q := exp (- (2))) in *.
  assert (D : 0 < 0 + p + q) by lra. assert (T : / 10 ^ 13 <= / 10) by (apply Rinv_le_contravar; lra). apply (Rmult_lt_reg_r (0 + p + q)); [exact D|]. unfold Rdiv. rewrite Rmult_plus_distr_r, !Rmult_assoc, Rinv_l, !Rmult_1_r by lra.
  assert (e * (0 + p + q) <= / 10 * (0 + p + q)) by (apply Rmult_le_compat_r; lra). lra.
Qed.
(** The hypotheses of [c92_perturbed]: a weight changed by an eighth *)
Example c92_perturbed_met : let x := [DFin false 1] in let X := largest (map dval x) in exists m m1,
  network m (err_ls 2) (MSE z0) (@loss_new dbl (NumD binary64) 2 1) 1 2 /\ network m1 (err_ls (15 * powerRZ 2 (-3))) (MSE z0) (@loss_new dbl (NumD binary64) 2 1) 1 2 /\
  Forall2 (near (/ 8)) (map exactl (err_ls 2)) (map exactl (err_ls (15 * powerRZ 2 (-3)))) /\ Forall (finite_layer binary64) (err_ls 2) /\ Forall (finite_layer binary64) (err_ls (15 * powerRZ 2 (-3))) /\
  Forall (fin binary64) x /\ safe binary64 0 (err_ls 2) X 0 /\ safe binary64 0 (err_ls (15 * powerRZ 2 (-3))) X 0.
Proof.
  intros x X. pose proof ieee_binary64 as IE. destruct (err_network binary64 2) as (m & W). destruct (err_network binary64 (15 * powerRZ 2 (-3))) as (m1 & W1). exists m, m1.
  assert (E : 15 * powerRZ 2 (-3) = 15 / 8) by (change (15 * / 2 ^ 3 = 15 / 8); field). pose proof (big_Z _ IE 16 ltac:(discriminate)) as B. rewrite Rabs_right in B by lra.
  split; [exact W|]. split; [exact W1|]. split; [|split; [apply err_finite, (b64_int 2); lia|split; [apply err_finite, (b64 15 (-3)); [lia|lia|rewrite E; lra]|split; [apply Forall_cons; [apply (fin_1 _ IE)|constructor]|unfold X, x; rewrite err_input; split; [apply (err_bound _ 2 IE); lra|apply (err_bound _ _ IE); rewrite E; lra]]]]].
  rewrite E. cbn [map err_ls exactl]. apply Forall2_cons; [|apply Forall2_cons; [|apply Forall2_nil]].
  - constructor; try reflexivity; intros _ i; cbn [exactl wts bias map dval]; destruct i as [|[|[|i]]]; cbn [nth]; apply Rabs_le; lra.
  - constructor; try reflexivity; discriminate.
Qed.
Print Assumptions c92_predict.
Print Assumptions c92_decision.
Print Assumptions c92_perturbed.
Print Assumptions c92_refuted.
