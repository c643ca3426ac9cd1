(** How far apart two networks with close parameters predict. *)
From Coq Require Import Reals Lra Lia.
From Verif Require Import Base Num RSum MathModel MathProofs MathProofsR LayerModel GradSpec GradProofs GradChain ModelProofs.
Local Open Scope R_scope.

(** *** Specification *)
Fixpoint largest (l : list R) : R := match l with [] => 0 | x :: l => Rmax (Rabs x) (largest l) end.
(** A layer's parameters are changed by at most [eps], its inputs by at most [e]; the inputs are
    at most [X]: bounds for its outputs and their change. *)
Definition drift1 (eps : R) (l : layer R) (X e : R) : R * R :=
  match knd l with
  | KDense => let n := INR (insz l) in let A := largest (wts l) in
      (n * (A * X) + largest (bias l), n * (A * e + eps * (X + e)) + eps)
  | KAct Relu | KAct Tanh | KAct Linear => (X, e)
  | KAct (Elu alpha) => let m := Rmax 1 (Rabs alpha) in (m * X, m * e)
  | KAct Sigmoid => (1, e)
  | KAct Softmax => (1, exp (2 * e) - 1)
  end.
Fixpoint drift (eps : R) (ls : list (layer R)) (X e : R) : R * R :=
  match ls with [] => (X, e) | l :: ls => let (X, e) := drift1 eps l X e in drift eps ls X e end.

(** *** Lists *)
Definition within_ (X : R) (x : list R) : Prop := forall i, Rabs (nth i x 0) <= X.
Definition apart (e : R) (x y : list R) : Prop := forall i, Rabs (nth i x 0 - nth i y 0) <= e.
Lemma largest_0 l : 0 <= largest l.
Proof. induction l as [|x l IH]; cbn; [lra|]. pose proof (Rmax_r (Rabs x) (largest l)). lra. Qed.
Lemma largest_nth l : within_ (largest l) l.
Proof.
  induction l as [|x l IH]; intros i; cbn [largest]; [destruct i; cbn; rewrite Rabs_R0; lra|].
  destruct i as [|i]; cbn [nth]; [apply Rmax_l|]. eapply Rle_trans; [apply IH|apply Rmax_r].
Qed.
Lemma Rsum_abs n f : Rabs (Rsum n f) <= Rsum n (fun i => Rabs (f i)).
Proof. induction n as [|n IH]; [cbn; rewrite Rabs_R0; lra|]. cbn [Rsum]. eapply Rle_trans; [apply Rabs_triang|]. lra. Qed.
Lemma Rsum_bound n f c : (forall i, (i < n)%nat -> Rabs (f i) <= c) -> Rabs (Rsum n f) <= INR n * c.
Proof. intros B. eapply Rle_trans; [apply Rsum_abs|]. rewrite <- Rsum_const. apply Rsum_le. exact B. Qed.
Lemma tab_within n f X : 0 <= X -> (forall i, (i < n)%nat -> Rabs (f i) <= X) -> within_ X (tab n f).
Proof.
  intros P B i. destruct (Nat.lt_ge_cases i n) as [Hi|Hi]; [rewrite nth_tab by exact Hi; auto|]. rewrite nth_overflow by (now rewrite tab_length). now rewrite Rabs_R0.
Qed.
Lemma tab_apart n f g e : 0 <= e -> (forall i, (i < n)%nat -> Rabs (f i - g i) <= e) -> apart e (tab n f) (tab n g).
Proof.
  intros P B i. destruct (Nat.lt_ge_cases i n) as [Hi|Hi]; [rewrite !nth_tab by exact Hi; auto|]. rewrite !nth_overflow by (now rewrite tab_length). rewrite Rminus_0_r, Rabs_R0. exact P.
Qed.

(** *** Slopes *)
Lemma slope f f' c : (forall x, derivable_pt_lim f x (f' x)) -> (forall x, Rabs (f' x) <= c) -> forall x y, Rabs (f x - f y) <= c * Rabs (x - y).
Proof.
  intros D B. assert (G : forall x y, x < y -> Rabs (f y - f x) <= c * Rabs (y - x)).
  { intros x y L. destruct (MVT_cor2 f f' x y L) as (z & E & _); [intros z _; apply D|]. rewrite E, Rabs_mult. apply Rmult_le_compat_r; [apply Rabs_pos|apply B]. }
  intros x y. destruct (Rtotal_order x y) as [L|[->|L]]; [|rewrite !Rminus_diag_eq, Rabs_R0 by reflexivity; lra|now apply G].
  rewrite (Rabs_minus_sym (f x)), (Rabs_minus_sym x). now apply G.
Qed.
Lemma relu_slope x y : Rabs (relu x - relu y) <= Rabs (x - y).
Proof. unfold relu, nmax. cbn. unfold Rltb. destruct (Rlt_dec x 0), (Rlt_dec y 0); split_Rabs; lra. Qed.
Lemma relu_0 : relu 0 = 0.
Proof. unfold relu, nmax. cbn. unfold Rltb. destruct (Rlt_dec 0 0); lra. Qed.
Lemma exp_le_1 x : x <= 0 -> exp x <= 1.
Proof. intros L. rewrite <- exp_0. destruct L as [L| ->]; [left; now apply exp_increasing|lra]. Qed.
Lemma exp_slope x y : x <= 0 -> y <= 0 -> Rabs (exp x - exp y) <= Rabs (x - y).
Proof.
  assert (G : forall x y, x <= 0 -> y <= x -> Rabs (exp x - exp y) <= Rabs (x - y)).
  { intros a b La Lb. replace (exp b) with (exp a * exp (b - a)) by (rewrite <- exp_plus; f_equal; ring).
    pose proof (exp_ineq1_le (b - a)). pose proof (exp_le_1 (b - a)) as I. pose proof (exp_le_1 a La). pose proof (exp_pos a).
    assert (0 <= 1 - exp (b - a)) by (specialize (I ltac:(lra)); lra). replace (exp a - exp a * exp (b - a)) with (exp a * (1 - exp (b - a))) by ring.
    rewrite Rabs_right, Rabs_right by (try apply Rle_ge; try apply Rmult_le_pos; lra).
    apply Rle_trans with (1 * (1 - exp (b - a))); [apply Rmult_le_compat_r; lra|lra]. }
  intros Lx Ly. destruct (Rle_dec y x) as [L|L]; [now apply G|]. rewrite (Rabs_minus_sym (exp x)), (Rabs_minus_sym x). apply G; lra.
Qed.
Lemma elu_slope alpha x y : Rabs (elu alpha x - elu alpha y) <= Rmax 1 (Rabs alpha) * Rabs (x - y).
Proof.
  pose proof (Rmax_l 1 (Rabs alpha)) as M1. pose proof (Rmax_r 1 (Rabs alpha)) as M2. set (m := Rmax 1 (Rabs alpha)) in *.
  assert (N : forall t, t <= 0 -> Rabs (alpha * (exp t - 1)) <= m * (- t)).
  { intros t Lt. rewrite Rabs_mult. pose proof (exp_slope t 0 Lt (Rle_refl 0)) as E. rewrite exp_0, Rminus_0_r, (Rabs_left1 t) in E by exact Lt.
    apply Rmult_le_compat; try apply Rabs_pos; assumption. }
  assert (G : forall x y, 0 < x -> y <= 0 -> Rabs (x - alpha * (exp y - 1)) <= m * Rabs (x - y)).
  { intros a b La Lb. specialize (N b Lb). rewrite (Rabs_right (a - b)) by lra. eapply Rle_trans; [apply Rabs_triang|]. rewrite Rabs_Ropp, (Rabs_right a) by lra.
    assert (1 * a <= m * a) by (apply Rmult_le_compat_r; lra). lra. }
  unfold elu. cbn. unfold Rltb. destruct (Rlt_dec 0 x) as [Lx|Lx], (Rlt_dec 0 y) as [Ly|Ly].
  - rewrite <- (Rmult_1_l (Rabs (x - y))) at 1. apply Rmult_le_compat_r; [apply Rabs_pos|exact M1].
  - apply G; lra.
  - rewrite Rabs_minus_sym, (Rabs_minus_sym x). apply G; lra.
  - replace (alpha * (exp x - 1) - alpha * (exp y - 1)) with (alpha * (exp x - exp y)) by ring. rewrite Rabs_mult.
    apply Rmult_le_compat; try apply Rabs_pos; [exact M2|apply exp_slope; lra].
Qed.
Lemma elu_0 alpha : elu alpha 0 = 0.
Proof. unfold elu. cbn. unfold Rltb. destruct (Rlt_dec 0 0); [lra|]. rewrite exp_0. ring. Qed.
Lemma tanh_sq x : 0 <= 1 - tanh x * tanh x <= 1.
Proof.
  pose proof (cosh_pos x) as P. pose proof (cosh_sinh x) as E. assert (Q : 1 - tanh x * tanh x = / (cosh x * cosh x)).
  { unfold tanh. replace (1 - sinh x / cosh x * (sinh x / cosh x)) with ((cosh x * cosh x - sinh x * sinh x) / (cosh x * cosh x)) by (field; lra). rewrite E. field. lra. }
  split; [rewrite Q; left; apply Rinv_0_lt_compat; now apply Rmult_lt_0_compat|]. pose proof (Rle_0_sqr (tanh x)) as S. unfold Rsqr in S. lra.
Qed.
Lemma tanh_slope x y : Rabs (tanh x - tanh y) <= Rabs (x - y).
Proof.
  rewrite <- (Rmult_1_l (Rabs (x - y))). apply (slope tanh (fun x => tanh_1_opt (tanh x))); [exact dlim_tanh|]. intros z. unfold tanh_1_opt. cbn. pose proof (tanh_sq z). rewrite Rabs_right; lra.
Qed.
Lemma tanh_00 : tanh 0 = 0.
Proof. unfold tanh, sinh. rewrite Ropp_0. unfold Rdiv. ring. Qed.
Lemma sigmoid_01 x : 0 <= sigmoid x <= 1.
Proof.
  unfold sigmoid. cbn. pose proof (exp_pos (- x)). unfold Rdiv. rewrite Rmult_1_l. split; [left; apply Rinv_0_lt_compat; lra|]. rewrite <- Rinv_1. apply Rinv_le_contravar; lra.
Qed.
Lemma sigmoid_slope x y : Rabs (sigmoid x - sigmoid y) <= Rabs (x - y).
Proof.
  rewrite <- (Rmult_1_l (Rabs (x - y))). apply (slope sigmoid (fun x => sigmoid_1_opt (sigmoid x))); [exact dlim_sigmoid|]. intros z. pose proof (sigmoid_01 z). set (s := sigmoid z) in *. change (sigmoid_1_opt s) with (s * (1 - s)).
  rewrite Rabs_right by (apply Rle_ge, Rmult_le_pos; lra). apply Rle_trans with (1 * 1); [apply Rmult_le_compat; lra|lra].
Qed.

(** *** Softmax *)
Definition sm (n : nat) (x : list R) (k : nat) : R := exp (nth k x 0) / Rsum n (fun j => exp (nth j x 0)).
Lemma Rsum_exp_pos n (x : list R) : (0 < n)%nat -> 0 < Rsum n (fun j => exp (nth j x 0)).
Proof. destruct n as [|n]; [lia|]. intros _. cbn [Rsum]. assert (0 <= Rsum n (fun j => exp (nth j x 0))) by (rewrite <- (Rsum_0 n (fun _ => 0)) by reflexivity; apply Rsum_le; intros; left; apply exp_pos). pose proof (exp_pos (nth n x 0)). lra. Qed.
Lemma Rsum_one n f k : (forall i, 0 <= f i) -> (k < n)%nat -> f k <= Rsum n f.
Proof.
  intros P. induction n as [|n IH]; [lia|]. intros Hk. cbn [Rsum]. assert (0 <= Rsum n f) by (rewrite <- (Rsum_0 n (fun _ => 0)) by reflexivity; apply Rsum_le; intros; apply P).
  destruct (Nat.eq_dec k n) as [->|N]; [lra|]. specialize (IH ltac:(lia)). specialize (P n). lra.
Qed.
Lemma sm_01 n x k : (k < n)%nat -> 0 <= sm n x k <= 1.
Proof.
  intros Hk. pose proof (Rsum_exp_pos n x ltac:(lia)) as P. unfold sm. pose proof (exp_pos (nth k x 0)). split; [left; now apply Rdiv_lt_0_compat|].
  apply (Rmult_le_reg_r (Rsum n (fun j => exp (nth j x 0)))); [exact P|]. unfold Rdiv. rewrite Rmult_assoc, Rinv_l, Rmult_1_r, Rmult_1_l by lra.
  apply (Rsum_one n (fun j => exp (nth j x 0))); [intros; left; apply exp_pos|exact Hk].
Qed.
Lemma sm_ratio n x y e k : apart e x y -> (k < n)%nat -> sm n x k <= exp (2 * e) * sm n y k.
Proof.
  intros A Hk. pose proof (Rsum_exp_pos n x ltac:(lia)) as Px. pose proof (Rsum_exp_pos n y ltac:(lia)) as Py. unfold sm. set (sx := Rsum n (fun j => exp (nth j x 0))) in *. set (sy := Rsum n (fun j => exp (nth j y 0))) in *.
  assert (M : forall a b, Rabs (a - b) <= e -> exp a <= exp e * exp b).
  { intros a b D. rewrite <- exp_plus. assert (L : a <= e + b) by (split_Rabs; lra). destruct L as [L| ->]; [left; now apply exp_increasing|lra]. }
  assert (Q : sy <= exp e * sx). { unfold sx, sy. rewrite <- Rsum_scal_l. apply Rsum_le. intros j _. apply M. rewrite Rabs_minus_sym. apply A. }
  pose proof (M _ _ (A k)) as Qk. pose proof (exp_pos e) as Pe. pose proof (exp_pos (nth k y 0)) as Pk.
  apply (Rmult_le_reg_r (sx * sy)); [now apply Rmult_lt_0_compat|]. replace (exp (nth k x 0) / sx * (sx * sy)) with (exp (nth k x 0) * sy) by (field; lra).
  replace (2 * e) with (e + e) by ring. rewrite exp_plus. replace (exp e * exp e * (exp (nth k y 0) / sy) * (sx * sy)) with ((exp e * exp (nth k y 0)) * (exp e * sx)) by (field; lra).
  apply Rmult_le_compat; try lra. left. apply exp_pos.
Qed.
Lemma apart_sym e x y : apart e x y -> apart e y x.
Proof. intros A i. rewrite Rabs_minus_sym. apply A. Qed.
Lemma sm_apart n x y e k : 0 <= e -> apart e x y -> (k < n)%nat -> Rabs (sm n x k - sm n y k) <= exp (2 * e) - 1.
Proof.
  intros P A Hk. pose proof (sm_ratio n x y e k A Hk) as U. pose proof (sm_ratio n y x e k (apart_sym _ _ _ A) Hk) as V. pose proof (sm_01 n x k Hk) as X. pose proof (sm_01 n y k Hk) as Y.
  pose proof (exp_ineq1_le (2 * e)) as E1. set (q := exp (2 * e)) in *. assert (Q : 0 <= q - 1) by lra.
  assert ((q - 1) * sm n y k <= (q - 1) * 1) by (apply Rmult_le_compat_l; lra). assert ((q - 1) * sm n x k <= (q - 1) * 1) by (apply Rmult_le_compat_l; lra).
  apply Rabs_le. lra.
Qed.

(** *** Layers *)
Record near (eps : R) (l l' : layer R) : Prop := {
  nr_kind : knd l' = knd l; nr_in : insz l' = insz l; nr_out : length (out l') = length (out l);
  nr_wts : knd l = KDense -> apart eps (wts l) (wts l'); nr_bias : knd l = KDense -> apart eps (bias l) (bias l')
}.
Lemma drift1_0 eps l X e : 0 <= eps -> 0 <= X -> 0 <= e -> 0 <= fst (drift1 eps l X e) /\ 0 <= snd (drift1 eps l X e).
Proof.
  intros P PX Pe. unfold drift1. pose proof (largest_0 (wts l)). pose proof (largest_0 (bias l)). pose proof (pos_INR (insz l)).
  destruct (knd l) as [|[|alpha| | | |]]; cbn [fst snd]; try (split; lra).
  - split; apply Rplus_le_le_0_compat; try assumption; repeat (apply Rmult_le_pos; try assumption). repeat apply Rplus_le_le_0_compat; apply Rmult_le_pos; lra.
  - pose proof (Rmax_l 1 (Rabs alpha)). split; apply Rmult_le_pos; lra.
  - pose proof (exp_ineq1_le (2 * e)). lra.
Qed.
Lemma layer_drift eps l l' X e x x' n k : 0 <= eps -> 0 <= X -> 0 <= e -> lshape l n k -> near eps l l' -> length x = n -> length x' = n ->
  within_ X x -> apart e x x' -> within_ (fst (drift1 eps l X e)) (layer_sem l x) /\ apart (snd (drift1 eps l X e)) (layer_sem l x) (layer_sem l' x').
Proof.
  intros P PX Pe Sh N Lx Lx' W A. pose proof (drift1_0 eps l X e P PX Pe) as (D1 & D2). destruct Sh as (S1 & S2 & S3 & S4).
  assert (PW : forall (f : R -> R) c, f 0 = 0 -> 0 <= c -> (forall a b, Rabs (f a - f b) <= c * Rabs (a - b)) ->
    within_ (c * X) (tab (length x) (fun k => f (nth k x 0))) /\ apart (c * e) (tab (length x) (fun k => f (nth k x 0))) (tab (length x') (fun k => f (nth k x' 0)))).
  { intros f c F0 Pc B. rewrite Lx, Lx'. split.
    - apply tab_within; [now apply Rmult_le_pos|]. intros i _. specialize (B (nth i x 0) 0). rewrite F0, !Rminus_0_r in B. eapply Rle_trans; [exact B|]. apply Rmult_le_compat_l; [exact Pc|apply W].
    - apply tab_apart; [now apply Rmult_le_pos|]. intros i _. eapply Rle_trans; [apply B|]. apply Rmult_le_compat_l; [exact Pc|apply A]. }
  unfold layer_sem. rewrite (nr_kind _ _ _ N). unfold drift1 in *. pose proof (nr_wts _ _ _ N) as NW. pose proof (nr_bias _ _ _ N) as NB. destruct (knd l) as [|a]; cbn [fst snd] in *.
  - specialize (NW eq_refl). specialize (NB eq_refl). rewrite S1 in D1, D2. rewrite Lx, Lx', (nr_out _ _ _ N), S1. unfold dense_sem. set (A0 := largest (wts l)) in *. pose proof (largest_0 (wts l)) as PA. split.
    + apply tab_within; [exact D1|]. intros i _. eapply Rle_trans; [apply Rabs_triang|]. rewrite Rplus_comm. apply Rplus_le_compat; [|apply largest_nth].
      apply Rsum_bound. intros j _. rewrite Rabs_mult. apply Rmult_le_compat; try apply Rabs_pos; [apply largest_nth|apply W].
    + apply tab_apart; [exact D2|]. intros i _.
      match goal with |- Rabs (?b + Rsum ?n0 ?f - (?b' + Rsum ?n0 ?g)) <= _ => replace (b + Rsum n0 f - (b' + Rsum n0 g)) with (Rsum n0 (fun i => f i - g i) + (b - b')) by (rewrite Rsum_minus; ring) end.
      eapply Rle_trans; [apply Rabs_triang|]. apply Rplus_le_compat; [|apply NB]. apply Rsum_bound. intros j _. cbv beta.
      match goal with |- Rabs (?w * ?u - ?w' * ?u') <= _ => replace (w * u - w' * u') with (w * (u - u') + (w - w') * u') by ring end.
      eapply Rle_trans; [apply Rabs_triang|]. rewrite !Rabs_mult. apply Rplus_le_compat; apply Rmult_le_compat; try apply Rabs_pos; [apply largest_nth|apply A|apply NW|].
      specialize (W j). specialize (A j). split_Rabs; lra.
  - destruct a as [|alpha| | | |]; cbn [fst snd act_sem] in *.
    + pose proof (PW relu 1 relu_0) as Q. rewrite !Rmult_1_l in Q. apply Q; [lra|]. intros. rewrite Rmult_1_l. apply relu_slope.
    + pose proof (Rmax_l 1 (Rabs alpha)). apply (PW (elu alpha) _ (elu_0 alpha)); [lra|]. apply elu_slope.
    + rewrite Lx, Lx'. change (within_ 1 (tab n (sm n x)) /\ apart (exp (2 * e) - 1) (tab n (sm n x)) (tab n (sm n x'))). split.
      * apply tab_within; [lra|]. intros i Hi. pose proof (sm_01 n x i Hi). rewrite Rabs_right; lra.
      * apply tab_apart; [exact D2|]. intros i Hi. now apply sm_apart.
    + pose proof (PW tanh 1 tanh_00) as Q. rewrite !Rmult_1_l in Q. apply Q; [lra|]. intros. rewrite Rmult_1_l. apply tanh_slope.
    + rewrite Lx, Lx'. split; [apply tab_within; [lra|]; intros i _; pose proof (sigmoid_01 (nth i x 0)); rewrite Rabs_right; lra|].
      apply tab_apart; [exact Pe|]. intros i _. eapply Rle_trans; [apply sigmoid_slope|apply A].
    + auto.
Qed.
Definition run (ls : list (layer R)) (x : list R) : list R := fold_left (fun v l => layer_sem l v) ls x.
Lemma layer_sem_length l n k x : lshape l n k -> length x = n -> length (layer_sem l x) = k.
Proof.
  intros (S1 & S2 & S3 & S4) Lx. unfold layer_sem. destruct (knd l) as [|a]; [unfold dense_sem; now rewrite tab_length|]. rewrite act_sem_length. destruct S4. lia.
Qed.
Lemma near_length eps l l' n k x : lshape l n k -> near eps l l' -> length x = n -> length (layer_sem l' x) = k.
Proof.
  intros (S1 & S2 & S3 & S4) N Lx. unfold layer_sem. rewrite (nr_kind _ _ _ N). destruct (knd l) as [|a]; [unfold dense_sem; now rewrite tab_length, (nr_out _ _ _ N)|].
  rewrite act_sem_length. destruct S4. lia.
Qed.
Lemma run_drift eps ls ls' : 0 <= eps -> Forall2 (near eps) ls ls' -> forall n k X e x x', 0 <= X -> 0 <= e -> nshape ls n k -> length x = n -> length x' = n ->
  within_ X x -> apart e x x' -> length (run ls x) = k /\ length (run ls' x') = k /\ apart (snd (drift eps ls X e)) (run ls x) (run ls' x').
Proof.
  intros P. induction 1 as [|l l' ls ls' N F IH]; intros n k X e x x' PX Pe Sh Lx Lx' W A; cbn [nshape drift run fold_left] in *; [subst; auto|].
  destruct Sh as (j & S1 & S2). destruct (layer_drift eps l l' X e x x' n j P PX Pe S1 N Lx Lx' W A) as (W' & A'). destruct (drift1_0 eps l X e P PX Pe) as (D1 & D2).
  destruct (drift1 eps l X e) as (X1, e1). cbn [fst snd] in *. apply (IH j k X1 e1); auto; [eapply layer_sem_length|eapply near_length]; eauto.
Qed.
Lemma drift1_exact l X : snd (drift1 0 l X 0) = 0.
Proof. unfold drift1. destruct (knd l) as [|[|alpha| | | |]]; cbn [snd]; try ring. rewrite Rmult_0_r, exp_0. ring. Qed.
Lemma drift_exact ls : forall X, snd (drift 0 ls X 0) = 0.
Proof. induction ls as [|l ls IH]; intros X; cbn [drift]; [reflexivity|]. pose proof (drift1_exact l X) as E. destruct (drift1 0 l X 0) as (X1, e1). cbn [snd] in E. subst. apply IH. Qed.
