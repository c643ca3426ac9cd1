(** C67: the derivative functions are the derivatives. *)
From Coq Require Import Reals Lra.
From Verif Require Import Base Num RSum MathModel MathProofs MathProofsR LayerModel GradSpec GradProofs DerivModel.
Local Open Scope R_scope.

(** Where [f] has a derivative named after it: [deriv_of f f1 where]. *)
Inductive deriv_of : fn R -> fn R -> (R -> Prop) -> Prop :=
| d_relu : deriv_of FRelu FRelu_1 (fun x => x <> 0)
| d_elu a : deriv_of (FElu a) (FElu_1 a) (fun x => a = 1 \/ x <> 0)
| d_tanh : deriv_of FTanh FTanh_1 (fun _ => True)
| d_sigmoid : deriv_of FSigmoid FSigmoid_1 (fun _ => True).

Lemma opt_elu (a x : R) : 0 <= a -> elu_1_opt a (elu a x) = elu_1 a x.
Proof.
  intros Ha. unfold elu_1_opt, elu_1, elu. cbn [nltb NumR TransR n0 n1 nmul nsub nadd nexp].
  destruct (Rltb 0 x) eqn:E; [now rewrite E|].
  apply Rltb_false in E. assert (exp x <= 1) by (destruct E as [E|E]; [left; rewrite <- exp_0; now apply exp_increasing|right; rewrite E; apply exp_0]).
  destruct (Rltb 0 (a * (exp x - 1))) eqn:E2; [|ring]. apply Rltb_true in E2. nra.
Qed.
Lemma opt_relu (x : R) : relu_1 (relu x) = relu_1 x.
Proof.
  unfold relu_1, relu, nmax. cbn [nltb NumR n0 n1]. destruct (Rltb x 0) eqn:E; [|reflexivity].
  apply Rltb_true in E. destruct (Rltb 0 0) eqn:E0; [apply Rltb_true in E0; lra|]. destruct (Rltb 0 x) eqn:E1; [apply Rltb_true in E1; lra|reflexivity].
Qed.

(** The functions. *)
Theorem c67_values : forall a x : R,
  fn_at FRelu x = Rmax x 0 /\
  (0 < x -> fn_at (FElu a) x = x) /\ (x <= 0 -> fn_at (FElu a) x = a * (exp x - 1)) /\
  fn_at FTanh x = (exp x - exp (- x)) / (exp x + exp (- x)) /\
  fn_at FSigmoid x = / (1 + exp (- x)).
Proof.
  intros a x. cbn [fn_at]. unfold relu, nmax, elu, sigmoid. cbn [nltb NumR TransR n0 n1 nmul nsub nadd ndiv nopp nexp ntanh].
  split; [|split; [|split; [|split]]].
  - unfold Rmax. destruct (Rltb x 0) eqn:E, (Rle_dec x 0) as [L|L]; try reflexivity.
    + apply Rltb_true in E. lra.
    + apply Rltb_false in E. lra.
  - intros L. destruct (Rltb 0 x) eqn:E; [reflexivity|apply Rltb_false in E; lra].
  - intros L. destruct (Rltb 0 x) eqn:E; [apply Rltb_true in E; lra|reflexivity].
  - unfold tanh, sinh, cosh. pose proof (exp_pos x). pose proof (exp_pos (- x)). field. lra.
  - unfold Rdiv. apply Rmult_1_l.
Qed.
Print Assumptions c67_values.

(** Each is the derivative of its function wherever that is differentiable. *)
Theorem c67_derivatives : forall f f1 dom x, deriv_of f f1 dom -> dom x -> derivable_pt_lim (fn_at f) x (fn_at f1 x).
Proof.
  intros f f1 dom x D Hx. destruct D; cbn [fn_at].
  - rewrite <- opt_relu. now apply dlim_relu.
  - unfold elu_1. cbn [nltb NumR TransR n0 n1 nmul nexp]. destruct (Rltb 0 x) eqn:E.
    + apply Rltb_true in E. intros eps He. destruct (dlim_id x eps He) as (dl & Hd).
      assert (P : 0 < Rmin dl x) by (apply Rmin_pos; [apply cond_pos|exact E]). exists (mkposreal _ P). cbn. intros h Hh Hl.
      pose proof (Rmin_l dl x). pose proof (Rmin_r dl x). specialize (Hd h Hh ltac:(lra)). unfold elu. cbn [nltb NumR n0].
      assert (0 < x + h) by (revert Hl; unfold Rabs; destruct (Rcase_abs h); lra).
      destruct (Rltb 0 (x + h)) eqn:E1; [|apply Rltb_false in E1; lra]. destruct (Rltb 0 x) eqn:E2; [exact Hd|apply Rltb_false in E2; lra].
    + apply Rltb_false in E. destruct (Rle_lt_or_eq_dec _ _ E) as [L|L].
      * intros eps He. destruct (dlim_elu_neg a x eps He) as (dl & Hd).
        assert (P : 0 < Rmin dl (- x)) by (apply Rmin_pos; [apply cond_pos|lra]). exists (mkposreal _ P). cbn. intros h Hh Hl.
        pose proof (Rmin_l dl (- x)). pose proof (Rmin_r dl (- x)). specialize (Hd h Hh ltac:(lra)). unfold elu. cbn [nltb NumR TransR n0 n1 nmul nsub nexp].
        assert (x + h < 0) by (revert Hl; unfold Rabs; destruct (Rcase_abs h); lra).
        destruct (Rltb 0 (x + h)) eqn:E1; [apply Rltb_true in E1; lra|]. destruct (Rltb 0 x) eqn:E2; [apply Rltb_true in E2; lra|exact Hd].
      * subst x. destruct Hx as [->|]; [|lra].
        eapply dlim_eq; [apply (dlim_elu 1 0); [lra|now left]|]. rewrite (opt_elu 1 0) by lra.
        unfold elu_1. cbn [nltb NumR TransR n0 n1 nmul nexp]. destruct (Rltb 0 0) eqn:E0; [apply Rltb_true in E0; lra|reflexivity].
  - apply dlim_tanh.
  - apply dlim_sigmoid.
Qed.
Print Assumptions c67_derivatives.

(** The points left out are corners: there is no derivative. *)
Theorem c67_corners : forall l, ~ derivable_pt_lim (fn_at FRelu) 0 l /\ forall a, a <> 1 -> ~ derivable_pt_lim (fn_at (FElu a)) 0 l.
Proof.
  assert (G : forall (f f2 : R -> R) b l, (forall z, 0 < z -> f z = z) -> (forall z, z <= 0 -> f z = f2 z) -> f2 0 = 0 ->
     derivable_pt_lim f2 0 b -> b <> 1 -> ~ derivable_pt_lim f 0 l).
  { intros f f2 b l H1 H2 H0 D2 Hb D. set (e := Rabs (b - 1) / 4). assert (He : 0 < e) by (unfold e; pose proof (Rabs_pos_lt (b - 1) ltac:(lra)); lra).
    destruct (D e He) as (d1 & K1). destruct (D2 e He) as (d2 & K2).
    set (h := Rmin d1 d2 / 2). assert (Hp : 0 < Rmin d1 d2) by (apply Rmin_pos; apply cond_pos).
    assert (Hh : 0 < h) by (unfold h; lra). pose proof (Rmin_l d1 d2). pose proof (Rmin_r d1 d2).
    assert (Ah : Rabs h = h) by (apply Rabs_right; lra). assert (Am : Rabs (- h) = h) by (rewrite Rabs_Ropp; exact Ah).
    pose proof (K1 h ltac:(lra) ltac:(rewrite Ah; unfold h; lra)) as A1.
    pose proof (K1 (- h) ltac:(lra) ltac:(rewrite Am; unfold h; lra)) as A2.
    pose proof (K2 (- h) ltac:(lra) ltac:(rewrite Am; unfold h; lra)) as A3.
    rewrite !Rplus_0_l in *. assert (F0 : f 0 = 0) by (rewrite (H2 0) by lra; exact H0). rewrite F0 in A1, A2. rewrite (H1 h Hh) in A1.
    rewrite (H2 (- h)) in A2 by lra. rewrite H0 in A3.
    set (q := (f2 (- h) - 0) / - h) in *. replace ((h - 0) / h) with 1 in A1 by (field; lra).
    assert (Rabs (b - 1) < 3 * e); [|unfold e in *; pose proof (Rabs_pos (b - 1)); lra].
    replace (b - 1) with (- (q - b) + (q - l) + - (1 - l)) by ring.
    eapply Rle_lt_trans; [apply Rabs_triang|]. eapply Rle_lt_trans; [apply Rplus_le_compat_r, Rabs_triang|]. rewrite !Rabs_Ropp. lra. }
  intros l. split.
  - apply (G _ (fun _ => 0) 0); [| |reflexivity|apply dlim_const|lra].
    + intros z Hz. unfold fn_at, relu, nmax. cbn [nltb NumR n0]. destruct (Rltb z 0) eqn:E; [apply Rltb_true in E; lra|reflexivity].
    + intros z Hz. unfold fn_at, relu, nmax. cbn [nltb NumR n0]. destruct (Rltb z 0) eqn:E; [reflexivity|apply Rltb_false in E; lra].
  - intros a Ha. apply (G _ (fun t => a * (exp t - 1)) (a * exp 0)).
    + intros z Hz. unfold fn_at, elu. cbn [nltb NumR n0]. destruct (Rltb 0 z) eqn:E; [reflexivity|apply Rltb_false in E; lra].
    + intros z Hz. unfold fn_at, elu. cbn [nltb NumR n0]. destruct (Rltb 0 z) eqn:E; [apply Rltb_true in E; lra|reflexivity].
    + rewrite exp_0. ring.
    + apply dlim_elu_neg.
    + rewrite exp_0. lra.
Qed.
Print Assumptions c67_corners.

(** The _opt versions get the value of the function and return its derivative there. *)
Inductive opt_of : fn R -> fn R -> fn R -> Prop :=
| o_relu : opt_of FRelu FRelu_1 FRelu_1
| o_elu a : 0 <= a -> opt_of (FElu a) (FElu_1 a) (FElu_1_opt a)
| o_tanh : opt_of FTanh FTanh_1 FTanh_1_opt
| o_sigmoid : opt_of FSigmoid FSigmoid_1 FSigmoid_1_opt.
Theorem c67_opt_partial : forall f f1 fo x, opt_of f f1 fo -> fn_at fo (fn_at f x) = fn_at f1 x.
Proof. intros f f1 fo x [|a Ha| |]; cbn [fn_at]; [apply opt_relu|now apply opt_elu|reflexivity|reflexivity]. Qed.
Print Assumptions c67_opt_partial.

(** Without 0 <= alpha it is false: the value of elu is then positive left of 0. *)
Theorem c67_opt_refuted : exists a x, fn_at (FElu_1_opt a) (fn_at (FElu a) x) <> fn_at (FElu_1 a) x.
Proof.
  exists (-1), (-1). cbn [fn_at]. unfold elu_1_opt, elu_1, elu. cbn [nltb NumR TransR n0 n1 nmul nsub nadd nexp].
  destruct (Rltb 0 (-1)) eqn:E; [apply Rltb_true in E; lra|].
  assert (exp (-1) < 1) by (rewrite <- exp_0; apply exp_increasing; lra). pose proof (exp_pos (-1)).
  destruct (Rltb 0 (-1 * (exp (-1) - 1))) eqn:E2; [|apply Rltb_false in E2; lra]. lra.
Qed.
Print Assumptions c67_opt_refuted.

(** Arrays: the function of every element, whether or not the result replaces the argument. *)
Theorem c67_arrays : forall (T : Type) (NT : NumOps T) (TT : TransOps T) (d0 : T) (f : fn T) (dst src : list T) n,
  (n <= length dst)%nat -> (n <= length src)%nat ->
  fn_arr f dst src n = Ok (tab n (fun i => fn_at f (nth i src d0)) ++ skipn n dst) /\
  fn_inplace f src n = Ok (tab n (fun i => fn_at f (nth i src d0)) ++ skipn n src).
Proof. intros T NT TT d0 f dst src n Hd Hs. split; [now apply map_into_spec|now apply map_inplace_spec]. Qed.
Print Assumptions c67_arrays.

(** *** Softmax *)
Definition softmax_at (n : nat) (z : nat -> R) (i : nat) : R := exp (z i) / Rsum n (fun j => exp (z j)).
(** [z] with [t] added at place [k]. *)
Definition moved_at (z : nat -> R) (k : nat) (t : R) (j : nat) : R := if (j =? k)%nat then z j + t else z j.

Lemma softmax_jacobian n z i k : (i < n)%nat -> (k < n)%nat ->
  derivable_pt_lim (fun t => softmax_at n (moved_at z k t) i) 0
    (softmax_at n z i * ((if (i =? k)%nat then 1 else 0) - softmax_at n z k)).
Proof.
  intros Hi Hk.
  assert (M0 : forall j, moved_at z k 0 j = z j) by (intros j; unfold moved_at; destruct (j =? k)%nat; ring).
  assert (DE : forall j, derivable_pt_lim (fun t => exp (moved_at z k t j)) 0 (if (j =? k)%nat then exp (z j) else 0)).
  { intros j. unfold moved_at. destruct (j =? k)%nat; [|apply dlim_const].
    eapply dlim_eq; [apply (dlim_comp (fun t => z j + t) exp 0 1)|].
    - eapply dlim_eq; [apply (dlim_plus (fun _ => z j) (fun t => t)); [apply dlim_const|apply dlim_id]|ring].
    - apply derivable_pt_lim_exp.
    - rewrite Rplus_0_r. ring. }
  assert (P : 0 < Rsum n (fun j => exp (z j))) by (apply Rsum_exp_pos; lia).
  assert (S0 : Rsum n (fun j => exp (moved_at z k 0 j)) = Rsum n (fun j => exp (z j))) by (apply Rsum_ext; intros; now rewrite M0).
  eapply dlim_eq.
  - apply (dlim_div (fun t => exp (moved_at z k t i)) (fun t => Rsum n (fun j => exp (moved_at z k t j)))).
    + apply DE.
    + apply (dlim_Rsum n (fun j t => exp (moved_at z k t j)) (fun j => if (j =? k)%nat then exp (z j) else 0)). intros j _. apply DE.
    + rewrite S0. lra.
  - rewrite S0, M0. rewrite (Rsum_single n k (fun j => if (j =? k)%nat then exp (z j) else 0)) by (auto; intros j _ Hj; apply Nat.eqb_neq in Hj; now rewrite Hj).
    rewrite Nat.eqb_refl. unfold softmax_at.
    destruct (Nat.eqb_spec i k) as [->|]; field; lra.
Qed.

(** softmax_1 multiplies the gradients with the Jacobian of softmax, transposed: cell k is the
    sum over j of d softmax_j / d z_k times gradient j. *)
Theorem c67_softmax : forall (tmp dst src grad : list R) n,
  (0 < n)%nat -> (n <= length tmp)%nat -> (n <= length dst)%nat -> (n <= length src)%nat -> (n <= length grad)%nat ->
  let z := fun j => nth j src 0 in
  exists J : nat -> nat -> R,
    (forall j k, (j < n)%nat -> (k < n)%nat -> derivable_pt_lim (fun t => softmax_at n (moved_at z k t) j) 0 (J j k)) /\
    softmax_1 tmp dst src grad n = Ok (tab n (fun k => Rsum n (fun j => J j k * nth j grad 0)) ++ skipn n dst).
Proof.
  intros tmp dst src grad n Hn Ht Hd Hs Hg z.
  exists (fun j k => softmax_at n z j * ((if (j =? k)%nat then 1 else 0) - softmax_at n z k)).
  split; [intros j k Hj Hk; now apply softmax_jacobian|].
  unfold softmax_1. rewrite softmax_R by auto. cbn [bind].
  rewrite (softmax_1_opt_spec 0) by (rewrite ?app_length, ?tab_length; auto; lia).
  f_equal. f_equal. apply tab_ext. intros k Hk. rewrite nsum_Rsum.
  apply Rsum_ext. intros j Hj. rewrite !app_nth1 by (rewrite tab_length; lia). rewrite !nth_tab by assumption.
  unfold softmax_at, z. cbn [nmul nsub n1 n0 NumR]. rewrite (Nat.eqb_sym k j).
  destruct (Nat.eqb_spec j k) as [->|]; ring.
Qed.
Print Assumptions c67_softmax.

(** softmax_1_opt refuses to overwrite the softmax values it reads. *)
Theorem c67_softmax_check : forall (T : Type) (NT : NumOps T) (dst src grad : list T) n,
  softmax_1_opt_checked true dst src grad n = Throw /\
  softmax_1_opt_checked false dst src grad n = softmax_1_opt dst src grad n.
Proof. split; reflexivity. Qed.

(** Nothing refuses to overwrite the gradients, and then the result is wrong. *)
Theorem c67_softmax_over_refuted : exists tmp grad src : list R,
  softmax_1_over tmp grad src 2 <> softmax_1 tmp grad src grad 2.
Proof.
  exists [0; 0], [1; 0], [0; 0].
  destruct (c67_softmax [0; 0] [1; 0] [0; 0] [1; 0] 2 ltac:(lia) ltac:(cbn; lia) ltac:(cbn; lia) ltac:(cbn; lia) ltac:(cbn; lia))
    as (J & D & E). rewrite E.
  assert (J00 : J 0%nat 0%nat = 1 / 4).
  { pose proof (uniqueness_limite _ _ _ _ (D 0%nat 0%nat ltac:(lia) ltac:(lia)) (softmax_jacobian 2 _ 0 0 ltac:(lia) ltac:(lia))) as X.
    rewrite X. unfold softmax_at. cbn. rewrite exp_0. field. }
  assert (O : softmax_1_over [0; 0] [1; 0] [0; 0] 2 = Ok [0; 0]).
  { unfold softmax_1_over. rewrite softmax_R by (cbn; lia). unfold softmax_1_opt_over. cbn. rewrite exp_0. f_equal. f_equal; [field|f_equal; field]. }
  rewrite O. intros X. injection X as X _. cbn in X. rewrite J00 in X. lra.
Qed.
Print Assumptions c67_softmax_over_refuted.

Example c67_hypotheses_met : deriv_of FRelu FRelu_1 (fun x => x <> 0) /\ -2 <> 0 /\ deriv_of (FElu 2) (FElu_1 2) (fun x => 2 = 1 \/ x <> 0) /\ opt_of (FElu 2) (FElu_1 2) (FElu_1_opt 2) /\ (2 <= length [1; 2; 3])%nat.
Proof. repeat split; try constructor; try lra; cbn; auto. Qed.
