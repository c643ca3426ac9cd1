(** C14, C21, C22: gradients of dense layers, activation layers and whole stacks. *)
From Verif Require Import Base Num RSum MathModel MathProofs MathProofsR LayerModel
  GradSpec GradProofs GradChain.
From Coq Require Import Reals Lra.
Local Open Scope R_scope.

(** *** C14 *)
(** Along any differentiable curves of inputs, weights and biases the output is
    differentiable; backward returns W^T g, adds g_i*x_j and g_i, and these are exactly the
    coefficients of the derivative of <g, output>. *)
Theorem c14_dense_backward : forall (l : layer R) n k (cx cw cb : R -> list R) dx dw db g,
  knd l = KDense -> layer_shape l n k -> length g = k ->
  vec_deriv n cx dx -> vec_deriv (k * n) cw dw -> vec_deriv k cb db ->
  cw 0 = wts l -> cb 0 = bias l ->
  exists y dy l1 l2,
    (forall t, exists lt, layer_forward
       (mkLayer KDense (insz l) (cw t) (cb t) (wgrad l) (bgrad l) (out l) (ig l)) (cx t) = Ok lt
       /\ out lt = y t) /\
    vec_deriv k y dy /\
    layer_forward l (cx 0) = Ok l1 /\ layer_backward l1 (cx 0) g = Ok l2 /\
    (forall j, (j < n)%nat ->
       nth j (ig l2) 0 = Rsum k (fun i => nth (i * n + j) (wts l) 0 * nth i g 0)) /\
    (forall i j, (i < k)%nat -> (j < n)%nat -> nth (i * n + j) (wgrad l2) 0
       = nth (i * n + j) (wgrad l) 0 + nth i g 0 * nth j (cx 0) 0) /\
    (forall i, (i < k)%nat -> nth i (bgrad l2) 0 = nth i (bgrad l) 0 + nth i g 0) /\
    length (ig l2) = n /\ length (wgrad l2) = (k * n)%nat /\ length (bgrad l2) = k /\
    wts l2 = wts l /\ bias l2 = bias l /\
    dotl k g dy = dotl n (ig l2) dx + ddot (k * n) (wgrad l2) (wgrad l) dw
                  + ddot k (bgrad l2) (bgrad l) db.
Proof.
  intros l n k cx cw cb dx dw db g K (S1 & S2 & S3 & S4) Hg Dx Dw Db W0 B0.
  rewrite K in S4. destruct S4 as (A1 & A2 & A3 & A4).
  destruct (dense_vjp n k cx cw cb dx dw db (ig l) (wgrad l) (bgrad l) g Dx Dw Db S2 A2 A4 Hg)
    as (w & i' & wg' & bg' & Dy & E & L1 & L2 & L3 & I1 & I2 & I3 & D).
  pose proof Dx as (Lx & _). pose proof Dw as (Lw & _). pose proof Db as (Lb & _).
  exists (fun t => dense_sem n k (cw t) (cb t) (cx t)), w.
  exists (set_out l (dense_sem n k (cw 0) (cb 0) (cx 0))).
  exists (mkLayer (knd l) (insz l) (wts l) (bias l) wg' bg' (dense_sem n k (cw 0) (cb 0) (cx 0)) i').
  split; [|split; [exact Dy|split; [|split; [|split; [|split; [exact I2|split; [exact I3|]]]]]]].
  - intros t. unfold layer_forward. cbn [knd out wts bias]. rewrite S3, Lx.
    rewrite dense_forward_sem by auto. cbn [bind]. eexists. split; reflexivity.
  - unfold layer_forward. rewrite K, S3, Lx, <- W0, <- B0.
    rewrite dense_forward_sem by auto. reflexivity.
  - unfold layer_backward. cbn [set_out knd ig wgrad bgrad wts insz out bias].
    rewrite K, S1, Hg, <- W0, E. reflexivity.
  - cbn [ig wts]. intros j Hj. rewrite I1 by auto. rewrite <- W0. apply Rsum_ext. intros; ring.
  - cbn [ig wgrad bgrad wts bias]. repeat split; auto; lia.
Qed.
Print Assumptions c14_dense_backward.

(** Repeated calls add up: two backward calls leave the sum of both contributions. *)
Theorem c14_repeated_calls_add_up : forall (l : layer R) n k x g h,
  knd l = KDense -> layer_shape l n k -> length x = n -> length g = k -> length h = k ->
  exists l1 l2, layer_backward l x g = Ok l1 /\ layer_backward l1 x h = Ok l2 /\
    (forall i j, (i < k)%nat -> (j < n)%nat -> nth (i * n + j) (wgrad l2) 0
       = nth (i * n + j) (wgrad l) 0 + (nth i g 0 + nth i h 0) * nth j x 0) /\
    (forall i, (i < k)%nat -> nth i (bgrad l2) 0 = nth i (bgrad l) 0 + nth i g 0 + nth i h 0) /\
    (forall j, (j < n)%nat ->
       nth j (ig l2) 0 = Rsum k (fun i => nth (i * n + j) (wts l) 0 * nth i h 0)).
Proof.
  intros l n k x g h K (S1 & S2 & S3 & S4) Hx Hg Hh.
  rewrite K in S4. destruct S4 as (A1 & A2 & A3 & A4).
  destruct (dense_1_spec 0 (ig l) (wgrad l) (bgrad l) g x (wts l) n k)
    as (i1 & w1 & b1 & E1 & L1 & L2 & L3 & P1 & P2 & _ & P3); try lia.
  destruct (dense_1_spec 0 i1 w1 b1 h x (wts l) n k)
    as (i2 & w2 & b2 & E2 & M1 & M2 & M3 & Q1 & Q2 & _ & Q3); try lia.
  exists (mkLayer (knd l) (insz l) (wts l) (bias l) w1 b1 (out l) i1).
  exists (mkLayer (knd l) (insz l) (wts l) (bias l) w2 b2 (out l) i2).
  unfold layer_backward. cbn [knd ig wgrad bgrad wts insz out bias].
  rewrite K, S1, Hg, Hh, E1. cbn [bind]. split; [reflexivity|].
  rewrite E2. split; [reflexivity|]. split; [|split].
  - intros i j Hi Hj. rewrite Q2, P2 by auto. cbn [nadd nmul NumR]. ring.
  - intros i Hi. rewrite Q3, P3. destruct (Nat.ltb_spec i k); [|lia].
    cbn [nadd NumR]. ring.
  - intros j Hj. rewrite Q1. destruct (Nat.ltb_spec j n); [|lia].
    rewrite nsum_Rsum. apply Rsum_ext. intros. cbn [nmul NumR]. ring.
Qed.
Print Assumptions c14_repeated_calls_add_up.

Definition ex_dense : layer R :=
  mkLayer KDense 2 [1; 2; 3; 4] [5; 6] [1; 1; 1; 1] [2; 2] [0; 0] [0; 0].

Example c14_hypotheses_met :
  knd ex_dense = KDense /\ layer_shape ex_dense 2 2 /\
  vec_deriv 2 (line [7; 8] 1) (unit_vec 2 1) /\
  vec_deriv 4 (line (wts ex_dense) 2) (unit_vec 4 2) /\
  vec_deriv 2 (line (bias ex_dense) 0) (unit_vec 2 0) /\
  line (wts ex_dense) 2 0 = wts ex_dense /\ line (bias ex_dense) 0 0 = bias ex_dense.
Proof.
  split; [reflexivity|]. split; [repeat split|].
  split; [apply (line_deriv [7; 8]); simpl; lia|].
  split; [apply (line_deriv (wts ex_dense)); simpl; lia|].
  split; [apply (line_deriv (bias ex_dense)); simpl; lia|].
  split; apply line_0.
Qed.

(** *** C21 *)
(** After forward(x), backward(g) returns J(x)^T g: along every differentiable curve through
    x, <g, dy> = <returned, dx>. *)
Theorem c21_activation_gradient : forall (l : layer R) a n (c : R -> list R) v g,
  knd l = KAct a -> layer_shape l n n -> length g = n ->
  vec_deriv n c v -> act_smooth a (c 0) ->
  exists y w l1 l2,
    (forall t, exists lt, layer_forward l (c t) = Ok lt /\ out lt = y t) /\
    vec_deriv n y w /\
    layer_forward l (c 0) = Ok l1 /\ layer_backward l1 (c 0) g = Ok l2 /\
    length (ig l2) = n /\ out l2 = y 0 /\
    dotl n g w = dotl n (ig l2) v.
Proof.
  intros l a n c v g K (S1 & S2 & S3 & _) Hg Dc Hs.
  pose proof Dc as (Lc & _).
  destruct (act_vjp a n c v (ig l) g Dc Hs S2 Hg) as (w & i' & Dy & E & L1 & D).
  assert (Hn : act_needs a n) by (destruct a; simpl in *; auto; now rewrite Lc in Hs).
  assert (F : forall t, layer_forward l (c t) = Ok (set_out l (act_sem a (c t)))).
  { intros t. unfold layer_forward. rewrite K, act_forward_sem; [reflexivity| |]; rewrite Lc; auto. }
  exists (fun t => act_sem a (c t)), w, (set_out l (act_sem a (c 0))),
    (set_ig (set_out l (act_sem a (c 0))) i').
  split; [|split; [exact Dy|split; [apply F|split]]].
  - intros t. exists (set_out l (act_sem a (c t))). split; [apply F|reflexivity].
  - unfold layer_backward. cbn [set_out knd out ig]. rewrite K, E. reflexivity.
  - cbn [set_ig ig out set_out]. auto.
Qed.
Print Assumptions c21_activation_gradient.

(** The values computed by the layers, so that the derivative above is that of the right
    function. *)
Theorem c21_activation_values : forall (l : layer R) a n x,
  knd l = KAct a -> layer_shape l n n -> length x = n -> (a = Softmax -> (0 < n)%nat) ->
  exists l1, layer_forward l x = Ok l1 /\ length (out l1) = n /\
  forall i, (i < n)%nat ->
    let xi := nth i x 0 in
    nth i (out l1) 0 =
      match a with
      | Relu => Rmax 0 xi
      | Elu alpha => if Rlt_dec 0 xi then xi else alpha * (exp xi - 1)
      | Softmax => exp xi / Rsum n (fun j => exp (nth j x 0))
      | Tanh => (exp xi - exp (- xi)) / (exp xi + exp (- xi))
      | Sigmoid => 1 / (1 + exp (- xi))
      | Linear => xi
      end.
Proof.
  intros l a n x K (S1 & S2 & S3 & _) Hx Hn.
  exists (set_out l (act_sem a x)). unfold layer_forward.
  rewrite K, act_forward_sem; [|congruence|destruct a; simpl; auto; rewrite Hx; auto].
  split; [reflexivity|]. cbn [set_out out]. split; [now rewrite act_sem_length|].
  intros i Hi. set (xi := nth i x 0). rewrite <- Hx in Hi.
  destruct a; cbn [act_sem]; rewrite ?nth_tab by auto; rewrite ?Hx; try reflexivity.
  - fold xi. unfold relu, nmax. cbn [nltb NumR n0]. unfold Rmax.
    destruct (Rltb xi 0) eqn:E; destruct (Rle_dec 0 xi); auto;
      first [apply Rltb_true in E; lra | apply Rltb_false in E; lra].
  - fold xi. unfold elu. cbn [nltb NumR n0 nmul nsub nexp TransR n1].
    destruct (Rltb 0 xi) eqn:E; destruct (Rlt_dec 0 xi); auto;
      first [apply Rltb_true in E; lra | apply Rltb_false in E; lra].
  - fold xi. unfold tanh, sinh, cosh. pose proof (exp_pos xi). pose proof (exp_pos (- xi)).
    field. lra.
Qed.
Print Assumptions c21_activation_values.

(** For a negative alpha backward of the ELU layer looks at the sign of the output, which is
    then positive for negative inputs: the result is not the derivative. *)
Theorem c21_elu_negative_alpha : exists alpha x d,
  derivable_pt_lim (elu alpha) x d /\
  act_backward (Elu alpha) [elu alpha x] [0] [1] = Ok [1] /\ d <> 1.
Proof.
  exists (-1), (-1), (-1 * exp (-1)). split; [|split].
  - apply (derivable_pt_lim_locally_ext (fun t => -1 * (exp t - 1)) _ (-1) (-2) 0);
      [lra| |apply dlim_elu_neg].
    intros z Hz. unfold elu. cbn [nltb NumR n0 nmul nsub nexp TransR n1].
    destruct (Rltb 0 z) eqn:E; [apply Rltb_true in E; lra|reflexivity].
  - cbn. unfold elu_1_opt, elu. cbn [nltb NumR n0 nmul nsub nexp TransR n1].
    destruct (Rltb 0 (-1)) eqn:E; [apply Rltb_true in E; lra|].
    destruct (Rltb 0 (-1 * (exp (-1) - 1))) eqn:E2.
    + f_equal. f_equal. ring.
    + apply Rltb_false in E2.
      assert (exp (-1) < 1) by (rewrite <- exp_0; apply exp_increasing; lra). lra.
  - pose proof (exp_pos (-1)). lra.
Qed.
Print Assumptions c21_elu_negative_alpha.

Definition ex_act (a : act R) : layer R := mkLayer (KAct a) 2 [] [] [] [] [0; 0] [0; 0].

Example c21_hypotheses_met :
  layer_shape (ex_act Relu) 2 2 /\ act_smooth Relu (line [-1; 3] 0 0) /\
  act_smooth (Elu 1) (line [0; 3] 0 0) /\ act_smooth (Elu (1/2)) (line [-1; 3] 0 0) /\
  act_smooth Softmax (line [-1; 3] 0 0) /\ vec_deriv 2 (line [-1; 3] 0) (unit_vec 2 0).
Proof.
  rewrite !line_0. split; [repeat split|]. split; [|split; [|split; [|split]]].
  - simpl. intros [|[|i]] Hi; simpl; try lra; lia.
  - simpl. split; [lra|now left].
  - simpl. split; [lra|]. right. intros [|[|i]] Hi; simpl; try lra; lia.
  - simpl. lia.
  - apply (line_deriv [-1; 3]). simpl. lia.
Qed.

(** *** C22 *)
(** Chain rule for the whole stack, all parameters and the input moving at the same time. *)
Theorem c22_backpropagation : forall (cs : list lcurve) n m (c : R -> list R) v,
  chain_shape (map base cs) n m -> Forall lcurve_ok cs -> vec_deriv n c v ->
  chain_smooth (map (at_t 0) cs) (c 0) ->
  exists (run : R -> list (layer R)) y w,
    (forall t, chain_forward (map (at_t t) cs) (c t) = Ok (run t, y t)) /\
    vec_deriv m y w /\
    forall g, length g = m -> exists ls' gx,
      chain_backward (run 0) (c 0) g = Ok (ls', gx) /\ length gx = n /\
      dotl m g w = dotl n gx v + param_terms cs ls' /\
      map wts ls' = map wts (map base cs) /\ map bias ls' = map bias (map base cs).
Proof. exact chain_vjp. Qed.
Print Assumptions c22_backpropagation.

(** Partial derivatives with respect to each input entry. *)
Theorem c22_input_partials : forall (ls : list (layer R)) n m x g p,
  chain_shape ls n m -> length x = n -> length g = m -> chain_smooth ls x -> (p < n)%nat ->
  exists ls1 ls2 gx (y : R -> list R),
    chain_forward ls x = Ok (ls1, y 0) /\ chain_backward ls1 x g = Ok (ls2, gx) /\
    (forall t, exists lt, chain_forward ls (line x p t) = Ok (lt, y t)) /\
    derivable_pt_lim (fun t => dotl m g (y t)) 0 (nth p gx 0).
Proof.
  intros ls n m x g p Hsh Hx Hg Hsm Hp.
  destruct (chain_vjp (map frozen ls) n m (line x p) (unit_vec n p)) as (run & y & w & F & D & B).
  - now rewrite map_base_frozen.
  - apply Forall_frozen.
  - rewrite <- Hx. apply line_deriv. now rewrite Hx.
  - rewrite map_at_frozen, line_0. exact Hsm.
  - destruct (B g Hg) as (ls' & gx & E & L & Q & _).
    rewrite line_0 in E. exists (run 0), ls', gx, y.
    split; [|split; [exact E|split]].
    + specialize (F 0). now rewrite map_at_frozen, line_0 in F.
    + intros t. exists (run t). specialize (F t). now rewrite map_at_frozen in F.
    + eapply dlim_eq; [apply dotl_deriv; exact D|].
      rewrite Q, param_terms_frozen, dotl_unit by auto. ring.
Qed.
Print Assumptions c22_input_partials.

(** Partial derivatives with respect to each weight and each bias of each dense layer of the
    stack: what backward adds to the gradient entry. *)
Theorem c22_weight_partials : forall pre l post n m x g p,
  chain_shape (pre ++ l :: post) n m -> length x = n -> length g = m ->
  chain_smooth (pre ++ l :: post) x -> (p < length (wts l))%nat ->
  exists ls1 bl l' al gx (y : R -> list R),
    chain_forward (pre ++ l :: post) x = Ok (ls1, y 0) /\
    chain_backward ls1 x g = Ok (bl ++ l' :: al, gx) /\ length bl = length pre /\
    (forall t, exists lt, chain_forward (pre ++ with_weight l p t :: post) x = Ok (lt, y t)) /\
    derivable_pt_lim (fun t => dotl m g (y t)) 0 (nth p (wgrad l') 0 - nth p (wgrad l) 0).
Proof.
  intros pre l post n m x g p Hsh Hx Hg Hsm Hp.
  destruct (chain_mid pre post l (wcurve l p) n m x g) as (run & y & bl & l' & al & gx & F & E & L & D); auto.
  { split; [apply line_0|]. split; [reflexivity|].
    split; [now apply line_deriv|apply (const_deriv (bias l))]. }
  exists (run 0), bl, l', al, gx, y. split; [|split; [exact E|split; [exact L|split]]].
  - specialize (F 0). unfold at_t in F. cbn [wcurve base cw cb] in F. rewrite line_0 in F.
    destruct l; exact F.
  - intros t. exists (run t). apply F.
  - eapply dlim_eq; [exact D|]. cbn [wcurve dw db]. unfold unit_vec at 1. rewrite tab_length.
    rewrite ddot_unit, ddot_zero by auto. ring.
Qed.
Print Assumptions c22_weight_partials.

Theorem c22_bias_partials : forall pre l post n m x g p,
  chain_shape (pre ++ l :: post) n m -> length x = n -> length g = m ->
  chain_smooth (pre ++ l :: post) x -> (p < length (bias l))%nat ->
  exists ls1 bl l' al gx (y : R -> list R),
    chain_forward (pre ++ l :: post) x = Ok (ls1, y 0) /\
    chain_backward ls1 x g = Ok (bl ++ l' :: al, gx) /\ length bl = length pre /\
    (forall t, exists lt, chain_forward (pre ++ with_bias l p t :: post) x = Ok (lt, y t)) /\
    derivable_pt_lim (fun t => dotl m g (y t)) 0 (nth p (bgrad l') 0 - nth p (bgrad l) 0).
Proof.
  intros pre l post n m x g p Hsh Hx Hg Hsm Hp.
  destruct (chain_mid pre post l (bcurve l p) n m x g) as (run & y & bl & l' & al & gx & F & E & L & D); auto.
  { split; [reflexivity|]. split; [apply line_0|].
    split; [apply (const_deriv (wts l))|now apply line_deriv]. }
  exists (run 0), bl, l', al, gx, y. split; [|split; [exact E|split; [exact L|split]]].
  - specialize (F 0). unfold at_t in F. cbn [bcurve base cw cb] in F. rewrite line_0 in F.
    destruct l; exact F.
  - intros t. exists (run t). apply F.
  - eapply dlim_eq; [exact D|]. cbn [bcurve dw db]. unfold unit_vec at 1. rewrite tab_length.
    rewrite ddot_unit, ddot_zero by auto. ring.
Qed.
Print Assumptions c22_bias_partials.

(** A two-layer perceptron with ReLU, tanh and softmax in it. *)
Definition ex_net : list (layer R) :=
  [ ex_dense; ex_act Relu;
    mkLayer KDense 2 [1; -1; 2; 1] [1; 1] [0; 0; 0; 0] [0; 0] [0; 0] [0; 0];
    ex_act Tanh; ex_act Softmax ].

Example c22_hypotheses_met : chain_shape ex_net 2 2 /\ chain_smooth ex_net [1; 1].
Proof.
  split.
  - cbn [ex_net chain_shape].
    exists 2%nat. split; [repeat split|]. exists 2%nat. split; [repeat split|].
    exists 2%nat. split; [repeat split|]. exists 2%nat. split; [repeat split|].
    exists 2%nat. split; [repeat split|]. reflexivity.
  - cbn [ex_net chain_smooth]. split; [exact I|]. intros l1 E1.
    unfold layer_forward, ex_dense in E1. cbn [knd out wts bias] in E1.
    rewrite dense_forward_sem in E1 by reflexivity. cbn in E1. injection E1 as <-.
    cbn [set_out out]. split.
    + unfold layer_smooth. cbn [ex_act knd act_smooth]. intros [|[|i]] Hi; simpl in *; try lra; lia.
    + intros l2 E2. split; [exact I|]. intros l3 E3. split; [exact I|]. intros l4 E4.
      split; [|trivial]. unfold layer_smooth. cbn [ex_act knd act_smooth].
      clear - E4. unfold layer_forward, act_forward, ex_act in E4. cbn [knd out length] in E4.
      unfold layer_forward in E4.
      destruct (map_into ntanh [0; 0] (out l3) 2) as [o| |] eqn:E; try discriminate.
      cbn [bind] in E4. injection E4 as <-. cbn [set_out out].
      unfold map_into in E.
      destruct o; [|simpl; lia].
      exfalso. cbn in E. destruct (rd (out l3) 0); cbn in E; try discriminate.
      destruct (rd (out l3) 1); cbn in E; discriminate.
Qed.
