(** C69: convolutional networks: what they predict and what a training step adds. *)
From Verif Require Import Base Num RSum MathModel MathProofs MathProofsR ConvModel ConvSpec ConvProofs PropConv LayerModel LossModel LossSpec
  LossProofs OptModel GraphModel ModelModel NodeModel ChainProofs ModelProofs GradSpec GradProofs GradChain PropLoss PropModel PropStep
  CnnModel CnnSpec CnnProofs StepProofs.
From Coq Require Import Reals Lra.
Local Open Scope R_scope.

(** *** Vocabulary *)
(** What a layer computes. *)
Definition node_value (s : cnode R) (x : list R) : list R :=
  match s with
  | CL l => layer_sem l x
  | CV c => conv_value c x
  | CP p => pool_value p x
  | CO _ _ => x
  end.
Fixpoint cshape (ss : list (cnode R)) (n k : nat) : Prop :=
  match ss with [] => n = k | s :: r => exists j, cnode_shape s n j /\ cshape r j k end.
(** Layers of matching sizes in a row, then the loss. *)
Record cnn (m : model (cnode R)) (ss : list (cnode R)) (kd : losskind R) (lo : lossl R) (n k : nat) : Prop := {
  cn_graph : is_chain true (length ss) (mgraph m);
  cn_some : (1 <= length ss)%nat;
  cn_nodes : map fst (mnodes m) = ss ++ [CO kd lo];
  cn_shape : cshape ss n k;
  cn_grad : length (ls_grad lo) = k
}.
(** Every layer is where its backward pass is right, see [cnode_smooth]. *)
Fixpoint csmooth (ss : list (cnode R)) (x : list R) : Prop :=
  match ss with [] => True | s :: r => cnode_smooth s x /\ csmooth r (node_value s x) end.

Definition weights (s : cnode R) : list R := match s with CL l => wts l | CV c => cv_w c | _ => [] end.
Definition biases (s : cnode R) : list R := match s with CL l => bias l | CV c => cv_b c | _ => [] end.
Definition wgrads (s : cnode R) : list R := match s with CL l => wgrad l | CV c => cv_wg c | _ => [] end.
Definition bgrads (s : cnode R) : list R := match s with CL l => bgrad l | CV c => cv_bg c | _ => [] end.
(** Weight (bias) [p] increased by [t]. *)
Definition move_weight (s : cnode R) (p : nat) (t : R) : cnode R :=
  match s with
  | CL l => CL (with_weight l p t)
  | CV c => CV (conv_at c (line (cv_w c) p t) (cv_b c))
  | s => s
  end.
Definition move_bias (s : cnode R) (p : nat) (t : R) : cnode R :=
  match s with
  | CL l => CL (with_bias l p t)
  | CV c => CV (conv_at c (cv_w c) (line (cv_b c) p t))
  | s => s
  end.
Definition cput (m : model (cnode R)) (q : nat) (s : cnode R) : model (cnode R) :=
  mkModel (mgraph m) (upd (mnodes m) q (s, snd (nth q (mnodes m) (s, SNull)))).
Definition ccost (kd : losskind R) (m : model (cnode R)) (x t : list R) (c : R) : Prop :=
  exists m' y, m_predict cnn_ops m x = Ok (m', y) /\ c = loss_value kd t y.
(** [d] is the partial derivative of the cost with respect to weight (bias) [p] of layer [q]. *)
Definition cwpartial kd (m : model (cnode R)) (q p : nat) (xt : list R * list R) (d : R) : Prop :=
  exists s o C, nth_error (mnodes m) q = Some (s, o) /\
    (forall t, ccost kd (cput m q (move_weight s p t)) (fst xt) (snd xt) (C t)) /\ derivable_pt_lim C 0 d.
Definition cbpartial kd (m : model (cnode R)) (q p : nat) (xt : list R * list R) (d : R) : Prop :=
  exists s o C, nth_error (mnodes m) q = Some (s, o) /\
    (forall t, ccost kd (cput m q (move_bias s p t)) (fst xt) (snd xt) (C t)) /\ derivable_pt_lim C 0 d.

(** The parameters and sizes of a layer are kept, its buffers may change. *)
Definition ckept (s s' : cnode R) : Prop :=
  match s, s' with
  | CL l, CL l' => same_params l l'
  | CV c, CV c' => exists wg bg o ig, c' = conv_with c (cv_w c) (cv_b c) wg bg o ig
  | CP p, CP p' => exists o ig, p' = pool_with p o ig
  | _, _ => False
  end.

(** *** Values *)
Lemma cnode_forward (s : cnode R) n k x : cnode_shape s n k -> length x = n ->
  exists s', c_forward s x = Ok s' /\ c_output s' = Ok (node_value s x) /\ length (node_value s x) = k /\
    ckept s s' /\ cnode_shape s' n k.
Proof.
  intros HS Hx. destruct s as [l|c|p|kd lo]; cbn [cnode_shape c_forward node_value] in *; [| | |contradiction].
  - destruct (layer_forward_sem l n k x HS Hx) as (E & L). rewrite E. cbn [bind]. eexists. split; [reflexivity|].
    split; [reflexivity|]. split; [exact L|]. split; [split; [reflexivity|split; [reflexivity|split; reflexivity]]|].
    now apply lshape_set_out.
  - destruct (convl_forward_value c n k x HS Hx) as (E & L). rewrite E. cbn [bind]. eexists. split; [reflexivity|].
    split; [reflexivity|]. split; [exact L|]. split; [cbn; eauto 10|].
    destruct HS as (H1 & H2 & H3 & H4 & H5 & H6 & H7 & H8 & H9). cbn [cnode_shape].
    split; [exact H1|]. split; [exact H2|]. split; [exact H3|]. split; [exact H4|]. split; [exact H5|]. split; [exact H6|].
    split; [exact H7|]. split; [exact H8|]. split; [exact L|apply H9].
  - destruct (pooll_forward_value p n k x HS Hx) as (E & L). rewrite E. cbn [bind]. eexists. split; [reflexivity|].
    split; [reflexivity|]. split; [exact L|]. split; [cbn; eauto 10|].
    destruct HS as (H1 & H2 & H3 & H4 & H5 & H9). cbn [cnode_shape].
    split; [exact H1|]. split; [exact H2|]. split; [exact H3|]. split; [exact H4|]. split; [exact H5|]. split; [exact L|apply H9].
Qed.

Definition cnn_value (ss : list (cnode R)) (x : list R) : list R := fold_left (fun v s => node_value s v) ss x.

Lemma cnn_forward : forall (ss : list (cnode R)) n k x, cshape ss n k -> length x = n ->
  exists ss', gforward cnn_ops ss x = Ok (ss', cnn_value ss x) /\ length (cnn_value ss x) = k /\
    Forall2 ckept ss ss' /\ cshape ss' n k.
Proof.
  induction ss as [|s ss IH]; intros n k x HS Hx.
  - cbn in HS. subst. exists []. split; [reflexivity|]. split; [reflexivity|]. split; [constructor|reflexivity].
  - destruct HS as (j & HS1 & HS2). destruct (cnode_forward s n j x HS1 Hx) as (s' & E & EO & L & K & HS').
    destruct (IH j k _ HS2 L) as (ss' & E' & L' & K' & HS''). exists (s' :: ss').
    cbn [gforward cnn_ops o_tforward o_output]. rewrite E. cbn [bind]. rewrite EO. cbn [bind].
    change (gforward (mkOps c_forward c_forward c_backward c_output c_gradient c_target) ss (node_value s x))
      with (gforward cnn_ops ss (node_value s x)). rewrite E'. cbn [bind].
    split; [reflexivity|]. split; [exact L'|]. split; [constructor; auto|]. exists j. auto.
Qed.

Lemma cnn_length m ss kd lo n k : cnn m ss kd lo n k -> length (mnodes m) = nodes (mgraph m).
Proof.
  intros W. pose proof (f_equal (@length _) (cn_nodes _ _ _ _ _ _ W)) as E. rewrite map_length, app_length in E. cbn in E.
  rewrite E, (ic_nodes _ _ _ (cn_graph _ _ _ _ _ _ W)). lia.
Qed.

(** Any convolutional network predicts the composition of its layers. *)
Theorem c69_predict : forall m ss kd lo n k x, cnn m ss kd lo n k -> length x = n ->
  exists m', m_predict cnn_ops m x = Ok (m', cnn_value ss x) /\ length (cnn_value ss x) = k.
Proof.
  intros m ss kd lo n k x W Hx.
  destruct (cnn_forward ss n k x (cn_shape _ _ _ _ _ _ W) Hx) as (ss' & E & L & _).
  pose proof (compose_g cnn_ops ss x ss' _ (fun s x => eq_refl) E) as EC.
  destruct (predict_chain cnn_ops true (length ss) m x (cn_graph _ _ _ _ _ _ W) (cn_some _ _ _ _ _ _ W)
    (cnn_length _ _ _ _ _ _ W)) as (s & p & rest & post & EM & Lr & EP).
  pose proof (cn_nodes _ _ _ _ _ _ W) as N. rewrite EM in N. cbn [map fst] in N. rewrite map_app in N.
  pose proof (cn_some _ _ _ _ _ _ W) as Hn.
  destruct ss as [|s0 ss]; [cbn in Hn; lia|]. cbn [app] in N. injection N as -> N.
  assert (ER : map fst rest = ss).
  { cbn [length] in Lr. assert (LL : length (map fst rest) = length ss) by (rewrite map_length; lia).
    apply (f_equal (firstn (length ss))) in N. rewrite <- LL in N at 1.
    rewrite firstn_app, Nat.sub_diag, firstn_all, firstn_O, app_nil_r in N.
    rewrite firstn_app, Nat.sub_diag, firstn_all, firstn_O, app_nil_r in N. exact N. }
  rewrite EP. cbn [compose] in EC.
  destruct (o_forward cnn_ops s0 x) as [s'| |]; try discriminate. cbn [bind] in *.
  pose proof (chain_after_compose cnn_ops rest 0 s') as CA. rewrite ER in CA.
  assert (EC' : (rest' <- chain_after cnn_ops false 0 s' rest;; o_output cnn_ops (last (map fst rest') s')) = Ok (cnn_value (s0 :: ss) x)).
  { rewrite CA. exact EC. }
  destruct (chain_after cnn_ops false 0 s' rest) as [rest'| |]; try discriminate. cbn [bind] in *.
  rewrite EC'. cbn [bind]. eexists. split; [reflexivity|exact L].
Qed.
Print Assumptions c69_predict.

(** *** Curves of one layer's parameters *)
Definition cc_layer (lc : lcurve) : curve (cnode R) :=
  mkCurve (CL (base lc)) (fun t => CL (at_t t lc)) (fun s => match s with
    | CL l => ddot (length (dw lc)) (wgrad l) (wgrad (base lc)) (dw lc) + ddot (length (db lc)) (bgrad l) (bgrad (base lc)) (db lc)
    | _ => 0 end).
Definition cc_conv (c : convl R) (w b : R -> list R) (d : list R) : curve (cnode R) :=
  mkCurve (CV c) (fun t => CV (conv_at c (w t) (b t))) (fun s => match s with
    | CV c' => ddot (length d) (cv_wg c') (cv_wg c) d
    | _ => 0 end).
Definition cc_pool (p : pooll R) : curve (cnode R) := mkCurve (CP p) (fun _ => CP p) (fun _ => 0).
Inductive cok : curve (cnode R) -> Prop :=
| ok_layer lc : lcurve_ok lc -> cok (cc_layer lc)
| ok_conv c w b d : vec_deriv (length (cv_w c)) w d -> w 0 = cv_w c -> b 0 = cv_b c -> cok (cc_conv c w b d)
| ok_pool p : cok (cc_pool p).

Lemma conv_at_same c : conv_at c (cv_w c) (cv_b c) = c.
Proof. now destruct c. Qed.
Lemma cok_0 c : cok c -> cat c 0 = cbase c.
Proof.
  intros [lc (W & B & _)|c' w b d _ W B|p]; cbn.
  - unfold at_t. rewrite W, B. now destruct (base lc).
  - rewrite W, B, conv_at_same. reflexivity.
  - reflexivity.
Qed.

Lemma cnode_vjp c n k x v : cok c -> cnode_shape (cbase c) n k -> vec_deriv n x v -> cnode_smooth (cbase c) (x 0) ->
  vjp_ok cnn_ops cnode_shape ckept c n k x v.
Proof.
  intros [lc Hok|c' w b d Dw W0 B0|p] HS Dx Hsm; cbn [cbase cc_layer cc_conv cc_pool cnode_shape] in HS, Hsm.
  - assert (HL : layer_shape (base lc) n k).
    { destruct HS as (S1 & S2 & S3 & S4). split; [exact S1|]. split; [exact S2|]. split; [exact S3|].
      destruct (knd (base lc)); [exact S4|apply S4]. }
    destruct (layer_vjp lc n k x v HL Hok Dx Hsm) as (y & w & F & D & B).
    pose proof D as (Ly & _). pose proof Dx as (Lx & _). pose proof (cok_0 _ (ok_layer _ Hok)) as A0. cbn in A0. injection A0 as A0.
    exists (fun t => CL (set_out (at_t t lc) (y t))), y, w. split; [|split; [exact D|]].
    + intros t. cbn [cnn_ops o_tforward o_output c_forward cc_layer cat c_output]. rewrite F. cbn [bind]. split; reflexivity.
    + intros g Hg. destruct (B g Hg) as (l' & E & L & Q & _). exists (CL l').
      cbn [cnn_ops o_backward o_gradient c_backward c_gradient cc_layer cbase cterm ckept cnode_shape]. rewrite E. cbn [bind].
      split; [reflexivity|]. split; [exact L|]. split; [rewrite Q; ring|].
      rewrite A0 in E. destruct (layer_backward_shape (set_out (base lc) (y 0)) n k (x 0) g) as (l2 & E2 & P & S2 & _); auto.
      { apply lshape_set_out; auto. }
      rewrite E in E2. injection E2 as <-. split; [exact P|exact S2].
  - destruct (conv_vjp c' n k x v w b d HS Dx Dw W0) as (y & e & F & V & D & B).
    exists (fun t => CV (conv_with c' (w t) (b t) (cv_wg c') (cv_bg c') (y t) (cv_ig c'))), y, e. split; [|split; [exact D|]].
    + intros t. cbn [cnn_ops o_tforward o_output c_forward cc_conv cat c_output]. rewrite F. cbn [bind]. split; reflexivity.
    + intros g Hg. destruct (B g Hg) as (c2 & E & L & Q & (wg & bg & o & ig & E2) & L1 & L2 & L3 & _). exists (CV c2).
      cbn [cnn_ops o_backward o_gradient c_backward c_gradient cc_conv cbase cterm ckept cnode_shape]. rewrite E. cbn [bind].
      split; [reflexivity|]. split; [exact L|]. split; [exact Q|]. rewrite W0, B0 in E2.
      split; [eauto 10|]. subst c2. cbn [conv_with cv_ig cv_wg cv_bg cv_out] in *.
      destruct HS as (H1 & H2 & H3 & H4 & H5 & H6 & H7 & H8 & H9).
      split; [exact H1|]. split; [exact H2|]. split; [exact H3|]. split; [exact H4|]. split; [exact H5|]. split; [exact H6|].
      split; [split; [apply H7|exact (eq_trans L1 (proj2 H7))]|].
      split; [split; [apply H8|exact (eq_trans L2 (proj2 H8))]|]. split; [exact L3|exact L].
  - destruct (maxpool_vjp p n k x v HS Dx Hsm) as (y & e & F & V & D & B).
    exists (fun t => CP (pool_with p (y t) (pl_ig p))), y, e. split; [|split; [exact D|]].
    + intros t. cbn [cnn_ops o_tforward o_output c_forward cc_pool cat c_output]. rewrite F. cbn [bind]. split; reflexivity.
    + intros g Hg. destruct (B g Hg) as (p2 & E & L & Q & (o & ig & E2 & L3)). exists (CP p2).
      cbn [cnn_ops o_backward o_gradient c_backward c_gradient cc_pool cbase cterm ckept cnode_shape]. rewrite E. cbn [bind].
      split; [reflexivity|]. split; [exact L|]. split; [rewrite Q; ring|].
      split; [eauto 10|]. subst p2. cbn [pool_with pl_ig pl_out] in *.
      destruct HS as (H1 & H2 & H3 & H4 & H5 & H9).
      split; [exact H1|]. split; [exact H2|]. split; [exact H3|]. split; [exact H4|]. split; [exact H5|]. split; [exact L3|exact L].
Qed.

(** A layer that does not move. *)
Definition still (s : cnode R) : curve (cnode R) :=
  match s with
  | CL l => cc_layer (frozen l)
  | CV c => cc_conv c (fun _ => cv_w c) (fun _ => cv_b c) (repeat 0 (length (cv_w c)))
  | CP p => cc_pool p
  | CO kd lo => mkCurve (CO kd lo) (fun _ => CO kd lo) (fun _ => 0)
  end.
Lemma still_at t s : cat (still s) t = s.
Proof. destruct s; cbn; rewrite ?at_t_frozen, ?conv_at_same; reflexivity. Qed.
Lemma still_base s : cbase (still s) = s.
Proof. now destruct s. Qed.
Lemma still_term s s' : cterm (still s) s' = 0.
Proof.
  destruct s, s'; cbn [still cc_layer cc_conv cc_pool cterm frozen dw db base]; try reflexivity.
  - rewrite !ddot_zero. ring.
  - apply ddot_zero.
Qed.
Lemma still_ok s n k : cnode_shape s n k -> cok (still s).
Proof.
  destruct s; cbn; intros HS; [apply ok_layer, frozen_ok| |apply ok_pool|contradiction].
  apply ok_conv; auto. apply const_deriv.
Qed.
Lemma cshape_g ss : forall n k, cshape ss n k <-> gshape cnode_shape ss n k.
Proof.
  induction ss as [|s ss IH]; intros n k; cbn; [reflexivity|].
  split; intros (j & A & B); exists j; (split; [exact A|now apply IH]).
Qed.
Lemma csmooth_g : forall ss n k x, cshape ss n k -> length x = n -> csmooth ss x -> gsmooth cnn_ops cnode_smooth ss x.
Proof.
  induction ss as [|s ss IH]; intros n k x HS Hx HC; [exact I|].
  destruct HS as (j & A & B), HC as (C1 & C2). cbn [gsmooth]. split; [exact C1|].
  intros s' y E EO. destruct (cnode_forward s n j x A Hx) as (s2 & E2 & EO2 & L & _).
  cbn [cnn_ops o_tforward o_output] in E, EO. rewrite E in E2. injection E2 as <-. rewrite EO in EO2. injection EO2 as ->.
  exact (IH j k _ B L C2).
Qed.
Lemma cshape_all : forall ss n k, cshape ss n k -> Forall (fun s => exists i j, cnode_shape s i j) ss.
Proof. induction ss as [|s ss IH]; intros n k HS; constructor; destruct HS as (j & A & B); eauto. Qed.
Lemma still_terms : forall ss ss', gterms (map still ss) ss' = 0.
Proof.
  induction ss as [|s ss IH]; intros [|s' ss']; cbn [map gterms]; try reflexivity. rewrite still_term, IH. ring.
Qed.
Lemma terms_mid : forall pre c post ss1 s ss2, length ss1 = length pre ->
  gterms (map still pre ++ c :: map still post) (ss1 ++ s :: ss2) = cterm c s.
Proof.
  induction pre as [|a pre IH]; intros c post ss1 s ss2 HL; destruct ss1 as [|s1 ss1]; try discriminate.
  - cbn. rewrite still_terms. ring.
  - cbn [map app gterms]. rewrite still_term, IH by (cbn in HL; lia). ring.
Qed.
Lemma Forall2_mid {A B} (P : A -> B -> Prop) pre x post l' : Forall2 P (pre ++ x :: post) l' ->
  exists l1 y l2, l' = l1 ++ y :: l2 /\ length l1 = length pre /\ P x y.
Proof.
  intros F. apply Forall2_app_inv_l in F. destruct F as (l1 & l2 & F1 & F2 & ->). inversion F2 as [|? y ? l3 HP F3]; subst.
  exists l1, y, l3. split; [reflexivity|]. split; [|exact HP]. symmetry. clear -F1. induction F1; cbn; congruence.
Qed.

Lemma cnode_at (m : model (cnode R)) ss kd lo n k q s : cnn m ss kd lo n k -> nth_error ss q = Some s ->
  exists o, nth_error (mnodes m) q = Some (s, o).
Proof.
  intros W E. pose proof (cn_nodes _ _ _ _ _ _ W) as N.
  assert (X : nth_error (map fst (mnodes m)) q = Some s).
  { rewrite N, nth_error_app1; [exact E|]. apply nth_error_Some. congruence. }
  rewrite nth_error_map in X. destruct (nth_error (mnodes m) q) as [(a, o)|]; [|discriminate].
  cbn in X. injection X as ->. eauto.
Qed.

Definition csame_sizes (s s' : cnode R) : Prop := forall n k, cnode_shape s n k -> cnode_shape s' n k.
Lemma cshape_sizes : forall ss ss' n k, Forall2 csame_sizes ss ss' -> cshape ss n k -> cshape ss' n k.
Proof.
  induction ss as [|s ss IH]; intros ss' n k F HS; inversion F; subst; auto.
  destruct HS as (j & A & B). exists j. split; auto.
Qed.
Lemma cput_cnn m ss kd lo n k q s s' : cnn m ss kd lo n k -> nth_error ss q = Some s ->
  csame_sizes s s' -> cnn (cput m q s') (upd ss q s') kd lo n k.
Proof.
  intros W E HS. assert (Hq : (q < length ss)%nat) by (apply nth_error_Some; congruence).
  constructor; unfold cput; cbn [mgraph mnodes]; rewrite ?upd_length.
  - apply W.
  - apply W.
  - rewrite map_upd. cbn [fst]. rewrite (cn_nodes _ _ _ _ _ _ W), upd_app_l by exact Hq. reflexivity.
  - apply (cshape_sizes ss); [|apply W]. apply Forall2_upd; [intros y a b; auto|].
    intros y Ey. rewrite E in Ey. injection Ey as <-. exact HS.
  - apply W.
Qed.
Lemma ccost_cnn m ss kd lo n k x t : cnn m ss kd lo n k -> length x = n -> ccost kd m x t (loss_value kd t (cnn_value ss x)).
Proof. intros W Hx. destruct (c69_predict m ss kd lo n k x W Hx) as (m' & E & _). exists m', (cnn_value ss x). auto. Qed.
Lemma conv_at_sizes c w b : length w = length (cv_w c) -> length b = length (cv_b c) -> csame_sizes (CV c) (CV (conv_at c w b)).
Proof.
  intros Hw Hb n k (H1 & H2 & H3 & H4 & H5 & H6 & H7 & H8 & H9).
  split; [exact H1|]. split; [exact H2|]. split; [exact H3|]. split; [exact H4|]. split; [exact H5|]. split; [exact H6|].
  unfold conv_at. cbn [conv_with cv_w cv_b cv_wg cv_bg cv_out cv_ig]. rewrite Hw, Hb. auto.
Qed.
Lemma move_weight_sizes s p t : csame_sizes s (move_weight s p t).
Proof.
  destruct s; cbn [move_weight]; try (intros ? ? HS; exact HS).
  - intros n k. exact (with_weight_sizes l p t n k).
  - apply conv_at_sizes; [apply line_length|reflexivity].
Qed.
Lemma move_bias_sizes s p t : csame_sizes s (move_bias s p t).
Proof.
  destruct s; cbn [move_bias]; try (intros ? ? HS; exact HS).
  - intros n k. exact (with_bias_sizes l p t n k).
  - apply conv_at_sizes; [reflexivity|apply line_length].
Qed.

(** *** The step *)
(** What a step adds to the gradient buffers: [f] times the partial derivatives. The biases of a
    convolution have no effect on the prediction. *)
Definition cstep_adds kd (f : R) (m : model (cnode R)) (xt : list R * list R) (ss ss' : list (cnode R)) : Prop :=
  forall q s, nth_error ss q = Some s -> exists s', nth_error ss' q = Some s' /\
    (forall p, (p < length (weights s))%nat -> exists d, cwpartial kd m q p xt d /\
       nth p (wgrads s') 0 = nth p (wgrads s) 0 + f * d) /\
    (forall p, (p < length (biases s))%nat ->
       match s with
       | CV _ => cbpartial kd m q p xt 0
       | _ => exists d, cbpartial kd m q p xt d /\ nth p (bgrads s') 0 = nth p (bgrads s) 0 + f * d
       end).

Theorem c69_step_partial : forall m ss kd lo n k x t,
  cnn m ss kd lo n k -> (0 < k)%nat -> ls_in lo = k -> length x = n -> length t = k ->
  csmooth ss x ->
  (forall m' y, m_predict cnn_ops m x = Ok (m', y) -> loss_defined kd t y) ->
  exists m' ss' lo', m_step cnn_ops m x t = Ok m' /\ cnn m' ss' kd lo' n k /\
    Forall2 ckept ss ss' /\ ls_in lo' = k /\ ls_inv lo' = ls_inv lo /\
    ccost kd m x t (ls_loss lo') /\ ls_cum lo' = ls_cum lo + ls_loss lo' /\
    cstep_adds kd (factor kd k lo) m (x, t) ss ss'.
Proof.
  intros m ss kd lo n k x t W Hk Hin Hx Ht Hsm HD0.
  assert (HD : loss_defined kd t (cnn_value ss x)).
  { destruct (c69_predict m ss kd lo n k x W Hx) as (m' & E & _). exact (HD0 _ _ E). }
  clear HD0. pose proof (cn_shape _ _ _ _ _ _ W) as HS.
  destruct (cnn_forward ss n k x HS Hx) as (ss1 & EF & Ly & _ & _).
  destruct (loss_fwd kd lo t (cnn_value ss x) k Hk Ht Ly Hin HD) as (lo1 & EL & T1 & I1 & G1 & V1 & Lo1 & C1).
  assert (HG1 : length (ls_grad lo1) = k) by (rewrite G1; apply W).
  pose proof (loss_bwd kd lo1 t (cnn_value ss x) k Hk T1 Ht Ly HG1 HD) as EB.
  set (g := tab k (fun i => factor kd k lo1 * nth i (loss_grad kd t (cnn_value ss x)) 0)) in *.
  assert (Hg : length g = k) by apply tab_length.
  assert (Ff : factor kd k lo1 = factor kd k lo) by (unfold factor; rewrite V1; reflexivity).
  (* the chain rule along any curve of the layers *)
  assert (V : forall cs, map cbase cs = ss -> Forall cok cs -> exists (run : R -> list (cnode R)) y w,
    (forall s, gforward cnn_ops (map (fun c => cat c s) cs) x = Ok (run s, y s)) /\ vec_deriv k y w /\
    run 0 = ss1 /\ y 0 = cnn_value ss x /\
    exists ss' gx, gbackward cnn_ops ss1 x g = Ok (ss', gx) /\ dotl k g w = gterms cs ss' /\
      Forall2 ckept ss ss' /\ gshape cnode_shape ss' n k).
  { intros cs Hb Hok.
    destruct (gchain_vjp cnn_ops cok cnode_shape cnode_smooth ckept cnode_vjp cok_0 cs n k (fun _ => x) (repeat 0 n))
      as (run & y & w & F & D & B).
    - rewrite Hb. now apply cshape_g.
    - exact Hok.
    - rewrite <- Hx. apply const_deriv.
    - rewrite Hb. eapply csmooth_g; eauto.
    - assert (A0 : map (fun c => cat c 0) cs = ss).
      { rewrite <- Hb. apply map_ext_in. intros c Hc. apply cok_0. rewrite Forall_forall in Hok. auto. }
      pose proof (F 0) as F0. rewrite A0, EF in F0. injection F0 as R0 Y0.
      exists run, y, w. split; [exact F|]. split; [exact D|]. split; [auto|]. split; [auto|].
      destruct (B g Hg) as (ss' & gx & E & L & Q & K & G). rewrite <- R0 in E.
      exists ss', gx. split; [exact E|]. split; [rewrite Q, dotl_zero; ring|]. rewrite Hb in K. auto. }
  assert (Hst : Forall cok (map still ss)).
  { apply Forall_forall. intros c Hc. apply in_map_iff in Hc. destruct Hc as (s & <- & Hs).
    pose proof (cshape_all _ _ _ HS) as HA. rewrite Forall_forall in HA. destruct (HA s Hs) as (i & j & X). eapply still_ok; eauto. }
  destruct (V (map still ss)) as (_ & _ & _ & _ & _ & _ & _ & ss2 & gx & EC & _ & P3 & S2); auto.
  { rewrite map_map. rewrite (map_ext _ (fun s => s)) by apply still_base. apply map_id. }
  assert (LL : length ss2 = length ss) by (exact (Forall2_len _ _ _ P3)).
  exists (mkModel (mgraph m) (splace 0 (ss2 ++ [CO kd (set_grad lo1 g)]))), ss2, (set_grad lo1 g).
  split.
  { eapply (step_chain cnn_ops (length ss) m ss (CO kd lo) x t ss1 (cnn_value ss x) (CO kd lo1)); try apply W; auto.
    - cbn [cnn_ops o_tforward o_target c_target c_forward]. rewrite EL. reflexivity.
    - cbn [cnn_ops o_backward c_backward]. rewrite EB. reflexivity.
    - exact EC. }
  split.
  { constructor; cbn [mgraph mnodes]; rewrite ?LL.
    - apply W.
    - apply W.
    - apply splace_fst.
    - now apply cshape_g.
    - exact Hg. }
  split; [exact P3|]. split; [exact I1|]. split; [exact V1|].
  split; [change (ls_loss (set_grad lo1 g)) with (ls_loss lo1); rewrite Lo1; exact (ccost_cnn m ss kd lo n k x t W Hx)|].
  split; [change (ls_cum (set_grad lo1 g)) with (ls_cum lo1); change (ls_loss (set_grad lo1 g)) with (ls_loss lo1); rewrite C1, Lo1; reflexivity|].
  intros q s Eq. pose proof Eq as Eq'. apply nth_error_split in Eq'. destruct Eq' as (pre & post & Ess & Hq). subst q.
  (* any curve of the parameters of layer q *)
  assert (G : forall c, cbase c = s -> cok c -> (forall z, csame_sizes s (cat c z)) ->
    exists d, derivable_pt_lim (fun z => loss_value kd t (cnn_value (pre ++ cat c z :: post) x)) 0 d /\
      (forall z, ccost kd (cput m (length pre) (cat c z)) x t (loss_value kd t (cnn_value (pre ++ cat c z :: post) x))) /\
      exists s', nth_error ss2 (length pre) = Some s' /\ ckept s s' /\ factor kd k lo * d = cterm c s').
  { intros c Hb Hok Hsz.
    assert (Mb : map cbase (map still pre ++ c :: map still post) = ss).
    { rewrite map_app, map_cons, !map_map, Hb, !(map_ext (fun z => cbase (still z)) (fun z => z)) by apply still_base.
      rewrite !map_id. symmetry. exact Ess. }
    assert (Hall : Forall cok (map still pre ++ c :: map still post)).
    { rewrite Ess, map_app, map_cons in Hst. apply Forall_app in Hst. destruct Hst as (X & Y). inversion Y; subst.
      apply Forall_app. split; [exact X|]. constructor; assumption. }
    destruct (V _ Mb Hall) as (run & y & w & F & D & R0 & Y0 & ss' & gx' & E' & Q & _).
    rewrite EC in E'. injection E' as <- <-.
    assert (WS : forall z, cnn (cput m (length pre) (cat c z)) (pre ++ cat c z :: post) kd lo n k).
    { intros z. rewrite <- (upd_mid pre s post (cat c z)), <- Ess. eapply cput_cnn; eauto. }
    assert (YS : forall z, y z = cnn_value (pre ++ cat c z :: post) x).
    { intros z. destruct (cnn_forward _ n k x (cn_shape _ _ _ _ _ _ (WS z)) Hx) as (ls' & E' & _).
      specialize (F z). rewrite map_app, map_cons, !map_map, !(map_ext (fun a => cat (still a) z) (fun a => a)) in F by apply still_at.
      rewrite !map_id in F. rewrite F in E'. congruence. }
    assert (HD0 : loss_defined kd t (y 0)) by (rewrite Y0; exact HD).
    pose proof (loss_curve kd t k y w D Hk HD0) as DL. rewrite Y0 in DL.
    exists (dotl k (loss_grad kd t (cnn_value ss x)) w). split.
    { eapply derivable_pt_lim_ext; [|exact DL]. intros z. cbn beta. now rewrite YS. }
    split; [intros z; exact (ccost_cnn _ _ kd lo n k x t (WS z) Hx)|].
    rewrite Ess in P3. destruct (Forall2_mid _ _ _ _ _ P3) as (l1 & s' & l2 & -> & L1 & K).
    exists s'. split; [rewrite <- L1; apply nth_error_mid|]. split; [exact K|].
    rewrite terms_mid in Q by exact L1. rewrite <- Q. unfold g. rewrite dotl_scale, Ff. reflexivity. }
  assert (X : exists s', nth_error ss2 (length pre) = Some s').
  { destruct (nth_error ss2 (length pre)) eqn:EN; [eauto|]. apply nth_error_None in EN.
    rewrite LL, Ess, app_length in EN. cbn in EN. lia. }
  destruct X as (s' & El'). exists s'. split; [exact El'|].
  destruct (cnode_at m _ kd lo n k (length pre) s W Eq) as (src & EN).
  destruct s as [l|c|p|kd' lo']; cbn [weights biases wgrads bgrads].
  - split; intros p Hp.
    + destruct (G (cc_layer (wcurve l p)) eq_refl (ok_layer _ (wcurve_ok l p Hp)) (fun z => move_weight_sizes (CL l) p z))
        as (d & D & C & s0 & E0 & K & Q).
      rewrite El' in E0. injection E0 as <-. destruct s' as [l'| | |]; try contradiction. exists d. split.
      * exists (CL l), src. eexists. split; [exact EN|]. split; [exact C|exact D].
      * rewrite Q. cbn [wgrads cc_layer cterm wcurve dw db base]. unfold unit_vec at 1. rewrite tab_length, ddot_unit, ddot_zero by auto. ring.
    + destruct (G (cc_layer (bcurve l p)) eq_refl (ok_layer _ (bcurve_ok l p Hp)) (fun z => move_bias_sizes (CL l) p z))
        as (d & D & C & s0 & E0 & K & Q).
      rewrite El' in E0. injection E0 as <-. destruct s' as [l'| | |]; try contradiction. exists d. split.
      * exists (CL l), src. eexists. split; [exact EN|]. split; [exact C|exact D].
      * rewrite Q. cbn [bgrads cc_layer cterm bcurve dw db base]. unfold unit_vec at 1. rewrite tab_length, ddot_unit, ddot_zero by auto. ring.
  - split; intros p Hp.
    + destruct (G (cc_conv c (line (cv_w c) p) (fun _ => cv_b c) (unit_vec (length (cv_w c)) p)) eq_refl)
        as (d & D & C & s0 & E0 & K & Q).
      { apply ok_conv; [now apply line_deriv|apply line_0|reflexivity]. }
      { intros z. exact (move_weight_sizes (CV c) p z). }
      rewrite El' in E0. injection E0 as <-. destruct s' as [|c'| |]; try contradiction. exists d. split.
      * exists (CV c), src. eexists. split; [exact EN|]. split; [exact C|exact D].
      * rewrite Q. cbn [wgrads cc_conv cterm]. unfold unit_vec at 1. rewrite tab_length, ddot_unit by auto. ring.
    + destruct (G (cc_conv c (fun _ => cv_w c) (line (cv_b c) p) (repeat 0 (length (cv_w c)))) eq_refl)
        as (d & D & C & s0 & E0 & K & Q).
      { apply ok_conv; [apply const_deriv|reflexivity|apply line_0]. }
      { intros z. exact (move_bias_sizes (CV c) p z). }
      exists (CV c), src. eexists. split; [exact EN|]. split; [exact C|].
      apply (derivable_pt_lim_ext (fun _ => loss_value kd t (cnn_value ss x))); [|apply dlim_const].
      intros z. rewrite Ess. unfold cnn_value. rewrite !fold_left_app. reflexivity.
  - split; intros q Hq; cbn in Hq; lia.
  - split; intros q Hq; cbn in Hq; lia.
Qed.
Print Assumptions c69_step_partial.

(** *** What is false *)
(** [cstep_adds] for every parameter: also the biases of the convolutions. *)
Definition cstep_adds_all kd (f : R) (m : model (cnode R)) (xt : list R * list R) (ss ss' : list (cnode R)) : Prop :=
  forall q s, nth_error ss q = Some s -> exists s', nth_error ss' q = Some s' /\
    (forall p, (p < length (weights s))%nat -> exists d, cwpartial kd m q p xt d /\
       nth p (wgrads s') 0 = nth p (wgrads s) 0 + f * d) /\
    (forall p, (p < length (biases s))%nat -> exists d, cbpartial kd m q p xt d /\
       nth p (bgrads s') 0 = nth p (bgrads s) 0 + f * d).

Lemma cnn_chain ss kd lo n k : (2 <= length ss)%nat -> cshape ss n k -> length (ls_grad lo) = k ->
  exists m, cnn m ss kd lo n k.
Proof.
  intros HL HS HG. destruct (c36_built true (length ss) HL) as (s & E & H1 & H2 & H3 & H4 & H5).
  exists (mkModel s (map (fun s => (s, SNull)) (ss ++ [CO kd lo]))). constructor; cbn [mgraph mnodes].
  - exact (is_chain_built _ _ true (length ss) E HL H1 H2 H3 H4 H5).
  - lia.
  - rewrite map_map. cbn [fst]. apply map_id.
  - exact HS.
  - exact HG.
Qed.

(** One 1x1 filter with weight 1 on one pixel, then a linear activation. *)
Definition ex_conv1 : convl R := mkConv 1 1 1 1 1 1 1 1 0 0 1 1 [1] [0] [0] [0] [0] [0].
Definition ex_lin : layer R := mkLayer (KAct Linear) 1 [] [] [] [] [0] [0].
Lemma ex_conv1_shape : cshape [CV ex_conv1; CL ex_lin] 1 1.
Proof.
  exists 1%nat. split; [|exists 1%nat; split; [|reflexivity]]; cbn [cnode_shape].
  - unfold conv_shape. cbn [ex_conv1 cv_H cv_W cv_C cv_kh cv_kw cv_nf cv_sh cv_sw cv_ph cv_pw cv_oh cv_ow cv_w cv_b cv_wg cv_bg cv_out cv_ig].
    split; [lia|]. split; [lia|]. split; [lia|]. split; [split; reflexivity|]. split; [split; reflexivity|].
    split; [lia|]. split; [split; reflexivity|]. split; split; reflexivity.
  - split; [reflexivity|]. split; [reflexivity|]. split; [reflexivity|]. cbn. split; [reflexivity|]. lia.
Qed.

Lemma cbpartial_unique kd m q p xt d1 d2 : cbpartial kd m q p xt d1 -> cbpartial kd m q p xt d2 -> d1 = d2.
Proof.
  intros (s & o & C & E & HC & D) (s' & o' & C' & E' & HC' & D'). rewrite E in E'. injection E' as <- <-.
  assert (X : forall t, C t = C' t).
  { intros t. destruct (HC t) as (m1 & y1 & E1 & ->), (HC' t) as (m2 & y2 & E2 & ->). rewrite E1 in E2. injection E2 as _ ->. reflexivity. }
  eapply uniqueness_limite; [exact D|]. eapply derivable_pt_lim_ext; [|exact D']. intros t. symmetry. apply X.
Qed.
Lemma cwpartial_unique kd m q p xt d1 d2 : cwpartial kd m q p xt d1 -> cwpartial kd m q p xt d2 -> d1 = d2.
Proof.
  intros (s & o & C & E & HC & D) (s' & o' & C' & E' & HC' & D'). rewrite E in E'. injection E' as <- <-.
  assert (X : forall t, C t = C' t).
  { intros t. destruct (HC t) as (m1 & y1 & E1 & ->), (HC' t) as (m2 & y2 & E2 & ->). rewrite E1 in E2. injection E2 as _ ->. reflexivity. }
  eapply uniqueness_limite; [exact D|]. eapply derivable_pt_lim_ext; [|exact D']. intros t. symmetry. apply X.
Qed.

(** The gradient of a convolution's bias is not the partial derivative (0). *)
Theorem c69_step_bias_refuted : exists m ss kd lo n k x t m' ss' lo',
  cnn m ss kd lo n k /\ (0 < k)%nat /\ ls_in lo = k /\ length x = n /\ length t = k /\ csmooth ss x /\
  (forall m' y, m_predict cnn_ops m x = Ok (m', y) -> loss_defined kd t y) /\
  m_step cnn_ops m x t = Ok m' /\ cnn m' ss' kd lo' n k /\
  ~ cstep_adds_all kd (factor kd k lo) m (x, t) ss ss'.
Proof.
  destruct (cnn_chain [CV ex_conv1; CL ex_lin] (MSE 1) (loss_new 1 1) 1 1 ltac:(cbn; lia) ex_conv1_shape eq_refl) as (m & W).
  assert (HM : csmooth [CV ex_conv1; CL ex_lin] [1]) by (cbn; tauto).
  destruct (c69_step_partial m _ (MSE 1) _ 1 1 [1] [0] W (Nat.lt_0_1) eq_refl eq_refl eq_refl HM (fun _ _ _ => I))
    as (m' & ss' & lo' & E & W' & K & _ & _ & _ & _ & A).
  exists m, [CV ex_conv1; CL ex_lin], (MSE 1), (loss_new 1 1), 1%nat, 1%nat, [1], [0], m', ss', lo'.
  split; [exact W|]. split; [lia|]. split; [reflexivity|]. split; [reflexivity|]. split; [reflexivity|]. split; [exact HM|].
  split; [intros; exact I|]. split; [exact E|]. split; [exact W'|].
  intros HA. destruct (A 0%nat (CV ex_conv1) eq_refl) as (s' & E1 & _ & B1). specialize (B1 0%nat Nat.lt_0_1).
  destruct (HA 0%nat (CV ex_conv1) eq_refl) as (s2 & E2 & _ & B2). rewrite E1 in E2. injection E2 as <-.
  destruct (B2 0%nat Nat.lt_0_1) as (d & P & Q). rewrite (cbpartial_unique _ _ _ _ _ _ _ P B1) in Q. clear A HA B1 B2 P.
  (* what the step really leaves *)
  set (lo := loss_new 1 1) in *.
  destruct (loss_fwd (MSE 1) lo [0] [0 + 1 * 1] 1) as (lo1 & EL & T1 & I1 & G1 & V1 & _); try reflexivity; try lia.
  pose proof (loss_bwd (MSE 1) lo1 [0] [0 + 1 * 1] 1 Nat.lt_0_1 T1 eq_refl eq_refl ltac:(rewrite G1; reflexivity) I) as EB.
  set (g := factor (MSE 1) 1 lo1 * nth 0 (loss_grad (MSE 1) [0] [0 + 1 * 1]) 0) in *.
  change (tab 1 (fun i => factor (MSE 1) 1 lo1 * nth i (loss_grad (MSE 1) [0] [0 + 1 * 1]) 0)) with [g] in EB.
  assert (S : m_step cnn_ops m [1] [0] = Ok (mkModel (mgraph m) (splace 0 ([CV (mkConv 1 1 1 1 1 1 1 1 0 0 1 1 [1] [0] [0 + 1 * g] [0 + g] [0 + 1 * 1] [0 + 1 * g]);
      CL (mkLayer (KAct Linear) 1 [] [] [] [] [0 + 1 * 1] [g])] ++ [CO (MSE 1) (set_grad lo1 [g])])))).
  { eapply (step_chain cnn_ops 2 m [CV ex_conv1; CL ex_lin] (CO (MSE 1) lo) [1] [0] _ _ (CO (MSE 1) lo1)).
    - apply W.
    - lia.
    - apply W.
    - reflexivity.
    - cbv -[Rplus Rmult IZR]. reflexivity.
    - cbn [cnn_ops o_tforward o_target c_target c_forward]. rewrite EL. reflexivity.
    - cbn [cnn_ops o_backward c_backward]. rewrite EB. reflexivity.
    - generalize g. intros g0. cbv -[Rplus Rmult IZR]. reflexivity. }
  rewrite S in E. apply (f_equal (fun r => match r with Ok v => mnodes v | _ => [] end)) in E. cbn [mnodes] in E.
  pose proof (cn_nodes _ _ _ _ _ _ W') as N. rewrite <- E, splace_fst in N.
  destruct ss' as [|a ss']; [discriminate|]. cbn [app] in N. injection N as <- N. cbn in E1. injection E1 as <-.
  cbn [bgrads ex_conv1 cv_bg nth] in Q.
  assert (G : g = 2).
  { unfold g, factor, loss_grad. rewrite V1. cbn. unfold nofnat. cbn. field. }
  rewrite G in Q. lra.
Qed.
Print Assumptions c69_step_bias_refuted.

(** Nor are the weight gradients right before an average pooling: one 1x1 filter with weight 1 on
    two pixels, then their mean. *)
Definition ex_conv2 : convl R := mkConv 1 2 1 1 1 1 1 1 0 0 1 2 [1] [0] [0] [0] [0; 0] [0; 0].
Definition ex_avg : pooll R := mkPool false 1 2 1 1 2 1 1 [0] [0; 0].
Lemma ex_conv2_shape : cshape [CV ex_conv2; CP ex_avg] 2 1.
Proof.
  exists 2%nat. split; [|exists 1%nat; split; [|reflexivity]]; cbn [cnode_shape].
  - unfold conv_shape. cbn [ex_conv2 cv_H cv_W cv_C cv_kh cv_kw cv_nf cv_sh cv_sw cv_ph cv_pw cv_oh cv_ow cv_w cv_b cv_wg cv_bg cv_out cv_ig].
    split; [lia|]. split; [lia|]. split; [lia|]. split; [split; reflexivity|]. split; [split; reflexivity|].
    split; [lia|]. split; [split; reflexivity|]. split; split; reflexivity.
  - unfold pool_shape. cbn [ex_avg pl_H pl_W pl_C pl_kh pl_kw pl_sh pl_sw pl_out pl_ig].
    split; [lia|]. split; [lia|]. split; [lia|]. split; [split; reflexivity|]. split; [split; reflexivity|]. split; reflexivity.
Qed.

Theorem c69_step_average_refuted : exists m ss kd lo n k x t m' ss' lo' q p s s' d,
  cnn m ss kd lo n k /\ (0 < k)%nat /\ ls_in lo = k /\ length x = n /\ length t = k /\
  m_step cnn_ops m x t = Ok m' /\ cnn m' ss' kd lo' n k /\
  nth_error ss q = Some s /\ nth_error ss' q = Some s' /\ (p < length (weights s))%nat /\
  cwpartial kd m q p (x, t) d /\ nth p (wgrads s') 0 <> nth p (wgrads s) 0 + factor kd k lo * d.
Proof.
  set (lo := loss_new 1 1 : lossl R).
  destruct (cnn_chain [CV ex_conv2; CP ex_avg] (MSE 1) lo 2 1 ltac:(cbn; lia) ex_conv2_shape eq_refl) as (m & W).
  destruct (loss_fwd (MSE 1) lo [0] [(0 + (0 + 1 * 1) + (0 + 1 * 1)) / 2] 1) as (lo1 & EL & T1 & I1 & G1 & V1 & _); try reflexivity; try lia.
  pose proof (loss_bwd (MSE 1) lo1 [0] [(0 + (0 + 1 * 1) + (0 + 1 * 1)) / 2] 1 Nat.lt_0_1 T1 eq_refl eq_refl ltac:(rewrite G1; reflexivity) I) as EB.
  set (g := factor (MSE 1) 1 lo1 * nth 0 (loss_grad (MSE 1) [0] [(0 + (0 + 1 * 1) + (0 + 1 * 1)) / 2]) 0) in *.
  change (tab 1 (fun i => factor (MSE 1) 1 lo1 * nth i (loss_grad (MSE 1) [0] [(0 + (0 + 1 * 1) + (0 + 1 * 1)) / 2]) 0)) with [g] in EB.
  set (c2 := mkConv 1 2 1 1 1 1 1 1 0 0 1 2 [1] [0] [0 + 1 * 0 + 1 * (0 + g / 2)] [0 + 0 + (0 + g / 2)] [0 + 1 * 1; 0 + 1 * 1]
      [0 + 1 * 0; 0 + 1 * (0 + g / 2)]).
  set (p2 := mkPool false 1 2 1 1 2 1 1 [(0 + (0 + 1 * 1) + (0 + 1 * 1)) / 2] [0; 0 + g / 2]).
  set (m' := mkModel (mgraph m) (splace 0 ([CV c2; CP p2] ++ [CO (MSE 1) (set_grad lo1 [g])]))).
  assert (S : m_step cnn_ops m [1; 1] [0] = Ok m').
  { unfold m'. eapply (step_chain cnn_ops 2 m [CV ex_conv2; CP ex_avg] (CO (MSE 1) lo) [1; 1] [0] _ _ (CO (MSE 1) lo1)).
    - apply W.
    - lia.
    - apply W.
    - reflexivity.
    - cbv -[Rplus Rmult Rdiv IZR]. reflexivity.
    - cbn [cnn_ops o_tforward o_target c_target c_forward]. rewrite EL. reflexivity.
    - cbn [cnn_ops o_backward c_backward]. rewrite EB. reflexivity.
    - unfold c2, p2. generalize g. intros g0. cbv -[Rplus Rmult Rdiv IZR]. reflexivity. }
  assert (HS' : cshape [CV c2; CP p2] 2 1).
  { destruct ex_conv2_shape as (j & A & B). exists j. split.
    - exact A.
    - exact B. }
  exists m, [CV ex_conv2; CP ex_avg], (MSE 1), lo, 2%nat, 1%nat, [1; 1], [0], m', [CV c2; CP p2], (set_grad lo1 [g]), 0%nat, 0%nat, (CV ex_conv2), (CV c2), 2.
  split; [exact W|]. split; [lia|]. split; [reflexivity|]. split; [reflexivity|]. split; [reflexivity|]. split; [exact S|].
  split.
  { constructor; cbn [m' mgraph mnodes].
    - apply W.
    - cbn. lia.
    - apply splace_fst.
    - exact HS'.
    - reflexivity. }
  split; [reflexivity|]. split; [reflexivity|]. split; [cbn; lia|].
  destruct (cnode_at m _ _ _ _ _ 0 (CV ex_conv2) W eq_refl) as (o & EN).
  split.
  - exists (CV ex_conv2), o, (fun z => (1 + z) ^ 2). split; [exact EN|]. split.
    + intros z. pose proof (cput_cnn m _ _ _ _ _ 0 _ _ W eq_refl (move_weight_sizes (CV ex_conv2) 0 z)) as Wz.
      pose proof (ccost_cnn _ _ _ _ _ _ [1; 1] [0] Wz eq_refl) as C. cbn [fst snd].
      replace ((1 + z) ^ 2) with (loss_value (MSE 1) [0] (cnn_value (upd [CV ex_conv2; CP ex_avg] 0 (move_weight (CV ex_conv2) 0 z)) [1; 1])); [exact C|].
      cbv -[Rplus Rmult Rdiv Rinv Rminus IZR pow Ropp]. field.
    + eapply dlim_eq.
      * apply (dlim_comp (fun z => 1 + z) (fun u => u ^ 2)); [|apply derivable_pt_lim_pow].
        apply (dlim_plus (fun _ => 1) (fun z => z)); [apply dlim_const|apply dlim_id].
      * simpl. ring.
  - cbn [wgrads ex_conv2 c2 cv_wg nth].
    assert (G : g = 2).
    { unfold g, factor, loss_grad. rewrite V1. cbn. unfold nofnat. cbn. field. }
    rewrite G. replace (factor (MSE 1) 1 lo) with 1 by (cbn; unfold nofnat; cbn; field). lra.
Qed.
Print Assumptions c69_step_average_refuted.

(** *** The hypotheses of c69_predict and c69_step_partial can be met *)
(** A 1x2 filter on a 1x5 image, 1x2 max pooling, a dense layer. *)
Definition ex_cnn : list (cnode R) :=
  [CV (mkConv 1 5 1 1 2 1 1 1 0 0 1 4 [1; 1] [0] [0; 0] [0] [0; 0; 0; 0] [0; 0; 0; 0; 0]);
   CP (mkPool true 1 4 1 1 2 1 2 [0; 0] [0; 0; 0; 0]);
   CL (mkLayer KDense 2 [1; -1] [3] [0; 0] [0] [0] [0; 0])].
Example c69_hypotheses_met : exists m, cnn m ex_cnn (MSE 1) (loss_new 1 1) 5 1 /\ csmooth ex_cnn [1; 2; 3; 4; 5] /\ cnn_value ex_cnn [1; 2; 3; 4; 5] = [-1].
Proof.
  assert (HS : cshape ex_cnn 5 1).
  { exists 4%nat. split; [|exists 2%nat; split; [|exists 1%nat; split; [|reflexivity]]]; cbn [cnode_shape].
    - unfold conv_shape. cbn [cv_H cv_W cv_C cv_kh cv_kw cv_nf cv_sh cv_sw cv_ph cv_pw cv_oh cv_ow cv_w cv_b cv_wg cv_bg cv_out cv_ig].
      split; [lia|]. split; [lia|]. split; [lia|]. split; [split; reflexivity|]. split; [split; reflexivity|].
      split; [lia|]. split; [split; reflexivity|]. split; split; reflexivity.
    - unfold pool_shape. cbn [pl_H pl_W pl_C pl_kh pl_kw pl_sh pl_sw pl_out pl_ig].
      split; [lia|]. split; [lia|]. split; [lia|]. split; [split; reflexivity|]. split; [split; reflexivity|]. split; reflexivity.
    - split; [reflexivity|]. split; [reflexivity|]. split; [reflexivity|]. cbn. auto. }
  destruct (cnn_chain ex_cnn (MSE 1) (loss_new 1 1) 5 1 ltac:(cbn; lia) HS eq_refl) as (m & W).
  exists m. split; [exact W|].
  assert (C1 : node_value (nth 0 ex_cnn (CO CCE (loss_new 0 0))) [1; 2; 3; 4; 5] = [3; 5; 7; 9]).
  { cbv -[Rplus Rmult IZR]. repeat f_equal; ring. }
  split.
  - cbn [csmooth ex_cnn]. split; [exact I|]. cbn [nth ex_cnn] in C1. rewrite C1. split; [|split; exact I].
    cbn [cnode_smooth pl_max]. split; [reflexivity|]. intros r c ch Hr Hc Hch.
    change (r < 1)%nat in Hr. change (c < 2)%nat in Hc. cbn [pl_C] in Hch. exists 1%nat. cbn [pl_kh pl_kw].
    split; [lia|]. split; [|lia]. intros i Hi Hne. assert (i = 0%nat) by lia. subst i.
    destruct r as [|]; [|lia]. destruct ch as [|]; [|lia]. destruct c as [|[|]]; [| |lia]; cbv -[Rlt IZR]; lra.
  - unfold cnn_value, ex_cnn. cbn [fold_left]. cbn [nth ex_cnn] in C1. rewrite C1.
    assert (C2 : node_value (nth 1 ex_cnn (CO CCE (loss_new 0 0))) [3; 5; 7; 9] = [5; 9]).
    { cbv -[Rplus Rmult IZR Rmax]. rewrite !Rmax_right by lra. reflexivity. }
    cbn [nth ex_cnn] in C2. rewrite C2. cbv -[Rplus Rmult IZR Ropp]. f_equal. ring.
Qed.
