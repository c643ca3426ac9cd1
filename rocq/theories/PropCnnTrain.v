(** C71: training a convolutional network. *)
From Coq Require Import Reals Lra.
From Verif Require Import Base Num RSum DatasetModel MathModel MathProofs ConvModel ConvSpec LayerModel LossModel LossSpec PropLoss OptModel OptProofs
  GraphModel ModelModel NodeModel ChainProofs ModelProofs GradSpec GradProofs GradChain PropModel TrainProofs FitModel PropFit PropStep PropDescent
  CnnModel CnnSpec CnnProofs StepProofs PropCnn.
Local Open Scope R_scope.

(** *** What the statement says *)
(** The layers with parameters. *)
Definition learns (s : cnode R) : Prop := match s with CL l => knd l = KDense | CV _ => True | _ => False end.
(** No gradient is pending (the bias gradients of a convolution do not matter). *)
Definition ccleared (s : cnode R) : Prop :=
  learns s -> (forall p, nth p (wgrads s) 0 = 0) /\ match s with CV _ => True | _ => forall p, nth p (bgrads s) 0 = 0 end.
(** The same layer up to parameters and buffers. *)
Definition same_layer (s s' : cnode R) : Prop :=
  match s, s' with
  | CL l, CL l' => knd l' = knd l
  | CV c, CV c' => exists w b wg bg o ig, c' = conv_with c w b wg bg o ig
  | CP p, CP p' => exists o ig, p' = pool_with p o ig
  | CO _ _, CO _ _ => True
  | _, _ => False
  end.
(** Every weight, and every bias outside the convolutions, moved by - eta * f * (the sum over the
    rows of the partial derivatives of the cost of [m]). *)
Definition cgd_moved kd (f eta : R) (m : model (cnode R)) (rows : row_list) (m' : model (cnode R)) : Prop :=
  length (mnodes m') = length (mnodes m) /\
  forall q s o, nth_error (mnodes m) q = Some (s, o) -> exists s' o', nth_error (mnodes m') q = Some (s', o') /\
    same_layer s s' /\ length (weights s') = length (weights s) /\ length (biases s') = length (biases s) /\
    (learns s ->
      (forall p, (p < length (weights s))%nat -> exists ds, Forall2 (cwpartial kd m q p) rows ds /\
         nth p (weights s') 0 = nth p (weights s) 0 - eta * (f * sum ds)) /\
      match s with
      | CV _ => True
      | _ => forall p, (p < length (biases s))%nat -> exists ds, Forall2 (cbpartial kd m q p) rows ds /\
         nth p (biases s') 0 = nth p (biases s) 0 - eta * (f * sum ds)
      end) /\
    (~ learns s -> weights s' = weights s /\ biases s' = biases s).
(** A row the network can be trained on. *)
Definition crow_ok kd m (ss : list (cnode R)) n k (xt : list R * list R) : Prop :=
  length (fst xt) = n /\ length (snd xt) = k /\ csmooth ss (fst xt) /\
  forall m' y, m_predict cnn_ops m (fst xt) = Ok (m', y) -> loss_defined kd (snd xt) y.
Definition csteps (rows : row_list) (m : model (cnode R)) : res (model (cnode R)) :=
  foldM (fun m xt => m_step cnn_ops m (fst xt) (snd xt)) rows m.
Definition cbatch (eta : R) (rows : row_list) (m : model (cnode R)) : res (model (cnode R)) :=
  m1 <- cnn_reset_score m ;; m2 <- csteps rows m1 ;; cnn_train eta m2.

(** *** Values depend on sizes and parameters only *)
Definition calike (s s' : cnode R) : Prop :=
  match s, s' with
  | CL l, CL l' => like_params l l'
  | CV c, CV c' => exists b wg bg o ig, c' = conv_with c (cv_w c) b wg bg o ig
  | CP p, CP p' => exists o ig, p' = pool_with p o ig
  | _, _ => False
  end.
Lemma ckept_alike s s' : ckept s s' -> calike s s'.
Proof.
  destruct s, s'; cbn; auto.
  - intros (A & _ & B & C). split; auto.
  - intros (wg & bg & o & ig & E). eauto 10.
Qed.
Lemma calike_trans s1 s2 s3 : calike s1 s2 -> calike s2 s3 -> calike s1 s3.
Proof.
  destruct s1, s2, s3; cbn; try contradiction.
  - intros (A & B & C) (A' & B' & C'). repeat split; congruence.
  - intros (b1 & wg & bg & o & ig & ->) (b2 & wg' & bg' & o' & ig' & ->). exists b2, wg', bg', o', ig'. reflexivity.
  - intros (o & ig & ->) (o' & ig' & ->). exists o', ig'. reflexivity.
Qed.
Lemma ckept_sym s s' : ckept s s' -> ckept s' s.
Proof.
  destruct s, s'; cbn; try contradiction.
  - intros (A & B & C & D). repeat split; congruence.
  - intros (wg & bg & o & ig & ->). exists (cv_wg c), (cv_bg c), (cv_out c), (cv_ig c). now destruct c.
  - intros (o & ig & ->). exists (pl_out p), (pl_ig p). now destruct p.
Qed.
Lemma ckept_trans s1 s2 s3 : ckept s1 s2 -> ckept s2 s3 -> ckept s1 s3.
Proof.
  destruct s1, s2, s3; cbn; try contradiction.
  - intros (A & B & C & D) (A' & B' & C' & D'). repeat split; congruence.
  - intros (wg & bg & o & ig & ->) (wg' & bg' & o' & ig' & ->). exists wg', bg', o', ig'. reflexivity.
  - intros (o & ig & ->) (o' & ig' & ->). exists o', ig'. reflexivity.
Qed.
Lemma ckept_refl s n k : cnode_shape s n k -> ckept s s.
Proof.
  destruct s; cbn; [intros _; repeat split| | |contradiction].
  - intros _. exists (cv_wg c), (cv_bg c), (cv_out c), (cv_ig c). now destruct c.
  - intros _. exists (pl_out p), (pl_ig p). now destruct p.
Qed.
Lemma calike_size s s' n k k' : calike s s' -> cnode_shape s n k -> cnode_shape s' n k' -> k' = k.
Proof.
  destruct s, s'; cbn; try contradiction.
  - intros (K & Kw & Kb) (_ & _ & _ & S4) (_ & _ & _ & S4'). rewrite K in S4'. destruct (knd l); [|destruct S4, S4'; congruence].
    destruct S4 as (_ & _ & X & _), S4' as (_ & _ & X' & _). congruence.
  - intros (b & wg & bg & o & ig & ->) S1 S2. destruct S1 as (_ & _ & _ & _ & _ & (_ & ->) & _), S2 as (_ & _ & _ & _ & _ & (_ & ->) & _). reflexivity.
  - intros (o & ig & ->) S1 S2. destruct S1 as (_ & _ & _ & _ & (_ & ->) & _), S2 as (_ & _ & _ & _ & (_ & ->) & _). reflexivity.
Qed.
Lemma calike_value s s' n k x : calike s s' -> cnode_shape s n k -> cnode_shape s' n k -> node_value s' x = node_value s x.
Proof.
  destruct s, s'; cbn [calike cnode_shape node_value]; try contradiction.
  - intros (K & Kw & Kb) (_ & _ & O & _) (_ & _ & O' & _). unfold layer_sem. rewrite K, Kw, Kb, O, O'. reflexivity.
  - intros (b & wg & bg & o & ig & ->) _ _. reflexivity.
  - intros (o & ig & ->) _ _. reflexivity.
Qed.
Lemma cnn_value_alike : forall ss ss' n k k' x, Forall2 calike ss ss' -> cshape ss n k -> cshape ss' n k' -> length x = n ->
  cnn_value ss' x = cnn_value ss x.
Proof.
  induction ss as [|s ss IH]; intros ss' n k k' x P HS HS' Hx; inversion P as [|? s' ? ss0 P1 P2]; subst; [reflexivity|].
  destruct HS as (j & A & B), HS' as (j' & A' & B').
  assert (j' = j) by exact (calike_size s s' _ _ _ P1 A A'). subst j'.
  unfold cnn_value. cbn [fold_left]. rewrite (calike_value s s' _ _ x P1 A A').
  destruct (cnode_forward s _ j x A eq_refl) as (_ & _ & _ & L & _). exact (IH ss0 j k k' _ P2 B B' L).
Qed.
Lemma all_kept_alike ss ss' : Forall2 ckept ss ss' -> Forall2 calike ss ss'.
Proof. induction 1; constructor; auto using ckept_alike. Qed.
Lemma all_kept_sym ss ss' : Forall2 ckept ss ss' -> Forall2 ckept ss' ss.
Proof. induction 1; constructor; auto using ckept_sym. Qed.
Lemma all_kept_trans : forall s1 s2 s3, Forall2 ckept s1 s2 -> Forall2 ckept s2 s3 -> Forall2 ckept s1 s3.
Proof. induction s1; intros s2 s3 A B; inversion A; subst; inversion B; subst; constructor; eauto using ckept_trans. Qed.
Lemma all_kept_refl : forall ss n k, cshape ss n k -> Forall2 ckept ss ss.
Proof. induction ss as [|s ss IH]; intros n k HS; constructor; destruct HS as (j & A & B); eauto using ckept_refl. Qed.

Lemma cpredict_cnn m ss kd lo n k x m' y : cnn m ss kd lo n k -> length x = n -> m_predict cnn_ops m x = Ok (m', y) -> y = cnn_value ss x.
Proof. intros W Hx E. destruct (c69_predict m ss kd lo n k x W Hx) as (m2 & E2 & _). rewrite E in E2. now injection E2. Qed.
Lemma ccost_alike kd m m' ss ss' lo lo' n k x t c : cnn m ss kd lo n k -> cnn m' ss' kd lo' n k -> Forall2 calike ss ss' ->
  length x = n -> ccost kd m x t c -> ccost kd m' x t c.
Proof.
  intros W W' P Hx (m1 & y & E & ->). rewrite (cpredict_cnn m ss kd lo n k x m1 y W Hx E).
  rewrite <- (cnn_value_alike ss ss' n k k x P (cn_shape _ _ _ _ _ _ W) (cn_shape _ _ _ _ _ _ W') Hx).
  exact (ccost_cnn m' ss' kd lo' n k x t W' Hx).
Qed.
Lemma cnode_of (m : model (cnode R)) ss kd lo n k q s o : cnn m ss kd lo n k -> nth_error (mnodes m) q = Some (s, o) ->
  nth_error ss q = Some s \/ q = length ss /\ s = CO kd lo.
Proof.
  intros W E. pose proof (cn_nodes _ _ _ _ _ _ W) as N.
  assert (X : nth_error (map fst (mnodes m)) q = Some s) by (rewrite nth_error_map, E; reflexivity).
  rewrite N in X. destruct (Nat.lt_ge_cases q (length ss)) as [Hq|Hq].
  - rewrite nth_error_app1 in X by exact Hq. auto.
  - rewrite nth_error_app2 in X by exact Hq. destruct (q - length ss)%nat as [|[|]] eqn:D; try discriminate.
    injection X as <-. right. split; [lia|reflexivity].
Qed.

Lemma move_weight_kept s s' p t : ckept s s' -> ckept (move_weight s p t) (move_weight s' p t).
Proof.
  destruct s, s'; cbn [ckept move_weight]; auto.
  - intros (K1 & K2 & K3 & K4). unfold same_params, with_weight. cbn [knd insz wts bias]. rewrite K3. auto.
  - intros (wg & bg & o & ig & ->). exists wg, bg, o, ig. reflexivity.
Qed.
Lemma move_bias_kept s s' p t : ckept s s' -> ckept (move_bias s p t) (move_bias s' p t).
Proof.
  destruct s, s'; cbn [ckept move_bias]; auto.
  - intros (K1 & K2 & K3 & K4). unfold same_params, with_bias. cbn [knd insz wts bias]. rewrite K4. auto.
  - intros (wg & bg & o & ig & ->). exists wg, bg, o, ig. reflexivity.
Qed.
Lemma cmove_kept (mv : cnode R -> R -> cnode R) kd m m' ss ss' lo lo' n k q s s' x t c z :
  (forall s z, csame_sizes s (mv s z)) -> (forall s s' z, ckept s s' -> ckept (mv s z) (mv s' z)) ->
  cnn m ss kd lo n k -> cnn m' ss' kd lo' n k -> Forall2 ckept ss ss' -> length x = n ->
  nth_error ss q = Some s -> nth_error ss' q = Some s' ->
  ccost kd (cput m q (mv s z)) x t c -> ccost kd (cput m' q (mv s' z)) x t c.
Proof.
  intros SZ KP W W' P Hx E E'.
  assert (P1 : ckept s s') by (destruct (Forall2_nth_error _ _ _ _ _ P E) as (s2 & E2 & K); rewrite E' in E2; injection E2 as <-; exact K).
  apply (ccost_alike kd _ _ (upd ss q (mv s z)) (upd ss' q (mv s' z)) lo lo' n k x t c).
  - exact (cput_cnn _ _ _ _ _ _ _ _ _ W E (SZ s z)).
  - exact (cput_cnn _ _ _ _ _ _ _ _ _ W' E' (SZ s' z)).
  - apply all_kept_alike. apply Forall2_upd2; [exact P|]. apply KP. exact P1.
  - exact Hx.
Qed.
Lemma cwpartial_kept kd m m' ss ss' lo lo' n k q p xt d : cnn m ss kd lo n k -> cnn m' ss' kd lo' n k ->
  Forall2 ckept ss ss' -> length (fst xt) = n -> (q < length ss)%nat -> cwpartial kd m q p xt d -> cwpartial kd m' q p xt d.
Proof.
  intros W W' P Hx Hq (s & o & C & E & HC & D).
  destruct (cnode_of m ss kd lo n k q s o W E) as [El|(? & _)]; [|lia].
  destruct (Forall2_nth_error _ _ _ _ _ P El) as (s' & El' & Pl).
  destruct (cnode_at m' ss' kd lo' n k q s' W' El') as (o' & E').
  exists s', o', C. split; [exact E'|]. split; [|exact D]. intros z.
  exact (cmove_kept (fun s z => move_weight s p z) kd m m' ss ss' lo lo' n k q s s' _ _ _ z
    (fun s z => move_weight_sizes s p z) (fun s s' z => move_weight_kept s s' p z) W W' P Hx El El' (HC z)).
Qed.
Lemma cbpartial_kept kd m m' ss ss' lo lo' n k q p xt d : cnn m ss kd lo n k -> cnn m' ss' kd lo' n k ->
  Forall2 ckept ss ss' -> length (fst xt) = n -> (q < length ss)%nat -> cbpartial kd m q p xt d -> cbpartial kd m' q p xt d.
Proof.
  intros W W' P Hx Hq (s & o & C & E & HC & D).
  destruct (cnode_of m ss kd lo n k q s o W E) as [El|(? & _)]; [|lia].
  destruct (Forall2_nth_error _ _ _ _ _ P El) as (s' & El' & Pl).
  destruct (cnode_at m' ss' kd lo' n k q s' W' El') as (o' & E').
  exists s', o', C. split; [exact E'|]. split; [|exact D]. intros z.
  exact (cmove_kept (fun s z => move_bias s p z) kd m m' ss ss' lo lo' n k q s s' _ _ _ z
    (fun s z => move_bias_sizes s p z) (fun s s' z => move_bias_kept s s' p z) W W' P Hx El El' (HC z)).
Qed.
Lemma csmooth_kept : forall ss ss' n k x, Forall2 ckept ss ss' -> cshape ss n k -> cshape ss' n k -> length x = n ->
  csmooth ss x -> csmooth ss' x.
Proof.
  induction ss as [|s ss IH]; intros ss' n k x P HS HS' Hx; inversion P as [|? s' ? ss0 P1 P2]; subst; auto.
  destruct HS as (j & A & B), HS' as (j' & A' & B').
  assert (j' = j) by exact (calike_size s s' _ _ _ (ckept_alike _ _ P1) A A'). subst j'.
  cbn [csmooth]. rewrite (calike_value s s' _ _ x (ckept_alike _ _ P1) A A'). intros (S1 & S2). split.
  - clear - P1 S1 A A'. destruct s, s'; cbn [ckept cnode_smooth] in *; try contradiction; auto.
    + destruct P1 as (K1 & K2 & K3 & K4). destruct A as (_ & _ & O & _), A' as (_ & _ & O' & _). unfold layer_smooth in *. rewrite K1, ?O, ?O', ?K3, ?K4 in *. exact S1.
    + destruct P1 as (o & ig & ->). exact S1.
  - destruct (cnode_forward s _ j x A eq_refl) as (_ & _ & _ & L & _). exact (IH ss0 j k _ P2 B B' L S2).
Qed.

(** *** Several steps *)
Definition csteps_add kd (f : R) (m : model (cnode R)) (rows : row_list) (ss ss' : list (cnode R)) : Prop :=
  forall q s, nth_error ss q = Some s -> exists s', nth_error ss' q = Some s' /\
    (forall p, (p < length (weights s))%nat -> exists ds, Forall2 (cwpartial kd m q p) rows ds /\
       nth p (wgrads s') 0 = nth p (wgrads s) 0 + f * sum ds) /\
    match s with
    | CV _ => True
    | _ => forall p, (p < length (biases s))%nat -> exists ds, Forall2 (cbpartial kd m q p) rows ds /\
         nth p (bgrads s') 0 = nth p (bgrads s) 0 + f * sum ds
    end.
Lemma ckept_params s s' : ckept s s' -> weights s' = weights s /\ biases s' = biases s.
Proof.
  destruct s, s'; cbn; try contradiction; auto.
  - now intros (_ & _ & A & B).
  - intros (wg & bg & o & ig & ->). auto.
Qed.

Lemma csteps_spec kd n k : (0 < k)%nat -> forall rows m ss lo, cnn m ss kd lo n k -> ls_in lo = k ->
  Forall (crow_ok kd m ss n k) rows ->
  exists m' ss' lo' cs, csteps rows m = Ok m' /\ cnn m' ss' kd lo' n k /\ Forall2 ckept ss ss' /\
    ls_in lo' = k /\ ls_inv lo' = ls_inv lo /\
    Forall2 (fun xt c => ccost kd m (fst xt) (snd xt) c) rows cs /\ ls_cum lo' = ls_cum lo + sum cs /\
    csteps_add kd (factor kd k lo) m rows ss ss'.
Proof.
  intros Hk. induction rows as [|(x, t) rows IH]; intros m ss lo W Hin HR.
  - exists m, ss, lo, []. unfold csteps. cbn [foldM sum fold_right]. rewrite Rplus_0_r.
    split; [reflexivity|]. split; [exact W|]. split; [exact (all_kept_refl _ _ _ (cn_shape _ _ _ _ _ _ W))|]. split; [exact Hin|]. split; [reflexivity|].
    split; [constructor|]. split; [reflexivity|].
    intros q s E. exists s. split; [exact E|]. split.
    + intros p Hp; exists []; (split; [constructor|]); unfold sum; cbn [fold_right]; ring.
    + destruct s; auto; intros p' Hp; exists []; (split; [constructor|]); unfold sum; cbn [fold_right]; ring.
  - assert (X : crow_ok kd m ss n k (x, t) /\ Forall (crow_ok kd m ss n k) rows) by (inversion HR; auto).
    destruct X as ((Hx & Ht & Hsm & HD) & HR'). cbn [fst snd] in *.
    destruct (c69_step_partial m ss kd lo n k x t W Hk Hin Hx Ht Hsm HD)
      as (m1 & ss1 & lo1 & E1 & W1 & P1 & I1 & V1 & C1 & K1 & A1).
    assert (SZ : Forall (fun xt => length (fst xt) = n) rows) by (rewrite Forall_forall in *; intros r Hr; apply (HR' r Hr)).
    destruct (IH m1 ss1 lo1 W1 I1) as (m2 & ss2 & lo2 & cs & E2 & W2 & P2 & I2 & V2 & C2 & K2 & A2).
    { rewrite Forall_forall in HR' |- *. intros (x', t') Hin'. destruct (HR' _ Hin') as (Q1 & Q2 & Q3 & Q4). cbn [fst snd] in *.
      split; [exact Q1|]. split; [exact Q2|]. split.
      - exact (csmooth_kept ss ss1 n k x' P1 (cn_shape _ _ _ _ _ _ W) (cn_shape _ _ _ _ _ _ W1) Q1 Q3).
      - intros m' y E. cbn [fst snd] in E. rewrite (cpredict_cnn m1 ss1 kd lo1 n k x' m' y W1 Q1 E).
        destruct (c69_predict m ss kd lo n k x' W Q1) as (m4 & E4 & _).
        rewrite (cnn_value_alike ss ss1 n k k x' (all_kept_alike _ _ P1) (cn_shape _ _ _ _ _ _ W) (cn_shape _ _ _ _ _ _ W1) Q1). exact (Q4 _ _ E4). }
    exists m2, ss2, lo2, (ls_loss lo1 :: cs). pose proof (all_kept_trans _ _ _ P1 P2) as P3.
    split; [unfold csteps in *; cbn [foldM fst snd]; rewrite E1; cbn [bind]; exact E2|].
    split; [exact W2|]. split; [exact P3|]. split; [exact I2|]. split; [congruence|].
    split.
    { constructor; [exact C1|]. eapply Forall2_impl_in; [exact SZ| |exact C2]. cbn beta. intros (x', t') c Hx' Q.
      exact (ccost_alike kd m1 m ss1 ss lo1 lo n k _ _ _ W1 W (all_kept_alike _ _ (all_kept_sym _ _ P1)) Hx' Q). }
    split; [rewrite K2, K1; cbn [sum fold_right]; fold (sum cs); ring|].
    intros q s Es. destruct (A1 q s Es) as (s1 & Es1 & B1 & B1'). destruct (A2 q s1 Es1) as (s2 & Es2 & B2 & B2').
    destruct (Forall2_nth_error _ _ _ _ _ P1 Es) as (s1' & Es1' & K). rewrite Es1 in Es1'. injection Es1' as <-.
    assert (Ff : factor kd k lo1 = factor kd k lo) by (unfold factor; now rewrite V1). rewrite Ff in *.
    destruct (ckept_params _ _ K) as (Kw & Kb).
    assert (Hq : (q < length ss1)%nat) by (apply nth_error_Some; congruence).
    exists s2. split; [exact Es2|]. split.
    + intros p Hp. destruct (B1 p Hp) as (d & D & Q). destruct (B2 p ltac:(now rewrite Kw)) as (ds & Ds & Q').
      exists (d :: ds). split; [constructor; [exact D|]|rewrite Q', Q; cbn [sum fold_right]; fold (sum ds); ring].
      eapply Forall2_impl_in; [exact SZ| |exact Ds]. cbn beta. intros xt c Hx'.
      exact (cwpartial_kept kd m1 m ss1 ss lo1 lo n k q p xt c W1 W (all_kept_sym _ _ P1) Hx' Hq).
    + assert (G : (forall p, (p < length (biases s))%nat -> exists d, cbpartial kd m q p (x, t) d /\ nth p (bgrads s1) 0 = nth p (bgrads s) 0 + factor kd k lo * d) ->
        (forall p, (p < length (biases s1))%nat -> exists ds, Forall2 (cbpartial kd m1 q p) rows ds /\ nth p (bgrads s2) 0 = nth p (bgrads s1) 0 + factor kd k lo * sum ds) ->
        forall p, (p < length (biases s))%nat -> exists ds, Forall2 (cbpartial kd m q p) ((x, t) :: rows) ds /\
         nth p (bgrads s2) 0 = nth p (bgrads s) 0 + factor kd k lo * sum ds).
      { intros B B' p Hp. destruct (B p Hp) as (d & D & Q). destruct (B' p ltac:(now rewrite Kb)) as (ds & Ds & Q').
        exists (d :: ds). split; [constructor; [exact D|]|rewrite Q', Q; cbn [sum fold_right]; fold (sum ds); ring].
        eapply Forall2_impl_in; [exact SZ| |exact Ds]. cbn beta. intros xt c Hx'.
        exact (cbpartial_kept kd m1 m ss1 ss lo1 lo n k q p xt c W1 W (all_kept_sym _ _ P1) Hx' Hq). }
      clear - G B1' B2' K. destruct s, s1; cbn [ckept] in K; try contradiction; auto.
Qed.

(** *** Training *)
Definition ctrained (eta : R) (s : cnode R) : cnode R :=
  match s with
  | CL l => CL (trained eta l)
  | CV c => CV (conv_with c (moved eta (cv_w c) (cv_wg c)) (moved eta (cv_b c) (cv_bg c))
      (repeat 0 (length (cv_wg c))) (repeat 0 (length (cv_bg c))) (cv_out c) (cv_ig c))
  | s => s
  end.
Lemma c_train_node eta s n k : cnode_shape s n k -> c_train eta s = Ok (ctrained eta s).
Proof.
  destruct s as [l|c|p|kd lo]; intros HS; try reflexivity.
  - pose proof (n_train_layer eta l n k HS) as E. unfold n_train in E. unfold c_train, ctrained.
    destruct (gd_train eta (layer_player l)); cbn [bind] in *; try discriminate. now injection E as ->.
  - cbn [cnode_shape] in HS. destruct HS as (_ & _ & _ & _ & _ & _ & (A1 & A2) & (A3 & A4) & _).
    unfold c_train, ctrained, conv_player, gd_train. cbn [pk pblocks gblocks].
    destruct (gd_train2_spec 0 eta (PConv (cv_kh c * cv_kw c) (cv_C c) (cv_nf c)) [cv_w c; cv_b c] [cv_wg c; cv_bg c])
      as (P' & G' & E & BP & BG & CP & CG).
    + unfold blocks_ok. cbn. congruence.
    + unfold blocks_ok. cbn. congruence.
    + rewrite E. cbn [bind].
      assert (HP : P' = [moved eta (cv_w c) (cv_wg c); moved eta (cv_b c) (cv_bg c)]).
      { apply concat_inj.
        - unfold blocks_ok in BP. rewrite BP. unfold moved. cbn. rewrite !tab_length. congruence.
        - rewrite CP. cbn [concat]. rewrite !app_nil_r. unfold moved. cbn [pcount].
          replace (cv_kh c * cv_kw c * cv_C c * cv_nf c + cv_nf c)%nat with (length (cv_w c) + length (cv_b c))%nat by (rewrite A1, A3; ring).
          rewrite tab_app. f_equal.
          + apply tab_ext. intros i Hi. rewrite !app_nth1 by lia. reflexivity.
          + apply tab_ext. intros i Hi. rewrite !app_nth2 by lia. do 2 f_equal; f_equal; lia. }
      assert (HG : G' = [repeat 0 (length (cv_wg c)); repeat 0 (length (cv_bg c))]).
      { apply concat_inj.
        - unfold blocks_ok in BG. rewrite BG. cbn. rewrite !repeat_length. congruence.
        - rewrite CG. cbn [concat pcount]. rewrite !app_nil_r, <- repeat_app. f_equal. rewrite A2, A4. reflexivity. }
      subst P' G'. reflexivity.
Qed.
Lemma ctrained_shape eta s n k : cnode_shape s n k -> cnode_shape (ctrained eta s) n k.
Proof.
  destruct s as [l|c|p|kd lo]; cbn [cnode_shape ctrained]; auto.
  - apply trained_shape.
  - intros (H1 & H2 & H3 & H4 & H5 & H6 & H7 & H8 & H9). unfold conv_shape. cbn [conv_with cv_H cv_W cv_C cv_kh cv_kw cv_nf cv_sh cv_sw cv_ph cv_pw cv_oh cv_ow cv_w cv_b cv_wg cv_bg cv_out cv_ig].
    unfold moved. rewrite !tab_length, !repeat_length. auto 10.
Qed.
Lemma ctrained_cshape eta : forall ss n k, cshape ss n k -> cshape (map (ctrained eta) ss) n k.
Proof. induction ss as [|s ss IH]; intros n k; cbn; auto. intros (j & A & B). exists j. split; [now apply ctrained_shape|auto]. Qed.
Lemma ccnn_train eta m ss kd lo n k : cnn m ss kd lo n k ->
  exists m', cnn_train eta m = Ok m' /\ cnn m' (map (ctrained eta) ss) kd lo n k.
Proof.
  intros W. unfold cnn_train. pose proof (cn_shape _ _ _ _ _ _ W) as S0. pose proof (cn_nodes _ _ _ _ _ _ W) as EN.
  assert (G : forall ns ss n k, cshape ss n k -> map fst ns = ss ++ [CO kd lo] ->
    exists ns', mapM (fun sp : cnode R * source => s' <- c_train eta (fst sp) ;; Ok (s', snd sp)) ns = Ok ns' /\
      map fst ns' = map (ctrained eta) ss ++ [CO kd lo]).
  { clear. induction ns as [|(s, p) ns IH]; intros ss n k HS E.
    - destruct ss; discriminate.
    - destruct ss as [|l ss].
      + cbn in E. injection E as -> E. apply map_eq_nil in E. subst ns.
        exists [(CO kd lo, p)]. split; reflexivity.
      + cbn [map app fst] in E. injection E as -> E. destruct HS as (j & HL & HS).
        destruct (IH ss j k HS E) as (ns' & E1 & E2).
        exists ((ctrained eta l, p) :: ns'). cbn [mapM fst snd]. rewrite (c_train_node eta l n j HL).
        cbn [bind]. rewrite E1. cbn [bind map fst app]. rewrite E2. auto. }
  destruct (G (mnodes m) ss n k S0 EN) as (ns' & E1 & E2). rewrite E1. cbn [bind].
  eexists. split; [reflexivity|].
  destruct W. constructor; cbn [mgraph mnodes]; rewrite ?map_length; auto using ctrained_cshape.
Qed.
Lemma creset_network (m : model (cnode R)) ss kd lo n k : cnn m ss kd lo n k ->
  exists m', cnn_reset_score m = Ok m' /\ cnn m' ss kd (reset_score lo) n k.
Proof.
  intros W. unfold cnn_reset_score. rewrite (ic_losses _ _ _ (cn_graph _ _ _ _ _ _ W)). cbn [foldM].
  destruct (exists_last (l := mnodes m)) as (rest & (q, lp) & EN).
  { intros Hn. pose proof (cn_nodes _ _ _ _ _ _ W) as E0. rewrite Hn in E0. destruct ss; discriminate. }
  pose proof (cn_nodes _ _ _ _ _ _ W) as E0. rewrite EN, map_app in E0. cbn [map fst] in E0.
  apply app_inj_tail in E0. destruct E0 as (E1 & ->).
  assert (LL : length rest = length ss) by (apply (f_equal (@length _)) in E1; rewrite !map_length in E1; exact E1).
  rewrite EN. rewrite (rd_app_mid rest _ [] _ LL). cbn [bind].
  rewrite (wr_app_mid rest _ _ [] _ LL). cbn [bind]. eexists. split; [reflexivity|].
  destruct W. constructor; cbn [mgraph mnodes reset_score ls_grad]; auto.
  rewrite map_app, E1. reflexivity.
Qed.

Lemma trained_knd eta (l : layer R) : knd (trained eta l) = knd l.
Proof. unfold trained. destruct (knd l) eqn:K; auto. Qed.
Lemma same_layer_trained eta s s2 n k : cnode_shape s n k -> ckept s s2 -> same_layer s (ctrained eta s2).
Proof.
  destruct s, s2; cbn [cnode_shape ckept ctrained same_layer]; try contradiction; intros _.
  - intros (K & _). rewrite trained_knd. exact K.
  - intros (wg & bg & o & ig & ->). unfold conv_with. cbn. eauto 10.
  - auto.
Qed.
Lemma cshape_nth : forall ss n k q s, cshape ss n k -> nth_error ss q = Some s -> exists i j, cnode_shape s i j.
Proof.
  intros ss n k q s HS E. pose proof (cshape_all _ _ _ HS) as HA. rewrite Forall_forall in HA. apply HA. eapply nth_error_In; eauto.
Qed.

Theorem c71_batch_partial : forall eta m ss kd lo n k rows,
  cnn m ss kd lo n k -> (0 < k)%nat -> ls_in lo = k -> Forall ccleared ss ->
  Forall (crow_ok kd m ss n k) rows ->
  exists m' ss' lo' cs, cbatch eta rows m = Ok m' /\ cnn m' ss' kd lo' n k /\
    ls_in lo' = k /\ ls_inv lo' = ls_inv lo /\ Forall ccleared ss' /\
    Forall2 (fun xt c => ccost kd m (fst xt) (snd xt) c) rows cs /\ ls_cum lo' = sum cs /\
    cgd_moved kd (factor kd k lo) eta m rows m'.
Proof.
  intros eta m ss kd lo n k rows W Hk Hin HC HR.
  destruct (creset_network m ss kd lo n k W) as (m1 & E1 & W1).
  assert (RF : Forall2 ckept ss ss) by exact (all_kept_refl _ _ _ (cn_shape _ _ _ _ _ _ W)).
  destruct (csteps_spec kd n k Hk rows m1 ss (reset_score lo) W1 Hin) as (m2 & ss2 & lo2 & cs & E2 & W2 & P2 & I2 & V2 & C2 & K2 & A2).
  { eapply Forall_impl; [|exact HR]. intros (x, t) (Q1 & Q2 & Q3 & Q4). split; [exact Q1|]. split; [exact Q2|]. split; [exact Q3|].
    cbn [fst snd] in *. intros m' y E. rewrite (cpredict_cnn m1 ss kd _ n k x m' y W1 Q1 E).
    destruct (c69_predict m ss kd lo n k x W Q1) as (m4 & E4 & _). exact (Q4 _ _ E4). }
  destruct (ccnn_train eta m2 ss2 kd lo2 n k W2) as (m3 & E3 & W3).
  exists m3, (map (ctrained eta) ss2), lo2, cs.
  assert (SZ : Forall (fun xt : list R * list R => length (fst xt) = n) rows) by (eapply Forall_impl; [|exact HR]; intros xt Q; apply Q).
  split; [unfold cbatch; rewrite E1; cbn [bind]; rewrite E2; exact E3|]. split; [exact W3|]. split; [exact I2|]. split; [exact V2|].
  split.
  { rewrite Forall_map. apply Forall_forall. intros s _. unfold ccleared. destruct s as [l|c|p|]; cbn [ctrained learns]; try tauto.
    - rewrite trained_knd. unfold trained. intros K. rewrite K. cbn [wgrads bgrads wgrad bgrad]. split; intros p; apply nth_repeat.
    - intros _. cbn [wgrads conv_with cv_wg]. split; [intros p; apply nth_repeat|exact I]. }
  split.
  { eapply Forall2_impl_in; [exact SZ| |exact C2]. intros (x, t) c Hx Q.
    exact (ccost_alike kd m1 m ss ss _ lo n k x t c W1 W (all_kept_alike _ _ RF) Hx Q). }
  split; [rewrite K2; cbn [reset_score ls_cum]; change (@n0 R NumR) with 0; ring|].
  split.
  { pose proof (f_equal (@length _) (cn_nodes _ _ _ _ _ _ W)) as L1. pose proof (f_equal (@length _) (cn_nodes _ _ _ _ _ _ W3)) as L3.
    rewrite !map_length, app_length in L1. rewrite map_length, app_length, map_length in L3. rewrite L1, L3. f_equal. exact (Forall2_len _ _ _ P2). }
  intros q s o E. destruct (cnode_of m ss kd lo n k q s o W E) as [El|(-> & ->)].
  2:{ assert (X : exists s' o', nth_error (mnodes m3) (length ss) = Some (s', o') /\ s' = CO kd lo2).
      { pose proof (cn_nodes _ _ _ _ _ _ W3) as N. assert (L2 : length (map (ctrained eta) ss2) = length ss) by (rewrite map_length; exact (Forall2_len _ _ _ P2)).
        assert (Y : nth_error (map fst (mnodes m3)) (length ss) = Some (CO kd lo2)) by (rewrite N, nth_error_app2, L2, Nat.sub_diag by lia; reflexivity).
        rewrite nth_error_map in Y. destruct (nth_error (mnodes m3) (length ss)) as [(s', o')|]; [|discriminate]. injection Y as ->. eauto. }
      destruct X as (s' & o' & X & ->). exists (CO kd lo2), o'. split; [exact X|]. cbn. repeat split; tauto. }
  destruct (A2 q s El) as (s2 & El2 & B & B').
  destruct (Forall2_nth_error _ _ _ _ _ P2 El) as (s2' & El2' & KK). rewrite El2 in El2'. injection El2' as <-.
  destruct (cnode_at m3 _ kd lo2 n k q (ctrained eta s2) W3 (map_nth_error _ _ _ El2)) as (o' & E').
  exists (ctrained eta s2), o'. split; [exact E'|].
  pose proof (proj1 (Forall_forall _ _) HC s (nth_error_In _ _ El)) as CL.
  assert (Hq : (q < length ss)%nat) by (apply nth_error_Some; congruence).
  destruct (cshape_nth _ _ _ _ _ (cn_shape _ _ _ _ _ _ W) El) as (i & j & HSs).
  split; [exact (same_layer_trained eta s s2 i j HSs KK)|].
  assert (Fe : factor kd k (reset_score lo) = factor kd k lo) by reflexivity. rewrite Fe in *.
  assert (G : forall (a ga ga0 : list R) (part part' : nat -> list R * list R -> R -> Prop),
    (forall p, nth p ga0 0 = 0) -> (forall p xt d, length (fst xt) = n -> part' p xt d -> part p xt d) ->
    (forall p, (p < length a)%nat -> exists ds, Forall2 (part' p) rows ds /\ nth p ga 0 = nth p ga0 0 + factor kd k lo * sum ds) ->
    forall p, (p < length a)%nat -> exists ds, Forall2 (part p) rows ds /\ nth p (moved eta a ga) 0 = nth p a 0 - eta * (factor kd k lo * sum ds)).
  { intros a ga ga0 part part' Z T0 HB p Hp. destruct (HB p Hp) as (ds & D & Q). exists ds. split.
    - eapply Forall2_impl_in; [exact SZ| |exact D]. intros xt d Hx. apply T0; exact Hx.
    - unfold moved. rewrite nth_tab by exact Hp. change (@n0 R NumR) with 0. cbn [nsub nmul NumR]. rewrite Q, Z. ring. }
  assert (TW : forall p xt d, length (fst xt) = n -> cwpartial kd m1 q p xt d -> cwpartial kd m q p xt d)
    by (intros p xt d Hx; exact (cwpartial_kept kd m1 m ss ss _ lo n k q p xt d W1 W RF Hx Hq)).
  assert (TB : forall p xt d, length (fst xt) = n -> cbpartial kd m1 q p xt d -> cbpartial kd m q p xt d)
    by (intros p xt d Hx; exact (cbpartial_kept kd m1 m ss ss _ lo n k q p xt d W1 W RF Hx Hq)).
  destruct (ckept_params _ _ KK) as (Kw & Kb).
  destruct s as [l|c|p|], s2 as [l2|c2|p2|]; cbn [ckept] in KK; try contradiction;
    cbn [ctrained weights biases wgrads bgrads learns] in *.
  - destruct KK as (K3 & _). unfold trained. rewrite K3. destruct (knd l) eqn:K.
    + cbn [wts bias]. assert (Lw : length (moved eta (wts l2) (wgrad l2)) = length (wts l)) by (unfold moved; now rewrite tab_length, Kw).
      assert (Lb : length (moved eta (bias l2) (bgrad l2)) = length (bias l)) by (unfold moved; now rewrite tab_length, Kb).
      split; [exact Lw|]. split; [exact Lb|]. split; [|tauto]. intros _. destruct (CL K) as (Z1 & Z2). rewrite Kw, Kb.
      split; [exact (G _ _ _ _ _ Z1 TW B)|exact (G _ _ _ _ _ Z2 TB B')].
    + rewrite Kw, Kb. split; [reflexivity|]. split; [reflexivity|]. split; [discriminate|]. auto.
  - cbn [conv_with cv_w cv_b]. unfold moved at 1 2. rewrite !tab_length, Kw, Kb. split; [reflexivity|]. split; [reflexivity|]. split; [|tauto].
    intros _. split; [|exact I]. destruct (CL I) as (Z1 & _). exact (G _ _ _ _ _ Z1 TW B).
  - cbn. repeat split; tauto.
Qed.
Print Assumptions c71_batch_partial.

(** *** Biases of convolutions *)
Lemma Forall2_upd1 {A} (P : A -> A -> Prop) : forall l q a x, Forall2 P l l -> nth_error l q = Some a -> P a x -> Forall2 P l (upd l q x).
Proof.
  induction l as [|b l IH]; intros [|q] a x F E HP; try discriminate; inversion F; subst; cbn in *; constructor; eauto.
  now injection E as ->.
Qed.
(** Changing all biases of a convolution changes no prediction. *)
Theorem c71_bias_ignored : forall m ss kd lo n k q c b x, cnn m ss kd lo n k -> nth_error ss q = Some (CV c) -> length b = length (cv_b c) ->
  length x = n -> exists m1 m2 y, m_predict cnn_ops m x = Ok (m1, y) /\ m_predict cnn_ops (cput m q (CV (conv_at c (cv_w c) b))) x = Ok (m2, y).
Proof.
  intros m ss kd lo n k q c b x W E Hb Hx.
  pose proof (cput_cnn m ss kd lo n k q (CV c) (CV (conv_at c (cv_w c) b)) W E (conv_at_sizes c (cv_w c) b eq_refl Hb)) as W'.
  destruct (c69_predict m ss kd lo n k x W Hx) as (m1 & E1 & _). destruct (c69_predict _ _ kd lo n k x W' Hx) as (m2 & E2 & _).
  exists m1, m2, (cnn_value ss x). split; [exact E1|]. rewrite E2. do 2 f_equal.
  apply (cnn_value_alike ss _ n k k x); [|apply W|apply W'|exact Hx].
  eapply Forall2_upd1; [apply all_kept_alike; exact (all_kept_refl _ _ _ (cn_shape _ _ _ _ _ _ W))|exact E|].
  cbn [calike]. unfold conv_at. eauto 10.
Qed.
Print Assumptions c71_bias_ignored.

(** Yet training moves them: [cgd_moved] for every parameter is false. *)
Definition cgd_moved_all kd (f eta : R) (m : model (cnode R)) (rows : row_list) (m' : model (cnode R)) : Prop :=
  forall q s o, nth_error (mnodes m) q = Some (s, o) -> exists s' o', nth_error (mnodes m') q = Some (s', o') /\
    (learns s ->
      (forall p, (p < length (weights s))%nat -> exists ds, Forall2 (cwpartial kd m q p) rows ds /\
         nth p (weights s') 0 = nth p (weights s) 0 - eta * (f * sum ds)) /\
      (forall p, (p < length (biases s))%nat -> exists ds, Forall2 (cbpartial kd m q p) rows ds /\
         nth p (biases s') 0 = nth p (biases s) 0 - eta * (f * sum ds))).
Lemma ex_conv1_step (m : model (cnode R)) : cnn m [CV ex_conv1; CL ex_lin] (MSE 1) (loss_new 1 1) 1 1 ->
  exists m' c l lo', m_step cnn_ops m [1] [0] = Ok m' /\ cnn m' [CV c; CL l] (MSE 1) lo' 1 1 /\ cv_b c = [0] /\ cv_bg c = [0 + 2].
Proof.
  intros W. set (lo := loss_new 1 1) in *.
  destruct (loss_fwd (MSE 1) lo [0] [0 + 1 * 1] 1) as (lo1 & EL & T1 & I1 & G1 & V1 & _); try reflexivity; try lia.
  pose proof (loss_bwd (MSE 1) lo1 [0] [0 + 1 * 1] 1 Nat.lt_0_1 T1 eq_refl eq_refl ltac:(rewrite G1; reflexivity) I) as EB.
  set (g := factor (MSE 1) 1 lo1 * nth 0 (loss_grad (MSE 1) [0] [0 + 1 * 1]) 0) in *.
  change (tab 1 (fun i => factor (MSE 1) 1 lo1 * nth i (loss_grad (MSE 1) [0] [0 + 1 * 1]) 0)) with [g] in EB.
  set (c := mkConv 1 1 1 1 1 1 1 1 0 0 1 1 [1] [0] [0 + 1 * g] [0 + g] [0 + 1 * 1] [0 + 1 * g]).
  set (l := mkLayer (KAct Linear) 1 [] [] [] [] [0 + 1 * 1] [g]).
  exists (mkModel (mgraph m) (splace 0 ([CV c; CL l] ++ [CO (MSE 1) (set_grad lo1 [g])]))), c, l, (set_grad lo1 [g]).
  split.
  { eapply (step_chain cnn_ops 2 m [CV ex_conv1; CL ex_lin] (CO (MSE 1) lo) [1] [0] _ _ (CO (MSE 1) lo1)).
    - apply W.
    - lia.
    - apply W.
    - reflexivity.
    - cbv -[Rplus Rmult IZR]. reflexivity.
    - cbn [cnn_ops o_tforward o_target c_target c_forward]. rewrite EL. reflexivity.
    - cbn [cnn_ops o_backward c_backward]. rewrite EB. reflexivity.
    - unfold c, l. generalize g. intros g0. cbv -[Rplus Rmult IZR]. reflexivity. }
  split.
  { constructor; cbn [mgraph mnodes].
    - apply W.
    - cbn. lia.
    - apply splace_fst.
    - destruct ex_conv1_shape as (j & A & B). exists j. split; [exact A|exact B].
    - reflexivity. }
  split; [reflexivity|]. cbn [c cv_bg]. do 2 f_equal. unfold g, factor, loss_grad. rewrite V1. cbn. unfold nofnat. cbn. field.
Qed.
Theorem c71_bias_refuted : exists m ss kd lo n k rows m',
  cnn m ss kd lo n k /\ (0 < k)%nat /\ ls_in lo = k /\ Forall ccleared ss /\ Forall (crow_ok kd m ss n k) rows /\
  cbatch 1 rows m = Ok m' /\ ~ cgd_moved_all kd (factor kd k lo) 1 m rows m'.
Proof.
  destruct (cnn_chain [CV ex_conv1; CL ex_lin] (MSE 1) (loss_new 1 1) 1 1 ltac:(cbn; lia) ex_conv1_shape eq_refl) as (m & W).
  destruct (creset_network m _ _ _ _ _ W) as (m1 & E1 & W1). change (reset_score (loss_new 1 1)) with (loss_new (T := R) 1 1) in W1.
  destruct (ex_conv1_step m1 W1) as (m2 & c & l & lo2 & E2 & W2 & B & BG).
  destruct (ccnn_train 1 m2 _ _ _ _ _ W2) as (m3 & E3 & W3).
  exists m, [CV ex_conv1; CL ex_lin], (MSE 1), (loss_new 1 1), 1%nat, 1%nat, [([1], [0])], m3.
  assert (HM : csmooth [CV ex_conv1; CL ex_lin] [1]) by (cbn; tauto).
  split; [exact W|]. split; [lia|]. split; [reflexivity|]. split.
  { constructor; [|constructor; [|constructor]]; unfold ccleared; cbn; [|discriminate].
    intros _. split; [|exact I]. intros [|[|p]]; reflexivity. }
  split; [constructor; [|constructor]; split; [reflexivity|]; split; [reflexivity|]; split; [exact HM|intros; exact I]|].
  split; [unfold cbatch; rewrite E1; cbn [bind]; unfold csteps; cbn [foldM fst snd]; rewrite E2; cbn [bind]; exact E3|].
  intros HA. destruct (cnode_at m _ _ _ _ _ 0 (CV ex_conv1) W eq_refl) as (o & EN).
  destruct (HA 0%nat _ o EN) as (s' & o' & EN' & HL). destruct (HL I) as (_ & HB). destruct (HB 0%nat Nat.lt_0_1) as (ds & F & Q).
  destruct (cnode_of _ _ _ _ _ _ _ _ _ W3 EN') as [El|(X & _)]; [|discriminate]. cbn [map nth_error] in El. injection El as <-.
  cbn [ctrained biases conv_with cv_b ex_conv1 nth] in Q. rewrite B, BG in Q.
  inversion F as [|? d ? ds' D F']; subst. inversion F'; subst.
  destruct (c69_step_partial m _ (MSE 1) _ 1 1 [1] [0] W (Nat.lt_0_1) eq_refl eq_refl eq_refl HM (fun _ _ _ => I))
    as (m' & ss' & lo' & _ & _ & _ & _ & _ & _ & _ & A).
  destruct (A 0%nat (CV ex_conv1) eq_refl) as (s' & _ & _ & B1). specialize (B1 0%nat Nat.lt_0_1).
  rewrite (cbpartial_unique _ _ _ _ _ _ _ D B1) in Q. unfold sum, moved in Q. cbn in Q. lra.
Qed.
Print Assumptions c71_bias_refuted.

(** *** Whole runs *)
Inductive cgd_run kd (f eta : R) : list row_list -> model (cnode R) -> model (cnode R) -> Prop :=
| cgd_end m : cgd_run kd f eta [] m m
| cgd_next rows bs m m1 m' : cgd_moved kd f eta m rows m1 -> cgd_run kd f eta bs m1 m' ->
    cgd_run kd f eta (rows :: bs) m m'.
Lemma cexec_batch eta d rows b m : rows_of d rows -> Forall (fun i => (i < length rows)%nat) b ->
  foldM (exec (cnn_row_step d) cnn_reset_score (cnn_train eta)) (batch_calls b) m = cbatch eta (pick rows b) m.
Proof.
  intros (L & HR) Hb. unfold batch_calls, cbatch. cbn [foldM exec].
  destruct (cnn_reset_score m) as [m1| |]; cbn [bind]; try reflexivity.
  rewrite foldM_app. transitivity (m2 <- csteps (pick rows b) m1 ;; foldM (exec (cnn_row_step d) cnn_reset_score (cnn_train eta)) [ETrain] m2).
  2:{ destruct (csteps (pick rows b) m1) as [m2| |]; cbn [bind]; try reflexivity. cbn [foldM exec]. now destruct (cnn_train eta m2). }
  f_equal. revert m1. induction b as [|i b IH]; intros m1; [reflexivity|].
  inversion Hb as [|? ? Hi Hb']; subst. unfold csteps in *. cbn [map foldM exec pick].
  destruct (nth_error rows i) as [(x, t)|] eqn:E; [|apply nth_error_None in E; lia].
  rewrite (nth_error_nth _ _ ([], []) E). cbn [fst snd]. unfold cnn_row_step. destruct (HR i x t E) as (E1 & E2).
  change (@n0 R NumR) with 0. rewrite E1. cbn [bind]. rewrite E2. cbn [bind].
  destruct (m_step cnn_ops m1 x t) as [m2| |]; cbn [bind]; auto.
Qed.
Lemma cexec_batches eta d rows : rows_of d rows -> forall bl m, Forall (Forall (fun i => (i < length rows)%nat)) bl ->
  foldM (exec (cnn_row_step d) cnn_reset_score (cnn_train eta)) (flat_map batch_calls bl) m
  = foldM (fun m b => cbatch eta (pick rows b) m) bl m.
Proof.
  intros HR. induction bl as [|b bl IH]; intros m F; [reflexivity|].
  inversion F; subst. cbn [flat_map]. rewrite foldM_app, (cexec_batch eta d rows b m) by auto. cbn [foldM].
  destruct (cbatch eta (pick rows b) m); cbn [bind]; auto.
Qed.
(** Every row can be trained on in [m]. *)
Definition ctrainable kd n k (rows : row_list) (m : model (cnode R)) : Prop :=
  forall ss lo, cnn m ss kd lo n k -> Forall (crow_ok kd m ss n k) rows.
Lemma crun_spec eta kd n k rows : (0 < k)%nat -> forall bl m ss lo,
  cnn m ss kd lo n k -> ls_in lo = k -> Forall ccleared ss -> Forall (Forall (fun i => (i < length rows)%nat)) bl ->
  (forall b1 b2 m1, b1 ++ b2 = bl -> foldM (fun m b => cbatch eta (pick rows b) m) b1 m = Ok m1 -> ctrainable kd n k rows m1) ->
  exists m' ss' lo', foldM (fun m b => cbatch eta (pick rows b) m) bl m = Ok m' /\
    cnn m' ss' kd lo' n k /\ ls_in lo' = k /\ ls_inv lo' = ls_inv lo /\ Forall ccleared ss' /\
    cgd_run kd (factor kd k lo) eta (map (pick rows) bl) m m'.
Proof.
  intros Hk. induction bl as [|b bl IH]; intros m ss lo W Hin HC HB HT.
  - exists m, ss, lo. split; [reflexivity|]. split; [exact W|]. split; [exact Hin|]. split; [reflexivity|]. split; [exact HC|]. constructor.
  - inversion HB as [|? ? Hb HB']; subst.
    destruct (c71_batch_partial eta m ss kd lo n _ (pick rows b) W Hk eq_refl HC) as (m1 & ss1 & lo1 & cs & E1 & W1 & I1 & V1 & C1 & _ & _ & M1).
    { pose proof (HT [] (b :: bl) m eq_refl eq_refl ss lo W) as HR. rewrite Forall_forall in HR |- *.
      intros r Hr. apply in_map_iff in Hr. destruct Hr as (i & <- & Hi). apply HR. apply nth_In.
      rewrite Forall_forall in Hb. exact (Hb i Hi). }
    destruct (IH m1 ss1 lo1 W1 I1 C1 HB') as (m2 & ss2 & lo2 & E2 & W2 & I2 & V2 & C2 & M2).
    { intros b1 b2 m2 <- E. apply (HT (b :: b1) b2 m2 eq_refl). cbn [foldM]. rewrite E1. exact E. }
    exists m2, ss2, lo2. split; [cbn [foldM]; rewrite E1; exact E2|]. split; [exact W2|]. split; [exact I2|]. split; [congruence|].
    split; [exact C2|]. cbn [map]. econstructor; [exact M1|]. unfold factor in *. rewrite V1 in M2. exact M2.
Qed.
(** Sequential training is gradient descent on the weights and the dense biases over the batches of
    consecutive rows, as long as every network met on the way is differentiable at the rows. *)
Theorem c71_fit_partial : forall eta d rows m ss kd lo n k bs epochs fuel,
  cnn m ss kd lo n k -> (0 < k)%nat -> ls_in lo = k -> Forall ccleared ss -> rows_of d rows ->
  (1 <= bs)%nat -> (ds_size d <= fuel)%nat ->
  exists bl, batches_of (ds_size d) bs bl /\
  ((forall b1 b2 m1, b1 ++ b2 = concat (repeat bl epochs) ->
      foldM (fun m b => cbatch eta (pick rows b) m) b1 m = Ok m1 -> ctrainable kd n k rows m1) ->
   exists m' ss' lo', cnn_fit_sequential eta d fuel epochs bs m = Some (Ok m') /\ cnn m' ss' kd lo' n k /\
    Forall ccleared ss' /\ cgd_run kd (factor kd k lo) eta (map (pick rows) (concat (repeat bl epochs))) m m').
Proof.
  intros eta d rows m ss kd lo n k bs epochs fuel W Hk Hin HC HR Hb Hf.
  destruct (c39_sequential (ds_size d) bs Hb) as (bl & B & F). exists bl. split; [exact B|]. intros HT.
  assert (HB : Forall (Forall (fun i => (i < length rows)%nat)) (concat (repeat bl epochs))).
  { rewrite (proj1 HR). apply batches_lt in B. clear - B. induction epochs as [|e IH]; cbn [repeat concat]; [constructor|]. apply Forall_app; auto. }
  destruct (crun_spec eta kd n k rows Hk _ m ss lo W Hin HC HB HT) as (m' & ss' & lo' & E & W' & _ & _ & C' & G).
  exists m', ss', lo'. split; [|auto]. unfold cnn_fit_sequential. rewrite F by exact Hf. rewrite repeat_flat.
  now rewrite (cexec_batches eta d rows HR _ m HB), E.
Qed.
Print Assumptions c71_fit_partial.

(** Convolutions, dense layers and activations that are differentiable everywhere. *)
Definition csmooth_kind (s : cnode R) : Prop := match s with CL l => smooth_kind l | CV _ => True | _ => False end.
Lemma csmooth_everywhere : forall ss n k x, cshape ss n k -> length x = n -> Forall csmooth_kind ss -> csmooth ss x.
Proof.
  induction ss as [|s ss IH]; intros n k x HS Hx F; [exact I|]. inversion F as [|? ? F1 F2]; subst.
  destruct HS as (j & HL & HS). cbn [csmooth]. split.
  - destruct s as [l|c|p|]; cbn [csmooth_kind cnode_smooth cnode_shape] in *; auto; try contradiction.
    assert (X : chain_smooth [l] x). { apply (smooth_everywhere [l] (length x) j x); auto. exists j. split; [exact HL|reflexivity]. }
    apply X.
  - destruct (cnode_forward s _ j x HL eq_refl) as (_ & _ & _ & L & _). eapply IH; eauto.
Qed.
Lemma cnn_layers_unique (m : model (cnode R)) ss ss' kd lo lo' n k : cnn m ss kd lo n k -> cnn m ss' kd lo' n k -> ss' = ss.
Proof.
  intros W W'. pose proof (cn_nodes _ _ _ _ _ _ W) as E. pose proof (cn_nodes _ _ _ _ _ _ W') as E'. rewrite E in E'.
  apply app_inj_tail in E'. now destruct E' as (E' & _).
Qed.
Lemma same_layer_smooth s s' : same_layer s s' -> csmooth_kind s -> csmooth_kind s'.
Proof. destruct s, s'; cbn; try contradiction; auto. unfold smooth_kind. now intros ->. Qed.
Lemma moved_layers kd f eta m rows m' ss ss' lo lo' n k : cnn m ss kd lo n k -> cnn m' ss' kd lo' n k -> cgd_moved kd f eta m rows m' ->
  length ss' = length ss /\ forall q s s', nth_error ss q = Some s -> nth_error ss' q = Some s' -> same_layer s s'.
Proof.
  intros W W' (L & M). assert (LL : length ss' = length ss).
  { pose proof (f_equal (@length _) (cn_nodes _ _ _ _ _ _ W)) as L1. pose proof (f_equal (@length _) (cn_nodes _ _ _ _ _ _ W')) as L2.
    rewrite map_length, app_length in L1, L2. cbn [length] in L1, L2. lia. }
  split; [exact LL|]. intros q s s' E E'. destruct (cnode_at m _ _ _ _ _ q s W E) as (o & EN).
  destruct (M q s o EN) as (s2 & o2 & EN2 & X & _).
  destruct (cnode_of _ _ _ _ _ _ _ _ _ W' EN2) as [Y|(Y & _)].
  - rewrite E' in Y. injection Y as <-. exact X.
  - assert (q < length ss)%nat by (apply nth_error_Some; congruence). lia.
Qed.
Lemma csmooth_trainable eta tol n k rows : (0 < k)%nat ->
  Forall (fun xt : list R * list R => length (fst xt) = n /\ length (snd xt) = k) rows ->
  forall bl m ss lo m1, cnn m ss (MSE tol) lo n k -> ls_in lo = k -> Forall ccleared ss -> Forall csmooth_kind ss ->
  Forall (Forall (fun i => (i < length rows)%nat)) bl ->
  foldM (fun m b => cbatch eta (pick rows b) m) bl m = Ok m1 -> ctrainable (MSE tol) n k rows m1.
Proof.
  intros Hk HR.
  assert (TR : forall m ss lo, cnn m ss (MSE tol) lo n k -> Forall csmooth_kind ss -> ctrainable (MSE tol) n k rows m).
  { intros m ss lo W HS ss' lo' W'. rewrite (cnn_layers_unique _ _ _ _ _ _ _ _ W W') in *.
    eapply Forall_impl; [|exact HR]. intros (x, t) (Q1 & Q2). cbn [fst snd] in *.
    split; [exact Q1|]. split; [exact Q2|]. split; [|intros; exact I].
    exact (csmooth_everywhere ss n k x (cn_shape _ _ _ _ _ _ W) Q1 HS). }
  induction bl as [|b bl IH]; intros m ss lo m1 W Hin HC HS HB E.
  - cbn [foldM] in E. injection E as <-. eauto.
  - inversion HB as [|? ? Hb HB']; subst.
    destruct (c71_batch_partial eta m ss _ lo n _ (pick rows b) W Hk eq_refl HC) as (m2 & ss2 & lo2 & cs & E2 & W2 & I2 & V2 & C2 & _ & _ & M2).
    { pose proof (TR m ss lo W HS ss lo W) as HT. rewrite Forall_forall in HT |- *.
      intros r Hr. apply in_map_iff in Hr. destruct Hr as (i & <- & Hi). apply HT. apply nth_In.
      rewrite Forall_forall in Hb. exact (Hb i Hi). }
    cbn [foldM] in E. rewrite E2 in E. cbn [bind] in E.
    refine (IH m2 ss2 lo2 m1 W2 I2 C2 _ HB' E).
    destruct (moved_layers _ _ _ _ _ _ _ _ _ _ _ _ W W2 M2) as (LL & SL).
    apply Forall_forall. intros s' Hs'. apply In_nth_error in Hs'. destruct Hs' as (q & Eq').
    destruct (nth_error ss q) as [s|] eqn:Eq.
    + apply (same_layer_smooth s s' (SL q s s' Eq Eq')). rewrite Forall_forall in HS. apply HS. eapply nth_error_In; eauto.
    + apply nth_error_None in Eq. assert (q < length ss2)%nat by (apply nth_error_Some; congruence). lia.
Qed.
(** With the mean squared error, convolutions, dense layers and activations differentiable
    everywhere nothing needs to be known about the networks met on the way. *)
Theorem c71_fit_mean_squared_error_partial : forall eta d rows m ss tol lo n k bs epochs fuel,
  cnn m ss (MSE tol) lo n k -> (0 < k)%nat -> ls_in lo = k -> Forall ccleared ss -> Forall csmooth_kind ss ->
  rows_of d rows -> Forall (fun xt => length (fst xt) = n /\ length (snd xt) = k) rows ->
  (1 <= bs)%nat -> (ds_size d <= fuel)%nat ->
  exists bl m' ss' lo', batches_of (ds_size d) bs bl /\
    cnn_fit_sequential eta d fuel epochs bs m = Some (Ok m') /\ cnn m' ss' (MSE tol) lo' n k /\ Forall ccleared ss' /\
    cgd_run (MSE tol) (INR k * ls_inv lo) eta (map (pick rows) (concat (repeat bl epochs))) m m'.
Proof.
  intros eta d rows m ss tol lo n k bs epochs fuel W Hk Hin HC HS HR HZ Hb Hf.
  destruct (c71_fit_partial eta d rows m ss (MSE tol) lo n k bs epochs fuel W Hk Hin HC HR Hb Hf) as (bl & B & F).
  destruct F as (m' & ss' & lo' & E & W' & C' & G).
  - intros b1 b2 m1 E1 E2.
    assert (HB : Forall (Forall (fun i => (i < length rows)%nat)) (concat (repeat bl epochs))).
    { rewrite (proj1 HR). apply batches_lt in B. clear - B. induction epochs as [|e IH]; cbn [repeat concat]; [constructor|]. apply Forall_app; auto. }
    rewrite <- E1 in HB. apply Forall_app in HB. destruct HB as (HB & _).
    exact (csmooth_trainable eta tol n k rows Hk HZ b1 m ss lo m1 W Hin HC HS HB E2).
  - exists bl, m', ss', lo'. auto.
Qed.
Print Assumptions c71_fit_mean_squared_error_partial.

(** *** Descent *)
Definition ctotal_cost kd (m : model (cnode R)) (rows : row_list) (c : R) : Prop :=
  exists cs, Forall2 (fun xt c => ccost kd m (fst xt) (snd xt) c) rows cs /\ c = sum cs.
(** Some parameter has a non-zero derivative of the cost on [rows]. *)
Definition cimprovable kd (m : model (cnode R)) (rows : row_list) : Prop :=
  exists q s o p ds, nth_error (mnodes m) q = Some (s, o) /\ learns s /\
    ((p < length (weights s))%nat /\ Forall2 (cwpartial kd m q p) rows ds \/ (p < length (biases s))%nat /\ Forall2 (cbpartial kd m q p) rows ds) /\ sum ds <> 0.

(** One row, all parameters moving. *)
Lemma cstep_curve m ss kd lo n k x t :
  cnn m ss kd lo n k -> (0 < k)%nat -> ls_in lo = k -> crow_ok kd m ss n k (x, t) ->
  exists ss', Forall2 ckept ss ss' /\ cstep_adds kd (factor kd k lo) m (x, t) ss ss' /\
    forall cs, map cbase cs = ss -> Forall cok cs -> (forall z, cshape (map (fun c => cat c z) cs) n k) ->
    exists d, derivable_pt_lim (fun z => loss_value kd t (cnn_value (map (fun c => cat c z) cs) x)) 0 d /\
      factor kd k lo * d = gterms cs ss'.
Proof.
  intros W Hk Hin (Hx & Ht & Hsm & HD0). cbn [fst snd] in *.
  destruct (c69_step_partial m ss kd lo n k x t W Hk Hin Hx Ht Hsm HD0)
    as (m' & ss' & lo' & E & W' & P & _ & _ & _ & _ & A).
  exists ss'. split; [exact P|]. split; [exact A|].
  assert (HD : loss_defined kd t (cnn_value ss x)).
  { destruct (c69_predict m ss kd lo n k x W Hx) as (m1 & E1 & _). exact (HD0 _ _ E1). }
  pose proof (cn_shape _ _ _ _ _ _ W) as HS.
  destruct (cnn_forward ss n k x HS Hx) as (ss1 & EF & Ly & _ & _).
  destruct (loss_fwd kd lo t (cnn_value ss x) k Hk Ht Ly Hin HD) as (lo1 & EL & T1 & I1 & G1 & V1 & Lo1 & C1).
  assert (HG1 : length (ls_grad lo1) = k) by (rewrite G1; apply W).
  pose proof (loss_bwd kd lo1 t (cnn_value ss x) k Hk T1 Ht Ly HG1 HD) as EB.
  set (g := tab k (fun i => factor kd k lo1 * nth i (loss_grad kd t (cnn_value ss x)) 0)) in *.
  assert (Hg : length g = k) by apply tab_length.
  assert (Ff : factor kd k lo1 = factor kd k lo) by (unfold factor; rewrite V1; reflexivity).
  intros cs Hb Hok Hsz.
  destruct (gchain_vjp cnn_ops cok cnode_shape cnode_smooth ckept cnode_vjp cok_0 cs n k (fun _ => x) (repeat 0 n))
    as (run & y & w & F & D & B).
  - rewrite Hb. now apply cshape_g.
  - exact Hok.
  - rewrite <- Hx. apply const_deriv.
  - rewrite Hb. eapply csmooth_g; eauto.
  - assert (A0 : map (fun c => cat c 0) cs = ss).
    { rewrite <- Hb. apply map_ext_in. intros c Hc. apply cok_0. rewrite Forall_forall in Hok. auto. }
    pose proof (F 0) as F0. rewrite A0, EF in F0. injection F0 as R0 Y0.
    destruct (B g Hg) as (ss2 & gx & EC & L & Q & K & G). rewrite <- R0 in EC.
    assert (E2 : m_step cnn_ops m x t = Ok (mkModel (mgraph m) (splace 0 (ss2 ++ [CO kd (set_grad lo1 g)])))).
    { eapply (step_chain cnn_ops (length ss) m ss (CO kd lo) x t ss1 (cnn_value ss x) (CO kd lo1)); try apply W; auto.
      - cbn [cnn_ops o_tforward o_target c_target c_forward]. rewrite EL. reflexivity.
      - cbn [cnn_ops o_backward c_backward]. rewrite EB. reflexivity.
      - exact EC. }
    rewrite E in E2. apply (f_equal (fun r => match r with Ok v => map fst (mnodes v) | _ => [] end)) in E2. cbn [mnodes] in E2.
    rewrite (cn_nodes _ _ _ _ _ _ W'), splace_fst in E2. apply app_inj_tail in E2. destruct E2 as (-> & _).
    assert (YS : forall z, y z = cnn_value (map (fun c => cat c z) cs) x).
    { intros z. destruct (cnn_forward _ n k x (Hsz z) Hx) as (l0 & E' & _). rewrite F in E'. congruence. }
    exists (dotl k (loss_grad kd t (cnn_value ss x)) w). split.
    + pose proof (loss_curve kd t k y w D Hk ltac:(rewrite <- Y0; exact HD)) as DL. rewrite <- Y0 in DL.
      eapply derivable_pt_lim_ext; [|exact DL]. intros z. cbn beta. now rewrite YS.
    + rewrite dotl_zero, Rplus_0_l in Q. rewrite <- Q. unfold g. rewrite dotl_scale, Ff. reflexivity.
Qed.

(** From layer [s] towards [s1], reached at 1. *)
Definition cmv (c : cnode R * cnode R) : curve (cnode R) :=
  match c with
  | (CL l, CL l1) => cc_layer (mv (l, l1))
  | (CV c, CV c1) => cc_conv c (toward (cv_w c) (cv_w c1)) (toward (cv_b c) (cv_b c1)) (away (cv_w c) (cv_w c1))
  | (s, _) => still s
  end.
Lemma cmv_base c : cbase (cmv c) = fst c.
Proof. destruct c as ([], []); reflexivity. Qed.
Lemma cmv_ok c n k : cnode_shape (fst c) n k -> cok (cmv c).
Proof.
  destruct c as (s, s1); cbn [fst]. intros HS. pose proof (still_ok s n k HS) as ST. destruct s, s1; cbn [cmv]; auto.
  - apply ok_layer, mv_ok.
  - apply ok_conv; [apply toward_deriv|apply toward_0|apply toward_0].
Qed.
Lemma cmv_sizes c z : csame_sizes (fst c) (cat (cmv c) z).
Proof.
  destruct c as (s, s1); cbn [fst]. assert (ST : csame_sizes s (cat (still s) z)) by (rewrite still_at; intros n k HS; exact HS).
  destruct s, s1; cbn [cmv]; auto.
  - intros n k. exact (mv_sizes (l, l0) z n k).
  - apply conv_at_sizes; unfold toward; apply tab_length.
Qed.
Lemma gterms_Rsum (dc : curve (cnode R)) (ds : cnode R) : forall cs ss, length ss = length cs ->
  gterms cs ss = Rsum (length cs) (fun q => cterm (nth q cs dc) (nth q ss ds)).
Proof.
  induction cs as [|c cs IH]; intros [|s ss] L; cbn [length] in L; try lia; [reflexivity|].
  cbn [gterms length]. rewrite Rsum_shift, (IH ss) by lia. reflexivity.
Qed.

Definition bterm (s s1 s' : cnode R) : R :=
  match s with CV _ => 0 | _ => ddot (length (biases s)) (bgrads s') (bgrads s) (away (biases s) (biases s1)) end.
Definition bnorm (s s1 : cnode R) : R := match s with CV _ => 0 | _ => sq_norm (biases s) (biases s1) end.
Lemma cmv_term s s1 s' n k : cnode_shape s n k -> same_layer s s1 -> ckept s s' ->
  cterm (cmv (s, s1)) s' = ddot (length (weights s)) (wgrads s') (wgrads s) (away (weights s) (weights s1)) + bterm s s1 s'.
Proof.
  destruct s, s1, s'; cbn [cnode_shape same_layer ckept]; try contradiction; intros _ _ _; unfold bterm.
  - cbn [cmv cc_layer cterm mv dw db base fst snd weights biases wgrads bgrads]. unfold away at 1 3. rewrite !tab_length. reflexivity.
  - cbn [cmv cc_conv cterm weights wgrads]. unfold away at 1. rewrite tab_length, Rplus_0_r. reflexivity.
  - cbn. ring.
Qed.
Lemma bnorm_nonneg s s1 : 0 <= bnorm s s1.
Proof. unfold bnorm. destruct s; try lra; apply sq_norm_nonneg. Qed.

Lemma ccells_sum {A} (P : list R * list R -> R -> Prop) (f : R) (cell : A -> R) rows : forall Ls ds,
  (forall a d d', P a d -> P a d' -> d = d') -> Forall2 P rows ds ->
  Forall2 (fun xt ls' => exists d, P xt d /\ cell ls' = f * d) rows Ls ->
  sum (map cell Ls) = f * sum ds.
Proof.
  intros Ls ds U F1. revert Ls. induction F1 as [|xt d rows ds Hd _ IH]; intros Ls F2; inversion F2 as [|? ls' ? Ls' (d' & Hd' & E) F3]; subst;
    unfold sum in *; cbn [map fold_right]; [ring|]. rewrite (IH _ F3), E, (U _ _ _ Hd' Hd). ring.
Qed.

(** With a small learning rate a batch does not increase the cost of its rows, and decreases it
    unless all derivatives are 0. *)
Theorem c71_small_rate_descends : forall m ss kd lo n k rows,
  cnn m ss kd lo n k -> (0 < k)%nat -> ls_in lo = k -> 0 < ls_inv lo -> Forall ccleared ss ->
  Forall (crow_ok kd m ss n k) rows ->
  exists eta0, 0 < eta0 /\ forall eta, 0 < eta < eta0 ->
    exists m' c c', cbatch eta rows m = Ok m' /\ ctotal_cost kd m rows c /\ ctotal_cost kd m' rows c' /\
      c' <= c /\ (cimprovable kd m rows -> c' < c).
Proof.
  intros m ss kd lo n k rows W Hk Hin Hinv HC HR.
  set (f := factor kd k lo). assert (Hf : 0 < f).
  { unfold f, factor. destruct kd; [exact Hinv|]. apply Rmult_lt_0_compat; [now apply lt_0_INR|exact Hinv]. }
  destruct (c71_batch_partial 1 m ss kd lo n k rows W Hk Hin HC HR)
    as (m1 & ss1 & lo1 & cs1 & _ & W1 & _ & _ & _ & _ & _ & GD1).
  destruct (moved_layers _ _ _ _ _ _ _ _ _ _ _ _ W W1 GD1) as (LEN & SL1).
  pose proof (cn_shape _ _ _ _ _ _ W) as HS.
  (* what a batch does to layer q *)
  assert (DIRE : forall eta m' ss' lo', cnn m' ss' kd lo' n k -> cgd_moved kd f eta m rows m' ->
    forall q s s', nth_error ss q = Some s -> nth_error ss' q = Some s' ->
     same_layer s s' /\ length (weights s') = length (weights s) /\ length (biases s') = length (biases s) /\
     (learns s ->
       (forall p, (p < length (weights s))%nat -> exists ds, Forall2 (cwpartial kd m q p) rows ds /\ nth p (weights s') 0 = nth p (weights s) 0 - eta * (f * sum ds)) /\
       match s with CV _ => True | _ => forall p, (p < length (biases s))%nat -> exists ds, Forall2 (cbpartial kd m q p) rows ds /\ nth p (biases s') 0 = nth p (biases s) 0 - eta * (f * sum ds) end) /\
     (~ learns s -> weights s' = weights s /\ biases s' = biases s)).
  { intros eta m' ss' lo' W' (_ & GD) q s s' E E'. destruct (cnode_at m ss kd lo n k q s W E) as (o & EN).
    destruct (GD q s o EN) as (s2 & o2 & EN2 & T).
    destruct (cnode_of m' ss' kd lo' n k q s2 o2 W' EN2) as [E2|(E2 & ->)].
    - rewrite E' in E2. injection E2 as <-. exact T.
    - assert (q < length ss')%nat by (apply nth_error_Some; congruence). lia. }
  pose proof (DIRE 1 m1 ss1 lo1 W1 GD1) as DIR.
  set (cs := map cmv (combine ss ss1)).
  assert (LC : length cs = length ss) by (unfold cs; rewrite map_length, combine_length; lia).
  assert (Mb : map cbase cs = ss).
  { unfold cs. rewrite map_map. rewrite (map_ext _ fst) by apply cmv_base.
    clear - LEN. revert ss1 LEN. induction ss as [|l ls IH]; intros [|l1 ls1] L; cbn [length] in L; try lia; [reflexivity|].
    cbn [combine map fst]. f_equal. apply IH. lia. }
  assert (Hok : Forall cok cs).
  { unfold cs. rewrite Forall_map. apply Forall_forall. intros (s, s1) Hc. apply in_combine_l in Hc.
    apply In_nth_error in Hc. destruct Hc as (q & Eq). destruct (cshape_nth _ _ _ _ _ HS Eq) as (i & j & X). eapply cmv_ok. exact X. }
  assert (Hsz : forall z, cshape (map (fun c => cat c z) cs) n k).
  { intros z. apply (cshape_sizes ss); [|apply W]. rewrite <- Mb at 1. unfold cs. rewrite !map_map. clear.
    induction (combine ss ss1) as [|c l IH]; cbn [map]; constructor; auto. rewrite cmv_base. apply cmv_sizes. }
  (* every row *)
  assert (RWS : exists Ls, Forall2 (fun xt ss' => Forall2 ckept ss ss' /\ cstep_adds kd f m xt ss ss' /\
      exists d, derivable_pt_lim (fun z => loss_value kd (snd xt) (cnn_value (map (fun c => cat c z) cs) (fst xt))) 0 d /\ f * d = gterms cs ss') rows Ls).
  { apply Forall_choose. eapply Forall_impl; [|exact HR]. intros (x, t) Hr.
    destruct (cstep_curve m ss kd lo n k x t W Hk Hin Hr) as (ss' & L & A & B). exists ss'. split; [exact L|]. split; [exact A|].
    destruct (B cs Mb Hok Hsz) as (d & D & E). exists d. auto. }
  destruct RWS as (Ls & F).
  assert (DS : exists Ds, Forall2 (fun xt d => derivable_pt_lim (fun z => loss_value kd (snd xt) (cnn_value (map (fun c => cat c z) cs) (fst xt))) 0 d) rows Ds /\
      f * sum Ds = sum (map (gterms cs) Ls)).
  { clear - F. induction F as [|xt ls' rows Ls (_ & _ & d & D & E) _ (Ds & F1 & F2)].
    - exists []. split; [constructor|]. unfold sum. cbn. ring.
    - exists (d :: Ds). split; [now constructor|]. unfold sum in *. cbn [map fold_right]. rewrite <- F2, <- E. ring. }
  destruct DS as (Ds & FD & ED).
  set (C := fun z => sum (map (fun xt => loss_value kd (snd xt) (cnn_value (map (fun c => cat c z) cs) (fst xt))) rows)).
  assert (DC : derivable_pt_lim C 0 (sum Ds)).
  { unfold C. apply (dlim_sum (fun xt z => loss_value kd (snd xt) (cnn_value (map (fun c => cat c z) cs) (fst xt)))
      (fun xt d => derivable_pt_lim (fun z => loss_value kd (snd xt) (cnn_value (map (fun c => cat c z) cs) (fst xt))) 0 d)); auto. }
  set (dl := CO kd lo : cnode R).
  set (Q := Rsum (length cs) (fun q => sq_norm (weights (nth q ss dl)) (weights (nth q ss1 dl)) + bnorm (nth q ss dl) (nth q ss1 dl))).
  (* the derivative is minus the squared length *)
  assert (SL : f * sum Ds = - Q).
  { rewrite ED.
    assert (E1 : map (gterms cs) Ls = map (fun ss' => Rsum (length cs) (fun q => cterm (nth q cs (cmv (dl, dl))) (nth q ss' dl))) Ls).
    { apply map_ext_in. intros ss' Hl. apply gterms_Rsum. rewrite LC. clear - F Hl. induction F as [|? ? ? ? (L & _) _ IH]; [destruct Hl|].
      destruct Hl as [<-|Hl]; auto. exact (Forall2_len _ _ _ L). }
    rewrite E1, sum_Rsum. replace (- Q) with (-1 * Q) by ring. unfold Q. rewrite <- Rsum_scal_l.
    apply Rsum_ext. intros q Hq. rewrite LC in Hq.
    destruct (nth_error ss q) as [l|] eqn:El; [|apply nth_error_None in El; lia].
    destruct (nth_error ss1 q) as [l1|] eqn:El1; [|apply nth_error_None in El1; lia].
    rewrite (nth_error_nth _ _ dl El), (nth_error_nth _ _ dl El1).
    assert (Ec : nth q cs (cmv (dl, dl)) = cmv (l, l1)).
    { unfold cs. rewrite map_nth, combine_nth by (symmetry; exact LEN). now rewrite (nth_error_nth _ _ dl El), (nth_error_nth _ _ dl El1). }
    rewrite Ec. destruct (DIR q l l1 El El1) as (K & Lw & Lb & DD & ND).
    destruct (cshape_nth _ _ _ _ _ HS El) as (i & j & HSl).
    assert (TE : map (fun ss' => cterm (cmv (l, l1)) (nth q ss' dl)) Ls =
      map (fun ss' => ddot (length (weights l)) (wgrads (nth q ss' dl)) (wgrads l) (away (weights l) (weights l1)) + bterm l l1 (nth q ss' dl)) Ls).
    { apply map_ext_in. intros ss' Hl. apply (cmv_term l l1 (nth q ss' dl) i j HSl K).
      assert (KK : Forall2 ckept ss ss').
      { clear - F Hl. induction F as [|? ? ? ? (L & _) _ IH]; [destruct Hl|]. destruct Hl as [<-|Hl]; auto. }
      destruct (Forall2_nth_error _ _ _ _ _ KK El) as (s' & Es' & X). now rewrite (nth_error_nth _ _ dl Es'). }
    rewrite TE, sum_plus.
    assert (AD : Forall2 (fun xt ss' => exists l', nth_error ss' q = Some l' /\
      (forall p, (p < length (weights l))%nat -> exists d, cwpartial kd m q p xt d /\ nth p (wgrads l') 0 = nth p (wgrads l) 0 + f * d) /\
      match l with CV _ => True | _ => forall p, (p < length (biases l))%nat -> exists d, cbpartial kd m q p xt d /\ nth p (bgrads l') 0 = nth p (bgrads l) 0 + f * d end) rows Ls).
    { clear - F El. induction F as [|xt ls' rows Ls (_ & A & _) _ IH]; constructor; auto.
      destruct (A q l El) as (l' & E' & B & B'). exists l'. split; [exact E'|]. split; [exact B|]. destruct l; auto. }
    assert (G : forall (grad : cnode R -> list R) (a b : list R) (part : nat -> list R * list R -> R -> Prop),
      (forall p xt d d', part p xt d -> part p xt d' -> d = d') ->
      Forall2 (fun xt ls' => exists l', nth_error ls' q = Some l' /\
        forall p, (p < length a)%nat -> exists d, part p xt d /\ nth p (grad l') 0 = nth p (grad l) 0 + f * d) rows Ls ->
      (b = a \/ forall p, (p < length a)%nat -> exists ds, Forall2 (part p) rows ds /\ nth p b 0 = nth p a 0 - 1 * (f * sum ds)) ->
      sum (map (fun ls' => ddot (length a) (grad (nth q ls' dl)) (grad l) (away a b)) Ls) = -1 * sq_norm a b).
    { intros grad a b part U FA HB. unfold ddot. rewrite sum_Rsum. unfold sq_norm. rewrite <- Rsum_scal_l. apply Rsum_ext. intros p Hp. rewrite sum_scale.
      unfold away. rewrite nth_tab by exact Hp. destruct HB as [->|HB]; [rewrite Rminus_diag_eq by reflexivity; ring|].
      destruct (HB p Hp) as (ds & F1 & E2). rewrite (ccells_sum (part p) f _ rows Ls ds (U p) F1); [rewrite E2; ring|].
      clear - FA Hp. induction FA as [|xt ls' rows Ls (l' & El' & A) _ IH]; constructor; auto.
      destruct (A p Hp) as (d & D & E). exists d. split; [exact D|]. rewrite (nth_error_nth _ _ dl El'), E. ring. }
    assert (LR : learns l \/ ~ learns l) by (clear; destruct l as [l| | |]; cbn; auto; destruct (knd l); [left; reflexivity|right; discriminate]).
    rewrite (G wgrads (weights l) (weights l1) (fun p => cwpartial kd m q p)).
    - assert (GB : sum (map (fun ss' => bterm l l1 (nth q ss' dl)) Ls) = -1 * bnorm l l1).
      { assert (GB0 : (match l with CV _ => False | _ => True end) -> sum (map (fun ss' => ddot (length (biases l)) (bgrads (nth q ss' dl)) (bgrads l) (away (biases l) (biases l1))) Ls) = -1 * sq_norm (biases l) (biases l1)).
        { intros NC. apply (G bgrads (biases l) (biases l1) (fun p => cbpartial kd m q p)).
          + intros p xt d d'. apply cbpartial_unique.
          + clear - AD NC. induction AD as [|? ? ? ? (l' & A & _ & B) _ IH]; constructor; eauto. exists l'. split; [exact A|]. destruct l; auto; contradiction.
          + destruct LR as [LR|LR]; [right|left; apply ND; exact LR]. destruct (DD LR) as (_ & X). destruct l; auto; contradiction. }
        unfold bterm, bnorm. destruct l; try (apply GB0; exact I).
        clear. induction Ls as [|a Ls IH]; unfold sum in *; cbn [map fold_right]; [ring|rewrite IH; ring]. }
      rewrite GB. ring.
    - intros p xt d d'. apply cwpartial_unique.
    - clear - AD. induction AD as [|? ? ? ? (l' & A & B & _) _ IH]; constructor; eauto.
    - destruct LR as [LR|LR]; [right; apply (DD LR)|left; apply ND; exact LR]. }
  (* where a batch with rate eta ends *)
  assert (COSTS : forall (mm : model (cnode R)) lss l0, cnn mm lss kd l0 n k -> 
     ctotal_cost kd mm rows (sum (map (fun xt => loss_value kd (snd xt) (cnn_value lss (fst xt))) rows))).
  { intros mm lss l0 WW. eexists. split; [|reflexivity]. clear - WW HR. induction HR as [|(x, t) rows (Hx & _) _ IH]; cbn [map]; constructor; auto.
    exact (ccost_cnn mm lss kd l0 n k x t WW Hx). }
  assert (MV : forall eta, exists m' ss' lo', cbatch eta rows m = Ok m' /\ cnn m' ss' kd lo' n k /\
     sum (map (fun xt => loss_value kd (snd xt) (cnn_value ss' (fst xt))) rows) = C eta).
  { intros eta. destruct (c71_batch_partial eta m ss kd lo n k rows W Hk Hin HC HR)
      as (m' & ss' & lo' & cs' & E' & W' & _ & _ & _ & _ & _ & GD').
    exists m', ss', lo'. split; [exact E'|]. split; [exact W'|]. unfold C. f_equal. apply map_ext_in. intros (x, t) Hr. cbn [fst snd]. f_equal.
    pose proof (proj1 (Forall_forall _ _) HR _ Hr) as (Hx & _). cbn [fst] in Hx.
    apply (cnn_value_alike (map (fun c => cat c eta) cs) ss' n k k x); [|apply Hsz|apply W'|exact Hx].
    destruct (moved_layers _ _ _ _ _ _ _ _ _ _ _ _ W W' GD') as (L' & _).
    apply (Forall2_of_nth (A := cnode R)); [rewrite map_length, LC; congruence|].
    intros q a b Ea Eb. rewrite nth_error_map in Ea. destruct (nth_error cs q) as [c|] eqn:Ec; [|discriminate]. injection Ea as <-.
    assert (Hq : (q < length ss)%nat) by (rewrite <- L'; apply nth_error_Some; congruence).
    destruct (nth_error ss q) as [l|] eqn:El; [|apply nth_error_None in El; lia].
    destruct (nth_error ss1 q) as [l1|] eqn:El1; [|apply nth_error_None in El1; lia].
    assert (c = cmv (l, l1)).
    { apply (nth_error_nth _ _ (cmv (dl, dl))) in Ec. rewrite <- Ec. unfold cs.
      rewrite map_nth, combine_nth by (symmetry; exact LEN). now rewrite (nth_error_nth _ _ dl El), (nth_error_nth _ _ dl El1). }
    subst c. destruct (DIR q l l1 El El1) as (K & Lw & Lb & DD & ND).
    destruct (DIRE eta m' ss' lo' W' GD' q l b El Eb) as (K' & Lw' & Lb' & D' & ND').
    assert (G : forall (u v w : list R) (part : nat -> list R * list R -> R -> Prop), (forall p xt d d', part p xt d -> part p xt d' -> d = d') ->
      length w = length u ->
      (v = u /\ w = u \/ forall p, (p < length u)%nat -> (exists ds, Forall2 (part p) rows ds /\ nth p v 0 = nth p u 0 - 1 * (f * sum ds)) /\
         (exists ds, Forall2 (part p) rows ds /\ nth p w 0 = nth p u 0 - eta * (f * sum ds))) -> w = toward u v eta).
    { intros u v w part U Lu HB. apply (list_ext_nth 0); [unfold toward; rewrite tab_length; exact Lu|]. intros p Hp. rewrite Lu in Hp.
      unfold toward. rewrite nth_tab by exact Hp. destruct HB as [(-> & ->)|HB]; [ring|].
      destruct (HB p Hp) as ((ds & F1 & E1) & (ds' & F2 & E2)). rewrite E2, E1. rewrite (Forall2_unique _ (U p) _ _ _ F1 F2). ring. }
    assert (LR : learns l \/ ~ learns l) by (clear; destruct l as [l| | |]; cbn; auto; destruct (knd l); [left; reflexivity|right; discriminate]).
    assert (TW : weights b = toward (weights l) (weights l1) eta).
    { apply (G _ _ _ (fun p => cwpartial kd m q p)); [intros p xt d d'; apply cwpartial_unique|exact Lw'|].
      destruct LR as [LR|LR]; [right; intros p Hp; split; [apply (DD LR)|apply (D' LR)]; exact Hp|left; split; [apply ND|apply ND']; exact LR]. }
    assert (TB : (match l with CV _ => False | _ => True end) -> biases b = toward (biases l) (biases l1) eta).
    { intros NC. apply (G _ _ _ (fun p => cbpartial kd m q p)); [intros p xt d d'; apply cbpartial_unique|exact Lb'|].
      destruct LR as [LR|LR]; [right|left; split; [apply ND|apply ND']; exact LR].
      destruct (DD LR) as (_ & X1), (D' LR) as (_ & X2). intros p Hp. destruct l; try contradiction; split; auto. }
    clear - K K' TW TB HS El. destruct (cshape_nth _ _ _ _ _ HS El) as (i & j & HSl).
    destruct l, l1, b; cbn [same_layer cnode_shape] in *; try contradiction; cbn [cmv cc_layer cc_conv still cc_pool cat calike weights biases] in *.
    - unfold like_params, at_t, mv. cbn [base cw cb knd wts bias fst snd]. auto.
    - destruct K' as (w & b' & wg & bg & o & ig & ->). cbn [conv_with cv_w] in TW. subst w. exists b', wg, bg, o, ig. reflexivity.
    - exact K'. }
  assert (M0 : map (fun c => cat c 0) cs = ss).
  { transitivity (map cbase cs); [|exact Mb]. apply map_ext_in. intros c Hc. apply cok_0. rewrite Forall_forall in Hok. auto. }
  assert (C0 : ctotal_cost kd m rows (C 0)) by (unfold C; rewrite M0; exact (COSTS m ss lo W)).
  assert (QN : 0 <= Q) by (apply Rsum_nonneg; intros q _; pose proof (sq_norm_nonneg (weights (nth q ss dl)) (weights (nth q ss1 dl)));
    pose proof (bnorm_nonneg (nth q ss dl) (nth q ss1 dl)); lra).
  destruct (Req_dec Q 0) as [Q0|Q0].
  - (* nothing that matters moves *)
    assert (SAME : forall q l l1, nth_error ss q = Some l -> nth_error ss1 q = Some l1 -> weights l1 = weights l /\ match l with CV _ => True | _ => biases l1 = biases l end).
    { intros q l l1 El El1. destruct (DIR q l l1 El El1) as (_ & Lw & Lb & _).
      assert (Hq : (q < length cs)%nat) by (rewrite LC; apply nth_error_Some; congruence).
      destruct (Req_dec (sq_norm (weights l) (weights l1) + bnorm l l1) 0) as [Z|Z].
      - pose proof (sq_norm_nonneg (weights l) (weights l1)). pose proof (bnorm_nonneg l l1).
        split; [apply sq_norm_0; auto; lra|]. unfold bnorm in *. destruct l; auto; apply sq_norm_0; auto; lra.
      - exfalso. assert (0 < Q); [|lra]. unfold Q. apply (Rsum_pos_one _ _ q); [|exact Hq|].
        + intros i _. pose proof (sq_norm_nonneg (weights (nth i ss dl)) (weights (nth i ss1 dl))).
          pose proof (bnorm_nonneg (nth i ss dl) (nth i ss1 dl)). lra.
        + cbn beta. rewrite (nth_error_nth _ _ dl El), (nth_error_nth _ _ dl El1).
          pose proof (sq_norm_nonneg (weights l) (weights l1)). pose proof (bnorm_nonneg l l1). lra. }
    assert (CC : forall z, C z = C 0).
    { intros z. unfold C. f_equal. apply map_ext_in. intros (x, t) Hr. f_equal. cbn [fst snd].
      pose proof (proj1 (Forall_forall _ _) HR _ Hr) as (Hx & _). cbn [fst] in Hx.
      apply (cnn_value_alike (map (fun c => cat c 0) cs) (map (fun c => cat c z) cs) n k k x); [|apply Hsz|apply Hsz|exact Hx].
      assert (TS : forall (u : list R) z, toward u u z = u).
      { intros u z'. unfold toward. apply (list_ext_nth 0); [apply tab_length|]. intros i Hi. rewrite tab_length in Hi. rewrite nth_tab by exact Hi. ring. }
      apply (Forall2_of_nth (A := cnode R)); [now rewrite !map_length|]. intros q a b Ea Eb. rewrite nth_error_map in Ea, Eb.
      destruct (nth_error cs q) as [c|] eqn:Ec; [|discriminate]. injection Ea as <-. injection Eb as <-.
      assert (Hq : (q < length cs)%nat) by (apply nth_error_Some; congruence). rewrite LC in Hq.
      destruct (nth_error ss q) as [l|] eqn:El; [|apply nth_error_None in El; lia].
      destruct (nth_error ss1 q) as [l1|] eqn:El1; [|apply nth_error_None in El1; lia].
      assert (c = cmv (l, l1)).
      { apply (nth_error_nth _ _ (cmv (dl, dl))) in Ec. rewrite <- Ec. unfold cs.
        rewrite map_nth, combine_nth by (symmetry; exact LEN). now rewrite (nth_error_nth _ _ dl El), (nth_error_nth _ _ dl El1). }
      subst c. destruct (SAME q l l1 El El1) as (A & B). destruct (DIR q l l1 El El1) as (K & _).
      destruct (cshape_nth _ _ _ _ _ HS El) as (i & j & HSl). clear - A B K HSl TS.
      destruct l, l1; cbn [same_layer cnode_shape weights biases] in *; try contradiction; cbn [cmv cc_layer cc_conv still cc_pool cat calike].
      - unfold like_params, at_t, mv. cbn [base cw cb knd wts bias fst snd]. rewrite A, B, !TS. auto.
      - rewrite A. rewrite !TS. unfold conv_at. exists (toward (cv_b c) (cv_b c0) z), (cv_wg c), (cv_bg c), (cv_out c), (cv_ig c). reflexivity.
      - exists (pl_out p), (pl_ig p). now destruct p. }
    exists 1. split; [lra|]. intros eta He. destruct (MV eta) as (m' & ss' & lo' & E' & W' & EC).
    exists m', (C 0), (C 0). split; [exact E'|]. split; [exact C0|]. split; [rewrite <- (CC eta), <- EC; exact (COSTS m' ss' lo' W')|].
    split; [lra|]. intros (q & l & o & p & ds & EN & KD & HP & HZ). exfalso. apply HZ.
    destruct (cnode_of m ss kd lo n k q l o W EN) as [El|(_ & ->)]; [|contradiction].
    destruct (nth_error ss1 q) as [l1|] eqn:El1; [|apply nth_error_None in El1; rewrite LEN in El1; apply nth_error_None in El1; congruence].
    destruct (SAME q l l1 El El1) as (A & B). destruct (DIR q l l1 El El1) as (_ & _ & _ & DD & _). destruct (DD KD) as (Dw & Db).
    destruct HP as [(Hp & F1)|(Hp & F1)].
    + destruct (Dw p Hp) as (ds' & F2 & E2). rewrite (Forall2_unique _ (fun a d d' => cwpartial_unique kd m q p a d d') _ _ _ F1 F2).
      rewrite A in E2. assert (Z : f * sum ds' = 0) by lra. apply Rmult_integral in Z. destruct Z; [lra|assumption].
    + assert (BZ : exists ds', Forall2 (cbpartial kd m q p) rows ds' /\ sum ds' = 0).
      { assert (Y : forall ds', nth p (biases l1) 0 = nth p (biases l) 0 - 1 * (f * sum ds') -> biases l1 = biases l -> sum ds' = 0).
        { intros ds' E2 B'. rewrite B' in E2. assert (Z : f * sum ds' = 0) by lra. apply Rmult_integral in Z. destruct Z; [lra|assumption]. }
        destruct l as [l|c|p'|]; try contradiction.
        - destruct (Db p Hp) as (ds' & F2 & E2). exists ds'. split; [exact F2|]. apply Y; auto.
        - exists (map (fun _ => 0) rows). split.
          + clear - F El Hp. induction F as [|xt ls' rows Ls (_ & A & _) _ IH]; cbn [map]; constructor; auto.
            destruct (A q _ El) as (l' & _ & _ & B'). exact (B' p Hp).
          + clear. unfold sum. induction rows as [|a rows IH]; cbn; [reflexivity|]. rewrite IH. ring. }
      destruct BZ as (ds' & F2 & Z). rewrite (Forall2_unique _ (fun a d d' => cbpartial_unique kd m q p a d d') _ _ _ F1 F2). exact Z.
  - (* downhill *)
    assert (ND : sum Ds < 0) by nra.
    destruct (descend C (sum Ds) DC ND) as (e & He & HD). exists e. split; [exact He|]. intros eta Hr.
    destruct (MV eta) as (m' & ss' & lo' & E' & W' & EC). exists m', (C 0), (C eta).
    split; [exact E'|]. split; [exact C0|]. split; [rewrite <- EC; exact (COSTS m' ss' lo' W')|].
    specialize (HD eta Hr). split; [lra|]. intros _. exact HD.
Qed.
Print Assumptions c71_small_rate_descends.

(** *** The hypotheses can be met *)
Definition ex71_data : dataset R := ds_vec 0 [1; 2; 3; 4; 5; 0] 6 1 [5]%nat.
Definition ex71_rows : row_list := [([1; 2; 3; 4; 5], [0])].
(** A convolution, a max pooling and a dense layer (see c69_hypotheses_met): the prediction is -1,
    the target 0, so the derivative for the dense bias is -2. *)
Example c71_hypotheses_met : exists m : model (cnode R),
  cnn m ex_cnn (MSE 1) (loss_new 1 1) 5 1 /\ ls_in (loss_new (T := R) 1 1) = 1%nat /\ 0 < ls_inv (loss_new (T := R) 1 1) /\ Forall ccleared ex_cnn /\
  rows_of ex71_data ex71_rows /\ Forall (crow_ok (MSE 1) m ex_cnn 5 1) ex71_rows /\ cimprovable (MSE 1) m ex71_rows.
Proof.
  destruct c69_hypotheses_met as (m & W & HM & EV). exists m. split; [exact W|]. split; [reflexivity|].
  split; [cbn; unfold nofnat; cbn; lra|]. split.
  { constructor; [|constructor; [|constructor; [|constructor]]]; unfold ccleared; cbn [learns wgrads bgrads]; [| |].
    - intros _. split; [|exact I]. intros [|[|[|p]]]; reflexivity.
    - contradiction.
    - intros _. split; [intros [|[|[|p]]]; reflexivity|intros [|[|p]]; reflexivity]. }
  split.
  { split; [reflexivity|]. intros i x t Hi. destruct i as [|i]; [|destruct i; discriminate]. injection Hi as <- <-. split; reflexivity. }
  split; [constructor; [|constructor]; split; [reflexivity|]; split; [reflexivity|]; split; [exact HM|intros; exact I]|].
  destruct (cnode_at m _ _ _ _ _ 2 _ W eq_refl) as (o & EN).
  exists 2%nat, (nth 2 ex_cnn (CO CCE (loss_new 0 0))), o, 0%nat, [-2]. split; [exact EN|]. split; [reflexivity|].
  split; [|unfold sum; cbn; lra]. right. split; [cbn; lia|]. constructor; [|constructor].
  exists (nth 2 ex_cnn (CO CCE (loss_new 0 0))), o, (fun z => (-1 + z) ^ 2). split; [exact EN|]. split.
  - intros z. pose proof (cput_cnn m _ _ _ _ _ 2 _ _ W eq_refl (move_bias_sizes _ 0 z)) as Wz.
    pose proof (ccost_cnn _ _ _ _ _ _ [1; 2; 3; 4; 5] [0] Wz eq_refl) as CC. cbn [fst snd].
    match type of CC with ccost _ _ _ _ ?v => replace ((-1 + z) ^ 2) with v; [exact CC|] end.
    clear - EV. unfold cnn_value, ex_cnn in *. cbn [upd fold_left nth] in *.
    set (y := node_value (CP _) _) in EV |- *.
    assert (Y : exists u v, y = [u; v]) by (eexists; eexists; cbv; reflexivity). destruct Y as (u & v & Y). rewrite Y in *. clear - EV.
    revert EV. cbv -[Rplus Rmult IZR Ropp Rdiv Rinv pow Rminus]. intros EV. injection EV as EV. revert EV. generalize u v. intros u0 v0 EV.
    replace u0 with (-4 + v0) by lra. field.
  - eapply dlim_eq.
    + apply (dlim_comp (fun z => -1 + z) (fun u => u ^ 2)); [|apply derivable_pt_lim_pow].
      apply (dlim_plus (fun _ => -1) (fun z => z)); [apply dlim_const|apply dlim_id].
    + simpl. ring.
Qed.
(** Layers that are differentiable everywhere: c71_fit_mean_squared_error_partial. *)
Example c71_smooth_hypotheses_met : exists m : model (cnode R),
  cnn m [CV ex_conv1; CL ex_lin] (MSE 1) (loss_new 1 1) 1 1 /\ Forall csmooth_kind [CV ex_conv1; CL ex_lin] /\ Forall ccleared [CV ex_conv1; CL ex_lin].
Proof.
  destruct (cnn_chain [CV ex_conv1; CL ex_lin] (MSE 1) (loss_new 1 1) 1 1 ltac:(cbn; lia) ex_conv1_shape eq_refl) as (m & W).
  exists m. split; [exact W|]. split; [repeat constructor|]. constructor; [|constructor; [|constructor]]; unfold ccleared; cbn; [|discriminate].
  intros _. split; [|exact I]. intros [|[|p]]; reflexivity.
Qed.
