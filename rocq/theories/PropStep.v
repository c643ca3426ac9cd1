(** C54, C55, C56: what a training step, a batch and a whole run do to the parameters. *)
From Verif Require Import Base Num RSum DatasetModel MathModel MathProofs MathProofsR LayerModel LossModel LossSpec LossProofs OptModel GraphModel ModelModel NodeModel
  ChainProofs ModelProofs GradSpec GradProofs GradChain PropLoss PropModel TrainProofs CopyModel FitModel PropFit.
From Coq Require Import Reals Lra.
Local Open Scope R_scope.

(** *** Vocabulary *)
(** The loss of a prediction [y] for the target [t]. *)
Definition loss_value (kd : losskind R) (t y : list R) : R :=
  match kd with CCE => ce_value (/ 2 ^ 52) t y | MSE _ => mse_value t y end.
(** Where the code's loss derivative is meant to hold: predictions above the clamping bound,
    and a target the cross entropy accepts. *)
Definition loss_defined (kd : losskind R) (t y : list R) : Prop :=
  match kd with
  | CCE => ce_valid t /\ forall i, (i < length y)%nat -> / 2 ^ 52 < nth i y 0
  | MSE _ => True
  end.
(** The cost of a model on (x, t): the loss of what it predicts. *)
Definition cost_at (draw : nat -> R) (kd : losskind R) (m : model (node R)) (x t : list R) (c : R) : Prop :=
  exists m' y, m_predict (node_ops draw) m x = Ok (m', y) /\ c = loss_value kd t y.
(** The model with layer object [q] replaced. *)
Definition put (m : model (node R)) (q : nat) (l : layer R) : model (node R) :=
  mkModel (mgraph m) (upd (mnodes m) q (NL l, snd (nth q (mnodes m) (NL l, SNull)))).
(** [d] is the partial derivative of the cost with respect to weight (bias) [p] of layer [q]. *)
Definition wpartial draw kd (m : model (node R)) (q p : nat) (xt : list R * list R) (d : R) : Prop :=
  exists l s C, nth_error (mnodes m) q = Some (NL l, s) /\ (p < length (wts l))%nat /\
    (forall s, cost_at draw kd (put m q (with_weight l p s)) (fst xt) (snd xt) (C s)) /\
    derivable_pt_lim C 0 d.
Definition bpartial draw kd (m : model (node R)) (q p : nat) (xt : list R * list R) (d : R) : Prop :=
  exists l s C, nth_error (mnodes m) q = Some (NL l, s) /\ (p < length (bias l))%nat /\
    (forall s, cost_at draw kd (put m q (with_bias l p s)) (fst xt) (snd xt) (C s)) /\
    derivable_pt_lim C 0 d.
(** The factor backward applies: 1/batch, and for the mean squared error also the number of
    outputs (see c33_mean_squared_gradient_refuted). *)
Definition factor (kd : losskind R) (k : nat) (lo : lossl R) : R :=
  match kd with CCE => ls_inv lo | MSE _ => INR k * ls_inv lo end.

(** *** Values *)
Definition net_value (ls : list (layer R)) (x : list R) : list R := fold_left (fun v l => layer_sem l v) ls x.

Lemma layer_forward_sem (l : layer R) n k x : lshape l n k -> length x = n ->
  layer_forward l x = Ok (set_out l (layer_sem l x)) /\ length (layer_sem l x) = k.
Proof.
  intros (S1 & S2 & S3 & S4) Hx. unfold layer_forward, layer_sem.
  destruct (knd l) as [|a].
  - destruct S4 as (A1 & A2 & A3 & A4). rewrite dense_forward_sem by congruence.
    split; [reflexivity|]. unfold dense_sem. rewrite tab_length. exact S3.
  - destruct S4 as (A1 & A2). rewrite act_forward_sem; [|congruence|].
    + split; [reflexivity|]. rewrite act_sem_length. congruence.
    + destruct a; simpl; auto. rewrite Hx. auto.
Qed.

Lemma chain_forward_net : forall (ls : list (layer R)) n k x, nshape ls n k -> length x = n ->
  exists ls', chain_forward ls x = Ok (ls', net_value ls x) /\ length (net_value ls x) = k.
Proof.
  induction ls as [|l ls IH]; intros n k x HS Hx.
  - cbn in HS. subst. exists []. auto.
  - destruct HS as (j & HL & HS). destruct (layer_forward_sem l n j x HL Hx) as (E & L).
    destruct (IH j k _ HS L) as (ls' & E' & L'). eexists. cbn [chain_forward]. rewrite E. cbn [bind set_out out].
    rewrite E'. cbn [bind]. split; [reflexivity|exact L'].
Qed.

Lemma predict_net draw m ls kd lo n k x : network m ls kd lo n k -> length x = n ->
  exists m', m_predict (node_ops draw) m x = Ok (m', net_value ls x).
Proof. intros W Hx. exact (c36_predict_value draw m ls kd lo n k x W Hx). Qed.

Lemma cost_net draw m ls kd lo n k x t : network m ls kd lo n k -> length x = n ->
  cost_at draw kd m x t (loss_value kd t (net_value ls x)).
Proof. intros W Hx. destruct (predict_net draw m ls kd lo n k x W Hx) as (m' & E). exists m', (net_value ls x). auto. Qed.

Lemma layer_sem_same l l' n k x : lshape l n k -> lshape l' n k -> same_params l l' -> layer_sem l' x = layer_sem l x.
Proof.
  intros (_ & _ & S3 & _) (_ & _ & S3' & _) (A & B & C & D). unfold layer_sem. rewrite A, C, D, S3, S3'. reflexivity.
Qed.

(** Shapes as a relation between two layers. *)
Definition same_sizes (l l' : layer R) : Prop := forall n k, lshape l n k -> lshape l' n k.
Lemma nshape_sizes : forall ls ls' n k, Forall2 same_sizes ls ls' -> nshape ls n k -> nshape ls' n k.
Proof.
  induction ls as [|l ls IH]; intros ls' n k F HS; inversion F; subst; auto.
  destruct HS as (j & A & B). exists j. split; auto.
Qed.
Lemma Forall2_refl {A} (P : A -> A -> Prop) l : (forall x, P x x) -> Forall2 P l l.
Proof. intros HP. induction l; constructor; auto. Qed.
Lemma Forall2_upd {A} (P : A -> A -> Prop) : forall l q x, (forall y, P y y) ->
  (forall y, nth_error l q = Some y -> P y x) -> Forall2 P l (upd l q x).
Proof.
  induction l as [|a l IH]; intros [|q] x HR HP; cbn [upd]; constructor; auto.
  all: try (apply HP; reflexivity). all: try (now apply Forall2_refl). all: apply IH; auto.
Qed.
Lemma with_weight_sizes l p s : same_sizes l (with_weight l p s).
Proof.
  intros n k (S1 & S2 & S3 & S4). unfold with_weight, lshape. cbn [insz ig out knd wts wgrad bias bgrad].
  rewrite line_length. auto.
Qed.
Lemma with_bias_sizes l p s : same_sizes l (with_bias l p s).
Proof.
  intros n k (S1 & S2 & S3 & S4). unfold with_bias, lshape. cbn [insz ig out knd wts wgrad bias bgrad].
  rewrite line_length. auto.
Qed.

Lemma map_upd {A B} (f : A -> B) : forall l q x, map f (upd l q x) = upd (map f l) q (f x).
Proof. induction l as [|a l IH]; intros [|q] x; cbn; auto. now rewrite IH. Qed.
Lemma upd_app_l {A} : forall (a b : list A) q x, (q < length a)%nat -> upd (a ++ b) q x = upd a q x ++ b.
Proof.
  induction a as [|h a IH]; intros b [|q] x Hq; cbn [length] in Hq; try lia; cbn; auto.
  rewrite IH by lia. reflexivity.
Qed.

Lemma put_network m ls kd lo n k q l l' : network m ls kd lo n k -> nth_error ls q = Some l ->
  same_sizes l l' -> network (put m q l') (upd ls q l') kd lo n k.
Proof.
  intros W E HS. assert (Hq : (q < length ls)%nat) by (apply nth_error_Some; congruence).
  constructor; unfold put; cbn [mgraph mnodes]; rewrite ?upd_length.
  - apply W.
  - apply W.
  - rewrite map_upd. cbn [fst]. rewrite (nw_nodes _ _ _ _ _ _ W), upd_app_l by now rewrite map_length.
    now rewrite map_upd.
  - apply (nshape_sizes ls); [|apply W]. apply Forall2_upd; [intros y a b; auto|].
    intros y Ey. rewrite E in Ey. injection Ey as <-. exact HS.
  - apply W.
Qed.

(** *** Derivative of the loss along a curve of predictions *)
Definition loss_grad (kd : losskind R) (t y : list R) : list R :=
  tab (length y) (fun i => match kd with
    | CCE => - nth i t 0 / nth i y 0
    | MSE _ => - 2 * (nth i t 0 - nth i y 0) / INR (length y) end).

Lemma loss_curve kd t k (y : R -> list R) w : vec_deriv k y w -> (0 < k)%nat -> loss_defined kd t (y 0) ->
  derivable_pt_lim (fun s => loss_value kd t (y s)) 0 (dotl k (loss_grad kd t (y 0)) w).
Proof.
  intros (Ly & Lw & D) Hk HD. unfold loss_grad, dotl, loss_value. destruct kd as [|tol].
  - destruct HD as (_ & Hpos). unfold ce_value.
    apply (derivable_pt_lim_ext (fun s => Rsum k (fun i => - nth i t 0 * ln (Rmax (nth i (y s) 0) (/ 2 ^ 52))))).
    { intros s. now rewrite Ly. }
    apply (dlim_eq _ _ (Rsum k (fun i => - nth i t 0 / nth i (y 0) 0 * nth i w 0))).
    2:{ apply Rsum_ext. intros i Hi. rewrite nth_tab by (now rewrite Ly). reflexivity. }
    apply (dlim_Rsum k (fun i s => - nth i t 0 * ln (Rmax (nth i (y s) 0) (/ 2 ^ 52)))). intros i Hi.
    rewrite Ly in Hpos. specialize (Hpos i Hi).
    assert (He : 0 < / 2 ^ 52) by (apply Rinv_0_lt_compat, pow_lt; lra).
    eapply dlim_eq.
    + apply (dlim_mult (fun _ => - nth i t 0) (fun s => ln (Rmax (nth i (y s) 0) (/ 2 ^ 52)))); [apply dlim_const|].
      apply (dlim_comp (fun s => nth i (y s) 0) (fun z => ln (Rmax z (/ 2 ^ 52)))); [apply D; exact Hi|].
      apply (derivable_pt_lim_locally_ext ln _ (nth i (y 0) 0) (/ 2 ^ 52) (nth i (y 0) 0 + 1)); [lra| |].
      * intros z Hz. rewrite Rmax_left; [reflexivity|lra].
      * apply derivable_pt_lim_ln. lra.
    + field. lra.
  - unfold mse_value. assert (Hk' : 0 < INR k) by now apply lt_0_INR.
    apply (derivable_pt_lim_ext (fun s => Rsum k (fun i => (nth i t 0 - nth i (y s) 0) ^ 2) * / INR k)).
    { intros s. now rewrite Ly. }
    apply (dlim_eq _ _ (Rsum k (fun i => - 2 * (nth i t 0 - nth i (y 0) 0) * nth i w 0) * / INR k)).
    2:{ rewrite <- Rsum_scal_r. apply Rsum_ext. intros i Hi. rewrite nth_tab by (now rewrite Ly).
        rewrite Ly. field. lra. }
    eapply dlim_eq.
    + apply (dlim_mult (fun s => Rsum k (fun i => (nth i t 0 - nth i (y s) 0) ^ 2)) (fun _ => / INR k)); [|apply dlim_const].
      apply (dlim_Rsum k (fun i s => (nth i t 0 - nth i (y s) 0) ^ 2)
        (fun i => - 2 * (nth i t 0 - nth i (y 0) 0) * nth i w 0)). intros i Hi.
      eapply dlim_eq.
      * apply (dlim_comp (fun s => nth i t 0 - nth i (y s) 0) (fun z => z ^ 2)).
        -- apply (dlim_minus (fun _ => nth i t 0) (fun s => nth i (y s) 0)); [apply dlim_const|apply D; exact Hi].
        -- apply derivable_pt_lim_pow.
      * simpl. ring.
    + ring.
Qed.

(** *** The loss layer *)
Lemma loss_fwd kd lo t y k : (0 < k)%nat -> length t = k -> length y = k -> ls_in lo = k -> loss_defined kd t y ->
  exists lo1, loss_forward kd (set_target lo t) y = (lo1, Ok tt) /\ ls_target lo1 = t /\ ls_in lo1 = k /\
    ls_grad lo1 = ls_grad lo /\ ls_inv lo1 = ls_inv lo /\ ls_loss lo1 = loss_value kd t y /\
    ls_cum lo1 = ls_cum lo + loss_value kd t y.
Proof.
  intros Hk Ht Hy Hin HD.
  assert (X : exists b, loss_forward kd (set_target lo t) y
    = (LossModel.count (LossModel.add_loss (set_target lo t) (loss_value kd t y)) b, Ok tt)).
  { destruct kd as [|tol]; cbn [loss_forward loss_value].
    - destruct (cce_ok k Hk (set_target lo t) y Hin (or_intror Ht) Hy) as (A & _).
      destruct (A (proj1 HD)) as (b & _ & E). exists b. exact E.
    - destruct (mse_ok tol k Hk (set_target lo t) y Hin (or_intror Ht) Hy) as (A & _).
      destruct (A ltac:(cbn [set_target ls_target]; intros Z; rewrite Z in Ht; cbn in Ht; lia)) as (b & _ & E). exists b. exact E. }
  destruct X as (b & E). eexists. split; [exact E|].
  cbn [LossModel.count LossModel.add_loss set_target ls_target ls_in ls_grad ls_inv ls_loss ls_cum nadd NumR]. auto 10.
Qed.

Lemma loss_bwd kd lo t y k : (0 < k)%nat -> ls_target lo = t -> length t = k -> length y = k -> length (ls_grad lo) = k ->
  loss_defined kd t y ->
  loss_backward kd lo y = Ok (tab k (fun i => factor kd k lo * nth i (loss_grad kd t y) 0)).
Proof.
  intros Hk <- Ht Hy Hg HD. destruct kd as [|tol]; cbn [loss_backward].
  - destruct HD as (_ & Hpos). unfold cce_backward, cross_entropy_1_arr. rewrite Hg, (map2_into_spec 0) by lia.
    rewrite skipn_all2, app_nil_r by lia. f_equal. apply tab_ext. intros i Hi.
    unfold loss_grad. rewrite nth_tab by lia. unfold cross_entropy_1. rewrite nmax_Rmax.
    destruct eps_min as (Hme & He). change (neps : R) with (/ 2 ^ 52) in Hme.
    rewrite Rmax_left by (specialize (Hpos i ltac:(lia)); lra). reflexivity.
  - unfold mse_backward, mean_squared_error_1. rewrite Hg, (map2_into_spec 0) by lia.
    rewrite skipn_all2, app_nil_r by lia. f_equal. apply tab_ext. intros i Hi.
    unfold loss_grad. rewrite nth_tab by lia. unfold squared_error_1. cbn [nmul nsub nopp nofZ NumR].
    rewrite Hy. cbn [factor]. assert (0 < INR k) by now apply lt_0_INR. field. lra.
Qed.

(** *** One step *)
Lemma nshape_chain : forall (ls : list (layer R)) n k, nshape ls n k -> chain_shape ls n k.
Proof.
  induction ls as [|l ls IH]; intros n k; cbn; auto. intros (j & (S1 & S2 & S3 & S4) & HS).
  exists j. split; [|auto]. split; [exact S1|]. split; [exact S2|]. split; [exact S3|].
  destruct (knd l); [exact S4|]. apply S4.
Qed.

(** Along a curve of one layer's parameters: values, and what backward adds. *)
Lemma curve_step pre post l lc n k x : base lc = l -> lcurve_ok lc -> chain_shape (pre ++ l :: post) n k ->
  length x = n -> chain_smooth (pre ++ l :: post) x ->
  exists run y w, (forall s, chain_forward (pre ++ at_t s lc :: post) x = Ok (run s, y s)) /\ vec_deriv k y w /\
    forall g, length g = k -> exists ls1 l' ls2 gx,
      chain_backward (run 0) x g = Ok (ls1 ++ l' :: ls2, gx) /\ length ls1 = length pre /\
      dotl k g w = ddot (length (dw lc)) (wgrad l') (wgrad l) (dw lc)
        + ddot (length (db lc)) (bgrad l') (bgrad l) (db lc).
Proof.
  intros Hb Hok Hsh Hx Hsm. set (cs := map frozen pre ++ lc :: map frozen post).
  assert (Mb : map base cs = pre ++ l :: post).
  { unfold cs. rewrite map_app. cbn [map]. now rewrite !map_base_frozen, Hb. }
  assert (Ma : forall t, map (at_t t) cs = pre ++ at_t t lc :: post).
  { intros t. unfold cs. rewrite map_app. cbn [map]. now rewrite !map_at_frozen. }
  assert (A0 : at_t 0 lc = l).
  { destruct Hok as (W & B & _). unfold at_t. rewrite W, B, Hb. now destruct l. }
  destruct (chain_vjp cs n k (fun _ => x) (repeat 0 n)) as (run & y & w & F & D & B).
  - now rewrite Mb.
  - unfold cs. apply Forall_app. split; [apply Forall_frozen|]. constructor; auto. apply Forall_frozen.
  - rewrite <- Hx. apply const_deriv.
  - rewrite Ma, A0. exact Hsm.
  - exists run, y, w. split; [intros s; rewrite <- Ma; apply F|]. split; [exact D|].
    intros g Hg. destruct (B g Hg) as (ls' & gx & E & L & Q & P1 & P2).
    assert (LL : length ls' = length (pre ++ l :: post)).
    { rewrite <- (map_length wts ls'), P1, !map_length, <- Mb, map_length. reflexivity. }
    destruct (nth_error ls' (length pre)) as [l'|] eqn:En.
    2:{ apply nth_error_None in En. rewrite LL, app_length in En. simpl in En. lia. }
    apply nth_error_split in En. destruct En as (ls1 & ls2 & -> & HL).
    exists ls1, l', ls2, gx. split; [exact E|]. split; [exact HL|].
    rewrite Q, dotl_zero. unfold cs. rewrite param_terms_mid by auto. rewrite Hb. ring.
Qed.

Lemma wcurve_ok l p : (p < length (wts l))%nat -> lcurve_ok (wcurve l p).
Proof.
  intros Hp. split; [apply line_0|]. split; [reflexivity|].
  split; [now apply line_deriv|apply (const_deriv (bias l))].
Qed.
Lemma bcurve_ok l p : (p < length (bias l))%nat -> lcurve_ok (bcurve l p).
Proof.
  intros Hp. split; [reflexivity|]. split; [apply line_0|].
  split; [apply (const_deriv (wts l))|now apply line_deriv].
Qed.
Lemma upd_mid {A} (a : list A) x b y : upd (a ++ x :: b) (length a) y = a ++ y :: b.
Proof. induction a as [|h a IH]; cbn; auto. now rewrite IH. Qed.
Lemma nth_error_mid {A} (a : list A) x b : nth_error (a ++ x :: b) (length a) = Some x.
Proof. induction a as [|h a IH]; cbn; auto. Qed.

(** What a step adds to the parameter gradients of the layers. *)
Definition step_adds draw kd (f : R) (m : model (node R)) (xt : list R * list R) (ls ls' : list (layer R)) : Prop :=
  forall q l, nth_error ls q = Some l -> exists l', nth_error ls' q = Some l' /\
    (forall p, (p < length (wts l))%nat -> exists d, wpartial draw kd m q p xt d /\
       nth p (wgrad l') 0 = nth p (wgrad l) 0 + f * d) /\
    (forall p, (p < length (bias l))%nat -> exists d, bpartial draw kd m q p xt d /\
       nth p (bgrad l') 0 = nth p (bgrad l) 0 + f * d).

Lemma dotl_scale k c a w : dotl k (tab k (fun i => c * nth i a 0)) w = c * dotl k a w.
Proof.
  unfold dotl. rewrite <- Rsum_scal_l. apply Rsum_ext. intros i Hi. rewrite nth_tab by exact Hi. ring.
Qed.

Lemma node_at (m : model (node R)) ls kd lo n k q l : network m ls kd lo n k -> nth_error ls q = Some l ->
  exists s, nth_error (mnodes m) q = Some (NL l, s).
Proof.
  intros W E. pose proof (nw_nodes _ _ _ _ _ _ W) as N.
  assert (X : nth_error (map fst (mnodes m)) q = Some (NL l)).
  { rewrite N, nth_error_app1.
    - rewrite nth_error_map, E. reflexivity.
    - rewrite map_length. apply nth_error_Some. congruence. }
  rewrite nth_error_map in X. destruct (nth_error (mnodes m) q) as [(a, s)|]; [|discriminate].
  cbn in X. injection X as ->. eauto.
Qed.

Theorem c54_step_adds_the_gradient : forall draw m ls kd lo n k x t,
  network m ls kd lo n k -> (0 < k)%nat -> ls_in lo = k -> length x = n -> length t = k ->
  chain_smooth ls x ->
  (forall m' y, m_predict (node_ops draw) m x = Ok (m', y) -> loss_defined kd t y) ->
  exists m' ls' lo', m_step (node_ops draw) m x t = Ok m' /\ network m' ls' kd lo' n k /\
    Forall2 same_params ls ls' /\ ls_in lo' = k /\ ls_inv lo' = ls_inv lo /\
    cost_at draw kd m x t (ls_loss lo') /\ ls_cum lo' = ls_cum lo + ls_loss lo' /\
    step_adds draw kd (factor kd k lo) m (x, t) ls ls'.
Proof.
  intros draw m ls kd lo n k x t W Hk Hin Hx Ht Hsm HD0.
  assert (HD : loss_defined kd t (net_value ls x)).
  { destruct (predict_net draw m ls kd lo n k x W Hx) as (m' & E). exact (HD0 _ _ E). }
  clear HD0.
  pose proof (nw_shape _ _ _ _ _ _ W) as HS.
  destruct (chain_forward_shape ls n k x HS Hx) as (ls1 & y & EF & Ly & P & S').
  destruct (chain_forward_net ls n k x HS Hx) as (ls1' & EF' & _).
  assert (Ey : y = net_value ls x) by congruence. subst y. clear ls1' EF'.
  destruct (loss_fwd kd lo t (net_value ls x) k Hk Ht Ly Hin HD) as (lo1 & EL & T1 & I1 & G1 & V1 & Lo1 & C1).
  assert (HG1 : length (ls_grad lo1) = k) by (rewrite G1; apply W).
  pose proof (loss_bwd kd lo1 t (net_value ls x) k Hk T1 Ht Ly HG1 HD) as EB.
  set (g := tab k (fun i => factor kd k lo1 * nth i (loss_grad kd t (net_value ls x)) 0)) in *.
  assert (Hg : length g = k) by apply tab_length.
  destruct (chain_backward_shape ls1 n k x g S' Hx Hg) as (ls2 & gx & EC & _ & P2 & S2).
  pose proof (all_same_trans _ _ _ P P2) as P3. pose proof (Forall2_len _ _ _ P3) as LL.
  exists (mkModel (mgraph m) (place 0 (map (@NL R) ls2 ++ [NO kd (set_grad lo1 g)]))), ls2, (set_grad lo1 g).
  split.
  { rewrite (c36_step _ _ _ _ draw m ls kd lo n k x t W), EF. cbn [bind]. rewrite EL. cbn [bind].
    rewrite EB. cbn [bind]. rewrite EC. reflexivity. }
  split.
  { constructor; cbn [mgraph mnodes]; rewrite ?LL; try apply W; auto. apply place_fst. }
  split; [exact P3|]. split; [exact I1|]. split; [exact V1|].
  split; [change (ls_loss (set_grad lo1 g)) with (ls_loss lo1); rewrite Lo1; exact (cost_net draw m ls kd lo n k x t W Hx)|].
  split; [change (ls_cum (set_grad lo1 g)) with (ls_cum lo1); change (ls_loss (set_grad lo1 g)) with (ls_loss lo1); rewrite C1, Lo1; reflexivity|].
  assert (Ff : factor kd k lo1 = factor kd k lo) by (unfold factor; rewrite V1; reflexivity).
  intros q l Eq. pose proof Eq as Eq'. apply nth_error_split in Eq'. destruct Eq' as (pre & post & -> & Hq). subst q.
  (* any curve of the parameters of layer q *)
  assert (G : forall lc, base lc = l -> lcurve_ok lc -> (forall s, same_sizes l (at_t s lc)) ->
    exists d, derivable_pt_lim (fun s => loss_value kd t (net_value (pre ++ at_t s lc :: post) x)) 0 d /\
      (forall s, cost_at draw kd (put m (length pre) (at_t s lc)) x t (loss_value kd t (net_value (pre ++ at_t s lc :: post) x))) /\
      exists l', nth_error ls2 (length pre) = Some l' /\
        factor kd k lo * d = ddot (length (dw lc)) (wgrad l') (wgrad l) (dw lc)
          + ddot (length (db lc)) (bgrad l') (bgrad l) (db lc)).
  { intros lc Hb Hok Hsz.
    assert (A0 : at_t 0 lc = l).
    { destruct Hok as (W0 & B0 & _). unfold at_t. rewrite W0, B0, Hb. now destruct l. }
    destruct (curve_step pre post l lc n k x Hb Hok (nshape_chain _ _ _ HS) Hx Hsm) as (run & y & w & F & D & B).
    assert (WS : forall s, network (put m (length pre) (at_t s lc)) (pre ++ at_t s lc :: post) kd lo n k).
    { intros s. rewrite <- (upd_mid pre l post (at_t s lc)). eapply put_network; eauto. }
    assert (YS : forall s, y s = net_value (pre ++ at_t s lc :: post) x).
    { intros s. destruct (chain_forward_net _ n k x (nw_shape _ _ _ _ _ _ (WS s)) Hx) as (ls' & E' & _).
      rewrite F in E'. congruence. }
    assert (Y0 : y 0 = net_value (pre ++ l :: post) x) by (rewrite YS, A0; reflexivity).
    assert (HD0 : loss_defined kd t (y 0)) by (rewrite Y0; exact HD).
    pose proof (loss_curve kd t k y w D Hk HD0) as DL. rewrite Y0 in DL.
    exists (dotl k (loss_grad kd t (net_value (pre ++ l :: post) x)) w). split.
    { eapply derivable_pt_lim_ext; [|exact DL]. intros s. cbn beta. now rewrite YS. }
    split; [intros s; exact (cost_net draw _ _ kd lo n k x t (WS s) Hx)|].
    assert (R0 : run 0 = ls1) by (specialize (F 0); rewrite A0, EF in F; congruence).
    destruct (B g Hg) as (l1 & l' & l2 & gx' & E' & L' & Q). rewrite R0, EC in E'. injection E' as -> ->.
    exists l'. split; [rewrite <- L'; apply nth_error_mid|].
    rewrite <- Q. unfold g. rewrite dotl_scale, Ff. reflexivity. }
  assert (X : exists l', nth_error ls2 (length pre) = Some l').
  { destruct (nth_error ls2 (length pre)) eqn:EN; [eauto|]. apply nth_error_None in EN.
    rewrite LL, app_length in EN. cbn in EN. lia. }
  destruct X as (l' & El'). exists l'. split; [exact El'|].
  destruct (node_at m _ kd lo n k (length pre) l W Eq) as (src & EN).
  split; intros p Hp.
  - destruct (G (wcurve l p) eq_refl (wcurve_ok l p Hp) (fun s => with_weight_sizes l p s)) as (d & D & C & l0 & E0 & Q).
    rewrite El' in E0. injection E0 as <-. exists d. split.
    + exists l, src. eexists. split; [exact EN|]. split; [exact Hp|]. split; [exact C|exact D].
    + rewrite Q. cbn [wcurve dw db]. unfold unit_vec at 1. rewrite tab_length, ddot_unit, ddot_zero by auto. ring.
  - destruct (G (bcurve l p) eq_refl (bcurve_ok l p Hp) (fun s => with_bias_sizes l p s)) as (d & D & C & l0 & E0 & Q).
    rewrite El' in E0. injection E0 as <-. exists d. split.
    + exists l, src. eexists. split; [exact EN|]. split; [exact Hp|]. split; [exact C|exact D].
    + rewrite Q. cbn [bcurve dw db]. unfold unit_vec at 1. rewrite tab_length, ddot_unit, ddot_zero by auto. ring.
Qed.
Print Assumptions c54_step_adds_the_gradient.

(** *** Several steps *)
Lemma lshape_out (l l' : layer R) n k k' : lshape l n k -> lshape l' n k' -> same_params l l' -> k' = k.
Proof.
  intros (S1 & S2 & S3 & S4) (S1' & S2' & S3' & S4') (A & B & C & D). rewrite A in S4'.
  destruct (knd l); [|destruct S4, S4'; congruence]. destruct S4 as (_ & _ & X & _), S4' as (_ & _ & X' & _). congruence.
Qed.
Lemma net_value_same : forall (ls ls' : list (layer R)) n k x, Forall2 same_params ls ls' -> nshape ls n k -> nshape ls' n k ->
  length x = n -> net_value ls' x = net_value ls x.
Proof.
  induction ls as [|l ls IH]; intros ls' n k x P HS HS' Hx; inversion P as [|? l' ? ls0 P1 P2]; subst; [reflexivity|].
  destruct HS as (j & A & B), HS' as (j' & A' & B').
  assert (j' = j) by (eapply lshape_out; eauto). subst j'.
  unfold net_value. cbn [fold_left]. rewrite (layer_sem_same l l' (length x) j) by auto.
  destruct (layer_forward_sem l (length x) j x A eq_refl) as (_ & L).
  exact (IH ls0 j k _ P2 B B' L).
Qed.
Lemma chain_smooth_same : forall (ls ls' : list (layer R)) n k x, Forall2 same_params ls ls' -> nshape ls n k -> nshape ls' n k ->
  length x = n -> chain_smooth ls x -> chain_smooth ls' x.
Proof.
  induction ls as [|l ls IH]; intros ls' n k x P HS HS' Hx C; inversion P as [|? l' ? ls0 P1 P2]; subst; [exact I|].
  destruct HS as (j & A & B), HS' as (j' & A' & B').
  assert (j' = j) by (eapply lshape_out; eauto). subst j'.
  destruct C as (C1 & C2). cbn [chain_smooth]. split.
  - unfold layer_smooth in *. destruct P1 as (K & _). now rewrite K.
  - intros l1 E1. destruct (layer_forward_sem l' (length x) j x A' eq_refl) as (E' & L').
    rewrite E' in E1. injection E1 as <-. cbn [set_out out].
    destruct (layer_forward_sem l (length x) j x A eq_refl) as (E & L).
    specialize (C2 _ E). cbn [set_out out] in C2.
    rewrite (layer_sem_same l l' (length x) j) by auto. exact (IH ls0 j k _ P2 B B' L C2).
Qed.

Lemma Forall2_nth_error {A} (P : A -> A -> Prop) : forall l l' q x, Forall2 P l l' -> nth_error l q = Some x ->
  exists x', nth_error l' q = Some x' /\ P x x'.
Proof.
  induction l as [|a l IH]; intros l' q x F E; [destruct q; discriminate|].
  inversion F; subst. destruct q as [|q]; cbn in *; [injection E as <-; eauto|eauto].
Qed.
Lemma Forall2_upd2 {A} (P : A -> A -> Prop) : forall l l' q x x', Forall2 P l l' -> P x x' -> Forall2 P (upd l q x) (upd l' q x').
Proof.
  induction l as [|a l IH]; intros l' q x x' F HP; inversion F; subst; destruct q; cbn; constructor; auto.
Qed.

Lemma node_of (m : model (node R)) ls kd lo n k q l s : network m ls kd lo n k ->
  nth_error (mnodes m) q = Some (NL l, s) -> nth_error ls q = Some l.
Proof.
  intros W E. pose proof (nw_nodes _ _ _ _ _ _ W) as N.
  apply (map_nth_error fst) in E. rewrite N in E. cbn [fst] in E.
  destruct (Nat.lt_ge_cases q (length ls)) as [Hq|Hq].
  - rewrite nth_error_app1 in E by now rewrite map_length. rewrite nth_error_map in E.
    destruct (nth_error ls q); cbn in E; congruence.
  - rewrite nth_error_app2 in E by now rewrite map_length. rewrite map_length in E.
    destruct (q - length ls)%nat as [|[|r]]; cbn in E; discriminate.
Qed.

Lemma cost_same draw kd m m' ls ls' lo lo' n k x t c : network m ls kd lo n k -> network m' ls' kd lo' n k ->
  Forall2 same_params ls ls' -> length x = n -> cost_at draw kd m x t c -> cost_at draw kd m' x t c.
Proof.
  intros W W' P Hx (m1 & y & E & ->). destruct (predict_net draw m ls kd lo n k x W Hx) as (m2 & E2).
  rewrite E2 in E. injection E as <- <-.
  rewrite <- (net_value_same ls ls' n k x P (nw_shape _ _ _ _ _ _ W) (nw_shape _ _ _ _ _ _ W') Hx).
  exact (cost_net draw m' ls' kd lo' n k x t W' Hx).
Qed.

Lemma wpartial_same draw kd m m' ls ls' lo lo' n k q p xt d : network m ls kd lo n k -> network m' ls' kd lo' n k ->
  Forall2 same_params ls ls' -> length (fst xt) = n -> wpartial draw kd m q p xt d -> wpartial draw kd m' q p xt d.
Proof.
  intros W W' P Hx (l & s & C & E & Hp & HC & D).
  pose proof (node_of m ls kd lo n k q l s W E) as El.
  destruct (Forall2_nth_error _ _ _ _ _ P El) as (l' & El' & Pl).
  destruct (node_at m' ls' kd lo' n k q l' W' El') as (s' & E').
  exists l', s', C. split; [exact E'|]. pose proof Pl as (K1 & K2 & K3 & K4). split; [now rewrite K3|].
  split; [|exact D]. intros z.
  refine (cost_same draw kd _ _ (upd ls q (with_weight l p z)) (upd ls' q (with_weight l' p z)) lo lo' n k _ _ _
    (put_network _ _ _ _ _ _ _ _ _ W El (with_weight_sizes l p z))
    (put_network _ _ _ _ _ _ _ _ _ W' El' (with_weight_sizes l' p z)) _ Hx (HC z)).
  apply Forall2_upd2; [exact P|]. unfold same_params, with_weight. cbn [knd insz wts bias]. rewrite K3. auto.
Qed.
Lemma bpartial_same draw kd m m' ls ls' lo lo' n k q p xt d : network m ls kd lo n k -> network m' ls' kd lo' n k ->
  Forall2 same_params ls ls' -> length (fst xt) = n -> bpartial draw kd m q p xt d -> bpartial draw kd m' q p xt d.
Proof.
  intros W W' P Hx (l & s & C & E & Hp & HC & D).
  pose proof (node_of m ls kd lo n k q l s W E) as El.
  destruct (Forall2_nth_error _ _ _ _ _ P El) as (l' & El' & Pl).
  destruct (node_at m' ls' kd lo' n k q l' W' El') as (s' & E').
  exists l', s', C. split; [exact E'|]. pose proof Pl as (K1 & K2 & K3 & K4). split; [now rewrite K4|].
  split; [|exact D]. intros z.
  refine (cost_same draw kd _ _ (upd ls q (with_bias l p z)) (upd ls' q (with_bias l' p z)) lo lo' n k _ _ _
    (put_network _ _ _ _ _ _ _ _ _ W El (with_bias_sizes l p z))
    (put_network _ _ _ _ _ _ _ _ _ W' El' (with_bias_sizes l' p z)) _ Hx (HC z)).
  apply Forall2_upd2; [exact P|]. unfold same_params, with_bias. cbn [knd insz wts bias]. rewrite K4. auto.
Qed.
Lemma same_params_sym ls ls' : Forall2 (@same_params R) ls ls' -> Forall2 (@same_params R) ls' ls.
Proof. induction 1 as [|l l' ls ls' (A & B & C & D) _ IH]; constructor; auto. repeat split; congruence. Qed.

Definition sum (l : list R) : R := fold_right Rplus 0 l.
Definition steps (draw : nat -> R) (rows : list (list R * list R)) (m : model (node R)) : res (model (node R)) :=
  foldM (fun m xt => m_step (node_ops draw) m (fst xt) (snd xt)) rows m.

(** A row the network can be trained on. *)
Definition row_ok draw kd m (ls : list (layer R)) n k (xt : list R * list R) : Prop :=
  length (fst xt) = n /\ length (snd xt) = k /\ chain_smooth ls (fst xt) /\
  forall m' y, m_predict (node_ops draw) m (fst xt) = Ok (m', y) -> loss_defined kd (snd xt) y.

(** The accumulated gradients after several steps. *)
Definition steps_add draw kd (f : R) (m : model (node R)) rows (ls ls' : list (layer R)) : Prop :=
  forall q l, nth_error ls q = Some l -> exists l', nth_error ls' q = Some l' /\
    (forall p, (p < length (wts l))%nat -> exists ds, Forall2 (wpartial draw kd m q p) rows ds /\
       nth p (wgrad l') 0 = nth p (wgrad l) 0 + f * sum ds) /\
    (forall p, (p < length (bias l))%nat -> exists ds, Forall2 (bpartial draw kd m q p) rows ds /\
       nth p (bgrad l') 0 = nth p (bgrad l) 0 + f * sum ds).

Lemma steps_spec draw kd n k : (0 < k)%nat -> forall rows m ls lo, network m ls kd lo n k -> ls_in lo = k ->
  Forall (row_ok draw kd m ls n k) rows ->
  exists m' ls' lo' cs, steps draw rows m = Ok m' /\ network m' ls' kd lo' n k /\ Forall2 same_params ls ls' /\
    ls_in lo' = k /\ ls_inv lo' = ls_inv lo /\
    Forall2 (fun xt c => cost_at draw kd m (fst xt) (snd xt) c) rows cs /\ ls_cum lo' = ls_cum lo + sum cs /\
    steps_add draw kd (factor kd k lo) m rows ls ls'.
Proof.
  intros Hk. induction rows as [|(x, t) rows IH]; intros m ls lo W Hin HR.
  - exists m, ls, lo, []. cbn [steps foldM sum fold_right]. rewrite Rplus_0_r.
    split; [reflexivity|]. split; [exact W|]. split; [apply all_same_refl|]. split; [exact Hin|]. split; [reflexivity|].
    split; [constructor|]. split; [reflexivity|].
    intros q l E. exists l. split; [exact E|]. split; intros p Hp; exists []; (split; [constructor|]); unfold sum; cbn [fold_right]; ring.
  - assert (X : row_ok draw kd m ls n k (x, t) /\ Forall (row_ok draw kd m ls n k) rows) by (inversion HR; auto).
    destruct X as ((Hx & Ht & Hsm & HD) & HR'). cbn [fst snd] in *.
    destruct (c54_step_adds_the_gradient draw m ls kd lo n k x t W Hk Hin Hx Ht Hsm HD)
      as (m1 & ls1 & lo1 & E1 & W1 & P1 & I1 & V1 & C1 & K1 & A1).
    destruct (IH m1 ls1 lo1 W1 I1) as (m2 & ls2 & lo2 & cs & E2 & W2 & P2 & I2 & V2 & C2 & K2 & A2).
    { rewrite Forall_forall in HR' |- *. intros (x', t') Hin'. destruct (HR' _ Hin') as (Q1 & Q2 & Q3 & Q4). cbn [fst snd] in *.
      split; [exact Q1|]. split; [exact Q2|]. split.
      - exact (chain_smooth_same ls ls1 n k x' P1 (nw_shape _ _ _ _ _ _ W) (nw_shape _ _ _ _ _ _ W1) Q1 Q3).
      - intros m' y E. destruct (predict_net draw m1 ls1 kd lo1 n k x' W1 Q1) as (m3 & E3).
        cbn [fst snd] in E. rewrite E3 in E. injection E as <- <-.
        destruct (predict_net draw m ls kd lo n k x' W Q1) as (m4 & E4).
        rewrite (net_value_same ls ls1 n k x' P1 (nw_shape _ _ _ _ _ _ W) (nw_shape _ _ _ _ _ _ W1) Q1). exact (Q4 _ _ E4). }
    exists m2, ls2, lo2, (ls_loss lo1 :: cs). pose proof (all_same_trans _ _ _ P1 P2) as P3.
    split; [unfold steps in *; cbn [foldM fst snd]; rewrite E1; cbn [bind]; exact E2|].
    split; [exact W2|]. split; [exact P3|]. split; [exact I2|]. split; [congruence|].
    split.
    { constructor; [exact C1|]. assert (SZ : Forall (fun xt => length (fst xt) = n) rows) by (rewrite Forall_forall in *; intros r Hr; apply (HR' r Hr)).
      clear - C2 SZ W W1 P1. revert cs C2. induction rows as [|r rows IHr]; intros cs C2; inversion C2 as [|? c ? cs' Q1 Q2]; subst; constructor.
      - inversion SZ; subst. exact (cost_same draw kd m1 m ls1 ls lo1 lo _ k _ _ _ W1 W (same_params_sym _ _ P1) eq_refl Q1).
      - apply IHr; [now inversion SZ|exact Q2]. }
    split; [rewrite K2, K1; cbn [sum fold_right]; fold (sum cs); ring|].
    intros q l El. destruct (A1 q l El) as (l1 & El1 & B1 & B1'). destruct (A2 q l1 El1) as (l2 & El2 & B2 & B2').
    destruct (Forall2_nth_error _ _ _ _ _ P1 El) as (l1' & El1' & (_ & _ & K3 & K4)). rewrite El1 in El1'. injection El1' as <-.
    assert (Ff : factor kd k lo1 = factor kd k lo) by (unfold factor; now rewrite V1). rewrite Ff in *.
    assert (SZ : Forall (fun xt => length (fst xt) = n) rows) by (rewrite Forall_forall in *; intros r Hr; apply (HR' r Hr)).
    exists l2. split; [exact El2|]. split; intros p Hp.
    + destruct (B1 p Hp) as (d & D & Q). destruct (B2 p ltac:(now rewrite K3)) as (ds & Ds & Q').
      exists (d :: ds). split; [constructor; [exact D|]|rewrite Q', Q; cbn [sum fold_right]; fold (sum ds); ring].
      clear - Ds SZ W W1 P1. revert ds Ds. induction rows as [|r rows IHr]; intros ds Ds; inversion Ds as [|? c ? cs' Q1 Q2]; subst; constructor.
      * inversion SZ; subst. exact (wpartial_same draw kd m1 m ls1 ls lo1 lo _ k q p r c W1 W (same_params_sym _ _ P1) eq_refl Q1).
      * apply IHr; [now inversion SZ|exact Q2].
    + destruct (B1' p Hp) as (d & D & Q). destruct (B2' p ltac:(now rewrite K4)) as (ds & Ds & Q').
      exists (d :: ds). split; [constructor; [exact D|]|rewrite Q', Q; cbn [sum fold_right]; fold (sum ds); ring].
      clear - Ds SZ W W1 P1. revert ds Ds. induction rows as [|r rows IHr]; intros ds Ds; inversion Ds as [|? c ? cs' Q1 Q2]; subst; constructor.
      * inversion SZ; subst. exact (bpartial_same draw kd m1 m ls1 ls lo1 lo _ k q p r c W1 W (same_params_sym _ _ P1) eq_refl Q1).
      * apply IHr; [now inversion SZ|exact Q2].
Qed.

(** *** A batch *)
(** Every parameter of every dense layer moved by - eta * f * (the sum over the rows of the
    partial derivatives of the cost of [m]); nothing else changed. *)
Definition gd_moved draw kd (f eta : R) (m : model (node R)) rows (m' : model (node R)) : Prop :=
  forall q l s, nth_error (mnodes m) q = Some (NL l, s) -> exists l' s', nth_error (mnodes m') q = Some (NL l', s') /\
    knd l' = knd l /\ length (wts l') = length (wts l) /\ length (bias l') = length (bias l) /\
    (knd l = KDense ->
      (forall p, (p < length (wts l))%nat -> exists ds, Forall2 (wpartial draw kd m q p) rows ds /\
         nth p (wts l') 0 = nth p (wts l) 0 - eta * (f * sum ds)) /\
      (forall p, (p < length (bias l))%nat -> exists ds, Forall2 (bpartial draw kd m q p) rows ds /\
         nth p (bias l') 0 = nth p (bias l) 0 - eta * (f * sum ds))) /\
    (knd l <> KDense -> wts l' = wts l /\ bias l' = bias l).
(** No gradient is pending in a dense layer. *)
Definition cleared (l : layer R) : Prop :=
  knd l = KDense -> (forall p, nth p (wgrad l) 0 = 0) /\ (forall p, nth p (bgrad l) 0 = 0).

Definition batch (draw : nat -> R) (eta : R) (rows : list (list R * list R)) (m : model (node R)) : res (model (node R)) :=
  m1 <- m_reset_score m ;; m2 <- steps draw rows m1 ;; m_train eta m2.

Lemma reset_network (m : model (node R)) ls kd lo n k : network m ls kd lo n k ->
  exists m', m_reset_score m = Ok m' /\ network m' ls kd (reset_score lo) n k.
Proof.
  intros W. unfold m_reset_score. rewrite (ic_losses _ _ _ (nw_graph _ _ _ _ _ _ W)). cbn [foldM].
  destruct (exists_last (l := mnodes m)) as (rest & (q, lp) & EN).
  { intros Hn. pose proof (nw_nodes _ _ _ _ _ _ W) as E0. rewrite Hn in E0. destruct ls; discriminate. }
  pose proof (nw_nodes _ _ _ _ _ _ W) as E0. rewrite EN, map_app in E0. cbn [map fst] in E0.
  apply app_inj_tail in E0. destruct E0 as (E1 & ->).
  assert (LL : length rest = length ls) by (apply (f_equal (@length _)) in E1; rewrite !map_length in E1; exact E1).
  rewrite EN. rewrite (rd_app_mid rest _ [] _ LL). cbn [bind].
  rewrite (wr_app_mid rest _ _ [] _ LL). cbn [bind]. eexists. split; [reflexivity|].
  destruct W. constructor; cbn [mgraph mnodes reset_score ls_grad]; auto.
  rewrite map_app, E1. reflexivity.
Qed.

Lemma Forall2_impl_in {A B} (P Q : A -> B -> Prop) (C : A -> Prop) : forall l l', Forall C l -> (forall a b, C a -> P a b -> Q a b) ->
  Forall2 P l l' -> Forall2 Q l l'.
Proof. intros l l' F HI F2. induction F2; constructor; inversion F; auto. Qed.

Theorem c55_batch_is_gradient_descent : forall draw eta m ls kd lo n k rows,
  network m ls kd lo n k -> (0 < k)%nat -> ls_in lo = k -> Forall cleared ls ->
  Forall (row_ok draw kd m ls n k) rows ->
  exists m' ls' lo' cs, batch draw eta rows m = Ok m' /\ network m' ls' kd lo' n k /\
    ls_in lo' = k /\ ls_inv lo' = ls_inv lo /\ map knd ls' = map knd ls /\ Forall cleared ls' /\
    Forall2 (fun xt c => cost_at draw kd m (fst xt) (snd xt) c) rows cs /\ ls_cum lo' = sum cs /\
    gd_moved draw kd (factor kd k lo) eta m rows m'.
Proof.
  intros draw eta m ls kd lo n k rows W Hk Hin HC HR.
  destruct (reset_network m ls kd lo n k W) as (m1 & E1 & W1).
  assert (RF : Forall2 (@same_params R) ls ls) by apply all_same_refl.
  destruct (steps_spec draw kd n k Hk rows m1 ls (reset_score lo) W1 Hin) as (m2 & ls2 & lo2 & cs & E2 & W2 & P2 & I2 & V2 & C2 & K2 & A2).
  { eapply Forall_impl; [|exact HR]. intros (x, t) (Q1 & Q2 & Q3 & Q4). split; [exact Q1|]. split; [exact Q2|]. split; [exact Q3|].
    cbn [fst snd] in *. intros m' y E. destruct (predict_net draw m1 ls kd _ n k x W1 Q1) as (m3 & E3).
    rewrite E3 in E. injection E as <- <-. destruct (predict_net draw m ls kd lo n k x W Q1) as (m4 & E4). exact (Q4 _ _ E4). }
  destruct (network_train eta m2 ls2 kd lo2 n k W2) as (m3 & E3 & _ & W3).
  exists m3, (map (trained eta) ls2), lo2, cs.
  assert (SZ : Forall (fun xt : list R * list R => length (fst xt) = n) rows) by (eapply Forall_impl; [|exact HR]; intros xt Q; apply Q).
  split; [unfold batch; rewrite E1; cbn [bind]; rewrite E2; exact E3|]. split; [exact W3|]. split; [exact I2|]. split; [exact V2|].
  split.
  { rewrite map_map. clear - P2. induction P2 as [|l l' ls ls' (A & _) _ IH]; [reflexivity|]. cbn [map]. rewrite IH. f_equal.
    rewrite <- A. unfold trained. destruct (knd l') eqn:K; cbn [knd]; auto. }
  split.
  { rewrite Forall_map. apply Forall_forall. intros l _. unfold cleared, trained. destruct (knd l) eqn:K; [|congruence]. intros _.
    cbn [wgrad bgrad]. split; intros p; apply nth_repeat. }
  split.
  { eapply Forall2_impl_in; [exact SZ| |exact C2]. intros (x, t) c Hx Q.
    exact (cost_same draw kd m1 m ls ls _ lo n k x t c W1 W RF Hx Q). }
  split; [rewrite K2; cbn [reset_score ls_cum]; change (@n0 R NumR) with 0; ring|].
  intros q l s E. pose proof (node_of m ls kd lo n k q l s W E) as El.
  destruct (A2 q l El) as (l2 & El2 & B & B').
  destruct (Forall2_nth_error _ _ _ _ _ P2 El) as (l2' & El2' & (K3 & K4 & K5 & K6)). rewrite El2 in El2'. injection El2' as <-.
  destruct (node_at m3 _ kd lo2 n k q (trained eta l2) W3 (map_nth_error _ _ _ El2)) as (s' & E').
  exists (trained eta l2), s'. split; [exact E'|].
  pose proof (proj1 (Forall_forall _ _) HC l (nth_error_In _ _ El)) as CL.
  unfold trained, moved. rewrite K3.
  destruct (knd l) eqn:K; cbn [knd wts bias]; [rewrite !tab_length, K5, K6|rewrite K5, K6]; repeat split; auto; try congruence.
  - intros p Hp. destruct (B p Hp) as (ds & D & Q). exists ds. split.
    + eapply Forall2_impl_in; [exact SZ| |exact D]. intros xt d Hx. exact (wpartial_same draw kd m1 m ls ls _ lo n k q p xt d W1 W RF Hx).
    + rewrite nth_tab by exact Hp. change (@n0 R NumR) with 0. cbn [nsub nmul NumR]. rewrite Q, (proj1 (CL K)). unfold factor. cbn [reset_score ls_inv]. ring.
  - intros p Hp. destruct (B' p Hp) as (ds & D & Q). exists ds. split.
    + eapply Forall2_impl_in; [exact SZ| |exact D]. intros xt d Hx. exact (bpartial_same draw kd m1 m ls ls _ lo n k q p xt d W1 W RF Hx).
    + rewrite nth_tab by exact Hp. change (@n0 R NumR) with 0. cbn [nsub nmul NumR]. rewrite Q, (proj2 (CL K)). unfold factor. cbn [reset_score ls_inv]. ring.
Qed.
Print Assumptions c55_batch_is_gradient_descent.

(** *** A whole run *)
Definition row_list := list (list R * list R).
(** [rows] are the input and label parts of the rows of the dataset. *)
Definition rows_of (d : dataset R) (rows : row_list) : Prop :=
  length rows = ds_size d /\
  forall i x t, nth_error rows i = Some (x, t) -> ds_input 0 d i = Ok x /\ ds_label 0 d i = Ok t.
(** Gradient descent over a list of batches. *)
Inductive gd_run draw kd (f eta : R) : list row_list -> model (node R) -> model (node R) -> Prop :=
| gd_end m : gd_run draw kd f eta [] m m
| gd_next rows bs m m1 m' : gd_moved draw kd f eta m rows m1 -> gd_run draw kd f eta bs m1 m' ->
    gd_run draw kd f eta (rows :: bs) m m'.
(** The rows with the given numbers. *)
Definition pick (rows : row_list) (is : list nat) : row_list := map (fun i => nth i rows ([], [])) is.

Lemma exec_batch draw eta d rows b m : rows_of d rows -> Forall (fun i => (i < length rows)%nat) b ->
  foldM (exec (row_step draw d) m_reset_score (m_train eta)) (batch_calls b) m = batch draw eta (pick rows b) m.
Proof.
  intros (L & HR) Hb. unfold batch_calls, batch. cbn [foldM exec].
  destruct (m_reset_score m) as [m1| |]; cbn [bind]; try reflexivity.
  rewrite foldM_app. transitivity (m2 <- steps draw (pick rows b) m1 ;; foldM (exec (row_step draw d) m_reset_score (m_train eta)) [ETrain] m2).
  2:{ destruct (steps draw (pick rows b) m1) as [m2| |]; cbn [bind]; try reflexivity. cbn [foldM exec]. now destruct (m_train eta m2). }
  f_equal. revert m1. induction b as [|i b IH]; intros m1; [reflexivity|].
  inversion Hb as [|? ? Hi Hb']; subst. unfold steps in *. cbn [map foldM exec pick].
  destruct (nth_error rows i) as [(x, t)|] eqn:E; [|apply nth_error_None in E; lia].
  rewrite (nth_error_nth _ _ ([], []) E). cbn [fst snd]. unfold row_step. destruct (HR i x t E) as (E1 & E2).
  change (@n0 R NumR) with 0. rewrite E1. cbn [bind]. rewrite E2. cbn [bind].
  destruct (m_step (node_ops draw) m1 x t) as [m2| |]; cbn [bind]; auto.
Qed.
Lemma exec_batches draw eta d rows : rows_of d rows -> forall bl m, Forall (Forall (fun i => (i < length rows)%nat)) bl ->
  foldM (exec (row_step draw d) m_reset_score (m_train eta)) (flat_map batch_calls bl) m
  = foldM (fun m b => batch draw eta (pick rows b) m) bl m.
Proof.
  intros HR. induction bl as [|b bl IH]; intros m F; [reflexivity|].
  inversion F; subst. cbn [flat_map]. rewrite foldM_app, (exec_batch draw eta d rows b m) by auto. cbn [foldM].
  destruct (batch draw eta (pick rows b) m); cbn [bind]; auto.
Qed.
Lemma batches_lt size bs bl : batches_of size bs bl -> Forall (Forall (fun i => (i < size)%nat)) bl.
Proof.
  intros (A & _). apply Forall_forall. intros b Hb. apply Forall_forall. intros i Hi.
  assert (X : In i (concat bl)) by (apply in_concat; eauto). rewrite A in X. apply in_seq in X. lia.
Qed.
Lemma repeat_flat {A B} (f : A -> list B) l e : concat (repeat (flat_map f l) e) = flat_map f (concat (repeat l e)).
Proof. induction e as [|e IH]; [reflexivity|]. cbn [repeat concat]. now rewrite flat_map_app, IH. Qed.

(** Every row can be trained on in [m]. *)
Definition trainable draw kd n k (rows : row_list) (m : model (node R)) : Prop :=
  forall ls lo, network m ls kd lo n k -> Forall (row_ok draw kd m ls n k) rows.

Lemma run_spec draw eta kd n k rows : (0 < k)%nat -> forall bl m ls lo,
  network m ls kd lo n k -> ls_in lo = k -> Forall cleared ls -> Forall (Forall (fun i => (i < length rows)%nat)) bl ->
  (forall b1 b2 m1, b1 ++ b2 = bl -> foldM (fun m b => batch draw eta (pick rows b) m) b1 m = Ok m1 -> trainable draw kd n k rows m1) ->
  exists m' ls' lo', foldM (fun m b => batch draw eta (pick rows b) m) bl m = Ok m' /\
    network m' ls' kd lo' n k /\ ls_in lo' = k /\ ls_inv lo' = ls_inv lo /\ Forall cleared ls' /\
    gd_run draw kd (factor kd k lo) eta (map (pick rows) bl) m m'.
Proof.
  intros Hk. induction bl as [|b bl IH]; intros m ls lo W Hin HC HB HT.
  - exists m, ls, lo. split; [reflexivity|]. split; [exact W|]. split; [exact Hin|]. split; [reflexivity|]. split; [exact HC|]. constructor.
  - inversion HB as [|? ? Hb HB']; subst.
    destruct (c55_batch_is_gradient_descent draw eta m ls kd lo n _ (pick rows b) W Hk eq_refl HC) as (m1 & ls1 & lo1 & cs & E1 & W1 & I1 & V1 & _ & C1 & _ & _ & M1).
    { pose proof (HT [] (b :: bl) m eq_refl eq_refl ls lo W) as HR. rewrite Forall_forall in HR |- *.
      intros r Hr. apply in_map_iff in Hr. destruct Hr as (i & <- & Hi). apply HR. apply nth_In.
      rewrite Forall_forall in Hb. exact (Hb i Hi). }
    destruct (IH m1 ls1 lo1 W1 I1 C1 HB') as (m2 & ls2 & lo2 & E2 & W2 & I2 & V2 & C2 & M2).
    { intros b1 b2 m2 <- E. apply (HT (b :: b1) b2 m2 eq_refl). cbn [foldM]. rewrite E1. exact E. }
    exists m2, ls2, lo2. split; [cbn [foldM]; rewrite E1; exact E2|]. split; [exact W2|]. split; [exact I2|]. split; [congruence|].
    split; [exact C2|]. cbn [map]. econstructor; [exact M1|]. unfold factor in *. rewrite V1 in M2. exact M2.
Qed.

(** FNN::fit in sequential mode is gradient descent over the batches of consecutive rows, in
    order, [epochs] times, as long as every network met on the way is differentiable at the rows. *)
Theorem c56_fit_is_gradient_descent : forall draw eta d rows m ls kd lo n k bs epochs fuel,
  network m ls kd lo n k -> (0 < k)%nat -> ls_in lo = k -> Forall cleared ls -> rows_of d rows ->
  (1 <= bs)%nat -> (ds_size d <= fuel)%nat ->
  exists bl, batches_of (ds_size d) bs bl /\
  ((forall b1 b2 m1, b1 ++ b2 = concat (repeat bl epochs) ->
      foldM (fun m b => batch draw eta (pick rows b) m) b1 m = Ok m1 -> trainable draw kd n k rows m1) ->
   exists m' ls' lo', fit_sequential draw eta d fuel epochs bs m = Some (Ok m') /\ network m' ls' kd lo' n k /\
    Forall cleared ls' /\ gd_run draw kd (factor kd k lo) eta (map (pick rows) (concat (repeat bl epochs))) m m').
Proof.
  intros draw eta d rows m ls kd lo n k bs epochs fuel W Hk Hin HC HR Hb Hf.
  destruct (c39_sequential (ds_size d) bs Hb) as (bl & B & F). exists bl. split; [exact B|]. intros HT.
  assert (HB : Forall (Forall (fun i => (i < length rows)%nat)) (concat (repeat bl epochs))).
  { rewrite (proj1 HR). apply batches_lt in B. clear - B. induction epochs as [|e IH]; cbn [repeat concat]; [constructor|]. apply Forall_app; auto. }
  destruct (run_spec draw eta kd n k rows Hk _ m ls lo W Hin HC HB HT) as (m' & ls' & lo' & E & W' & _ & _ & C' & G).
  exists m', ls', lo'. split; [|auto]. unfold fit_sequential. rewrite F by exact Hf. rewrite repeat_flat.
  now rewrite (exec_batches draw eta d rows HR _ m HB), E.
Qed.
Print Assumptions c56_fit_is_gradient_descent.

(** A layer that is differentiable at every input. *)
Definition smooth_kind (l : layer R) : Prop :=
  match knd l with KDense | KAct Linear | KAct Sigmoid | KAct Tanh | KAct Softmax => True
  | KAct Relu => False | KAct (Elu alpha) => alpha = 1 end.
Lemma smooth_everywhere : forall ls n k x, nshape ls n k -> length x = n -> Forall smooth_kind ls -> chain_smooth ls x.
Proof.
  induction ls as [|l ls IH]; intros n k x HS Hx F; [exact I|]. inversion F as [|? ? F1 F2]; subst.
  destruct HS as (j & HL & HS). cbn [chain_smooth]. split.
  - unfold layer_smooth, smooth_kind in *. destruct HL as (_ & _ & _ & S4).
    destruct (knd l) as [|[]]; cbn; auto; try contradiction. + subst. split; [lra|auto]. + destruct S4 as (_ & S4). auto.
  - intros l1 E. destruct (layer_forward_sem l (length x) j x HL eq_refl) as (E' & L). rewrite E' in E. injection E as <-.
    cbn [set_out out]. eapply IH; eauto.
Qed.
Lemma map_NL_inj : forall (a b : list (layer R)), map (@NL R) a = map (@NL R) b -> a = b.
Proof. induction a as [|x a IH]; intros [|y b] E; try discriminate; [reflexivity|]. cbn in E. injection E as -> E. f_equal. auto. Qed.
Lemma network_layers_unique (m : model (node R)) ls ls' kd lo lo' n k : network m ls kd lo n k -> network m ls' kd lo' n k -> ls' = ls.
Proof.
  intros W W'. pose proof (nw_nodes _ _ _ _ _ _ W) as E. pose proof (nw_nodes _ _ _ _ _ _ W') as E'. rewrite E in E'.
  apply app_inj_tail in E'. destruct E' as (E' & _). symmetry. now apply map_NL_inj.
Qed.
Lemma smooth_trainable draw eta tol n k rows : (0 < k)%nat ->
  Forall (fun xt : list R * list R => length (fst xt) = n /\ length (snd xt) = k) rows ->
  forall bl m ls lo m1, network m ls (MSE tol) lo n k -> ls_in lo = k -> Forall cleared ls -> Forall smooth_kind ls ->
  Forall (Forall (fun i => (i < length rows)%nat)) bl ->
  foldM (fun m b => batch draw eta (pick rows b) m) bl m = Ok m1 -> trainable draw (MSE tol) n k rows m1.
Proof.
  intros Hk HR.
  assert (TR : forall m ls lo, network m ls (MSE tol) lo n k -> Forall smooth_kind ls -> trainable draw (MSE tol) n k rows m).
  { intros m ls lo W HS ls' lo' W'. rewrite (network_layers_unique _ _ _ _ _ _ _ _ W W') in *.
    eapply Forall_impl; [|exact HR]. intros (x, t) (Q1 & Q2). cbn [fst snd] in *.
    split; [exact Q1|]. split; [exact Q2|]. split; [|intros; exact I].
    exact (smooth_everywhere ls n k x (nw_shape _ _ _ _ _ _ W) Q1 HS). }
  induction bl as [|b bl IH]; intros m ls lo m1 W Hin HC HS HB E.
  - cbn [foldM] in E. injection E as <-. eauto.
  - inversion HB as [|? ? Hb HB']; subst.
    destruct (c55_batch_is_gradient_descent draw eta m ls _ lo n _ (pick rows b) W Hk eq_refl HC) as (m2 & ls2 & lo2 & cs & E2 & W2 & I2 & V2 & KK & C2 & _ & _ & M2).
    { pose proof (TR m ls lo W HS ls lo W) as HT. rewrite Forall_forall in HT |- *.
      intros r Hr. apply in_map_iff in Hr. destruct Hr as (i & <- & Hi). apply HT. apply nth_In.
      rewrite Forall_forall in Hb. exact (Hb i Hi). }
    cbn [foldM] in E. rewrite E2 in E. cbn [bind] in E.
    refine (IH m2 ls2 lo2 m1 W2 I2 C2 _ HB' E).
    clear - KK HS. revert ls2 KK. induction HS as [|l ls HL _ IH]; intros [|l2 ls2] KK; try discriminate; constructor.
    + injection KK as K _. unfold smooth_kind in *. now rewrite K.
    + apply IH. now injection KK.
Qed.

(** With the mean squared error and layers differentiable everywhere nothing needs to be known
    about the networks met on the way. *)
Theorem c56_fit_mean_squared_error : forall draw eta d rows m ls tol lo n k bs epochs fuel,
  network m ls (MSE tol) lo n k -> (0 < k)%nat -> ls_in lo = k -> Forall cleared ls -> Forall smooth_kind ls ->
  rows_of d rows -> Forall (fun xt => length (fst xt) = n /\ length (snd xt) = k) rows ->
  (1 <= bs)%nat -> (ds_size d <= fuel)%nat ->
  exists bl m' ls' lo', batches_of (ds_size d) bs bl /\
    fit_sequential draw eta d fuel epochs bs m = Some (Ok m') /\ network m' ls' (MSE tol) lo' n k /\ Forall cleared ls' /\
    gd_run draw (MSE tol) (INR k * ls_inv lo) eta (map (pick rows) (concat (repeat bl epochs))) m m'.
Proof.
  intros draw eta d rows m ls tol lo n k bs epochs fuel W Hk Hin HC HS HR HZ Hb Hf.
  destruct (c56_fit_is_gradient_descent draw eta d rows m ls (MSE tol) lo n k bs epochs fuel W Hk Hin HC HR Hb Hf) as (bl & B & F).
  destruct F as (m' & ls' & lo' & E & W' & C' & G).
  - intros b1 b2 m1 E1 E2.
    assert (HB : Forall (Forall (fun i => (i < length rows)%nat)) (concat (repeat bl epochs))).
    { rewrite (proj1 HR). apply batches_lt in B. clear - B. induction epochs as [|e IH]; cbn [repeat concat]; [constructor|]. apply Forall_app; auto. }
    rewrite <- E1 in HB. apply Forall_app in HB. destruct HB as (HB & _).
    exact (smooth_trainable draw eta tol n k rows Hk HZ b1 m ls lo m1 W Hin HC HS HB E2).
  - exists bl, m', ls', lo'. auto.
Qed.
Print Assumptions c56_fit_mean_squared_error.

(** A dense layer with two inputs and three outputs, a hyperbolic tangent and the mean squared
    error with batch size 2; two rows, one batch per epoch, ten epochs. *)
Definition ex_step_layers : list (layer R) :=
  [mkLayer KDense 2 [1; 2; 3; 4; 5; 6] [1; 0; -20] [0; 0; 0; 0; 0; 0] [0; 0; 0] [0; 0; 0] [0; 0];
   mkLayer (KAct Tanh) 3 [] [] [] [] [0; 0; 0] [0; 0; 0]].
Definition ex_step_data : dataset R := ds_vec 0 [1; 2; 6; 10; 0; 2; 1; 5; 4; 1] 5 1 [2; 3; 4]%nat.
Definition ex_step_rows : row_list := [([1; 2], [6; 10; 0]); ([2; 1], [5; 4; 1])].
Definition ex_lo : lossl R := loss_new 3 2.

Lemma ex_step_network : exists m : model (node R), network m ex_step_layers (MSE 1) ex_lo 2 3.
Proof.
  destruct (c36_built true 2 (le_n 2)) as (s & E & H1 & H2 & H3 & H4 & H5).
  exists (mkModel s (map (fun s => (s, SNull)) (map NL ex_step_layers ++ [NO (MSE 1) ex_lo]))).
  constructor; cbn [mgraph mnodes].
  - exact (is_chain_built _ _ true 2 E (le_n 2) H1 H2 H3 H4 H5).
  - cbn. lia.
  - reflexivity.
  - cbn [nshape ex_step_layers]. exists 3%nat. split; [|exists 3%nat; split; [|reflexivity]].
    + unfold lshape. cbn. auto 10.
    + unfold lshape. cbn. split; [auto|]. split; [auto|]. split; [auto|]. split; [auto|]. discriminate.
  - reflexivity.
Qed.
Example c54_c55_c56_hypotheses_met : exists m : model (node R),
  network m ex_step_layers (MSE 1) ex_lo 2 3 /\ (0 < 3)%nat /\ ls_in ex_lo = 3%nat /\
  Forall cleared ex_step_layers /\ Forall smooth_kind ex_step_layers /\
  rows_of ex_step_data ex_step_rows /\ Forall (fun xt => length (fst xt) = 2%nat /\ length (snd xt) = 3%nat) ex_step_rows /\
  Forall (row_ok (fun _ => 0) (MSE 1) m ex_step_layers 2 3) ex_step_rows /\ batches_of (ds_size ex_step_data) 2 [[0; 1]%nat].
Proof.
  destruct ex_step_network as (m & W). exists m. split; [exact W|]. split; [lia|]. split; [reflexivity|].
  assert (HS : Forall smooth_kind ex_step_layers) by (repeat constructor).
  split.
  { constructor; [|constructor; [|constructor]]; intros K; [|discriminate]. cbn [wgrad bgrad].
    split; intros p; do 6 (destruct p as [|p]; [reflexivity|]); destruct p; reflexivity. }
  split; [exact HS|]. split.
  { split; [reflexivity|]. intros i x t Hi. destruct i as [|[|i]]; [| |destruct i; discriminate]; injection Hi as <- <-; split; reflexivity. }
  split; [repeat constructor|]. split.
  - assert (G : forall x t, length x = 2%nat -> length t = 3%nat -> row_ok (fun _ => 0) (MSE 1) m ex_step_layers 2 3 (x, t)).
    { intros x t Hx Ht. split; [exact Hx|]. split; [exact Ht|]. split; [|intros; exact I].
      exact (smooth_everywhere _ 2 3 _ (nw_shape _ _ _ _ _ _ W) Hx HS). }
    unfold ex_step_rows. apply Forall_cons; [now apply G|]. apply Forall_cons; [now apply G|]. apply Forall_nil.
  - split; [reflexivity|]. split; repeat constructor.
Qed.
