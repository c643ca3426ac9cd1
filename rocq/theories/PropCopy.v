(** C38: copies of a model. *)
From Verif Require Import Base Num MathModel MathProofs LayerModel LossModel OptModel OptProofs GraphModel GraphProofs ModelModel NodeModel ChainProofs ModelProofs PropGraph PropModel TrainProofs CopyModel.

(** *** The graph of a copy *)
Lemma ssorted_filter (f : nat -> bool) l : ssorted l -> ssorted (filter f l).
Proof.
  induction 1 as [|x l Hx HS IH]; [constructor|]. cbn [filter]. destruct (f x); [|exact IH].
  constructor; [|exact IH]. intros y Hy. apply filter_In in Hy. apply Hx. tauto.
Qed.
Lemma ssorted_unique l : forall l', ssorted l -> ssorted l' -> (forall x, In x l <-> In x l') -> l = l'.
Proof.
  induction l as [|a l IH]; intros l' S1 S2 HI.
  - destruct l' as [|b l']; [reflexivity|]. exfalso. apply (proj2 (HI b)). now left.
  - destruct l' as [|b l']; [exfalso; apply (proj1 (HI a)); now left|].
    inversion S1 as [|? ? A1 A2]; subst. inversion S2 as [|? ? B1 B2]; subst.
    assert (a = b).
    { pose proof (proj1 (HI a) (or_introl eq_refl)) as [E|E]; [auto|].
      pose proof (proj2 (HI b) (or_introl eq_refl)) as [E'|E']; [auto|].
      specialize (A1 _ E'). specialize (B1 _ E). lia. }
    subst b. f_equal. apply IH; auto. intros x. specialize (HI x). cbn in HI. split; intros Hx.
    + destruct (proj1 HI (or_intror Hx)) as [->|]; auto. specialize (A1 _ Hx). lia.
    + destruct (proj2 HI (or_intror Hx)) as [->|]; auto. specialize (B1 _ Hx). lia.
Qed.

Lemma gbuild_roles_sorted os s : gbuild os = Ok s -> ssorted (inputs s) /\ ssorted (outputs s).
Proof.
  assert (C : forall s, ssorted (inputs (compute_roles s)) /\ ssorted (outputs (compute_roles s))).
  { intros s0. cbn. split; apply ssorted_filter, ssorted_seq. }
  assert (F : forall s a b s', add_forward s a b = Ok s' -> ssorted (inputs s') /\ ssorted (outputs s')).
  { intros s0 a b s' E. unfold add_forward in E.
    destruct (add_arc (nodes s0) (fgraph s0) a b); try discriminate. cbn [bind] in E.
    destruct (add_arc (nodes s0) (tgraph s0) a b); try discriminate. injection E as <-. apply C. }
  assert (B : forall s a b s', add_backward s a b = Ok s' -> inputs s' = inputs s /\ outputs s' = outputs s).
  { intros s0 a b s' E. unfold add_backward in E.
    destruct (add_arc (nodes s0) (bgraph s0) a b); try discriminate. injection E as <-. auto. }
  assert (L : forall s a b s', add_forward_loss s a b = Ok s' -> inputs s' = inputs s /\ outputs s' = outputs s).
  { intros s0 a b s' E. unfold add_forward_loss in E.
    destruct (add_arc (nodes s0) (tgraph s0) a b); try discriminate. injection E as <-. auto. }
  intros E. unfold gbuild in E. revert E.
  assert (G : forall os s0, ssorted (inputs s0) /\ ssorted (outputs s0) -> foldM gstep os s0 = Ok s ->
    ssorted (inputs s) /\ ssorted (outputs s)).
  { clear os. induction os as [|o os IH]; intros s0 H0 E; [injection E as <-; exact H0|].
    cbn [foldM] in E. destruct (gstep s0 o) as [s1| |] eqn:E1; try discriminate. cbn [bind] in E.
    apply (IH s1); [|exact E]. destruct o; cbn [gstep] in E1.
    - injection E1 as <-. exact H0.
    - injection E1 as <-. exact H0.
    - unfold create_edge in E1. destruct (add_backward s0 b a) as [s2| |] eqn:E2; try discriminate.
      eapply F. exact E1.
    - unfold create_loss_edge in E1. destruct (add_backward s0 b a) as [s2| |] eqn:E2; try discriminate.
      cbn [bind] in E1. apply B in E2. apply L in E1. destruct E1 as (-> & ->), E2 as (-> & ->). exact H0.
    - eapply F. exact E1.
    - apply L in E1. destruct E1 as (-> & ->). exact H0.
    - apply B in E1. destruct E1 as (-> & ->). exact H0. }
  intros E. apply (G os graph_new); [|exact E]. split; constructor.
Qed.

(** When the roles of the model are those of its edges (C37 says when), a copy has the same
    edges, roles and losses, hence the same schedules. *)
Theorem c38_same_graph : forall os s, gbuild os = Ok s -> roles_ok s -> graph_copy s = s.
Proof.
  intros os s E (R1 & R2). destruct (gbuild_roles_sorted os s E) as (S1 & S2).
  pose proof (gbuild_dwf os s E) as W.
  assert (W0 : dwf (mkGraph (nodes s) (fgraph s) (tgraph s) (bgraph s) (losses s) [] []))
    by (unfold dwf in *; cbn in *; intuition; constructor).
  destruct (roles_computed _ W0) as (Q1 & Q2).
  unfold graph_copy. unfold compute_roles in *. cbn [nodes inputs outputs losses fgraph tgraph bgraph] in *.
  destruct s as (n, f, t, b, l, i, o). cbn [nodes inputs outputs losses fgraph tgraph bgraph] in *.
  f_equal.
  - apply ssorted_unique; [apply ssorted_filter, ssorted_seq|exact S1|]. intros x. rewrite Q1, R1. reflexivity.
  - apply ssorted_unique; [apply ssorted_filter, ssorted_seq|exact S2|]. intros x. rewrite Q2, R2. reflexivity.
Qed.
Print Assumptions c38_same_graph.

Example c38_graph_hypotheses_met : exists s, gbuild (chain_build 3 ++ loss_build true 3) = Ok s /\ roles_ok s.
Proof.
  destruct (c36_built true 3) as (s & E & C); [lia|]. exists s. split; [exact E|].
  apply (c37_roles_partial (chain_build 2 ++ [GLayer]) (GEdge 1 2) (loss_build true 3) s);
    [exact E|reflexivity|reflexivity].
Qed.

(** False as stated: the copy of a model with a single layer has an input and an output layer,
    while the model itself has none. *)
Theorem c38_same_roles_refuted : exists os s, gbuild os = Ok s /\
  inputs s = [] /\ outputs s = [] /\
  inputs (graph_copy s) = [0] /\ outputs (graph_copy s) = [0] /\
  schedule 10 (tgraph s) (inputs s) = Some [] /\
  schedule 10 (tgraph (graph_copy s)) (inputs (graph_copy s)) = Some [(0, 1)].
Proof.
  exists [GLayer; GLoss; GLossEdge 0 1].
  destruct (built [GLayer; GLoss; GLossEdge 0 1] (fun s => inputs s = [] /\ outputs s = [] /\
    inputs (graph_copy s) = [0] /\ outputs (graph_copy s) = [0] /\
    schedule 10 (tgraph s) (inputs s) = Some [] /\
    schedule 10 (tgraph (graph_copy s)) (inputs (graph_copy s)) = Some [(0, 1)])) as (s & E & HB).
  { vm_compute. auto 10. }
  exists s. split; [exact E|exact HB].
Qed.
Print Assumptions c38_same_roles_refuted.

(** *** What an operation on a copy touches *)
Section Keys.
Context {T : Type} `{NumOps T} `{TransOps T} `{LimOps T}.

Definition is_layer (s : node T) : bool := match s with NL _ => true | _ => false end.
Definition key (s : node T) : bool * (list T * list T) := (is_layer s, shared_part s).
Definition keys (ns : list (node T * source)) := map (fun sp : node T * source => key (fst sp)) ns.

Lemma n_forward_key s x s' : n_forward s x = Ok s' -> key s' = key s.
Proof.
  destruct s as [l|d|k l]; cbn [n_forward]; intros E.
  - unfold layer_forward in E. destruct (knd l) as [|a].
    + destruct (dense _ _ _ _ _ _); try discriminate. injection E as <-. reflexivity.
    + destruct (act_forward _ _ _); try discriminate. injection E as <-. reflexivity.
  - injection E as <-. reflexivity.
  - destruct (loss_forward k l x) as (l', [[]| |]); try discriminate. injection E as <-. reflexivity.
Qed.
Lemma n_tforward_key draw s x s' : n_tforward draw s x = Ok s' -> key s' = key s.
Proof.
  destruct s as [l|d|k l]; try apply n_forward_key. cbn [n_tforward]. intros E.
  destruct (drop_tforward draw d x); try discriminate. injection E as <-. reflexivity.
Qed.
Lemma n_backward_key s last g s' : n_backward s last g = Ok s' -> key s' = key s.
Proof.
  destruct s as [l|d|k l]; cbn [n_backward]; intros E.
  - unfold layer_backward in E. destruct (knd l) as [|a].
    + destruct (dense_1 _ _ _ _ _ _ _ _) as [((i, wg), bg)| |]; try discriminate. injection E as <-. reflexivity.
    + destruct (act_backward _ _ _ _); try discriminate. injection E as <-. reflexivity.
  - destruct (drop_backward d g); try discriminate. injection E as <-. reflexivity.
  - destruct (loss_backward k l last); try discriminate. injection E as <-. reflexivity.
Qed.

Lemma keys_wr ns i s p s' p' ns' : rd ns i = Ok (s, p) -> key s' = key s -> wr ns i (s', p') = Ok ns' ->
  keys ns' = keys ns.
Proof.
  intros R K E. unfold rd in R. destruct (nth_error ns i) as [z|] eqn:EN; [|discriminate]. injection R as ->.
  unfold wr in E. destruct (i <? length ns); [|discriminate]. injection E as <-.
  revert i EN. unfold keys. induction ns as [|z ns IH]; intros [|i] EN; try discriminate.
  - injection EN as ->. cbn. now rewrite K.
  - cbn. f_equal. now apply IH.
Qed.
Lemma keys_fold {A} (f : list (node T * source) -> A -> res (list (node T * source))) l : forall ns ns',
  (forall ns a ns', f ns a = Ok ns' -> keys ns' = keys ns) -> foldM f l ns = Ok ns' -> keys ns' = keys ns.
Proof.
  induction l as [|a l IH]; intros ns ns' Hf E; [injection E as <-; reflexivity|].
  cbn [foldM] in E. destruct (f ns a) as [ns1| |] eqn:E1; try discriminate. cbn [bind] in E.
  rewrite (IH ns1 ns' Hf E). now apply (Hf _ a).
Qed.

Lemma feed_key draw tr s p x from s' p' : feed (node_ops draw) tr s p x from = Ok (s', p') -> key s' = key s.
Proof.
  unfold feed. cbn [node_ops o_tforward o_forward]. destruct tr; intros E.
  - destruct (n_tforward draw s x) as [s1| |] eqn:E1; try discriminate. injection E as <- <-.
    eapply n_tforward_key; eauto.
  - destruct (n_forward s x) as [s1| |] eqn:E1; try discriminate. injection E as <- <-.
    eapply n_forward_key; eauto.
Qed.
Lemma feed_input_keys draw tr x ns i ns' : feed_input (node_ops draw) tr x ns i = Ok ns' -> keys ns' = keys ns.
Proof.
  unfold feed_input. destruct (rd ns i) as [(s, p)| |] eqn:R; try discriminate. cbn [bind]. intros E.
  destruct (feed (node_ops draw) tr s p x SInput) as [(s', p')| |] eqn:F; try discriminate. cbn [bind] in E.
  eapply keys_wr; [exact R| |exact E]. eapply feed_key; eauto.
Qed.
Lemma run_arc_keys draw tr ns ab ns' : run_arc (node_ops draw) tr ns ab = Ok ns' -> keys ns' = keys ns.
Proof.
  destruct ab as (a, b). unfold run_arc. intros E.
  destruct (node_output (node_ops draw) ns a) as [y| |]; try discriminate. cbn [bind] in E.
  destruct (rd ns b) as [(s, p)| |] eqn:R; try discriminate. cbn [bind] in E.
  destruct (feed (node_ops draw) tr s p y (SNode a)) as [(s', p')| |] eqn:F; try discriminate. cbn [bind] in E.
  eapply keys_wr; [exact R| |exact E]. eapply feed_key; eauto.
Qed.
Lemma back_node_keys draw x ns b g ns' : back_node (node_ops draw) x ns b g = Ok ns' -> keys ns' = keys ns.
Proof.
  unfold back_node. intros E.
  destruct (rd ns b) as [(s, p)| |] eqn:R; try discriminate. cbn [bind] in E.
  destruct (deref (node_ops draw) ns x p) as [last| |]; try discriminate. cbn [bind] in E.
  destruct (o_backward (node_ops draw) s last g) as [s'| |] eqn:F; try discriminate. cbn [bind] in E.
  eapply keys_wr; [exact R| |exact E]. exact (n_backward_key _ _ _ _ F).
Qed.
Lemma back_arc_keys draw x ns ab ns' : back_arc (node_ops draw) x ns ab = Ok ns' -> keys ns' = keys ns.
Proof.
  destruct ab as (a, b). unfold back_arc. intros E.
  destruct (rd ns a) as [(s, p)| |] eqn:R; try discriminate. cbn [bind] in E.
  eapply back_node_keys; eauto.
Qed.
Lemma set_targets_keys draw t ns i ns' : set_targets (node_ops draw) t ns i = Ok ns' -> keys ns' = keys ns.
Proof.
  unfold set_targets. intros E. destruct (rd ns i) as [(s, p)| |] eqn:R; try discriminate. cbn [bind] in E.
  eapply keys_wr; [exact R| |eassumption]. destruct s; reflexivity.
Qed.

Lemma step_keys draw m x t m' : m_step (node_ops draw) m x t = Ok m' ->
  keys (mnodes m') = keys (mnodes m) /\ mgraph m' = mgraph m.
Proof.
  unfold m_step. intros E.
  destruct (sched (tgraph (mgraph m)) _ _) as [trun| |]; try discriminate. cbn [bind] in E.
  destruct (sched (bgraph (mgraph m)) _ _) as [brun| |]; try discriminate. cbn [bind] in E.
  destruct (foldM (set_targets (node_ops draw) t) _ _) as [n1| |] eqn:E1; try discriminate. cbn [bind] in E.
  destruct (foldM (feed_input (node_ops draw) true x) _ _) as [n2| |] eqn:E2; try discriminate. cbn [bind] in E.
  destruct (foldM (run_arc (node_ops draw) true) _ _) as [n3| |] eqn:E3; try discriminate. cbn [bind] in E.
  destruct (foldM (fun ns i => back_node (node_ops draw) x ns i []) _ _) as [n4| |] eqn:E4; try discriminate. cbn [bind] in E.
  destruct (foldM (back_arc (node_ops draw) x) _ _) as [n5| |] eqn:E5; try discriminate. injection E as <-.
  cbn [mnodes mgraph]. split; [|reflexivity].
  apply keys_fold in E1; [|intros; eapply set_targets_keys; eauto].
  apply keys_fold in E2; [|intros; eapply feed_input_keys; eauto].
  apply keys_fold in E3; [|intros; eapply run_arc_keys; eauto].
  apply keys_fold in E4; [|intros; eapply back_node_keys; eauto].
  apply keys_fold in E5; [|intros; eapply back_arc_keys; eauto].
  congruence.
Qed.
Lemma predict_keys draw m x m' y : m_predict (node_ops draw) m x = Ok (m', y) ->
  keys (mnodes m') = keys (mnodes m) /\ mgraph m' = mgraph m.
Proof.
  unfold m_predict. intros E. destruct (outputs (mgraph m)) as [|o os]; [discriminate|].
  destruct (sched (fgraph (mgraph m)) _ _) as [frun| |]; try discriminate. cbn [bind] in E.
  destruct (foldM (feed_input (node_ops draw) false x) _ _) as [n2| |] eqn:E2; try discriminate. cbn [bind] in E.
  destruct (foldM (run_arc (node_ops draw) false) _ _) as [n3| |] eqn:E3; try discriminate. cbn [bind] in E.
  destruct (node_output (node_ops draw) n3 o) as [y'| |]; try discriminate. injection E as <- <-.
  cbn [mnodes mgraph]. split; [|reflexivity].
  apply keys_fold in E2; [|intros; eapply feed_input_keys; eauto].
  apply keys_fold in E3; [|intros; eapply run_arc_keys; eauto]. congruence.
Qed.
Lemma reset_keys (m m' : model (node T)) : m_reset_score m = Ok m' ->
  keys (mnodes m') = keys (mnodes m) /\ mgraph m' = mgraph m.
Proof.
  unfold m_reset_score. intros E.
  match type of E with (ns <- ?f ;; _) = _ => destruct f as [ns| |] eqn:E1 end; try discriminate.
  injection E as <-. cbn [mnodes mgraph]. split; [|reflexivity].
  eapply keys_fold; [|exact E1]. intros ns0 i ns1 E0. cbn beta in E0.
  destruct (rd ns0 i) as [(s, p)| |] eqn:R; try discriminate. cbn [bind] in E0.
  eapply keys_wr; [exact R| |eassumption]. destruct s; reflexivity.
Qed.
Lemma train_kinds eta (m m' : model (node T)) : m_train eta m = Ok m' ->
  map (fun sp : node T * source => is_layer (fst sp)) (mnodes m')
  = map (fun sp : node T * source => is_layer (fst sp)) (mnodes m) /\ mgraph m' = mgraph m.
Proof.
  unfold m_train. intros E.
  match type of E with (ns <- ?f ;; _) = _ => destruct f as [ns| |] eqn:E1 end; try discriminate.
  injection E as <-. cbn [mnodes mgraph]. split; [|reflexivity].
  revert ns E1. induction (mnodes m) as [|(s, p) l IH]; intros ns E1.
  - injection E1 as <-. reflexivity.
  - cbn [mapM fst snd] in E1. destruct (n_train eta s) as [s'| |] eqn:ES; try discriminate. cbn [bind] in E1.
    match type of E1 with (ys <- ?f ;; _) = _ => destruct f as [ys| |] eqn:E2 end; try discriminate.
    injection E1 as <-. cbn [map fst]. rewrite (IH ys eq_refl). f_equal.
    destruct s as [l0|d|k l0]; cbn [n_train] in ES.
    + destruct (gd_train eta (layer_player l0)); try discriminate. injection ES as <-. reflexivity.
    + injection ES as <-. reflexivity.
    + injection ES as <-. reflexivity.
Qed.

Lemma keys_shared m m' : keys (mnodes m') = keys (mnodes m) -> shared_of m' = shared_of m.
Proof.
  unfold keys, shared_of. intros E. apply (f_equal (map snd)) in E. rewrite !map_map in E. exact E.
Qed.
Lemma keys_kinds (ns ns' : list (node T * source)) : keys ns' = keys ns ->
  map (fun sp : node T * source => is_layer (fst sp)) ns' = map (fun sp : node T * source => is_layer (fst sp)) ns.
Proof. unfold keys. intros E. apply (f_equal (map fst)) in E. rewrite !map_map in E. exact E. Qed.

(** Worlds as programs produce them: all models have the same sequence of layer kinds, and
    the shared vectors belong to those layers. *)
Definition kinds (m : model (node T)) : list bool := map (fun sp : node T * source => is_layer (fst sp)) (mnodes m).
Definition fits (ks : list bool) (sh : list (list T * list T)) : Prop :=
  Forall2 (fun k p => k = false -> p = ([], [])) ks sh.
Definition wf_world (w : world T) : Prop :=
  exists ks, (forall m, In m (w_models w) -> kinds m = ks) /\ fits ks (w_shared w).

Lemma fits_shared (m : model (node T)) : fits (kinds m) (shared_of m).
Proof.
  unfold fits, kinds, shared_of. induction (mnodes m) as [|(s, p) l IH]; cbn; constructor; auto.
  destruct s; cbn; [discriminate|auto|auto].
Qed.
Lemma kinds_view sh m : fits (kinds m) sh -> kinds (view sh m) = kinds m /\ shared_of (view sh m) = sh.
Proof.
  unfold fits, kinds, shared_of, view. cbn [mnodes]. revert sh.
  induction (mnodes m) as [|(s, p) l IH]; intros sh E; cbn in E; inversion E as [|? q ? sh' A B]; subst.
  - auto.
  - destruct (IH sh' B) as (I1 & I2). cbn [combine map fst snd]. split.
    + f_equal; [destruct s; reflexivity|exact I1].
    + f_equal; [|exact I2]. cbn [fst] in A. destruct s; cbn [with_shared shared_part wts bias is_layer] in *.
      * now destruct q.
      * symmetry. auto.
      * symmetry. auto.
Qed.
Lemma view_shared (m : model (node T)) : view (shared_of m) m = m.
Proof.
  unfold view, shared_of. destruct m as (g, ns). cbn [mgraph mnodes]. f_equal.
  induction ns as [|(s, p) l IH]; [reflexivity|]. cbn [map combine fst snd]. rewrite IH. f_equal.
  destruct s as [l0|d|k l0]; [destruct l0; reflexivity|reflexivity|reflexivity].
Qed.

Lemma wf_world_of (m : model (node T)) : wf_world (world_of m).
Proof. exists (kinds m). split; [intros m' [<-|[]]; reflexivity|apply fits_shared]. Qed.

(** One call on copy [c]: what it leaves as it was. *)
Lemma on_copy_frame {A} w c (f : model (node T) -> res (model (node T) * A)) w' a :
  on_copy w c f = Ok (w', a) ->
  exists m m', nth_error (w_models w) c = Some m /\ f (view (w_shared w) m) = Ok (m', a) /\
    w_shared w' = shared_of m' /\ w_models w' = upd (w_models w) c m' /\ c < length (w_models w).
Proof.
  unfold on_copy, rd, wr. destruct (nth_error (w_models w) c) as [m|] eqn:EN; [|discriminate]. cbn [bind].
  destruct (f (view (w_shared w) m)) as [(m', a')| |] eqn:EF; try discriminate. cbn [bind].
  destruct (Nat.ltb_spec c (length (w_models w))); [|discriminate]. intros E. injection E as <- <-.
  exists m, m'. auto.
Qed.
End Keys.

Definition on {T} (o : wop T) : nat :=
  match o with WCopy c | WPredict c _ | WStep c _ _ | WReset c | WTrain _ c => c end.
Definition trains {T} (o : wop T) : bool := match o with WTrain _ _ => true | _ => false end.
Definition copies {T} (o : wop T) : bool := match o with WCopy _ => true | _ => false end.

Section Worlds.
Context {T : Type} `{NumOps T} `{TransOps T} `{LimOps T}.

Definition call_of (draw : nat -> T) (o : wop T) (m : model (node T)) : res (model (node T) * option (list T)) :=
  match o with
  | WCopy _ => Ok (m, None)
  | WPredict _ x => '(m', y) <- m_predict (node_ops draw) m x ;; Ok (m', Some y)
  | WStep _ x t => m' <- m_step (node_ops draw) m x t ;; Ok (m', None)
  | WReset _ => m' <- m_reset_score m ;; Ok (m', None)
  | WTrain eta _ => m' <- m_train eta m ;; Ok (m', None)
  end.
Lemma wstep_call draw w o : copies o = false -> wstep draw w o = on_copy w (on o) (call_of draw o).
Proof. destruct o; cbn; intros E; try discriminate; reflexivity. Qed.

Lemma call_keeps draw (o : wop T) m1 m2 r : call_of draw o m1 = Ok (m2, r) ->
  mgraph m2 = mgraph m1 /\ kinds m2 = kinds m1 /\ (trains o = false -> shared_of m2 = shared_of m1).
Proof.
  intros E. destruct o as [c|c x|c x t|c|eta c]; cbn [call_of] in E.
  - injection E as <- <-. auto.
  - destruct (m_predict (node_ops draw) m1 x) as [(m3, y)| |] eqn:EP; try discriminate.
    injection E as <- <-. apply predict_keys in EP. destruct EP as (EP & EG). split; [exact EG|].
    split; [now apply keys_kinds|intros _; now apply keys_shared].
  - destruct (m_step (node_ops draw) m1 x t) as [m3| |] eqn:EP; try discriminate.
    injection E as <- <-. apply step_keys in EP. destruct EP as (EP & EG). split; [exact EG|].
    split; [now apply keys_kinds|intros _; now apply keys_shared].
  - destruct (m_reset_score m1) as [m3| |] eqn:EP; try discriminate.
    injection E as <- <-. apply reset_keys in EP. destruct EP as (EP & EG). split; [exact EG|].
    split; [now apply keys_kinds|intros _; now apply keys_shared].
  - destruct (m_train eta m1) as [m3| |] eqn:EP; try discriminate.
    injection E as <- <-. apply train_kinds in EP. destruct EP as (EP & EG). split; [exact EG|].
    split; [exact EP|discriminate].
Qed.

Lemma nth_error_upd {A} (l : list A) i x j : i < length l ->
  nth_error (upd l i x) j = if j =? i then Some x else nth_error l j.
Proof.
  revert i j. induction l as [|a l IH]; intros [|i] [|j] Hi; cbn in *; try lia; auto.
  - rewrite IH by lia. reflexivity.
Qed.
Lemma In_upd {A} (l : list A) i x y : In y (upd l i x) -> y = x \/ In y l.
Proof.
  revert i. induction l as [|a l IH]; intros [|i]; cbn; try tauto.
  - intros [->|Hy]; auto.
  - intros [->|Hy]; auto. destruct (IH i Hy); auto.
Qed.

Lemma wstep_wf draw w o w' r : wf_world w -> wstep draw w o = Ok (w', r) -> wf_world w'.
Proof.
  intros (ks & K & F) E. destruct (copies o) eqn:EC.
  - destruct o as [c| | | |]; try discriminate. cbn [wstep] in E. unfold rd in E.
    destruct (nth_error (w_models w) c) as [m|] eqn:EN; [|discriminate]. injection E as <- <-.
    exists ks. split; [|exact F]. cbn [w_models]. intros m' Hm. apply in_app_iff in Hm.
    destruct Hm as [Hm|[<-|[]]]; [auto|].
    rewrite <- (K m) by (eapply nth_error_In; eauto). unfold kinds, model_copy. cbn [mnodes].
    rewrite map_map. reflexivity.
  - rewrite (wstep_call draw w o EC) in E. destruct (on_copy_frame _ _ _ _ _ E) as (m & m' & A & B & C & D & L).
    pose proof (call_keeps _ _ _ _ _ B) as (_ & Q & _).
    assert (Km : kinds m = ks) by (apply K; eapply nth_error_In; eauto).
    assert (Km' : kinds m' = ks).
    { rewrite Q. rewrite <- Km. apply kinds_view. now rewrite Km. }
    exists ks. split.
    + rewrite D. intros m0 Hm0. apply In_upd in Hm0. destruct Hm0 as [->|Hm0]; auto.
    + rewrite C, <- Km'. apply fits_shared.
Qed.
End Worlds.

(** A call on one copy leaves the other models exactly as they were (gradients, activations,
    loss statistics, layers); only training writes to the shared parameters. Any graph. *)
Theorem c38_separate : forall T (NT : NumOps T) (TT : TransOps T) (LT : LimOps T) draw (w : world T) o w' r,
  wf_world w -> wstep draw w o = Ok (w', r) ->
  wf_world w' /\
  (forall c m, nth_error (w_models w) c = Some m -> (c <> on o \/ copies o = true) -> nth_error (w_models w') c = Some m) /\
  (trains o = false -> w_shared w' = w_shared w).
Proof.
  intros T NT TT LT draw w o w' r W E. split; [eapply wstep_wf; eauto|].
  destruct (copies o) eqn:EC.
  - destruct o as [c| | | |]; try discriminate. cbn [wstep] in E. unfold rd in E.
    destruct (nth_error (w_models w) c) as [m|] eqn:EN; [|discriminate]. injection E as <- <-.
    cbn [w_models w_shared]. split; [|auto]. intros c' m0 Hm _. rewrite nth_error_app1; [exact Hm|].
    apply nth_error_Some. congruence.
  - rewrite (wstep_call draw w o EC) in E. destruct (on_copy_frame _ _ _ _ _ E) as (m & m' & A & B & C & D & L).
    pose proof (call_keeps _ _ _ _ _ B) as (_ & Q & P). destruct W as (ks & K & F). split.
    + intros c m0 Hm Hc. destruct Hc as [Hc|]; [|discriminate]. rewrite D, nth_error_upd by exact L.
      destruct (Nat.eqb_spec c (on o)); [contradiction|exact Hm].
    + intros Ht. rewrite C, (P Ht). apply kinds_view. rewrite (K m); [exact F|eapply nth_error_In; eauto].
Qed.
Print Assumptions c38_separate.

(** Without training in between, a copy ends in the state it would have reached had the
    other models not been used at all. *)
Theorem c38_independent : forall T (NT : NumOps T) (TT : TransOps T) (LT : LimOps T) draw os (w w' : world T) c m,
  wf_world w -> Forall (fun o => trains o = false) os -> wsteps draw os w = Ok w' ->
  nth_error (w_models w) c = Some m ->
  exists v, wsteps draw (filter (fun o => (on o =? c) && negb (copies o)) os) w = Ok v /\
    nth_error (w_models v) c = nth_error (w_models w') c /\ w_shared w' = w_shared w.
Proof.
  intros T NT TT LT draw os. unfold wsteps.
  assert (G : forall os (w u w' : world T) c m, wf_world w -> wf_world u -> w_shared u = w_shared w ->
    nth_error (w_models w) c = Some m -> nth_error (w_models u) c = Some m ->
    Forall (fun o => trains o = false) os ->
    foldM (fun w o => '(w', _) <- wstep draw w o ;; Ok w') os w = Ok w' ->
    exists v, foldM (fun w o => '(w', _) <- wstep draw w o ;; Ok w')
        (filter (fun o => (on o =? c) && negb (copies o)) os) u = Ok v /\
      nth_error (w_models v) c = nth_error (w_models w') c /\ w_shared w' = w_shared w).
  { clear os. induction os as [|o os IH]; intros w u w' c m W U ES Ew Eu HT E.
    - injection E as <-. exists u. cbn. split; [reflexivity|]. split; [congruence|reflexivity].
    - assert (HT' : trains o = false /\ Forall (fun o => trains o = false) os) by (inversion HT; auto).
      destruct HT' as (Ho & Hos). cbn [foldM] in E.
      destruct (wstep draw w o) as [(w1, r)| |] eqn:E1; try discriminate. cbn [bind] in E.
      destruct (c38_separate T NT TT LT draw w o w1 r W E1) as (W1 & FR & SH). specialize (SH Ho).
      cbn [filter]. destruct ((on o =? c) && negb (copies o)) eqn:EC.
      + apply andb_true_iff in EC. destruct EC as (EC1 & EC2). apply Nat.eqb_eq in EC1. apply negb_true_iff in EC2.
        rewrite (wstep_call draw w o EC2) in E1.
        destruct (on_copy_frame _ _ _ _ _ E1) as (m1 & m' & A & B & C & D & L).
        rewrite EC1 in *. assert (m1 = m) by congruence. subst m1.
        assert (Lu : c < length (w_models u)) by (apply nth_error_Some; congruence).
        assert (E2 : wstep draw u o = Ok (mkWorld (shared_of m') (upd (w_models u) c m'), r)).
        { rewrite (wstep_call draw u o EC2), EC1. unfold on_copy, rd, wr. rewrite Eu. cbn [bind].
          rewrite ES, B. cbn [bind]. apply Nat.ltb_lt in Lu. now rewrite Lu. }
        cbn [foldM]. rewrite E2. cbn [bind].
        destruct (IH w1 (mkWorld (shared_of m') (upd (w_models u) c m')) w' c m') as (v & V1 & V2 & V3); auto.
        * exact (wstep_wf draw u o _ r U E2).
        * rewrite D, nth_error_upd, Nat.eqb_refl by exact L. reflexivity.
        * cbn [w_models]. rewrite nth_error_upd, Nat.eqb_refl by exact Lu. reflexivity.
        * exists v. split; [exact V1|]. split; [exact V2|]. congruence.
      + destruct (IH w1 u w' c m) as (v & V1 & V2 & V3); auto.
        * congruence.
        * apply FR; [exact Ew|]. destruct (Nat.eqb_spec (on o) c); [|left; congruence].
          destruct (copies o); [now right|discriminate].
        * exists v. split; [exact V1|]. split; [exact V2|]. congruence. }
  intros w w' c m W HT E Hm. exact (G os w w w' c m W W eq_refl Hm Hm HT E).
Qed.
Print Assumptions c38_independent.

(** *** The parameters are shared *)
Lemma is_chain_roles lossy n s : is_chain lossy n s -> 1 <= n -> roles_ok s.
Proof.
  intros C Hn. unfold roles_ok. rewrite (ic_in _ _ _ C), (ic_out _ _ _ C), (ic_nodes _ _ _ C), (ic_losses _ _ _ C).
  assert (F : forall a i, In i (fgraph s a) <-> i = S a /\ i < n).
  { intros a i. rewrite (ic_f _ _ _ C). destruct (Nat.ltb_spec (S a) n); cbn; [|lia].
    split; [intros [<-|[]]; auto|intros (-> & _); auto]. }
  assert (NL : forall i, i < n -> ~ In i (if lossy then [n] else [])).
  { intros i Hi. destruct lossy; cbn; [lia|tauto]. }
  split; intros i; cbn [In].
  - split.
    + intros [<-|[]]. split; [destruct lossy; lia|]. split; [apply NL; lia|]. intros a Ha. apply F in Ha. lia.
    + intros (A & B & D). left. destruct i as [|i]; [reflexivity|]. exfalso. apply (D i), F. split; [reflexivity|].
      destruct lossy; [|exact A]. cbn in B. lia.
  - split.
    + intros [<-|[]]. split; [destruct lossy; lia|]. split; [apply NL; lia|]. rewrite (ic_f _ _ _ C).
      destruct (Nat.ltb_spec (S (n - 1)) n); [lia|reflexivity].
    + intros (A & B & D). left. rewrite (ic_f _ _ _ C) in D. destruct (Nat.ltb_spec (S i) n); [discriminate|].
      destruct lossy; [|lia]. cbn in B. lia.
Qed.

Section Shared.
Context {T : Type} `{NumOps T} `{TransOps T} `{LimOps T}.

Definition sig (l : layer T) : kind T * nat * nat := (knd l, insz l, length (out l)).
Definition params (l : layer T) : list T * list T := (wts l, bias l).

Lemma sig_same ls : forall ls' n k, nshape ls n k -> nshape ls' n k -> Forall2 same_params ls ls' -> map sig ls' = map sig ls.
Proof.
  induction ls as [|l ls IH]; intros ls' n k S S' P.
  - destruct ls'; [reflexivity|inversion P].
  - destruct ls' as [|l' ls']; [inversion P|].
    assert (PP : same_params l l' /\ Forall2 same_params ls ls') by (inversion P; auto).
    destruct PP as (P1 & P2). destruct S as (j & HL & S). destruct S' as (j' & HL' & S').
    assert (j' = j).
    { destruct HL as (_ & A2 & A3 & A4), HL' as (_ & B2 & B3 & B4), P1 as (Q1 & Q2 & Q3 & Q4).
      rewrite Q1 in B4. destruct (knd l).
      - destruct A4 as (_ & _ & A5 & _), B4 as (_ & _ & B5 & _). congruence.
      - destruct A4, B4. congruence. }
    subst j'. cbn [map]. f_equal; [|eapply IH; eauto]. unfold sig.
    destruct P1 as (-> & -> & _). destruct HL as (_ & _ & -> & _), HL' as (_ & _ & -> & _). reflexivity.
Qed.
Lemma sig_trained eta ls : map sig (map (trained eta) ls) = map sig ls.
Proof. rewrite map_map. apply map_ext. intros l. unfold sig, trained. destruct (knd l) eqn:K; [reflexivity|now rewrite K]. Qed.

Definition with_params (l : layer T) (p : list T * list T) : layer T :=
  mkLayer (knd l) (insz l) (fst p) (snd p) (wgrad l) (bgrad l) (out l) (ig l).

Lemma nshape_swap ls : forall ls' n k, nshape ls n k -> nshape ls' n k -> map sig ls' = map sig ls ->
  exists ls2, map (fun lp => with_params (fst lp) (snd lp)) (combine ls (map params ls')) = ls2 /\
    nshape ls2 n k /\ map sig ls2 = map sig ls /\ length ls2 = length ls.
Proof.
  induction ls as [|l ls IH]; intros ls' n k S S' E.
  - exists []. auto.
  - destruct ls' as [|l' ls']; [discriminate|]. injection E as E1 E2 E3 E4.
    destruct S as (j & HL & S). destruct S' as (j' & HL' & S').
    assert (j' = j) by (destruct HL as (_ & _ & A & _), HL' as (_ & _ & B & _); congruence). subst j'.
    destruct (IH ls' j k S S' E4) as (ls2 & F1 & F2 & F3 & F4).
    exists (with_params l (params l') :: ls2). cbn [map combine fst snd]. rewrite F1. split; [reflexivity|].
    split; [|split; [cbn [map]; now rewrite F3|cbn; now rewrite F4]].
    exists j. split; [|exact F2]. destruct HL as (A1 & A2 & A3 & A4), HL' as (B1 & B2 & B3 & B4).
    unfold lshape, with_params. cbn [insz ig out knd wts wgrad bias bgrad params fst snd].
    rewrite E1 in B4. split; [exact A1|]. split; [exact A2|]. split; [exact A3|].
    destruct (knd l); [|exact A4]. destruct A4 as (C1 & C2 & C3 & C4), B4 as (D1 & D2 & D3 & D4). auto.
Qed.

Lemma view_nodes sh (m : model (node T)) : map fst (mnodes (view sh m))
  = map (fun sp => with_shared (fst sp) (snd sp)) (combine (map fst (mnodes m)) sh).
Proof.
  unfold view. cbn [mnodes]. revert sh. induction (mnodes m) as [|(s, p) l IH]; intros [|q sh]; try reflexivity.
  cbn [combine map fst snd]. now rewrite IH.
Qed.
Lemma view_view sh sh' (m : model (node T)) : length sh = length (mnodes m) -> view sh' (view sh m) = view sh' m.
Proof.
  intros L. unfold view. cbn [mgraph mnodes]. f_equal. revert sh sh' L.
  induction (mnodes m) as [|(s, p) l IH]; intros [|q sh] sh' L; try discriminate; [reflexivity|].
  destruct sh' as [|q' sh']; [reflexivity|]. cbn [combine map fst snd]. f_equal; [|apply IH; now injection L].
  f_equal. destruct s; reflexivity.
Qed.

(** Replacing the parameters of a network. *)
Lemma network_view m ls kd lo n k ls' :
  network m ls kd lo n k -> nshape ls' n k -> map sig ls' = map sig ls ->
  exists ls2, network (view (map params ls' ++ [([], [])]) m) ls2 kd lo n k /\ map sig ls2 = map sig ls /\
    map params ls2 = map params ls'.
Proof.
  intros W S' E. destruct (nshape_swap ls ls' n k (nw_shape _ _ _ _ _ _ W) S' E) as (ls2 & F1 & F2 & F3 & F4).
  exists ls2. split; [|split; [exact F3|]].
  - constructor; [rewrite F4; apply W|rewrite F4; apply W| |exact F2|apply W].
    rewrite view_nodes, (nw_nodes _ _ _ _ _ _ W).
    assert (L : length ls' = length ls) by (apply (f_equal (@length _)) in E; now rewrite !map_length in E).
    clear - L F1. subst ls2. revert ls' L.
    induction ls as [|l ls IH]; intros [|l' ls'] L; try discriminate; [reflexivity|].
    cbn [map app combine fst snd]. f_equal. apply IH. now injection L.
  - clear - F1 E. revert ls' ls2 F1 E. induction ls as [|l ls IH]; intros [|l' ls'] ls2 F1 E; try discriminate.
    + cbn in F1. subst ls2. reflexivity.
    + cbn in F1. subst ls2. cbn [map]. injection E as _ _ _ E. f_equal. now apply IH.
Qed.

Lemma network_shared m ls kd lo n k : network m ls kd lo n k -> shared_of m = map params ls ++ [([], [])].
Proof.
  intros W. pose proof (nw_nodes _ _ _ _ _ _ W) as E. unfold shared_of.
  rewrite <- (map_map fst shared_part), E, map_app, map_map. reflexivity.
Qed.

Definition op_sized (n : nat) (o : wop T) : Prop :=
  match o with WPredict _ x => length x = n | WStep _ x _ => length x = n | _ => True end.

Definition same_nets (w : world T) (g : dlgraph) (kd : losskind T) (n k : nat) (sg : list (kind T * nat * nat)) : Prop :=
  forall m, In m (w_models w) -> mgraph m = g /\ exists ls lo, network (view (w_shared w) m) ls kd lo n k /\
    map sig ls = sg.

Lemma call_network draw o m ls kd lo n k m' r : network m ls kd lo n k -> op_sized n o ->
  call_of draw o m = Ok (m', r) ->
  exists ls' lo', network m' ls' kd lo' n k /\ map sig ls' = map sig ls.
Proof.
  intros W Ho E.
  assert (G : forall c, call_sized n c -> m_call draw m c = Ok m' ->
    exists ls' lo', network m' ls' kd lo' n k /\ map sig ls' = map sig ls).
  { intros c Hc Ec. destruct (network_call draw m ls kd lo n k c m' W Hc Ec) as (ls' & lo' & W' & P).
    exists ls', lo'. split; [exact W'|]. eapply sig_same; [apply W|apply W'|exact P]. }
  destruct o as [c|c x|c x t|c|eta c]; cbn [call_of op_sized] in *.
  - injection E as <- <-. exists ls, lo. auto.
  - apply (G (CPredict x) Ho). cbn [m_call]. destruct (m_predict (node_ops draw) m x) as [(m1, y)| |]; try discriminate.
    injection E as <- <-. reflexivity.
  - apply (G (CStep x t) Ho). cbn [m_call]. destruct (m_step (node_ops draw) m x t) as [m1| |]; try discriminate.
    injection E as <- <-. reflexivity.
  - apply (G CReset I). cbn [m_call]. destruct (m_reset_score m) as [m1| |]; try discriminate.
    injection E as <- <-. reflexivity.
  - destruct (network_train eta m ls kd lo n k W) as (m1 & E1 & _ & W1). rewrite E1 in E. cbn [bind] in E.
    injection E as <- <-. exists (map (trained eta) ls), lo. split; [exact W1|apply sig_trained].
Qed.

Lemma same_nets_step draw w o w' r g kd n k sg : graph_copy g = g -> wf_world w -> same_nets w g kd n k sg ->
  op_sized n o -> wstep draw w o = Ok (w', r) -> same_nets w' g kd n k sg.
Proof.
  intros HG WF SN Ho E. destruct (copies o) eqn:EC.
  - destruct o as [c| | | |]; try discriminate. cbn [wstep] in E. unfold rd in E.
    destruct (nth_error (w_models w) c) as [m|] eqn:EN; [|discriminate]. injection E as <- <-.
    intros m' Hm'. cbn [w_models w_shared] in *. apply in_app_iff in Hm'. destruct Hm' as [Hm'|[<-|[]]]; [auto|].
    destruct (SN m) as (EG & ls & lo & W & ES); [eapply nth_error_In; eauto|].
    split; [cbn; now rewrite EG|]. exists ls, lo. split; [|exact ES].
    constructor; try apply W.
    + pose proof (nw_graph _ _ _ _ _ _ W) as C. unfold model_copy, view in *. cbn [mgraph] in *. now rewrite EG, HG, <- EG.
    + pose proof (nw_nodes _ _ _ _ _ _ W) as C. rewrite view_nodes in *. unfold model_copy. cbn [mnodes].
      rewrite map_map. exact C.
  - rewrite (wstep_call draw w o EC) in E. destruct (on_copy_frame _ _ _ _ _ E) as (m & m' & A & B & C & D & L).
    pose proof (call_keeps _ _ _ _ _ B) as (EG & Q & _).
    destruct (SN m) as (Em & ls & lo & W & ES); [eapply nth_error_In; eauto|].
    destruct (call_network draw o _ ls kd lo n k m' r W Ho B) as (ls' & lo' & W' & ES').
    pose proof (network_shared _ _ _ _ _ _ W') as SH. rewrite <- C in SH.
    intros m0 Hm0. rewrite D in Hm0. apply In_upd in Hm0. destruct Hm0 as [->|Hm0].
    + split; [rewrite EG; cbn; exact Em|]. exists ls', lo'. split; [|congruence].
      rewrite C, view_shared. exact W'.
    + destruct (SN m0 Hm0) as (E0 & ls0 & lo0 & W0 & ES0). split; [exact E0|].
      destruct (network_view _ ls0 kd lo0 n k ls' W0 (nw_shape _ _ _ _ _ _ W')) as (ls2 & W2 & S2 & _); [congruence|].
      exists ls2, lo0. split; [|congruence]. rewrite SH. rewrite view_view in W2; [exact W2|].
      destruct WF as (ks & K & F). specialize (K m0 Hm0).
      assert (LF : length ks = length (w_shared w)) by (clear - F; induction F; cbn; auto).
      rewrite <- LF, <- K. unfold kinds. apply map_length.
Qed.

Lemma same_nets_steps draw os g kd n k sg : graph_copy g = g -> Forall (op_sized n) os ->
  forall w w', wf_world w -> same_nets w g kd n k sg -> wsteps draw os w = Ok w' ->
  wf_world w' /\ same_nets w' g kd n k sg.
Proof.
  intros HG. unfold wsteps. induction os as [|o os IH]; intros HS w w' WF SN E.
  - injection E as <-. auto.
  - assert (HS' : op_sized n o /\ Forall (op_sized n) os) by (inversion HS; auto). destruct HS' as (Ho & Hos).
    cbn [foldM] in E. destruct (wstep draw w o) as [(w1, r)| |] eqn:E1; try discriminate. cbn [bind] in E.
    apply (IH Hos w1 w').
    + eapply wstep_wf; eauto.
    + eapply same_nets_step; eauto.
    + exact E.
Qed.

Lemma sigs_params_same ls : forall ls', map sig ls' = map sig ls -> map params ls' = map params ls -> Forall2 same_params ls ls'.
Proof.
  induction ls as [|l ls IH]; intros [|l' ls'] E1 E2; try discriminate; constructor.
  - injection E1 as A1 A2 A3 A4. injection E2 as B1 B2 B3. repeat split; auto.
  - injection E1 as A1 A2 A3 A4. injection E2 as B1 B2 B3. auto.
Qed.
End Shared.

(** Whatever was done before with the model and its copies, copying and training included,
    all of them predict the same. *)
Theorem c38_same_predictions : forall T (NT : NumOps T) (TT : TransOps T) (LT : LimOps T) draw
    bs (m : model (node T)) ls kd lo n k os w a b ma mb x,
  gbuild bs = Ok (mgraph m) -> network m ls kd lo n k -> Forall (op_sized n) os -> length x = n ->
  wsteps draw os (world_of m) = Ok w ->
  nth_error (w_models w) a = Some ma -> nth_error (w_models w) b = Some mb ->
  mgraph ma = mgraph mb /\
  exists wa wb y, wstep draw w (WPredict a x) = Ok (wa, Some y) /\ wstep draw w (WPredict b x) = Ok (wb, Some y).
Proof.
  intros T NT TT LT draw bs m ls kd lo n k os w a b ma mb x EB W HS Hx E Ea Eb.
  assert (HG : graph_copy (mgraph m) = mgraph m).
  { apply (c38_same_graph bs); [exact EB|]. apply (is_chain_roles true (length ls)); apply W. }
  destruct (same_nets_steps draw os (mgraph m) kd n k (map sig ls) HG HS (world_of m) w) as (WF & SN).
  - apply wf_world_of.
  - intros m' [<-|[]]. split; [reflexivity|]. exists ls, lo. unfold world_of. cbn [w_shared]. rewrite view_shared. auto.
  - exact E.
  - destruct (SN ma) as (Ga & la & loa & Wa & Sa); [eapply nth_error_In; eauto|].
    destruct (SN mb) as (Gb & lb & lob & Wb & Sb); [eapply nth_error_In; eauto|].
    split; [congruence|].
    assert (SH : forall m', In m' (w_models w) -> shared_of (view (w_shared w) m') = w_shared w).
    { destruct WF as (ks & K & F). intros m' Hm'. apply kinds_view. now rewrite (K m' Hm'). }
    pose proof (network_shared _ _ _ _ _ _ Wa) as Pa. pose proof (network_shared _ _ _ _ _ _ Wb) as Pb.
    rewrite SH in Pa by (eapply nth_error_In; eauto). rewrite SH in Pb by (eapply nth_error_In; eauto).
    assert (P : map params lb = map params la).
    { rewrite Pa in Pb. apply app_inj_tail in Pb. symmetry. tauto. }
    destruct (chain_forward_val la n k x (nw_shape _ _ _ _ _ _ Wa) Hx) as (y & Ly & Fy).
    destruct (Fy la (all_same_refl la) (nw_shape _ _ _ _ _ _ Wa)) as (la' & E1 & _).
    destruct (Fy lb) as (lb' & E2 & _); [apply sigs_params_same; congruence|apply Wb|].
    destruct (predict_network draw true (length la) _ la [NO kd loa] x la' y (nw_graph _ _ _ _ _ _ Wa)
      (nw_some _ _ _ _ _ _ Wa) (network_length _ _ _ _ _ _ Wa) (nw_nodes _ _ _ _ _ _ Wa) eq_refl E1) as (m1 & G1 & _).
    destruct (predict_network draw true (length lb) _ lb [NO kd lob] x lb' y (nw_graph _ _ _ _ _ _ Wb)
      (nw_some _ _ _ _ _ _ Wb) (network_length _ _ _ _ _ _ Wb) (nw_nodes _ _ _ _ _ _ Wb) eq_refl E2) as (m2 & G2 & _).
    cbn [wstep]. unfold on_copy, rd, wr. rewrite Ea, Eb. cbn [bind]. rewrite G1, G2. cbn [bind].
    assert (L1 : a < length (w_models w)) by (apply nth_error_Some; congruence).
    assert (L2 : b < length (w_models w)) by (apply nth_error_Some; congruence).
    apply Nat.ltb_lt in L1, L2. rewrite L1, L2. cbn [bind]. do 3 eexists. split; reflexivity.
Qed.
Print Assumptions c38_same_predictions.

(** Training through any copy moves the shared parameters by that copy's own gradients. *)
Theorem c38_training_shared : forall T (NT : NumOps T) (TT : TransOps T) (LT : LimOps T) draw eta (w : world T) a ma ls kd lo n k,
  nth_error (w_models w) a = Some ma -> network (view (w_shared w) ma) ls kd lo n k ->
  exists w', wstep draw w (WTrain eta a) = Ok (w', None) /\
    w_shared w' = map (fun l =>
      match knd l with
      | KDense => (tab (length (wts l)) (fun i => nsub (nth i (wts l) n0) (nmul eta (nth i (wgrad l) n0))),
                   tab (length (bias l)) (fun i => nsub (nth i (bias l) n0) (nmul eta (nth i (bgrad l) n0))))
      | KAct _ => (wts l, bias l)
      end) ls ++ [([], [])].
Proof.
  intros T NT TT LT draw eta w a ma ls kd lo n k Ea W.
  destruct (network_train eta _ ls kd lo n k W) as (m1 & E1 & _ & W1).
  cbn [wstep]. unfold on_copy, rd, wr. rewrite Ea. cbn [bind]. rewrite E1. cbn [bind].
  assert (L1 : a < length (w_models w)) by (apply nth_error_Some; congruence).
  apply Nat.ltb_lt in L1. rewrite L1. cbn [bind]. eexists. split; [reflexivity|]. cbn [w_shared].
  rewrite (network_shared _ _ _ _ _ _ W1). f_equal. rewrite map_map. apply map_ext. intros l.
  unfold trained, moved, params. destruct (knd l); reflexivity.
Qed.
Print Assumptions c38_training_shared.

(** A model is copied; the copy takes a step and is trained: both then predict the same,
    and not what they predicted before. *)
#[local] Existing Instance PropModel.exTrans.
#[local] Existing Instance PropModel.exLim.
Definition ex_ops : list (wop Z) :=
  [WCopy 0; WStep 1 [1; 2]%Z [6; 10; 0]%Z; WPredict 0 [1; 2]%Z; WTrain 1%Z 1; WReset 0].
Example c38_hypotheses_met :
  exists m w w1 w2, gbuild (chain_build 2 ++ loss_build true 2) = Ok (mgraph m) /\
    network m ex_layers (MSE 1%Z) (loss_new 3 1) 2 3 /\ Forall (op_sized 2) ex_ops /\
    wsteps (fun _ => 0%Z) ex_ops (world_of m) = Ok w /\ length (w_models w) = 2 /\
    wstep (fun _ => 0%Z) (world_of m) (WPredict 0 [1; 2]%Z) = Ok (w1, Some [6; 11; 0]%Z) /\
    wstep (fun _ => 0%Z) w (WPredict 0 [1; 2]%Z) = Ok (w2, Some [6; 0; 0]%Z).
Proof.
  pose proof (built (chain_build 2 ++ loss_build true 2) (fun g =>
    let m := mkModel g ex_nodes in
    match wsteps (fun _ => 0%Z) ex_ops (world_of m) with
    | Ok w =>
        match wstep (fun _ => 0%Z) (world_of m) (WPredict 0 [1; 2]%Z), wstep (fun _ => 0%Z) w (WPredict 0 [1; 2]%Z) with
        | Ok (_, Some y), Ok (_, Some y') => length (w_models w) = 2 /\ y = [6; 11; 0]%Z /\ y' = [6; 0; 0]%Z
        | _, _ => False
        end
    | _ => False
    end)) as HB.
  destruct HB as (g & E & HB); [vm_compute; auto|].
  destruct ex_network as (m & Em & _ & Nm & W).
  assert (m = mkModel g ex_nodes) as -> by (destruct m as (g', ns); cbn in *; congruence).
  clear Nm. cbv zeta in HB.
  destruct (wsteps (fun _ => 0%Z) ex_ops (world_of (mkModel g ex_nodes))) as [w| |] eqn:E1; try contradiction.
  destruct (wstep (fun _ => 0%Z) (world_of (mkModel g ex_nodes)) (WPredict 0 [1; 2]%Z)) as [(w1, [y|])| |] eqn:E2; try contradiction.
  destruct (wstep (fun _ => 0%Z) w (WPredict 0 [1; 2]%Z)) as [(w2, [y'|])| |] eqn:E3; try contradiction.
  destruct HB as (L & -> & ->).
  exists (mkModel g ex_nodes), w, w1, w2. split; [exact Em|]. split; [exact W|].
  split; [unfold ex_ops; repeat constructor|]. auto.
Qed.
