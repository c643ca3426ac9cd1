(** C42: the layer-list builder makes a chain with matching sizes. *)
From Verif Require Import Base Num MathModel ConvModel ConvProofs LayerModel LossModel GraphModel ModelModel NodeModel ChainProofs ModelProofs PropGraph PropModel BuilderModel.
Local Open Scope nat_scope.

Section Builder.
Context {T : Type}.

(** *** What a list of descriptors asks for *)
Definition body (ds : list (desc T * actt)) : list (desc T * actt) :=
  match ds with (DInput _, _) :: r => r | _ => ds end.
(** The shape of the network's input: the Input descriptor's, else 0 values. *)
Definition start (ds : list (desc T * actt)) : shape :=
  match ds with (DInput s, _) :: _ => s | _ => (0, 1, 1) end.
Definition asked (d : desc T) (b : blayer T) : Prop :=
  match d with
  | DInput _ => False
  | DDense u => b_kind b = BDense /\ ssize (b_out b) = ssize u
  | DDropout p => b_kind b = BDropout p /\ ssize (b_out b) = ssize (b_in b)
  | DConv f k st p =>
      b_kind b = BConv f k st p /\
      exists h w c h' w', b_in b = (h, w, c) /\ b_out b = (h', w', f) /\
        conv_output_side h (fst k) (fst st) (fst p) = Ok h' /\
        conv_output_side w (snd k) (snd st) (snd p) = Ok w'
  | DMaxPool k st | DAvgPool k st =>
      b_kind b = match d with DMaxPool _ _ => BMaxPool k st | _ => BAvgPool k st end /\
      exists h w c h' w', b_in b = (h, w, c) /\ b_out b = (h', w', c) /\
        pool_output_side h (fst k) (fst st) = Ok h' /\ pool_output_side w (snd k) (snd st) = Ok w'
  end.
Definition asked_act (a : actt) : bkind T :=
  match a with
  | AReLU => BRelu | AELU => BElu | ASoftmax => BSoftmax | ATanH => BTanh | ASigmoid => BSigmoid
  | ALinear => BLinear | ANone => BLinear
  end.
Definition spatial (b : blayer T) : bool :=
  match b_kind b with BConv _ _ _ _ | BMaxPool _ _ | BAvgPool _ _ => true | _ => false end.

(** The layers a list asks for: twice as many as descriptors; at 2i the i-th descriptor's
    layer, at 2i+1 its activation; each layer takes as many values as the one before gives;
    convolution and pooling layers keep the 3-D shape of the layer before the activation. *)
Definition layers_for (s0 : shape) (bs : list (desc T * actt)) (ls : list (blayer T)) : Prop :=
  length ls = 2 * length bs /\
  (forall i d a, nth_error bs i = Some (d, a) ->
    exists b ab, nth_error ls (2 * i) = Some b /\ nth_error ls (2 * i + 1) = Some ab /\
      asked d b /\ b_kind ab = asked_act a /\ ssize (b_out ab) = ssize (b_in ab)) /\
  (forall i b b', nth_error ls i = Some b -> nth_error ls (S i) = Some b' ->
    ssize (b_in b') = ssize (b_out b)) /\
  (forall i b b', nth_error ls (2 * i) = Some b -> nth_error ls (2 * S i) = Some b' ->
    spatial b' = true -> b_in b' = b_out b) /\
  (forall b, nth_error ls 0 = Some b -> ssize (b_in b) = ssize s0 /\ (spatial b = true -> b_in b = s0)).

Lemma ssize_flat n : ssize (flat n) = n.
Proof. unfold ssize, flat. lia. Qed.

Lemma new_layer_ok d s b : new_layer (T:=T) d s = Ok b ->
  asked d b /\ ssize (b_in b) = ssize s /\ (spatial b = true -> b_in b = s).
Proof.
  destruct s as ((h, w), c). unfold new_layer. intros E. destruct d as [i|u|f k st p|k st|k st|p].
  - discriminate.
  - injection E as <-. cbn [asked b_kind b_in b_out spatial]. rewrite !ssize_flat. repeat split; auto. discriminate.
  - destruct (conv_output_side h _ _ _) as [h'| |] eqn:E1; try discriminate. cbn [bind] in E.
    destruct (conv_output_side w _ _ _) as [w'| |] eqn:E2; try discriminate. cbn [bind] in E.
    injection E as <-. cbn. repeat split; auto. exists h, w, c, h', w'. auto.
  - destruct (pool_output_side h _ _) as [h'| |] eqn:E1; try discriminate. cbn [bind] in E.
    destruct (pool_output_side w _ _) as [w'| |] eqn:E2; try discriminate. cbn [bind] in E.
    injection E as <-. cbn. repeat split; auto. exists h, w, c, h', w'. auto.
  - destruct (pool_output_side h _ _) as [h'| |] eqn:E1; try discriminate. cbn [bind] in E.
    destruct (pool_output_side w _ _) as [w'| |] eqn:E2; try discriminate. cbn [bind] in E.
    injection E as <-. cbn. repeat split; auto. exists h, w, c, h', w'. auto.
  - injection E as <-. cbn [asked b_kind b_in b_out spatial]. rewrite !ssize_flat. repeat split; auto. discriminate.
Qed.

Lemma nth_error_snoc2 {A} (l : list A) x y i v : nth_error (l ++ [x; y]) i = Some v ->
  (i < length l /\ nth_error l i = Some v) \/ (i = length l /\ v = x) \/ (i = S (length l) /\ v = y).
Proof.
  intros E. destruct (Nat.lt_ge_cases i (length l)) as [Hi|Hi].
  - rewrite nth_error_app1 in E by exact Hi. auto.
  - rewrite nth_error_app2 in E by exact Hi. right.
    destruct (i - length l) as [|[|j]] eqn:Ei; cbn in E.
    + left. split; [lia|]. now injection E.
    + right. split; [lia|]. now injection E.
    + destruct j; discriminate.
Qed.

Definition shape_after (s0 : shape) (ls : list (blayer T)) (s : shape) : Prop :=
  (ls = [] -> s = s0) /\
  (forall x, nth_error ls (length ls - 1) = Some x -> ssize (b_out x) = ssize s) /\
  (forall x, nth_error ls (length ls - 2) = Some x -> b_out x = s).
Lemma layers_for_snoc s0 bs ls d a b ab s :
  layers_for s0 bs ls ->
  shape_after s0 ls s ->
  asked d b -> ssize (b_in b) = ssize s -> (spatial b = true -> b_in b = s) ->
  b_kind ab = asked_act a -> ssize (b_in ab) = ssize (b_out b) -> ssize (b_out ab) = ssize (b_in ab) ->
  layers_for s0 (bs ++ [(d, a)]) (ls ++ [b; ab]).
Proof.
  intros (L & IT & CN & SP & FI) HS Ad Ai As Ka Ia Oa. split; [|split; [|split; [|split]]].
  - rewrite !app_length. cbn. lia.
  - intros i d' a' E. destruct (Nat.lt_ge_cases i (length bs)) as [Hi|Hi].
    + rewrite nth_error_app1 in E by exact Hi. destruct (IT i d' a' E) as (b1 & ab1 & E1 & E2 & R).
      exists b1, ab1. rewrite !nth_error_app1 by lia. auto.
    + rewrite nth_error_app2 in E by exact Hi. destruct (i - length bs) as [|j] eqn:Ei; [|destruct j; discriminate].
      injection E as <- <-. exists b, ab. rewrite !nth_error_app2 by lia.
      replace (2 * i - length ls) with 0 by lia. replace (2 * i + 1 - length ls) with 1 by lia. cbn. auto.
  - intros i b1 b2 E1 E2. apply nth_error_snoc2 in E1, E2.
    destruct E2 as [(H2 & E2)|[(H2 & ->)|(H2 & ->)]].
    + destruct E1 as [(H1 & E1)|[(H1 & ->)|(H1 & ->)]]; try lia. eauto.
    + destruct E1 as [(H1 & E1)|[(H1 & ->)|(H1 & ->)]]; try lia.
      destruct ls as [|x0 l0]; [cbn in H2; lia|]. destruct HS as (_ & HS & _).
      replace i with (length (x0 :: l0) - 1) in E1 by (rewrite <- H2; lia).
      rewrite (HS _ E1). exact Ai.
    + destruct E1 as [(H1 & E1)|[(H1 & ->)|(H1 & ->)]]; try lia; exact Ia.
  - intros i b1 b2 E1 E2 S2. apply nth_error_snoc2 in E1, E2.
    destruct E2 as [(H2 & E2)|[(H2 & ->)|(H2 & ->)]].
    + destruct E1 as [(H1 & E1)|[(H1 & ->)|(H1 & ->)]]; try lia. eauto.
    + destruct E1 as [(H1 & E1)|[(H1 & ->)|(H1 & ->)]]; try lia.
      destruct ls as [|x0 l0]; [cbn in H2; lia|]. destruct HS as (_ & _ & HS).
      replace (2 * i) with (length (x0 :: l0) - 2) in E1 by (rewrite <- H2; lia).
      rewrite (HS _ E1). auto.
    + lia.
  - intros b1 E1. apply nth_error_snoc2 in E1. destruct E1 as [(H1 & E1)|[(H1 & ->)|(H1 & ->)]].
    + auto.
    + destruct ls; [|cbn in H1; lia]. rewrite (proj1 HS eq_refl) in *. auto.
    + lia.
Qed.

(** The graph of a stack of [k] layers. *)
Definition graph_for (k : nat) (g : dlgraph) : Prop :=
  gbuild (match k with 0 => [] | _ => chain_build k end) = Ok g.

Lemma chain_build_S k : 1 <= k -> chain_build (S k) = chain_build k ++ [GLayer; GEdge (k - 1) k].
Proof.
  intros Hk. unfold chain_build. destruct k as [|k]; [lia|].
  replace (S (S k) - 1) with (S k) by lia. replace (S k - 1) with k by lia.
  rewrite seq_S, flat_map_app. reflexivity.
Qed.
Lemma graph_for_S k g g' : 1 <= k -> graph_for k g -> create_edge (add_node g) (k - 1) k = Ok g' -> graph_for (S k) g'.
Proof.
  intros Hk E E'. unfold graph_for in *. rewrite chain_build_S by exact Hk. unfold gbuild.
  destruct k as [|k]; [lia|]. rewrite foldM_app. unfold gbuild in E. rewrite E. cbn [bind foldM gstep]. now rewrite E'.
Qed.

Record inv (s0 : shape) (bs : list (desc T * actt)) (f : fnn T) : Prop := {
  iv_layers : layers_for s0 bs (f_layers f);
  iv_shape : shape_after s0 (f_layers f) (f_shape f);
  iv_graph : graph_for (length (f_layers f)) (f_graph f)
}.

Lemma add_layer_inv s0 bs f d a f' : inv s0 bs f -> fnn_add_layer f d a = Ok f' ->
  inv s0 (bs ++ [(d, a)]) f' /\ f_first f' = false.
Proof.
  intros [IL IS IG] E. unfold fnn_add_layer in E.
  destruct (new_layer d (f_shape f)) as [b| |] eqn:EN; try discriminate. cbn [bind] in E.
  destruct (new_layer_ok _ _ _ EN) as (Ad & Ai & As).
  set (n := length (f_layers f)) in *.
  assert (G : exists g1, (if 1 <? S n then create_edge (add_node (f_graph f)) (S n - 2) n else Ok (add_node (f_graph f))) = Ok g1 /\
    graph_for (S n) g1).
  { destruct n as [|n'] eqn:En.
    - exists (add_node (f_graph f)). split; [reflexivity|]. unfold graph_for in *. cbn in IG. injection IG as <-.
      reflexivity.
    - replace (1 <? S (S n')) with true by (symmetry; apply Nat.ltb_lt; lia).
      replace (1 <? S (S n')) with true in E by (symmetry; apply Nat.ltb_lt; lia).
      replace (S (S n') - 2) with (S n' - 1) in * by lia.
      destruct (create_edge (add_node (f_graph f)) (S n' - 1) (S n')) as [g1| |] eqn:E1; try discriminate.
      exists g1. split; [reflexivity|]. apply (graph_for_S (S n') _ _ ltac:(lia) IG E1). }
  destruct G as (g1 & E1 & G1). rewrite E1 in E. cbn [bind] in E.
  destruct (create_edge (add_node g1) n (S n)) as [g2| |] eqn:E2; try discriminate. cbn [bind] in E.
  injection E as <-. split; [|reflexivity]. constructor; cbn [f_layers f_shape f_graph].
  - refine (layers_for_snoc s0 bs (f_layers f) d a b _ (f_shape f) IL IS Ad Ai As _ _ _).
    + destruct a; reflexivity.
    + apply ssize_flat.
    + reflexivity.
  - split; [intros E; destruct (f_layers f); discriminate|].
    rewrite app_length. cbn [length]. split; intros x Ex.
    + rewrite nth_error_app2 in Ex by lia.
      replace (length (f_layers f) + 2 - 1 - length (f_layers f)) with 1 in Ex by lia. cbn in Ex. injection Ex as <-.
      apply ssize_flat.
    + rewrite nth_error_app2 in Ex by lia.
      replace (length (f_layers f) + 2 - 2 - length (f_layers f)) with 0 in Ex by lia. cbn in Ex. now injection Ex as <-.
  - rewrite app_length. cbn [length]. fold n. replace (n + 2) with (S (S n)) by lia.
    apply (graph_for_S (S n) g1 g2 ltac:(lia) G1). now replace (S n - 1) with n by lia.
Qed.

Lemma build_inv s0 : forall bs pre f f', inv s0 pre f -> f_first f = false -> foldM fnn_add bs f = Ok f' ->
  inv s0 (pre ++ bs) f' /\ f_first f' = false.
Proof.
  induction bs as [|(d, a) bs IH]; intros pre f f' I F E.
  - cbn in E. injection E as <-. rewrite app_nil_r. auto.
  - cbn [foldM] in E. destruct (fnn_add f (d, a)) as [f1| |] eqn:E1; try discriminate. cbn [bind] in E.
    unfold fnn_add in E1. rewrite F in E1.
    destruct (add_layer_inv s0 pre f d a f1 I E1) as (I1 & F1).
    replace (pre ++ (d, a) :: bs) with ((pre ++ [(d, a)]) ++ bs) by (rewrite <- app_assoc; reflexivity).
    now apply (IH _ f1).
Qed.
Lemma inv_new s0 g b : graph_for 0 g -> inv s0 [] (mkFnn g [] s0 b).
Proof.
  intros E. constructor; cbn [f_layers f_shape f_graph length]; auto.
  2: { repeat split; intros x Ex; discriminate. }
  unfold layers_for. repeat split; cbn; auto.
  - intros i d a E'. destruct i; discriminate.
  - intros i b1 b2 E'. destruct i; discriminate.
  - intros i b1 b2 E'. destruct (i + (i + 0)); discriminate.
  - discriminate.
  - discriminate.
Qed.

Lemma build_all ds f : fnn_build ds = Ok f -> inv (start ds) (body ds) f.
Proof.
  unfold fnn_build. intros E. destruct ds as [|(d, a) ds].
  - cbn in E. injection E as <-. now apply (inv_new (0, 1, 1)).
  - cbn [foldM] in E. destruct (fnn_add fnn_new (d, a)) as [f1| |] eqn:E1; try discriminate. cbn [bind] in E.
    assert (C : (exists s, d = DInput s) \/ ((forall s, d <> DInput s) /\ fnn_add_layer fnn_new d a = Ok f1)).
    { destruct d; cbn in E1 |- *; try (right; split; [intros; discriminate|exact E1]). left. eauto. }
    destruct C as [(s & ->)|(NI & EA)].
    + cbn in E1. injection E1 as <-. cbn [start body].
      refine (proj1 (build_inv s ds [] _ f _ _ E)); [now apply inv_new|reflexivity].
    + replace (start ((d, a) :: ds)) with (flat 0) by (destruct d; try reflexivity; now destruct (NI s)).
      replace (body ((d, a) :: ds)) with ([(d, a)] ++ ds) by (destruct d; try reflexivity; now destruct (NI s)).
      destruct (add_layer_inv (flat 0) [] fnn_new d a f1 (inv_new _ _ _ eq_refl) EA) as (I1 & F1).
      apply (build_inv (flat 0) ds [(d, a)] f1 f I1 F1 E).
Qed.

(** ** C42 *)
Theorem c42_chain : forall ds f,
  fnn_build ds = Ok f ->
  let n := length (body ds) in
  layers_for (start ds) (body ds) (f_layers f) /\
  (1 <= n -> gbuild (chain_build (2 * n)) = Ok (f_graph f) /\ chain_linked false (2 * n) (f_graph f)) /\
  (n = 0 -> f_graph f = graph_new).
Proof.
  intros ds f E n. pose proof (build_all ds f E) as [IL IS IG]. split; [exact IL|].
  destruct IL as (L & _). rewrite L in IG. fold n in IG. split.
  - intros Hn. unfold graph_for in IG. destruct (2 * n) as [|k] eqn:Ek; [lia|]. split; [exact IG|].
    destruct (c36_built false (S k) ltac:(lia)) as (s & Es & Cs). cbn [loss_build] in Es. rewrite app_nil_r in Es.
    rewrite IG in Es. injection Es as <-. exact Cs.
  - intros ->. cbn in IG. now injection IG as <-.
Qed.

Theorem c42_input_not_first : forall (pre : list (desc T * actt)) s a post,
  pre <> [] ->
  fnn_build (pre ++ (DInput s, a) :: post) =
    (match fnn_build pre with Ok _ => Throw | Throw => Throw | UB => UB end : res (fnn T)).
Proof.
  intros pre s a post Hp. unfold fnn_build. rewrite foldM_app. destruct (foldM fnn_add pre fnn_new) as [f| |] eqn:E; auto.
  cbn [bind foldM]. assert (F : f_first f = false).
  { destruct (exists_last Hp) as (l & (d, b) & ->). rewrite foldM_app in E.
    destruct (foldM fnn_add l fnn_new) as [f1| |]; try discriminate. cbn [bind foldM] in E.
    destruct (fnn_add f1 (d, b)) as [f2| |] eqn:E2; try discriminate. cbn in E. injection E as <-.
    assert (G : forall (x : desc T) y z, fnn_add_layer f1 x y = Ok z -> f_first z = false).
    { intros x y z Ez. unfold fnn_add_layer in Ez. destruct (new_layer _ _); try discriminate. cbn [bind] in Ez.
      match type of Ez with bind ?m _ = _ => destruct m; try discriminate end. cbn [bind] in Ez.
      destruct (create_edge _ _ _); try discriminate. cbn [bind] in Ez. now injection Ez as <-. }
    unfold fnn_add in E2. destruct (f_first f1), d; eauto. now injection E2 as <-. }
  unfold fnn_add. rewrite F. unfold fnn_add_layer, new_layer. destruct (f_shape f) as ((h, w), c). reflexivity.
Qed.

(** A list with Input at most in front and no zero stride is always accepted. *)
Definition stride_ok (d : desc T) : Prop :=
  match d with
  | DConv _ _ st _ | DMaxPool _ st | DAvgPool _ st => 1 <= fst st /\ 1 <= snd st
  | _ => True
  end.
Lemma new_layer_builds d s : (forall i, d <> DInput i) -> stride_ok d -> exists b, new_layer (T:=T) d s = Ok b.
Proof.
  intros NI ST. destruct s as ((h, w), c). destruct d as [i|u|f k st p|k st|k st|p]; cbn [new_layer].
  - now destruct (NI i).
  - eauto.
  - cbn in ST. rewrite !conv_output_side_eq by lia. cbn. eauto.
  - cbn in ST. unfold pool_output_side. rewrite !conv_output_side_eq by lia. cbn. eauto.
  - cbn in ST. unfold pool_output_side. rewrite !conv_output_side_eq by lia. cbn. eauto.
  - eauto.
Qed.
Lemma create_edge_next (s : dlgraph) a b : a < nodes s -> b < nodes s -> exists s', create_edge s a b = Ok s'.
Proof.
  intros Ha Hb. unfold create_edge, add_backward, add_forward. rewrite add_arc_in by lia. cbn [bind nodes].
  rewrite add_arc_in by (cbn [nodes]; lia). cbn [bind nodes]. rewrite add_arc_in by (cbn [nodes]; lia).
  cbn [bind]. eauto.
Qed.
Lemma create_edge_nodes s a b s' : create_edge s a b = Ok s' -> nodes s' = nodes s.
Proof.
  unfold create_edge, add_backward, add_forward. destruct (add_arc (nodes s) (bgraph s) b a); try discriminate.
  cbn [bind nodes fgraph tgraph]. destruct (add_arc _ _ a b); try discriminate. cbn [bind].
  destruct (add_arc _ _ a b); try discriminate. cbn [bind]. intros E. now injection E as <-.
Qed.
Lemma graph_for_nodes k g : graph_for k g -> nodes g = k.
Proof.
  unfold graph_for. intros E. destruct k as [|[|k]].
  - cbn in E. now injection E as <-.
  - cbn in E. now injection E as <-.
  - destruct (c36_built false (S (S k)) ltac:(lia)) as (s & Es & Cs). cbn [loss_build] in Es. rewrite app_nil_r in Es.
    rewrite E in Es. injection Es as <-. exact (proj1 Cs).
Qed.
Lemma add_layer_builds s0 bs f (d : desc T) a : inv s0 bs f -> (forall i, d <> DInput i) -> stride_ok d ->
  exists f', fnn_add_layer f d a = Ok f'.
Proof.
  intros [_ _ IG] NI ST. unfold fnn_add_layer. destruct (new_layer_builds d (f_shape f) NI ST) as (b & ->). cbn [bind].
  apply graph_for_nodes in IG. set (n := length (f_layers f)) in *.
  assert (G : exists g1, (if 1 <? S n then create_edge (add_node (f_graph f)) (S n - 2) n else Ok (add_node (f_graph f))) = Ok g1 /\
    nodes g1 = S n).
  { destruct (1 <? S n).
    - destruct (create_edge_next (add_node (f_graph f)) (S n - 2) n) as (g1 & E1); [cbn; lia..|].
      exists g1. split; [exact E1|]. apply create_edge_nodes in E1. rewrite E1. cbn. lia.
    - eexists. split; [reflexivity|]. cbn. lia. }
  destruct G as (g1 & -> & N1). cbn [bind].
  destruct (create_edge_next (add_node g1) n (S n)) as (g2 & ->); [cbn; lia..|]. cbn [bind]. eauto.
Qed.
Theorem c42_builds : forall ds : list (desc T * actt),
  (forall d a, In (d, a) (body ds) -> (forall i, d <> DInput i) /\ stride_ok d) ->
  exists f, fnn_build ds = Ok f.
Proof.
  assert (G : forall s0 bs pre f, inv s0 pre f -> f_first f = false ->
    (forall (d : desc T) a, In (d, a) bs -> (forall i, d <> DInput i) /\ stride_ok d) ->
    exists f', foldM fnn_add bs f = Ok f').
  { intros s0. induction bs as [|(d, a) bs IH]; intros pre f I F P.
    - eexists. reflexivity.
    - cbn [foldM]. unfold fnn_add at 1. rewrite F. destruct (P d a (or_introl eq_refl)) as (NI & ST).
      destruct (add_layer_builds s0 pre f d a I NI ST) as (f1 & E1). rewrite E1. cbn [bind].
      destruct (add_layer_inv s0 pre f d a f1 I E1) as (I1 & F1).
      apply (IH (pre ++ [(d, a)]) f1 I1 F1). intros d' a' HI. apply (P d' a'). now right. }
  intros ds P. unfold fnn_build. destruct ds as [|(d, a) ds]; [eexists; reflexivity|]. cbn [foldM].
  destruct d as [s| | | | |] eqn:Ed.
  { cbn [fnn_add fnn_new f_first bind]. apply (G s ds [] _ (inv_new s _ false eq_refl) eq_refl). exact P. }
  all: rewrite <- Ed in *;
    assert (EA : fnn_add fnn_new (d, a) = fnn_add_layer fnn_new d a) by (rewrite Ed; reflexivity);
    rewrite EA;
    assert (PB : body ((d, a) :: ds) = (d, a) :: ds) by (rewrite Ed; reflexivity); rewrite PB in P;
    destruct (P d a (or_introl eq_refl)) as (NI & ST);
    destruct (add_layer_builds (flat 0) [] fnn_new d a (inv_new _ _ _ eq_refl) NI ST) as (f1 & E1); rewrite E1; cbn [bind];
    destruct (add_layer_inv (flat 0) [] fnn_new d a f1 (inv_new _ _ _ eq_refl) E1) as (I1 & F1);
    apply (G (flat 0) ds [(d, a)] f1 I1 F1); intros d' a' HI; apply (P d' a'); now right.
Qed.

(** The number of output rows (columns) of a convolution or pooling layer is the number of
    kernel positions that fit into the padded side. *)
Theorem c42_positions : forall (h k st p h' : nat) r,
  1 <= h -> 1 <= k <= h + 2 * p -> 1 <= st -> (Z.of_nat (h + 2 * p) < 2 ^ 63)%Z ->
  conv_output_side h k st p = Ok h' ->
  (r < h' <-> r * st + k <= h + 2 * p).
Proof.
  intros h k st p h' r H1 H2 H3 H4 E. rewrite conv_output_side_eq in E by lia. injection E as <-.
  apply slide_side_windows; lia.
Qed.

(** The first fit appends one loss layer behind the last activation, and only the first. *)
Theorem c42_loss : forall (ds : list (desc T * actt)) f,
  fnn_build ds = Ok f ->
  let n := length (body ds) in
  1 <= n ->
  exists f' last, fnn_add_loss f = Ok f' /\ nth_error (f_layers f) (2 * n - 1) = Some last /\
    f_layers f' = f_layers f ++ [mkB BLoss (flat (ssize (b_out last))) (flat 0)] /\
    gbuild (chain_build (2 * n) ++ loss_build true (2 * n)) = Ok (f_graph f') /\
    chain_linked true (2 * n) (f_graph f') /\
    fnn_add_loss f' = Ok f'.
Proof.
  intros ds f E n Hn. destruct (c42_chain ds f E) as (L & G & _). fold n in G. destruct (G Hn) as (GB & CL). clear G.
  pose proof CL as (N1 & N2 & N3 & N4 & N5).
  pose proof (is_chain_built _ _ false (2 * n) GB ltac:(lia) N1 N2 N3 N4 N5) as HC.
  destruct L as (LL & _). fold n in LL.
  destruct (nth_error (f_layers f) (2 * n - 1)) as [last|] eqn:EL.
  2: { apply nth_error_None in EL. lia. }
  destruct (c36_built true (2 * n) ltac:(lia)) as (g & Eg & Cg).
  assert (EE : create_loss_edge (GraphModel.add_loss (f_graph f)) (2 * n - 1) (2 * n) = Ok g).
  { unfold gbuild in Eg, GB. rewrite foldM_app, GB in Eg. cbn [bind loss_build foldM gstep] in Eg.
    destruct (create_loss_edge _ _ _); [exact Eg|discriminate..]. }
  exists (mkFnn g (f_layers f ++ [mkB BLoss (flat (ssize (b_out last))) (flat 0)]) (f_shape f) (f_first f)), last.
  cbn [f_layers f_graph]. split.
  - unfold fnn_add_loss. rewrite N2, (ic_out _ _ _ HC), LL.
    replace (2 * n =? 0) with false by (symmetry; apply Nat.eqb_neq; lia). cbn [negb guard bind].
    unfold rd. rewrite EL. cbn [bind]. now rewrite EE.
  - split; [reflexivity|]. split; [reflexivity|]. split; [exact Eg|]. split; [exact Cg|].
    unfold fnn_add_loss. cbn [f_layers f_graph]. rewrite (proj1 (proj2 Cg)).
    rewrite app_length. cbn [length]. replace (length (f_layers f) + 1 =? 0) with false by (symmetry; apply Nat.eqb_neq; lia).
    reflexivity.
Qed.
End Builder.

(** *** The network of a list of dense layers *)
Section Network.
Context {T : Type} `{NumOps T} `{TransOps T} `{LimOps T}.

(** Dense or activation layer. *)
Definition plain (b : blayer T) : Prop :=
  b_kind b = BDense \/
  (ssize (b_out b) = ssize (b_in b) /\
   (b_kind b = BRelu \/ b_kind b = BElu \/ (b_kind b = BSoftmax /\ 0 < ssize (b_in b)) \/ b_kind b = BTanh \/
    b_kind b = BSigmoid \/ b_kind b = BLinear)).
Lemma plain_object kd batch b : plain b ->
  exists l, object_of kd batch b = Some (NL l) /\ lshape l (ssize (b_in b)) (ssize (b_out b)).
Proof.
  unfold object_of, lshape. intros [E|(ES & E)].
  - rewrite E. eexists. split; [reflexivity|]. cbn. rewrite !repeat_length. auto 10.
  - rewrite ES. destruct E as [E|[E|[(E & P)|[E|[E|E]]]]]; rewrite E; eexists; (split; [reflexivity|]); cbn [act_new knd insz ig out];
      rewrite !repeat_length; repeat split; auto; discriminate.
Qed.
Lemma plain_objects kd batch ls : Forall plain ls ->
  (forall i b b', nth_error ls i = Some b -> nth_error ls (S i) = Some b' -> ssize (b_in b') = ssize (b_out b)) ->
  forall b0 b1, nth_error ls 0 = Some b0 -> nth_error ls (length ls - 1) = Some b1 ->
  exists os, map (object_of kd batch) ls = map (fun l => Some (NL l)) os /\ nshape os (ssize (b_in b0)) (ssize (b_out b1)).
Proof.
  induction 1 as [|b ls PB PL IH]; intros CN b0 b1 E0 E1; [discriminate|].
  cbn in E0. injection E0 as <-. destruct (plain_object kd batch b PB) as (l & El & Sl).
  destruct ls as [|b2 ls].
  - cbn in E1. injection E1 as <-. exists [l]. cbn [map]. rewrite El. split; [reflexivity|]. cbn. eauto.
  - destruct (IH ltac:(intros i x y Ex Ey; exact (CN (S i) x y Ex Ey)) b2 b1 eq_refl) as (os & Eo & So).
    { rewrite <- E1. cbn [length]. replace (S (S (length ls)) - 1) with (S (S (length ls) - 1)) by lia. reflexivity. }
    exists (l :: os). cbn [map] in Eo |- *. rewrite El, Eo. split; [reflexivity|].
    cbn [nshape]. exists (ssize (b_out b)). split; [exact Sl|].
    now rewrite <- (CN 0 b b2 eq_refl eq_refl).
Qed.

(** A list of dense descriptors (a softmax needs at least one unit): after the loss layer has
    been added, any model with the built graph and objects is a sequential network in the
    sense of C36 and C41, from the Input descriptor's size to the last layer's size. *)
Theorem c42_network : forall (ds : list (desc T * actt)) (kd : losskind T) batch f f',
  fnn_build ds = Ok f -> fnn_add_loss f = Ok f' ->
  1 <= length (body ds) ->
  (forall d a, In (d, a) (body ds) -> exists u, d = DDense u /\ (a = ASoftmax -> 0 < ssize u)) ->
  forall u a, nth_error (body ds) (length (body ds) - 1) = Some (DDense u, a) ->
  exists os, map (object_of kd batch) (f_layers f') = map Some (map NL os ++ [NO kd (loss_new (ssize u) batch)]) /\
    length os = 2 * length (body ds) /\
    forall m : model (node T), mgraph m = f_graph f' -> map fst (mnodes m) = map NL os ++ [NO kd (loss_new (ssize u) batch)] ->
    network m os kd (loss_new (ssize u) batch) (ssize (start ds)) (ssize u).
Proof.
  intros ds kd batch f f' E EL Hn P u a Eu.
  destruct (c42_loss ds f E Hn) as (f2 & last & E2 & Elast & EF & GB & CL & _).
  rewrite EL in E2. injection E2 as <-.
  destruct (c42_chain ds f E) as ((L & IT & CN & _ & FI) & _ & _).
  set (n := length (body ds)) in *. set (ls := f_layers f) in *.
  assert (PL : Forall plain ls).
  { apply Forall_forall. intros b Hb. apply In_nth_error in Hb. destruct Hb as (j & Ej).
    assert (Hj : j < 2 * n) by (rewrite <- L; apply nth_error_Some; congruence).
    pose proof (Nat.div_mod j 2 ltac:(lia)) as D. pose proof (Nat.mod_upper_bound j 2 ltac:(lia)) as M.
    set (i := j / 2) in *. set (r := j mod 2) in *.
    destruct (nth_error (body ds) i) as [(d, c)|] eqn:Ei; [|apply nth_error_None in Ei; unfold n in Hj; lia].
    destruct (IT i d c Ei) as (b1 & ab & E1 & E2 & A1 & A2 & A3).
    destruct (P d c (nth_error_In _ _ Ei)) as (v & -> & SV). cbn [asked] in A1. destruct A1 as (K1 & S1).
    destruct (Nat.eq_dec r 0) as [R0|R0].
    - left. replace (2 * i) with j in E1 by lia. rewrite Ej in E1. now injection E1 as ->.
    - right. replace (2 * i + 1) with j in E2 by lia. rewrite Ej in E2. injection E2 as ->.
      split; [exact A3|]. rewrite A2. destruct c; cbn [asked_act]; auto 8. right. right. left. split; [reflexivity|].
      replace j with (S (2 * i)) in Ej by lia.
      rewrite (CN (2 * i) b1 ab E1 Ej), S1. auto. }
  destruct (nth_error ls 0) as [b0|] eqn:E0; [|apply nth_error_None in E0; lia].
  replace (2 * n - 1) with (length ls - 1) in Elast by lia.
  destruct (plain_objects kd batch ls PL CN b0 last E0 Elast) as (os & Eo & So).
  destruct (FI b0 eq_refl) as (F0 & _). rewrite F0 in So.
  assert (Ou : ssize (b_out last) = ssize u).
  { destruct (IT (n - 1) _ _ Eu) as (b1 & ab & E1 & E2 & A1 & A2 & A3).
    replace (2 * (n - 1) + 1) with (length ls - 1) in E2 by lia. rewrite Elast in E2. injection E2 as ->.
    rewrite A3. replace (length ls - 1) with (S (2 * (n - 1))) in Elast by lia.
    rewrite (CN _ _ _ E1 Elast). apply A1. }
  rewrite Ou in *.
  assert (Lo : length os = 2 * n).
  { apply (f_equal (@length _)) in Eo. rewrite !map_length in Eo. lia. }
  exists os. split; [|split; [exact Lo|]].
  - rewrite EF, map_app, Eo. rewrite map_app, map_map. cbn [map object_of b_kind b_in]. now rewrite ssize_flat.
  - intros m Gm Nm. constructor.
    + rewrite Lo, Gm. destruct CL as (C1 & C2 & C3 & C4 & C5).
      exact (is_chain_built _ _ true (2 * n) GB ltac:(lia) C1 C2 C3 C4 C5).
    + lia.
    + exact Nm.
    + exact So.
    + cbn. now rewrite repeat_length.
Qed.
End Network.

(** *** Examples *)
Definition ex42 : list (desc Z * actt) :=
  [(DInput (6, 6, 1), ANone); (DConv 2 (3, 3) (1, 1) (0, 0), AReLU); (DMaxPool (2, 2) (2, 2), ALinear);
   (DDropout 0%Z, ANone); (DDense (3, 1, 1), ASoftmax)].
Example c42_hypotheses_met : exists f, fnn_build ex42 = Ok f /\ length (body ex42) = 4 /\
  map (fun b => (b_in b, b_out b)) (f_layers f) =
    [((6, 6, 1), (4, 4, 2)); ((32, 1, 1), (32, 1, 1)); ((4, 4, 2), (2, 2, 2)); ((8, 1, 1), (8, 1, 1));
     ((8, 1, 1), (8, 1, 1)); ((8, 1, 1), (8, 1, 1)); ((8, 1, 1), (3, 1, 1)); ((3, 1, 1), (3, 1, 1))] /\
  (forall d a, In (d, a) (body ex42) -> (forall i, d <> DInput i) /\ stride_ok d) /\
  conv_output_side 6 3 1 0 = Ok 4 /\
  fnn_build (ex42 ++ [(DInput (1, 1, 1), ANone)]) = Throw.
Proof.
  destruct (c42_builds ex42) as (f & E).
  { intros d a I. cbn in I. repeat destruct I as [I|I]; try (injection I as <- <-; split; [discriminate|cbn; auto]). destruct I. }
  exists f. split; [exact E|]. split; [reflexivity|]. split; [|split; [|split; [vm_compute; reflexivity|]]].
  - assert (G : match fnn_build ex42 with Ok f => map (fun b => (b_in b, b_out b)) (f_layers f) | _ => [] end =
      [((6, 6, 1), (4, 4, 2)); ((32, 1, 1), (32, 1, 1)); ((4, 4, 2), (2, 2, 2)); ((8, 1, 1), (8, 1, 1));
       ((8, 1, 1), (8, 1, 1)); ((8, 1, 1), (8, 1, 1)); ((8, 1, 1), (3, 1, 1)); ((3, 1, 1), (3, 1, 1))]) by (vm_compute; reflexivity).
    now rewrite E in G.
  - intros d a I. cbn in I. repeat destruct I as [I|I]; try (injection I as <- <-; split; [discriminate|cbn; auto]). destruct I.
  - rewrite c42_input_not_first by discriminate. now rewrite E.
Qed.
Section ExNet.
#[local] Existing Instance exTrans.
#[local] Existing Instance exLim.
Definition ex42d : list (desc Z * actt) :=
  [(DInput (2, 1, 1), ANone); (DDense (3, 1, 1), AReLU); (DDense (2, 1, 1), ASoftmax)].
Example c42_network_hypotheses_met : exists f f', fnn_build ex42d = Ok f /\ fnn_add_loss f = Ok f' /\
  length (body ex42d) = 2 /\
  (forall d a, In (d, a) (body ex42d) -> exists u, d = DDense u /\ (a = ASoftmax -> 0 < ssize u)) /\
  nth_error (body ex42d) 1 = Some (DDense (2, 1, 1), ASoftmax) /\
  exists m, network m [dense_new 2 3; act_new Relu 3; dense_new 3 2; act_new Softmax 2] CCE (loss_new 2 4) 2 2 /\
    mgraph m = f_graph f'.
Proof.
  destruct (c42_builds ex42d) as (f & E).
  { intros d a I. cbn in I. repeat destruct I as [I|I]; try (injection I as <- <-; split; [discriminate|cbn; auto]). destruct I. }
  destruct (c42_loss ex42d f E ltac:(cbn; lia)) as (f' & last & E' & _).
  assert (P : forall d a, In (d, a) (body ex42d) -> exists u, d = DDense u /\ (a = ASoftmax -> 0 < ssize u)).
  { intros d a I. cbn in I. repeat destruct I as [I|I]; try (injection I as <- <-; eexists; split; [reflexivity|cbn; lia]). destruct I. }
  exists f, f'. do 5 (split; [auto|]).
  destruct (c42_network ex42d CCE 4 f f' E E' ltac:(cbn; lia) P (2, 1, 1) ASoftmax eq_refl) as (os & Eo & Lo & N).
  assert (G : match fnn_build ex42d with
    | Ok f => match fnn_add_loss f with Ok f' => map (object_of CCE 4) (f_layers f') | _ => [] end | _ => [] end =
    map Some ([NL (dense_new 2 3); NL (act_new Relu 3); NL (dense_new 3 2); NL (act_new Softmax 2)] ++ [NO CCE (loss_new 2 4)]))
    by (vm_compute; reflexivity).
  rewrite E, E', Eo in G.
  assert (Inj : forall (A : Type) (a b : list A), map Some a = map Some b -> a = b).
  { clear. induction a as [|x a IH]; intros [|y b] Q; try discriminate; auto. cbn in Q. injection Q as -> Q. f_equal. now apply IH. }
  apply Inj in G. apply app_inj_tail in G. destruct G as (G & _).
  destruct os as [|o0 [|o1 [|o2 [|o3 [|]]]]]; try discriminate. cbn [map] in G. injection G as -> -> -> ->.
  exists (mkModel (f_graph f') (map (fun s => (s, SNull))
     ([NL (dense_new 2 3); NL (act_new Relu 3); NL (dense_new 3 2); NL (act_new Softmax 2)] ++ [NO CCE (loss_new 2 4)]))).
  split; [|reflexivity]. apply N; reflexivity.
Qed.
End ExNet.

(** A layer added after fit: it is linked behind the loss layer, and no longer reached from
    the input. *)
Example c42_add_after_fit :
  match (f <- fnn_build [(DInput (2, 1, 1), ANone); (DDense (3, 1, 1), AReLU)] ;;
         f <- fnn_add_loss f ;; fnn_add f (DDense (1, 1, 1) : desc Z, ALinear)) with
  | Ok f => losses (f_graph f) = [2] /\ fgraph (f_graph f) 2 = [3] /\ fgraph (f_graph f) 1 = [] /\
            outputs (f_graph f) = [1; 4]
  | _ => False
  end.
Proof. vm_compute. auto. Qed.

Print Assumptions c42_chain.
Print Assumptions c42_input_not_first.
Print Assumptions c42_builds.
Print Assumptions c42_positions.
Print Assumptions c42_loss.
Print Assumptions c42_network.
