(** C96: training a convolutional network with Adam, the default optimizer of fit. *)
From Coq Require Import Reals Lra.
From Verif Require Import Base Num RSum DatasetModel MathModel MathProofs ConvModel ConvSpec LayerModel LossModel LossSpec PropLoss OptModel OptProofs
  GraphModel ModelModel NodeModel ChainProofs ModelProofs GradSpec GradProofs GradChain PropModel TrainProofs CopyModel FitModel PropFit PropStep PropDescent
  PropOpt InitModel DynModel PropTraining AdamProofs PropAdam CnnModel CnnSpec CnnProofs StepProofs PropCnn PropCnnTrain CnnNetModel.
Local Open Scope R_scope.

(** *** Vocabulary *)
(** The parameters of a layer, weights and then biases, and of a network, layer by layer *)
Definition cparams (s : cnode R) : list R :=
  match s with
  | CL l => match knd l with KDense => wts l ++ bias l | KAct _ => [] end
  | CV c => cv_w c ++ cv_b c
  | _ => []
  end.
Definition call_params (m : model (cnode R)) : list R := flat_map (fun sp : cnode R * source => cparams (fst sp)) (mnodes m).
(** [g]: [f] times the summed partial derivatives of the cost over the rows, for the parameters of
    node [q] in the same order. Nothing is said of the last numbers of a convolution, which belong
    to its biases. *)
Definition cnode_gradient kd (f : R) (m : model (cnode R)) (rows : row_list) (q : nat) (s : cnode R) (g : list R) : Prop :=
  length g = length (cparams s) /\
  (learns s ->
    (forall p, (p < length (weights s))%nat -> exists ds, Forall2 (cwpartial kd m q p) rows ds /\ nth p g 0 = f * sum ds) /\
    match s with
    | CV _ => True
    | _ => forall p, (p < length (biases s))%nat -> exists ds, Forall2 (cbpartial kd m q p) rows ds /\ nth (length (weights s) + p) g 0 = f * sum ds
    end).
Definition cgradient kd f m rows (gs : list (list R)) : Prop :=
  length gs = length (mnodes m) /\
  forall q s o g, nth_error (mnodes m) q = Some (s, o) -> nth_error gs q = Some g -> cnode_gradient kd f m rows q s g.
(** The same layers with other parameters in them *)
Definition csame_layers (m m' : model (cnode R)) : Prop :=
  length (mnodes m') = length (mnodes m) /\
  forall q s o, nth_error (mnodes m) q = Some (s, o) -> exists s' o', nth_error (mnodes m') q = Some (s', o') /\
    same_layer s s' /\ length (weights s') = length (weights s) /\ length (biases s') = length (biases s) /\
    (~ learns s -> weights s' = weights s /\ biases s' = biases s).
(** Parameter [i] moves by the documented Adam step for the gradients [h] seen before and the
    gradients of this batch up to and with its own. *)
Definition adam_step_from (eta : R) (h : list R) (ps gs ps' : list R) : Prop :=
  length ps' = length ps /\ length gs = length ps /\
  forall i, (i < length ps)%nat -> nth i ps' 0 = nth i ps 0 - doc_step eta (9 / 10) (999 / 1000) (1 / 100000000) (h ++ firstn (S i) gs).
Definition cadam_moved kd (f eta : R) (h : list R) m rows (m' : model (cnode R)) (h' : list R) : Prop :=
  exists gs, cgradient kd f m rows gs /\ h' = h ++ concat gs /\ csame_layers m m' /\
    adam_step_from eta h (call_params m) (concat gs) (call_params m').
Definition cbatch_adam (rows : row_list) (am : adam R * model (cnode R)) : res (adam R * model (cnode R)) :=
  m1 <- cnn_reset_score (snd am) ;; m2 <- csteps rows m1 ;; cnn_train_adam (fst am) m2.

(** *** What the optimizer does to a layer *)
Definition cgrads (s : cnode R) : list R :=
  match s with CL l => layer_grads l | CV c => cv_wg c ++ cv_bg c | _ => [] end.
Definition catrained (a : adam R) (s : cnode R) : cnode R :=
  match s with
  | CL l => CL (atrained a l)
  | CV c => let ps := amove a (cv_w c ++ cv_b c) (cv_wg c ++ cv_bg c) in
      CV (conv_with c (firstn (length (cv_w c)) ps) (skipn (length (cv_w c)) ps)
        (repeat 0 (length (cv_wg c))) (repeat 0 (length (cv_bg c))) (cv_out c) (cv_ig c))
  | s => s
  end.
Fixpoint ctrain_all (a : adam R) (ss : list (cnode R)) : list (cnode R) :=
  match ss with [] => [] | s :: ss => catrained a s :: ctrain_all (after a (cgrads s)) ss end.

Lemma c_train_adam_node a s n k : cnode_shape s n k -> c_train_adam a s = Ok (after a (cgrads s), catrained a s).
Proof.
  destruct s as [l|c|p|kd lo]; intros HS; try reflexivity.
  - pose proof (n_train_adam_layer a l n k HS) as E. unfold n_train_adam in E. unfold c_train_adam, catrained, cgrads.
    destruct (adam_train a (layer_player l)) as [(a', p)| |]; cbn [bind] in *; try discriminate. injection E as -> ->. reflexivity.
  - cbn [cnode_shape] in HS. destruct HS as (_ & _ & _ & _ & _ & _ & (A1 & A2) & (A3 & A4) & _).
    unfold c_train_adam, catrained, conv_player, adam_train, cgrads. cbn [pk pblocks gblocks].
    destruct (adam_train2_spec 0 a (PConv (cv_kh c * cv_kw c) (cv_C c) (cv_nf c)) [cv_w c; cv_b c] [cv_wg c; cv_bg c])
      as (P' & G' & E & BP & BG & CP & CG).
    + unfold blocks_ok. cbn. congruence.
    + unfold blocks_ok. cbn. congruence.
    + rewrite E. cbn [bind]. cbn [concat] in *. rewrite app_nil_r in *.
      set (ps := amove a (cv_w c ++ cv_b c) (cv_wg c ++ cv_bg c)).
      assert (LL : length (cv_wg c ++ cv_bg c) = length (cv_w c ++ cv_b c)) by (rewrite !app_length; lia).
      assert (Lp : length ps = (length (cv_w c) + length (cv_b c))%nat) by (unfold ps; rewrite amove_length, app_length by exact LL; lia).
      assert (HP : P' = [firstn (length (cv_w c)) ps; skipn (length (cv_w c)) ps]).
      { apply concat_inj.
        - unfold blocks_ok in BP. rewrite BP. cbn. rewrite firstn_length, skipn_length, Lp. f_equal; [lia|f_equal; lia].
        - rewrite CP. cbn [concat pcount]. rewrite !app_nil_r, firstn_skipn.
          replace (cv_kh c * cv_kw c * cv_C c * cv_nf c + cv_nf c)%nat with (length ps) by lia.
          apply (list_ext_nth 0); [now rewrite tab_length|]. intros i Hi. rewrite tab_length in Hi.
          rewrite nth_tab by exact Hi. unfold ps. rewrite amove_nth by (rewrite ?app_length in *; lia). reflexivity. }
      assert (HG : G' = [repeat 0 (length (cv_wg c)); repeat 0 (length (cv_bg c))]).
      { apply concat_inj.
        - unfold blocks_ok in BG. rewrite BG. cbn. rewrite !repeat_length. congruence.
        - rewrite CG. cbn [concat pcount]. rewrite !app_nil_r, <- repeat_app. f_equal. rewrite A2, A4. reflexivity. }
      subst P' G'. reflexivity.
Qed.
Lemma cgrads_length s n k : cnode_shape s n k -> length (cgrads s) = length (cparams s).
Proof.
  destruct s as [l|c|p|kd lo]; cbn [cnode_shape cgrads cparams]; try reflexivity.
  - intros HS. exact (grads_length l n k HS).
  - intros (_ & _ & _ & _ & _ & _ & (A1 & A2) & (A3 & A4) & _). rewrite !app_length. lia.
Qed.
Lemma catrained_shape a s n k : cnode_shape s n k -> cnode_shape (catrained a s) n k.
Proof.
  destruct s as [l|c|p|kd lo]; cbn [cnode_shape catrained]; auto.
  - apply atrained_shape.
  - intros (H1 & H2 & H3 & H4 & H5 & H6 & (A1 & A2) & (A3 & A4) & H9). unfold conv_shape. cbn [conv_with cv_H cv_W cv_C cv_kh cv_kw cv_nf cv_sh cv_sw cv_ph cv_pw cv_oh cv_ow cv_w cv_b cv_wg cv_bg cv_out cv_ig].
    rewrite firstn_length, skipn_length, amove_length, !repeat_length, app_length by (rewrite !app_length; lia).
    repeat split; try tauto; lia.
Qed.
Lemma catrained_params a s n k : cnode_shape s n k -> cparams (catrained a s) = amove a (cparams s) (cgrads s).
Proof.
  destruct s as [l|c|p|kd lo]; cbn [cnode_shape catrained cparams cgrads]; try reflexivity.
  - intros HS. exact (atrained_params a l n k HS).
  - intros _. cbn [conv_with cv_w cv_b]. apply firstn_skipn.
Qed.
Lemma catrained_same a s s2 n k : cnode_shape s2 n k -> ckept s s2 ->
  same_layer s (catrained a s2) /\ length (weights (catrained a s2)) = length (weights s) /\ length (biases (catrained a s2)) = length (biases s) /\
  (~ learns s -> weights (catrained a s2) = weights s /\ biases (catrained a s2) = biases s) /\ ccleared (catrained a s2).
Proof.
  destruct s as [l|c|p|], s2 as [l2|c2|p2|]; cbn [cnode_shape ckept catrained same_layer weights biases learns]; try contradiction.
  - intros HS (K3 & K4 & K5 & K6). destruct (atrained_same a l2 n k HS) as (X1 & X2 & X3 & X4 & X5). rewrite X1, X2, X3, K3, K5, K6.
    split; [reflexivity|]. split; [reflexivity|]. split; [reflexivity|]. split; [rewrite K3, K5, K6 in X4; exact X4|].
    unfold ccleared. cbn [learns wgrads bgrads]. rewrite X1. intros K. apply X5. now rewrite X1.
  - intros (_ & _ & _ & _ & _ & _ & (A1 & A2) & (A3 & A4) & _) (wg & bg & o & ig & ->). cbn [conv_with cv_w cv_b cv_wg cv_bg cv_out cv_ig cv_kh cv_kw cv_C cv_nf] in *.
    rewrite firstn_length, skipn_length, amove_length, app_length by (rewrite !app_length; lia).
    split; [unfold conv_with; cbn; eauto 10|]. split; [lia|]. split; [lia|]. split; [tauto|].
    intros _. cbn [wgrads cv_wg conv_with]. split; [intros i; apply nth_repeat|exact I].
  - intros _ (o & ig & ->). split; [eauto|]. split; [reflexivity|]. split; [reflexivity|]. split; [auto|]. intros [].
Qed.
Lemma ctrain_all_length ss : forall a, length (ctrain_all a ss) = length ss.
Proof. induction ss as [|s ss IH]; intros a; cbn; auto. Qed.
Lemma ctrain_all_shape ss : forall a n k, cshape ss n k -> cshape (ctrain_all a ss) n k.
Proof. induction ss as [|s ss IH]; intros a n k; cbn; auto. intros (j & A & B). exists j. split; [now apply catrained_shape|auto]. Qed.
Lemma ctrain_all_nth ss : forall a q s, nth_error ss q = Some s ->
  nth_error (ctrain_all a ss) q = Some (catrained (after a (flat_map cgrads (firstn q ss))) s).
Proof.
  induction ss as [|x ss IH]; intros a q s E; [destruct q; discriminate|]. destruct q as [|q].
  - cbn in *. injection E as ->. reflexivity.
  - cbn [nth_error ctrain_all firstn flat_map] in *. rewrite (IH _ _ _ E). unfold after. now rewrite fold_left_app.
Qed.
Lemma call_grads_length : forall ss n k, cshape ss n k -> length (flat_map cgrads ss) = length (flat_map cparams ss).
Proof.
  induction ss as [|s ss IH]; intros n k HS; [reflexivity|]. destruct HS as (j & HL & HS). cbn [flat_map].
  rewrite !app_length, (cgrads_length _ _ _ HL), (IH _ _ HS). reflexivity.
Qed.
Lemma ctrain_all_params ss : forall a n k, cshape ss n k ->
  flat_map cparams (ctrain_all a ss) = amove a (flat_map cparams ss) (flat_map cgrads ss).
Proof.
  induction ss as [|s ss IH]; intros a n k HS; [reflexivity|]. destruct HS as (j & HL & HS). cbn [ctrain_all flat_map].
  rewrite (catrained_params a s n j HL), (IH _ _ _ HS), amove_app by (exact (cgrads_length _ _ _ HL)). reflexivity.
Qed.
Lemma ccnn_train_adam a m ss kd lo n k : cnn m ss kd lo n k ->
  exists m', cnn_train_adam a m = Ok (after a (flat_map cgrads ss), m') /\ cnn m' (ctrain_all a ss) kd lo n k.
Proof.
  intros W. unfold cnn_train_adam. pose proof (cn_shape _ _ _ _ _ _ W) as S0. pose proof (cn_nodes _ _ _ _ _ _ W) as EN.
  assert (G : forall ns ss a acc n k, cshape ss n k -> map fst ns = ss ++ [CO kd lo] ->
    exists ns', foldM (fun st (sp : cnode R * source) =>
      let '(a, ns) := st in '(a, s) <- c_train_adam a (fst sp) ;; Ok (a, ns ++ [(s, snd sp)])) ns (a, acc)
        = Ok (after a (flat_map cgrads ss), acc ++ ns') /\
      map fst ns' = ctrain_all a ss ++ [CO kd lo]).
  { clear. induction ns as [|(s, p) ns IH]; intros ss a acc n k HS E.
    - destruct ss; discriminate.
    - destruct ss as [|l ss].
      + cbn in E. injection E as -> E. apply map_eq_nil in E. subst ns.
        exists [(CO kd lo, p)]. split; reflexivity.
      + cbn [map app fst] in E. injection E as -> E. destruct HS as (j & HL & HS).
        destruct (IH ss (after a (cgrads l)) (acc ++ [(catrained a l, p)]) j k HS E) as (ns' & E1 & E2).
        exists ((catrained a l, p) :: ns'). cbn [foldM fst snd]. rewrite (c_train_adam_node a l n j HL).
        cbn [bind]. rewrite E1. split.
        * cbn [flat_map]. unfold after. rewrite fold_left_app, <- app_assoc. reflexivity.
        * cbn [map fst ctrain_all app]. now rewrite E2. }
  destruct (G (mnodes m) ss a [] n k S0 EN) as (ns' & E1 & E2). rewrite E1. cbn [bind app].
  eexists. split; [reflexivity|].
  destruct W. constructor; cbn [mgraph mnodes]; rewrite ?ctrain_all_length; auto using ctrain_all_shape.
Qed.
Lemma call_params_cnn m ss kd lo n k : cnn m ss kd lo n k -> call_params m = flat_map cparams ss.
Proof.
  intros W. unfold call_params. pose proof (cn_nodes _ _ _ _ _ _ W) as E.
  transitivity (flat_map cparams (map fst (mnodes m))).
  - generalize (mnodes m). clear. induction l as [|x l IH]; [reflexivity|]. cbn [flat_map map]. now rewrite IH.
  - rewrite E, flat_map_app. cbn [flat_map cparams]. now rewrite !app_nil_r.
Qed.
Lemma ckept_cparams s s2 : ckept s s2 -> cparams s2 = cparams s.
Proof.
  destruct s, s2; cbn [ckept cparams]; try contradiction; auto.
  - intros (A & _ & B & C). now rewrite A, B, C.
  - now intros (wg & bg & o & ig & ->).
Qed.

(** One batch with an optimizer that has seen the gradients [h] before *)
Theorem c96_batch_partial : forall eta a h m ss kd lo n k rows,
  cnn m ss kd lo n k -> (0 < k)%nat -> ls_in lo = k -> Forall ccleared ss ->
  Forall (crow_ok kd m ss n k) rows -> default_seen eta a h ->
  exists a' m' ss' lo' cs h', cbatch_adam rows (a, m) = Ok (a', m') /\ cnn m' ss' kd lo' n k /\
    ls_in lo' = k /\ ls_inv lo' = ls_inv lo /\ Forall ccleared ss' /\
    Forall2 (fun xt c => ccost kd m (fst xt) (snd xt) c) rows cs /\ ls_cum lo' = sum cs /\
    cadam_moved kd (factor kd k lo) eta h m rows m' h' /\ default_seen eta a' h'.
Proof.
  intros eta a h m ss kd lo n k rows W Hk Hin HC HR HA.
  destruct (creset_network m ss kd lo n k W) as (m1 & E1 & W1).
  assert (RF : Forall2 ckept ss ss) by exact (all_kept_refl _ _ _ (cn_shape _ _ _ _ _ _ W)).
  destruct (csteps_spec kd n k Hk rows m1 ss (reset_score lo) W1 Hin) as (m2 & ss2 & lo2 & cs & E2 & W2 & P2 & I2 & V2 & C2 & K2 & A2).
  { eapply Forall_impl; [|exact HR]. intros (x, t) (Q1 & Q2 & Q3 & Q4). split; [exact Q1|]. split; [exact Q2|]. split; [exact Q3|].
    cbn [fst snd] in *. intros m' y E. rewrite (cpredict_cnn m1 ss kd _ n k x m' y W1 Q1 E).
    destruct (c69_predict m ss kd lo n k x W Q1) as (m4 & E4 & _). exact (Q4 _ _ E4). }
  destruct (ccnn_train_adam a m2 ss2 kd lo2 n k W2) as (m3 & E3 & W3).
  pose proof (cn_shape _ _ _ _ _ _ W2) as S2. assert (LL : length ss2 = length ss) by (exact (Forall2_len _ _ _ P2)).
  set (gs := map cgrads ss2 ++ [[]]).
  assert (CG : concat gs = flat_map cgrads ss2).
  { unfold gs. rewrite concat_app. cbn [concat app]. rewrite app_nil_r. symmetry. apply flat_map_concat_map. }
  exists (after a (flat_map cgrads ss2)), m3, (ctrain_all a ss2), lo2, cs, (h ++ concat gs).
  assert (SZ : Forall (fun xt : list R * list R => length (fst xt) = n) rows) by (eapply Forall_impl; [|exact HR]; intros xt Q; apply Q).
  assert (PP : flat_map cparams ss2 = flat_map cparams ss).
  { clear - P2. induction P2 as [|s s' ss ss' K _ IH]; [reflexivity|]. cbn [flat_map]. now rewrite IH, (ckept_cparams _ _ K). }
  assert (LN : forall mm sss lll, cnn mm sss kd lll n k -> length (mnodes mm) = S (length sss)).
  { intros mm sss lll Wm. rewrite <- (map_length fst), (cn_nodes _ _ _ _ _ _ Wm), app_length. cbn. lia. }
  split; [unfold cbatch_adam; cbn [fst snd]; rewrite E1; cbn [bind]; rewrite E2; exact E3|]. split; [exact W3|]. split; [exact I2|]. split; [exact V2|].
  split.
  { apply Forall_forall. intros s Hs. apply In_nth_error in Hs. destruct Hs as (q & Hq).
    destruct (nth_error ss2 q) as [s2|] eqn:E.
    - rewrite (ctrain_all_nth _ _ _ _ E) in Hq. injection Hq as <-. destruct (cshape_nth _ _ _ _ _ S2 E) as (u & v & Sl).
      assert (X : (q < length ss)%nat) by (rewrite <- LL; apply nth_error_Some; congruence). destruct (nth_error ss q) as [s|] eqn:E0; [|apply nth_error_None in E0; lia].
      destruct (Forall2_nth_error _ _ _ _ _ P2 E0) as (s2' & E' & KK). rewrite E in E'. injection E' as <-. apply (catrained_same _ s s2 u v Sl KK).
    - apply nth_error_None in E. rewrite <- (ctrain_all_length ss2 a) in E. apply nth_error_None in E. congruence. }
  split.
  { eapply Forall2_impl_in; [exact SZ| |exact C2]. intros (x, t) c Hx Q.
    exact (ccost_alike kd m1 m ss ss _ lo n k x t c W1 W (all_kept_alike _ _ RF) Hx Q). }
  split; [rewrite K2; cbn [reset_score ls_cum]; change (@n0 R NumR) with 0; ring|].
  split; [|rewrite CG; now apply default_after].
  exists gs. split; [|split; [reflexivity|split]].
  - split.
    { unfold gs. rewrite app_length, map_length, (LN _ _ _ W). cbn [length]. lia. }
    intros q s o g E Eg. destruct (cnode_of m ss kd lo n k q s o W E) as [El|(-> & ->)].
    2:{ unfold gs in Eg. rewrite nth_error_app2 in Eg by (rewrite map_length; lia). rewrite map_length, LL, Nat.sub_diag in Eg. injection Eg as <-.
        split; [reflexivity|intros []]. }
    destruct (A2 q s El) as (s2 & El2 & B & B').
    destruct (Forall2_nth_error _ _ _ _ _ P2 El) as (s2' & El2' & KK). rewrite El2 in El2'. injection El2' as <-.
    unfold gs in Eg. rewrite nth_error_app1 in Eg by (rewrite map_length; apply nth_error_Some; congruence).
    rewrite (map_nth_error cgrads q ss2 El2) in Eg. injection Eg as <-.
    pose proof (proj1 (Forall_forall _ _) HC s (nth_error_In _ _ El)) as CL.
    destruct (cshape_nth _ _ _ _ _ S2 El2) as (u & v & Sl). assert (Hq : (q < length ss)%nat) by (apply nth_error_Some; congruence).
    split; [rewrite (cgrads_length _ _ _ Sl); f_equal; now apply ckept_cparams|]. intros LS.
    assert (Fe : factor kd k (reset_score lo) = factor kd k lo) by reflexivity. rewrite Fe in *.
    assert (G : forall (a ga ga0 : list R) (part part' : nat -> list R * list R -> R -> Prop),
      (forall p, nth p ga0 0 = 0) -> (forall p xt d, length (fst xt) = n -> part' p xt d -> part p xt d) ->
      (forall p, (p < length a)%nat -> exists ds, Forall2 (part' p) rows ds /\ nth p ga 0 = nth p ga0 0 + factor kd k lo * sum ds) ->
      forall p, (p < length a)%nat -> exists ds, Forall2 (part p) rows ds /\ nth p ga 0 = factor kd k lo * sum ds).
    { intros a0 ga ga0 part part' Z T0 HB p Hp. destruct (HB p Hp) as (ds & D & Q). exists ds. split.
      - eapply Forall2_impl_in; [exact SZ| |exact D]. intros xt d Hx. apply T0; exact Hx.
      - rewrite Q, Z. ring. }
    assert (TW : forall p xt d, length (fst xt) = n -> cwpartial kd m1 q p xt d -> cwpartial kd m q p xt d)
      by (intros p xt d Hx; exact (cwpartial_kept kd m1 m ss ss _ lo n k q p xt d W1 W RF Hx Hq)).
    assert (TB : forall p xt d, length (fst xt) = n -> cbpartial kd m1 q p xt d -> cbpartial kd m q p xt d)
      by (intros p xt d Hx; exact (cbpartial_kept kd m1 m ss ss _ lo n k q p xt d W1 W RF Hx Hq)).
    destruct s as [l|c|p|], s2 as [l2|c2|p2|]; cbn [ckept] in KK; try contradiction; cbn [learns weights biases wgrads bgrads cgrads cnode_shape] in *.
    + destruct KK as (K3 & K4 & K5 & K6). unfold layer_grads. rewrite K3, LS. destruct Sl as (T1 & T2 & T3 & T4). rewrite K3, LS in T4. destruct T4 as (T4 & T5 & T6 & T7).
      destruct (CL LS) as (Z1 & Z2). assert (LW : length (wgrad l2) = length (wts l)) by congruence. split.
      * intros i Hi. destruct (G _ _ _ _ _ Z1 TW B i Hi) as (ds & D & Q). exists ds. split; [exact D|]. now rewrite app_nth1 by lia.
      * intros i Hi. destruct (G _ _ _ _ _ Z2 TB B' i Hi) as (ds & D & Q). exists ds. split; [exact D|]. rewrite app_nth2 by lia.
        now replace (length (wts l) + i - length (wgrad l2))%nat with i by lia.
    + destruct KK as (wg & bg & o' & ig & ->). destruct Sl as (_ & _ & _ & _ & _ & _ & (X1 & X2) & _). cbn [conv_with cv_w cv_wg cv_bg cv_kh cv_kw cv_C cv_nf] in *.
      destruct (CL I) as (Z1 & _). split; [|exact I]. intros i Hi. destruct (G _ _ _ _ _ Z1 TW B i Hi) as (ds & D & Q). exists ds. split; [exact D|]. now rewrite app_nth1 by lia.
  - split; [rewrite (LN _ _ _ W), (LN _ _ _ W3), ctrain_all_length; congruence|].
    intros q s o E. destruct (cnode_of m ss kd lo n k q s o W E) as [El|(-> & ->)].
    + destruct (Forall2_nth_error _ _ _ _ _ P2 El) as (s2 & El2 & KK). destruct (cshape_nth _ _ _ _ _ S2 El2) as (u & v & Sl).
      destruct (cnode_at m3 _ kd lo2 n k q _ W3 (ctrain_all_nth ss2 a q s2 El2)) as (o' & E').
      eexists _, o'. split; [exact E'|]. destruct (catrained_same (after a (flat_map cgrads (firstn q ss2))) s s2 u v Sl KK) as (X1 & X2 & X3 & X4 & _). auto.
    + assert (Y : nth_error (map fst (mnodes m3)) (length ss) = Some (CO kd lo2)).
      { rewrite (cn_nodes _ _ _ _ _ _ W3), nth_error_app2, ctrain_all_length, LL, Nat.sub_diag by (rewrite ctrain_all_length; lia). reflexivity. }
      rewrite nth_error_map in Y. destruct (nth_error (mnodes m3) (length ss)) as [(s', o')|]; [|discriminate]. injection Y as ->.
      exists (CO kd lo2), o'. split; [reflexivity|]. cbn. auto.
  - unfold adam_step_from. assert (LP : length (flat_map cgrads ss2) = length (flat_map cparams ss2)) by (exact (call_grads_length _ _ _ S2)).
    rewrite (call_params_cnn m3 _ kd lo2 n k W3), (call_params_cnn m ss kd lo n k W), (ctrain_all_params ss2 a n k S2), CG, PP in *.
    split; [now rewrite amove_length|]. split; [exact LP|].
    intros i Hi. rewrite (amove_nth 0) by (auto; lia). cbn [nsub NumR]. f_equal. f_equal.
    destruct (default_after eta a h (firstn i (flat_map cgrads ss2)) HA) as (Sn & X1 & X2 & X3 & X4).
    rewrite (adam_delta_doc _ _ _ Sn), X1, X2, X3, X4. f_equal. rewrite <- app_assoc. f_equal.
    symmetry. apply firstn_S_nth. lia.
Qed.
Print Assumptions c96_batch_partial.

(** *** A whole run *)
(** Adam over a list of batches, with the gradients seen so far *)
Inductive cadam_run kd (f eta : R) : list row_list -> list R -> model (cnode R) -> model (cnode R) -> Prop :=
| car_end h m : cadam_run kd f eta [] h m m
| car_next rows bs h h1 m m1 m' : cadam_moved kd f eta h m rows m1 h1 -> cadam_run kd f eta bs h1 m1 m' ->
    cadam_run kd f eta (rows :: bs) h m m'.

Definition cadam_exec (d : dataset R) : adam R * model (cnode R) -> ev -> res (adam R * model (cnode R)) :=
  exec (fun am i => m' <- cnn_row_step d (snd am) i ;; Ok (fst am, m'))
    (fun am => m' <- cnn_reset_score (snd am) ;; Ok (fst am, m')) (fun am => cnn_train_adam (fst am) (snd am)).
Lemma cadam_exec_batch d rows b am : rows_of d rows -> Forall (fun i => (i < length rows)%nat) b ->
  foldM (cadam_exec d) (batch_calls b) am = cbatch_adam (pick rows b) am.
Proof.
  intros (L & HR) Hb. unfold batch_calls, cbatch_adam. cbn [foldM]. unfold cadam_exec at 1. cbn [exec].
  destruct am as (a, m). cbn [fst snd].
  destruct (cnn_reset_score m) as [m1| |]; cbn [bind]; try reflexivity.
  rewrite foldM_app. transitivity (am2 <- (m2 <- csteps (pick rows b) m1 ;; Ok (a, m2)) ;; foldM (cadam_exec d) [ETrain] am2).
  2:{ destruct (csteps (pick rows b) m1) as [m2| |]; cbn [bind]; try reflexivity. cbn [foldM].
      unfold cadam_exec. cbn [exec fst snd]. now destruct (cnn_train_adam a m2). }
  f_equal. revert m1. induction b as [|i b IH]; intros m1; [reflexivity|].
  inversion Hb as [|? ? Hi Hb']; subst. unfold csteps in *. cbn [map foldM pick]. unfold cadam_exec at 1. cbn [exec fst snd].
  destruct (nth_error rows i) as [(x, t)|] eqn:E; [|apply nth_error_None in E; lia].
  rewrite (nth_error_nth _ _ ([], []) E). cbn [fst snd]. unfold cnn_row_step. destruct (HR i x t E) as (E1 & E2).
  change (@n0 R NumR) with 0. rewrite E1. cbn [bind]. rewrite E2. cbn [bind].
  destruct (m_step cnn_ops m1 x t) as [m2| |]; cbn [bind]; try reflexivity. exact (IH Hb' m2).
Qed.
Lemma cadam_exec_batches d rows : rows_of d rows -> forall bl am, Forall (Forall (fun i => (i < length rows)%nat)) bl ->
  foldM (cadam_exec d) (flat_map batch_calls bl) am = foldM (fun am b => cbatch_adam (pick rows b) am) bl am.
Proof.
  intros HR. induction bl as [|b bl IH]; intros am F; [reflexivity|].
  inversion F; subst. cbn [flat_map]. rewrite foldM_app, (cadam_exec_batch d rows b am) by auto. cbn [foldM].
  destruct (cbatch_adam (pick rows b) am); cbn [bind]; auto.
Qed.
Lemma cadam_run_spec eta kd n k rows : (0 < k)%nat -> forall bl a h m ss lo, default_seen eta a h ->
  cnn m ss kd lo n k -> ls_in lo = k -> Forall ccleared ss -> Forall (Forall (fun i => (i < length rows)%nat)) bl ->
  (forall b1 b2 am1, b1 ++ b2 = bl -> foldM (fun am b => cbatch_adam (pick rows b) am) b1 (a, m) = Ok am1 ->
     ctrainable kd n k rows (snd am1)) ->
  exists a' m' ss' lo', foldM (fun am b => cbatch_adam (pick rows b) am) bl (a, m) = Ok (a', m') /\
    cnn m' ss' kd lo' n k /\ ls_in lo' = k /\ ls_inv lo' = ls_inv lo /\ Forall ccleared ss' /\
    cadam_run kd (factor kd k lo) eta (map (pick rows) bl) h m m'.
Proof.
  intros Hk. induction bl as [|b bl IH]; intros a h m ss lo HA W Hin HC HB HT.
  - exists a, m, ss, lo. split; [reflexivity|]. split; [exact W|]. split; [exact Hin|]. split; [reflexivity|]. split; [exact HC|]. constructor.
  - inversion HB as [|? ? Hb HB']; subst.
    destruct (c96_batch_partial eta a h m ss kd lo n _ (pick rows b) W Hk eq_refl HC)
      as (a1 & m1 & ss1 & lo1 & cs & h1 & E1 & W1 & I1 & V1 & C1 & _ & _ & M1 & A1); [|exact HA|].
    { pose proof (HT [] (b :: bl) (a, m) eq_refl eq_refl ss lo W) as HR. rewrite Forall_forall in HR |- *.
      intros r Hr. apply in_map_iff in Hr. destruct Hr as (i & <- & Hi). apply HR. apply nth_In.
      rewrite Forall_forall in Hb. exact (Hb i Hi). }
    destruct (IH a1 h1 m1 ss1 lo1 A1 W1 I1 C1 HB') as (a2 & m2 & ss2 & lo2 & E2 & W2 & I2 & V2 & C2 & M2).
    { intros b1 b2 m2 <- E. apply (HT (b :: b1) b2 m2 eq_refl). cbn [foldM]. rewrite E1. exact E. }
    exists a2, m2, ss2, lo2. split; [cbn [foldM]; rewrite E1; exact E2|]. split; [exact W2|]. split; [exact I2|]. split; [congruence|].
    split; [exact C2|]. cbn [map]. econstructor; [exact M1|]. unfold factor in *. rewrite V1 in M2. exact M2.
Qed.
(** fit with Adam: over the batches of consecutive rows, in order, [epochs] times, with one
    optimizer for the whole run, as long as every network met on the way is differentiable at the
    rows *)
Theorem c96_fit_partial : forall eta d rows m ss kd lo n k bs epochs fuel,
  cnn m ss kd lo n k -> (0 < k)%nat -> ls_in lo = k -> Forall ccleared ss -> rows_of d rows ->
  (1 <= bs)%nat -> (ds_size d <= fuel)%nat ->
  exists bl, batches_of (ds_size d) bs bl /\
  ((forall b1 b2 am1, b1 ++ b2 = concat (repeat bl epochs) ->
      foldM (fun am b => cbatch_adam (pick rows b) am) b1 (adam_default eta, m) = Ok am1 -> ctrainable kd n k rows (snd am1)) ->
   exists m' ss' lo', cnn_fit_adam eta d fuel epochs bs m = Some (Ok m') /\ cnn m' ss' kd lo' n k /\
    Forall ccleared ss' /\ cadam_run kd (factor kd k lo) eta (map (pick rows) (concat (repeat bl epochs))) [] m m').
Proof.
  intros eta d rows m ss kd lo n k bs epochs fuel W Hk Hin HC HR Hb Hf.
  destruct (c39_sequential (ds_size d) bs Hb) as (bl & B & F). exists bl. split; [exact B|]. intros HT.
  assert (HB : Forall (Forall (fun i => (i < length rows)%nat)) (concat (repeat bl epochs))).
  { rewrite (proj1 HR). apply batches_lt in B. clear - B. induction epochs as [|e IH]; cbn [repeat concat]; [constructor|]. apply Forall_app; auto. }
  destruct (cadam_run_spec eta kd n k rows Hk _ _ [] m ss lo (default_new eta) W Hin HC HB HT) as (a' & m' & ss' & lo' & E & W' & _ & _ & C' & G).
  exists m', ss', lo'. split; [|auto]. unfold cnn_fit_adam. rewrite F by exact Hf. rewrite repeat_flat.
  pose proof (cadam_exec_batches d rows HR _ (adam_default eta, m) HB) as X. unfold cadam_exec in X. rewrite X, E. reflexivity.
Qed.
Print Assumptions c96_fit_partial.

Lemma csame_smooth m m' ss ss' kd lo lo' n k : cnn m ss kd lo n k -> cnn m' ss' kd lo' n k -> csame_layers m m' ->
  Forall csmooth_kind ss -> Forall csmooth_kind ss'.
Proof.
  intros W W' (L & M) HS. assert (LL : length ss' = length ss).
  { pose proof (f_equal (@length _) (cn_nodes _ _ _ _ _ _ W)) as L1. pose proof (f_equal (@length _) (cn_nodes _ _ _ _ _ _ W')) as L2.
    rewrite map_length, app_length in L1, L2. cbn [length] in L1, L2. lia. }
  apply Forall_forall. intros s' Hs'. apply In_nth_error in Hs'. destruct Hs' as (q & Eq').
  assert (Hq : (q < length ss')%nat) by (apply nth_error_Some; congruence).
  destruct (nth_error ss q) as [s|] eqn:Eq; [|apply nth_error_None in Eq; lia].
  destruct (cnode_at m _ _ _ _ _ q s W Eq) as (o & EN). destruct (M q s o EN) as (s2 & o2 & EN2 & X & _).
  destruct (cnode_of _ _ _ _ _ _ _ _ _ W' EN2) as [Y|(Y & _)]; [|lia]. rewrite Eq' in Y. injection Y as <-.
  apply (same_layer_smooth s s' X). rewrite Forall_forall in HS. apply HS. eapply nth_error_In; eauto.
Qed.
Lemma csmooth_trainable_adam eta tol n k rows : (0 < k)%nat ->
  Forall (fun xt : list R * list R => length (fst xt) = n /\ length (snd xt) = k) rows ->
  forall bl a h m ss lo am1, default_seen eta a h -> cnn m ss (MSE tol) lo n k -> ls_in lo = k -> Forall ccleared ss -> Forall csmooth_kind ss ->
  Forall (Forall (fun i => (i < length rows)%nat)) bl ->
  foldM (fun am b => cbatch_adam (pick rows b) am) bl (a, m) = Ok am1 -> ctrainable (MSE tol) n k rows (snd am1).
Proof.
  intros Hk HR.
  assert (TR : forall m ss lo, cnn m ss (MSE tol) lo n k -> Forall csmooth_kind ss -> ctrainable (MSE tol) n k rows m).
  { intros m ss lo W HS ss' lo' W'. rewrite (cnn_layers_unique _ _ _ _ _ _ _ _ W W') in *.
    eapply Forall_impl; [|exact HR]. intros (x, t) (Q1 & Q2). cbn [fst snd] in *.
    split; [exact Q1|]. split; [exact Q2|]. split; [|intros; exact I].
    exact (csmooth_everywhere ss n k x (cn_shape _ _ _ _ _ _ W) Q1 HS). }
  induction bl as [|b bl IH]; intros a h m ss lo m1 HA W Hin HC HS HB E.
  - cbn [foldM] in E. injection E as <-. eauto.
  - inversion HB as [|? ? Hb HB']; subst.
    destruct (c96_batch_partial eta a h m ss _ lo n _ (pick rows b) W Hk eq_refl HC)
      as (a2 & m2 & ss2 & lo2 & cs & h2 & E2 & W2 & I2 & V2 & C2 & _ & _ & M2 & A2); [|exact HA|].
    { pose proof (TR m ss lo W HS ss lo W) as HT. rewrite Forall_forall in HT |- *.
      intros r Hr. apply in_map_iff in Hr. destruct Hr as (i & <- & Hi). apply HT. apply nth_In.
      rewrite Forall_forall in Hb. exact (Hb i Hi). }
    cbn [foldM] in E. rewrite E2 in E. cbn [bind] in E.
    refine (IH a2 h2 m2 ss2 lo2 m1 A2 W2 I2 C2 _ HB' E).
    destruct M2 as (gs & _ & _ & SL & _). exact (csame_smooth m m2 ss ss2 _ lo lo2 n _ W W2 SL HS).
Qed.
Theorem c96_fit_mean_squared_error_partial : forall eta d rows m ss tol lo n k bs epochs fuel,
  cnn m ss (MSE tol) lo n k -> (0 < k)%nat -> ls_in lo = k -> Forall ccleared ss -> Forall csmooth_kind ss ->
  rows_of d rows -> Forall (fun xt => length (fst xt) = n /\ length (snd xt) = k) rows ->
  (1 <= bs)%nat -> (ds_size d <= fuel)%nat ->
  exists bl m' ss' lo', batches_of (ds_size d) bs bl /\
    cnn_fit_adam eta d fuel epochs bs m = Some (Ok m') /\ cnn m' ss' (MSE tol) lo' n k /\ Forall ccleared ss' /\
    cadam_run (MSE tol) (INR k * ls_inv lo) eta (map (pick rows) (concat (repeat bl epochs))) [] m m'.
Proof.
  intros eta d rows m ss tol lo n k bs epochs fuel W Hk Hin HC HS HR HZ Hb Hf.
  destruct (c96_fit_partial eta d rows m ss (MSE tol) lo n k bs epochs fuel W Hk Hin HC HR Hb Hf) as (bl & B & F).
  destruct F as (m' & ss' & lo' & E & W' & C' & G).
  - intros b1 b2 m1 E1 E2.
    assert (HB : Forall (Forall (fun i => (i < length rows)%nat)) (concat (repeat bl epochs))).
    { rewrite (proj1 HR). apply batches_lt in B. clear - B. induction epochs as [|e IH]; cbn [repeat concat]; [constructor|]. apply Forall_app; auto. }
    rewrite <- E1 in HB. apply Forall_app in HB. destruct HB as (HB & _).
    exact (csmooth_trainable_adam eta tol n k rows Hk HZ b1 _ [] m ss lo m1 (default_new eta) W Hin HC HS HB E2).
  - exists bl, m', ss', lo'. auto.
Qed.
Print Assumptions c96_fit_mean_squared_error_partial.

(** *** How far a fit moves *)
Lemma cadam_run_bound kd f eta bs h m m' : 0 <= eta -> cadam_run kd f eta bs h m m' ->
  length (call_params m') = length (call_params m) /\
  forall i, (i < length (call_params m))%nat -> Rabs (nth i (call_params m') 0 - nth i (call_params m) 0) <= INR (length bs) * (73 * eta).
Proof.
  intros He. induction 1 as [h m|rows bs h h1 m m1 m' MV _ (IL & IH)].
  - split; [reflexivity|]. intros i _. rewrite Rminus_diag_eq, Rabs_R0 by reflexivity. cbn. lra.
  - destruct MV as (gs & _ & _ & _ & L & _ & Q). split; [congruence|]. intros i Hi.
    specialize (IH i ltac:(lia)). specialize (Q i Hi). cbn [length]. rewrite S_INR.
    set (D := doc_step _ _ _ _ _) in Q. assert (HD : Rabs D <= 73 * eta) by (apply default_step_bound; exact He).
    replace (nth i (call_params m') 0 - nth i (call_params m) 0) with ((nth i (call_params m') 0 - nth i (call_params m1) 0) + - D) by (rewrite Q; ring).
    eapply Rle_trans; [apply Rabs_triang|]. rewrite Rabs_Ropp. lra.
Qed.
(** However large the errors are, a fit moves every parameter, also the biases of convolutions, at
    most [73 * eta] per batch. *)
Theorem c96_fit_bound : forall eta d rows m ss tol lo n k bs epochs fuel,
  cnn m ss (MSE tol) lo n k -> (0 < k)%nat -> ls_in lo = k -> Forall ccleared ss -> Forall csmooth_kind ss ->
  rows_of d rows -> Forall (fun xt => length (fst xt) = n /\ length (snd xt) = k) rows ->
  (1 <= bs)%nat -> (ds_size d <= fuel)%nat -> 0 <= eta ->
  exists bl m', batches_of (ds_size d) bs bl /\ cnn_fit_adam eta d fuel epochs bs m = Some (Ok m') /\
    length (call_params m') = length (call_params m) /\
    forall i, (i < length (call_params m))%nat ->
      Rabs (nth i (call_params m') 0 - nth i (call_params m) 0) <= INR (epochs * length bl) * (73 * eta).
Proof.
  intros eta d rows m ss tol lo n k bs epochs fuel W Hk Hin HC HS HR HZ Hb Hf He.
  destruct (c96_fit_mean_squared_error_partial eta d rows m ss tol lo n k bs epochs fuel W Hk Hin HC HS HR HZ Hb Hf)
    as (bl & m' & ss' & lo' & B & E & _ & _ & AR).
  exists bl, m'. split; [exact B|]. split; [exact E|].
  destruct (cadam_run_bound _ _ _ _ _ _ _ He AR) as (L & Q). split; [exact L|]. rewrite map_length in Q.
  replace (length (concat (repeat bl epochs))) with (epochs * length bl)%nat in Q; [exact Q|].
  clear. induction epochs as [|e IH]; [reflexivity|]. cbn [repeat concat]. rewrite app_length, <- IH. reflexivity.
Qed.
Print Assumptions c96_fit_bound.

(** *** The biases of convolutions *)
(** The statement with the derivatives of the cost for all parameters. Those for the biases of a
    convolution are 0, as no prediction depends on them. *)
Definition cgradient_all kd (f : R) (m : model (cnode R)) (rows : row_list) (gs : list (list R)) : Prop :=
  length gs = length (mnodes m) /\
  forall q s o g, nth_error (mnodes m) q = Some (s, o) -> nth_error gs q = Some g -> length g = length (cparams s) /\
    (learns s ->
      (forall p, (p < length (weights s))%nat -> exists ds, Forall2 (cwpartial kd m q p) rows ds /\ nth p g 0 = f * sum ds) /\
      (forall p, (p < length (biases s))%nat -> exists ds, Forall2 (cbpartial kd m q p) rows ds /\ nth (length (weights s) + p) g 0 = f * sum ds)).
Definition cadam_moved_all kd (f eta : R) (h : list R) m rows (m' : model (cnode R)) : Prop :=
  exists gs, cgradient_all kd f m rows gs /\ adam_step_from eta h (call_params m) (concat gs) (call_params m').
Lemma ex_conv1_adam (m : model (cnode R)) : cnn m [CV ex_conv1; CL ex_lin] (MSE 1) (loss_new 1 1) 1 1 ->
  exists m' c l lo', m_step cnn_ops m [1] [0] = Ok m' /\ cnn m' [CV c; CL l] (MSE 1) lo' 1 1 /\
    cparams (CV c) = [1; 0] /\ cgrads (CV c) = [2; 2] /\ cparams (CL l) = [] /\ cgrads (CL l) = [].
Proof.
  intros W. set (lo := loss_new 1 1) in *.
  destruct (loss_fwd (MSE 1) lo [0] [0 + 1 * 1] 1) as (lo1 & EL & T1 & I1 & G1 & V1 & _); try reflexivity; try lia.
  pose proof (loss_bwd (MSE 1) lo1 [0] [0 + 1 * 1] 1 Nat.lt_0_1 T1 eq_refl eq_refl ltac:(rewrite G1; reflexivity) I) as EB.
  set (g := factor (MSE 1) 1 lo1 * nth 0 (loss_grad (MSE 1) [0] [0 + 1 * 1]) 0) in *.
  change (tab 1 (fun i => factor (MSE 1) 1 lo1 * nth i (loss_grad (MSE 1) [0] [0 + 1 * 1]) 0)) with [g] in EB.
  set (c := mkConv 1 1 1 1 1 1 1 1 0 0 1 1 [1] [0] [0 + 1 * g] [0 + g] [0 + 1 * 1] [0 + 1 * g]).
  set (l := mkLayer (KAct Linear) 1 [] [] [] [] [0 + 1 * 1] [g]).
  exists (mkModel (mgraph m) (splace 0 ([CV c; CL l] ++ [CO (MSE 1) (set_grad lo1 [g])]))), c, l, (set_grad lo1 [g]).
  split.
  { eapply (step_chain cnn_ops 2 m [CV ex_conv1; CL ex_lin] (CO (MSE 1) lo) [1] [0] _ _ (CO (MSE 1) lo1)).
    - apply W.
    - lia.
    - apply W.
    - reflexivity.
    - cbv -[Rplus Rmult IZR]. reflexivity.
    - cbn [cnn_ops o_tforward o_target c_target c_forward]. rewrite EL. reflexivity.
    - cbn [cnn_ops o_backward c_backward]. rewrite EB. reflexivity.
    - unfold c, l. generalize g. intros g0. cbv -[Rplus Rmult IZR]. reflexivity. }
  split.
  { constructor; cbn [mgraph mnodes].
    - apply W.
    - cbn. lia.
    - apply splace_fst.
    - destruct ex_conv1_shape as (j & A & B). exists j. split; [exact A|exact B].
    - reflexivity. }
  assert (G2 : g = 2). { unfold g, factor, loss_grad. rewrite V1. cbn. unfold nofnat. cbn. field. }
  split; [reflexivity|]. split; [|split; reflexivity]. cbn [c cgrads cv_wg cv_bg app]. rewrite G2. f_equal; [ring|f_equal; ring].
Qed.
Lemma step_22 : 9 / 10 < doc_step 1 (9 / 10) (999 / 1000) (1 / 100000000) [2; 2].
Proof.
  unfold doc_step, doc_moment. cbn [length map nth Rsum Nat.sub pow].
  match goal with |- _ < 1 * (?a / (sqrt ?b + _)) => replace a with 2 by field; replace b with (2 * 2) by field end.
  rewrite sqrt_square by lra. apply Rmult_lt_reg_r with (2 + 1 / 100000000); [lra|]. field_simplify; lra.
Qed.
Lemma step_20 : doc_step 1 (9 / 10) (999 / 1000) (1 / 100000000) [2; 0] < 9 / 10.
Proof.
  unfold doc_step, doc_moment. cbn [length map nth Rsum Nat.sub pow].
  match goal with |- 1 * (?a / (sqrt ?b + _)) < _ => replace a with (18 / 19) by field; replace b with (3996 / 1999) by field end.
  assert (S14 : 14 / 10 <= sqrt (3996 / 1999)).
  { rewrite <- (sqrt_square (14 / 10)) by lra. apply sqrt_le_1_alt. lra. }
  set (s := sqrt _) in *. apply Rmult_lt_reg_r with (s + 1 / 100000000); [lra|]. rewrite Rmult_1_l. unfold Rdiv at 1. rewrite Rmult_assoc, Rinv_l by lra. lra.
Qed.
Theorem c96_bias_refuted : exists m ss kd lo n k rows a' m',
  cnn m ss kd lo n k /\ (0 < k)%nat /\ ls_in lo = k /\ Forall ccleared ss /\ Forall (crow_ok kd m ss n k) rows /\
  cbatch_adam rows (adam_default 1, m) = Ok (a', m') /\ ~ cadam_moved_all kd (factor kd k lo) 1 [] m rows m'.
Proof.
  destruct (cnn_chain [CV ex_conv1; CL ex_lin] (MSE 1) (loss_new 1 1) 1 1 ltac:(cbn; lia) ex_conv1_shape eq_refl) as (m & W).
  destruct (creset_network m _ _ _ _ _ W) as (m1 & E1 & W1). change (reset_score (loss_new 1 1)) with (loss_new (T := R) 1 1) in W1.
  destruct (ex_conv1_adam m1 W1) as (m2 & c & l & lo2 & E2 & W2 & PC & GC & PL & GL).
  destruct (ccnn_train_adam (adam_default 1) m2 _ _ _ _ _ W2) as (m3 & E3 & W3).
  exists m, [CV ex_conv1; CL ex_lin], (MSE 1), (loss_new 1 1), 1%nat, 1%nat, [([1], [0])]. eexists _, m3.
  assert (HM : csmooth [CV ex_conv1; CL ex_lin] [1]) by (cbn; tauto).
  assert (HC : Forall ccleared [CV ex_conv1; CL ex_lin]).
  { constructor; [|constructor; [|constructor]]; unfold ccleared; cbn; [|discriminate].
    intros _. split; [|exact I]. intros [|[|p]]; reflexivity. }
  assert (HR : Forall (crow_ok (MSE 1) m [CV ex_conv1; CL ex_lin] 1 1) [([1], [0])]).
  { constructor; [|constructor]; split; [reflexivity|]; split; [reflexivity|]; split; [exact HM|intros; exact I]. }
  split; [exact W|]. split; [lia|]. split; [reflexivity|]. split; [exact HC|]. split; [exact HR|].
  split; [unfold cbatch_adam; cbn [fst snd]; rewrite E1; cbn [bind]; unfold csteps; cbn [foldM fst snd]; rewrite E2; cbn [bind]; exact E3|].
  pose proof (call_params_cnn m _ _ _ _ _ W) as CP. pose proof (call_params_cnn m3 _ _ _ _ _ W3) as CP3.
  rewrite (ctrain_all_params _ _ 1 1 (cn_shape _ _ _ _ _ _ W2)) in CP3. cbn [flat_map] in CP3. rewrite PC, GC, PL, GL in CP3. cbn [app] in CP3.
  intros (gs & (LG & HG) & (_ & _ & MV)).
  assert (LN : length (mnodes m) = 3%nat). { rewrite <- (map_length fst), (cn_nodes _ _ _ _ _ _ W). reflexivity. }
  rewrite LN in LG. destruct gs as [|g0 [|g1 [|g2 [|]]]]; try discriminate.
  destruct (cnode_at m _ _ _ _ _ 0 (CV ex_conv1) W eq_refl) as (o & EN). destruct (HG 0%nat _ o g0 EN eq_refl) as (L0 & HL). destruct (HL I) as (HW & HB).
  destruct (HW 0%nat Nat.lt_0_1) as (dw & DW & QW). destruct (HB 0%nat Nat.lt_0_1) as (db & DB & QB). cbn [weights ex_conv1 cv_w length plus] in QB.
  inversion DW as [|? dw1 ? dw2 DW1 DW2]; subst. inversion DW2; subst. inversion DB as [|? db1 ? db2 DB1 DB2]; subst. inversion DB2; subst.
  destruct (c69_step_partial m _ (MSE 1) _ 1 1 [1] [0] W (Nat.lt_0_1) eq_refl eq_refl eq_refl HM (fun _ _ _ => I))
    as (m' & ss' & lo' & _ & _ & _ & _ & _ & _ & _ & A).
  destruct (A 0%nat (CV ex_conv1) eq_refl) as (s' & _ & _ & B1). specialize (B1 0%nat Nat.lt_0_1).
  rewrite (cbpartial_unique _ _ _ _ _ _ _ DB1 B1) in QB.
  assert (MV1 := MV 1%nat). rewrite CP, CP3 in MV1. specialize (MV1 ltac:(cbn; lia)).
  rewrite (amove_nth 0) in MV1 by (cbn; lia). cbn [firstn flat_map cparams ex_conv1 cv_w cv_b ex_lin knd app nth nsub NumR] in MV1.
  destruct (default_after 1 (adam_default 1) [] [2] (default_new 1)) as (Sn & X1 & X2 & X3 & X4).
  rewrite (adam_delta_doc _ _ _ Sn), X1, X2, X3, X4 in MV1. cbn [app] in MV1.
  destruct g0 as [|u [|v [|]]]; try discriminate L0. cbn [concat app firstn nth] in *.
  assert (U : u = 2).
  { assert (D2 : cwpartial (MSE 1) m 0 0 ([1], [0]) 2).
    { exists (CV ex_conv1), o, (fun z => (1 + z) ^ 2). split; [exact EN|]. split.
      - intros z. pose proof (cput_cnn m _ _ _ _ _ 0 _ _ W eq_refl (move_weight_sizes _ 0 z)) as Wz.
        pose proof (ccost_cnn _ _ _ _ _ _ [1] [0] Wz eq_refl) as CC. cbn [fst snd].
        match type of CC with ccost _ _ _ _ ?v => replace ((1 + z) ^ 2) with v; [exact CC|] end.
        cbv -[Rplus Rmult IZR Ropp Rdiv Rinv pow Rminus]. field.
      - eapply dlim_eq.
        + apply (dlim_comp (fun z => 1 + z) (fun u => u ^ 2)); [|apply derivable_pt_lim_pow].
          apply (dlim_plus (fun _ => 1) (fun z => z)); [apply dlim_const|apply dlim_id].
        + simpl. ring. }
    rewrite QW, (cwpartial_unique _ _ _ _ _ _ _ DW1 D2). unfold sum, factor. cbn. unfold nofnat. cbn. field. }
  assert (V : v = 0) by (rewrite QB; unfold sum; cbn [fold_right]; ring).
  rewrite U, V in MV1. pose proof step_22. pose proof step_20. lra.
Qed.
Print Assumptions c96_bias_refuted.

(** *** The hypotheses are met *)
Example c96_met : exists m : model (cnode R),
  cnn m ex_cnn (MSE 1) (loss_new 1 1) 5 1 /\ ls_in (loss_new (T := R) 1 1) = 1%nat /\ Forall ccleared ex_cnn /\
  rows_of ex71_data ex71_rows /\ Forall (crow_ok (MSE 1) m ex_cnn 5 1) ex71_rows /\ default_seen (1 / 10) (adam_default (1 / 10)) [].
Proof.
  destruct c71_hypotheses_met as (m & W & A & _ & B & C & D & _). exists m. repeat (split; [assumption|]). apply default_new.
Qed.
(** Two epochs with layers that are differentiable everywhere *)
Example c96_fit_met : exists m bl m', cnn m [CV ex_conv1; CL ex_lin] (MSE 1) (loss_new 1 1) 1 1 /\
  batches_of (ds_size (ds_vec 0 [1; 0] 2 1 [1%nat])) 1 bl /\ cnn_fit_adam 1 (ds_vec 0 [1; 0] 2 1 [1%nat]) 1 2 1 m = Some (Ok m') /\ length (call_params m) = 2%nat /\
  cadam_run (MSE 1) (INR 1 * ls_inv (loss_new (T := R) 1 1)) 1 (map (pick [([1], [0])]) (concat (repeat bl 2))) [] m m'.
Proof.
  destruct c71_smooth_hypotheses_met as (m & W & HS & HC).
  destruct (c96_fit_mean_squared_error_partial 1 (ds_vec 0 [1; 0] 2 1 [1%nat]) [([1], [0])] m _ 1 _ 1 1 1 2 1 W Nat.lt_0_1 eq_refl HC HS) as (bl & m' & _ & _ & B & E & _ & _ & AR).
  - split; [reflexivity|]. intros i x t Hi. destruct i as [|i]; [|destruct i; discriminate]. injection Hi as <- <-. split; reflexivity.
  - repeat constructor.
  - lia.
  - cbn. lia.
  - exists m, bl, m'. split; [exact W|]. split; [exact B|]. split; [exact E|]. split; [|exact AR]. rewrite (call_params_cnn m _ _ _ _ _ W). reflexivity.
Qed.
