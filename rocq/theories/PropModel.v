(** C36: sequential networks. *)
From Verif Require Import Base Num RSum MathModel MathProofs LayerModel LossModel GradSpec GradProofs GradChain OptModel GraphModel GraphProofs ModelModel NodeModel ChainProofs ModelProofs PropGraph.
From Coq Require Import Reals Lra.
Local Open Scope nat_scope.

(** *** Schedules *)
(** The layers 0..n-1 are linked in a row by forward, training and backward arcs, and the
    node n, when there is one, is the loss of the last layer. Nothing is said about the
    order of the building calls. *)
Definition chain_linked (lossy : bool) (n : nat) (s : dlgraph) : Prop :=
  nodes s = (if lossy then S n else n) /\
  losses s = (if lossy then [n] else []) /\
  (forall a b, In b (fgraph s a) <-> b = S a /\ b < n) /\
  (forall a b, In b (tgraph s a) <-> b = S a /\ b < nodes s) /\
  (forall a b, In b (bgraph s a) <-> a = S b /\ a < nodes s).

Theorem c36_schedules : forall os s (lossy : bool) n,
  gbuild os = Ok s -> 2 <= n -> chain_linked lossy n s ->
  inputs s = [0] /\ outputs s = [n - 1] /\
  schedule (nodes s + 2) (fgraph s) (inputs s) = Some (map (fun i => (i, S i)) (seq 0 (n - 1))) /\
  (lossy = true ->
     schedule (nodes s + 2) (tgraph s) (inputs s) = Some (map (fun i => (i, S i)) (seq 0 n)) /\
     schedule (nodes s + 2) (bgraph s) (losses s) = Some (map (fun i => (S i, i)) (rev (seq 0 n)))).
Proof.
  intros os s lossy n E Hn (H1 & H2 & H3 & H4 & H5).
  pose proof (is_chain_built os s lossy n E Hn H1 H2 H3 H4 H5) as HC.
  split; [exact (ic_in _ _ _ HC)|]. split; [exact (ic_out _ _ _ HC)|].
  split; [apply (chain_forward_run lossy); [exact HC|lia]|].
  intros ->. split; [now apply chain_training_run; [|lia]|].
  now apply chain_backward_run; [|lia].
Qed.
Print Assumptions c36_schedules.

(** The building calls of a sequential network: layer after layer, each linked to the one
    before, then the loss. *)
Definition chain_build (n : nat) : list gop :=
  GLayer :: flat_map (fun i => [GLayer; GEdge i (S i)]) (seq 0 (n - 1)).
Definition loss_build (lossy : bool) (n : nat) : list gop :=
  if lossy then [GLoss; GLossEdge (n - 1) n] else [].

Lemma ins_In (g : edges) a b i x :
  In x (if i =? a then sinsert b (g a) else g i) <-> In x (g i) \/ (i = a /\ x = b).
Proof.
  destruct (Nat.eqb_spec i a) as [->|Hne].
  - rewrite sinsert_In. intuition.
  - intuition.
Qed.
Lemma add_arc_in n g a b : a < n -> b < n ->
  add_arc n g a b = Ok (fun i => if i =? a then sinsert b (g a) else g i).
Proof.
  intros Ha Hb. unfold add_arc. destruct (Nat.ltb_spec a n); [|lia]. destruct (Nat.ltb_spec b n); [|lia].
  reflexivity.
Qed.

Theorem c36_built : forall (lossy : bool) n, 2 <= n ->
  exists s, gbuild (chain_build n ++ loss_build lossy n) = Ok s /\ chain_linked lossy n s.
Proof.
  intros lossy n Hn.
  assert (G : forall j, exists s, gbuild (GLayer :: flat_map (fun i => [GLayer; GEdge i (S i)]) (seq 0 j)) = Ok s /\
     chain_linked false (S j) s).
  { induction j as [|j (s & E & H1 & H2 & H3 & H4 & H5)].
    - eexists. split; [reflexivity|]. unfold chain_linked, add_node, graph_new. cbn.
      split; [auto|]. split; [auto|]. unfold no_edges. split; [|split]; intros a b; cbn; split; try tauto; lia.
    - rewrite seq_S, flat_map_app, app_comm_cons. unfold gbuild in *. rewrite foldM_app, E. cbn [bind flat_map app foldM plus gstep].
      unfold create_edge, add_backward, add_forward, add_node. cbn [nodes fgraph tgraph bgraph losses inputs outputs bind].
      rewrite !add_arc_in by lia. cbn [bind nodes fgraph tgraph bgraph losses inputs outputs].
      rewrite !add_arc_in by lia. cbn [bind].
      eexists. split; [reflexivity|]. unfold compute_roles, chain_linked. cbn [nodes fgraph tgraph bgraph losses].
      rewrite H1 in *. split; [reflexivity|]. split; [exact H2|].
      split; [|split]; intros a b; rewrite ins_In, ?H3, ?H4, ?H5; lia. }
  destruct (G (n - 1)) as (s & E & H1 & H2 & H3 & H4 & H5). replace (S (n - 1)) with n in * by lia.
  unfold gbuild, chain_build in *. rewrite foldM_app, E. cbn [bind].
  destruct lossy.
  - cbn [loss_build foldM gstep bind]. unfold create_loss_edge, add_backward, add_forward_loss, add_loss, add_node.
    cbn [nodes fgraph tgraph bgraph losses inputs outputs bind].
    rewrite add_arc_in by lia. cbn [bind nodes fgraph tgraph bgraph losses inputs outputs].
    rewrite add_arc_in by lia. cbn [bind].
    eexists. split; [reflexivity|]. unfold chain_linked. cbn [nodes fgraph tgraph bgraph losses].
    rewrite H1, H2 in *. split; [reflexivity|]. split; [cbn; f_equal; lia|]. split; [exact H3|].
    split; intros a b; rewrite ins_In, ?H4, ?H5; lia.
  - cbn [loss_build foldM]. exists s. split; [reflexivity|]. unfold chain_linked. auto.
Qed.
Print Assumptions c36_built.

(** *** Prediction *)
(** For any layer type: predict returns the composition of the layers' forward functions,
    exceptions included. *)
Theorem c36_predict_composition : forall (T S : Type) (op : nodeops T S) os lossy n (m : model S) x,
  gbuild os = Ok (mgraph m) -> 2 <= n -> chain_linked lossy n (mgraph m) ->
  length (mnodes m) = nodes (mgraph m) ->
  ('(_, y) <- m_predict op m x ;; Ok y)
  = foldM (fun v s => s' <- o_forward op s v ;; o_output op s') (map fst (firstn n (mnodes m))) x.
Proof.
  intros T S op os lossy n m x E Hn (H1 & H2 & H3 & H4 & H5) HL.
  pose proof (is_chain_built os _ lossy n E Hn H1 H2 H3 H4 H5) as HC.
  destruct (predict_chain op lossy n m x HC) as (s & p & rest & post & EM & Lr & EP); [lia|exact HL|].
  rewrite EP, EM. destruct n as [|k]; [lia|]. cbn [firstn].
  replace k with (length rest + 0) by lia. rewrite firstn_app_2. cbn [firstn]. rewrite app_nil_r.
  cbn [map fst foldM].
  assert (G : forall ss v, foldM (fun v s => s' <- o_forward op s v ;; o_output op s') ss v = compose op ss v).
  { induction ss as [|s0 ss IH]; intros v; [reflexivity|]. cbn [foldM compose].
    destruct (o_forward op s0 v) as [s'| |]; cbn [bind]; auto.
    destruct (o_output op s') as [y| |]; cbn [bind]; auto. }
  destruct (o_forward op s x) as [s'| |]; cbn [bind]; auto.
  transitivity (rest' <- chain_after op false 0 s' rest ;; o_output op (last (map fst rest') s')).
  - destruct (chain_after op false 0 s' rest) as [rest'| |]; cbn [bind]; auto.
    destruct (o_output op (last (map fst rest') s')); reflexivity.
  - rewrite chain_after_compose. destruct (o_output op s') as [y| |]; cbn [bind]; auto.
Qed.
Print Assumptions c36_predict_composition.

(** *** Histories *)
Section Histories.
Context {T : Type} `{NumOps T} `{TransOps T} `{LimOps T}.

Inductive mcall := CPredict (x : list T) | CStep (x t : list T) | CReset.
Definition m_call (draw : nat -> T) (m : model (node T)) (c : mcall) : res (model (node T)) :=
  match c with
  | CPredict x => '(m', _) <- m_predict (node_ops draw) m x ;; Ok m'
  | CStep x t => m_step (node_ops draw) m x t
  | CReset => m_reset_score m
  end.
Definition call_sized (n : nat) (c : mcall) : Prop :=
  match c with CPredict x => length x = n | CStep x _ => length x = n | CReset => True end.

(** A network: layers of matching sizes in a row, then the loss. *)
Record network (m : model (node T)) (ls : list (layer T)) (kd : losskind T) (lo : lossl T) (n k : nat) : Prop := {
  nw_graph : is_chain true (length ls) (mgraph m);
  nw_some : 1 <= length ls;
  nw_nodes : map fst (mnodes m) = map NL ls ++ [NO kd lo];
  nw_shape : nshape ls n k;
  nw_grad : length (ls_grad lo) = k
}.

Lemma network_length m ls kd lo n k : network m ls kd lo n k -> length (mnodes m) = nodes (mgraph m).
Proof.
  intros W. rewrite (ic_nodes _ _ _ (nw_graph _ _ _ _ _ _ W)).
  pose proof (nw_nodes _ _ _ _ _ _ W) as E. apply (f_equal (@length _)) in E.
  rewrite app_length, !map_length in E. cbn in E. lia.
Qed.

Lemma Forall2_len {A} (R : A -> A -> Prop) l l' : Forall2 R l l' -> length l' = length l.
Proof. induction 1; cbn; auto. Qed.

Lemma loss_forward_grad kd (lo : lossl T) x lo' r : loss_forward kd lo x = (lo', r) -> ls_grad lo' = ls_grad lo.
Proof.
  destruct kd as [|tol]; cbn; intros E.
  - unfold cce_forward in E. destruct (ls_target lo) as [|a tg] eqn:ET; [injection E as <- <-; reflexivity|].
    rewrite <- ET in E.
    destruct (cross_entropy (ls_target lo) x (length x)); try (injection E as <- <-; reflexivity).
    cbv zeta in E. destruct (max_and_argmax x (length x)) as [(mv, mi)| |]; try (injection E as <- <-; reflexivity).
    destruct (argactive _ _ _); injection E as <- <-; reflexivity.
  - unfold mse_forward in E. destruct (ls_target lo) as [|a tg] eqn:ET; [injection E as <- <-; reflexivity|].
    rewrite <- ET in E.
    destruct (mean_squared_error (ls_target lo) x (length x)); injection E as <- <-; reflexivity.
Qed.

Lemma for_length {A} (body : nat -> list A -> res (list A)) n : forall l l',
  (forall i l l', body i l = Ok l' -> length l' = length l) -> for_ n body l = Ok l' -> length l' = length l.
Proof.
  induction n as [|n IH]; intros l l' Hb E.
  - injection E as <-. reflexivity.
  - rewrite for_S in E. destruct (for_ n body l) as [l1| |] eqn:E1; try discriminate. cbn [bind] in E.
    rewrite (Hb _ _ _ E). now apply IH.
Qed.
Lemma wr_length {A} (l : list A) i x l' : wr l i x = Ok l' -> length l' = length l.
Proof. unfold wr. destruct (i <? length l); intros E; [|discriminate]. injection E as <-. apply upd_length. Qed.
Lemma map2_into_len f (o a b : list T) n o' : map2_into f o a b n = Ok o' -> length o' = length o.
Proof.
  apply for_length. intros i l l' E.
  destruct (rd a i); try discriminate. cbn [bind] in E.
  destruct (rd b i); try discriminate. cbn [bind] in E. now apply wr_length in E.
Qed.
Lemma loss_backward_len kd (lo : lossl T) x g : loss_backward kd lo x = Ok g -> length g = length (ls_grad lo).
Proof. destruct kd; cbn; apply map2_into_len. Qed.

Lemma network_call draw m ls kd lo n k c m' : network m ls kd lo n k -> call_sized n c ->
  m_call draw m c = Ok m' ->
  exists ls' lo', network m' ls' kd lo' n k /\ Forall2 same_params ls ls'.
Proof.
  intros W Hc E. destruct c as [x|x t|]; cbn [m_call call_sized] in *.
  - destruct (chain_forward_shape ls n k x (nw_shape _ _ _ _ _ _ W) Hc) as (ls' & y & EF & Ly & P & S').
    destruct (predict_network draw true (length ls) m ls [NO kd lo] x ls' y (nw_graph _ _ _ _ _ _ W)
      (nw_some _ _ _ _ _ _ W) (network_length _ _ _ _ _ _ W) (nw_nodes _ _ _ _ _ _ W) eq_refl EF)
      as (m1 & E1 & G1 & N1).
    rewrite E1 in E. cbn [bind] in E. injection E as <-.
    exists ls', lo. split; [|exact P]. pose proof (Forall2_len _ _ _ P) as LL.
    destruct W. constructor; rewrite ?G1, ?LL; auto.
  - rewrite (step_network draw (length ls) m ls kd lo x t (nw_graph _ _ _ _ _ _ W)
      (nw_some _ _ _ _ _ _ W) (nw_nodes _ _ _ _ _ _ W) eq_refl) in E.
    unfold net_step in E.
    destruct (chain_forward_shape ls n k x (nw_shape _ _ _ _ _ _ W) Hc) as (ls1 & y & EF & Ly & P & S').
    rewrite EF in E. cbn [bind] in E.
    destruct (loss_forward kd (set_target lo t) y) as (lo1, r) eqn:EL.
    destruct r as [[]| |]; try discriminate. cbn [bind] in E.
    destruct (loss_backward kd lo1 y) as [g| |] eqn:EG; try discriminate. cbn [bind] in E.
    assert (Lg : length g = k).
    { rewrite (loss_backward_len _ _ _ _ EG), (loss_forward_grad _ _ _ _ _ EL). cbn. apply W. }
    destruct (chain_backward_shape ls1 n k x g S' Hc Lg) as (ls2 & gx & EB & _ & P2 & S2).
    rewrite EB in E. cbn [bind] in E. injection E as <-.
    exists ls2, (set_grad lo1 g). pose proof (all_same_trans _ _ _ P P2) as P3.
    split; [|exact P3]. pose proof (Forall2_len _ _ _ P3) as LL.
    constructor; cbn [mgraph mnodes]; rewrite ?LL; try apply W; auto. apply place_fst.
  - unfold m_reset_score in E. rewrite (ic_losses _ _ _ (nw_graph _ _ _ _ _ _ W)) in E. cbn [foldM] in E.
    destruct (exists_last (l := mnodes m)) as (rest & (q, lp) & EN).
    { intros Hn. pose proof (nw_nodes _ _ _ _ _ _ W) as E0. rewrite Hn in E0. destruct ls; discriminate. }
    pose proof (nw_nodes _ _ _ _ _ _ W) as E0. rewrite EN, map_app in E0. cbn [map fst] in E0.
    apply app_inj_tail in E0. destruct E0 as (E1 & ->).
    assert (LL : length rest = length ls) by (apply (f_equal (@length _)) in E1; rewrite !map_length in E1; exact E1).
    rewrite EN in E. rewrite (rd_app_mid rest _ [] _ LL) in E. cbn [bind] in E.
    rewrite (wr_app_mid rest _ _ [] _ LL) in E. cbn [bind] in E. injection E as <-.
    exists ls, (reset_score lo). split; [|apply all_same_refl].
    destruct W. constructor; cbn [mgraph mnodes reset_score ls_grad]; auto.
    rewrite map_app, E1. reflexivity.
Qed.

Lemma network_calls draw cs : forall m ls kd lo n k m', network m ls kd lo n k -> Forall (call_sized n) cs ->
  foldM (m_call draw) cs m = Ok m' ->
  exists ls' lo', network m' ls' kd lo' n k /\ Forall2 same_params ls ls'.
Proof.
  induction cs as [|c cs IH]; intros m ls kd lo n k m' W HS E.
  - injection E as <-. exists ls, lo. split; [exact W|apply all_same_refl].
  - cbn [foldM] in E. destruct (m_call draw m c) as [m1| |] eqn:E1; try discriminate. cbn [bind] in E.
    assert (H1' : call_sized n c /\ Forall (call_sized n) cs) by (inversion HS; auto).
    destruct H1' as (A & B).
    destruct (network_call draw m ls kd lo n k c m1 W A E1) as (ls1 & lo1 & W1 & P1).
    destruct (IH m1 ls1 kd lo1 n k m' W1 B E) as (ls2 & lo2 & W2 & P2).
    exists ls2, lo2. split; [exact W2|]. eapply all_same_trans; eauto.
Qed.
End Histories.
Arguments mcall T : clear implicits.

(** Any number type: whatever was predicted, stepped or reset before, predict returns the
    value it would have returned at once, and the parameters are unchanged. *)
Theorem c36_predict_after_any_calls :
  forall T (NT : NumOps T) (TT : TransOps T) (LT : LimOps T) draw (m m' : model (node T)) ls kd lo n k cs x,
  network m ls kd lo n k -> Forall (call_sized n) cs -> foldM (m_call draw) cs m = Ok m' ->
  length x = n ->
  exists m1 m2 y ls' lo', m_predict (node_ops draw) m x = Ok (m1, y) /\
    m_predict (node_ops draw) m' x = Ok (m2, y) /\ length y = k /\
    network m' ls' kd lo' n k /\ Forall2 same_params ls ls'.
Proof.
  intros T NT TT LT draw m m' ls kd lo n k cs x W HS E Hx.
  destruct (network_calls draw cs m ls kd lo n k m' W HS E) as (ls' & lo' & W' & P).
  destruct (chain_forward_val ls n k x (nw_shape _ _ _ _ _ _ W) Hx) as (y & Ly & F).
  destruct (F ls (all_same_refl ls) (nw_shape _ _ _ _ _ _ W)) as (ls1 & E1 & _).
  destruct (F ls' P (nw_shape _ _ _ _ _ _ W')) as (ls2 & E2 & _).
  destruct (predict_network draw true (length ls) m ls [NO kd lo] x ls1 y (nw_graph _ _ _ _ _ _ W)
      (nw_some _ _ _ _ _ _ W) (network_length _ _ _ _ _ _ W) (nw_nodes _ _ _ _ _ _ W) eq_refl E1)
    as (m1 & G1 & _).
  destruct (predict_network draw true (length ls') m' ls' [NO kd lo'] x ls2 y (nw_graph _ _ _ _ _ _ W')
      (nw_some _ _ _ _ _ _ W') (network_length _ _ _ _ _ _ W') (nw_nodes _ _ _ _ _ _ W') eq_refl E2)
    as (m2 & G2 & _).
  exists m1, m2, y, ls', lo'. auto 10.
Qed.
Print Assumptions c36_predict_after_any_calls.

(** A training step is forward, loss, backward (the functions C22 and C33 are about). *)
Theorem c36_step : forall T (NT : NumOps T) (TT : TransOps T) (LT : LimOps T) draw (m : model (node T)) ls kd lo n k x t,
  network m ls kd lo n k ->
  m_step (node_ops draw) m x t =
  ('(ls1, y) <- chain_forward ls x ;;
   let '(lo1, r) := loss_forward kd (set_target lo t) y in
   _ <- r ;;
   g <- loss_backward kd lo1 y ;;
   '(ls2, _) <- chain_backward ls1 x g ;;
   Ok (mkModel (mgraph m) (place 0 (map NL ls2 ++ [NO kd (set_grad lo1 g)])))).
Proof.
  intros T NT TT LT draw m ls kd lo n k x t W.
  rewrite (step_network draw (length ls) m ls kd lo x t (nw_graph _ _ _ _ _ _ W)
      (nw_some _ _ _ _ _ _ W) (nw_nodes _ _ _ _ _ _ W) eq_refl).
  unfold net_step. destruct (chain_forward ls x) as [(ls1, y)| |]; cbn [bind]; auto.
  destruct (loss_forward kd (set_target lo t) y) as (lo1, [[]| |]); cbn [bind]; auto.
  destruct (loss_backward kd lo1 y) as [g| |]; cbn [bind]; auto.
  destruct (chain_backward ls1 x g) as [(ls2, gx)| |]; cbn [bind]; auto.
Qed.
Print Assumptions c36_step.

(** Over the reals: the value is the composition of affine maps and activations. *)
Theorem c36_predict_value : forall draw (m : model (node R)) ls kd lo n k x,
  network m ls kd lo n k -> length x = n ->
  exists m', m_predict (node_ops draw) m x = Ok (m', fold_left (fun v l => layer_sem l v) ls x).
Proof.
  intros draw m ls kd lo n k x W Hx.
  assert (G : forall ls n x, nshape ls n k -> length x = n ->
    exists ls', chain_forward ls x = Ok (ls', fold_left (fun v l => layer_sem l v) ls x)).
  { clear. induction ls as [|l ls IH]; intros n x HS Hx.
    - exists []. reflexivity.
    - destruct HS as (j & HL & HS). cbn [chain_forward fold_left].
      assert (EL : layer_forward l x = Ok (set_out l (layer_sem l x)) /\ length (layer_sem l x) = j).
      { destruct HL as (S1 & S2 & S3 & S4). unfold layer_forward, layer_sem.
        destruct (knd l) as [|a].
        - destruct S4 as (A1 & A2 & A3 & A4). rewrite dense_forward_sem by congruence.
          split; [reflexivity|]. unfold dense_sem. rewrite tab_length. exact S3.
        - destruct S4 as (A1 & A2). rewrite act_forward_sem; [|congruence|].
          + split; [reflexivity|]. rewrite act_sem_length. congruence.
          + destruct a; simpl; auto. rewrite Hx. auto. }
      destruct EL as (EL & LL). rewrite EL. cbn [bind set_out out].
      destruct (IH j (layer_sem l x) HS LL) as (ls' & E). rewrite E. cbn [bind]. eexists. reflexivity. }
  destruct (G ls n x (nw_shape _ _ _ _ _ _ W) Hx) as (ls' & E).
  destruct (predict_network draw true (length ls) m ls [NO kd lo] x ls' _ (nw_graph _ _ _ _ _ _ W)
      (nw_some _ _ _ _ _ _ W) (network_length _ _ _ _ _ _ W) (nw_nodes _ _ _ _ _ _ W) eq_refl E)
    as (m' & E' & _).
  exists m'. exact E'.
Qed.
Print Assumptions c36_predict_value.

(** A network of a dense layer with two inputs and three outputs, a rectifier and a squared
    loss, built as above. *)
#[local] Instance exTrans : TransOps Z := Build_TransOps Z (fun x => x) (fun x => x) (fun x => x) (fun x => x) (fun x _ => x).
#[local] Instance exLim : LimOps Z := Build_LimOps Z 0%Z 0%Z.
Definition ex_layers : list (layer Z) :=
  [mkLayer KDense 2 [1; 2; 3; 4; 5; 6]%Z [1; 0; -20]%Z [0; 0; 0; 0; 0; 0]%Z [0; 0; 0]%Z [0; 0; 0]%Z [0; 0]%Z;
   mkLayer (KAct Relu) 3 [] [] [] [] [0; 0; 0]%Z [0; 0; 0]%Z].
Definition ex_nodes : list (node Z * source) :=
  map (fun s => (s, SNull)) (map NL ex_layers ++ [NO (MSE 1%Z) (loss_new 3 1)]).

Lemma ex_network : exists m : model (node Z), gbuild (chain_build 2 ++ loss_build true 2) = Ok (mgraph m) /\
  chain_linked true 2 (mgraph m) /\ mnodes m = ex_nodes /\
  network m ex_layers (MSE 1%Z) (loss_new 3 1) 2 3.
Proof.
  destruct (c36_built true 2 (le_n 2)) as (s & E & C). exists (mkModel s ex_nodes). cbn [mgraph mnodes].
  split; [exact E|]. split; [exact C|]. split; [reflexivity|].
  destruct C as (H1 & H2 & H3 & H4 & H5). constructor; cbn [mgraph mnodes].
  - exact (is_chain_built _ _ true 2 E (le_n 2) H1 H2 H3 H4 H5).
  - cbn. lia.
  - reflexivity.
  - cbn [nshape ex_layers]. exists 3. split; [|exists 3; split; [|reflexivity]].
    + unfold lshape. cbn. auto 10.
    + unfold lshape. cbn. split; [auto|]. split; [auto|]. split; [auto|]. split; [auto|]. lia.
  - reflexivity.
Qed.

(** The hypotheses of the theorems hold for it, with a history of three calls. *)
Example c36_hypotheses_met :
  exists m m' m1 m2, network m ex_layers (MSE 1%Z) (loss_new 3 1) 2 3 /\
    foldM (m_call (fun _ => 0%Z)) [CPredict [1; 1]%Z; CStep [1; 2]%Z [6; 10; 0]%Z; CReset] m = Ok m' /\
    m_predict (node_ops (fun _ => 0%Z)) m [1; 2]%Z = Ok (m1, [6; 11; 0]%Z) /\
    m_predict (node_ops (fun _ => 0%Z)) m' [1; 2]%Z = Ok (m2, [6; 11; 0]%Z).
Proof.
  pose proof (built (chain_build 2 ++ loss_build true 2) (fun g =>
    let m := mkModel g ex_nodes in
    match foldM (m_call (fun _ => 0%Z)) [CPredict [1; 1]%Z; CStep [1; 2]%Z [6; 10; 0]%Z; CReset] m with
    | Ok m' =>
        match m_predict (node_ops (fun _ => 0%Z)) m [1; 2]%Z, m_predict (node_ops (fun _ => 0%Z)) m' [1; 2]%Z with
        | Ok (_, y), Ok (_, y') => y = [6; 11; 0]%Z /\ y' = [6; 11; 0]%Z
        | _, _ => False
        end
    | _ => False
    end)) as HB.
  destruct HB as (g & E & HB); [vm_compute; auto|].
  destruct ex_network as (m & Em & _ & Nm & W).
  assert (m = mkModel g ex_nodes) as -> by (destruct m as (g', ns); cbn in *; congruence).
  clear E Em Nm.
  cbv zeta in HB.
  destruct (foldM (m_call (fun _ : nat => 0%Z)) [CPredict [1; 1]%Z; CStep [1; 2]%Z [6; 10; 0]%Z; CReset]
    (mkModel g ex_nodes)) as [m'| |] eqn:E1; try contradiction.
  destruct (m_predict (node_ops (fun _ : nat => 0%Z)) (mkModel g ex_nodes) [1; 2]%Z) as [(m1, y)| |] eqn:E2; try contradiction.
  destruct (m_predict (node_ops (fun _ : nat => 0%Z)) m' [1; 2]%Z) as [(m2, y')| |] eqn:E3; try contradiction.
  destruct HB as (-> & ->).
  exists (mkModel g ex_nodes), m', m1, m2. auto.
Qed.
