(** C66: a network from its layer list to trained predictions. *)
From Coq Require Import Reals Lra.
From Verif Require Import Base Num RSum DatasetModel DatasetSpec DatasetProofs MathModel MathProofs LayerModel LossModel LossSpec PropLoss OptModel GraphModel GraphProofs ModelModel NodeModel
  BuilderModel ChainProofs ModelProofs PropModel TrainProofs RecurrentModel CopyModel FnnModel FitModel PropFit PropStep PropFnn PropBuilder InitModel PropInit PropTraining DynModel PropDyn.
Local Open Scope nat_scope.

Section Whole.
Context {T : Type} `{NumOps T} `{TransOps T} `{LimOps T}.
Context {E : Type}.
Variable start : Z -> E.
Variable next : E -> Z * E.
Variable normal : T -> T -> option T -> E -> (T * option T) * E.
Variable draw : nat -> T.
Variable left_predict : edge T -> dataset T -> edge T.
Variable left_fit : edge T -> optt -> dataset T -> fargs T -> edge T.
Notation net := (edge_net start next normal draw left_predict left_fit).

(** *** What a list of dense descriptors asks for *)
Definition act_of (a : actt) : act T :=
  match a with
  | AReLU => Relu | AELU => Elu n1 | ASoftmax => Softmax | ATanH => Tanh | ASigmoid => Sigmoid
  | ALinear | ANone => Linear
  end.
(** The layers for [n] inputs: per descriptor a dense layer with its units, all parameters 0,
    and its activation. *)
Fixpoint dense_stack (n : nat) (ds : list (desc T * actt)) : list (layer T) :=
  match ds with
  | (DDense u, a) :: r => dense_new n (ssize u) :: act_new (act_of a) (ssize u) :: dense_stack (ssize u) r
  | _ => []
  end.
(** The number of outputs. *)
Fixpoint last_units (n : nat) (ds : list (desc T * actt)) : nat :=
  match ds with (DDense u, _) :: r => last_units (ssize u) r | _ => n end.
(** Dense descriptors only; a softmax needs a unit. *)
Definition all_dense (ds : list (desc T * actt)) : Prop :=
  Forall (fun da => exists u, fst da = DDense u /\ (snd da = ASoftmax -> 0 < ssize u)) ds.

Lemma stack_length ds : all_dense ds -> forall n, length (dense_stack n ds) = 2 * length ds.
Proof.
  induction 1 as [|(d, a) ds (u & Eu & Hu) _ IH]; intros n; [reflexivity|]. cbn in Eu. subst d. cbn [dense_stack length]. rewrite IH. lia.
Qed.
Lemma stack_shape ds : all_dense ds -> forall n, nshape (dense_stack n ds) n (last_units n ds).
Proof.
  induction 1 as [|(d, a) ds (u & Eu & Hu) _ IH]; intros n; [reflexivity|]. cbn in Eu, Hu. subst d. cbn [dense_stack last_units nshape].
  exists (ssize u). split.
  - unfold lshape, dense_new. cbn. rewrite !repeat_length. auto 10.
  - exists (ssize u). split; [|apply IH]. unfold lshape, act_new. cbn. rewrite !repeat_length. repeat split; auto.
    intros EA. apply Hu. destruct a; cbn in EA; congruence.
Qed.
Lemma stack_fresh ds : all_dense ds -> forall n, Forall fresh (dense_stack n ds).
Proof.
  induction 1 as [|(d, a) ds (u & Eu & Hu) _ IH]; intros n; [constructor|]. cbn in Eu. subst d. cbn [dense_stack].
  constructor; [|constructor; [|apply IH]].
  - unfold fresh, dense_new. cbn. rewrite !repeat_length. auto.
  - unfold fresh, act_new. cbn. auto.
Qed.

(** *** Building *)
Lemma objects_app a : forall b oa ob, objects_of (T := T) a = Some oa -> objects_of b = Some ob -> objects_of (a ++ b) = Some (oa ++ ob).
Proof.
  induction a as [|x a IH]; intros b oa ob Ea Eb; cbn [objects_of app] in *; [injection Ea as <-; exact Eb|].
  destruct (object_of CCE 1 x) as [s|]; [|discriminate]. destruct (objects_of a) as [ss|] eqn:EE; [|discriminate]. injection Ea as <-.
  rewrite (IH b ss ob eq_refl Eb). reflexivity.
Qed.
Definition dress (s : node T) : node T * source := (s, SNull).

Lemma add_dense (f : fnn T) u a (f' : fnn T) : fnn_add_layer f (DDense u) a = Ok f' ->
  f_layers f' = f_layers f ++ [mkB BDense (flat (ssize (f_shape f))) (flat (ssize u)); new_activation a (flat (ssize u))] /\
  f_shape f' = flat (ssize u) /\ f_first f' = false.
Proof.
  unfold fnn_add_layer. intros E1. destruct (f_shape f) as ((h, w), c) eqn:ES. cbn [new_layer bind b_out] in E1.
  match type of E1 with bind ?t _ = _ => destruct t as [g1| |]; try discriminate end. cbn [bind] in E1.
  destruct (create_edge _ _ _) as [g2| |]; try discriminate. cbn [bind] in E1. injection E1 as <-. cbn. auto.
Qed.
Lemma add_object (f : fnn T) u a :
  objects_of [mkB BDense (flat (ssize (f_shape f))) (flat (ssize u)); new_activation a (flat (ssize u))]
  = Some (map NL [dense_new (ssize (f_shape f)) (ssize u); act_new (act_of a) (ssize u)]).
Proof.
  unfold objects_of, object_of, new_activation. cbn [b_kind b_in b_out]. rewrite !PropBuilder.ssize_flat. destruct a; reflexivity.
Qed.

Lemma add_stack ds : all_dense ds -> forall (e : edge T) f' os, f_first (e_fnn e) = false ->
  foldM fnn_add ds (e_fnn e) = Ok f' -> objects_of (f_layers (e_fnn e)) = Some os -> e_nodes e = map dress os ->
  let os' := os ++ map NL (dense_stack (ssize (f_shape (e_fnn e))) ds) in
  objects_of (f_layers f') = Some os' /\
  add_all net e ds = (mkEdge (e_loss e) (e_init e) f' (map dress os'), RVal tt).
Proof.
  induction 1 as [|(d, a) ds (u & Eu & Hu) _ IH]; intros [lo ii f ns] f' os EF EB EO EN; cbn [e_fnn e_nodes e_loss e_init] in *.
  - cbn in EB. injection EB as <-. cbn [dense_stack map]. rewrite app_nil_r. cbn [add_all]. split; [exact EO|]. now rewrite EN.
  - cbn in Eu. subst d. cbn [foldM] in EB. unfold fnn_add at 1 in EB. rewrite EF in EB.
    destruct (fnn_add_layer f (DDense u) a) as [f1| |] eqn:E1; try discriminate. cbn [bind] in EB.
    destruct (add_dense f u a f1 E1) as (L1 & S1 & F1). pose proof (add_object f u a) as AO.
    assert (EO1 : objects_of (f_layers f1) = Some (os ++ map NL [dense_new (ssize (f_shape f)) (ssize u); act_new (act_of a) (ssize u)])).
    { rewrite L1. apply objects_app; [exact EO|exact AO]. }
    assert (EA : e_add (mkEdge lo ii f ns) (DDense u, a) =
      (mkEdge lo ii f1 (map dress (os ++ map NL [dense_new (ssize (f_shape f)) (ssize u); act_new (act_of a) (ssize u)])), RVal tt)).
    { unfold e_add. cbn [e_fnn e_nodes e_loss e_init]. unfold fnn_add. rewrite EF, E1, L1.
      rewrite skipn_app, skipn_all, Nat.sub_diag. cbn [skipn app]. rewrite AO. now rewrite EN, map_app. }
    destruct (IH (mkEdge lo ii f1 (map dress (os ++ map NL [dense_new (ssize (f_shape f)) (ssize u); act_new (act_of a) (ssize u)]))) f'
      (os ++ map NL [dense_new (ssize (f_shape f)) (ssize u); act_new (act_of a) (ssize u)]) F1 EB EO1 eq_refl) as (A & B).
    cbn [e_fnn] in A, B. rewrite S1, PropBuilder.ssize_flat in A, B.
    replace ((os ++ map NL [dense_new (ssize (f_shape f)) (ssize u); act_new (act_of a) (ssize u)]) ++ map NL (dense_stack (ssize u) ds))
      with (os ++ map NL (dense_stack (ssize (f_shape f)) ((DDense u, a) :: ds))) in A, B
      by (rewrite <- app_assoc; reflexivity).
    split; [exact A|]. cbn [add_all s_add edge_net]. rewrite EA. exact B.
Qed.

(** The network made of an Input descriptor and dense descriptors: the layers asked for in a
    row, all parameters 0, no loss layer yet. *)
Theorem c66_built : forall l i s a0 ds,
  all_dense ds -> ds <> [] ->
  exists e, construct net l i ((DInput s, a0) :: ds) = RVal e /\
    fnn_build ((DInput s, a0) :: ds) = Ok (e_fnn e) /\ e_loss e = l /\ e_init e = i /\
    PropTraining.plain (e_model e) (dense_stack (ssize s) ds) (ssize s) (last_units (ssize s) ds) /\
    e_input_size e = ssize s /\ m_output_size (e_model e) = last_units (ssize s) ds.
Proof.
  intros l i s a0 ds HD HN.
  assert (HB : exists f, fnn_build ((DInput s, a0) :: ds) = Ok f).
  { apply c42_builds. cbn [body]. intros d a I. pose proof (proj1 (Forall_forall _ _) HD (d, a) I) as (u & Eu & _).
    cbn in Eu. subst d. split; [discriminate|exact Coq.Init.Logic.I]. }
  destruct HB as (f & EB).
  pose proof EB as EB'. unfold fnn_build in EB'. cbn [foldM fnn_add fnn_new f_first bind] in EB'.
  destruct (add_stack ds HD (mkEdge l i (mkFnn graph_new [] s false) []) f [] eq_refl EB' eq_refl eq_refl) as (A & B).
  cbn [e_fnn f_shape e_loss e_init app] in A, B.
  set (ls := dense_stack (ssize s) ds) in *.
  exists (mkEdge l i f (map dress (map NL ls))).
  assert (LS : length ls = 2 * length ds) by (apply stack_length; exact HD).
  assert (LN : 1 <= length ds) by (destruct ds; [congruence|cbn; lia]).
  destruct (c42_chain _ _ EB) as (LF & G & _). cbn [body PropBuilder.start] in LF, G. destruct (G LN) as (GB & N1 & N2 & N3 & N4 & N5).
  pose proof (is_chain_built _ _ false (2 * length ds) GB ltac:(lia) N1 N2 N3 N4 N5) as C.
  assert (P : PropTraining.plain (mkModel (f_graph f) (map dress (map NL ls))) ls (ssize s) (last_units (ssize s) ds)).
  { split; [cbn [mgraph]; rewrite LS; exact C|]. split; [lia|]. split; [|apply stack_shape; exact HD].
    cbn [mnodes]. rewrite map_map. apply map_id. }
  split. { unfold construct. cbn [s_new s_add edge_net add_all]. unfold e_add at 1. cbn [e_new e_fnn fnn_add fnn_new f_first f_layers length skipn objects_of map app e_nodes e_loss e_init f_graph].
    change (add_all _ (mkEdge l i (mkFnn graph_new [] s false) []) ds) with (add_all net (mkEdge l i (mkFnn graph_new [] s false) []) ds).
    rewrite B. reflexivity. }
  split; [exact EB|]. split; [reflexivity|]. split; [reflexivity|]. split; [exact P|].
  destruct LF as (LL & _ & _ & _ & FI).
  split.
  - unfold e_input_size. cbn [e_fnn]. rewrite (ic_in _ _ _ C).
    destruct (nth_error (f_layers f) 0) as [b|] eqn:E0; [|apply nth_error_None in E0; lia].
    destruct (2 * length ds) as [|q] eqn:EQ; [lia|]. rewrite ?E0. exact (proj1 (FI b eq_refl)).
  - unfold m_output_size, e_model. cbn [e_fnn e_nodes mgraph mnodes]. rewrite (ic_out _ _ _ C).
    rewrite !nth_error_map. destruct (nth_error ls (2 * length ds - 1)) as [l1|] eqn:E1; [|apply nth_error_None in E1; lia].
    cbn [option_map dress n_output_size].
    destruct P as (_ & _ & _ & HS).
    destruct (exists_last (l := ls)) as (pre & l2 & Els). { intros X. rewrite X in LS. cbn in LS. lia. }
    rewrite Els in HS, E1. rewrite Els, app_length in LS. cbn [length] in LS. rewrite nth_error_app2 in E1 by lia.
    replace (2 * length ds - 1 - length pre) with 0 in E1 by lia. injection E1 as <-. eapply PropTraining.nshape_last; eauto.
Qed.
End Whole.
Print Assumptions c66_built.

Section Trained.
Local Open Scope R_scope.
Context {E : Type}.
Variable start : Z -> E.
Variable next : E -> Z * E.
Variable normal : R -> R -> option R -> E -> (R * option R) * E.
Variable draw : nat -> R.
Variable left_predict : edge R -> dataset R -> edge R.
Variable left_fit : edge R -> optt -> dataset R -> fargs R -> edge R.
Notation net := (edge_net start next normal draw left_predict left_fit).

(** No ReLU: differentiable everywhere. *)
Definition all_smooth (ds : list (desc R * actt)) : Prop := Forall (fun da => snd da <> AReLU) ds.
Lemma stack_smooth ds : all_dense ds -> all_smooth ds -> forall n, Forall smooth_kind (dense_stack n ds).
Proof.
  induction 1 as [|(d, a) ds (u & Eu & Hu) _ IH]; intros HS n; [constructor|]. cbn in Eu. subst d. inversion HS as [|? ? S1 S2]; subst.
  cbn [dense_stack]. constructor; [exact I|]. constructor; [|now apply IH].
  cbn in S1. unfold smooth_kind, act_new. cbn [knd]. destruct a; cbn; auto; congruence.
Qed.
(** Data of [n] inputs and [k] labels per row, in any columns. *)
Definition rows_fit (d : dataset R) (n k : nat) (rows : row_list) : Prop :=
  rows_of d rows /\ Forall (fun xt => length (fst xt) = n /\ length (snd xt) = k) rows.

Lemma rows_fit_sized d n k rows : rows_fit d n k rows -> rows_sized d n k.
Proof.
  intros ((L & HR) & HZ) i Hi. destruct (nth_error rows i) as [(x, t)|] eqn:E1; [|apply nth_error_None in E1; lia].
  destruct (HR i x t E1) as (A & B). pose proof (proj1 (Forall_forall _ _) HZ (x, t) (nth_error_In _ _ E1)) as (C & D). cbn in C, D.
  exists x, t. auto.
Qed.

(** From the layer list to predictions and evaluation, for the mean squared error and gradient
    descent: whatever was called before, compile and fit succeed; the network is then the one
    reached from freshly initialised layers (of the sizes and kinds asked for) by gradient
    descent over the rows in batches; predict returns the value of its layers for every row,
    and evaluate the average loss, the accuracy and the error rate of those values. *)
Theorem c66_end_to_end : forall s a0 ds before mi (d : dataset R) rows (p : fargs R),
  all_dense ds -> all_smooth ds -> ds <> [] ->
  let n := ssize s in let k := last_units n ds in
  (0 < k)%nat -> (0 < n)%nat -> rows_fit d n k rows -> (1 <= fa_batch p)%nat -> (ds_size d <= fa_fuel p)%nat ->
  exists bl m0 ls0 lo0 m' ls' lo' d',
    batches_of (ds_size d) (fa_batch p) bl /\
    network m0 ls0 (MSE (1 / 10)) lo0 n k /\
    all_initialised next normal mi Normal (start (if Z.eq_dec (fa_seed p) 0 then fa_device p else fa_seed p)) (dense_stack n ds) ls0 /\
    gd_run draw (MSE (1 / 10)) (INR k * (1 / INR (fa_batch p))) (fa_eta p) (map (pick rows) (concat (repeat bl (fa_epochs p)))) m0 m' /\
    network m' ls' (MSE (1 / 10)) lo' n k /\
    (exists os, drun net (dnew ((DInput s, a0) :: ds)) (before ++ [Compile LtMSE OGd mi; Fit d p]) = (d', os ++ [OUnit; OUnit])) /\
    (forall x, wf x -> fsize x = n -> exists d'' r, dstep net d' (Predict x) = (d'', OPredict r) /\ ds_size r = ds_size x /\
       forall i, (i < ds_size x)%nat -> exists xi, ds_entry x i = Ok xi /\ ds_entry r i = Ok (net_value ls' xi)) /\
    (forall x, wf x -> length (input_i x) = n -> length (labels_i x) = k -> (0 < ds_size x)%nat ->
       exists d'' h r, dstep net d' (Evaluate x) = (d'', OEvaluate r) /\
       length h = ds_size x /\
       (forall i, (i < ds_size x)%nat -> exists xi t, ds_input 0 x i = Ok xi /\ ds_label 0 x i = Ok t /\ nth i h ([], []) = (t, net_value ls' xi)) /\
       figures_are mse_value (mse_hit (1 / 10)) r h).
Proof.
  intros s a0 ds before mi d rows p HD HSm HN n k Hk Hn HR Hb Hf.
  destruct (c66_built start next normal draw left_predict left_fit LtMSE mi s a0 ds HD HN) as (e & EC & EB & EL & EI & PL & _ & _).
  fold n in PL. fold k in PL.
  pose proof (stack_fresh ds HD n) as FR. pose proof (stack_smooth ds HD HSm n) as SM.
  set (ls := dense_stack n ds) in *.
  destruct (c60_fit_mean_squared_error E start next normal draw (1 / 10) mi (fa_eta p) d rows (fa_fuel p) (fa_epochs p) (fa_batch p)
     (fa_seed p) (fa_device p) (e_model e) ls n k PL FR SM Hk (proj1 HR) (proj2 HR) Hb Hf)
     as (bl & m0 & ls0 & lo0 & m' & B & W0 & AI & EF & GD).
  destruct (fit_rested start next normal draw (MSE (1 / 10)) mi (fa_eta p) d (fa_fuel p) (fa_epochs p) (fa_batch p)
     (fa_seed p) (fa_device p) (e_model e) m' ls n k (or_introl PL) FR (rows_fit_sized d n k rows HR) EF)
     as (ls' & lo' & W' & _).
  destruct (c42_loss _ _ EB ltac:(cbn [body]; destruct ds; [congruence|cbn; lia])) as (f' & last & EAL & _).
  set (e' := e_with e (f_layers f') m').
  assert (EFit : e_fit start next normal draw left_fit e OGd d p = (e', RVal tt)).
  { unfold e_fit. rewrite EL, EI, EAL. change (loss_of LtMSE) with (@MSE R (1 / 10)).
    change (fnn_fit_with start next normal draw OGd) with (fnn_fit start next normal draw). rewrite EF. reflexivity. }
  exists bl, m0, ls0, lo0, m', ls', lo', (mkDnet (Some e') ((DInput s, a0) :: ds) OGd LtMSE).
  split; [exact B|]. split; [exact W0|]. split; [exact AI|]. split; [exact GD|]. split; [exact W'|].
  assert (EM : e_model e' = m') by (destruct m'; reflexivity).
  split; [|split].
  - rewrite drun_app. set (db := drun net (dnew ((DInput s, a0) :: ds)) before).
    exists (snd db). assert (X : drun net (fst db) [Compile LtMSE OGd mi; Fit d p] =
      (mkDnet (Some e') ((DInput s, a0) :: ds) OGd LtMSE, [OUnit; OUnit])).
    { cbn [drun]. cbn [dstep]. unfold d_compile. unfold db. rewrite drun_layers. cbn [dnew d_layers].
      unfold construct in EC. destruct (add_all net (s_new net LtMSE mi) ((DInput s, a0) :: ds)) as (e1, [[]| |]) eqn:EA; try discriminate.
      injection EC as ->. rewrite ?EA. cbn [ends nothing d_model d_opt s_fit edge_net]. rewrite EFit. reflexivity. }
    rewrite X. reflexivity.
  - intros x Wx Fx. destruct (c41_predict draw m' ls' [NO (MSE (1 / 10)) lo'] n k x (network_stack _ _ _ _ _ _ W') Hk Wx (fun _ => Fx))
      as (m2 & ls2 & r & EP & Wr & SR & RW & _).
    cbn [dstep]. unfold compiled. cbn [d_model s_predict edge_net]. unfold e_predict. rewrite EM, EP. cbn [ends].
    do 2 eexists. split; [reflexivity|]. split; [exact SR|]. intros i Hi. destruct (RW i Hi) as (xi & y & m3 & X1 & X2 & X3 & Ly).
    exists xi. split; [exact X1|]. rewrite X3. f_equal.
    assert (Lx : length xi = n).
    { unfold ds_size in Hi. pose proof (wf_data x Wx) as L. unfold ds_entry, range_copy in X1.
      destruct (Nat.leb_spec (famount x) i); [lia|].
      destruct (_ && _) eqn:EB2 in X1; [|discriminate]. cbn [require bind] in X1. injection X1 as <-.
      apply andb_true_iff in EB2. destruct EB2 as (_ & EB2). apply Nat.leb_le in EB2.
      rewrite firstn_length, skipn_length. lia. }
    destruct (predict_net draw m' ls' (MSE (1 / 10)) lo' n k xi W' Lx) as (m4 & E4). rewrite E4 in X2. now injection X2.
  - intros x Wx Li Ll Hs. destruct (c41_evaluate_mean_squared draw (1 / 10) m' ls' [NO (MSE (1 / 10)) lo'] n k x (network_stack _ _ _ _ _ _ W') Hk Hn Wx Li Ll)
      as (m2 & c & h & EE & LH & RW & ST & _).
    cbn [dstep d_model d_loss s_evaluate edge_net]. unfold e_evaluate. rewrite EM. change (loss_of LtMSE) with (@MSE R (1 / 10)). rewrite EE. cbn [ends].
    eexists. exists h. eexists. split; [reflexivity|]. split; [exact LH|]. split; [|exact (c41_evaluation_figures _ _ _ _ ST)].
    intros i Hi. destruct (RW i Hi) as (xi & t & y & m3 & X1 & X2 & X3 & X4). exists xi, t. split; [exact X1|]. split; [exact X2|]. rewrite X4. f_equal.
    assert (Lx : length xi = n).
    { rewrite input_ok in X1 by exact Wx. unfold ds_size in Hi. destruct (Nat.ltb_spec i (famount x)); [|lia]. injection X1 as <-. unfold DatasetProofs.view. now rewrite map_length. }
    destruct (predict_net draw m' ls' (MSE (1 / 10)) lo' n k xi W' Lx) as (m4 & E4). rewrite E4 in X3. now injection X3.
Qed.
End Trained.
Print Assumptions c66_end_to_end.

(** Two inputs, three hyperbolic tangents, one linear output; two rows. *)
Definition ex66 : list (desc R * actt) := [(DDense (3, 1, 1), ATanH); (DDense (1, 1, 1), ALinear)].
Definition ex66_data : dataset R := ds_vec 0%R [1; 2; 3; 4; 5; 6]%R 3 1 [2].
Example c66_hypotheses_met : all_dense ex66 /\ all_smooth ex66 /\ ex66 <> [] /\
  last_units (ssize (2, 1, 1)) ex66 = 1 /\ ssize (2, 1, 1) = 2 /\ rows_fit ex66_data 2 1 [([1; 2], [3]); ([4; 5], [6])]%R /\
  ds_size ex66_data = 2 /\ wf ex66_data /\ length (input_i ex66_data) = 2 /\ length (labels_i ex66_data) = 1 /\
  wf (ds_vec 0%R [7; 8]%R 2 1 []) /\ fsize (ds_vec 0%R [7; 8]%R 2 1 []) = 2.
Proof.
  split; [repeat constructor; cbn; eexists; (split; [reflexivity|]); cbn; lia|].
  split; [repeat constructor; cbn; discriminate|]. split; [discriminate|]. split; [reflexivity|]. split; [reflexivity|].
  split. { split; [|repeat constructor]. split; [reflexivity|]. intros i x t Hi. destruct i as [|[|i]]; [| |destruct i; discriminate];
    injection Hi as <- <-; split; reflexivity. }
  split; [reflexivity|]. split; [apply ds_vec_wf; repeat constructor|]. split; [reflexivity|]. split; [reflexivity|].
  split; [apply ds_vec_wf; repeat constructor|reflexivity].
Qed.
