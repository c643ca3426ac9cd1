(** C74: a convolutional network from its layer list to trained predictions. *)
From Coq Require Import Reals Lra.
From Verif Require Import Base Num RSum DatasetModel DatasetSpec DatasetProofs MathModel MathProofs ConvModel ConvSpec ConvProofs
  LayerModel LossModel LossSpec LossProofs PropLoss OptModel GraphModel GraphProofs ModelModel NodeModel BuilderModel ChainProofs ModelProofs PropModel TrainProofs
  RecurrentModel CopyModel FnnModel FitModel PropFit PropStep PropFnn PropBuilder InitModel PropInit PropTraining DynModel PropDyn PropWhole
  CnnModel CnnSpec CnnProofs PropCnn PropCnnTrain CnnNetModel CnnNetProofs.
Local Open Scope nat_scope.

(** *** What a list of descriptors asks for *)
(** The descriptor has a layer for images of shape [s]: every window fits. *)
Definition fits (d : desc R) (s : shape) : Prop :=
  let '(h, w, _) := s in
  match d with
  | DDense _ => True
  | DConv _ k st p =>
      0 < h /\ 0 < w /\ 1 <= fst k <= h + 2 * fst p /\ 1 <= snd k <= w + 2 * snd p /\ 1 <= fst st /\ 1 <= snd st /\
      (Z.of_nat (h + 2 * fst p) < 2 ^ 64)%Z /\ (Z.of_nat (w + 2 * snd p) < 2 ^ 64)%Z
  | DMaxPool k st | DAvgPool k st =>
      0 < h /\ 0 < w /\ 1 <= fst k <= h /\ 1 <= snd k <= w /\ 1 <= fst st /\ 1 <= snd st /\
      (Z.of_nat h < 2 ^ 64)%Z /\ (Z.of_nat w < 2 ^ 64)%Z
  | _ => False
  end.
(** Shape of its output. *)
Definition out_shape (d : desc R) (s : shape) : shape :=
  let '(h, w, c) := s in
  match d with
  | DDense u => flat (ssize u)
  | DConv f k st p => (side h (fst k) (fst st) (fst p), side w (snd k) (snd st) (snd p), f)
  | DMaxPool k st | DAvgPool k st => (side h (fst k) (fst st) 0, side w (snd k) (snd st) 0, c)
  | _ => s
  end.
Definition zeros (n : nat) : list R := repeat 0%R n.
(** The layer, all parameters and buffers 0. *)
Definition first_of (d : desc R) (s : shape) : cnode R :=
  let '(h, w, c) := s in
  let o := out_shape d s in
  match d with
  | DConv f k st p =>
      let z := zeros (fst k * snd k * c * f) in
      CV (mkConv h w c (fst k) (snd k) f (fst st) (snd st) (fst p) (snd p) (fst (fst o)) (snd (fst o))
            z (zeros f) z (zeros f) (zeros (ssize o)) (zeros (ssize s)))
  | DMaxPool k st => CP (mkPool true h w c (fst k) (snd k) (fst st) (snd st) (zeros (ssize o)) (zeros (ssize s)))
  | DAvgPool k st => CP (mkPool false h w c (fst k) (snd k) (fst st) (snd st) (zeros (ssize o)) (zeros (ssize s)))
  | _ => CL (dense_new (ssize s) (ssize o))
  end.
(** Per descriptor its layer and its activation. *)
Fixpoint conv_stack (s : shape) (ds : list (desc R * actt)) : list (cnode R) :=
  match ds with
  | [] => []
  | (d, a) :: r => first_of d s :: CL (act_new (act_of a) (ssize (out_shape d s))) :: conv_stack (out_shape d s) r
  end.
Fixpoint last_shape (s : shape) (ds : list (desc R * actt)) : shape :=
  match ds with [] => s | (d, _) :: r => last_shape (out_shape d s) r end.
(** Every descriptor fits behind the ones before it; a softmax needs a value. *)
Fixpoint all_fit (s : shape) (ds : list (desc R * actt)) : Prop :=
  match ds with
  | [] => True
  | (d, a) :: r => fits d s /\ (a = ASoftmax -> 0 < ssize (out_shape d s)) /\ all_fit (out_shape d s) r
  end.
(** Convolutions and dense layers, no ReLU: differentiable everywhere. *)
Definition all_smooth (ds : list (desc R * actt)) : Prop :=
  Forall (fun da => match fst da with DMaxPool _ _ | DAvgPool _ _ => False | _ => True end /\ snd da <> AReLU) ds.

Lemma side_output n k st p : 0 < n -> 1 <= k <= n + 2 * p -> 1 <= st -> (Z.of_nat (n + 2 * p) < 2 ^ 64)%Z ->
  conv_output_side n k st p = Ok (side n k st p).
Proof. intros. rewrite conv_output_side_eq by lia. now rewrite slide_side_eq. Qed.

Lemma first_shape d s : fits d s -> cnode_shape (first_of d s) (ssize s) (ssize (out_shape d s)).
Proof.
  destruct s as ((h, w), c). destruct d as [i|u|f k st p|k st|k st|q]; cbn [fits first_of out_shape cnode_shape]; intros F; try contradiction.
  - unfold lshape, dense_new. cbn. rewrite !repeat_length. auto 10.
  - destruct F as (F1 & F2 & F3 & F4 & F5 & F6 & F7 & F8). unfold conv_shape.
    cbn [cv_H cv_W cv_C cv_kh cv_kw cv_nf cv_sh cv_sw cv_ph cv_pw cv_oh cv_ow cv_w cv_b cv_wg cv_bg cv_out cv_ig fst snd].
    unfold zeros. rewrite !repeat_length. cbn [ssize]. auto 20.
  - destruct F as (F1 & F2 & F3 & F4 & F5 & F6 & F7 & F8). unfold pool_shape.
    cbn [pl_H pl_W pl_C pl_kh pl_kw pl_sh pl_sw pl_out pl_ig]. unfold zeros. rewrite !repeat_length. unfold pl_oh, pl_ow. cbn. auto 20.
  - destruct F as (F1 & F2 & F3 & F4 & F5 & F6 & F7 & F8). unfold pool_shape.
    cbn [pl_H pl_W pl_C pl_kh pl_kw pl_sh pl_sw pl_out pl_ig]. unfold zeros. rewrite !repeat_length. unfold pl_oh, pl_ow. cbn. auto 20.
Qed.
Lemma stack_cshape : forall ds s, all_fit s ds -> cshape (conv_stack s ds) (ssize s) (ssize (last_shape s ds)).
Proof.
  induction ds as [|(d, a) ds IH]; intros s HF; [reflexivity|]. destruct HF as (F & HS & HF). cbn [conv_stack last_shape cshape].
  exists (ssize (out_shape d s)). split; [now apply first_shape|]. exists (ssize (out_shape d s)). split; [|now apply IH].
  cbn [cnode_shape]. unfold lshape, act_new. cbn. rewrite !repeat_length. repeat split; auto.
  intros EA. apply HS. destruct a; cbn in EA; congruence.
Qed.
Lemma stack_cleared : forall ds s, Forall ccleared (conv_stack s ds).
Proof.
  induction ds as [|(d, a) ds IH]; intros s; [constructor|]. cbn [conv_stack]. constructor; [|constructor; [|apply IH]].
  - destruct s as ((h, w), c). unfold ccleared. destruct d; cbn; intros; try contradiction; (split; [|exact I || idtac]); intros; apply nth_repeat.
  - unfold ccleared. cbn. discriminate.
Qed.
Lemma stack_smooth : forall ds s, all_smooth ds -> Forall csmooth_kind (conv_stack s ds).
Proof.
  induction ds as [|(d, a) ds IH]; intros s HS; [constructor|]. inversion HS as [|? ? (S1 & S2) S3]; subst. cbn [fst snd] in *.
  cbn [conv_stack]. constructor; [|constructor; [|now apply IH]].
  - destruct s as ((h, w), c). destruct d; cbn in *; auto; contradiction.
  - unfold act_new, csmooth_kind, smooth_kind. cbn [knd]. destruct a; cbn; auto; congruence.
Qed.
Lemma stack_len ds : forall s, length (conv_stack s ds) = 2 * length ds.
Proof. induction ds as [|(d, a) ds IH]; intros s; [reflexivity|]. cbn [conv_stack length]. rewrite IH. lia. Qed.

Section Net.
Context {E : Type}.
Variable start : Z -> E.
Variable next : E -> Z * E.
Variable normal : R -> R -> option R -> E -> (R * option R) * E.
Variable left_predict : cedge R -> dataset R -> cedge R.
Variable left_fit : cedge R -> optt -> dataset R -> fargs R -> cedge R.
Notation net := (cnn_net start next normal left_predict left_fit).

(** *** Building *)
Lemma cobjects_app a : forall b oa ob, cobjects_of (T := R) a = Some oa -> cobjects_of b = Some ob -> cobjects_of (a ++ b) = Some (oa ++ ob).
Proof.
  induction a as [|x a IH]; intros b oa ob Ea Eb; cbn [cobjects_of app] in *; [injection Ea as <-; exact Eb|].
  destruct (cobject_of x) as [s|]; [|discriminate]. destruct (cobjects_of a) as [ss|] eqn:EE; [|discriminate]. injection Ea as <-.
  rewrite (IH b ss ob eq_refl Eb). reflexivity.
Qed.
Definition cdress (s : cnode R) : cnode R * source := (s, SNull).

Lemma cadd_layer (f : fnn R) d a (f' : fnn R) : fits d (f_shape f) -> fnn_add_layer f d a = Ok f' ->
  exists b, f_layers f' = f_layers f ++ [b; new_activation a (out_shape d (f_shape f))] /\
    f_shape f' = out_shape d (f_shape f) /\ f_first f' = false /\ cobject_of b = Some (first_of d (f_shape f)).
Proof.
  intros F E1. unfold fnn_add_layer in E1. destruct (f_shape f) as ((h, w), c) eqn:ES.
  assert (NL : exists b, new_layer d (h, w, c) = Ok b /\ b_out b = out_shape d (h, w, c) /\ cobject_of b = Some (first_of d (h, w, c))).
  { destruct d as [i|u|fl k st p|k st|k st|q]; cbn [fits new_layer out_shape] in *; try contradiction.
    - eexists. split; [reflexivity|]. split; [reflexivity|]. unfold cobject_of. cbn [b_kind b_in b_out first_of out_shape].
      unfold flat. cbn [ssize]. rewrite !Nat.mul_1_r. reflexivity.
    - destruct F as (F1 & F2 & F3 & F4 & F5 & F6 & F7 & F8). rewrite !side_output by auto. cbn [bind].
      eexists. split; [reflexivity|]. split; [reflexivity|]. unfold cobject_of. cbn [b_kind b_in b_out first_of out_shape].
      unfold conv_new. rewrite !side_output by auto. reflexivity.
    - destruct F as (F1 & F2 & F3 & F4 & F5 & F6 & F7 & F8). unfold pool_output_side. rewrite !side_output by (rewrite ?Nat.mul_0_r, ?Nat.add_0_r; auto). cbn [bind].
      eexists. split; [reflexivity|]. split; [reflexivity|]. unfold cobject_of. cbn [b_kind b_in b_out first_of out_shape].
      unfold pool_new, pool_output_side. rewrite !side_output by (rewrite ?Nat.mul_0_r, ?Nat.add_0_r; auto). reflexivity.
    - destruct F as (F1 & F2 & F3 & F4 & F5 & F6 & F7 & F8). unfold pool_output_side. rewrite !side_output by (rewrite ?Nat.mul_0_r, ?Nat.add_0_r; auto). cbn [bind].
      eexists. split; [reflexivity|]. split; [reflexivity|]. unfold cobject_of. cbn [b_kind b_in b_out first_of out_shape].
      unfold pool_new, pool_output_side. rewrite !side_output by (rewrite ?Nat.mul_0_r, ?Nat.add_0_r; auto). reflexivity. }
  destruct NL as (b & EN & EO & OB). rewrite EN in E1. cbn [bind] in E1.
  match type of E1 with bind ?t _ = _ => destruct t as [g1| |]; try discriminate end. cbn [bind] in E1.
  destruct (create_edge _ _ _) as [g2| |]; try discriminate. cbn [bind] in E1. injection E1 as <-. cbn [f_layers f_shape f_first].
  exists b. rewrite EO. auto.
Qed.
Lemma cadd_activation a s : cobject_of (T := R) (new_activation a s) = Some (CL (act_new (act_of a) (ssize s))).
Proof. unfold new_activation, cobject_of, flat. cbn [b_kind b_in ssize]. rewrite !Nat.mul_1_r. destruct a; reflexivity. Qed.

Lemma cadd_stack : forall ds (e : cedge R) f' os, all_fit (f_shape (ce_fnn e)) ds -> f_first (ce_fnn e) = false ->
  foldM fnn_add ds (ce_fnn e) = Ok f' -> cobjects_of (f_layers (ce_fnn e)) = Some os -> ce_nodes e = map cdress os ->
  let os' := os ++ conv_stack (f_shape (ce_fnn e)) ds in
  cobjects_of (f_layers f') = Some os' /\
  add_all net e ds = (mkCedge (ce_loss e) (ce_init e) f' (map cdress os'), RVal tt).
Proof.
  induction ds as [|(d, a) ds IH]; intros [lo ii f ns] f' os HF EF EB EO EN; cbn [ce_fnn ce_nodes ce_loss ce_init] in *.
  - cbn in EB. injection EB as <-. cbn [conv_stack]. rewrite app_nil_r. cbn [add_all]. split; [exact EO|]. now rewrite EN.
  - destruct HF as (F & HS & HF). cbn [foldM] in EB. unfold fnn_add at 1 in EB. rewrite EF in EB.
    destruct (fnn_add_layer f d a) as [f1| |] eqn:E1; try discriminate. cbn [bind] in EB.
    destruct (cadd_layer f d a f1 F E1) as (b & L1 & S1 & F1 & OB).
    set (two := [first_of d (f_shape f); CL (act_new (act_of a) (ssize (out_shape d (f_shape f))))]).
    assert (AO : cobjects_of [b; new_activation a (out_shape d (f_shape f))] = Some two).
    { cbn [cobjects_of]. now rewrite OB, cadd_activation. }
    assert (EO1 : cobjects_of (f_layers f1) = Some (os ++ two)) by (rewrite L1; apply cobjects_app; [exact EO|exact AO]).
    assert (EA : ce_add (mkCedge lo ii f ns) (d, a) = (mkCedge lo ii f1 (map cdress (os ++ two)), RVal tt)).
    { unfold ce_add. cbn [ce_fnn ce_nodes ce_loss ce_init]. unfold fnn_add. rewrite EF, E1, L1.
      rewrite skipn_app, skipn_all, Nat.sub_diag. cbn [skipn app]. rewrite AO. now rewrite EN, map_app. }
    rewrite <- S1 in HF.
    destruct (IH (mkCedge lo ii f1 (map cdress (os ++ two))) f' (os ++ two) HF F1 EB EO1 eq_refl) as (A & B).
    cbn [ce_fnn] in A, B. rewrite S1 in A, B.
    replace ((os ++ two) ++ conv_stack (out_shape d (f_shape f)) ds) with (os ++ conv_stack (f_shape f) ((d, a) :: ds)) in A, B
      by (unfold two; rewrite <- app_assoc; reflexivity).
    split; [exact A|]. cbn [add_all s_add cnn_net]. rewrite EA. exact B.
Qed.
Lemma fits_builds : forall ds s, all_fit s ds -> forall d a, In (d, a) ds -> (forall i, d <> DInput i) /\ stride_ok d.
Proof.
  induction ds as [|(d0, a0) ds IH]; intros s HF d a HI; [destruct HI|]. destruct HF as (F & _ & HF). destruct HI as [X|HI]; [|eapply IH; eauto].
  injection X as -> ->. destruct s as ((h, w), c). destruct d; cbn in *; try contradiction; (split; [discriminate|]); tauto.
Qed.

(** The network made of an Input descriptor and fitting descriptors: the layers asked for in a
    row, all parameters 0, no loss layer yet. *)
Theorem c74_built : forall l i s a0 ds,
  all_fit s ds -> ds <> [] ->
  exists e, construct net l i ((DInput s, a0) :: ds) = RVal e /\
    fnn_build ((DInput s, a0) :: ds) = Ok (ce_fnn e) /\ ce_loss e = l /\ ce_init e = i /\
    cplain (ce_model e) (conv_stack s ds) (ssize s) (ssize (last_shape s ds)) /\
    ce_input_size e = ssize s /\ cnn_output_size (ce_model e) = ssize (last_shape s ds).
Proof.
  intros l i s a0 ds HD HN.
  assert (HB : exists f, fnn_build ((DInput s, a0) :: ds) = Ok f).
  { apply c42_builds. cbn [body]. intros d a HI. exact (fits_builds ds s HD d a HI). }
  destruct HB as (f & EB).
  pose proof EB as EB'. unfold fnn_build in EB'. cbn [foldM fnn_add fnn_new f_first bind] in EB'.
  destruct (cadd_stack ds (mkCedge l i (mkFnn graph_new [] s false) []) f [] HD eq_refl EB' eq_refl eq_refl) as (A & B).
  cbn [ce_fnn f_shape ce_loss ce_init app] in A, B.
  set (ss := conv_stack s ds) in *.
  exists (mkCedge l i f (map cdress ss)).
  assert (LS : length ss = 2 * length ds) by apply stack_len.
  assert (LN : 1 <= length ds) by (destruct ds; [congruence|cbn; lia]).
  destruct (c42_chain _ _ EB) as (LF & G & _). cbn [body PropBuilder.start] in LF, G. destruct (G LN) as (GB & N1 & N2 & N3 & N4 & N5).
  pose proof (is_chain_built _ _ false (2 * length ds) GB ltac:(lia) N1 N2 N3 N4 N5) as C.
  assert (P : cplain (mkModel (f_graph f) (map cdress ss)) ss (ssize s) (ssize (last_shape s ds))).
  { split; [cbn [mgraph]; rewrite LS; exact C|]. split; [lia|]. split; [|apply stack_cshape; exact HD].
    cbn [mnodes]. rewrite map_map. apply map_id. }
  split. { unfold construct. cbn [s_new s_add cnn_net add_all]. unfold ce_add at 1.
    cbn [ce_new ce_fnn fnn_add fnn_new f_first f_layers length skipn cobjects_of map app ce_nodes ce_loss ce_init f_graph].
    change (add_all _ (mkCedge l i (mkFnn graph_new [] s false) []) ds) with (add_all net (mkCedge l i (mkFnn graph_new [] s false) []) ds).
    rewrite B. reflexivity. }
  split; [exact EB|]. split; [reflexivity|]. split; [reflexivity|]. split; [exact P|].
  destruct LF as (LL & _ & _ & _ & FI).
  split.
  - unfold ce_input_size. cbn [ce_fnn]. rewrite (ic_in _ _ _ C).
    destruct (nth_error (f_layers f) 0) as [b|] eqn:E0; [|apply nth_error_None in E0; lia].
    destruct (2 * length ds) as [|q] eqn:EQ; [lia|]. rewrite ?E0. exact (proj1 (FI b eq_refl)).
  - exact (cstack_output_size _ _ _ _ _ (cplain_stack _ _ _ _ P)).
Qed.

(** *** Predicting and evaluating *)
(** What predict and evaluate of the network [d'] return: the values of the layers [ss], and the
    figures of loss [l] for those values. *)
Definition labels_ok (l : losst) (x : dataset R) : Prop :=
  match l with LtMSE => True | LtCCE => forall i t, i < ds_size x -> ds_label 0%R x i = Ok t -> ce_valid t end.
Definition figures (l : losst) (r : list R) (h : list (list R * list R)) : Prop :=
  match l with LtMSE => figures_are mse_value (mse_hit (1 / 10)%R) r h | LtCCE => figures_are (ce_value (/ 2 ^ 52)%R) ce_hit r h end.
Definition answers (l : losst) (ss : list (cnode R)) (n k : nat) (d' : dnet (desc R * actt) (cedge R)) : Prop :=
  (forall x, wf x -> fsize x = n -> exists d'' r, dstep net d' (Predict x) = (d'', OPredict r) /\ ds_size r = ds_size x /\
     forall i, i < ds_size x -> exists xi, ds_entry x i = Ok xi /\ ds_entry r i = Ok (cnn_value ss xi)) /\
  (forall x, wf x -> length (input_i x) = n -> length (labels_i x) = k -> labels_ok l x ->
     exists d'' h r, dstep net d' (Evaluate x) = (d'', OEvaluate r) /\
     length h = ds_size x /\
     (forall i, i < ds_size x -> exists xi t, ds_input 0%R x i = Ok xi /\ ds_label 0%R x i = Ok t /\ nth i h ([], []) = (t, cnn_value ss xi)) /\
     figures l r h).
Lemma stack_answers l o e ss post n k ls : cstack (ce_model e) ss post n k -> 0 < k -> 0 < n ->
  answers l ss n k (mkDnet (Some e) ls o l).
Proof.
  intros W Hk Hn. split.
  - intros x Wx Fx. destruct (cpredict_set _ ss post n k x W Hk Wx (fun _ => Fx)) as (m2 & ss2 & r & EP & Wr & SR & RW & _).
    cbn [dstep]. unfold compiled. cbn [d_model s_predict cnn_net]. unfold ce_predict. rewrite EP. cbn [ends].
    do 2 eexists. split; [reflexivity|]. split; [exact SR|]. intros i Hi. destruct (RW i Hi) as (xi & X1 & X2 & X3 & _). eauto.
  - intros x Wx Li Ll HV.
    assert (EV : exists m' ss' c h, cnn_evaluate (loss_of l) (ce_model e) x = Ok (m', c) /\ length h = ds_size x /\
      (forall i, i < ds_size x -> exists xi t, ds_input n0 x i = Ok xi /\ ds_label n0 x i = Ok t /\ nth i h ([], []) = (t, cnn_value ss xi)) /\
      match l with LtMSE => stats_are mse_value (mse_hit (1 / 10)%R) c h | LtCCE => stats_are (ce_value (/ 2 ^ 52)%R) ce_hit c h end /\ cstack m' ss' post n k /\ Forall2 ckept ss ss').
    { destruct l.
      - exact (cevaluate_set CCE cce_forward ce_valid _ _ _ ss post n k x (cce_ok k Hk) (fun _ _ => eq_refl) W Hk Hn Wx Li Ll HV).
      - apply (cevaluate_set (MSE (1 / 10)%R) (mse_forward (1 / 10)%R) mse_valid _ _ _ ss post n k x (mse_ok (1 / 10)%R k Hk) (fun _ _ => eq_refl) W Hk Hn Wx Li Ll).
        intros i t Hi EL. rewrite label_ok in EL by exact Wx. unfold ds_size in Hi. destruct (Nat.ltb_spec i (famount x)); [|lia].
        injection EL as <-. unfold mse_valid, DatasetProofs.view. intros EE. apply map_eq_nil in EE. rewrite EE in Ll. cbn in Ll. lia. }
    destruct EV as (m' & ss' & c & h & EE & LH & RW & ST & _).
    cbn [dstep d_model d_loss s_evaluate cnn_net]. unfold ce_evaluate. rewrite EE. cbn [ends].
    eexists. exists h. eexists. split; [reflexivity|]. split; [exact LH|]. split; [exact RW|].
    destruct l; exact (c41_evaluation_figures _ _ _ _ ST).
Qed.

Lemma compile_built before l o mi s a0 ds e : construct net l mi ((DInput s, a0) :: ds) = RVal e ->
  let db := fst (drun net (dnew ((DInput s, a0) :: ds)) before) in
  dstep net db (Compile l o mi) = (mkDnet (Some e) ((DInput s, a0) :: ds) o l, OUnit).
Proof.
  intros EC db. cbn [dstep]. unfold d_compile. unfold db. rewrite drun_layers. cbn [dnew d_layers].
  unfold construct in EC. destruct (add_all net (s_new net l mi) ((DInput s, a0) :: ds)) as (e1, [[]| |]) eqn:EA; try discriminate.
  injection EC as ->. rewrite ?EA. reflexivity.
Qed.

(** Compiled and not trained, whatever was called before: the layers asked for, with their zero
    parameters. *)
Theorem c74_compiled : forall s a0 ds before l o mi,
  all_fit s ds -> ds <> [] ->
  let n := ssize s in let k := ssize (last_shape s ds) in
  0 < k -> 0 < n ->
  exists d' os, drun net (dnew ((DInput s, a0) :: ds)) (before ++ [Compile l o mi]) = (d', os ++ [OUnit]) /\
    answers l (conv_stack s ds) n k d'.
Proof.
  intros s a0 ds before l o mi HD HN n k Hk Hn.
  destruct (c74_built l mi s a0 ds HD HN) as (e & EC & _ & _ & _ & PL & _). fold n in PL. fold k in PL.
  pose proof (compile_built before l o mi s a0 ds e EC) as X. cbn zeta in X.
  exists (mkDnet (Some e) ((DInput s, a0) :: ds) o l), (snd (drun net (dnew ((DInput s, a0) :: ds)) before)).
  split; [|apply (stack_answers l o e _ [] n k); auto; now apply cplain_stack].
  rewrite drun_app. cbn [drun]. rewrite X. reflexivity.
Qed.

(** *** Training *)
(** From the layer list to predictions, for both losses and gradient descent, as long as every
    network met on the way can be trained on every row. *)
Theorem c74_end_to_end : forall s a0 ds before l mi (d : dataset R) rows (p : fargs R),
  all_fit s ds -> ds <> [] ->
  let n := ssize s in let k := ssize (last_shape s ds) in
  0 < k -> 0 < n -> rows_of d rows -> 1 <= fa_batch p -> ds_size d <= fa_fuel p ->
  let kd := loss_of l in
  exists bl m0 ss0 lo0, batches_of (ds_size d) (fa_batch p) bl /\ cnn m0 ss0 kd lo0 n k /\
    ls_in lo0 = k /\ ls_inv lo0 = (1 / INR (fa_batch p))%R /\
    all_cinitialised next normal mi Normal (start (if Z.eq_dec (fa_seed p) 0 then fa_device p else fa_seed p)) (conv_stack s ds) ss0 /\
    Forall ccleared ss0 /\
    ((forall b1 b2 m1, b1 ++ b2 = concat (repeat bl (fa_epochs p)) ->
        foldM (fun m b => cbatch (fa_eta p) (pick rows b) m) b1 m0 = Ok m1 -> ctrainable kd n k rows m1) ->
     exists m' ss' lo' d' os,
       cgd_run kd (factor kd k lo0) (fa_eta p) (map (pick rows) (concat (repeat bl (fa_epochs p)))) m0 m' /\
       cnn m' ss' kd lo' n k /\
       drun net (dnew ((DInput s, a0) :: ds)) (before ++ [Compile l OGd mi; Fit d p]) = (d', os ++ [OUnit; OUnit]) /\
       answers l ss' n k d').
Proof.
  intros s a0 ds before l mi d rows p HD HN n k Hk Hn HR Hb Hf kd.
  destruct (c74_built l mi s a0 ds HD HN) as (e & EC & EB & EL & EI & PL & _).
  fold n in PL. fold k in PL. set (ss := conv_stack s ds) in *.
  destruct (cfit_losses kd (fa_batch p) _ _ _ _ PL) as (ml & EFL & WL).
  destruct (cinit_network start next normal mi Normal (fa_seed p) (fa_device p) ml ss kd _ n k WL) as (m0 & ss0 & E0 & W0 & AI).
  set (used := if Z.eq_dec (fa_seed p) 0 then fa_device p else fa_seed p) in *.
  assert (CL0 : Forall ccleared ss0) by (eapply all_cinitialised_cleared; [exact AI|apply stack_cleared]).
  destruct (c71_fit_partial (fa_eta p) d rows m0 ss0 kd (loss_new k (fa_batch p)) n k (fa_batch p) (fa_epochs p) (fa_fuel p)
    W0 Hk eq_refl CL0 HR Hb Hf) as (bl & B & FIT).
  exists bl, m0, ss0, (loss_new k (fa_batch p)). split; [exact B|]. split; [exact W0|]. split; [reflexivity|].
  split. { cbn [loss_new ls_inv]. rewrite Nat.max_l by lia. cbn. unfold nofnat. cbn. now rewrite INR_IZR_INZ. }
  split; [exact AI|]. split; [exact CL0|]. intros HT.
  destruct (FIT HT) as (m' & ss' & lo' & EF & W' & _ & GD).
  destruct (c42_loss _ _ EB ltac:(cbn [body]; destruct ds; [congruence|cbn; lia])) as (f' & last & EAL & _).
  set (e' := ce_with e (f_layers f') m').
  assert (EFit : ce_fit start next normal left_fit e OGd d p = (e', RVal tt)).
  { unfold ce_fit, cnn_fit_with. rewrite EL, EI, EAL. fold kd. destruct PL as (_ & L1 & EN & _).
    assert (LM : length (mnodes (ce_model e)) =? 0 = false) by (apply Nat.eqb_neq; rewrite <- (map_length fst), EN; lia).
    rewrite LM. cbn [negb guard bind]. rewrite EFL. cbn [bind]. rewrite E0. cbn [bind]. rewrite EF. reflexivity. }
  exists m', ss', lo', (mkDnet (Some e') ((DInput s, a0) :: ds) OGd l), (snd (drun net (dnew ((DInput s, a0) :: ds)) before)).
  split; [exact GD|]. split; [exact W'|].
  split.
  - pose proof (compile_built before l OGd mi s a0 ds e EC) as X. cbn zeta in X.
    rewrite drun_app. cbn [drun]. rewrite X. cbn [dstep nothing d_model d_opt s_fit cnn_net]. rewrite EFit. reflexivity.
  - assert (EM : ce_model e' = m') by (destruct m'; reflexivity).
    apply (stack_answers l OGd e' ss' [CO kd lo'] n k); auto. rewrite EM. now apply cnn_stack.
Qed.

(** Without the condition for convolutions and dense layers with activations that are
    differentiable everywhere, under the mean squared error. *)
Theorem c74_mean_squared_error : forall s a0 ds before mi (d : dataset R) rows (p : fargs R),
  all_fit s ds -> all_smooth ds -> ds <> [] ->
  let n := ssize s in let k := ssize (last_shape s ds) in
  0 < k -> 0 < n -> rows_fit d n k rows -> 1 <= fa_batch p -> ds_size d <= fa_fuel p ->
  exists bl m0 ss0 lo0 m' ss' lo' d' os, batches_of (ds_size d) (fa_batch p) bl /\
    cnn m0 ss0 (MSE (1 / 10)%R) lo0 n k /\
    all_cinitialised next normal mi Normal (start (if Z.eq_dec (fa_seed p) 0 then fa_device p else fa_seed p)) (conv_stack s ds) ss0 /\
    cgd_run (MSE (1 / 10)%R) (INR k * (1 / INR (fa_batch p)))%R (fa_eta p) (map (pick rows) (concat (repeat bl (fa_epochs p)))) m0 m' /\
    cnn m' ss' (MSE (1 / 10)%R) lo' n k /\
    drun net (dnew ((DInput s, a0) :: ds)) (before ++ [Compile LtMSE OGd mi; Fit d p]) = (d', os ++ [OUnit; OUnit]) /\
    answers LtMSE ss' n k d'.
Proof.
  intros s a0 ds before mi d rows p HD HSm HN n k Hk Hn (HR & HZ) Hb Hf.
  destruct (c74_end_to_end s a0 ds before LtMSE mi d rows p HD HN Hk Hn HR Hb Hf) as (bl & m0 & ss0 & lo0 & B & W0 & I0 & V0 & AI & CL0 & FIT).
  fold n in W0, FIT. fold k in W0, I0, FIT.
  destruct FIT as (m' & ss' & lo' & d' & os & GD & W' & ER & AN).
  { intros b1 b2 m1 E1 E2.
    assert (HB : Forall (Forall (fun i => (i < length rows)%nat)) (concat (repeat bl (fa_epochs p)))).
    { rewrite (proj1 HR). apply batches_lt in B. clear - B. induction (fa_epochs p) as [|q IH]; cbn [repeat concat]; [constructor|]. apply Forall_app; auto. }
    rewrite <- E1 in HB. apply Forall_app in HB. destruct HB as (HB & _).
    refine (csmooth_trainable (fa_eta p) (1 / 10)%R n k rows Hk HZ b1 m0 ss0 lo0 m1 W0 I0 CL0 _ HB E2).
    eapply all_cinitialised_smooth; [exact AI|now apply stack_smooth]. }
  exists bl, m0, ss0, lo0, m', ss', lo', d', os.
  split; [exact B|]. split; [exact W0|]. split; [exact AI|]. split; [|auto].
  unfold factor in GD. cbn [loss_of] in GD. rewrite V0 in GD. exact GD.
Qed.
End Net.
Print Assumptions c74_built.
Print Assumptions c74_compiled.
Print Assumptions c74_end_to_end.
Print Assumptions c74_mean_squared_error.

(** A 3 x 3 image; two 2 x 2 filters, a dense layer of one unit: all hypotheses of
    [c74_mean_squared_error] hold. *)
Definition ex74 : list (desc R * actt) :=
  [(DConv 2 (2, 2) (1, 1) (0, 0), ATanH); (DDense (1, 1, 1), ALinear)].
Definition ex74_data : dataset R := ds_vec 0%R [1; 2; 3; 4; 5; 6; 7; 8; 9; 1]%R 10 1 [9].
Example c74_hypotheses_met : all_fit (3, 3, 1) ex74 /\ all_smooth ex74 /\ ex74 <> [] /\
  ssize (3, 3, 1) = 9 /\ ssize (last_shape (3, 3, 1) ex74) = 1 /\
  rows_fit ex74_data 9 1 [([1; 2; 3; 4; 5; 6; 7; 8; 9], [1])]%R /\ ds_size ex74_data = 1 /\
  wf ex74_data /\ length (input_i ex74_data) = 9 /\ length (labels_i ex74_data) = 1 /\ labels_ok LtMSE ex74_data /\ labels_ok LtCCE ex74_data.
Proof.
  split. { cbn. repeat split; try lia; discriminate. }
  split. { repeat constructor; cbn; discriminate. }
  split; [discriminate|]. split; [reflexivity|]. split; [reflexivity|].
  split. { split; [|repeat constructor]. split; [reflexivity|]. intros i x t Hi. destruct i as [|i]; [|destruct i; discriminate].
    injection Hi as <- <-. split; reflexivity. }
  split; [reflexivity|]. split; [apply ds_vec_wf; repeat constructor|]. split; [reflexivity|]. split; [reflexivity|]. split; [exact I|].
  intros i t Hi EL. cbn in Hi. destruct i as [|i]; [|lia]. cbn in EL. injection EL as <-. exists 0. cbn. split; [lia|lra].
Qed.
(** All kinds of layers: padding, strides, both poolings, softmax. *)
Definition ex74_all : list (desc R * actt) :=
  [(DConv 2 (3, 3) (1, 1) (1, 1), AReLU); (DMaxPool (2, 2) (1, 1), ANone); (DAvgPool (2, 2) (1, 1), AELU); (DDense (3, 1, 1), ASoftmax)].
Example c74_all_kinds_met : all_fit (3, 3, 1) ex74_all /\ ex74_all <> [] /\ last_shape (3, 3, 1) (firstn 3 ex74_all) = (1, 1, 2) /\
  ssize (last_shape (3, 3, 1) ex74_all) = 3 /\ length (conv_stack (3, 3, 1) ex74_all) = 8.
Proof. split; [cbn; repeat split; try lia; try discriminate; intros; lia|]. repeat split; try reflexivity. discriminate. Qed.
