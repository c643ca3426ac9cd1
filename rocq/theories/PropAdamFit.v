(** C87: fit with Adam depends on the architecture, the data and its arguments only. *)
From Coq Require Import Reals Lra.
From Verif Require Import Base Num RSum DatasetModel MathModel MathProofs LayerModel LossModel OptModel OptProofs GraphModel GraphProofs ModelModel NodeModel
  ChainProofs ModelProofs PropModel TrainProofs RecurrentModel CopyModel FnnModel FitModel PropFit PropStep InitModel PropInit DynModel PropTraining AdamProofs.

Section Forget.
Context {T : Type} `{NumOps T} `{TransOps T} `{LimOps T}.

Lemma layer_grads_like (l l2 : layer T) : like l l2 -> layer_grads l2 = layer_grads l.
Proof. intros ((A & _) & G1 & G2). unfold layer_grads. now rewrite A, G1, G2. Qed.
Lemma atrained_like a (l l2 : layer T) : like l l2 -> like (atrained a l) (atrained a l2).
Proof.
  intros L. pose proof (layer_grads_like l l2 L) as LG. destruct L as ((A & B & C & D) & G1 & G2).
  assert (LP : layer_params l2 = layer_params l) by (unfold layer_params; now rewrite A, C, D).
  unfold atrained. rewrite A, LG, LP. destruct (knd l) eqn:K.
  - unfold like, same_params. cbn [knd insz wts bias wgrad bgrad]. rewrite B, C, G1, G2. repeat split; auto.
  - unfold like, same_params. repeat split; congruence.
Qed.
Lemma train_all_like (ls ls2 : list (layer T)) : Forall2 like ls ls2 -> forall a, Forall2 like (train_all a ls) (train_all a ls2).
Proof.
  induction 1 as [|l l2 ls ls2 L F IH]; intros a; cbn [train_all]; constructor; [now apply atrained_like|].
  rewrite (layer_grads_like _ _ L). apply IH.
Qed.
Definition pair_like kd n k (am am2 : adam T * model (node T)) : Prop := fst am2 = fst am /\ alike kd n k (snd am) (snd am2).
Lemma train_adam_like kd n k am am2 : pair_like kd n k am am2 ->
  both (pair_like kd n k) (m_train_adam (fst am) (snd am)) (m_train_adam (fst am2) (snd am2)).
Proof.
  destruct am as (a, m), am2 as (a2, m2). intros (EA & ls & ls2 & lo & lo2 & W & W2 & F & FL). cbn [fst snd] in *. subst a2.
  destruct (network_train_adam a m ls kd lo n k W) as (m' & E & _ & W'). destruct (network_train_adam a m2 ls2 kd lo2 n k W2) as (m2' & E2 & _ & W2').
  rewrite E, E2. split; cbn [fst snd].
  - f_equal. clear - F. induction F as [|l l2 ls ls2 L F IH]; [reflexivity|]. cbn [flat_map]. now rewrite (layer_grads_like _ _ L), IH.
  - exists (train_all a ls), (train_all a ls2), lo, lo2. split; [exact W'|]. split; [exact W2'|]. split; [|exact FL]. now apply train_all_like.
Qed.
Lemma fit_adam_like draw eta d fuel epochs bs kd n k m m2 : rows_sized d n k -> alike kd n k m m2 ->
  oboth (alike kd n k) (fit_adam draw eta d fuel epochs bs m) (fit_adam draw eta d fuel epochs bs m2).
Proof.
  intros HZ A. unfold fit_adam.
  match goal with |- oboth _ (match fit_run ?s ?r ?t _ _ _ _ _ with _ => _ end) _ =>
    assert (X : oboth (pair_like kd n k) (fit_run s r t fuel epochs (ds_size d) bs (adam_default eta, m))
                                          (fit_run s r t fuel epochs (ds_size d) bs (adam_default eta, m2))) end.
  { apply fit_run_like.
    - intros i a b Hi (Q1 & Q2). destruct (HZ i Hi) as (x & t & E1 & E2 & L1 & L2). unfold row_step. rewrite E1, E2. cbn [bind].
      pose proof (m_step_like draw kd n k (snd a) (snd b) x t Q2 L1 L2) as X.
      destruct (m_step (node_ops draw) (snd a) x t), (m_step (node_ops draw) (snd b) x t); cbn [bind both] in *; try contradiction; auto.
      split; auto.
    - intros a b (Q1 & Q2). pose proof (reset_like kd n k _ _ Q2) as X.
      destruct (m_reset_score (snd a)), (m_reset_score (snd b)); cbn [bind both] in *; try contradiction; auto. split; auto.
    - intros a b Q. now apply train_adam_like.
    - split; auto. }
  match type of X with oboth _ ?u ?v => destruct u as [[(a1, m1)| |]|], v as [[(a3, m3)| |]|] end; cbn [oboth both] in *; try contradiction; auto.
  apply X.
Qed.

Lemma atrained_kept a (l : layer T) : kept l (atrained a l).
Proof. unfold atrained, kept. destruct (knd l) eqn:K; cbn; repeat split; auto; congruence. Qed.
Lemma train_all_kept (ls : list (layer T)) : forall a, Forall2 kept ls (train_all a ls).
Proof. induction ls; intros b; cbn [train_all]; constructor; auto using atrained_kept. Qed.
Lemma train_adam_rested kd n k ls0 c i0 a m a' m' : Forall fresh ls0 -> based kd n k ls0 c i0 m ->
  m_train_adam a m = Ok (a', m') -> rested kd n k ls0 c i0 m'.
Proof.
  intros F0 (ls & lo & W & F & L1 & L2) E1. destruct (network_train_adam a m ls kd lo n k W) as (m2 & E2 & _ & W2).
  rewrite E2 in E1. injection E1 as _ <-. exists (train_all a ls), lo. split; [exact W2|].
  split. { eapply all_kept_trans; [exact F|]. apply train_all_kept. }
  split; [exact L1|]. split; [exact L2|].
  assert (G : forall ls a ls0 n k, Forall fresh ls0 -> Forall2 kept ls0 ls -> nshape ls n k -> Forall fresh (train_all a ls)).
  { clear. induction ls as [|l ls IH]; intros a ls0 n k F0 F HS; cbn [train_all]; [constructor|].
    inversion F as [|l0 ? tl ? K F']; subst. inversion F0; subst. destruct HS as (j & (S1 & S2 & S3 & S4) & HS).
    constructor; [|eauto]. destruct K as (K1 & K2 & K3). unfold fresh, atrained in *.
    rewrite K1 in *. destruct (knd l0) as [|ac] eqn:K; cbn [knd wts bias wgrad bgrad].
    - destruct S4 as (A1 & A2 & A3 & A4). unfold layer_params, layer_grads. rewrite K1.
      rewrite firstn_length, skipn_length, amove_length, app_length by (rewrite !app_length; lia). split; f_equal; lia.
    - rewrite K1. destruct K3 as (X1 & X2 & X3 & X4); [congruence|]. rewrite X1, X2, X3, X4. assumption. }
  eapply G; [exact F0|exact F|apply W].
Qed.
Lemma fit_adam_rested draw eta d fuel epochs bs kd n k ls0 c i0 m m' : rows_sized d n k -> Forall fresh ls0 ->
  rested kd n k ls0 c i0 m -> fit_adam draw eta d fuel epochs bs m = Some (Ok m') -> rested kd n k ls0 c i0 m'.
Proof.
  intros HZ F0 R0 E0. unfold fit_adam in E0.
  match type of E0 with match ?u with _ => _ end = _ => destruct u as [[(a1, m1)| |]|] eqn:E; try discriminate end.
  injection E0 as <-. revert E.
  apply (fit_run_inv (fun am : adam T * model (node T) => based kd n k ls0 c i0 (snd am)) (fun am => rested kd n k ls0 c i0 (snd am))) with (m := (adam_default eta, m)) (m' := (a1, m1)).
  - intros am. apply rested_based.
  - intros i a b Hi HP E1. destruct (HZ i Hi) as (x & t & X1 & X2 & Y1 & Y2). unfold row_step in E1. rewrite X1, X2 in E1. cbn [bind] in E1.
    destruct (m_step (node_ops draw) (snd a) x t) as [m2| |] eqn:E2; try discriminate. injection E1 as <-. cbn [snd]. eapply m_step_based; eauto.
  - intros a b HP E1. destruct (m_reset_score (snd a)) as [m2| |] eqn:E2; try discriminate. injection E1 as <-. cbn [snd]. eapply reset_based; eauto.
  - intros a (b1, b2) HP E1. eapply train_adam_rested; eauto.
  - exact R0.
Qed.

Section Engine.
Context {E : Type}.
Variables (start : Z -> E) (next : E -> Z * E) (normal : T -> T -> option T -> E -> (T * option T) * E).

(** Neither weights nor outputs nor scores the network had before matter, with either optimizer. *)
Theorem c87_forgets : forall draw o kd mi eta d fuel epochs batch seed device m m2 ls ls2 n k,
  ready kd batch m ls n k -> ready kd batch m2 ls2 n k -> Forall2 same_type ls ls2 ->
  Forall fresh ls -> Forall fresh ls2 -> rows_sized d n k ->
  same_outcome n (fnn_fit_with start next normal draw o kd mi eta d fuel epochs batch seed device m)
                 (fnn_fit_with start next normal draw o kd mi eta d fuel epochs batch seed device m2).
Proof.
  intros draw o kd mi eta d fuel epochs batch seed device m m2 ls ls2 n k R1 R2 F F1 F2 HZ.
  apply (alike_outcome kd n k). unfold fnn_fit_with.
  rewrite (ready_some _ _ _ _ _ _ R1), (ready_some _ _ _ _ _ _ R2). cbn [negb guard bind].
  destruct (ready_network _ _ _ _ _ _ R1) as (m' & lo & E1 & W1 & A1 & B1).
  destruct (ready_network _ _ _ _ _ _ R2) as (m2' & lo2 & E2 & W2 & A2 & B2). rewrite E1, E2. cbn [bind].
  destruct (m_init_network start next normal mi Normal seed device m' ls kd lo n k W1) as (m1 & ls1 & I1 & V1 & Q1).
  destruct (m_init_network start next normal mi Normal seed device m2' ls2 kd lo2 n k W2) as (m3 & ls3 & I2 & V2 & Q2).
  rewrite I1, I2. cbn [bind].
  assert (AL : alike kd n k m1 m3).
  { exists ls1, ls3, lo, lo2. split; [exact V1|]. split; [exact V2|]. split.
    - eapply init_like; [apply W1|apply W2|exact F|exact F1|exact F2|exact Q1|exact Q2].
    - unfold llike. split; [congruence|]. split; [congruence|]. split; [apply W1|apply W2]. }
  destruct o; [now apply fit_sequential_like|now apply fit_adam_like].
Qed.

Lemma fit_with_rested draw o kd mi eta d fuel epochs batch seed device m m1 ls n k :
  ready kd batch m ls n k -> Forall fresh ls -> rows_sized d n k ->
  fnn_fit_with start next normal draw o kd mi eta d fuel epochs batch seed device m = Some (Ok m1) ->
  rested kd n k ls k (ndiv n1 (nofnat (Nat.max batch 1))) m1.
Proof.
  intros R1 F HZ. unfold fnn_fit_with. rewrite (ready_some _ _ _ _ _ _ R1). cbn [negb guard bind].
  destruct (ready_network _ _ _ _ _ _ R1) as (m' & lo & E1 & W1 & A1 & B1). rewrite E1. cbn [bind].
  destruct (m_init_network start next normal mi Normal seed device m' ls kd lo n k W1) as (m2 & ls1 & I1 & V1 & Q1). rewrite I1. cbn [bind].
  assert (RS : rested kd n k ls k (ndiv n1 (nofnat (Nat.max batch 1))) m2).
  { exists ls1, lo. split; [exact V1|].
    destruct Q1 as (L & Q1). split; [|split; [exact A1|split; [exact B1|]]].
    - apply forall2_nth; [exact L|]. intros i l El. destruct (Q1 i l El) as (l' & El' & X & Y). exists l'. split; [exact El'|].
      destruct (knd l) eqn:K; [|rewrite (Y ltac:(discriminate)); apply kept_refl].
      destruct (X eq_refl) as (X1 & X2 & _). split; [congruence|]. split; [exact X2|]. congruence.
    - apply Forall_forall. intros l' Hl'. apply In_nth_error in Hl'. destruct Hl' as (i & El').
      destruct (nth_error ls i) as [l|] eqn:El. 2:{ apply nth_error_None in El. assert (i < length ls1) by (apply nth_error_Some; congruence). lia. }
      destruct (Q1 i l El) as (l1 & El1 & X & Y). rewrite El' in El1. injection El1 as <-.
      pose proof (proj1 (Forall_forall _ _) F l (nth_error_In _ _ El)) as G. unfold fresh in *.
      destruct (knd l) eqn:K; [|rewrite (Y ltac:(discriminate)); now rewrite K].
      destruct (X eq_refl) as (X1 & X2 & X3 & X4 & _ & _ & X7 & X8). rewrite X1, X3, X4, X7, X8, tab_length, repeat_length, K. exact G. }
  destruct o; intros E2; [eapply fit_sequential_rested; eauto|eapply fit_adam_rested; eauto].
Qed.
(** A second fit with the same loss and batch size gives what it gives on the network as built:
    in particular nothing of the first optimizer's moments is left. *)
Theorem c87_second_fit : forall draw o kd batch m ls n k mi eta d fuel epochs seed device m1,
  plain m ls n k -> Forall fresh ls -> rows_sized d n k ->
  fnn_fit_with start next normal draw o kd mi eta d fuel epochs batch seed device m = Some (Ok m1) ->
  forall draw' o' mi' eta' d' fuel' epochs' seed' device', rows_sized d' n k ->
  same_outcome n (fnn_fit_with start next normal draw' o' kd mi' eta' d' fuel' epochs' batch seed' device' m)
                 (fnn_fit_with start next normal draw' o' kd mi' eta' d' fuel' epochs' batch seed' device' m1).
Proof.
  intros draw o kd batch m ls n k mi eta d fuel epochs seed device m1 P F HZ E1 draw' o' mi' eta' d' fuel' epochs' seed' device' HZ'.
  destruct (fit_with_rested draw o kd mi eta d fuel epochs batch seed device m m1 ls n k (or_introl P) F HZ E1) as (ls1 & lo & W & K & A & B & F1).
  apply (c87_forgets draw' o' kd mi' eta' d' fuel' epochs' batch seed' device' m m1 ls ls1 n k); auto.
  - now left.
  - right. exists lo. auto.
  - eapply kept_type; [exact K|apply P|apply W].
Qed.
End Engine.
End Forget.
Print Assumptions c87_forgets.
Print Assumptions c87_second_fit.
Local Open Scope R_scope.
(** The network of [ex_fit]; a first fit with Adam succeeds. *)
Example c87_second_fit_met : plain ex_fit_model ex_fit_layers 1 1 /\ Forall fresh ex_fit_layers /\ rows_sized ex_fit_data 1 1 /\
  exists m1, fnn_fit_with (E := Z) (fun s => s) (fun e => (0%Z, e)) (fun _ _ _ e => ((0, None), e)) (fun _ => 0) OAdam (MSE 0) MXavier 1 ex_fit_data 1 1 1 1 1 ex_fit_model = Some (Ok m1).
Proof.
  destruct ex_fit_plain as (A & B & C). split; [exact A|]. split; [exact B|]. split; [exact C|].
  cbv -[Rplus Rmult Rminus Rdiv Rinv Ropp IZR INR sqrt Rlt_dec Req_EM_T Rle_dec total_order_T not pow]. eexists. reflexivity.
Qed.
