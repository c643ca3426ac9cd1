(** C83: models with recurrent layers: what they predict from call to call, how a sequence may be
    cut, what a training step adds. *)
From Coq Require Import Reals Lra.
From Verif Require Import Base Num RSum MathModel MathProofs LayerModel LossModel LossSpec LossProofs PropLoss GraphModel ModelModel NodeModel BuilderModel
  ChainProofs ModelProofs GradSpec GradProofs GradChain StepProofs PropModel PropStep RecurrentModel RecurrentProofs PropRecurrent CnnNetProofs RnnModel RnnProofs.
Local Open Scope R_scope.

(** *** Predictions *)
(** A model with recurrent layers predicts what its layers compute in a row, each recurrent one
    going on from the state it was left in; the states reached are kept for the next call and the
    parameters are not changed. *)
Theorem c83_predict : forall m ss post n k x, rstack m ss post n k -> length x = n ->
  exists m' ss', m_predict rnn_ops m x = Ok (m', fst (stack_run ss (map held ss) x)) /\
    length (fst (stack_run ss (map held ss) x)) = k /\ rstack m' ss' post n k /\ Forall2 rkept ss ss' /\
    map held ss' = snd (stack_run ss (map held ss) x).
Proof. exact rstack_predict. Qed.
Print Assumptions c83_predict.

(** *** Cutting a sequence *)
(** The state of every layer object of a model. *)
Definition states (m : model (rnode R)) : list (list R) := map held (map fst (mnodes m)).
(** Recurrent layers with [T] time steps. *)
Definition paced (T : nat) (s : rnode R) : Prop := exists r, s = RR r /\ r_steps r = T.
Definition retime (N : nat) (s : rnode R) : rnode R := match s with RR r => RR (rec_time_steps r N) | s => s end.

Fixpoint node_chunks (s : rnode R) (H : list R) (xs : list (list R)) : list (list R) * list R :=
  match xs with
  | [] => ([], H)
  | x :: xs => let '(y, H') := node_run s H x in let '(ys, Hn) := node_chunks s H' xs in (y :: ys, Hn)
  end.
Lemma chunk_cons s ss : forall xs H Hs, chunk_run (s :: ss) (H :: Hs) xs =
  let '(ys, H') := node_chunks s H xs in let '(zs, Hs') := chunk_run ss Hs ys in (zs, H' :: Hs').
Proof.
  induction xs as [|x xs IH]; intros H Hs; cbn [chunk_run node_chunks]; [reflexivity|].
  cbn [stack_run]. destruct (node_run s H x) as (y & H'). destruct (stack_run ss Hs y) as (z & Hs') eqn:ES.
  rewrite IH. destruct (node_chunks s H' xs) as (ys & Hn). cbn [chunk_run]. rewrite ES.
  now destruct (chunk_run ss Hs' ys) as (zs & Hm).
Qed.
Lemma chunk_nil : forall xs, chunk_run [] [] xs = (xs, []).
Proof. induction xs as [|x xs IH]; cbn; [reflexivity|]. now rewrite IH. Qed.

Lemma unroll_retime r N : forall us H, unroll (rec_time_steps r N) us H = unroll r us H.
Proof. induction us as [|u us IH]; intros H; cbn [unroll]; [reflexivity|]. rewrite <- IH. reflexivity. Qed.
Lemma node_whole r : forall xs H, Forall (fun x => length x = (r_in r * r_steps r)%nat) xs ->
  node_run (RR (rec_time_steps r (length xs * r_steps r))) H (concat xs) =
    (concat (fst (node_chunks (RR r) H xs)), snd (node_chunks (RR r) H xs)).
Proof.
  intros xs H F. cbn [node_run rec_time_steps r_in r_steps].
  change (mkRec (r_in r) _ _ _ _ _ _ _ _ _ _ _ _ _ _ _ _) with (rec_time_steps r (length xs * r_steps r)).
  rewrite unroll_retime. revert H. induction F as [|x xs E F IH]; intros H; [reflexivity|].
  cbn [length concat Nat.mul node_chunks]. rewrite pieces_app by exact E. rewrite unroll_app. cbn [node_run].
  destruct (unroll r (pieces (r_in r) (r_steps r) x) H) as (ys & H'). cbn [fst snd].
  specialize (IH H'). destruct (unroll r (pieces (r_in r) (length xs * r_steps r) (concat xs)) H') as (zs & Hn).
  cbn [fst snd]. injection IH as E1 E2. destruct (node_chunks (RR r) H' xs) as (ws & Hm). cbn [fst snd concat] in *.
  rewrite concat_app, E1. congruence.
Qed.
Lemma chunks_length r : forall xs H, length (fst (node_chunks (RR r) H xs)) = length xs /\
  Forall (fun y => length y = (r_out r * r_steps r)%nat) (fst (node_chunks (RR r) H xs)).
Proof.
  induction xs as [|x xs IH]; intros H; cbn [node_chunks]; [cbn; auto|]. cbn [node_run].
  destruct (unroll_length r (pieces (r_in r) (r_steps r) x) H) as (A & B & _).
  destruct (unroll r (pieces (r_in r) (r_steps r) x) H) as (ys & H'). cbn [fst snd] in *.
  destruct (IH H') as (C & D). destruct (node_chunks (RR r) H' xs) as (zs & Hn). cbn [fst snd length] in *.
  split; [congruence|]. constructor; [|exact D]. rewrite (concat_length ys _ B), A. now rewrite pieces_length.
Qed.
Lemma stack_whole : forall ss T xs Hs n k, rshape ss n k -> Forall (paced T) ss -> Forall (fun x => length x = n) xs ->
  length Hs = length ss ->
  stack_run (map (retime (length xs * T)) ss) Hs (concat xs) =
    (concat (fst (chunk_run ss Hs xs)), snd (chunk_run ss Hs xs)).
Proof.
  induction ss as [|s ss IH]; intros T xs Hs n k HS HP HX HL; destruct Hs as [|H Hs]; try discriminate.
  - cbn [map stack_run]. now rewrite chunk_nil.
  - inversion HP as [|? ? (r & -> & ET) HP2]; subst. destruct HS as (j & (W & H2 & En & Ej) & HS2).
    rewrite chunk_cons. cbn [map retime stack_run].
    rewrite node_whole by (rewrite <- En; exact HX).
    destruct (chunks_length r xs H) as (LL & LF).
    destruct (node_chunks (RR r) H xs) as (ys & H'). cbn [fst snd] in *.
    rewrite <- LL. rewrite (IH (r_steps r) ys Hs j k HS2 HP2).
    + destruct (chunk_run ss Hs ys) as (zs & Hs'). reflexivity.
    + rewrite Ej. exact LF.
    + cbn in HL. lia.
Qed.

Lemma retime_held s n k N : rnode_shape s n k -> held (retime N s) = held s.
Proof.
  destruct s as [l|r|kd lo]; cbn [retime held]; auto. intros (W & H2 & _). unfold state. cbn [rec_time_steps r_hid r_hs].
  assert (r_hid r <= length (r_hs r))%nat by (rewrite (rw_hs r W); clear - H2; nia).
  rewrite !firstn_tab.
  - apply tab_ext. intros j Hj. rewrite nth_resize.
    + reflexivity.
    + clear - Hj. nia.
  - assumption.
  - rewrite resize_length. clear. nia.
Qed.
Lemma retime_wf (r : recl R) N : rec_wf r -> rec_wf (rec_time_steps r N).
Proof. intros W. destruct W. constructor; cbn [rec_time_steps r_in r_out r_hid r_steps r_wih r_whh r_who r_bh r_bo r_gwih r_gwhh r_gwho r_gbh r_gbo r_hs r_act r_ig]; auto; apply resize_length. Qed.
Lemma retime_shape : forall ss T M n k, (1 <= M)%nat -> rshape ss n k -> Forall (paced T) ss ->
  rshape (map (retime (M * T)) ss) (M * n) (M * k) /\ map held (map (retime (M * T)) ss) = map held ss.
Proof.
  induction ss as [|s ss IH]; intros T M n k HM HS HP.
  - cbn in *. subst. auto.
  - inversion HP as [|? ? (r & -> & ET) HP2]; subst. destruct HS as (j & HS1 & HS2).
    destruct (IH _ M j k HM HS2 HP2) as (A & B). pose proof HS1 as (W & H2 & En & Ej). cbn [map].
    split.
    + exists (M * j)%nat. split; [|exact A]. split; [now apply retime_wf|]. cbn [rec_time_steps r_in r_out r_steps].
      split; [clear - H2 HM; nia|]. subst n j. split; clear; lia.
    + rewrite (retime_held (RR r) n j _ HS1). f_equal. exact B.
Qed.
Lemma set_steps_rstack m ss post n k T M : (1 <= M)%nat -> rstack m ss post n k -> Forall (paced T) ss ->
  rstack (set_steps (M * T) m) (map (retime (M * T)) ss) post (M * n) (M * k).
Proof.
  intros HM [H1 H2 H3 H4 H5 H6] HP. destruct (retime_shape ss T M n k HM H5 HP) as (A & _).
  constructor; cbn [set_steps on_rec mgraph mnodes]; rewrite ?map_length; auto.
  transitivity (map (retime (M * T)) (map fst (mnodes m))); [rewrite !map_map; apply map_ext; intros (s & o); now destruct s|]. rewrite H4, map_app. f_equal.
  clear - H6. induction H6 as [|s post (kd & lo & ->) F IH]; cbn; congruence.
Qed.
Lemma rstack_states m ss post n k : rstack m ss post n k -> states m = map held ss ++ repeat [] (length post).
Proof.
  intros W. unfold states. rewrite (rs_nodes _ _ _ _ _ W), map_app. f_equal. pose proof (rs_post _ _ _ _ _ W) as F. clear W.
  induction F as [|s post (kd & lo & ->) F IH]; cbn; congruence.
Qed.

(** A model made of recurrent layers with [T] time steps each may be given a long sequence in
    pieces of [T] steps, or in one call after time_steps(): the outputs and the states left are the
    same. *)
Theorem c83_pieces : forall m ss post n k T xs, rstack m ss post n k -> Forall (paced T) ss ->
  (1 <= length xs)%nat -> Forall (fun x => length x = n) xs ->
  exists m1 m2 ys, predict_all m xs = Ok (m1, ys) /\
    m_predict rnn_ops (set_steps (length xs * T) m) (concat xs) = Ok (m2, concat ys) /\
    length ys = length xs /\ Forall (fun y => length y = k) ys /\ states m1 = states m2.
Proof.
  intros m ss post n k T xs W HP HX HL.
  destruct (rstack_predict_all xs m ss post n k W HL) as (m1 & s1 & E1 & L1 & W1 & K1 & EH1).
  pose proof (set_steps_rstack m ss post n k T (length xs) HX W HP) as W2.
  destruct (retime_shape ss T (length xs) n k HX (rs_shape _ _ _ _ _ W) HP) as (_ & EH).
  destruct (rstack_predict _ _ post _ _ (concat xs) W2) as (m2 & s2 & E2 & L2 & W3 & K2 & EH2).
  { rewrite (concat_length xs n HL). lia. }
  rewrite EH, (stack_whole ss T xs (map held ss) n k (rs_shape _ _ _ _ _ W) HP HL (map_length _ _)) in E2, L2, EH2. cbn [fst snd] in *.
  exists m1, m2, (fst (chunk_run ss (map held ss) xs)). split; [exact E1|]. split; [exact E2|]. split.
  - clear. generalize (map held ss) as Hs. revert ss. induction xs as [|x xs IH]; intros ss Hs; cbn [chunk_run]; [reflexivity|].
    destruct (stack_run ss Hs x) as (y & Hs'). specialize (IH ss Hs'). destruct (chunk_run ss Hs' xs). cbn in *. congruence.
  - split; [exact L1|]. rewrite (rstack_states _ _ _ _ _ W1), (rstack_states _ _ _ _ _ W3). congruence.
Qed.
Print Assumptions c83_pieces.

(** *** Resetting *)
Definition zeroed (s : rnode R) : list R := match s with RR r => repeat 0 (r_hid r) | _ => [] end.
Lemma reset_rstack m ss post n k : rstack m ss post n k ->
  exists ss', rstack (reset_states m) ss' post n k /\ Forall2 rkept ss ss' /\ map held ss' = map zeroed ss.
Proof.
  intros [H1 H2 H3 H4 H5 H6].
  set (f := fun s : rnode R => match s with RR r => RR (rec_reset r) | s => s end). exists (map f ss).
  assert (A : rshape (map f ss) n k /\ Forall2 rkept ss (map f ss) /\ map held (map f ss) = map zeroed ss).
  { clear - H5. revert n H5. induction ss as [|s ss IH]; intros n HS; cbn [map].
    - cbn in *. auto.
    - destruct HS as (j & A & B). destruct (IH j B) as (C & D & E). split; [|split].
      + exists j. split; [|exact C]. destruct s as [l|r|]; auto. destruct A as (W & X). destruct (c26_reset r W) as (W' & _).
        split; [exact W'|exact X].
      + constructor; [|exact D]. destruct s; cbn in *; [split; [apply same_params_refl|reflexivity]|repeat split|contradiction].
      + rewrite E. f_equal. destruct s as [l|r|]; auto. cbn. destruct A as (W & X). now destruct (c26_reset r W). }
  destruct A as (A & B & C). split; [|auto].
  constructor; cbn [reset_states on_rec mgraph mnodes]; rewrite ?map_length; auto.
  transitivity (map f (map fst (mnodes m))); [rewrite !map_map; apply map_ext; intros (s & o); now destruct s|]. rewrite H4, map_app. f_equal.
  clear - H6. induction H6 as [|s post (kd & lo & ->) F IH]; cbn; congruence.
Qed.
(** After reset_hidden_state() on its layers a model predicts the same as any other model with the
    same parameters, whatever the two were used for before. *)
Theorem c83_reset : forall m ss post m' ss' post' n k x, rstack m ss post n k -> rstack m' ss' post' n k ->
  Forall2 rkept ss ss' -> length x = n ->
  exists m1 m2 y, m_predict rnn_ops (reset_states m) x = Ok (m1, y) /\ m_predict rnn_ops (reset_states m') x = Ok (m2, y) /\
    y = fst (stack_run ss (map zeroed ss) x).
Proof.
  intros m ss post m' ss' post' n k x W W' K Hx.
  destruct (reset_rstack m ss post n k W) as (s1 & W1 & K1 & E1).
  destruct (reset_rstack m' ss' post' n k W') as (s2 & W2 & K2 & E2).
  destruct (rstack_predict _ _ _ _ _ x W1 Hx) as (m1 & _ & P1 & _). destruct (rstack_predict _ _ _ _ _ x W2 Hx) as (m2 & _ & P2 & _).
  rewrite (rkept_stack ss s1 _ x K1), E1 in P1.
  rewrite (rkept_stack ss s2 _ x (rkept_all_trans _ _ _ K K2)), E2 in P2.
  assert (EZ : map zeroed ss' = map zeroed ss).
  { clear - K. induction K as [|s s' ss ss' K F IH]; [reflexivity|]. cbn [map]. rewrite IH. f_equal.
    destruct s, s'; try contradiction; auto. cbn in *. destruct K as (_ & _ & K & _). now rewrite K. }
  rewrite EZ in P2. exists m1, m2. eexists. split; [exact P1|]. split; [exact P2|reflexivity].
Qed.
Print Assumptions c83_reset.

(** *** A training step *)
Definition rcost (kd : losskind R) (m : model (rnode R)) (x t : list R) (c : R) : Prop :=
  exists m' y, m_predict rnn_ops m x = Ok (m', y) /\ c = loss_value kd t y.
(** Parameter [p] of the weights (biases) of a layer increased by [z]; for a recurrent layer those
    of its output. *)
Definition rmove_weight (s : rnode R) (p : nat) (z : R) : rnode R :=
  match s with
  | RL l => RL (with_weight l p z)
  | RR r => RR (PropRecurrent.set_out r (line (r_who r) p z) (r_bo r))
  | s => s
  end.
Definition rmove_bias (s : rnode R) (p : nat) (z : R) : rnode R :=
  match s with
  | RL l => RL (with_bias l p z)
  | RR r => RR (PropRecurrent.set_out r (r_who r) (line (r_bo r) p z))
  | s => s
  end.
Definition rput (m : model (rnode R)) (q : nat) (s : rnode R) : model (rnode R) :=
  mkModel (mgraph m) (upd (mnodes m) q (s, snd (nth q (mnodes m) (s, SNull)))).
(** [d] is the derivative of the cost when layer object [q] moves through [c]. *)
Definition rpartial kd (m : model (rnode R)) (q : nat) (c : R -> rnode R) (xt : list R * list R) (d : R) : Prop :=
  exists C, (forall z, rcost kd (rput m q (c z)) (fst xt) (snd xt) (C z)) /\ derivable_pt_lim C 0 d.
Definition out_weights (s : rnode R) : list R := match s with RL l => wts l | RR r => r_who r | _ => [] end.
Definition out_biases (s : rnode R) : list R := match s with RL l => bias l | RR r => r_bo r | _ => [] end.
Definition out_wgrads (s : rnode R) : list R := match s with RL l => wgrad l | RR r => r_gwho r | _ => [] end.
Definition out_bgrads (s : rnode R) : list R := match s with RL l => bgrad l | RR r => r_gbo r | _ => [] end.
(** The layers behind the last recurrent one are differentiable where they are used. *)
Fixpoint lsmooth (ls : list (layer R)) (x : list R) : Prop :=
  match ls with [] => True | l :: ls => layer_smooth l x /\ lsmooth ls (layer_sem l x) end.
(** What a step adds to the gradients of the layers from position [q0] on. *)
Definition rstep_adds kd (f : R) (m : model (rnode R)) (xt : list R * list R) (q0 : nat) (ss ss' : list (rnode R)) : Prop :=
  forall q s, (q0 <= q)%nat -> nth_error ss q = Some s -> exists s', nth_error ss' q = Some s' /\
    (forall p, (p < length (out_weights s))%nat -> exists d, rpartial kd m q (rmove_weight s p) xt d /\
       nth p (out_wgrads s') 0 = nth p (out_wgrads s) 0 + f * d) /\
    (forall p, (p < length (out_biases s))%nat -> exists d, rpartial kd m q (rmove_bias s p) xt d /\
       nth p (out_bgrads s') 0 = nth p (out_bgrads s) 0 + f * d).

Lemma rput_rstack m ss post n k q s : rstack m ss post n k -> (q < length ss)%nat -> rshape (upd ss q s) n k ->
  rstack (rput m q s) (upd ss q s) post n k.
Proof.
  intros [H1 H2 H3 H4 H5 H6] Hq HS. constructor; unfold rput; cbn [mgraph mnodes]; rewrite ?upd_length; auto.
  rewrite map_upd. cbn [fst]. rewrite H4, upd_app_l by exact Hq. reflexivity.
Qed.
Lemma rcost_rstack kd m ss post n k x t : rstack m ss post n k -> length x = n ->
  rcost kd m x t (loss_value kd t (fst (stack_run ss (map held ss) x))).
Proof. intros W Hx. destruct (rstack_predict m ss post n k x W Hx) as (m' & _ & E & _). unfold rcost. eauto. Qed.
Lemma rshape_app : forall a b n k, rshape (a ++ b) n k <-> exists j, rshape a n j /\ rshape b j k.
Proof.
  induction a as [|s a IH]; intros b n k; cbn [app rshape].
  - split; [intros HB; exists n; auto|intros (j & -> & HB); exact HB].
  - split.
    + intros (i & A & B). apply IH in B. destruct B as (j & B & C). exists j. split; [exists i; auto|exact C].
    + intros (j & (i & A & B) & C). exists i. split; [exact A|]. apply IH. eauto.
Qed.
Lemma rl_gshape : forall ls n k, rshape (map RL ls) n k <-> gshape rl_shape (map RL ls) n k.
Proof.
  induction ls as [|l ls IH]; intros n k; cbn; [reflexivity|].
  split; intros (j & A & B); exists j; (split; [exact A|now apply IH]).
Qed.
Lemma rl_gsmooth : forall ls n k x, rshape (map RL ls) n k -> length x = n -> lsmooth ls x -> gsmooth rnn_ops rl_smooth (map RL ls) x.
Proof.
  induction ls as [|l ls IH]; intros n k x HS Hx HC; [exact I|]. cbn [map] in *.
  destruct HS as (j & A & B), HC as (C1 & C2). cbn [gsmooth]. split; [exact C1|].
  intros s' y E EO. destruct (rnode_forward (RL l) n j x A Hx) as (s2 & E2 & EO2 & L & _).
  cbn [rnn_ops o_tforward o_output] in E, EO. rewrite E in E2. injection E2 as <-. rewrite EO in EO2. injection EO2 as ->.
  exact (IH j k _ B L C2).
Qed.
Lemma rsplit : forall a b c d : list (rnode R), a ++ b = c ++ d -> length a = length c -> a = c /\ b = d.
Proof.
  induction a as [|h a IH]; intros b [|h' c] d E L; try discriminate; auto.
  cbn in E. injection E as -> E. destruct (IH b c d E) as (-> & ->); [now injection L|]. auto.
Qed.

Lemma upd_held (d : rnode R) : forall ss q, (q < length ss)%nat -> upd (map held ss) q (held (nth q ss d)) = map held ss.
Proof.
  induction ss as [|a b IH]; intros q Hq; [reflexivity|]. destruct q as [|q]; [reflexivity|].
  cbn [map upd nth]. f_equal. apply IH. cbn in Hq. lia.
Qed.

Lemma set_out_same (r : recl R) : PropRecurrent.set_out r (r_who r) (r_bo r) = r.
Proof. now destruct r. Qed.

(** The last recurrent layer and what is behind it, along curves of its output parameters and of
    the parameters behind. *)
Lemma tail_vjp (r : recl R) lcs n j k u cwho dwho cbo dbo : rnode_shape (RR r) n j -> rshape (map RL (map base lcs)) j k ->
  length u = n -> Forall lcurve_ok lcs -> vec_deriv (r_hid r * r_out r) cwho dwho -> vec_deriv (r_out r) cbo dbo ->
  cwho 0 = r_who r -> cbo 0 = r_bo r -> lsmooth (map base lcs) (fst (node_run (RR r) (held (RR r)) u)) ->
  exists run y w, (forall z, gforward rnn_ops (RR (PropRecurrent.set_out r (cwho z) (cbo z)) :: map (fun c => RL (at_t z c)) lcs) u
        = Ok (run z, y z)) /\
    vec_deriv k y w /\
    forall g, length g = k -> exists r1 tl gx, gbackward rnn_ops (run 0) u g = Ok (RR r1 :: tl, gx) /\
      length tl = length lcs /\
      dotl k g w = ddot (r_hid r * r_out r) (r_gwho r1) (r_gwho r) dwho + ddot (r_out r) (r_gbo r1) (r_gbo r) dbo
                   + gterms (map rc_layer lcs) tl.
Proof.
  intros HR HS Hu HO Dw Db W0 B0 Hsm.
  destruct (rec_out_vjp r n j u cwho dwho cbo dbo HR Hu Dw Db) as (f & v & F & D & B).
  assert (E0 : r_act (f 0) = fst (node_run (RR r) (held (RR r)) u)).
  { pose proof HR as (W & H2 & En & Ej). destruct (rec_forward_run r u W H2 ltac:(lia)) as (r' & E & _ & _ & EV).
    specialize (F 0). rewrite W0, B0, set_out_same, E in F. injection F as <-. cbn [held]. now rewrite <- EV. }
  assert (MB : map cbase (map rc_layer lcs) = map RL (map base lcs)) by (now rewrite !map_map).
  destruct (gchain_vjp rnn_ops rok rl_shape rl_smooth rkept rnode_vjp rok_0 (map rc_layer lcs) j k (fun z => r_act (f z)) v)
    as (run & y & w & F2 & D2 & B2).
  - rewrite MB. now apply rl_gshape.
  - apply Forall_forall. intros c Hc. apply in_map_iff in Hc. destruct Hc as (lc & <- & Hl). exists lc. split; [|reflexivity].
    rewrite Forall_forall in HO. now apply HO.
  - exact D.
  - rewrite MB. eapply rl_gsmooth; eauto. + apply D. + rewrite E0. exact Hsm.
  - exists (fun z => RR (f z) :: run z), y, w. split; [|split; [exact D2|]].
    + intros z. assert (E1 : o_tforward rnn_ops (RR (PropRecurrent.set_out r (cwho z) (cbo z))) u = Ok (RR (f z))).
      { cbn [rnn_ops o_tforward r_forward]. rewrite F. reflexivity. }
      cbn [gforward]. rewrite E1. cbn [bind]. change (o_output rnn_ops (RR (f z))) with (Ok (r_act (f z))). cbn [bind].
      specialize (F2 z). rewrite map_map in F2.
      change (fun x => cat (rc_layer x) z) with (fun c => RL (at_t z c)) in F2. rewrite F2. reflexivity.
    + intros g Hg. destruct (B2 g Hg) as (tl & gx & E & L & Q & K & _).
      destruct (B gx L) as (r1 & E1 & Q1). exists r1, tl, (r_ig r1). split; [|split].
      * cbn [gbackward]. change (o_output rnn_ops (RR (f 0))) with (Ok (r_act (f 0))). cbn [bind]. rewrite E. cbn [bind].
        change (o_backward rnn_ops (RR (f 0)) u gx) with (r' <- rec_backward (f 0) u gx ;; Ok (RR r')). rewrite E1. reflexivity.
      * pose proof (Forall2_len _ _ _ K) as LL. rewrite !map_length in LL. exact LL.
      * rewrite Q, Q1. ring.
Qed.

(** What a step does to a model, whatever its layers. *)
Lemma rstep_run m ss kd lo n k x t : rstack m ss [RO kd lo] n k -> (0 < k)%nat -> ls_in lo = k -> length (ls_grad lo) = k ->
  length x = n -> length t = k -> loss_defined kd t (fst (stack_run ss (map held ss) x)) ->
  exists ss1 ss2 lo2 g gx, gforward rnn_ops ss x = Ok (ss1, fst (stack_run ss (map held ss) x)) /\
    g = tab k (fun i => factor kd k lo * nth i (loss_grad kd t (fst (stack_run ss (map held ss) x))) 0) /\
    gbackward rnn_ops ss1 x g = Ok (ss2, gx) /\
    m_step rnn_ops m x t = Ok (mkModel (mgraph m) (splace 0 (ss2 ++ [RO kd lo2]))) /\
    rstack (mkModel (mgraph m) (splace 0 (ss2 ++ [RO kd lo2]))) ss2 [RO kd lo2] n k /\
    Forall2 rkept ss ss2 /\ map held ss2 = snd (stack_run ss (map held ss) x) /\
    ls_in lo2 = k /\ ls_grad lo2 = g /\ ls_inv lo2 = ls_inv lo /\
    ls_loss lo2 = loss_value kd t (fst (stack_run ss (map held ss) x)) /\ ls_cum lo2 = ls_cum lo + ls_loss lo2.
Proof.
  intros W Hk Hin HG Hx Ht HD. pose proof (rs_shape _ _ _ _ _ W) as HS.
  destruct (stack_forward ss n k x HS Hx) as (ss1 & EF & Ly & EH & _ & _). set (y := fst (stack_run ss (map held ss) x)) in *.
  destruct (loss_fwd kd lo t y k Hk Ht Ly Hin HD) as (lo1 & EL & T1 & I1 & G1 & V1 & Lo1 & C1).
  assert (HG1 : length (ls_grad lo1) = k) by (rewrite G1; exact HG).
  pose proof (loss_bwd kd lo1 t y k Hk T1 Ht Ly HG1 HD) as EB.
  assert (Ff : factor kd k lo1 = factor kd k lo) by (unfold factor; rewrite V1; reflexivity). rewrite Ff in EB.
  set (g := tab k (fun i => factor kd k lo * nth i (loss_grad kd t y) 0)) in *.
  assert (Hg : length g = k) by apply tab_length.
  destruct (stack_backward ss n k x ss1 y g HS Hx Hg EF) as (ss2 & gx & EG & _ & K & EH2 & HS2).
  destruct (rs_graph _ _ _ _ _ W) as (lossy & HC).
  assert (EL' : lossy = true).
  { pose proof (ic_nodes _ _ _ HC) as A. rewrite <- (rs_length _ _ _ _ _ W) in A.
    pose proof (f_equal (@length _) (rs_nodes _ _ _ _ _ W)) as B. rewrite map_length, app_length in B. cbn in B.
    destruct lossy; [reflexivity|lia]. }
  subst lossy. pose proof (Forall2_len _ _ _ K) as LL.
  exists ss1, ss2, (set_grad lo1 g), g, gx. split; [exact EF|]. split; [reflexivity|]. split; [exact EG|]. split.
  { eapply (step_chain rnn_ops (length ss) m ss (RO kd lo) x t ss1 y (RO kd lo1)); try apply W; auto.
    - cbn [rnn_ops o_tforward o_target r_target r_forward]. rewrite EL. reflexivity.
    - cbn [rnn_ops o_backward r_backward]. rewrite EB. reflexivity.
    - exact EG. }
  split.
  { constructor; cbn [mgraph mnodes]; rewrite ?LL.
    - eauto.
    - apply W.
    - assert (LN : length (splace 0 (ss2 ++ [RO kd (set_grad lo1 g)])) = length (ss2 ++ [RO kd (set_grad lo1 g)])).
      { rewrite <- (map_length fst), splace_fst. reflexivity. }
      rewrite LN, app_length, LL. cbn [length]. rewrite (ic_nodes _ _ _ HC). lia.
    - apply splace_fst.
    - exact HS2.
    - constructor; [eauto|constructor]. }
  split; [exact K|]. split; [rewrite EH2; exact EH|]. split; [exact I1|]. split; [reflexivity|]. split; [exact V1|].
  split; [exact Lo1|]. cbn [set_grad ls_cum ls_loss]. rewrite C1, Lo1. reflexivity.
Qed.

(** A training step runs the layers like a prediction does: it leaves the same states, and the
    parameters as they are. *)
Theorem c83_step_states : forall m ss kd lo n k x t, rstack m ss [RO kd lo] n k -> (0 < k)%nat -> ls_in lo = k ->
  length (ls_grad lo) = k -> length x = n -> length t = k ->
  (forall m' y, m_predict rnn_ops m x = Ok (m', y) -> loss_defined kd t y) ->
  exists m1 m2 y ss2 lo2, m_predict rnn_ops m x = Ok (m1, y) /\ m_step rnn_ops m x t = Ok m2 /\ states m2 = states m1 /\
    rstack m2 ss2 [RO kd lo2] n k /\ Forall2 rkept ss ss2 /\ length (ls_grad lo2) = k /\ ls_in lo2 = k /\ ls_inv lo2 = ls_inv lo /\
    ls_loss lo2 = loss_value kd t y /\ ls_cum lo2 = ls_cum lo + ls_loss lo2.
Proof.
  intros m ss kd lo n k x t W Hk Hin HG Hx Ht HD.
  destruct (rstack_predict m ss _ n k x W Hx) as (m1 & s1 & E1 & _ & W1 & _ & EH1). specialize (HD _ _ E1).
  destruct (rstep_run m ss kd lo n k x t W Hk Hin HG Hx Ht HD) as (ss1 & ss2 & lo2 & g & gx & _ & Eg & _ & ES & W2 & K & EH2 & I2 & G2 & V2 & L2 & C2).
  exists m1. eexists. exists (fst (stack_run ss (map held ss) x)), ss2, lo2.
  split; [exact E1|]. split; [exact ES|]. split.
  { rewrite (rstack_states _ _ _ _ _ W1), (rstack_states _ _ _ _ _ W2), EH1, EH2. reflexivity. }
  split; [exact W2|]. split; [exact K|]. split; [rewrite G2, Eg; apply tab_length|]. auto.
Qed.
Print Assumptions c83_step_states.

(** From the last recurrent layer on, a step adds to the gradients what it should: [factor] times the
    partial derivatives of the cost from the states the model is in, for the output weights and
    output biases of that layer and for all parameters behind it. The hidden weights of the
    recurrent layers and everything in front of the last one get other numbers
    ([c83_step_hidden_refuted]). *)
Theorem c83_step_partial : forall m pre r ls kd lo n k x t,
  rstack m (pre ++ RR r :: map RL ls) [RO kd lo] n k -> (0 < k)%nat -> ls_in lo = k ->
  length (ls_grad lo) = k -> length x = n -> length t = k ->
  lsmooth ls (fst (stack_run (pre ++ [RR r]) (map held (pre ++ [RR r])) x)) ->
  (forall m' y, m_predict rnn_ops m x = Ok (m', y) -> loss_defined kd t y) ->
  exists m' ss' lo', m_step rnn_ops m x t = Ok m' /\ rstack m' ss' [RO kd lo'] n k /\
    rstep_adds kd (factor kd k lo) m (x, t) (length pre) (pre ++ RR r :: map RL ls) ss'.
Proof.
  intros m pre r ls kd lo n k x t W Hk Hin HG Hx Ht Hsm HD0. set (ss := pre ++ RR r :: map RL ls) in *.
  assert (HD : loss_defined kd t (fst (stack_run ss (map held ss) x))).
  { destruct (rstack_predict m ss _ n k x W Hx) as (m1 & _ & E1 & _). exact (HD0 _ _ E1). }
  clear HD0. destruct (rstep_run m ss kd lo n k x t W Hk Hin HG Hx Ht HD)
    as (ss1 & ss2 & lo2 & g & gx & EF & Eg & EB & ES & W2 & K & _).
  eexists. exists ss2, lo2. split; [exact ES|]. split; [exact W2|].
  pose proof (rs_shape _ _ _ _ _ W) as HS. unfold ss in HS. apply rshape_app in HS. destruct HS as (i & HS1 & j & HSr & HS3).
  destruct (stack_forward pre n i x HS1 Hx) as (pre1 & EP & Lu & EHp & Kp & _). set (u := fst (stack_run pre (map held pre) x)) in *.
  (* what the last recurrent layer gets *)
  assert (Hr : fst (stack_run (pre ++ [RR r]) (map held (pre ++ [RR r])) x) = fst (node_run (RR r) (held (RR r)) u)).
  { assert (G : forall a Hs v, length Hs = length a -> fst (stack_run (a ++ [RR r]) (Hs ++ [held (RR r)]) v)
        = fst (node_run (RR r) (held (RR r)) (fst (stack_run a Hs v)))).
    { clear. induction a as [|s a IH]; intros [|H Hs] v L; try discriminate.
      - cbn [app stack_run fst]. now destruct (node_run (RR r) (held (RR r)) v).
      - cbn [app stack_run]. destruct (node_run s H v) as (y & H'). specialize (IH Hs y ltac:(now injection L)).
        destruct (stack_run (a ++ [RR r]) (Hs ++ [held (RR r)]) y). destruct (stack_run a Hs y). exact IH. }
    rewrite map_app. cbn [map]. rewrite G by apply map_length. reflexivity. }
  rewrite Hr in Hsm.
  assert (Hg : length g = k) by (rewrite Eg; apply tab_length).
  (* the chain rule along any curve of the parameters behind *)
  assert (V : forall lcs cwho dwho cbo dbo, map base lcs = ls -> Forall lcurve_ok lcs ->
    vec_deriv (r_hid r * r_out r) cwho dwho -> vec_deriv (r_out r) cbo dbo -> cwho 0 = r_who r -> cbo 0 = r_bo r ->
    (forall z, rshape (RR (PropRecurrent.set_out r (cwho z) (cbo z)) :: map (fun c => RL (at_t z c)) lcs) i k) ->
    exists d r1 tl pre2, ss2 = pre2 ++ RR r1 :: tl /\ length pre2 = length pre /\ length tl = length lcs /\
      derivable_pt_lim (fun z => loss_value kd t (fst (stack_run (pre ++ RR (PropRecurrent.set_out r (cwho z) (cbo z)) :: map (fun c => RL (at_t z c)) lcs)
         (map held ss) x))) 0 d /\
      factor kd k lo * d = ddot (r_hid r * r_out r) (r_gwho r1) (r_gwho r) dwho + ddot (r_out r) (r_gbo r1) (r_gbo r) dbo
                   + gterms (map rc_layer lcs) tl).
  { intros lcs cwho dwho cbo dbo Hb Hok Dw Db W0 B0 HZ.
    destruct (tail_vjp r lcs i j k u cwho dwho cbo dbo HSr ltac:(rewrite Hb; exact HS3) Lu Hok Dw Db W0 B0 ltac:(rewrite Hb; exact Hsm))
      as (run & y & w & F & D & B).
    assert (A0 : RR (PropRecurrent.set_out r (cwho 0) (cbo 0)) :: map (fun c => RL (at_t 0 c)) lcs = RR r :: map RL ls).
    { rewrite W0, B0, set_out_same. f_equal. rewrite <- Hb, map_map. apply map_ext_in. intros c Hc. f_equal.
      rewrite Forall_forall in Hok. destruct (Hok c Hc) as (X & Y & _). unfold at_t. rewrite X, Y. now destruct (base c). }
    assert (R0 : ss1 = pre1 ++ run 0 /\ y 0 = fst (stack_run ss (map held ss) x)).
    { pose proof (gforward_app rnn_ops pre _ x pre1 u (run 0) (y 0) EP (F 0)) as E. rewrite A0 in E. fold ss in E. rewrite EF in E.
      injection E as -> ->. auto. }
    destruct R0 as (R0 & Y0).
    destruct (B g Hg) as (r1 & tl & gx1 & EB1 & Lt & Q).
    assert (HB : exists pre2 gx2, gbackward rnn_ops pre1 x gx1 = Ok (pre2, gx2) /\ length pre2 = length pre).
    { assert (Lg1 : length gx1 = i).
      { destruct (stack_backward (RR r :: map RL ls) i k u (run 0) (y 0) g) as (s9 & g9 & E9 & L9 & _); auto.
        - exists j. auto.
        - rewrite <- A0. apply F.
        - rewrite EB1 in E9. injection E9 as _ <-. exact L9. }
      destruct (stack_backward pre n i x pre1 u gx1 HS1 Hx Lg1 EP) as (pre2 & gx2 & E2 & _ & K2 & _).
      exists pre2, gx2. split; [exact E2|]. exact (Forall2_len _ _ _ K2). }
    destruct HB as (pre2 & gx2 & EB2 & Lp2).
    pose proof (gbackward_app rnn_ops pre (run 0) x pre1 u (RR r1 :: tl) g gx1 pre2 gx2 EP EB1 EB2) as E. rewrite <- R0, EB in E.
    injection E as E2 _.
    exists (dotl k (loss_grad kd t (y 0)) w), r1, tl, pre2. split; [exact E2|]. split; [exact Lp2|]. split; [exact Lt|]. split.
    - eapply derivable_pt_lim_ext; [|apply (loss_curve kd t k y w D Hk); rewrite Y0; exact HD]. intros z. cbv beta. f_equal.
      pose proof (gforward_app rnn_ops pre _ x pre1 u (run z) (y z) EP (F z)) as E.
      set (sz := pre ++ RR (PropRecurrent.set_out r (cwho z) (cbo z)) :: map (fun c => RL (at_t z c)) lcs) in *.
      assert (HSz : rshape sz n k) by (apply rshape_app; exists i; split; [exact HS1|apply HZ]).
      destruct (stack_forward sz n k x HSz Hx) as (s9 & E9 & _). rewrite E in E9. injection E9 as _ ->.
      replace (map held ss) with (map held sz); [reflexivity|]. unfold sz, ss. rewrite !map_app. cbn [map]. f_equal. f_equal.
      rewrite <- Hb, !map_map. reflexivity.
    - rewrite <- Q, Eg, dotl_scale, Y0. reflexivity. }
  pose proof HSr as (Wr & H2 & En & Ej).
  assert (MV : forall q s', (q < length ss)%nat -> rshape (upd ss q s') n k -> held s' = held (nth q ss (RR r)) ->
    rcost kd (rput m q s') x t (loss_value kd t (fst (stack_run (upd ss q s') (map held ss) x)))).
  { intros q s' Hq HS' HH. pose proof (rcost_rstack kd _ _ _ n k x t (rput_rstack m ss _ n k q s' W Hq HS') Hx) as C.
    replace (map held (upd ss q s')) with (map held ss) in C; [exact C|]. rewrite map_upd, HH.
    symmetry. now apply upd_held. }
  assert (FZ : map base (map frozen ls) = ls) by (rewrite map_map; cbn [frozen base]; apply map_id).
  assert (FO : Forall lcurve_ok (map frozen ls)).
  { apply Forall_forall. intros c Hc. apply in_map_iff in Hc. destruct Hc as (l & <- & _). apply frozen_ok. }
  assert (FA : forall z (l : list (layer R)), map (fun c => RL (at_t z c)) (map frozen l) = map RL l).
  { intros z l. rewrite map_map. apply map_ext. intros a. now rewrite at_t_frozen. }
  assert (GT : forall l tl, gterms (map rc_layer (map frozen l)) tl = 0).
  { intros l tl. rewrite map_map. exact (rstill_terms l tl). }
  intros q s Hq Es. destruct (Nat.eq_dec q (length pre)) as [->|Hne].
  - (* the recurrent layer *)
    unfold ss in Es. rewrite nth_error_mid in Es. injection Es as <-.
    assert (Lq : (length pre < length ss)%nat) by (unfold ss; rewrite app_length; cbn; lia).
    assert (NQ : nth (length pre) ss (RR r) = RR r) by (unfold ss; rewrite app_nth2, Nat.sub_diag by lia; reflexivity).
    assert (UP : forall s', upd ss (length pre) s' = pre ++ s' :: map RL ls) by (intros; apply upd_mid).
    assert (SH : forall who bo, length who = length (r_who r) -> length bo = length (r_bo r) ->
      rshape (RR (PropRecurrent.set_out r who bo) :: map RL ls) i k).
    { intros who bo L1 L2. exists j. split; [|exact HS3]. split; [|cbn; auto].
      apply set_out_wf; [exact Wr|rewrite L1; apply Wr|rewrite L2; apply Wr]. }
    assert (Lw : length (r_who r) = (r_hid r * r_out r)%nat) by apply Wr. assert (Lb : length (r_bo r) = r_out r) by apply Wr.
    destruct (V (map frozen ls) (fun _ => r_who r) (repeat 0 (length (r_who r))) (fun _ => r_bo r) (repeat 0 (length (r_bo r))))
      as (_ & r1 & tl & pre2 & E2 & Lp & _); auto.
    { rewrite <- Lw. apply const_deriv. } { rewrite <- Lb. apply const_deriv. }
    { intros z. rewrite FA. now apply SH. }
    exists (RR r1). split; [rewrite E2, <- Lp; apply nth_error_mid|]. cbn [out_weights out_biases out_wgrads out_bgrads]. split; intros p Hp.
    + destruct (V (map frozen ls) (line (r_who r) p) (unit_vec (length (r_who r)) p) (fun _ => r_bo r) (repeat 0 (length (r_bo r))))
        as (d & r2 & tl2 & pre3 & E3 & Lp3 & _ & D & Q); auto.
      { rewrite <- Lw. now apply line_deriv. } { rewrite <- Lb. apply const_deriv. } { apply line_0. }
      { intros z. rewrite FA. apply SH; [apply line_length|reflexivity]. }
      rewrite E2 in E3. apply rsplit in E3; [|congruence]. destruct E3 as (_ & E3). injection E3 as -> ->.
      exists d. split.
      * eexists. split; [|exact D]. intros z. cbv beta. rewrite FA. rewrite <- UP. apply MV; [exact Lq| |now rewrite NQ].
        rewrite UP. apply rshape_app. exists i. split; [exact HS1|]. apply SH; [apply line_length|reflexivity].
      * rewrite Q, GT, ddot_zero, <- Lw, ddot_unit by exact Hp. ring.
    + destruct (V (map frozen ls) (fun _ => r_who r) (repeat 0 (length (r_who r))) (line (r_bo r) p) (unit_vec (length (r_bo r)) p))
        as (d & r2 & tl2 & pre3 & E3 & Lp3 & _ & D & Q); auto.
      { rewrite <- Lw. apply const_deriv. } { rewrite <- Lb. now apply line_deriv. } { apply line_0. }
      { intros z. rewrite FA. apply SH; [reflexivity|apply line_length]. }
      rewrite E2 in E3. apply rsplit in E3; [|congruence]. destruct E3 as (_ & E3). injection E3 as -> ->.
      exists d. split.
      * eexists. split; [|exact D]. intros z. cbv beta. rewrite FA. rewrite <- UP. apply MV; [exact Lq| |now rewrite NQ].
        rewrite UP. apply rshape_app. exists i. split; [exact HS1|]. apply SH; [reflexivity|apply line_length].
      * rewrite Q, GT, ddot_zero, <- Lb, ddot_unit by exact Hp. ring.
  - (* a layer behind it *)
    assert (Hq2 : (length pre < q)%nat) by lia.
    unfold ss in Es. rewrite nth_error_app2 in Es by lia.
    destruct (q - length pre)%nat as [|q1] eqn:Eq; [lia|]. cbn [nth_error] in Es.
    rewrite nth_error_map in Es. destruct (nth_error ls q1) as [l|] eqn:El; [|discriminate]. cbn in Es. injection Es as <-.
    apply nth_error_split in El. destruct El as (la & lb & Els & Lla).
    assert (Ess : ss = (pre ++ RR r :: map RL la) ++ RL l :: map RL lb).
    { unfold ss. rewrite Els, map_app, <- app_assoc. reflexivity. }
    assert (Eq2 : q = length (pre ++ RR r :: map RL la)).
    { rewrite app_length. cbn [length]. rewrite map_length. lia. }
    assert (Lq : (q < length ss)%nat) by (rewrite Ess, app_length; cbn [length]; lia).
    assert (NQ : nth q ss (RR r) = RL l).
    { rewrite Ess, Eq2, app_nth2, Nat.sub_diag by lia. reflexivity. }
    assert (UP : forall s', upd ss q s' = pre ++ RR r :: map RL la ++ s' :: map RL lb).
    { intros s'. rewrite Ess, Eq2, upd_mid, <- app_assoc. reflexivity. }
    assert (SH : forall l', same_sizes l l' -> rshape (RR r :: map RL la ++ RL l' :: map RL lb) i k).
    { intros l' HSz. exists j. split; [exact HSr|]. rewrite Els, map_app in HS3. apply rshape_app in HS3.
      destruct HS3 as (a & A1 & b & A2 & A3). apply rshape_app. exists a. split; [exact A1|]. exists b. split; [|exact A3]. now apply HSz. }
    assert (CV : forall lc, base lc = l -> lcurve_ok lc -> (forall z, same_sizes l (at_t z lc)) ->
      exists d l2, nth_error ss2 q = Some (RL l2) /\
        (forall z, rcost kd (rput m q (RL (at_t z lc))) x t (loss_value kd t (fst (stack_run (upd ss q (RL (at_t z lc))) (map held ss) x)))) /\
        derivable_pt_lim (fun z => loss_value kd t (fst (stack_run (upd ss q (RL (at_t z lc))) (map held ss) x))) 0 d /\
        factor kd k lo * d = cterm (rc_layer lc) (RL l2)).
    { intros lc Hb Hok Hsz.
      assert (FM : forall z, map (fun c => RL (at_t z c)) (map frozen la ++ lc :: map frozen lb) = map RL la ++ RL (at_t z lc) :: map RL lb).
      { intros z. rewrite map_app, map_cons, !FA. reflexivity. }
      destruct (V (map frozen la ++ lc :: map frozen lb) (fun _ => r_who r) (repeat 0 (length (r_who r))) (fun _ => r_bo r) (repeat 0 (length (r_bo r))))
        as (d & r1 & tl & pre2 & E2 & Lp & Lt & D & Q); auto.
      { rewrite map_app, map_cons, Hb, !map_map. cbn [frozen base]. rewrite !map_id. symmetry. exact Els. }
      { rewrite Els, map_app in FO. cbn [map] in FO. apply Forall_app in FO. destruct FO as (X & Y). inversion Y; subst.
        apply Forall_app. split; [exact X|]. constructor; assumption. }
      { replace (r_hid r * r_out r)%nat with (length (r_who r)) by apply Wr. apply const_deriv. }
      { replace (r_out r) with (length (r_bo r)) by apply Wr. apply const_deriv. }
      { intros z. rewrite FM, set_out_same. now apply SH. }
      rewrite !ddot_zero, !Rplus_0_l in Q. rewrite app_length in Lt. cbn [length] in Lt. rewrite !map_length in Lt.
      assert (ET : exists t1 s2 t2, tl = t1 ++ s2 :: t2 /\ length t1 = length la).
      { exists (firstn (length la) tl). destruct (skipn (length la) tl) as [|s2 t2] eqn:EK.
        - apply (f_equal (@length _)) in EK. rewrite skipn_length in EK. cbn in EK. lia.
        - exists s2, t2. split; [rewrite <- EK; symmetry; apply firstn_skipn|]. rewrite firstn_length. lia. }
      destruct ET as (t1 & s2 & t2 & -> & Lt1).
      rewrite map_app, map_cons, !map_map in Q. change (fun l0 => rc_layer (frozen l0)) with rstill in Q.
      rewrite (rterms_mid la (rc_layer lc) lb t1 s2 t2 Lt1) in Q.
      assert (EN : nth_error ss2 q = Some s2).
      { rewrite E2. replace (pre2 ++ RR r1 :: t1 ++ s2 :: t2) with ((pre2 ++ RR r1 :: t1) ++ s2 :: t2) by (now rewrite <- app_assoc).
        replace q with (length (pre2 ++ RR r1 :: t1)); [apply nth_error_mid|]. rewrite Eq2, !app_length. cbn [length]. rewrite map_length. lia. }
      assert (KQ : exists l2, s2 = RL l2).
      { rewrite Ess in K. apply Forall2_app_inv_l in K. destruct K as (k1 & k2 & K1 & K2 & EK). inversion K2 as [|? s9 ? k3 K3 K4]; subst k2.
        pose proof (Forall2_len _ _ _ K1) as LK. rewrite EK in EN.
        replace q with (length k1) in EN by (rewrite LK; now symmetry). rewrite nth_error_mid in EN. injection EN as ->.
        destruct s2; try contradiction. eauto. }
      destruct KQ as (l2 & ->). exists d, l2. split; [exact EN|]. split.
      - intros z. apply MV; [exact Lq| |now rewrite NQ]. rewrite UP. apply rshape_app. exists i. split; [exact HS1|]. now apply SH.
      - split; [|exact Q]. eapply derivable_pt_lim_ext; [|exact D]. intros z. cbv beta. rewrite FM, set_out_same, UP. reflexivity. }
    destruct (CV (frozen l) eq_refl (frozen_ok l)) as (_ & l2 & EN & _).
    { intros z. rewrite at_t_frozen. intros a b X. exact X. }
    exists (RL l2). split; [exact EN|]. cbn [out_weights out_biases out_wgrads out_bgrads rmove_weight rmove_bias]. split; intros p Hp.
    + destruct (CV (wcurve l p) eq_refl (wcurve_ok l p Hp) (fun z => with_weight_sizes l p z)) as (d & l3 & EN' & C & D & Q).
      rewrite EN in EN'. injection EN' as <-. exists d. split; [eexists; split; [exact C|exact D]|].
      rewrite Q. cbn [rc_layer cterm wcurve dw db base]. unfold unit_vec at 1. rewrite tab_length, ddot_unit, ddot_zero by auto. ring.
    + destruct (CV (bcurve l p) eq_refl (bcurve_ok l p Hp) (fun z => with_bias_sizes l p z)) as (d & l3 & EN' & C & D & Q).
      rewrite EN in EN'. injection EN' as <-. exists d. split; [eexists; split; [exact C|exact D]|].
      rewrite Q. cbn [rc_layer cterm bcurve dw db base]. unfold unit_vec at 1. rewrite tab_length, ddot_unit, ddot_zero by auto. ring.
Qed.
Print Assumptions c83_step_partial.

(** *** Where models with recurrent layers go wrong *)
Lemma rnn_chain (lossy : bool) ss post n k : (2 <= length ss)%nat -> rshape ss n k ->
  post = (if lossy then [nth 0 post (RO CCE (loss_new 0 0))] else []) -> Forall (fun s => exists kd lo, s = RO kd lo) post ->
  exists m, rstack m ss post n k.
Proof.
  intros HL HS HP HF. destruct (c36_built lossy (length ss) HL) as (s & E & H1 & H2 & H3 & H4 & H5).
  pose proof (is_chain_built _ _ lossy (length ss) E HL H1 H2 H3 H4 H5) as HC.
  exists (mkModel s (map (fun s => (s, SNull)) (ss ++ post))). constructor; cbn [mgraph mnodes].
  - eauto.
  - lia.
  - rewrite map_length, app_length, (ic_nodes _ _ _ HC), HP. destruct lossy; cbn; lia.
  - rewrite map_map. cbn [fst]. apply map_id.
  - exact HS.
  - exact HF.
Qed.

Definition ex_lin2 : layer R := mkLayer (KAct Linear) 2 [] [] [] [] [0; 0] [0; 0].
Lemma ex_lin2_shape : lshape ex_lin2 2 2.
Proof. repeat split; cbn; auto with arith. Qed.
Lemma one_unit_shape a b : rnode_shape (RR (one_unit a b)) 2 2.
Proof. split; [apply one_unit_wf|]. cbn. repeat split; lia. Qed.
Lemma ex_stack_shape a b : rshape [RR (one_unit a b); RL ex_lin2] 2 2.
Proof. exists 2%nat. split; [apply one_unit_shape|]. exists 2%nat. split; [apply ex_lin2_shape|reflexivity]. Qed.

(** Predicting the same input twice gives two results: the first call leaves a state behind. *)
Theorem c83_repeat_refuted : exists m ss post n k x m1 y1 m2 y2, rstack m ss post n k /\ length x = n /\
  m_predict rnn_ops m x = Ok (m1, y1) /\ m_predict rnn_ops m1 x = Ok (m2, y2) /\ y1 <> y2.
Proof.
  set (ss := [RR (one_unit 1 1); RL ex_lin2]).
  destruct (rnn_chain false ss [] 2 2 ltac:(cbn; lia) (ex_stack_shape 1 1) eq_refl (Forall_nil _)) as (m & W).
  destruct (rstack_predict m ss [] 2 2 [0; 1] W eq_refl) as (m1 & ss1 & E1 & _ & W1 & K1 & H1).
  destruct (rstack_predict m1 ss1 [] 2 2 [0; 1] W1 eq_refl) as (m2 & ss2 & E2 & _ & W2 & K2 & H2).
  rewrite H1, (rkept_stack ss ss1 _ _ K1) in E2.
  exists m, ss, [], 2%nat, 2%nat, [0; 1], m1. eexists. exists m2. eexists. split; [exact W|]. split; [reflexivity|]. split; [exact E1|]. split; [exact E2|].
  intros E. apply (f_equal (fun l => nth 0 l 0)) in E. cbv -[Rplus Rmult tanh IZR] in E.
  ring_simplify (0 + 1 * 0 + (0 + 1 * 0) + 0) in E. ring_simplify (0 + 1 * 0) in E. rewrite ?Rplus_0_l, ?Rplus_0_r, ?Rmult_1_l, tanh_0 in E.
  symmetry in E. revert E. apply tanh_nonzero, tanh_nonzero. lra.
Qed.
Print Assumptions c83_repeat_refuted.

(** With one time step [c83_pieces] fails: the old state is overwritten before it is used
    ([c26_single_step_refuted]). *)
Definition single (a b : R) : recl R := mkRec 1 1 1 1 [a] [b] [1] [0] [0] [0] [0] [0] [0] [0] [0] [0] [0].
Lemma single_wf a b : rec_wf (single a b).
Proof. constructor; reflexivity. Qed.
Theorem c83_single_refuted : exists m ss xs m1 m2 ys y,
  (exists lossy, is_chain lossy (length ss) (mgraph m)) /\ length (mnodes m) = nodes (mgraph m) /\ map fst (mnodes m) = ss /\
  Forall (fun s => exists r, s = RR r /\ rec_wf (r : recl R) /\ r_steps r = 1%nat /\ r_in r = 1%nat /\ r_out r = 1%nat) ss /\
  Forall (fun x => length x = 1%nat) xs /\
  predict_all m xs = Ok (m1, ys) /\ m_predict rnn_ops (set_steps (length xs) m) (concat xs) = Ok (m2, y) /\ y <> concat ys.
Proof.
  set (ss := [RR (single 1 1); RR (single 1 0)]).
  destruct (c36_built false 2 (le_n 2)) as (s & E & H1 & H2 & H3 & H4 & H5).
  pose proof (is_chain_built _ _ false 2 E (le_n 2) H1 H2 H3 H4 H5) as HC.
  set (m := mkModel s (map (fun s => (s, SNull)) ss)).
  assert (HN : length (mnodes m) = nodes (mgraph m)) by (cbn; rewrite (ic_nodes _ _ _ HC); reflexivity).
  assert (P : forall m0 s0 s1 x y, mgraph m0 = s -> map fst (mnodes m0) = s0 -> length s0 = 2%nat -> gforward rnn_ops s0 x = Ok (s1, y) ->
    exists m', m_predict rnn_ops m0 x = Ok (m', y) /\ mgraph m' = s /\ map fst (mnodes m') = s1).
  { intros m0 s0 s1 x y G M L EF.
    destruct (predict_g rnn_ops (fun _ _ => eq_refl) false m0 s0 [] x s1 y) as (m' & EP & G' & N').
    - rewrite G, L. exact HC.
    - lia.
    - rewrite G, (ic_nodes _ _ _ HC), <- (map_length fst), M, L. reflexivity.
    - rewrite app_nil_r. exact M.
    - exact EF.
    - exists m'. rewrite app_nil_r in N'. split; [exact EP|]. split; [congruence|exact N']. }
  assert (F1 : exists s1 y1, gforward rnn_ops ss [1] = Ok (s1, [y1]) /\ length s1 = 2%nat /\
    exists s2, gforward rnn_ops s1 [0] = Ok (s2, [0])).
  { eexists. eexists. split; [cbv -[Rplus Rmult tanh IZR]; reflexivity|]. split; [reflexivity|].
    eexists. cbv -[Rplus Rmult tanh IZR]. do 5 f_equal.
    replace (0 + 1 * 0 + (0 + 1 * (0 + 1 * 0)) + 0) with 0 by ring. rewrite tanh_0.
    replace (0 + 1 * (0 + 1 * 0 + 0) + (0 + 0 * (0 + 1 * (0 + 1 * 0 + 0))) + 0) with 0 by ring. rewrite tanh_0. ring. }
  destruct F1 as (s1 & y1 & F1 & L1 & s2 & F2).
  assert (F3 : exists s3 z, gforward rnn_ops (map fst (mnodes (set_steps 2 m))) [1; 0] = Ok (s3, [z; tanh (tanh (tanh 1))])).
  { eexists. eexists. cbv -[Rplus Rmult tanh IZR]. do 5 f_equal.
    replace (0 + 1 * 1 + (0 + 1 * 0) + 0) with 1 by ring.
    replace (0 + 1 * 0 + (0 + 1 * tanh 1) + 0) with (tanh 1) by ring.
    match goal with |- 0 + 1 * tanh ?e + 0 = _ => replace e with (tanh (tanh 1)) by ring end. ring. }
  destruct F3 as (s3 & z & F3).
  destruct (P m ss s1 [1] [y1] eq_refl eq_refl eq_refl F1) as (m1 & P1 & G1 & M1).
  destruct (P m1 s1 s2 [0] [0] G1 M1 L1 F2) as (m2 & P2 & _ & _).
  destruct (P (set_steps 2 m) _ s3 [1; 0] _ eq_refl eq_refl eq_refl F3) as (m3 & P3 & _ & _).
  exists m, ss, [[1]; [0]], m2, m3, [[y1]; [0]], [z; tanh (tanh (tanh 1))].
  split; [exists false; exact HC|]. split; [exact HN|]. split; [reflexivity|]. split; [|split; [|split; [|split]]].
  - unfold ss. repeat constructor; eexists; (split; [reflexivity|]); (split; [apply single_wf|]); repeat split.
  - repeat constructor.
  - cbn [predict_all]. rewrite P1. cbn [bind]. rewrite P2. reflexivity.
  - exact P3.
  - intros Q. injection Q as _ Q. revert Q. do 3 apply tanh_nonzero. lra.
Qed.
Print Assumptions c83_single_refuted.

(** The hidden weights: here the cost does not change, to first order, with W_hh, but the step adds
    a number other than 0 to its gradient. *)
Definition rmove_hidden (r : recl R) (p : nat) (z : R) : recl R :=
  mkRec (r_in r) (r_out r) (r_hid r) (r_steps r) (r_wih r) (line (r_whh r) p z) (r_who r) (r_bh r) (r_bo r)
    (r_gwih r) (r_gwhh r) (r_gwho r) (r_gbh r) (r_gbo r) (r_hs r) (r_act r) (r_ig r).
Lemma one_unit_backward_g b h1 h2 x0 x1 act g :
  exists l2, rec_backward (set_forward (one_unit 1 b) [h2; h1] act) [x0; x1] [g; 0] = Ok l2 /\ r_gwhh l2 = [tanh_1 h1 * g * h2].
Proof.
  eexists. split; [cbv -[Rplus Rmult tanh_1 IZR]; reflexivity|].
  cbv -[Rplus Rmult tanh_1 IZR]. apply f_equal2; [ring|reflexivity].
Qed.
Lemma ex_stack_run z : fst (stack_run [RR (one_unit 1 z); RL ex_lin2] (map held [RR (one_unit 1 0); RL ex_lin2]) [1; 1])
  = [tanh 1; tanh (1 + z * tanh 1)].
Proof.
  cbv -[Rplus Rmult tanh IZR].
  replace (0 + 1 * 1 + (0 + z * 0) + 0) with 1 by ring.
  replace (0 + 1 * 1 + (0 + z * tanh 1) + 0) with (1 + z * tanh 1) by ring. apply f_equal2; [ring|]. apply f_equal2; [ring|reflexivity].
Qed.
Theorem c83_step_hidden_refuted : exists m r ls kd lo n k x t m' r' ls' lo' d,
  rstack m (RR r :: ls) [RO kd lo] n k /\ (0 < k)%nat /\ ls_in lo = k /\ length (ls_grad lo) = k /\ length x = n /\ length t = k /\
  (forall y, loss_defined kd t y) /\
  m_step rnn_ops m x t = Ok m' /\ rstack m' (RR r' :: ls') [RO kd lo'] n k /\ (0 < length (r_whh r))%nat /\
  rpartial kd m 0 (fun z => RR (rmove_hidden r 0 z)) (x, t) d /\
  nth 0 (r_gwhh r') 0 <> nth 0 (r_gwhh r) 0 + factor kd k lo * d.
Proof.
  set (ss := [RR (one_unit 1 0); RL ex_lin2]). set (lo := loss_new 2 1 : lossl R). set (t := [0; tanh 1]).
  destruct (rnn_chain true ss [RO (MSE 1) lo] 2 2 ltac:(cbn; lia) (ex_stack_shape 1 0) eq_refl ltac:(constructor; eauto)) as (m & W).
  destruct (rstep_run m ss (MSE 1) lo 2 2 [1; 1] t W ltac:(lia) eq_refl eq_refl eq_refl eq_refl I)
    as (ss1 & ss2 & lo2 & g & gx & EF & Eg & EB & ES & W2 & _).
  unfold ss in EF, Eg. rewrite ex_stack_run in EF, Eg. rewrite Rmult_0_l, Rplus_0_r in EF, Eg.
  assert (Ht : 0 < tanh 1).
  { destruct (tanh_slope 1) as (c & Q & _). rewrite Q. pose proof (tanh_sq c). lra. }
  assert (Hf : factor (MSE 1) 2 lo = 2).
  { unfold factor, lo. cbn. field. }
  assert (G : g = [2 * tanh 1; 0]).
  { subst g. rewrite Hf. unfold t, loss_grad. cbn [length tab map seq nth]. cbv [tab map seq nth]. cbn [INR].
    apply f_equal2; [field|]. apply f_equal2; [field|reflexivity]. }
  assert (F : gforward rnn_ops ss [1; 1] = Ok ([RR (set_forward (one_unit 1 0) [tanh 1; tanh 1] [tanh 1; tanh 1]);
      RL (LayerModel.set_out ex_lin2 [tanh 1; tanh 1])], [tanh 1; tanh 1])).
  { unfold ss. cbn [gforward]. cbn [rnn_ops o_tforward r_forward]. rewrite one_unit_forward.
    replace (1 * 1 + 0 * tanh (1 * 1)) with 1 by ring. rewrite Rmult_1_r. reflexivity. }
  unfold ss in F. rewrite F in EF. injection EF as <-. subst g.
  assert (B : exists l2 r2, gbackward rnn_ops [RR (set_forward (one_unit 1 0) [tanh 1; tanh 1] [tanh 1; tanh 1]);
      RL (LayerModel.set_out ex_lin2 [tanh 1; tanh 1])] [1; 1] [2 * tanh 1; 0] = Ok ([RR r2; RL l2], r_ig r2) /\
      r_gwhh r2 = [tanh_1 (tanh 1) * (2 * tanh 1) * tanh 1]).
  { destruct (one_unit_backward_g 0 (tanh 1) (tanh 1) 1 1 [tanh 1; tanh 1] (2 * tanh 1)) as (r2 & E2 & Q2).
    eexists. exists r2. split; [|exact Q2]. cbn [gbackward rnn_ops o_output r_output bind].
    assert (EL : layer_backward (LayerModel.set_out ex_lin2 [tanh 1; tanh 1]) [tanh 1; tanh 1] [2 * tanh 1; 0]
       = Ok (mkLayer (KAct Linear) 2 [] [] [] [] [tanh 1; tanh 1] [2 * tanh 1; 0])).
    { cbv -[Rplus Rmult tanh IZR]. repeat f_equal; ring. }
    cbn [r_act set_forward out LayerModel.set_out o_backward r_backward].
    cbn [rnn_ops o_backward r_backward o_gradient r_gradient].
    rewrite EL. cbn [bind ig rnn_ops o_backward r_backward o_gradient r_gradient]. rewrite E2. reflexivity. }
  destruct B as (l2 & r2 & B & Q2). rewrite G, B in EB. injection EB as <- _.
  exists m, (one_unit 1 0), [RL ex_lin2], (MSE 1), lo, 2%nat, 2%nat, [1; 1], t.
  eexists. exists r2, [RL l2], lo2, 0. split; [exact W|]. split; [lia|]. split; [reflexivity|]. split; [reflexivity|]. split; [reflexivity|].
  split; [reflexivity|]. split; [exact (fun _ => I)|]. split; [exact ES|]. split; [exact W2|]. split; [cbn; lia|]. split.
  - set (y := fun z : R => [tanh 1; tanh (1 + z * tanh 1)]). exists (fun z => loss_value (MSE 1) t (y z)). split.
    + intros z. unfold y. rewrite <- ex_stack_run.
      assert (HZ : RR (rmove_hidden (one_unit 1 0) 0 z) = RR (one_unit 1 z)).
      { unfold rmove_hidden, one_unit. cbn [r_in r_out r_hid r_steps r_wih r_whh r_who r_bh r_bo r_gwih r_gwhh r_gwho r_gbh r_gbo r_hs r_act r_ig].
        do 2 f_equal. unfold line. cbn. f_equal. ring. }
      rewrite HZ. cbn [fst snd].
      pose proof (rcost_rstack (MSE 1) _ _ _ 2 2 [1; 1] t (rput_rstack m ss _ 2 2 0 (RR (one_unit 1 z)) W ltac:(cbn; lia) (ex_stack_shape 1 z)) eq_refl) as C.
      exact C.
    + assert (D : vec_deriv 2 y [0; tanh_1_opt (tanh (1 + 0 * tanh 1)) * (0 + 1 * tanh 1)]).
      { split; [reflexivity|]. split; [reflexivity|]. intros [|[|i]] Hi; [| |lia]; unfold y; cbn [nth].
        - apply dlim_const.
        - apply (dlim_comp (fun z => 1 + z * tanh 1) tanh); [|apply dlim_tanh]. apply dlim_plus; [apply dlim_const|].
          eapply dlim_eq; [apply (dlim_mult (fun z => z) (fun _ => tanh 1)); [apply dlim_id|apply dlim_const]|]. cbv beta. ring. }
      eapply dlim_eq; [apply (loss_curve (MSE 1) t 2 y _ D); [lia|exact I]|].
      unfold y. rewrite Rmult_0_l, Rplus_0_r. unfold dotl, loss_grad, t. cbn [length Rsum nth]. rewrite !nth_tab by lia. cbn [nth INR]. field.
  - rewrite Q2. cbn [nth r_gwhh one_unit]. rewrite Rmult_0_r, Rplus_0_r. pose proof (tanh_1_positive (tanh 1)) as H. apply Rgt_not_eq.
    apply Rmult_gt_0_compat; [|lra]. apply Rmult_gt_0_compat; [exact H|lra].
Qed.
Print Assumptions c83_step_hidden_refuted.

(** *** The hypotheses can be met *)
(** A dense layer, a rectifier and a recurrent layer in a row (tests/dnn/test_model.cpp 345-420), mean squared error. *)
Definition ex_dense : layer R := mkLayer KDense 2 [1; 0; 2; 1] [1; -1] [0; 0; 0; 0] [0; 0] [0; 0] [0; 0].
Definition ex_relu : layer R := mkLayer (KAct Relu) 2 [] [] [] [] [0; 0] [0; 0].
Example c83_hypotheses_met : exists m, rstack m [RL ex_dense; RL ex_relu; RR (one_unit 1 1)] [RO (MSE 1) (loss_new 2 1)] 2 2 /\
  rshape [RL ex_dense; RL ex_relu; RR (one_unit 1 1)] 2 2.
Proof.
  assert (HS : rshape [RL ex_dense; RL ex_relu; RR (one_unit 1 1)] 2 2).
  { exists 2%nat. split; [repeat split; cbn; auto with arith|]. exists 2%nat. split; [repeat split; cbn; auto with arith|].
    exists 2%nat. split; [apply one_unit_shape|reflexivity]. }
  destruct (rnn_chain true [RL ex_dense; RL ex_relu; RR (one_unit 1 1)] [RO (MSE 1) (loss_new 2 1)] 2 2 ltac:(cbn; lia) HS eq_refl) as (m & W); [constructor; eauto|exists m; auto].
Qed.
(** Two recurrent layers of two steps, fed three pieces. *)
Example c83_pieces_met : exists m ss, rstack m ss [] 2 2 /\ length ss = 2%nat /\ Forall (paced 2) ss /\
  Forall (fun x => length x = 2%nat) [[1; 2]; [0; 1]; [3; 1]].
Proof.
  assert (HS : rshape [RR (one_unit 1 1); RR (one_unit 2 1)] 2 2).
  { exists 2%nat. split; [apply one_unit_shape|]. exists 2%nat. split; [apply one_unit_shape|reflexivity]. }
  destruct (rnn_chain false [RR (one_unit 1 1); RR (one_unit 2 1)] [] 2 2 (le_n 2) HS eq_refl (Forall_nil _)) as (m & W).
  exists m. eexists. split; [exact W|]. split; [reflexivity|]. split; repeat constructor; eexists; split; reflexivity.
Qed.
(** A recurrent layer with a dense layer and a rectifier behind it, all sums away from 0. *)
Example c83_step_met : exists m ls, rstack m ([] ++ RR (one_unit 1 1) :: map RL ls) [RO (MSE 1) (loss_new 2 1)] 2 2 /\ ls <> [] /\
  lsmooth ls (fst (stack_run ([] ++ [RR (one_unit 1 1)]) (map held ([] ++ [RR (one_unit 1 1)])) [0; 0])).
Proof.
  assert (HS : rshape ([] ++ RR (one_unit 1 1) :: map RL [ex_dense; ex_relu]) 2 2).
  { exists 2%nat. split; [apply one_unit_shape|]. exists 2%nat. split; [repeat split; cbn; auto with arith|].
    exists 2%nat. split; [repeat split; cbn; auto with arith|reflexivity]. }
  destruct (rnn_chain true ([] ++ RR (one_unit 1 1) :: map RL [ex_dense; ex_relu]) [RO (MSE 1) (loss_new 2 1)] 2 2 ltac:(cbn; lia) HS eq_refl) as (m & W); [constructor; eauto|].
  exists m, [ex_dense; ex_relu]. split; [exact W|]. split; [discriminate|].
  assert (E : fst (stack_run ([] ++ [RR (one_unit 1 1)]) (map held ([] ++ [RR (one_unit 1 1)])) [0; 0]) = [0; 0]).
  { cbv -[Rplus Rmult tanh IZR]. replace (0 + 1 * 0 + (0 + 1 * 0) + 0) with 0 by ring. rewrite tanh_0.
    replace (0 + 1 * 0 + (0 + 1 * 0) + 0) with 0 by ring. rewrite tanh_0. repeat f_equal; ring. }
  rewrite E. cbn [lsmooth]. split; [exact I|]. split; [|exact I].
  assert (E2 : layer_sem ex_dense [0; 0] = [1; -1]) by (cbv -[Rplus Rmult IZR]; repeat f_equal; ring).
  rewrite E2. cbn. intros [|[|i]] Hi; cbn; try lra. lia.
Qed.
