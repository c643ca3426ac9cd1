(** Lemmas for models with recurrent layers (C83). *)
From Coq Require Import Reals Lra.
From Verif Require Import Base Num RSum MathModel MathProofs LayerModel LossModel GraphModel ModelModel NodeModel ChainProofs ModelProofs
  GradSpec GradChain StepProofs PropStep DatasetProofs CnnNetProofs RecurrentModel RecurrentProofs PropRecurrent RnnModel.
Local Open Scope R_scope.

(** *** Specification *)
(** The next hidden state: tanh(W_ih u + W_hh H + b_h). *)
Definition cell_next (r : recl R) (u H : list R) : list R :=
  tab (r_hid r) (fun i => tanh (
    Rsum (r_in r) (fun j => nth (i * r_in r + j) (r_wih r) 0 * nth j u 0) +
    Rsum (r_hid r) (fun j => nth (i * r_hid r + j) (r_whh r) 0 * nth j H 0) + nth i (r_bh r) 0)).
(** The output at a hidden state: W_ho H + b_o. *)
Definition cell_out (r : recl R) (H : list R) : list R :=
  tab (r_out r) (fun i => Rsum (r_hid r) (fun j => nth (i * r_hid r + j) (r_who r) 0 * nth j H 0) + nth i (r_bo r) 0).
(** The outputs for the inputs [us], one after the other, and the state reached. *)
Fixpoint unroll (r : recl R) (us : list (list R)) (H : list R) : list (list R) * list R :=
  match us with
  | [] => ([], H)
  | u :: us => let H' := cell_next r u H in let '(ys, Hn) := unroll r us H' in (cell_out r H' :: ys, Hn)
  end.
(** [x] cut into [k] pieces of length [n]. *)
Fixpoint pieces (n k : nat) (x : list R) : list (list R) :=
  match k with O => [] | S k => firstn n x :: pieces n k (skipn n x) end.

(** What one call makes of a layer's input and the state it holds: the output and the state it
    leaves. A layer that is not recurrent keeps no state. *)
Definition node_run (s : rnode R) (H x : list R) : list R * list R :=
  match s with
  | RL l => (layer_sem l x, H)
  | RR r => let '(ys, H') := unroll r (pieces (r_in r) (r_steps r) x) H in (concat ys, H')
  | RO _ _ => (x, H)
  end.
(** Layers in a row, one state for each. *)
Fixpoint stack_run (ss : list (rnode R)) (Hs : list (list R)) (x : list R) : list R * list (list R) :=
  match ss, Hs with
  | s :: ss, H :: Hs => let '(y, H') := node_run s H x in let '(z, Hs') := stack_run ss Hs y in (z, H' :: Hs')
  | _, _ => (x, [])
  end.
(** Several inputs, one call after the other. *)
Fixpoint chunk_run (ss : list (rnode R)) (Hs : list (list R)) (xs : list (list R)) : list (list R) * list (list R) :=
  match xs with
  | [] => ([], Hs)
  | x :: xs => let '(y, Hs') := stack_run ss Hs x in let '(ys, Hn) := chunk_run ss Hs' xs in (y :: ys, Hn)
  end.

(** The state a layer holds between calls. *)
Definition held (s : rnode R) : list R := match s with RR r => state r | _ => [] end.

(** Sizes of a layer for [n] inputs and [k] outputs. A recurrent layer takes and gives all its time
    steps at once; there are at least two of them. *)
Definition rnode_shape (s : rnode R) (n k : nat) : Prop :=
  match s with
  | RL l => lshape l n k
  | RR r => rec_wf r /\ (2 <= r_steps r)%nat /\ n = (r_in r * r_steps r)%nat /\ k = (r_out r * r_steps r)%nat
  | RO _ _ => False
  end.
Fixpoint rshape (ss : list (rnode R)) (n k : nat) : Prop :=
  match ss with [] => n = k | s :: r => exists j, rnode_shape s n j /\ rshape r j k end.
(** A chain of such layers, with or without losses behind it. *)
Record rstack (m : model (rnode R)) (ss post : list (rnode R)) (n k : nat) : Prop := {
  rs_graph : exists lossy, is_chain lossy (length ss) (mgraph m);
  rs_some : (1 <= length ss)%nat;
  rs_length : length (mnodes m) = nodes (mgraph m);
  rs_nodes : map fst (mnodes m) = ss ++ post;
  rs_shape : rshape ss n k;
  rs_post : Forall (fun s => exists kd lo, s = RO kd lo) post
}.
(** Parameters and sizes are kept; gradients, buffers and the hidden states may differ. *)
Definition rsame (r r' : recl R) : Prop :=
  r_in r' = r_in r /\ r_out r' = r_out r /\ r_hid r' = r_hid r /\ r_steps r' = r_steps r /\
  r_wih r' = r_wih r /\ r_whh r' = r_whh r /\ r_who r' = r_who r /\ r_bh r' = r_bh r /\ r_bo r' = r_bo r.
Definition rkept (s s' : rnode R) : Prop :=
  match s, s' with
  | RL l, RL l' => same_params l l' /\ length (out l') = length (out l)
  | RR r, RR r' => rsame r r'
  | _, _ => False
  end.

(** *** Pieces and unrolling *)
Lemma pieces_length n : forall k x, length (pieces n k x) = k.
Proof. induction k as [|k IH]; intros x; cbn; auto. Qed.
Lemma pieces_app n : forall a b x y, length x = (n * a)%nat -> pieces n (a + b) (x ++ y) = pieces n a x ++ pieces n b y.
Proof.
  induction a as [|a IH]; intros b x y L.
  - rewrite Nat.mul_0_r in L. destruct x; [reflexivity|discriminate].
  - cbn [Nat.add pieces app]. assert (n <= length x)%nat by nia.
    rewrite firstn_app, skipn_app. replace (n - length x)%nat with 0%nat by lia. cbn [firstn skipn].
    rewrite app_nil_r. f_equal. apply IH. rewrite skipn_length. nia.
Qed.
Lemma pieces_from n x : forall k s, pieces n k (skipn (s * n) x) = map (fun t => firstn n (skipn (t * n) x)) (seq s k).
Proof.
  induction k as [|k IH]; intros s; cbn [pieces seq map]; [reflexivity|]. f_equal.
  rewrite <- IH. f_equal. apply (list_ext_nth 0); [rewrite !skipn_length; lia|].
  intros i Hi. rewrite !nth_skipn_add. f_equal. lia.
Qed.
Lemma unroll_app r : forall us vs H, unroll r (us ++ vs) H =
  (fst (unroll r us H) ++ fst (unroll r vs (snd (unroll r us H))), snd (unroll r vs (snd (unroll r us H)))).
Proof.
  induction us as [|u us IH]; intros vs H; cbn [app unroll].
  - cbn. now destruct (unroll r vs H).
  - rewrite IH. destruct (unroll r us (cell_next r u H)) as (ys & Hn). reflexivity.
Qed.
Lemma unroll_length r : forall us H, length (fst (unroll r us H)) = length us /\
  Forall (fun y => length y = r_out r) (fst (unroll r us H)) /\ (length H = r_hid r -> length (snd (unroll r us H)) = r_hid r).
Proof.
  induction us as [|u us IH]; intros H; cbn [unroll].
  - cbn. auto.
  - destruct (IH (cell_next r u H)) as (A & B & C). destruct (unroll r us (cell_next r u H)) as (ys & Hn). cbn [fst snd length] in *.
    split; [congruence|]. split; [constructor; auto; apply tab_length|]. intros _. apply C. apply tab_length.
Qed.
Lemma concat_length (ys : list (list R)) o : Forall (fun y => length y = o) ys -> length (concat ys) = (o * length ys)%nat.
Proof. induction 1 as [|y ys E F IH]; cbn [concat length]; [lia|]. rewrite app_length, IH, E. lia. Qed.

(** The hidden states of the layer are those of the unrolled recurrence. *)
Lemma hidden_next (r : recl R) x t : cell_next r (firstn (r_in r) (skipn (t * r_in r) x)) (hidden r x t) = hidden r x (S t).
Proof.
  cbn [hidden]. unfold cell_next, hid_of. apply tab_ext. intros i Hi. cbn [ntanh TransR nadd NumR]. f_equal. f_equal. f_equal.
  - unfold drive. rewrite nsum_Rsum. apply Rsum_ext. intros j Hj. rewrite nth_firstn_lt by exact Hj. now rewrite nth_skipn_add.
  - rewrite nsum_Rsum. reflexivity.
Qed.
Lemma hidden_out (r : recl R) H : cell_out r H = out_of r H.
Proof. unfold cell_out, out_of. apply tab_ext. intros i Hi. rewrite nsum_Rsum. reflexivity. Qed.
Lemma hidden_unroll (r : recl R) x : forall k s,
  unroll r (map (fun t => firstn (r_in r) (skipn (t * r_in r) x)) (seq s k)) (hidden r x s) =
  (map (fun t => out_of r (hidden r x (S t))) (seq s k), hidden r x (s + k)).
Proof.
  induction k as [|k IH]; intros s; cbn [seq map unroll].
  - now rewrite Nat.add_0_r.
  - rewrite hidden_next, IH, hidden_out. replace (S s + k)%nat with (s + S k)%nat by lia. reflexivity.
Qed.

Lemma rec_forward_run (r : recl R) x : rec_wf r -> (2 <= r_steps r)%nat -> length x = (r_in r * r_steps r)%nat ->
  exists r', rec_forward r x = Ok r' /\ rec_wf r' /\ rsame r r' /\ (r_act r', state r') = node_run (RR r) (state r) x.
Proof.
  intros W HS Hx. destruct (rec_forward_spec r x W ltac:(lia) HS) as (hs & act & E & Lh & La & P1 & P2 & P3).
  exists (set_forward r hs act). split; [exact E|].
  assert (Lb : (r_hid r <= length (r_hs r))%nat) by (rewrite (rw_hs r W); clear - HS; nia).
  split; [|split].
  - destruct W. constructor; cbn [set_forward r_in r_out r_hid r_steps r_wih r_whh r_who r_bh r_bo r_gwih r_gwhh r_gwho r_gbh r_gbo r_hs r_act r_ig]; auto.
    rewrite Lh. f_equal. lia.
  - repeat split.
  - cbn [node_run]. pose proof (pieces_from (r_in r) x (r_steps r) 0) as EP. cbn [Nat.mul skipn] in EP. rewrite EP.
    replace (state r) with (hidden r x 0).
    2:{ cbn [hidden]. unfold state. symmetry. now apply firstn_tab. }
    rewrite hidden_unroll. cbn [Nat.add]. f_equal.
    + cbn [set_forward r_act]. set (ys := map (fun t => out_of r (hidden r x (S t))) (seq 0 (r_steps r))).
      assert (F : Forall (fun y => length y = r_out r) ys).
      { apply Forall_forall. intros y Hy. apply in_map_iff in Hy. destruct Hy as (t & <- & _). apply tab_length. }
      assert (LY : length ys = r_steps r) by (unfold ys; now rewrite map_length, seq_length).
      apply (list_ext_nth 0); [rewrite (concat_length ys _ F); lia|].
      intros q Hq. rewrite La in Hq. assert (Ho : (r_out r <> 0)%nat) by (intros Z; rewrite Z in Hq; lia).
      pose proof (Nat.div_mod q (r_out r) Ho) as DM. pose proof (Nat.mod_upper_bound q (r_out r) Ho) as MB.
      assert (DB : (q / r_out r < r_steps r)%nat) by (apply Nat.div_lt_upper_bound; lia).
      set (t := (q / r_out r)%nat) in *. set (i := (q mod r_out r)%nat) in *. replace q with (t * r_out r + i)%nat by lia.
      change 0 with (@n0 R NumR). rewrite P3 by assumption. rewrite (nth_concat_uniform n0 (r_out r) ys t i) by (solve [lia|apply Forall_forall; exact F]).
      f_equal. unfold ys. rewrite (nth_indep _ [] (out_of r (hidden r x (S 0)))) by (rewrite map_length, seq_length; lia).
      rewrite (map_nth (fun t => out_of r (hidden r x (S t)))), seq_nth by lia. reflexivity.
    + unfold state. cbn [set_forward r_hid r_hs]. rewrite firstn_tab by (rewrite Lh; clear - HS; nia).
      apply (list_ext_nth 0); [rewrite tab_length; symmetry; apply hidden_length|].
      intros j Hj. rewrite tab_length in Hj. rewrite nth_tab by exact Hj. now apply P2.
Qed.

(** *** Chains *)
Lemma rnode_forward (s : rnode R) n k x : rnode_shape s n k -> length x = n ->
  exists s', r_forward s x = Ok s' /\ r_output s' = Ok (fst (node_run s (held s) x)) /\
    length (fst (node_run s (held s) x)) = k /\ held s' = snd (node_run s (held s) x) /\ rkept s s' /\ rnode_shape s' n k.
Proof.
  destruct s as [l|r|kd lo]; intros HS Hx; [| |contradiction].
  - cbn [rnode_shape] in HS. destruct (layer_forward_sem l n k x HS Hx) as (E & L). cbn [r_forward]. rewrite E. cbn [bind].
    eexists. split; [reflexivity|]. cbn [r_output node_run fst snd held out LayerModel.set_out]. split; [reflexivity|]. split; [exact L|].
    split; [reflexivity|]. split; [|now apply lshape_set_out]. cbn [rkept]. split; [repeat split|]. cbn. rewrite L. symmetry. apply HS.
  - destruct HS as (W & H2 & En & Ek). cbn [r_forward].
    destruct (rec_forward_run r x W H2 ltac:(lia)) as (r' & E & W' & SR & EV). rewrite E. cbn [bind]. cbn [held].
    exists (RR r'). rewrite <- EV. cbn [r_output fst snd held rkept rnode_shape]. split; [reflexivity|]. split; [reflexivity|].
    pose proof SR as (S1 & S2 & S3 & S4 & _).
    split; [rewrite (rw_act r' W'), S2, S4; lia|]. split; [reflexivity|]. split; [exact SR|]. split; [exact W'|]. rewrite S1, S2, S4. auto.
Qed.

Lemma stack_forward : forall (ss : list (rnode R)) n k x, rshape ss n k -> length x = n ->
  exists ss', gforward rnn_ops ss x = Ok (ss', fst (stack_run ss (map held ss) x)) /\
    length (fst (stack_run ss (map held ss) x)) = k /\ map held ss' = snd (stack_run ss (map held ss) x) /\
    Forall2 rkept ss ss' /\ rshape ss' n k.
Proof.
  induction ss as [|s ss IH]; intros n k x HS Hx.
  - cbn in HS. subst. exists []. cbn. auto.
  - destruct HS as (j & HS1 & HS2). destruct (rnode_forward s n j x HS1 Hx) as (s' & E & EO & L & EH & K & HS').
    cbn [map stack_run]. destruct (node_run s (held s) x) as (y & H'). cbn [fst snd] in *.
    destruct (IH j k y HS2 L) as (ss' & E' & L' & EH' & K' & HS''). exists (s' :: ss').
    destruct (stack_run ss (map held ss) y) as (z & Hs'). cbn [fst snd] in *.
    cbn [gforward]. change (o_tforward rnn_ops s x) with (r_forward s x). rewrite E. cbn [bind].
    change (o_output rnn_ops s') with (r_output s'). rewrite EO. cbn [bind]. rewrite E'. cbn [bind].
    split; [reflexivity|]. split; [exact L'|]. split; [cbn [map]; congruence|]. split; [constructor; auto|]. exists j. auto.
Qed.

Lemma rsame_run r r' H x : rsame r r' -> node_run (RR r') H x = node_run (RR r) H x.
Proof.
  intros (E1 & E2 & E3 & E4 & E5 & E6 & E7 & E8 & E9). cbn [node_run]. rewrite E1, E4.
  assert (G : forall us H, unroll r' us H = unroll r us H).
  { induction us as [|u us IH]; intros G; cbn [unroll]; [reflexivity|].
    unfold cell_next, cell_out. rewrite E1, E2, E3, E5, E6, E7, E8, E9. now rewrite IH. }
  now rewrite G.
Qed.
Lemma rkept_run s s' H x : rkept s s' -> node_run s' H x = node_run s H x.
Proof.
  destruct s as [l|r|], s' as [l'|r'|]; cbn [rkept]; try contradiction.
  - intros ((K & _ & Kw & Kb) & Ko). cbn [node_run]. unfold layer_sem. now rewrite K, Kw, Kb, Ko.
  - apply rsame_run.
Qed.
Lemma rkept_stack : forall ss ss' Hs x, Forall2 rkept ss ss' -> stack_run ss' Hs x = stack_run ss Hs x.
Proof.
  induction ss as [|s ss IH]; intros ss' Hs x F; inversion F as [|? s' ? ss2 K F2]; subst; [reflexivity|].
  destruct Hs as [|H Hs]; [reflexivity|]. cbn [stack_run]. rewrite (rkept_run s s' H x K).
  destruct (node_run s H x) as (y & H'). now rewrite IH.
Qed.
Lemma rkept_chunks : forall xs ss ss' Hs, Forall2 rkept ss ss' -> chunk_run ss' Hs xs = chunk_run ss Hs xs.
Proof.
  induction xs as [|x xs IH]; intros ss ss' Hs F; cbn [chunk_run]; [reflexivity|].
  rewrite (rkept_stack ss ss' Hs x F). destruct (stack_run ss Hs x) as (y & Hs'). now rewrite (IH ss ss').
Qed.
Lemma rkept_trans s1 s2 s3 : rkept s1 s2 -> rkept s2 s3 -> rkept s1 s3.
Proof.
  destruct s1, s2, s3; cbn; try contradiction.
  - intros (A & B) (C & D). split; [eapply same_params_trans; eauto|congruence].
  - intros (E1 & E2 & E3 & E4 & E5 & E6 & E7 & E8 & E9) (D1 & D2 & D3 & D4 & D5 & D6 & D7 & D8 & D9). repeat split; congruence.
Qed.
Lemma rkept_all_trans : forall l1 l2 l3, Forall2 rkept l1 l2 -> Forall2 rkept l2 l3 -> Forall2 rkept l1 l3.
Proof.
  induction l1 as [|a l1 IH]; intros l2 l3 F G; inversion F; subst; inversion G; subst; constructor; eauto using rkept_trans.
Qed.
Lemma rkept_refl s n k : rnode_shape s n k -> rkept s s.
Proof. destruct s; cbn; [split; [apply same_params_refl|reflexivity]|repeat split|contradiction]. Qed.
Lemma rkept_all_refl : forall ss n k, rshape ss n k -> Forall2 rkept ss ss.
Proof. induction ss as [|s ss IH]; intros n k HS; constructor; destruct HS as (j & A & B); eauto using rkept_refl. Qed.

Lemma rstack_predict m ss post n k x : rstack m ss post n k -> length x = n ->
  exists m' ss', m_predict rnn_ops m x = Ok (m', fst (stack_run ss (map held ss) x)) /\
    length (fst (stack_run ss (map held ss) x)) = k /\ rstack m' ss' post n k /\ Forall2 rkept ss ss' /\
    map held ss' = snd (stack_run ss (map held ss) x).
Proof.
  intros [(lossy & HC) H2 H3 H4 H5 H6] Hx. destruct (stack_forward ss n k x H5 Hx) as (ss' & E & L & EH & K & S').
  destruct (predict_g rnn_ops (fun s x => eq_refl) lossy m ss post x ss' _ HC H2 H3 H4 E) as (m' & EP & G & N).
  exists m', ss'. split; [exact EP|]. split; [exact L|]. split; [|auto]. pose proof (f2same _ _ _ K) as LL.
  constructor; rewrite ?LL, ?G; eauto.
  apply (f_equal (@length _)) in N. apply (f_equal (@length _)) in H4. rewrite !map_length, !app_length in N, H4.
  rewrite <- H3. lia.
Qed.

Lemma rstack_predict_all : forall xs m ss post n k, rstack m ss post n k -> Forall (fun x => length x = n) xs ->
  exists m' ss', predict_all m xs = Ok (m', fst (chunk_run ss (map held ss) xs)) /\
    Forall (fun y => length y = k) (fst (chunk_run ss (map held ss) xs)) /\ rstack m' ss' post n k /\ Forall2 rkept ss ss' /\
    map held ss' = snd (chunk_run ss (map held ss) xs).
Proof.
  induction xs as [|x xs IH]; intros m ss post n k W F.
  - exists m, ss. cbn. split; [reflexivity|]. split; [constructor|]. split; [exact W|]. split; [|reflexivity].
    eapply rkept_all_refl, W.
  - inversion F as [|? ? Hx F2]; subst. destruct (rstack_predict m ss post _ k x W eq_refl) as (m1 & s1 & E & L & W1 & K & EH).
    destruct (IH m1 s1 post _ k W1 F2) as (m2 & s2 & E2 & L2 & W2 & K2 & EH2).
    rewrite (rkept_chunks xs ss s1 _ K), EH in E2, L2, EH2. cbn [predict_all chunk_run]. rewrite E. cbn [bind]. rewrite E2. cbn [bind].
    destruct (stack_run ss (map held ss) x) as (y & H'). cbn [fst snd] in *.
    destruct (chunk_run ss H' xs) as (ys & Hn). cbn [fst snd] in *.
    exists m2, s2. split; [reflexivity|]. split; [constructor; auto|]. split; [exact W2|]. split; [|exact EH2].
    eapply rkept_all_trans; eauto.
Qed.

(** *** Backward *)
Lemma rec_backward_run (r : recl R) last g : rec_wf r -> length last = (r_in r * r_steps r)%nat -> length g = (r_out r * r_steps r)%nat ->
  exists r', rec_backward r last g = Ok r' /\ rec_wf r' /\ rsame r r' /\ state r' = state r.
Proof.
  intros W Hx Hg. destruct (rec_backward_spec r last g W ltac:(lia) ltac:(lia)) as (s & E & _).
  destruct (c26_backward_actual r last g W ltac:(lia) ltac:(lia)) as (r' & D & E' & W' & _). exists r'. split; [exact E'|]. split; [exact W'|].
  rewrite E in E'. injection E' as <-. split; [repeat split|reflexivity].
Qed.
Lemma rnode_backward (s : rnode R) n k last g : rnode_shape s n k -> length last = n -> length g = k ->
  exists s', r_backward s last g = Ok s' /\ length (r_gradient s') = n /\ rkept s s' /\ held s' = held s /\ rnode_shape s' n k.
Proof.
  destruct s as [l|r|kd lo]; intros HS Hx Hg; [| |contradiction].
  - cbn [rnode_shape r_backward] in *. destruct (layer_backward_shape l n k last g HS Hx Hg) as (l' & E & P & S' & O).
    rewrite E. cbn [bind]. exists (RL l'). cbn [r_gradient rkept held rnode_shape]. split; [reflexivity|]. split; [apply S'|].
    split; [split; [exact P|now rewrite O]|]. auto.
  - destruct HS as (W & H2 & En & Ek). cbn [r_backward].
    destruct (rec_backward_run r last g W ltac:(lia) ltac:(lia)) as (r' & E & W' & SR & ES). rewrite E. cbn [bind].
    exists (RR r'). cbn [r_gradient rkept held rnode_shape]. pose proof SR as (S1 & S2 & S3 & S4 & _). split; [reflexivity|].
    split; [rewrite (rw_ig r' W'), S1, S4; lia|]. split; [exact SR|]. split; [exact ES|]. split; [exact W'|]. rewrite S1, S2, S4. auto.
Qed.

Lemma stack_backward : forall (ss : list (rnode R)) n k x ss1 y g, rshape ss n k -> length x = n -> length g = k ->
  gforward rnn_ops ss x = Ok (ss1, y) ->
  exists ss2 gx, gbackward rnn_ops ss1 x g = Ok (ss2, gx) /\ length gx = n /\ Forall2 rkept ss ss2 /\
    map held ss2 = map held ss1 /\ rshape ss2 n k.
Proof.
  induction ss as [|s ss IH]; intros n k x ss1 y g HS Hx Hg EF.
  - cbn in HS, EF. injection EF as <- <-. subst k. exists [], g. cbn. auto.
  - destruct HS as (j & HS1 & HS2). destruct (rnode_forward s n j x HS1 Hx) as (s' & E & EO & L & EH & K & HS').
    cbn [gforward] in EF. change (o_tforward rnn_ops s x) with (r_forward s x) in EF. rewrite E in EF. cbn [bind] in EF.
    change (o_output rnn_ops s') with (r_output s') in EF. rewrite EO in EF. cbn [bind] in EF.
    destruct (gforward rnn_ops ss (fst (node_run s (held s) x))) as [(r1, z)| |] eqn:ER; try discriminate. cbn [bind] in EF. injection EF as <- <-.
    destruct (IH j k _ r1 z g HS2 L Hg ER) as (ss2 & gx & EB & Lg & K2 & EH2 & HS3).
    destruct (rnode_backward s' n j x gx HS' Hx Lg) as (s2 & E2 & Lg2 & K3 & EH3 & HS4).
    exists (s2 :: ss2), (r_gradient s2). cbn [gbackward]. change (o_output rnn_ops s') with (r_output s'). rewrite EO. cbn [bind].
    rewrite EB. cbn [bind]. change (o_backward rnn_ops s' x gx) with (r_backward s' x gx). rewrite E2. cbn [bind].
    split; [reflexivity|]. split; [exact Lg2|]. split; [constructor; [eapply rkept_trans; eauto|exact K2]|].
    split; [cbn [map]; congruence|]. exists j. auto.
Qed.

(** *** Runs of two parts *)
Lemma gforward_app {T S} (op : nodeops T S) : forall a b x a' y b' z, gforward op a x = Ok (a', y) -> gforward op b y = Ok (b', z) ->
  gforward op (a ++ b) x = Ok (a' ++ b', z).
Proof.
  induction a as [|s a IH]; intros b x a' y b' z EA EB; cbn [gforward app] in *.
  - injection EA as <- <-. exact EB.
  - destruct (o_tforward op s x) as [s'| |]; try discriminate. cbn [bind] in *.
    destruct (o_output op s') as [w| |]; try discriminate. cbn [bind] in *.
    destruct (gforward op a w) as [(a2, u)| |] eqn:E; try discriminate. cbn [bind] in EA. injection EA as <- <-.
    now rewrite (IH b w a2 u b' z E EB).
Qed.
Lemma gbackward_app {T S} (op : nodeops T S) : forall a b x a' y b' g gb a2 gx, gforward op a x = Ok (a', y) ->
  gbackward op b y g = Ok (b', gb) -> gbackward op a' x gb = Ok (a2, gx) -> gbackward op (a' ++ b) x g = Ok (a2 ++ b', gx).
Proof.
  induction a as [|s a IH]; intros b x a' y b' g gb a2 gx EA EB EC; cbn [gforward] in EA.
  - injection EA as <- <-. cbn [gbackward app] in *. injection EC as <- <-. exact EB.
  - destruct (o_tforward op s x) as [s'| |]; try discriminate. cbn [bind] in *.
    destruct (o_output op s') as [w| |] eqn:EO; try discriminate. cbn [bind] in *.
    destruct (gforward op a w) as [(a1, u)| |] eqn:E; try discriminate. cbn [bind] in EA. injection EA as <- <-.
    cbn [gbackward app] in *. rewrite EO in *. cbn [bind] in *.
    destruct (gbackward op a1 w gb) as [(r', g')| |] eqn:EG; try discriminate. cbn [bind] in EC.
    rewrite (IH b w a1 u b' g gb r' g' E EB EG). cbn [bind].
    destruct (o_backward op s' x g') as [s2| |]; try discriminate. cbn [bind] in *. injection EC as <- <-. reflexivity.
Qed.

(** *** The last recurrent layer and the layers behind it *)
(** The output of a recurrent layer along a curve of its output parameters. *)
Lemma rec_out_vjp (r : recl R) n k x cwho dwho cbo dbo : rnode_shape (RR r) n k -> length x = n ->
  vec_deriv (r_hid r * r_out r) cwho dwho -> vec_deriv (r_out r) cbo dbo ->
  exists f v, (forall t, rec_forward (PropRecurrent.set_out r (cwho t) (cbo t)) x = Ok (f t)) /\
    vec_deriv k (fun t => r_act (f t)) v /\
    forall g, length g = k -> exists r1, rec_backward (f 0) x g = Ok r1 /\
      dotl k g v = ddot (r_hid r * r_out r) (r_gwho r1) (r_gwho r) dwho + ddot (r_out r) (r_gbo r1) (r_gbo r) dbo.
Proof.
  intros (W & H2 & En & Ek) Hx Dw Db.
  destruct (c26_output_gradients_partial r x (repeat 0 k) cwho dwho cbo dbo W ltac:(lia) ltac:(rewrite repeat_length; lia) ltac:(lia) Dw Db)
    as (f & _ & v & F & D & _). rewrite <- Ek in D.
  exists f, v. split; [exact F|]. split; [exact D|]. intros g Hg.
  destruct (c26_output_gradients_partial r x g cwho dwho cbo dbo W ltac:(lia) ltac:(lia) ltac:(lia) Dw Db)
    as (f' & r1 & v' & F' & D' & B & Q). rewrite <- Ek in D', Q.
  assert (EF : forall t, f' t = f t) by (intros t; specialize (F t); rewrite F' in F; now injection F).
  rewrite EF in B. exists r1. split; [exact B|]. rewrite <- Q. unfold dotl. apply Rsum_ext. intros i Hi. f_equal.
  destruct D as (_ & _ & D), D' as (_ & _ & D'). eapply uniqueness_limite; [exact (D i Hi)|].
  eapply derivable_pt_lim_ext; [|exact (D' i Hi)]. intros t. cbn beta. now rewrite EF.
Qed.

(** Dense and activation layers along curves. *)
Definition rc_layer (lc : lcurve) : curve (rnode R) :=
  mkCurve (RL (base lc)) (fun t => RL (at_t t lc)) (fun s => match s with
    | RL l => ddot (length (dw lc)) (wgrad l) (wgrad (base lc)) (dw lc) + ddot (length (db lc)) (bgrad l) (bgrad (base lc)) (db lc)
    | _ => 0 end).
Definition rok (c : curve (rnode R)) : Prop := exists lc, lcurve_ok lc /\ c = rc_layer lc.
Definition rl_shape (s : rnode R) (n k : nat) : Prop := match s with RL l => lshape l n k | _ => False end.
Definition rl_smooth (s : rnode R) (x : list R) : Prop := match s with RL l => layer_smooth l x | _ => False end.
Lemma rok_0 c : rok c -> cat c 0 = cbase c.
Proof. intros (lc & (W & B & _) & ->). cbn. unfold at_t. rewrite W, B. now destruct (base lc). Qed.
Lemma rnode_vjp c n k x v : rok c -> rl_shape (cbase c) n k -> vec_deriv n x v -> rl_smooth (cbase c) (x 0) ->
  vjp_ok rnn_ops rl_shape rkept c n k x v.
Proof.
  intros (lc & Hok & ->) HS Dx Hsm. cbn [cbase rc_layer rl_shape rl_smooth] in HS, Hsm.
  assert (HL : layer_shape (base lc) n k).
  { destruct HS as (S1 & S2 & S3 & S4). split; [exact S1|]. split; [exact S2|]. split; [exact S3|].
    destruct (knd (base lc)); [exact S4|apply S4]. }
  destruct (layer_vjp lc n k x v HL Hok Dx Hsm) as (y & w & F & D & B).
  pose proof D as (Ly & _). pose proof Dx as (Lx & _).
  pose proof (rok_0 (rc_layer lc) (ex_intro _ lc (conj Hok eq_refl))) as A0. cbn in A0. injection A0 as A0.
  exists (fun t => RL (LayerModel.set_out (at_t t lc) (y t))), y, w. split; [|split; [exact D|]].
  + intros t. cbn [rnn_ops o_tforward o_output r_forward rc_layer cat r_output]. rewrite F. cbn [bind]. split; reflexivity.
  + intros g Hg. destruct (B g Hg) as (l' & E & L & Q & _). exists (RL l').
    cbn [rnn_ops o_backward o_gradient r_backward r_gradient rc_layer cbase cterm rkept rl_shape]. rewrite E. cbn [bind].
    split; [reflexivity|]. split; [exact L|]. split; [rewrite Q; ring|].
    rewrite A0 in E. destruct (layer_backward_shape (LayerModel.set_out (base lc) (y 0)) n k (x 0) g) as (l2 & E2 & P & S2 & O2); auto.
    { apply lshape_set_out; auto. }
    rewrite E in E2. injection E2 as <-. split; [|exact S2]. split; [exact P|]. rewrite O2. cbn. rewrite Ly. symmetry. apply HS.
Qed.
Definition rstill (l : layer R) : curve (rnode R) := rc_layer (frozen l).
Lemma rstill_terms : forall ls ss, gterms (map rstill ls) ss = 0.
Proof.
  induction ls as [|l ls IH]; intros [|s ss]; cbn [map gterms]; try reflexivity. rewrite IH.
  destruct s; cbn [rstill rc_layer cterm frozen dw db base]; rewrite ?ddot_zero; ring.
Qed.
Lemma rterms_mid : forall pre c post ss1 s ss2, length ss1 = length pre ->
  gterms (map rstill pre ++ c :: map rstill post) (ss1 ++ s :: ss2) = cterm c s.
Proof.
  induction pre as [|a pre IH]; intros c post ss1 s ss2 HL; destruct ss1 as [|s1 ss1]; try discriminate.
  - cbn. rewrite rstill_terms. ring.
  - cbn [map app gterms]. rewrite IH by (cbn in HL; lia).
    destruct s1; cbn [rstill rc_layer cterm frozen dw db base]; rewrite ?ddot_zero; ring.
Qed.
