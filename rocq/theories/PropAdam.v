(** C87: training a network with Adam, the default optimizer of fit. *)
From Verif Require Import Base Num RSum DatasetModel MathModel MathProofs MathProofsR LayerModel LossModel LossSpec LossProofs OptModel OptProofs GraphModel ModelModel NodeModel
  ChainProofs ModelProofs GradSpec GradProofs GradChain PropLoss PropModel TrainProofs CopyModel FitModel PropFit PropStep PropOpt InitModel DynModel PropTraining AdamProofs.
From Coq Require Import Reals Lra.
Local Open Scope R_scope.

(** *** Vocabulary *)
(** All parameters of a network: layer by layer, weights and then biases. *)
Definition all_params (m : model (node R)) : list R :=
  flat_map (fun sp : node R * source => match fst sp with
    | NL l => match knd l with KDense => wts l ++ bias l | KAct _ => [] end
    | _ => [] end) (mnodes m).
(** [g]: [f] times the summed partial derivatives of the cost over the rows, for the parameters
    of node [q] in the same order. *)
Definition node_gradient draw kd (f : R) (m : model (node R)) (rows : list (list R * list R)) (q : nat) (s : node R) (g : list R) : Prop :=
  match s with
  | NL l => match knd l with
      | KDense => length g = (length (wts l) + length (bias l))%nat /\
          (forall p, (p < length (wts l))%nat -> exists ds, Forall2 (wpartial draw kd m q p) rows ds /\ nth p g 0 = f * sum ds) /\
          (forall p, (p < length (bias l))%nat -> exists ds, Forall2 (bpartial draw kd m q p) rows ds /\ nth (length (wts l) + p) g 0 = f * sum ds)
      | KAct _ => g = []
      end
  | _ => g = []
  end.
Definition gradient draw kd f m rows (gs : list (list R)) : Prop :=
  length gs = length (mnodes m) /\
  forall q s p g, nth_error (mnodes m) q = Some (s, p) -> nth_error gs q = Some g -> node_gradient draw kd f m rows q s g.
(** The same layers with other numbers in them. *)
Definition same_layers (m m' : model (node R)) : Prop :=
  forall q l s, nth_error (mnodes m) q = Some (NL l, s) -> exists l' s', nth_error (mnodes m') q = Some (NL l', s') /\
    knd l' = knd l /\ length (wts l') = length (wts l) /\ length (bias l') = length (bias l) /\
    (knd l <> KDense -> wts l' = wts l /\ bias l' = bias l).
(** Parameter [i] moves by the documented Adam step for a history of gradients: [h], and then
    the gradients of this batch for the parameters up to and with [i]. *)
Definition adam_moved draw kd (f eta : R) (h : list R) m rows (m' : model (node R)) (h' : list R) : Prop :=
  exists gs, gradient draw kd f m rows gs /\ h' = h ++ concat gs /\ same_layers m m' /\
    length (all_params m') = length (all_params m) /\ length (concat gs) = length (all_params m) /\
    forall i, (i < length (all_params m))%nat ->
      nth i (all_params m') 0 = nth i (all_params m) 0
        - doc_step eta (9 / 10) (999 / 1000) (1 / 100000000) (h ++ firstn (S i) (concat gs)).

(** The gradients this optimizer has seen; its constants are the defaults. *)
Definition default_seen (eta : R) (a : adam R) (h : list R) : Prop :=
  adam_seen a h /\ a_eta a = eta /\ a_b1 a = 9 / 10 /\ a_b2 a = 999 / 1000 /\ a_eps a = 1 / 100000000.
Lemma default_new eta : default_seen eta (adam_default eta) [].
Proof. split; [apply adam_new_seen|]. repeat split. Qed.
Lemma default_after eta a h gs : default_seen eta a h -> default_seen eta (after a gs) (h ++ gs).
Proof.
  intros (S & A & B & C & D). destruct (adam_consts gs a) as (A' & B' & C' & D'). split; [now apply adam_seen_fold|].
  unfold after. rewrite A', B', C', D'. auto.
Qed.

Definition batch_adam (draw : nat -> R) (rows : list (list R * list R)) (am : adam R * model (node R)) : res (adam R * model (node R)) :=
  m1 <- m_reset_score (snd am) ;; m2 <- steps draw rows m1 ;; m_train_adam (fst am) m2.

Lemma all_params_net m ls kd lo n k : network m ls kd lo n k -> all_params m = flat_map layer_params ls.
Proof.
  intros W. unfold all_params. pose proof (nw_nodes _ _ _ _ _ _ W) as E.
  transitivity (flat_map (fun s : node R => match s with NL l => layer_params l | _ => [] end) (map fst (mnodes m))).
  - induction (mnodes m) as [|sp ns IH]; [reflexivity|]. clear IH E W.
    generalize (sp :: ns). clear. intros l. induction l as [|x l IH]; [reflexivity|]. cbn [flat_map map]. now rewrite IH.
  - rewrite E, flat_map_app. cbn [flat_map]. rewrite !app_nil_r. clear. induction ls as [|l ls IH]; [reflexivity|]. cbn [map flat_map]. now rewrite IH.
Qed.
Lemma train_all_nth ls : forall a q l, nth_error ls q = Some l ->
  nth_error (train_all a ls) q = Some (atrained (after a (flat_map layer_grads (firstn q ls))) l).
Proof.
  induction ls as [|x ls IH]; intros a q l E; [destruct q; discriminate|]. destruct q as [|q].
  - cbn in *. injection E as ->. reflexivity.
  - cbn [nth_error train_all firstn flat_map] in *. rewrite (IH _ _ _ E). unfold after. now rewrite fold_left_app.
Qed.
Lemma atrained_same a (l : layer R) n k : lshape l n k -> knd (atrained a l) = knd l /\ length (wts (atrained a l)) = length (wts l) /\
  length (bias (atrained a l)) = length (bias l) /\ (knd l <> KDense -> wts (atrained a l) = wts l /\ bias (atrained a l) = bias l) /\
  cleared (atrained a l).
Proof.
  intros (S1 & S2 & S3 & S4). unfold atrained, cleared. destruct (knd l) as [|ac] eqn:K.
  - cbn [knd wts bias wgrad bgrad]. unfold layer_params, layer_grads. rewrite K.
    rewrite firstn_length, skipn_length, amove_length, app_length by (rewrite !app_length; lia).
    split; [reflexivity|]. split; [lia|]. split; [lia|]. split; [congruence|]. intros _. split; intros p; apply nth_repeat.
  - rewrite K. repeat split; auto; discriminate.
Qed.
Lemma nshape_nth_R (ls : list (layer R)) : forall n k i l, nshape ls n k -> nth_error ls i = Some l -> exists a b, lshape l a b.
Proof.
  induction ls as [|x ls IH]; intros n k i l HS E1; [destruct i; discriminate|].
  destruct HS as (j & HL & HS). destruct i as [|i]; [injection E1 as <-; eauto|]. eauto.
Qed.

(** One batch with an optimizer that has seen the gradients [h] before. *)
Theorem c87_batch : forall draw eta a h m ls kd lo n k rows,
  network m ls kd lo n k -> (0 < k)%nat -> ls_in lo = k -> Forall cleared ls ->
  Forall (row_ok draw kd m ls n k) rows -> default_seen eta a h ->
  exists a' m' ls' lo' cs h', batch_adam draw rows (a, m) = Ok (a', m') /\ network m' ls' kd lo' n k /\
    ls_in lo' = k /\ ls_inv lo' = ls_inv lo /\ map knd ls' = map knd ls /\ Forall cleared ls' /\
    Forall2 (fun xt c => cost_at draw kd m (fst xt) (snd xt) c) rows cs /\ ls_cum lo' = sum cs /\
    adam_moved draw kd (factor kd k lo) eta h m rows m' h' /\ default_seen eta a' h'.
Proof.
  intros draw eta a h m ls kd lo n k rows W Hk Hin HC HR HA.
  destruct (reset_network m ls kd lo n k W) as (m1 & E1 & W1).
  assert (RF : Forall2 (@same_params R) ls ls) by apply all_same_refl.
  destruct (steps_spec draw kd n k Hk rows m1 ls (reset_score lo) W1 Hin) as (m2 & ls2 & lo2 & cs & E2 & W2 & P2 & I2 & V2 & C2 & K2 & A2).
  { eapply Forall_impl; [|exact HR]. intros (x, t) (Q1 & Q2 & Q3 & Q4). split; [exact Q1|]. split; [exact Q2|]. split; [exact Q3|].
    cbn [fst snd] in *. intros m' y E. destruct (predict_net draw m1 ls kd _ n k x W1 Q1) as (m3 & E3).
    rewrite E3 in E. injection E as <- <-. destruct (predict_net draw m ls kd lo n k x W Q1) as (m4 & E4). exact (Q4 _ _ E4). }
  destruct (network_train_adam a m2 ls2 kd lo2 n k W2) as (m3 & E3 & _ & W3).
  pose proof (nw_shape _ _ _ _ _ _ W2) as S2.
  set (gs := map layer_grads ls2 ++ [[]]).
  assert (CG : concat gs = flat_map layer_grads ls2).
  { unfold gs. rewrite concat_app. cbn [concat app]. rewrite app_nil_r. symmetry. apply flat_map_concat_map. }
  exists (after a (flat_map layer_grads ls2)), m3, (train_all a ls2), lo2, cs, (h ++ concat gs).
  assert (SZ : Forall (fun xt : list R * list R => length (fst xt) = n) rows) by (eapply Forall_impl; [|exact HR]; intros xt Q; apply Q).
  assert (PP : flat_map layer_params ls2 = flat_map layer_params ls).
  { clear - P2. induction P2 as [|l l' ls ls' (A & _ & B & C) _ IH]; [reflexivity|]. cbn [flat_map]. rewrite IH. f_equal.
    unfold layer_params. now rewrite A, B, C. }
  split; [unfold batch_adam; cbn [fst snd]; rewrite E1; cbn [bind]; rewrite E2; exact E3|]. split; [exact W3|]. split; [exact I2|]. split; [exact V2|].
  split.
  { assert (KA : forall b l, knd (atrained b l) = knd l) by (intros b l; unfold atrained; destruct (knd l) eqn:K; cbn; auto).
    clear - P2 KA. revert a. induction P2 as [|l l' ls ls' (A & _) _ IH]; intros a; [reflexivity|]. cbn [map train_all].
    now rewrite IH, KA, A. }
  split.
  { apply Forall_forall. intros l Hl. apply In_nth_error in Hl. destruct Hl as (q & Hq).
    destruct (nth_error ls2 q) as [l2|] eqn:E.
    - rewrite (train_all_nth _ _ _ _ E) in Hq. injection Hq as <-. destruct (nshape_nth_R _ _ _ _ _ S2 E) as (u & v & Sl).
      apply (atrained_same _ _ _ _ Sl).
    - apply nth_error_None in E. rewrite <- (train_all_length ls2 a) in E. apply nth_error_None in E. congruence. }
  split.
  { eapply Forall2_impl_in; [exact SZ| |exact C2]. intros (x, t) c Hx Q.
    exact (cost_same draw kd m1 m ls ls _ lo n k x t c W1 W RF Hx Q). }
  split; [rewrite K2; cbn [reset_score ls_cum]; change (@n0 R NumR) with 0; ring|].
  split; [|rewrite CG; now apply default_after].
  exists gs. split; [|split; [reflexivity|]].
  - split.
    { unfold gs. rewrite app_length, map_length. cbn [length]. rewrite <- (map_length fst (mnodes m)), (nw_nodes _ _ _ _ _ _ W), app_length, map_length. cbn [length].
      now rewrite <- (f2_len _ _ _ P2). }
    intros q s p g E Eg. unfold node_gradient. destruct s as [l|dd|k0 s0].
    + pose proof (node_of m ls kd lo n k q l p W E) as El.
      destruct (A2 q l El) as (l2 & El2 & B & B').
      destruct (Forall2_nth_error _ _ _ _ _ P2 El) as (l2' & El2' & (K3 & K4 & K5 & K6)). rewrite El2 in El2'. injection El2' as <-.
      unfold gs in Eg. rewrite nth_error_app1 in Eg by (rewrite map_length; apply nth_error_Some; congruence).
      rewrite (map_nth_error layer_grads q ls2 El2) in Eg. injection Eg as <-.
      pose proof (proj1 (Forall_forall _ _) HC l (nth_error_In _ _ El)) as CL.
      destruct (nshape_nth_R _ _ _ _ _ S2 El2) as (u & v & (T1 & T2 & T3 & T4)). unfold layer_grads. rewrite K3 in *.
      destruct (knd l) eqn:K; [|reflexivity]. destruct T4 as (T4 & T5 & T6 & T7).
      split; [rewrite app_length; congruence|]. split.
      * intros i Hi. destruct (B i Hi) as (ds & D & Q). exists ds. split.
        { eapply Forall2_impl_in; [exact SZ| |exact D]. intros xt d Hx. exact (wpartial_same draw kd m1 m ls ls _ lo n k q i xt d W1 W RF Hx). }
        rewrite app_nth1 by congruence. rewrite Q, (proj1 (CL K)). unfold factor. cbn [reset_score ls_inv]. ring.
      * intros i Hi. destruct (B' i Hi) as (ds & D & Q). exists ds. split.
        { eapply Forall2_impl_in; [exact SZ| |exact D]. intros xt d Hx. exact (bpartial_same draw kd m1 m ls ls _ lo n k q i xt d W1 W RF Hx). }
        assert (LW : length (wgrad l2) = length (wts l)) by congruence.
        rewrite app_nth2 by lia. replace (length (wts l) + i - length (wgrad l2))%nat with i by lia.
        rewrite Q, (proj2 (CL K)). unfold factor. cbn [reset_score ls_inv]. ring.
    + assert (X : nth_error (map fst (mnodes m)) q = Some (ND dd)) by (now apply (map_nth_error fst) in E).
      rewrite (nw_nodes _ _ _ _ _ _ W) in X. destruct (Nat.lt_ge_cases q (length ls)) as [L|L].
      * rewrite nth_error_app1 in X by (now rewrite map_length). destruct (nth_error ls q) as [l|] eqn:E4; [|apply nth_error_None in E4; lia].
        rewrite (map_nth_error _ _ _ E4) in X. discriminate.
      * rewrite nth_error_app2 in X by (now rewrite map_length). destruct (q - length (map NL ls))%nat as [|[|?]]; discriminate.
    + assert (X : nth_error (map fst (mnodes m)) q = Some (NO k0 s0)) by (now apply (map_nth_error fst) in E).
      rewrite (nw_nodes _ _ _ _ _ _ W) in X. destruct (Nat.lt_ge_cases q (length ls)) as [L|L].
      * rewrite nth_error_app1 in X by (now rewrite map_length). destruct (nth_error ls q) as [l|] eqn:E4; [|apply nth_error_None in E4; lia].
        rewrite (map_nth_error _ _ _ E4) in X. discriminate.
      * assert (q = length ls).
        { apply Nat.le_antisymm; [|exact L]. assert (Y : (q < length (map (@NL R) ls ++ [NO kd lo]))%nat) by (apply nth_error_Some; congruence).
          rewrite app_length, map_length in Y. cbn in Y. lia. }
        subst q. unfold gs in Eg. rewrite nth_error_app2 in Eg by (rewrite map_length, <- (f2_len _ _ _ P2); lia).
        rewrite map_length, <- (f2_len _ _ _ P2), Nat.sub_diag in Eg. now injection Eg as <-.
  - assert (LP : length (flat_map layer_grads ls2) = length (flat_map layer_params ls2)) by (exact (all_grads_length _ _ _ S2)).
    split.
    { intros q l s E. pose proof (node_of m ls kd lo n k q l s W E) as El.
      destruct (Forall2_nth_error _ _ _ _ _ P2 El) as (l2 & El2 & (K3 & K4 & K5 & K6)).
      destruct (node_at m3 _ kd lo2 n k q _ W3 (train_all_nth ls2 a q l2 El2)) as (s' & E').
      destruct (nshape_nth_R _ _ _ _ _ S2 El2) as (u & v & Sl).
      destruct (atrained_same (after a (flat_map layer_grads (firstn q ls2))) l2 _ _ Sl) as (X1 & X2 & X3 & X4 & _).
      eexists _, s'. split; [exact E'|]. rewrite X1, X2, X3, K3, K5, K6. rewrite K3, K5, K6 in X4. auto. }
    rewrite (all_params_net m3 _ kd lo2 n k W3), (all_params_net m ls kd lo n k W), (train_all_params ls2 a n k S2), CG, PP in *.
    split; [now rewrite amove_length|]. split; [exact LP|].
    intros i Hi. rewrite amove_nth by (auto; lia). cbn [nsub NumR]. f_equal. f_equal.
    destruct (default_after eta a h (firstn i (flat_map layer_grads ls2)) HA) as (Sn & X1 & X2 & X3 & X4).
    rewrite (adam_delta_doc _ _ _ Sn), X1, X2, X3, X4. f_equal. rewrite <- app_assoc. f_equal.
    symmetry. apply firstn_S_nth. lia.
Qed.
Print Assumptions c87_batch.

(** *** A whole run *)
(** Adam over a list of batches, with the gradients seen so far. *)
Inductive adam_run draw kd (f eta : R) : list row_list -> list R -> model (node R) -> model (node R) -> Prop :=
| ar_end h m : adam_run draw kd f eta [] h m m
| ar_next rows bs h h1 m m1 m' : adam_moved draw kd f eta h m rows m1 h1 -> adam_run draw kd f eta bs h1 m1 m' ->
    adam_run draw kd f eta (rows :: bs) h m m'.

Definition adam_exec (draw : nat -> R) (d : dataset R) : adam R * model (node R) -> ev -> res (adam R * model (node R)) :=
  exec (fun am i => m' <- row_step draw d (snd am) i ;; Ok (fst am, m'))
    (fun am => m' <- m_reset_score (snd am) ;; Ok (fst am, m')) (fun am => m_train_adam (fst am) (snd am)).
Lemma adam_exec_batch draw d rows b am : rows_of d rows -> Forall (fun i => (i < length rows)%nat) b ->
  foldM (adam_exec draw d) (batch_calls b) am = batch_adam draw (pick rows b) am.
Proof.
  intros (L & HR) Hb. unfold batch_calls, batch_adam. cbn [foldM]. unfold adam_exec at 1. cbn [exec].
  destruct am as (a, m). cbn [fst snd].
  destruct (m_reset_score m) as [m1| |]; cbn [bind]; try reflexivity.
  rewrite foldM_app. transitivity (am2 <- (m2 <- steps draw (pick rows b) m1 ;; Ok (a, m2)) ;; foldM (adam_exec draw d) [ETrain] am2).
  2:{ destruct (steps draw (pick rows b) m1) as [m2| |]; cbn [bind]; try reflexivity. cbn [foldM].
      unfold adam_exec. cbn [exec fst snd]. now destruct (m_train_adam a m2). }
  f_equal. revert m1. induction b as [|i b IH]; intros m1; [reflexivity|].
  inversion Hb as [|? ? Hi Hb']; subst. unfold steps in *. cbn [map foldM pick]. unfold adam_exec at 1. cbn [exec fst snd].
  destruct (nth_error rows i) as [(x, t)|] eqn:E; [|apply nth_error_None in E; lia].
  rewrite (nth_error_nth _ _ ([], []) E). cbn [fst snd]. unfold row_step. destruct (HR i x t E) as (E1 & E2).
  change (@n0 R NumR) with 0. rewrite E1. cbn [bind]. rewrite E2. cbn [bind].
  destruct (m_step (node_ops draw) m1 x t) as [m2| |]; cbn [bind]; try reflexivity. exact (IH Hb' m2).
Qed.
Lemma adam_exec_batches draw d rows : rows_of d rows -> forall bl am, Forall (Forall (fun i => (i < length rows)%nat)) bl ->
  foldM (adam_exec draw d) (flat_map batch_calls bl) am = foldM (fun am b => batch_adam draw (pick rows b) am) bl am.
Proof.
  intros HR. induction bl as [|b bl IH]; intros am F; [reflexivity|].
  inversion F; subst. cbn [flat_map]. rewrite foldM_app, (adam_exec_batch draw d rows b am) by auto. cbn [foldM].
  destruct (batch_adam draw (pick rows b) am); cbn [bind]; auto.
Qed.
Lemma adam_run_spec draw eta kd n k rows : (0 < k)%nat -> forall bl a h m ls lo, default_seen eta a h ->
  network m ls kd lo n k -> ls_in lo = k -> Forall cleared ls -> Forall (Forall (fun i => (i < length rows)%nat)) bl ->
  (forall b1 b2 am1, b1 ++ b2 = bl -> foldM (fun am b => batch_adam draw (pick rows b) am) b1 (a, m) = Ok am1 ->
     trainable draw kd n k rows (snd am1)) ->
  exists a' m' ls' lo', foldM (fun am b => batch_adam draw (pick rows b) am) bl (a, m) = Ok (a', m') /\
    network m' ls' kd lo' n k /\ ls_in lo' = k /\ ls_inv lo' = ls_inv lo /\ map knd ls' = map knd ls /\ Forall cleared ls' /\
    adam_run draw kd (factor kd k lo) eta (map (pick rows) bl) h m m'.
Proof.
  intros Hk. induction bl as [|b bl IH]; intros a h m ls lo HA W Hin HC HB HT.
  - exists a, m, ls, lo. split; [reflexivity|]. split; [exact W|]. split; [exact Hin|]. split; [reflexivity|]. split; [reflexivity|]. split; [exact HC|]. constructor.
  - inversion HB as [|? ? Hb HB']; subst.
    destruct (c87_batch draw eta a h m ls kd lo n _ (pick rows b) W Hk eq_refl HC)
      as (a1 & m1 & ls1 & lo1 & cs & h1 & E1 & W1 & I1 & V1 & K1 & C1 & _ & _ & M1 & A1); [|exact HA|].
    { pose proof (HT [] (b :: bl) (a, m) eq_refl eq_refl ls lo W) as HR. rewrite Forall_forall in HR |- *.
      intros r Hr. apply in_map_iff in Hr. destruct Hr as (i & <- & Hi). apply HR. apply nth_In.
      rewrite Forall_forall in Hb. exact (Hb i Hi). }
    destruct (IH a1 h1 m1 ls1 lo1 A1 W1 I1 C1 HB') as (a2 & m2 & ls2 & lo2 & E2 & W2 & I2 & V2 & K2 & C2 & M2).
    { intros b1 b2 m2 <- E. apply (HT (b :: b1) b2 m2 eq_refl). cbn [foldM]. rewrite E1. exact E. }
    exists a2, m2, ls2, lo2. split; [cbn [foldM]; rewrite E1; exact E2|]. split; [exact W2|]. split; [exact I2|]. split; [congruence|].
    split; [congruence|]. split; [exact C2|]. cbn [map]. econstructor; [exact M1|]. unfold factor in *. rewrite V1 in M2. exact M2.
Qed.

(** fit with Adam: over the batches of consecutive rows, in order, [epochs] times, with one
    optimizer for the whole run. *)
Theorem c87_fit : forall draw eta d rows m ls kd lo n k bs epochs fuel,
  network m ls kd lo n k -> (0 < k)%nat -> ls_in lo = k -> Forall cleared ls -> rows_of d rows ->
  (1 <= bs)%nat -> (ds_size d <= fuel)%nat ->
  exists bl, batches_of (ds_size d) bs bl /\
  ((forall b1 b2 am1, b1 ++ b2 = concat (repeat bl epochs) ->
      foldM (fun am b => batch_adam draw (pick rows b) am) b1 (adam_default eta, m) = Ok am1 -> trainable draw kd n k rows (snd am1)) ->
   exists m' ls' lo', fit_adam draw eta d fuel epochs bs m = Some (Ok m') /\ network m' ls' kd lo' n k /\
    Forall cleared ls' /\ adam_run draw kd (factor kd k lo) eta (map (pick rows) (concat (repeat bl epochs))) [] m m').
Proof.
  intros draw eta d rows m ls kd lo n k bs epochs fuel W Hk Hin HC HR Hb Hf.
  destruct (c39_sequential (ds_size d) bs Hb) as (bl & B & F). exists bl. split; [exact B|]. intros HT.
  assert (HB : Forall (Forall (fun i => (i < length rows)%nat)) (concat (repeat bl epochs))).
  { rewrite (proj1 HR). apply batches_lt in B. clear - B. induction epochs as [|e IH]; cbn [repeat concat]; [constructor|]. apply Forall_app; auto. }
  destruct (adam_run_spec draw eta kd n k rows Hk _ _ [] m ls lo (default_new eta) W Hin HC HB HT) as (a' & m' & ls' & lo' & E & W' & _ & _ & _ & C' & G).
  exists m', ls', lo'. split; [|auto]. unfold fit_adam. rewrite F by exact Hf. rewrite repeat_flat.
  pose proof (adam_exec_batches draw d rows HR _ (adam_default eta, m) HB) as X. unfold adam_exec in X. rewrite X, E. reflexivity.
Qed.
Print Assumptions c87_fit.

Lemma smooth_trainable_adam draw eta tol n k rows : (0 < k)%nat ->
  Forall (fun xt : list R * list R => length (fst xt) = n /\ length (snd xt) = k) rows ->
  forall bl a h m ls lo am1, default_seen eta a h -> network m ls (MSE tol) lo n k -> ls_in lo = k -> Forall cleared ls -> Forall smooth_kind ls ->
  Forall (Forall (fun i => (i < length rows)%nat)) bl ->
  foldM (fun am b => batch_adam draw (pick rows b) am) bl (a, m) = Ok am1 -> trainable draw (MSE tol) n k rows (snd am1).
Proof.
  intros Hk HR.
  assert (TR : forall m ls lo, network m ls (MSE tol) lo n k -> Forall smooth_kind ls -> trainable draw (MSE tol) n k rows m).
  { intros m ls lo W HS ls' lo' W'. rewrite (network_layers_unique _ _ _ _ _ _ _ _ W W') in *.
    eapply Forall_impl; [|exact HR]. intros (x, t) (Q1 & Q2). cbn [fst snd] in *.
    split; [exact Q1|]. split; [exact Q2|]. split; [|intros; exact I].
    exact (smooth_everywhere ls n k x (nw_shape _ _ _ _ _ _ W) Q1 HS). }
  induction bl as [|b bl IH]; intros a h m ls lo m1 HA W Hin HC HS HB E.
  - cbn [foldM] in E. injection E as <-. eauto.
  - inversion HB as [|? ? Hb HB']; subst.
    destruct (c87_batch draw eta a h m ls _ lo n _ (pick rows b) W Hk eq_refl HC)
      as (a2 & m2 & ls2 & lo2 & cs & h2 & E2 & W2 & I2 & V2 & KK & C2 & _ & _ & M2 & A2); [|exact HA|].
    { pose proof (TR m ls lo W HS ls lo W) as HT. rewrite Forall_forall in HT |- *.
      intros r Hr. apply in_map_iff in Hr. destruct Hr as (i & <- & Hi). apply HT. apply nth_In.
      rewrite Forall_forall in Hb. exact (Hb i Hi). }
    cbn [foldM] in E. rewrite E2 in E. cbn [bind] in E.
    refine (IH a2 h2 m2 ls2 lo2 m1 A2 W2 I2 C2 _ HB' E).
    clear - KK HS. revert ls2 KK. induction HS as [|l ls HL _ IH]; intros [|l2 ls2] KK; try discriminate; constructor.
    + injection KK as K _. unfold smooth_kind in *. now rewrite K.
    + apply IH. now injection KK.
Qed.
Theorem c87_fit_mean_squared_error : forall draw eta d rows m ls tol lo n k bs epochs fuel,
  network m ls (MSE tol) lo n k -> (0 < k)%nat -> ls_in lo = k -> Forall cleared ls -> Forall smooth_kind ls ->
  rows_of d rows -> Forall (fun xt => length (fst xt) = n /\ length (snd xt) = k) rows ->
  (1 <= bs)%nat -> (ds_size d <= fuel)%nat ->
  exists bl m' ls' lo', batches_of (ds_size d) bs bl /\
    fit_adam draw eta d fuel epochs bs m = Some (Ok m') /\ network m' ls' (MSE tol) lo' n k /\ Forall cleared ls' /\
    adam_run draw (MSE tol) (INR k * ls_inv lo) eta (map (pick rows) (concat (repeat bl epochs))) [] m m'.
Proof.
  intros draw eta d rows m ls tol lo n k bs epochs fuel W Hk Hin HC HS HR HZ Hb Hf.
  destruct (c87_fit draw eta d rows m ls (MSE tol) lo n k bs epochs fuel W Hk Hin HC HR Hb Hf) as (bl & B & F).
  destruct F as (m' & ls' & lo' & E & W' & C' & G).
  - intros b1 b2 m1 E1 E2.
    assert (HB : Forall (Forall (fun i => (i < length rows)%nat)) (concat (repeat bl epochs))).
    { rewrite (proj1 HR). apply batches_lt in B. clear - B. induction epochs as [|e IH]; cbn [repeat concat]; [constructor|]. apply Forall_app; auto. }
    rewrite <- E1 in HB. apply Forall_app in HB. destruct HB as (HB & _).
    exact (smooth_trainable_adam draw eta tol n k rows Hk HZ b1 _ [] m ls lo m1 (default_new eta) W Hin HC HS HB E2).
  - exists bl, m', ls', lo'. auto.
Qed.
Print Assumptions c87_fit_mean_squared_error.

(** *** The length of a step *)
Lemma moments_bound b1 b2 gs : 0 < b1 < 1 -> 0 < b2 < 1 -> b1 * b1 < b2 ->
  doc_moment b1 gs * doc_moment b1 gs <= (1 - b1) * (1 - b1) * b2 / ((1 - b2) * (b2 - b1 * b1)) * doc_moment b2 (map (fun g => g * g) gs).
Proof.
  intros H1 H2 H3. set (K := (1 - b1) * (1 - b1) * b2 / ((1 - b2) * (b2 - b1 * b1))).
  induction gs as [|g gs IH] using rev_ind.
  - unfold doc_moment. cbn. lra.
  - rewrite map_app. cbn [map]. rewrite !doc_moment_snoc.
    set (M := doc_moment b1 gs) in *. set (V := doc_moment b2 (map (fun g => g * g) gs)) in *.
    set (y := (1 - b1) * g).
    assert (KD : K * (1 - b2) * (b2 - b1 * b1) = (1 - b1) * (1 - b1) * b2) by (unfold K; field; lra).
    assert (D : 0 < b2 - b1 * b1) by lra.
    apply (Rmult_le_reg_l (b2 - b1 * b1)); [exact D|].
    replace ((b2 - b1 * b1) * (K * (b2 * V + (1 - b2) * (g * g))))
      with ((b2 - b1 * b1) * b2 * (K * V) + (K * (1 - b2) * (b2 - b1 * b1)) * (g * g)) by ring.
    rewrite KD. replace ((1 - b1) * (1 - b1) * b2 * (g * g)) with (b2 * (y * y)) by (unfold y; ring).
    apply Rle_trans with ((b2 - b1 * b1) * b2 * (M * M) + b2 * (y * y)).
    + pose proof (Rle_0_sqr ((b2 - b1 * b1) * M - b1 * y)) as Q. unfold Rsqr in Q. nra.
    + apply Rplus_le_compat_r. apply Rmult_le_compat_l; [nra|exact IH].
Qed.
Lemma moment2_pos b2 gs : 0 < b2 < 1 -> 0 <= doc_moment b2 (map (fun g => g * g) gs).
Proof.
  intros H2. induction gs as [|g gs IH] using rev_ind; [unfold doc_moment; cbn; lra|].
  rewrite map_app. cbn [map]. rewrite doc_moment_snoc. pose proof (Rle_0_sqr g) as Q. unfold Rsqr in Q. nra.
Qed.
Lemma pow_one_minus b k : 0 < b < 1 -> (1 <= k)%nat -> 1 - b <= 1 - b ^ k <= 1.
Proof.
  intros Hb Hk. destruct k as [|k]; [lia|]. cbn [pow].
  assert (0 <= b ^ k <= 1). { split; [apply pow_le; lra|]. rewrite <- (pow1 k). apply pow_incr. lra. }
  nra.
Qed.
(** The step for any history of gradients, of whatever size they are, is at most a fixed multiple
    of the learning rate. *)
Theorem c87_step_bound : forall eta b1 b2 eps gs, 0 <= eta -> 0 < b1 < 1 -> 0 < b2 < 1 -> b1 * b1 < b2 -> 0 < eps ->
  Rabs (doc_step eta b1 b2 eps gs) <= eta * sqrt (b2 / ((1 - b2) * (b2 - b1 * b1))).
Proof.
  intros eta b1 b2 eps gs He H1 H2 H3 Hp. set (C := b2 / ((1 - b2) * (b2 - b1 * b1))).
  assert (HC : 0 < C). { unfold C. apply Rdiv_lt_0_compat; [lra|]. apply Rmult_lt_0_compat; lra. }
  destruct gs as [|g0 gs0] eqn:EG.
  { unfold doc_step, doc_moment. cbn [length Rsum pow map]. unfold Rdiv. rewrite !Rmult_0_l, Rmult_0_r, Rabs_R0.
    apply Rmult_le_pos; [exact He|apply sqrt_pos]. }
  rewrite <- EG. assert (Lk : (1 <= length gs)%nat) by (rewrite EG; cbn; lia). clear g0 gs0 EG.
  unfold doc_step. set (k := length gs) in *. pose proof (moments_bound b1 b2 gs H1 H2 H3) as MB. pose proof (moment2_pos b2 gs H2) as V0.
  set (M := doc_moment b1 gs) in *. set (V := doc_moment b2 (map (fun g => g * g) gs)) in *.
  pose proof (pow_one_minus b1 k H1 Lk) as P1. pose proof (pow_one_minus b2 k H2 Lk) as P2.
  rewrite Rabs_mult, (Rabs_right eta) by lra. apply Rmult_le_compat_l; [exact He|].
  assert (SV : sqrt V <= sqrt (V / (1 - b2 ^ k))).
  { apply sqrt_le_1_alt. apply (Rmult_le_reg_r (1 - b2 ^ k)); [lra|]. unfold Rdiv. rewrite Rmult_assoc, Rinv_l by lra. nra. }
  assert (SP : 0 <= sqrt V) by apply sqrt_pos.
  assert (MM : Rabs M <= (1 - b1) * sqrt C * sqrt V).
  { rewrite <- (sqrt_square (Rabs M)) by apply Rabs_pos. rewrite <- Rabs_mult.
    rewrite (Rabs_right (M * M)) by (apply Rle_ge; exact (Rle_0_sqr M)).
    rewrite <- (sqrt_square (1 - b1)) at 1 by lra. rewrite <- sqrt_mult_alt by nra. rewrite <- sqrt_mult_alt by (apply Rmult_le_pos; nra).
    apply sqrt_le_1_alt. eapply Rle_trans; [exact MB|]. apply Req_le. unfold C. field. lra. }
  unfold Rdiv at 1. rewrite Rabs_mult. unfold Rdiv at 1. rewrite Rabs_mult.
  rewrite (Rabs_right (/ (1 - b1 ^ k))) by (apply Rle_ge, Rlt_le, Rinv_0_lt_compat; lra).
  rewrite (Rabs_right (/ (_ + eps))) by (apply Rle_ge, Rlt_le, Rinv_0_lt_compat; lra).
  set (S1 := sqrt (V / (1 - b2 ^ k))) in *.
  apply (Rmult_le_reg_r (S1 + eps)); [lra|]. rewrite Rmult_assoc, Rinv_l, Rmult_1_r by lra.
  apply (Rmult_le_reg_r (1 - b1 ^ k)); [lra|]. rewrite Rmult_assoc, Rinv_l, Rmult_1_r by lra.
  eapply Rle_trans; [exact MM|]. assert (0 < sqrt C) by (now apply sqrt_lt_R0).
  apply Rle_trans with ((1 - b1) * sqrt C * (S1 + eps)).
  - apply Rmult_le_compat_l; [nra|lra].
  - replace (sqrt C * (S1 + eps) * (1 - b1 ^ k)) with ((1 - b1 ^ k) * sqrt C * (S1 + eps)) by ring.
    apply Rmult_le_compat_r; [lra|]. apply Rmult_le_compat_r; lra.
Qed.
Print Assumptions c87_step_bound.
Lemma default_step_bound eta gs : 0 <= eta -> Rabs (doc_step eta (9 / 10) (999 / 1000) (1 / 100000000) gs) <= 73 * eta.
Proof.
  intros He. eapply Rle_trans; [apply c87_step_bound; lra|]. rewrite Rmult_comm. apply Rmult_le_compat_r; [exact He|].
  rewrite <- (sqrt_square 73) by lra. apply sqrt_le_1_alt. lra.
Qed.

Lemma adam_run_bound draw kd f eta bs h m m' : 0 <= eta -> adam_run draw kd f eta bs h m m' ->
  length (all_params m') = length (all_params m) /\
  forall i, (i < length (all_params m))%nat -> Rabs (nth i (all_params m') 0 - nth i (all_params m) 0) <= INR (length bs) * (73 * eta).
Proof.
  intros He. induction 1 as [h m|rows bs h h1 m m1 m' MV _ (IL & IH)].
  - split; [reflexivity|]. intros i _. rewrite Rminus_diag_eq, Rabs_R0 by reflexivity. cbn. lra.
  - destruct MV as (gs & _ & _ & _ & L & _ & Q). split; [congruence|]. intros i Hi.
    specialize (IH i ltac:(lia)). specialize (Q i Hi). cbn [length]. rewrite S_INR.
    set (D := doc_step _ _ _ _ _) in Q. assert (HD : Rabs D <= 73 * eta) by (apply default_step_bound; exact He).
    replace (nth i (all_params m') 0 - nth i (all_params m) 0) with ((nth i (all_params m') 0 - nth i (all_params m1) 0) + - D) by (rewrite Q; ring).
    eapply Rle_trans; [apply Rabs_triang|]. rewrite Rabs_Ropp. lra.
Qed.
(** However large the errors are, a fit moves every parameter at most [73 * eta] per batch. *)
Theorem c87_fit_bound : forall draw eta d rows m ls tol lo n k bs epochs fuel,
  network m ls (MSE tol) lo n k -> (0 < k)%nat -> ls_in lo = k -> Forall cleared ls -> Forall smooth_kind ls ->
  rows_of d rows -> Forall (fun xt => length (fst xt) = n /\ length (snd xt) = k) rows ->
  (1 <= bs)%nat -> (ds_size d <= fuel)%nat -> 0 <= eta ->
  exists bl m', batches_of (ds_size d) bs bl /\ fit_adam draw eta d fuel epochs bs m = Some (Ok m') /\
    length (all_params m') = length (all_params m) /\
    forall i, (i < length (all_params m))%nat ->
      Rabs (nth i (all_params m') 0 - nth i (all_params m) 0) <= INR (epochs * length bl) * (73 * eta).
Proof.
  intros draw eta d rows m ls tol lo n k bs epochs fuel W Hk Hin HC HS HR HZ Hb Hf He.
  destruct (c87_fit_mean_squared_error draw eta d rows m ls tol lo n k bs epochs fuel W Hk Hin HC HS HR HZ Hb Hf)
    as (bl & m' & ls' & lo' & B & E & _ & _ & AR).
  exists bl, m'. split; [exact B|]. split; [exact E|].
  destruct (adam_run_bound _ _ _ _ _ _ _ _ He AR) as (L & Q). split; [exact L|]. rewrite map_length in Q.
  replace (length (concat (repeat bl epochs))) with (epochs * length bl)%nat in Q; [exact Q|].
  clear. induction epochs as [|e IH]; [reflexivity|]. cbn [repeat concat]. rewrite app_length, <- IH. reflexivity.
Qed.
Print Assumptions c87_fit_bound.

(** *** Inputs that are always zero *)
(** Weight [p] of node [q] in [m]. *)
Definition weight_of (m : model (node R)) (q p : nat) : option R :=
  match nth_error (mnodes m) q with Some (NL l, _) => nth_error (wts l) p | _ => None end.
Lemma unused_layer (l : layer R) n k o i s x : lshape l n k -> knd l = KDense -> length x = n -> (o < k)%nat -> (i < n)%nat ->
  nth i x 0 = 0 -> layer_sem (with_weight l (o * n + i) s) x = layer_sem l x.
Proof.
  intros (S1 & S2 & S3 & S4) K Hx Ho Hi Z. rewrite K in S4. destruct S4 as (A1 & A2 & A3 & A4).
  unfold layer_sem. cbn [with_weight knd out wts bias]. rewrite K, Hx, S3. unfold dense_sem. apply tab_ext. intros o' Ho'. f_equal.
  apply Rsum_ext. intros j Hj. unfold line.
  destruct (Nat.eq_dec (o' * n + j) (o * n + i)) as [E|E]; [|now rewrite nth_upd_neq by auto].
  assert (j = i) by (assert (o' = o) by nia; nia). subst j. rewrite Z. ring.
Qed.
Lemma unused_wpartial draw kd m ls lo n k l ls' k1 o i x t d : network m ls kd lo n k -> ls = l :: ls' -> knd l = KDense ->
  length (bias l) = k1 -> (o < k1)%nat -> (i < n)%nat -> length x = n -> nth i x 0 = 0 ->
  wpartial draw kd m 0 (o * n + i) (x, t) d -> d = 0.
Proof.
  intros W -> K Hb Ho Hi Hx Z (l0 & s0 & C & E & Hp & HC & HD).
  pose proof (node_of m _ kd lo n k 0 l0 s0 W E) as E0. injection E0 as <-.
  pose proof (nw_shape _ _ _ _ _ _ W) as (j & SL & _). pose proof SL as (S1 & S2 & S3 & S4). rewrite K in S4. destruct S4 as (A1 & A2 & A3 & A4).
  assert (HK : forall s, C s = C 0).
  { assert (G : forall s, C s = loss_value kd t (net_value (l :: ls') x)).
    { intros s. destruct (HC s) as (m' & y & EP & ->). cbn [fst snd] in *.
      pose proof (put_network m (l :: ls') kd lo n k 0 l _ W eq_refl (with_weight_sizes l (o * n + i) s)) as WS.
      destruct (predict_net draw _ _ kd lo n k x WS Hx) as (m2 & E2). rewrite E2 in EP. injection EP as _ <-.
      f_equal. cbn [upd]. unfold net_value. cbn [fold_left]. rewrite (unused_layer l n j o i s x SL K Hx) by (auto; lia). reflexivity. }
    intros s. now rewrite !G. }
  apply (uniqueness_limite C 0 d 0 HD). apply (derivable_pt_lim_ext (fct_cte (C 0))); [intros s; symmetry; apply HK|].
  apply derivable_pt_lim_const.
Qed.

Lemma unused_sum draw kd m ls lo n k l ls' k1 o i (rows : row_list) ds : network m ls kd lo n k -> ls = l :: ls' -> knd l = KDense ->
  length (bias l) = k1 -> (o < k1)%nat -> (i < n)%nat -> Forall (fun xt => length (fst xt) = n /\ nth i (fst xt) 0 = 0) rows ->
  Forall2 (wpartial draw kd m 0 (o * n + i)) rows ds -> sum ds = 0.
Proof.
  intros W EL K Hb Ho Hi HZ F. induction F as [|(x, t) d rows ds D F IH]; [reflexivity|].
  inversion HZ as [|? ? (Z1 & Z2) HZ']; subst. cbn [fst] in *. change (sum (d :: ds)) with (d + sum ds).
  rewrite (unused_wpartial draw kd m _ lo _ k l ls' _ o i x t d W eq_refl K eq_refl Ho Hi eq_refl Z2 D), IH by auto. ring.
Qed.

(** One batch of gradient descent does not move the weights of an input that is zero in it. *)
Lemma unused_moved draw kd f eta m ls lo n k l ls' o i rows m' : network m ls kd lo n k -> ls = l :: ls' -> knd l = KDense ->
  (o < length (bias l))%nat -> (i < n)%nat -> Forall (fun xt => length (fst xt) = n /\ nth i (fst xt) 0 = 0) rows ->
  gd_moved draw kd f eta m rows m' -> weight_of m' 0 (o * n + i) = weight_of m 0 (o * n + i).
Proof.
  intros W EL K Ho Hi HZ MV. subst ls.
  destruct (node_at m _ kd lo n k 0 l W eq_refl) as (s & E).
  destruct (MV 0%nat l s E) as (l' & s' & E' & K' & L1 & L2 & Q & _). unfold weight_of. rewrite E, E'.
  pose proof (nw_shape _ _ _ _ _ _ W) as (j & (S1 & S2 & S3 & S4) & _). rewrite K in S4. destruct S4 as (A1 & A2 & A3 & A4).
  assert (Hp : (o * n + i < length (wts l))%nat) by (rewrite A1; nia).
  destruct (Q K) as (Q1 & _). destruct (Q1 _ Hp) as (ds & F & V).
  rewrite (unused_sum draw kd m _ lo n k l ls' _ o i rows ds W eq_refl K eq_refl Ho Hi HZ F) in V.
  rewrite (nth_error_nth' _ 0 Hp), (nth_error_nth' (wts l') 0) by lia. rewrite V. f_equal. ring.
Qed.
Lemma unused_run draw eta tol n k rows o i : (0 < k)%nat -> (i < n)%nat ->
  Forall (fun xt : list R * list R => (length (fst xt) = n /\ length (snd xt) = k) /\ nth i (fst xt) 0 = 0) rows ->
  forall bl m ls lo l ls' m1, network m ls (MSE tol) lo n k -> ls_in lo = k -> Forall cleared ls -> Forall smooth_kind ls ->
  ls = l :: ls' -> knd l = KDense -> (o < length (bias l))%nat ->
  Forall (Forall (fun i => (i < length rows)%nat)) bl ->
  foldM (fun m b => batch draw eta (pick rows b) m) bl m = Ok m1 -> weight_of m1 0 (o * n + i) = weight_of m 0 (o * n + i).
Proof.
  intros Hk Hi HR.
  assert (PK : forall b, Forall (fun i => (i < length rows)%nat) b ->
    Forall (fun xt : list R * list R => (length (fst xt) = n /\ length (snd xt) = k) /\ nth i (fst xt) 0 = 0) (pick rows b)).
  { intros b Hb. rewrite Forall_forall in HR |- *. intros r Hr. apply in_map_iff in Hr. destruct Hr as (j & <- & Hj).
    apply HR. apply nth_In. rewrite Forall_forall in Hb. exact (Hb j Hj). }
  induction bl as [|b bl IH]; intros m ls lo l ls' m1 W Hin HC HS EL K Ho HB E.
  - cbn [foldM] in E. injection E as <-. reflexivity.
  - inversion HB as [|? ? Hb HB']; subst.
    destruct (c55_batch_is_gradient_descent draw eta m (l :: ls') _ lo n _ (pick rows b) W Hk eq_refl HC) as (m2 & ls2 & lo2 & cs & E2 & W2 & I2 & V2 & KK & C2 & _ & _ & M2).
    { eapply Forall_impl; [|exact (PK b Hb)]. intros (x, t) ((Q1 & Q2) & _). cbn [fst snd] in *.
      split; [exact Q1|]. split; [exact Q2|]. split; [|intros; exact I].
      exact (smooth_everywhere _ n _ x (nw_shape _ _ _ _ _ _ W) Q1 HS). }
    cbn [foldM] in E. rewrite E2 in E. cbn [bind] in E.
    destruct ls2 as [|l2 ls2']; [discriminate|].
    rewrite <- (unused_moved draw (MSE tol) _ eta m _ lo n _ l ls' o i _ m2 W eq_refl K Ho Hi) with (2 := M2).
    2:{ eapply Forall_impl; [|exact (PK b Hb)]. intros xt ((Q1 & _) & Q3). auto. }
    injection KK as K2 KK.
    refine (IH m2 (l2 :: ls2') lo2 l2 ls2' m1 W2 I2 C2 _ eq_refl _ _ HB' E).
    + inversion HS as [|? ? HS1 HS2]; subst. constructor; [unfold smooth_kind in *; now rewrite K2|].
      clear - KK HS2. revert ls2' KK. induction HS2 as [|a ls HL _ IH]; intros [|l2 ls2] KK; try discriminate; constructor.
      * injection KK as K _. unfold smooth_kind in *. now rewrite K.
      * apply IH. now injection KK.
    + congruence.
    + destruct (node_at m _ _ lo n _ 0 l W eq_refl) as (s & E3). destruct (M2 0%nat l s E3) as (l2' & s' & E4 & _ & _ & LB & _).
      pose proof (node_of m2 _ _ lo2 n _ 0 l2' s' W2 E4) as E5. injection E5 as <-. lia.
Qed.
(** Gradient descent: the weights of an input that is zero in every row never change. *)
Theorem c87_unused_gradient_descent : forall draw eta d rows m l ls tol lo n k bs epochs fuel i o,
  network m (l :: ls) (MSE tol) lo n k -> (0 < k)%nat -> ls_in lo = k -> Forall cleared (l :: ls) -> Forall smooth_kind (l :: ls) ->
  knd l = KDense -> rows_of d rows -> Forall (fun xt => (length (fst xt) = n /\ length (snd xt) = k) /\ nth i (fst xt) 0 = 0) rows ->
  (i < n)%nat -> (o < length (bias l))%nat -> (1 <= bs)%nat -> (ds_size d <= fuel)%nat ->
  exists m', fit_sequential draw eta d fuel epochs bs m = Some (Ok m') /\
    weight_of m 0 (o * n + i) <> None /\ weight_of m' 0 (o * n + i) = weight_of m 0 (o * n + i).
Proof.
  intros draw eta d rows m l ls tol lo n k bs epochs fuel i o W Hk Hin HC HS K HR HZ Hi Ho Hb Hf.
  destruct (c39_sequential (ds_size d) bs Hb) as (bl & B & F).
  assert (HB : Forall (Forall (fun i => (i < length rows)%nat)) (concat (repeat bl epochs))).
  { rewrite (proj1 HR). apply batches_lt in B. clear - B. induction epochs as [|e IH]; cbn [repeat concat]; [constructor|]. apply Forall_app; auto. }
  assert (HZ' : Forall (fun xt : list R * list R => length (fst xt) = n /\ length (snd xt) = k) rows).
  { eapply Forall_impl; [|exact HZ]. intros xt (Q & _). exact Q. }
  destruct (run_spec draw eta (MSE tol) n k rows Hk _ m (l :: ls) lo W Hin HC HB) as (m' & ls' & lo' & E & _).
  { intros b1 b2 m1 E1 E2. rewrite <- E1 in HB. apply Forall_app in HB. destruct HB as (HB & _).
    exact (smooth_trainable draw eta tol n k rows Hk HZ' b1 m (l :: ls) lo m1 W Hin HC HS HB E2). }
  exists m'. split; [|split].
  - unfold fit_sequential. rewrite F by exact Hf. rewrite repeat_flat. now rewrite (exec_batches draw eta d rows HR _ m HB), E.
  - unfold weight_of. destruct (node_at m _ _ lo n k 0 l W eq_refl) as (s & E3). rewrite E3. apply nth_error_Some.
    pose proof (nw_shape _ _ _ _ _ _ W) as (j & (S1 & S2 & S3 & S4) & _). rewrite K in S4. destruct S4 as (A1 & A2 & A3 & A4). rewrite A1. nia.
  - exact (unused_run draw eta tol n k rows o i Hk Hi HZ _ m _ lo l ls m' W Hin HC HS eq_refl K Ho HB E).
Qed.
Print Assumptions c87_unused_gradient_descent.

(** A dense layer with two inputs and one output and a linear activation, batch size 1; the second input of the only row is zero. *)
Definition ex_unused_layers : list (layer R) := [mkLayer KDense 2 [0; 0] [0] [0; 0] [0] [0] [0; 0]; mkLayer (KAct Linear) 1 [] [] [] [] [0] [0]].
Definition ex_unused_data : dataset R := ds_vec 0 [1; 0; 1] 3 1 [2]%nat.
Definition ex_unused_rows : row_list := [([1; 0], [1])].
Lemma ex_unused_network : exists m : model (node R), network m ex_unused_layers (MSE 1) (loss_new 1 1) 2 1.
Proof.
  destruct (c36_built true 2 (le_n 2)) as (s & E & H1 & H2 & H3 & H4 & H5).
  exists (mkModel s (map (fun s => (s, SNull)) (map NL ex_unused_layers ++ [NO (MSE 1) (loss_new 1 1)]))).
  constructor; cbn [mgraph mnodes].
  - exact (is_chain_built _ _ true 2 E (le_n 2) H1 H2 H3 H4 H5).
  - cbn. lia.
  - reflexivity.
  - cbn [nshape ex_unused_layers]. exists 1%nat. split; [unfold lshape; cbn; auto 10|]. exists 1%nat. split; [|reflexivity].
    unfold lshape. cbn. split; [auto|]. split; [auto|]. split; [auto|]. split; [auto|]. discriminate.
  - reflexivity.
Qed.
Lemma ex_unused_ok : Forall cleared ex_unused_layers /\ Forall smooth_kind ex_unused_layers /\
  rows_of ex_unused_data ex_unused_rows /\
  Forall (fun xt => (length (fst xt) = 2%nat /\ length (snd xt) = 1%nat) /\ nth 1 (fst xt) 0 = 0) ex_unused_rows.
Proof.
  split.
  { constructor; [|constructor; [intros K; discriminate|constructor]]. intros K. cbn [wgrad bgrad]. split; intros p; do 3 (destruct p as [|p]; [reflexivity|]); destruct p; reflexivity. }
  split; [repeat constructor|]. split; [|repeat constructor].
  split; [reflexivity|]. intros i x t Hi. destruct i as [|[|i]]; [|discriminate|discriminate]. injection Hi as <- <-. split; reflexivity.
Qed.
(** Adam moves such weights: all parameters share the two moments. *)
Theorem c87_unused_input_refuted : exists (m m' : model (node R)) w w',
  network m ex_unused_layers (MSE 1) (loss_new 1 1) 2 1 /\
  fit_adam (fun _ => 0) 1 ex_unused_data 1 1 1 m = Some (Ok m') /\
  weight_of m 0 1 = Some w /\ weight_of m' 0 1 = Some w' /\ w' <> w.
Proof.
  destruct ex_unused_network as (m & W). destruct ex_unused_ok as (HC & HS & HR & HZ).
  assert (HZ' : Forall (fun xt : list R * list R => length (fst xt) = 2%nat /\ length (snd xt) = 1%nat) ex_unused_rows).
  { eapply Forall_impl; [|exact HZ]. intros xt (Q & _). exact Q. }
  destruct (c87_fit_mean_squared_error (fun _ => 0) 1 ex_unused_data ex_unused_rows m _ 1 _ 2 1 1 1 1 W (le_n 1) eq_refl HC HS HR HZ' (le_n 1) (le_n 1))
    as (bl & m' & ls' & lo' & B & E & W' & _ & AR).
  assert (B1 : bl = [[0%nat]]).
  { apply (c39_batches_unique 1 1 _ _ B). split; [reflexivity|]. split; repeat constructor. }
  subst bl. cbn [repeat concat app map pick ex_unused_rows nth] in AR.
  inversion AR as [|? ? ? h1 ? m1 ? MV AR']; subst. inversion AR'; subst.
  destruct (node_at m _ _ _ 2 1 0 _ W eq_refl) as (s & E0).
  destruct MV as (gs & (LG & G) & _ & SL & LP & LC & Q).
  assert (AP : all_params m = [0; 0; 0]) by (rewrite (all_params_net _ _ _ _ _ _ W); reflexivity).
  destruct gs as [|g gs]. { rewrite AP in LC. discriminate. }
  pose proof (G 0%nat _ s g E0 eq_refl) as NG. cbn [node_gradient ex_unused_layers knd wts bias length] in NG.
  destruct NG as (Lg & NG & _). destruct g as [|g0 [|g1 [|g2 [|]]]]; try discriminate.
  destruct (NG 0%nat ltac:(lia)) as (ds & F & V0). destruct (NG 1%nat ltac:(lia)) as (ds1 & F1 & V1). cbn [nth] in V0, V1.
  rewrite (unused_sum (fun _ => 0) (MSE 1) m _ _ 2 1 _ _ 1 0 1 _ ds1 W eq_refl eq_refl eq_refl ltac:(lia) ltac:(lia)) with (2 := F1) in V1
    by (repeat constructor).
  inversion F as [|? d ? ds' D F']; subst. inversion F'; subst. change (sum [d]) with (d + 0) in *.
  assert (HD : d = -2).
  { destruct D as (l0 & s0 & C & E1 & Hp & HCs & HD). rewrite E0 in E1. injection E1 as <- _. cbn [fst snd] in *.
    apply (uniqueness_limite C 0 d (-2) HD). apply (derivable_pt_lim_ext (fun s => (1 - s) ^ 2)).
    - intros s1. destruct (HCs s1) as (m1 & y & EP & ->).
      pose proof (put_network m _ _ _ 2 1 0 _ _ W eq_refl (with_weight_sizes _ 0 s1)) as WS.
      destruct (predict_net (fun _ => 0) _ _ _ _ 2 1 [1; 0] WS eq_refl) as (m2 & E2). rewrite E2 in EP. injection EP as _ <-.
      cbn. unfold mse_value. cbn. field.
    - eapply dlim_eq.
      + apply (dlim_comp (fun s => 1 - s) (fun z => z ^ 2)).
        * apply (dlim_minus (fun _ => 1) (fun s => s)); [apply dlim_const|apply derivable_pt_lim_id].
        * apply derivable_pt_lim_pow.
      + cbn. ring. }
  subst d.
  destruct (SL 0%nat _ s E0) as (l' & s' & E0' & K' & LW & LB & _).
  exists m, m'. eexists 0, (nth 1 (wts l') 0).
  split; [exact W|]. split; [exact E|]. unfold weight_of. rewrite E0, E0'. split; [reflexivity|].
  split; [apply nth_error_nth'; rewrite LW; cbn; lia|].
  pose proof (Q 1%nat ltac:(rewrite AP; cbn; lia)) as Q1. rewrite AP in Q1. cbn [nth concat app firstn] in Q1.
  assert (EP : nth 1 (all_params m') 0 = nth 1 (wts l') 0).
  { rewrite (all_params_net _ _ _ _ _ _ W'). pose proof (node_of m' _ _ _ 2 1 0 l' s' W' E0') as E5.
    destruct ls' as [|l2 ls']; [discriminate|]. injection E5 as ->. cbn [flat_map]. unfold layer_params.
    rewrite K'. cbn [ex_unused_layers knd]. rewrite <- app_assoc, app_nth1 by (rewrite LW; cbn; lia). reflexivity. }
  rewrite EP in Q1. rewrite Q1. clear. unfold doc_step, doc_moment. cbn [length Rsum nth map Nat.sub].
  match goal with |- _ - 1 * (?M / ?D / ?S) <> _ => assert (HS : 0 < S) by (apply Rplus_le_lt_0_compat; [apply sqrt_pos|lra]); set (S0 := S) in *; intros EZ;
    assert (X : M / D / S0 < 0) end; [|lra].
  apply (Rmult_lt_reg_r S0); [exact HS|]. unfold Rdiv at 1. rewrite Rmult_assoc, Rinv_l, Rmult_1_r, Rmult_0_l by lra.
  cbn. lra.
Qed.
Print Assumptions c87_unused_input_refuted.
Example c87_unused_met : exists m : model (node R), network m ex_unused_layers (MSE 1) (loss_new 1 1) 2 1 /\
  (0 < 1)%nat /\ ls_in (loss_new 1 1 : lossl R) = 1%nat /\ Forall cleared ex_unused_layers /\ Forall smooth_kind ex_unused_layers /\
  rows_of ex_unused_data ex_unused_rows /\
  Forall (fun xt => (length (fst xt) = 2%nat /\ length (snd xt) = 1%nat) /\ nth 1 (fst xt) 0 = 0) ex_unused_rows.
Proof.
  destruct ex_unused_network as (m & W). destruct ex_unused_ok as (HC & HS & HR & HZ). exists m.
  split; [exact W|]. split; [lia|]. split; [reflexivity|]. auto.
Qed.
Example c87_batch_met : exists (m : model (node R)) bl, network m ex_unused_layers (MSE 1) (loss_new 1 1) 2 1 /\
  Forall (row_ok (fun _ => 0) (MSE 1) m ex_unused_layers 2 1) ex_unused_rows /\ default_seen 1 (adam_default 1) [] /\
  batches_of (ds_size ex_unused_data) 1 bl /\
  (forall b1 b2 am1, b1 ++ b2 = concat (repeat bl 3) ->
    foldM (fun am b => batch_adam (fun _ => 0) (pick ex_unused_rows b) am) b1 (adam_default 1, m) = Ok am1 ->
    trainable (fun _ => 0) (MSE 1) 2 1 ex_unused_rows (snd am1)).
Proof.
  destruct ex_unused_network as (m & W). destruct ex_unused_ok as (HC & HS & HR & HZ).
  exists m, [[0%nat]]. split; [exact W|].
  assert (HZ' : Forall (fun xt : list R * list R => length (fst xt) = 2%nat /\ length (snd xt) = 1%nat) ex_unused_rows).
  { eapply Forall_impl; [|exact HZ]. intros xt (Q & _). exact Q. }
  split.
  { eapply Forall_impl; [|exact HZ']. intros (x, t) (Q1 & Q2). cbn [fst snd] in *. split; [exact Q1|]. split; [exact Q2|].
    split; [exact (smooth_everywhere _ 2 1 x (nw_shape _ _ _ _ _ _ W) Q1 HS)|]. intros. exact I. }
  split; [apply default_new|]. split; [split; [reflexivity|]; split; repeat constructor|].
  intros b1 b2 am1 E1 E2.
  apply (smooth_trainable_adam (fun _ => 0) 1 1 2 1 ex_unused_rows (le_n 1) HZ' b1 _ [] m _ _ am1 (default_new 1) W eq_refl HC HS); [|exact E2].
  assert (HB : Forall (Forall (fun i => (i < 1)%nat)) (b1 ++ b2)) by (rewrite E1; repeat constructor).
  apply Forall_app in HB. exact (proj1 HB).
Qed.
