(** C60, C61: the fit function of the high-level network. *)
From Coq Require Import Reals Lra.
From Verif Require Import Base Num RSum DatasetModel MathModel MathProofs LayerModel LossModel OptModel GraphModel GraphProofs ModelModel NodeModel
  ChainProofs ModelProofs PropModel TrainProofs RecurrentModel CopyModel FnnModel FitModel PropFit PropStep InitModel PropInit.

Lemma f2_len {A B} (P : A -> B -> Prop) l l' : Forall2 P l l' -> length l = length l'.
Proof. induction 1; cbn; auto. Qed.

Section Sim.
Context {T : Type} `{NumOps T} `{TransOps T} `{LimOps T}.

(** *** What a run depends on *)
(** Same parameters, same accumulated gradients; the output and input gradient buffers may
    differ. *)
Definition like (l l2 : layer T) : Prop := same_params l l2 /\ wgrad l2 = wgrad l /\ bgrad l2 = bgrad l.

Lemma like_out (l l2 : layer T) n k k2 : lshape l n k -> lshape l2 n k2 -> same_params l l2 -> k2 = k.
Proof.
  intros (_ & _ & S3 & S4) (_ & _ & T3 & T4) (A & _ & C & D). rewrite A in T4.
  destruct (knd l); [|destruct S4, T4; congruence]. destruct S4 as (_ & _ & X & _), T4 as (_ & _ & Y & _). congruence.
Qed.

(** Backward on layers that ran forward on the same input. *)
Lemma layer_backward_like (l l2 : layer T) n k x g : lshape l n k -> lshape l2 n k -> like l l2 -> out l2 = out l ->
  length x = n -> length g = k ->
  exists l' l2', layer_backward l x g = Ok l' /\ layer_backward l2 x g = Ok l2' /\ like l' l2' /\ ig l2' = ig l' /\
    out l' = out l /\ out l2' = out l2 /\ lshape l' n k /\ lshape l2' n k /\ same_params l l'.
Proof.
  intros S S2 ((P1 & P2 & P3 & P4) & G1 & G2) HO Hx Hg.
  destruct (layer_backward_shape l n k x g S Hx Hg) as (l' & E & P & S' & O').
  destruct (layer_backward_shape l2 n k x g S2 Hx Hg) as (l2' & E2 & P' & S2' & O2').
  exists l', l2'. split; [exact E|]. split; [exact E2|].
  assert (SP : same_params l' l2') by (destruct P as (?&?&?&?), P' as (?&?&?&?); repeat split; congruence).
  cut (ig l2' = ig l' /\ wgrad l2' = wgrad l' /\ bgrad l2' = bgrad l').
  { intros (A & B & C). unfold like. auto 10. }
  clear S' S2' P P' SP. destruct S as (I1 & I2 & I3 & I4), S2 as (J1 & J2 & J3 & J4).
  unfold layer_backward in E, E2. rewrite P1 in E2, J4. destruct (knd l) as [|a] eqn:K.
  - destruct I4 as (A1 & A2 & A3 & A4), J4 as (B1 & B2 & B3 & B4). rewrite I1, Hg in E. rewrite J1, Hg in E2.
    destruct (dense_1_spec n0 (ig l) (wgrad l) (bgrad l) g x (wts l) n k) as (i' & wg' & bg' & F & L1 & L2 & L3 & Q1 & Q2 & Q3 & Q4); try lia.
    destruct (dense_1_spec n0 (ig l2) (wgrad l2) (bgrad l2) g x (wts l2) n k) as (i2' & wg2' & bg2' & F2 & M1 & M2 & M3 & R1 & R2 & R3 & R4); try lia.
    rewrite F in E. rewrite F2 in E2. cbn [bind] in E, E2. injection E as <-. injection E2 as <-. cbn [ig wgrad bgrad].
    split; [|split].
    + apply (list_ext_nth n0); [congruence|]. intros p Hp. rewrite R1, Q1, P3.
      destruct (Nat.ltb_spec p n); [reflexivity|lia].
    + apply (list_ext_nth n0); [congruence|]. intros p Hp.
      assert (0 < n \/ n = 0) as [Hn|Hn] by lia.
      * pose proof (Nat.div_mod p n ltac:(lia)) as DM. pose proof (Nat.mod_upper_bound p n ltac:(lia)) as MB.
        assert (p / n < k) by (apply Nat.div_lt_upper_bound; lia).
        replace p with (p / n * n + p mod n) by lia. rewrite R2, Q2 by auto. now rewrite G1.
      * rewrite R3, Q3 by nia. now rewrite G1.
    + apply (list_ext_nth n0); [congruence|]. intros p Hp. rewrite R4, Q4, G2. reflexivity.
  - destruct I4 as (I4 & _). destruct J4 as (J4 & _). rewrite I4 in *. clear I4 J4.
    assert (X : act_backward a (out l) (ig l) g = act_backward a (out l2) (ig l2) g).
    { rewrite HO. unfold act_backward. rewrite I2, J2.
      assert (PW : forall f, (i <- map_into f (ig l) (out l) n ;; map2_inplace nmul i g n) = (i <- map_into f (ig l2) (out l) n ;; map2_inplace nmul i g n)).
      { intros f. destruct (map_into_val f (out l) n I3) as (y & Ly & Hy). now rewrite !Hy. }
      destruct a; try apply PW.
      - rewrite !(softmax_1_opt_spec n0) by lia. rewrite !skipn_all2 by lia. reflexivity.
      - destruct (map_into_val (fun v : T => v) g n Hg) as (y & Ly & Hy). now rewrite !Hy. }
    rewrite X in E. destruct (act_backward a (out l2) (ig l2) g) as [i'| |]; try discriminate.
    cbn [bind] in E, E2. injection E as <-. injection E2 as <-. cbn [set_ig ig wgrad bgrad]. auto.
Qed.

Lemma chain_like ls : forall ls2 n k x, Forall2 like ls ls2 -> nshape ls n k -> nshape ls2 n k -> length x = n ->
  exists ls' ls2' y, chain_forward ls x = Ok (ls', y) /\ chain_forward ls2 x = Ok (ls2', y) /\ length y = k /\
    forall g, length g = k -> exists b b2 gx, chain_backward ls' x g = Ok (b, gx) /\ chain_backward ls2' x g = Ok (b2, gx) /\
      Forall2 like b b2 /\ nshape b n k /\ nshape b2 n k /\ Forall2 same_params ls b /\ length gx = n.
Proof.
  induction ls as [|l ls IH]; intros ls2 n k x F HS HS2 Hx; inversion F as [|? l2 ? tl2 F1 F2]; subst.
  - exists [], [], x. cbn in *. subst k. split; [reflexivity|]. split; [reflexivity|]. split; [reflexivity|].
    intros g Hg. exists [], [], g. cbn. auto 10.
  - destruct HS as (j & HL & HS), HS2 as (j2 & HL2 & HS2).
    assert (j2 = j) by (eapply like_out; eauto; apply F1). subst j2.
    destruct (layer_forward_val l _ j x HL eq_refl) as (y1 & Ly1 & V).
    pose proof (V l HL (same_params_refl l)) as E. pose proof (V l2 HL2 (proj1 F1)) as E2.
    destruct (IH tl2 j k y1 F2 HS HS2 Ly1) as (ls' & ls2' & y & C1 & C2 & Ly & B).
    exists (set_out l y1 :: ls'), (set_out l2 y1 :: ls2'), y.
    cbn [chain_forward]. rewrite E, E2. cbn [bind set_out out]. rewrite C1, C2. cbn [bind].
    split; [reflexivity|]. split; [reflexivity|]. split; [exact Ly|].
    intros g Hg. destruct (B g Hg) as (b & b2 & gx & D1 & D2 & LB & N1 & N2 & PB & Lg).
    cbn [chain_backward set_out out]. rewrite D1, D2. cbn [bind].
    destruct (layer_backward_like (set_out l y1) (set_out l2 y1) (length x) j x gx) as (l' & l2' & G1 & G2 & G3 & G4 & G5 & G6 & G7 & G8 & G9); auto.
    { now apply lshape_set_out. } { now apply lshape_set_out. }
    rewrite G1, G2. cbn [bind]. rewrite G4. do 3 eexists. split; [reflexivity|]. split; [reflexivity|].
    split; [constructor; auto|]. split; [exists j; auto|]. split; [exists j; auto|]. split; [constructor; auto|].
    apply G7.
Qed.

(** *** Networks in the same state *)
Definition llike (k : nat) (lo lo2 : lossl T) : Prop :=
  ls_in lo2 = ls_in lo /\ ls_inv lo2 = ls_inv lo /\ length (ls_grad lo) = k /\ length (ls_grad lo2) = k.
Definition alike (kd : losskind T) (n k : nat) (m m2 : model (node T)) : Prop :=
  exists ls ls2 lo lo2, network m ls kd lo n k /\ network m2 ls2 kd lo2 n k /\ Forall2 like ls ls2 /\ llike k lo lo2.
Definition both {A} (Q : A -> A -> Prop) (r r2 : res A) : Prop :=
  match r, r2 with Ok a, Ok b => Q a b | Throw, Throw => True | UB, UB => True | _, _ => False end.

(** Two results of the loss layers: same outcome, states that differ in the scores only. *)
Lemma loss_forward_like kd lo lo2 t y k : llike k lo lo2 ->
  snd (loss_forward kd (set_target lo t) y) = snd (loss_forward kd (set_target lo2 t) y) /\
  (snd (loss_forward kd (set_target lo t) y) = Ok tt ->
   llike k (fst (loss_forward kd (set_target lo t) y)) (fst (loss_forward kd (set_target lo2 t) y)) /\
   ls_target (fst (loss_forward kd (set_target lo t) y)) = t /\
   ls_target (fst (loss_forward kd (set_target lo2 t) y)) = t).
Proof.
  intros (A & B & C & D). destruct kd as [|tol]; cbn [loss_forward].
  - unfold cce_forward. cbn [set_target ls_target ls_in]. destruct t as [|t0 t]; [split; [reflexivity|discriminate]|].
    destruct (cross_entropy (t0 :: t) y (length y)) as [v| |]; [|split; [reflexivity|discriminate]..].
    destruct (max_and_argmax y (length y)) as [(mx, mi)| |]; [|split; [reflexivity|discriminate]..].
    cbn [LossModel.add_loss set_target ls_target ls_in]. rewrite A.
    destruct (argactive (t0 :: t) 0 (ls_in lo)) as [act| |]; [|split; [reflexivity|discriminate]..].
    split; [reflexivity|]. intros _. unfold llike. cbn. auto 10.
  - unfold mse_forward. cbn [set_target ls_target]. destruct t as [|t0 t]; [split; [reflexivity|discriminate]|].
    destruct (mean_squared_error (t0 :: t) y (length y)) as [v| |]; [|split; [reflexivity|discriminate]..].
    split; [reflexivity|]. intros _. unfold llike. cbn. auto 10.
Qed.
Lemma loss_backward_like kd lo lo2 t y k : llike k lo lo2 -> ls_target lo = t -> ls_target lo2 = t ->
  length t = k -> length y = k ->
  exists g, loss_backward kd lo y = Ok g /\ loss_backward kd lo2 y = Ok g /\ length g = k.
Proof.
  intros (A & B & C & D) E1 E2 Ht Hy.
  destruct kd as [|tol]; cbn [loss_backward]; unfold cce_backward, mse_backward, cross_entropy_1_arr, mean_squared_error_1;
    rewrite E1, E2, B, C, D, !(map2_into_spec n0) by lia; rewrite !skipn_all2, app_nil_r by lia;
    eexists; (split; [reflexivity|]; split; [reflexivity|apply tab_length]).
Qed.

Lemma step_network_like kd n k (m : model (node T)) ls lo ls' lo' : network m ls kd lo n k -> Forall2 same_params ls ls' ->
  nshape ls' n k -> length (ls_grad lo') = k ->
  network (mkModel (mgraph m) (place 0 (map NL ls' ++ [NO kd lo']))) ls' kd lo' n k.
Proof.
  intros W P S' G. pose proof (f2_len _ _ _ P) as LL.
  constructor; cbn [mgraph mnodes]; rewrite <- ?LL; try apply W; auto. apply place_fst.
Qed.

Lemma m_step_like draw kd n k m m2 x t : alike kd n k m m2 -> length x = n -> length t = k ->
  both (alike kd n k) (m_step (node_ops draw) m x t) (m_step (node_ops draw) m2 x t).
Proof.
  intros (ls & ls2 & lo & lo2 & W & W2 & F & FL) Hx Ht.
  rewrite (c36_step _ _ _ _ draw m ls kd lo n k x t W), (c36_step _ _ _ _ draw m2 ls2 kd lo2 n k x t W2).
  destruct (chain_like ls ls2 n k x F (nw_shape _ _ _ _ _ _ W) (nw_shape _ _ _ _ _ _ W2) Hx) as (ls' & ls2' & y & C1 & C2 & Ly & B).
  rewrite C1, C2. cbn [bind].
  destruct (loss_forward_like kd lo lo2 t y k FL) as (R & Q).
  destruct (loss_forward kd (set_target lo t) y) as (lo1, r). destruct (loss_forward kd (set_target lo2 t) y) as (lo3, r3).
  cbn [fst snd] in R, Q. subst r3. destruct r as [[]| |]; cbn [bind both]; auto.
  destruct (Q eq_refl) as (FL' & T1 & T2).
  destruct (loss_backward_like kd lo1 lo3 t y k FL' T1 T2 Ht Ly) as (g & G1 & G2 & Lg). rewrite G1, G2. cbn [bind].
  destruct (B g Lg) as (b & b2 & gx & D1 & D2 & LB & N1 & N2 & PB & _). rewrite D1, D2. cbn [bind both].
  assert (PB2 : Forall2 same_params ls2 b2).
  { clear - F LB PB. revert ls2 b2 F LB. induction PB as [|l l' ls ls' P _ IH]; intros ls2 b2 F LB;
      inversion F as [|? l2 ? tl (Q & _)]; subst; inversion LB as [|? l3 ? tl3 (Q' & _)]; subst; constructor; auto.
    destruct P as (?&?&?&?), Q as (?&?&?&?), Q' as (?&?&?&?). repeat split; congruence. }
  exists b, b2, (set_grad lo1 g), (set_grad lo3 g).
  split; [exact (step_network_like kd n k m ls lo b (set_grad lo1 g) W PB N1 Lg)|].
  split; [exact (step_network_like kd n k m2 ls2 lo2 b2 (set_grad lo3 g) W2 PB2 N2 Lg)|].
  split; [exact LB|]. destruct FL' as (A1 & A2 & A3 & A4). unfold llike. cbn [set_grad ls_in ls_inv ls_grad]. auto.
Qed.

Lemma reset_net (m : model (node T)) ls kd lo n k : network m ls kd lo n k ->
  exists m', m_reset_score m = Ok m' /\ network m' ls kd (reset_score lo) n k.
Proof.
  intros W. unfold m_reset_score. rewrite (ic_losses _ _ _ (nw_graph _ _ _ _ _ _ W)). cbn [foldM].
  destruct (exists_last (l := mnodes m)) as (rest & (q, lp) & EN).
  { intros Hn. pose proof (nw_nodes _ _ _ _ _ _ W) as E0. rewrite Hn in E0. destruct ls; discriminate. }
  pose proof (nw_nodes _ _ _ _ _ _ W) as E0. rewrite EN, map_app in E0. cbn [map fst] in E0.
  apply app_inj_tail in E0. destruct E0 as (E1 & ->).
  assert (LL : length rest = length ls) by (apply (f_equal (@length _)) in E1; rewrite !map_length in E1; exact E1).
  rewrite EN. rewrite (rd_app_mid rest _ [] _ LL). cbn [bind].
  rewrite (wr_app_mid rest _ _ [] _ LL). cbn [bind]. eexists. split; [reflexivity|].
  destruct W. constructor; cbn [mgraph mnodes reset_score ls_grad]; auto.
  rewrite map_app, E1. reflexivity.
Qed.
Lemma reset_like kd n k m m2 : alike kd n k m m2 -> both (alike kd n k) (m_reset_score m) (m_reset_score m2).
Proof.
  intros (ls & ls2 & lo & lo2 & W & W2 & F & FL).
  destruct (reset_net m ls kd lo n k W) as (m' & E & W'). destruct (reset_net m2 ls2 kd lo2 n k W2) as (m2' & E2 & W2').
  rewrite E, E2. exists ls, ls2, (reset_score lo), (reset_score lo2). auto.
Qed.
Lemma trained_like eta l l2 : like l l2 -> like (trained eta l) (trained eta l2).
Proof.
  intros ((A & B & C & D) & G1 & G2). unfold trained. rewrite A. destruct (knd l) eqn:K.
  - unfold like, same_params. cbn [knd insz wts bias wgrad bgrad]. rewrite B, C, D, G1, G2. repeat split; auto.
  - unfold like, same_params. repeat split; congruence.
Qed.
Lemma train_like eta kd n k m m2 : alike kd n k m m2 -> both (alike kd n k) (m_train eta m) (m_train eta m2).
Proof.
  intros (ls & ls2 & lo & lo2 & W & W2 & F & FL).
  destruct (network_train eta m ls kd lo n k W) as (m' & E & _ & W'). destruct (network_train eta m2 ls2 kd lo2 n k W2) as (m2' & E2 & _ & W2').
  rewrite E, E2. exists (map (trained eta) ls), (map (trained eta) ls2), lo, lo2. split; [exact W'|]. split; [exact W2'|].
  split; [|exact FL]. clear - F. induction F; cbn; constructor; auto using trained_like.
Qed.

(** *** The loops *)
Section Loops.
Context {M : Type} (Q : M -> M -> Prop).
Variables (step : M -> nat -> res M) (reset train : M -> res M) (size : nat).
Hypothesis HS : forall i m m2, i < size -> Q m m2 -> both Q (step m i) (step m2 i).
Hypothesis HR : forall m m2, Q m m2 -> both Q (reset m) (reset m2).
Hypothesis HT : forall m m2, Q m m2 -> both Q (train m) (train m2).

Definition oboth (r r2 : option (res M)) : Prop :=
  match r, r2 with Some a, Some b => both Q a b | None, None => True | _, _ => False end.
Lemma batch_steps_like b : forall i m m2, Q m m2 ->
  both (fun p p2 => Q (fst p) (fst p2) /\ snd p2 = snd p) (batch_steps step b size i m) (batch_steps step b size i m2).
Proof.
  induction b as [|b IH]; intros i m m2 HQ; cbn [batch_steps]; [cbn; auto|].
  destruct (Nat.ltb_spec i size) as [Hi|Hi]; [|cbn; auto].
  pose proof (HS i m m2 Hi HQ) as X. destruct (step m i), (step m2 i); cbn [both bind] in *; try contradiction; auto.
Qed.
Lemma epoch_like bs : forall fuel i m m2, Q m m2 ->
  oboth (epoch step reset train fuel size bs i m) (epoch step reset train fuel size bs i m2).
Proof.
  induction fuel as [|f IH]; intros i m m2 HQ; cbn [epoch]; destruct (i <? size); try (cbn; auto; fail).
  pose proof (HR m m2 HQ) as X. destruct (reset m) as [m1| |], (reset m2) as [m3| |]; cbn [both bind] in *; try contradiction; auto.
  pose proof (batch_steps_like bs i m1 m3 X) as Y.
  destruct (batch_steps step bs size i m1) as [(a, ja)| |], (batch_steps step bs size i m3) as [(b, jb)| |]; cbn [both bind fst snd] in *; try contradiction; auto.
  destruct Y as (Y & ->). pose proof (HT a b Y) as Z. destruct (train a), (train b); cbn [both bind] in *; try contradiction; auto.
Qed.
Lemma fit_run_like bs fuel : forall epochs m m2, Q m m2 ->
  oboth (fit_run step reset train fuel epochs size bs m) (fit_run step reset train fuel epochs size bs m2).
Proof.
  induction epochs as [|e IH]; intros m m2 HQ; cbn [fit_run]; [cbn; auto|].
  pose proof (epoch_like bs fuel 0 m m2 HQ) as X.
  destruct (epoch step reset train fuel size bs 0 m) as [[a| |]|], (epoch step reset train fuel size bs 0 m2) as [[b| |]|];
    cbn [oboth both] in *; try contradiction; auto.
Qed.
End Loops.

(** Every row has [n] inputs and [k] labels. *)
Definition rows_sized (d : dataset T) (n k : nat) : Prop :=
  forall i, i < ds_size d -> exists x t, ds_input n0 d i = Ok x /\ ds_label n0 d i = Ok t /\ length x = n /\ length t = k.

Lemma fit_sequential_like draw eta d fuel epochs bs kd n k m m2 : rows_sized d n k -> alike kd n k m m2 ->
  oboth (alike kd n k) (fit_sequential draw eta d fuel epochs bs m) (fit_sequential draw eta d fuel epochs bs m2).
Proof.
  intros HZ. unfold fit_sequential. apply fit_run_like.
  - intros i a b Hi Q. destruct (HZ i Hi) as (x & t & E1 & E2 & L1 & L2). unfold row_step. rewrite E1, E2. cbn [bind].
    now apply m_step_like.
  - intros a b. apply reset_like.
  - intros a b. apply train_like.
Qed.

(** *** Before the loops: losses and initialisation *)
(** A row of layers without a loss layer, as the builder leaves it. *)
Definition plain (m : model (node T)) (ls : list (layer T)) (n k : nat) : Prop :=
  is_chain false (length ls) (mgraph m) /\ 1 <= length ls /\ map fst (mnodes m) = map NL ls /\ nshape ls n k.

Lemma nshape_last : forall (ls : list (layer T)) l n k, nshape (ls ++ [l]) n k -> length (out l) = k.
Proof.
  induction ls as [|a ls IH]; intros l n k; cbn [app nshape].
  - intros (j & (_ & _ & L & _) & E). cbn in E. congruence.
  - intros (j & _ & HS). eauto.
Qed.
Lemma fit_losses_plain kd batch m ls n k : plain m ls n k ->
  exists m', fit_losses kd batch m = Ok m' /\ network m' ls kd (loss_new k batch) n k.
Proof.
  intros (C & L & EN & HS). unfold fit_losses. rewrite (ic_losses _ _ _ C), (ic_out _ _ _ C).
  assert (LN : length (mnodes m) = length ls) by (rewrite <- (map_length fst), EN; apply map_length).
  destruct (exists_last (l := ls)) as (pre & l & Els). { intros ->. cbn in L. lia. }
  assert (EL : nth_error (mnodes m) (length ls - 1) = Some (NL l, snd (nth (length ls - 1) (mnodes m) (NL l, SNull)))).
  { rewrite (nth_error_nth' (mnodes m) (NL l, SNull)) by lia. f_equal.
    assert (X : nth_error (map fst (mnodes m)) (length ls - 1) = Some (NL l)).
    { rewrite EN, nth_error_map, Els, app_length. cbn [length]. rewrite nth_error_app2 by lia.
      replace (length pre + 1 - 1 - length pre) with 0 by lia. reflexivity. }
    rewrite nth_error_map, (nth_error_nth' (mnodes m) (NL l, SNull)) in X by lia. cbn in X. injection X as X.
    rewrite (surjective_pairing (nth (length ls - 1) (mnodes m) (NL l, SNull))), X. reflexivity. }
  unfold rd. rewrite EL. cbn [bind n_output_size].
  assert (LO : length (out l) = k) by (rewrite Els in HS; eapply nshape_last; eauto). rewrite LO.
  pose proof (ic_nodes _ _ _ C) as Nn. rewrite Nn.
  unfold create_loss_edge, add_backward, add_forward_loss, add_arc, GraphModel.add_loss, add_node. cbn [nodes bgraph tgraph fgraph losses inputs outputs].
  rewrite Nn. rewrite (proj2 (Nat.ltb_lt (length ls) (S (length ls)))) by lia.
  rewrite (proj2 (Nat.ltb_lt (length ls - 1) (S (length ls)))) by lia. cbn [andb guard bind nodes bgraph tgraph fgraph losses inputs outputs].
  rewrite (proj2 (Nat.ltb_lt (length ls) (S (length ls)))) by lia.
  rewrite (proj2 (Nat.ltb_lt (length ls - 1) (S (length ls)))) by lia. cbn [andb guard bind nodes bgraph tgraph fgraph losses inputs outputs].
  eexists. split; [reflexivity|]. constructor; cbn [mgraph mnodes].
  - constructor; cbn [nodes bgraph tgraph fgraph losses inputs outputs].
    + reflexivity.
    + intros i. rewrite (ic_f _ _ _ C). reflexivity.
    + intros i. rewrite !(ic_t _ _ _ C). destruct (Nat.eqb_spec i (length ls - 1)) as [->|Hi].
      * replace (S (length ls - 1)) with (length ls) by lia. rewrite Nat.ltb_irrefl, (proj2 (Nat.ltb_lt _ _)) by lia. reflexivity.
      * destruct (Nat.ltb_spec (S i) (length ls)), (Nat.ltb_spec (S i) (S (length ls))); try lia; reflexivity.
    + intros i. rewrite !(ic_b _ _ _ C). destruct (Nat.eqb_spec i (length ls)) as [->|Hi].
      * destruct (length ls) as [|q] eqn:Eq; [lia|]. rewrite Nat.ltb_irrefl, (proj2 (Nat.ltb_lt _ _)) by lia.
        cbn [sinsert]. f_equal. lia.
      * destruct i as [|q]; [reflexivity|]. destruct (Nat.ltb_spec (S q) (length ls)), (Nat.ltb_spec (S q) (S (length ls))); try lia; reflexivity.
    + rewrite (ic_losses _ _ _ C). cbn [app]. f_equal. lia.
    + apply C.
    + apply C.
  - exact L.
  - rewrite map_app, EN. reflexivity.
  - exact HS.
  - cbn. apply repeat_length.
Qed.
Lemma fit_losses_network kd batch m ls lo n k : network m ls kd lo n k -> fit_losses kd batch m = Ok m.
Proof. intros W. unfold fit_losses. now rewrite (ic_losses _ _ _ (nw_graph _ _ _ _ _ _ W)). Qed.

Section Engine.
Context {E : Type}.
Variable start : Z -> E.
Variable next : E -> Z * E.
Variable normal : T -> T -> option T -> E -> (T * option T) * E.

(** 2 for Kaiming, 1 for Xavier; AUTO looks at the next layer. *)
Definition spread (mi : minit) (next : option (layer T)) : Z :=
  match mi with
  | MKaiming => 2
  | MXavier => 1
  | MAuto => match next with Some l => match knd l with KAct Relu => 2 | _ => 1 end | None => 1 end
  end.
(** The layers after initialisation from generator [e]. *)
Definition all_initialised (mi : minit) (p : pdf) (e : E) (ls ls' : list (layer T)) : Prop :=
  length ls' = length ls /\
  forall i l, nth_error ls i = Some l -> exists l', nth_error ls' i = Some l' /\
    (knd l = KDense -> initialised next normal p e (spread mi (nth_error ls (S i))) l l') /\
    (knd l <> KDense -> l' = l).

Lemma nth_error_ext {A} : forall (a b : list A), (forall i, nth_error a i = nth_error b i) -> a = b.
Proof.
  induction a as [|x a IH]; intros [|y b] HE; auto.
  - specialize (HE 0). discriminate.
  - specialize (HE 0). discriminate.
  - pose proof (HE 0) as H0'. cbn in H0'. injection H0' as ->. f_equal. apply IH. intros i. exact (HE (S i)).
Qed.
Lemma network_node (m : model (node T)) ls kd lo n k i : network m ls kd lo n k ->
  option_map fst (nth_error (mnodes m) i) =
    if i <? length ls then option_map NL (nth_error ls i) else if i =? length ls then Some (NO kd lo) else None.
Proof.
  intros W. rewrite <- nth_error_map, (nw_nodes _ _ _ _ _ _ W).
  destruct (Nat.ltb_spec i (length ls)) as [Hi|Hi].
  - rewrite nth_error_app1 by (now rewrite map_length). apply nth_error_map.
  - rewrite nth_error_app2 by (now rewrite map_length). rewrite map_length.
    destruct (Nat.eqb_spec i (length ls)) as [->|Hn]; [now rewrite Nat.sub_diag|].
    destruct (i - length ls) as [|[|q]] eqn:Eq; try lia; reflexivity.
Qed.
Lemma initialised_shape p e c (l l' : layer T) n k : initialised next normal p e c l l' -> lshape l n k -> lshape l' n k.
Proof.
  intros (A1 & A2 & A3 & A4 & A5 & A6 & A7 & A8) (S1 & S2 & S3 & S4). unfold lshape.
  rewrite A1, A2, A3, A4, A5, A6, A7, A8, tab_length, repeat_length. auto.
Qed.
Lemma all_initialised_shape : forall (ls ls' : list (layer T)) n k,
  Forall2 (fun l l' => forall n k, lshape l n k -> lshape l' n k) ls ls' -> nshape ls n k -> nshape ls' n k.
Proof.
  intros ls ls' n k F. revert n k. induction F as [|l l' ls ls' HL _ IH]; intros n k; cbn; auto.
  intros (j & A & B). exists j. auto.
Qed.
Lemma forall2_nth {A B} (P : A -> B -> Prop) : forall l l', length l' = length l ->
  (forall i a, nth_error l i = Some a -> exists b, nth_error l' i = Some b /\ P a b) -> Forall2 P l l'.
Proof.
  induction l as [|a l IH]; intros [|b l'] L HP; try discriminate; constructor.
  - destruct (HP 0 a eq_refl) as (b' & E' & Q). cbn in E'. now injection E' as ->.
  - apply IH; [now injection L|]. intros i x Ex. exact (HP (S i) x Ex).
Qed.

Lemma m_init_network mi p seed device m ls kd lo n k : network m ls kd lo n k ->
  exists m' ls', m_init start next normal mi p seed device m = Ok (m', if Z.eq_dec seed 0 then device else seed) /\
    network m' ls' kd lo n k /\ all_initialised mi p (start (if Z.eq_dec seed 0 then device else seed)) ls ls'.
Proof.
  intros W. pose proof (nw_graph _ _ _ _ _ _ W) as C. pose proof (network_length _ _ _ _ _ _ W) as LN.
  assert (OK : model_ok m).
  { split; [exact LN|]. intros i j. rewrite (ic_f _ _ _ C), (ic_nodes _ _ _ C).
    destruct (Nat.ltb_spec (S i) (length ls)); cbn; lia. }
  destruct (c57_init start next normal mi p seed device m OK) as (m' & used & E1 & U & G & LM & P).
  rewrite <- U. rewrite (ic_nodes _ _ _ C) in LN. cbn in LN.
  assert (KD : forall i, i < length ls -> kaiming mi m i <-> spread mi (nth_error ls (S i)) = 2%Z).
  { intros i Hi. unfold kaiming, spread. destruct mi; try (split; [reflexivity|auto]; fail); [split; intros X; [destruct X|discriminate]|].
    unfold feeds_relu. rewrite (ic_f _ _ _ C). destruct (Nat.ltb_spec (S i) (length ls)) as [Hs|Hs].
    - destruct (nth_error ls (S i)) as [l1|] eqn:E'; [|apply nth_error_None in E'; lia].
      pose proof (network_node m ls kd lo n k (S i) W) as NN. rewrite (proj2 (Nat.ltb_lt _ _) Hs), E' in NN.
      destruct (nth_error (mnodes m) (S i)) as [(s1, p1)|] eqn:EM; [|discriminate]. cbn in NN. injection NN as ->.
      split.
      + intros (j & l & s & [<-|[]] & Ej & K). rewrite EM in Ej. injection Ej as <- _. now rewrite K.
      + intros HK. exists (S i), l1, p1. split; [now left|]. split; [exact EM|]. destruct (knd l1) as [|[]]; try discriminate; reflexivity.
    - rewrite (proj2 (nth_error_None ls (S i))) by lia. split; [intros (j & l & s & [] & _)|discriminate]. }
  (* the new layers *)
  assert (X : exists ls', map fst (mnodes m') = map NL ls' ++ [NO kd lo] /\ all_initialised mi p (start used) ls ls').
  { assert (Y : forall i l, nth_error ls i = Some l -> exists l', option_map fst (nth_error (mnodes m') i) = Some (NL l') /\
      (knd l = KDense -> initialised next normal p (start used) (spread mi (nth_error ls (S i))) l l') /\ (knd l <> KDense -> l' = l)).
    { intros i l El. assert (Hi : i < length ls) by (apply nth_error_Some; congruence).
      pose proof (network_node m ls kd lo n k i W) as NN. rewrite (proj2 (Nat.ltb_lt _ _) Hi), El in NN.
      destruct (nth_error (mnodes m) i) as [(s1, p1)|] eqn:EM; [|discriminate]. cbn in NN. injection NN as ->.
      destruct (P i _ _ EM) as (s' & ES & Q1 & Q2). rewrite ES. cbn [option_map fst].
      assert (NI : ~ In i (losses (mgraph m))) by (rewrite (ic_losses _ _ _ C); intros [Hx|[]]; lia).
      destruct (knd l) as [|a] eqn:K.
      - destruct (Q2 l eq_refl K NI) as (l' & c & -> & Hc & Hi'). exists l'. split; [reflexivity|]. split; [|congruence].
        intros _. replace (spread mi (nth_error ls (S i))) with c; [exact Hi'|].
        destruct Hc as [(Hk & ->)|(Hk & ->)]; [now rewrite (proj1 (KD i Hi) Hk)|].
        assert (spread mi (nth_error ls (S i)) <> 2%Z) by (intros X; apply Hk, (KD i Hi), X).
        unfold spread in *. destruct mi; try congruence. destruct (nth_error ls (S i)) as [l1|]; [|reflexivity].
        destruct (knd l1) as [|[]]; congruence.
      - rewrite Q1 by (left; intros l0 X; injection X as <-; congruence).
        exists l. split; [reflexivity|]. split; [congruence|reflexivity]. }
    assert (Z' : forall q, q <= length ls -> exists ls', length ls' = q /\ forall i l, i < q -> nth_error ls i = Some l ->
      exists l', nth_error ls' i = Some l' /\ option_map fst (nth_error (mnodes m') i) = Some (NL l') /\
      (knd l = KDense -> initialised next normal p (start used) (spread mi (nth_error ls (S i))) l l') /\ (knd l <> KDense -> l' = l)).
    { induction q as [|q IHq]; intros Hq; [exists []; split; [reflexivity|]; lia|].
      destruct IHq as (ls' & L' & HL'); [lia|]. destruct (nth_error ls q) as [lq|] eqn:Eq; [|apply nth_error_None in Eq; lia].
      destruct (Y q lq Eq) as (lq' & Y1 & Y2 & Y3). exists (ls' ++ [lq']). split; [rewrite app_length; cbn; lia|].
      intros i l Hi El. destruct (Nat.eq_dec i q) as [->|Hn].
      - rewrite Eq in El. injection El as <-. exists lq'. rewrite nth_error_app2, L', Nat.sub_diag by lia. auto.
      - destruct (HL' i l ltac:(lia) El) as (l' & A & B). exists l'. rewrite nth_error_app1 by lia. auto. }
    destruct (Z' (length ls) (le_n _)) as (ls' & L' & HL'). exists ls'. split.
    - apply nth_error_ext. intros i. rewrite nth_error_map.
      destruct (Nat.lt_ge_cases i (length ls)) as [Hi|Hi].
      + destruct (nth_error ls i) as [l|] eqn:El; [|apply nth_error_None in El; lia].
        destruct (HL' i l Hi El) as (l' & A & B & _). rewrite B, nth_error_app1 by (rewrite map_length; lia).
        rewrite nth_error_map, A. reflexivity.
      + rewrite nth_error_app2 by (rewrite map_length; lia). rewrite map_length, L'.
        destruct (Nat.eq_dec i (length ls)) as [->|Hn].
        * rewrite Nat.sub_diag. pose proof (network_node m ls kd lo n k (length ls) W) as NN.
          rewrite Nat.ltb_irrefl, Nat.eqb_refl in NN. destruct (nth_error (mnodes m) (length ls)) as [(s1, p1)|] eqn:EM; [|discriminate].
          cbn in NN. injection NN as ->. destruct (P _ _ _ EM) as (s' & ES & Q1 & _). rewrite ES. cbn.
          rewrite Q1 by (left; intros l0 X; discriminate X). reflexivity.
        * rewrite (proj2 (nth_error_None (mnodes m') i)) by lia.
          destruct (i - length ls) as [|[|q]] eqn:Eq; try lia; reflexivity.
    - split; [exact L'|]. intros i l El. assert (Hi : i < length ls) by (apply nth_error_Some; congruence).
      destruct (HL' i l Hi El) as (l' & A & _ & B). eauto. }
  destruct X as (ls' & EN' & AI). exists m', ls'. split; [exact E1|]. split; [|exact AI].
  destruct AI as (LL & AI). constructor.
  - rewrite LL, G. exact C.
  - rewrite LL. apply W.
  - exact EN'.
  - apply (all_initialised_shape ls); [|apply W]. apply forall2_nth; [exact LL|]. intros i l El.
    destruct (AI i l El) as (l' & El' & A & B). exists l'. split; [exact El'|]. intros a b HS.
    destruct (knd l) eqn:K; [eapply initialised_shape; [apply A; reflexivity|exact HS]|].
    rewrite (B ltac:(congruence)). exact HS.
  - apply W.
Qed.

(** *** What a run keeps *)
(** Kind and sizes stay; layers without parameters stay without. *)
Definition kept (l l' : layer T) : Prop :=
  knd l' = knd l /\ insz l' = insz l /\
  (knd l <> KDense -> wts l' = wts l /\ bias l' = bias l /\ wgrad l' = wgrad l /\ bgrad l' = bgrad l).
(** As constructed: no gradient pending, no parameters in an activation. *)
Definition fresh (l : layer T) : Prop :=
  match knd l with
  | KDense => wgrad l = repeat n0 (length (wts l)) /\ bgrad l = repeat n0 (length (bias l))
  | KAct _ => wts l = [] /\ bias l = [] /\ wgrad l = [] /\ bgrad l = []
  end.
Lemma kept_refl l : kept l l. Proof. repeat split. Qed.
Lemma kept_trans a b c : kept a b -> kept b c -> kept a c.
Proof.
  intros (A1 & A2 & A3) (B1 & B2 & B3). split; [congruence|]. split; [congruence|]. intros K.
  destruct (A3 K) as (? & ? & ? & ?). rewrite <- A1 in K. destruct (B3 K) as (? & ? & ? & ?). repeat split; congruence.
Qed.
Lemma all_kept_refl ls : Forall2 kept ls ls.
Proof. induction ls; constructor; auto using kept_refl. Qed.
Lemma all_kept_trans : forall a b c, Forall2 kept a b -> Forall2 kept b c -> Forall2 kept a c.
Proof.
  intros a b c F. revert c. induction F; intros c G; inversion G; subst; constructor; eauto using kept_trans.
Qed.
Lemma chain_forward_kept : forall ls x ls' y, chain_forward ls x = Ok (ls', y) -> Forall2 kept ls ls'.
Proof.
  induction ls as [|l ls IH]; intros x ls' y E1; cbn [chain_forward] in E1; [injection E1 as <- _; constructor|].
  destruct (layer_forward l x) as [l1| |] eqn:E2; try discriminate. cbn [bind] in E1.
  destruct (chain_forward ls (out l1)) as [(ls1, y1)| |] eqn:E3; try discriminate. cbn [bind] in E1. injection E1 as <- <-.
  constructor; [|eauto]. unfold layer_forward in E2.
  destruct (knd l) as [|a]; [destruct (dense (out l) x (wts l) (bias l) (length x) (length (out l)))|destruct (act_forward a (out l) x)];
    try discriminate; cbn [bind] in E2; injection E2 as <-; repeat split.
Qed.
Lemma chain_backward_kept : forall ls x g ls' gx, chain_backward ls x g = Ok (ls', gx) -> Forall2 kept ls ls'.
Proof.
  induction ls as [|l ls IH]; intros x g ls' gx E1; cbn [chain_backward] in E1; [injection E1 as <- _; constructor|].
  destruct (chain_backward ls (out l) g) as [(ls1, g1)| |] eqn:E3; try discriminate. cbn [bind] in E1.
  destruct (layer_backward l x g1) as [l1| |] eqn:E2; try discriminate. cbn [bind] in E1. injection E1 as <- <-.
  constructor; [|eauto]. unfold layer_backward in E2.
  destruct (knd l) as [|a] eqn:K; [destruct (dense_1 (ig l) (wgrad l) (bgrad l) g1 x (wts l) (insz l) (length g1)) as [((?, ?), ?)| |]|destruct (act_backward a (out l) (ig l) g1)];
    try discriminate; cbn [bind] in E2; injection E2 as <-.
  - split; [exact (eq_sym K) || reflexivity|]. split; [reflexivity|]. congruence.
  - repeat split.
Qed.
Lemma loss_forward_kept kd lo t y : ls_in (fst (loss_forward kd (set_target lo t) y)) = ls_in lo /\
  ls_inv (fst (loss_forward kd (set_target lo t) y)) = ls_inv lo.
Proof.
  destruct kd as [|tol]; cbn [loss_forward].
  - unfold cce_forward. cbn [set_target ls_target]. destruct t as [|t0 t]; [split; reflexivity|].
    destruct (cross_entropy (t0 :: t) y (length y)) as [v| |]; [|split; reflexivity..].
    destruct (max_and_argmax y (length y)) as [(mx, mi)| |]; [|split; reflexivity..].
    cbn [LossModel.add_loss set_target ls_target ls_in].
    destruct (argactive (t0 :: t) 0 (ls_in lo)); split; reflexivity.
  - unfold mse_forward. cbn [set_target ls_target]. destruct t as [|t0 t]; [split; reflexivity|].
    destruct (mean_squared_error (t0 :: t) y (length y)) as [v| |]; split; reflexivity.
Qed.

(** A network with the architecture [ls0], input size [c] and factor [i] in its loss layer. *)
Definition based kd n k (ls0 : list (layer T)) (c : nat) (i : T) (m : model (node T)) : Prop :=
  exists ls lo, network m ls kd lo n k /\ Forall2 kept ls0 ls /\ ls_in lo = c /\ ls_inv lo = i.
Definition rested kd n k (ls0 : list (layer T)) (c : nat) (i : T) (m : model (node T)) : Prop :=
  exists ls lo, network m ls kd lo n k /\ Forall2 kept ls0 ls /\ ls_in lo = c /\ ls_inv lo = i /\ Forall fresh ls.

Lemma m_step_based draw kd n k ls0 c i0 m x t m' : based kd n k ls0 c i0 m -> length x = n -> length t = k ->
  m_step (node_ops draw) m x t = Ok m' -> based kd n k ls0 c i0 m'.
Proof.
  intros (ls & lo & W & F & L1 & L2) Hx Ht E1. rewrite (c36_step T H H0 H1 draw m ls kd lo n k x t W) in E1.
  destruct (chain_like ls ls n k x) as (ls1 & ls1' & y & C1 & C2 & Ly & B).
  { clear. induction ls; constructor; auto. unfold like. split; [apply same_params_refl|auto]. }
  1,2: apply W. 1: exact Hx.
  clear C2. pose proof (chain_forward_kept _ _ _ _ C1) as K1. rewrite C1 in E1. cbn [bind] in E1.
  pose proof (loss_forward_kept kd lo t y) as (V1 & V2).
  pose proof (loss_forward_like kd lo lo t y k) as LL. destruct LL as (_ & LL). { unfold llike. repeat split; apply W. }
  destruct (loss_forward kd (set_target lo t) y) as (lo1, r). cbn [fst snd] in *.
  destruct r as [[]| |]; try discriminate. cbn [bind] in E1. destruct (LL eq_refl) as (LL1 & T1 & _).
  destruct (loss_backward_like kd lo1 lo1 t y k LL1 T1 T1 Ht Ly) as (g & G1 & _ & Lg). rewrite G1 in E1. cbn [bind] in E1.
  destruct (B g Lg) as (b & b2 & gx & D1 & D2 & LB & N1 & N2 & PB & Lgx). rewrite D1 in E1. cbn [bind] in E1. injection E1 as <-.
  exists b, (set_grad lo1 g). split; [exact (step_network_like kd n k m ls lo b (set_grad lo1 g) W PB N1 Lg)|].
  split; [|cbn [set_grad ls_in ls_inv]; split; congruence].
  eapply all_kept_trans; [exact F|]. eapply all_kept_trans; [exact K1|]. eapply chain_backward_kept; eauto.
Qed.
Lemma reset_based kd n k ls0 c i0 m m' : based kd n k ls0 c i0 m -> m_reset_score m = Ok m' -> based kd n k ls0 c i0 m'.
Proof.
  intros (ls & lo & W & F & L1 & L2) E1. destruct (reset_net m ls kd lo n k W) as (m2 & E2 & W2).
  rewrite E2 in E1. injection E1 as <-. exists ls, (reset_score lo). auto.
Qed.
Lemma trained_kept eta l : kept l (trained eta l).
Proof. unfold trained, kept. destruct (knd l) eqn:K; cbn; repeat split; auto; congruence. Qed.
Lemma train_rested eta kd n k ls0 c i0 m m' : Forall fresh ls0 -> based kd n k ls0 c i0 m -> m_train eta m = Ok m' -> rested kd n k ls0 c i0 m'.
Proof.
  intros F0 (ls & lo & W & F & L1 & L2) E1. destruct (network_train eta m ls kd lo n k W) as (m2 & E2 & _ & W2).
  rewrite E2 in E1. injection E1 as <-. exists (map (trained eta) ls), lo. split; [exact W2|].
  split. { eapply all_kept_trans; [exact F|]. clear. induction ls; constructor; auto using trained_kept. }
  split; [exact L1|]. split; [exact L2|].
  assert (G : forall ls ls0 n k, Forall fresh ls0 -> Forall2 kept ls0 ls -> nshape ls n k -> Forall fresh (map (trained eta) ls)).
  { clear. induction ls as [|l ls IH]; intros ls0 n k F0 F HS; cbn [map]; [constructor|].
    inversion F as [|l0 ? tl ? K F']; subst. inversion F0; subst. destruct HS as (j & (S1 & S2 & S3 & S4) & HS).
    constructor; [|eauto]. destruct K as (K1 & K2 & K3). unfold fresh, trained in *.
    rewrite K1 in *. destruct (knd l0) as [|a] eqn:K; cbn [knd wts bias wgrad bgrad].
    - destruct S4 as (A1 & A2 & A3 & A4). unfold moved. rewrite !tab_length. split; congruence.
    - rewrite K1. destruct K3 as (X1 & X2 & X3 & X4); [congruence|]. rewrite X1, X2, X3, X4. assumption. }
  eapply G; [exact F0|exact F|apply W].
Qed.
Lemma rested_based kd n k ls0 c i0 m : rested kd n k ls0 c i0 m -> based kd n k ls0 c i0 m.
Proof. intros (ls & lo & W & F & A & B & _). exists ls, lo. auto. Qed.

Lemma fit_run_inv {M} (P Q : M -> Prop) (step : M -> nat -> res M) (reset train : M -> res M) size bs fuel :
  (forall m, Q m -> P m) ->
  (forall i m m', i < size -> P m -> step m i = Ok m' -> P m') ->
  (forall m m', P m -> reset m = Ok m' -> P m') ->
  (forall m m', P m -> train m = Ok m' -> Q m') ->
  forall epochs m m', Q m -> fit_run step reset train fuel epochs size bs m = Some (Ok m') -> Q m'.
Proof.
  intros QP HS HR HT.
  assert (B : forall b i m m' j, P m -> batch_steps step b size i m = Ok (m', j) -> P m').
  { induction b as [|b IH]; intros i m m' j HP E1; cbn [batch_steps] in E1; [injection E1 as <- _; exact HP|].
    destruct (Nat.ltb_spec i size) as [Hi|Hi]; [|injection E1 as <- _; exact HP].
    destruct (step m i) as [m1| |] eqn:E2; try discriminate. cbn [bind] in E1. eapply IH; [|exact E1]. eauto. }
  assert (EP : forall f i m m', Q m -> epoch step reset train f size bs i m = Some (Ok m') -> Q m').
  { induction f as [|f IH]; intros i m m' HQ E1; cbn [epoch] in E1; destruct (i <? size); try discriminate; try (injection E1 as <-; exact HQ).
    destruct (reset m) as [m1| |] eqn:E2; try discriminate. cbn [bind] in E1.
    destruct (batch_steps step bs size i m1) as [(m2, j)| |] eqn:E3; try discriminate. cbn [bind] in E1.
    destruct (train m2) as [m3| |] eqn:E4; try discriminate. cbn [bind] in E1. eapply IH; [|exact E1].
    eapply HT; [|exact E4]. eapply B; [|exact E3]. eapply HR; [|exact E2]. auto. }
  induction epochs as [|e IH]; intros m m' HQ E1; cbn [fit_run] in E1; [injection E1 as <-; exact HQ|].
  destruct (epoch step reset train fuel size bs 0 m) as [[m1| |]|] eqn:E2; try discriminate. eauto.
Qed.
Lemma fit_sequential_rested draw eta d fuel epochs bs kd n k ls0 c i0 m m' : rows_sized d n k -> Forall fresh ls0 ->
  rested kd n k ls0 c i0 m -> fit_sequential draw eta d fuel epochs bs m = Some (Ok m') -> rested kd n k ls0 c i0 m'.
Proof.
  intros HZ F0. unfold fit_sequential. apply fit_run_inv with (P := based kd n k ls0 c i0).
  - apply rested_based.
  - intros i a b Hi HP E1. destruct (HZ i Hi) as (x & t & X1 & X2 & Y1 & Y2). unfold row_step in E1. rewrite X1, X2 in E1. cbn [bind] in E1.
    eapply m_step_based; eauto.
  - intros a b. apply reset_based.
  - intros a b. now apply train_rested.
Qed.

(** *** C60 *)
(** Two layers of one kind and size. *)
Definition same_type (l l2 : layer T) : Prop := knd l2 = knd l /\ insz l2 = insz l /\ length (out l2) = length (out l).
(** A row of layers as the builder makes it, or one that has the loss layer fit adds to it. *)
Definition ready kd (batch : nat) (m : model (node T)) (ls : list (layer T)) n k : Prop :=
  plain m ls n k \/ exists lo, network m ls kd lo n k /\ ls_in lo = k /\ ls_inv lo = ndiv n1 (nofnat (Nat.max batch 1)).
(** Weights and biases of layer [i]. *)
Definition params_at (m : model (node T)) (i : nat) : option (list T * list T) :=
  match nth_error (mnodes m) i with Some (NL l, _) => Some (wts l, bias l) | _ => None end.
(** Both calls end in the same way; if they succeed, with the same parameters and the same
    prediction for every input of length [n]. *)
Definition same_outcome (n : nat) (r r2 : option (res (model (node T)))) : Prop :=
  match r, r2 with
  | Some (Ok m), Some (Ok m2) =>
      length (mnodes m2) = length (mnodes m) /\ (forall i, params_at m2 i = params_at m i) /\
      (forall draw x, length x = n -> exists a b y,
        m_predict (node_ops draw) m x = Ok (a, y) /\ m_predict (node_ops draw) m2 x = Ok (b, y))
  | Some Throw, Some Throw | Some UB, Some UB | None, None => True
  | _, _ => False
  end.

Lemma nshape_nth : forall (ls : list (layer T)) n k i l, nshape ls n k -> nth_error ls i = Some l -> exists a b, lshape l a b.
Proof.
  induction ls as [|x ls IH]; intros n k i l HS E1; [destruct i; discriminate|].
  destruct HS as (j & HL & HS). destruct i as [|i]; [injection E1 as <-; eauto|]. eauto.
Qed.
Lemma forall2_nth_l {A B} (P : A -> B -> Prop) l l' : Forall2 P l l' -> forall i a, nth_error l i = Some a ->
  exists b, nth_error l' i = Some b /\ P a b.
Proof.
  intros F. induction F as [|a b l l' Q F IH]; intros i x E1; [destruct i; discriminate|].
  destruct i as [|i]; [injection E1 as <-; exists b; auto|]. exact (IH i x E1).
Qed.
Lemma init_like mi p e ls ls2 ls' ls2' n k : nshape ls n k -> nshape ls2 n k -> Forall2 same_type ls ls2 ->
  Forall fresh ls -> Forall fresh ls2 -> all_initialised mi p e ls ls' -> all_initialised mi p e ls2 ls2' -> Forall2 like ls' ls2'.
Proof.
  intros HS HS2 F F1 F2 (L & A) (L2 & A2). pose proof (f2_len _ _ _ F) as LL.
  apply forall2_nth; [congruence|]. intros i l' E'.
  destruct (nth_error ls i) as [l|] eqn:El. 2:{ apply nth_error_None in El. assert (i < length ls') by (apply nth_error_Some; congruence). lia. }
  destruct (forall2_nth_l _ _ _ F i l El) as (l2 & El2 & T1 & T2 & T3).
  destruct (A i l El) as (x & Ex & A3 & A4). rewrite E' in Ex. injection Ex as <-.
  destruct (A2 i l2 El2) as (l2' & E2' & B3 & B4). exists l2'. split; [exact E2'|].
  destruct (nshape_nth ls n k i l HS El) as (a & b & I1 & I2 & I3 & I4).
  destruct (nshape_nth ls2 n k i l2 HS2 El2) as (a2 & b2 & J1 & J2 & J3 & J4).
  pose proof (proj1 (Forall_forall _ _) F1 l (nth_error_In _ _ El)) as G1.
  pose proof (proj1 (Forall_forall _ _) F2 l2 (nth_error_In _ _ El2)) as G2. unfold fresh in G1, G2. rewrite T1 in *.
  destruct (knd l) as [|ac] eqn:K.
  - destruct (A3 eq_refl) as (X1 & X2 & X3 & X4 & _ & _ & X7 & X8).
    destruct (B3 eq_refl) as (Y1 & Y2 & Y3 & Y4 & _ & _ & Y7 & Y8).
    destruct I4 as (I4 & I5 & I6 & I7), J4 as (J4 & J5 & J6 & J7), G1 as (G1 & G3), G2 as (G2 & G4).
    assert (W1 : length (wts l2) = length (wts l)) by congruence. assert (W2 : length (bias l2) = length (bias l)) by congruence.
    assert (SP : spread mi (nth_error ls2 (S i)) = spread mi (nth_error ls (S i))).
    { destruct (nth_error ls (S i)) as [l1|] eqn:E1.
      - destruct (forall2_nth_l _ _ _ F (S i) l1 E1) as (l3 & E3 & U & _). rewrite E3. unfold spread. now rewrite U.
      - apply nth_error_None in E1. rewrite (proj2 (nth_error_None ls2 (S i))) by lia. reflexivity. }
    rewrite SP, W1, T2 in Y7. rewrite W2 in Y8.
    split; [|split; congruence]. repeat split; congruence.
  - rewrite (A4 ltac:(discriminate)), (B4 ltac:(discriminate)).
    destruct G1 as (? & ? & ? & ?), G2 as (? & ? & ? & ?). split; [|split; congruence]. repeat split; congruence.
Qed.

Lemma ready_network kd batch m ls n k : ready kd batch m ls n k -> exists m' lo, fit_losses kd batch m = Ok m' /\
  network m' ls kd lo n k /\ ls_in lo = k /\ ls_inv lo = ndiv n1 (nofnat (Nat.max batch 1)).
Proof.
  intros [P|(lo & W & A & B)].
  - destruct (fit_losses_plain kd batch m ls n k P) as (m' & E1 & W). exists m', (loss_new k batch). auto.
  - exists m, lo. split; [now apply (fit_losses_network kd batch m ls lo n k)|auto].
Qed.
Lemma ready_some kd batch m ls n k : ready kd batch m ls n k -> length (mnodes m) =? 0 = false.
Proof.
  intros [(C & L & EN & _)|(lo & W & _)]; apply Nat.eqb_neq.
  - rewrite <- (map_length fst), EN, map_length. lia.
  - rewrite (network_length _ _ _ _ _ _ W), (ic_nodes _ _ _ (nw_graph _ _ _ _ _ _ W)). lia.
Qed.
Lemma alike_params kd n k m m2 i : alike kd n k m m2 -> params_at m2 i = params_at m i.
Proof.
  intros (ls & ls2 & lo & lo2 & W & W2 & F & FL). unfold params_at.
  pose proof (network_node m ls kd lo n k i W) as N1. pose proof (network_node m2 ls2 kd lo2 n k i W2) as N2.
  rewrite <- (f2_len _ _ _ F) in N2.
  destruct (Nat.ltb_spec i (length ls)) as [Hi|Hi].
  - destruct (nth_error ls i) as [l|] eqn:El; [|apply nth_error_None in El; lia].
    destruct (forall2_nth_l _ _ _ F i l El) as (l2 & El2 & (_ & _ & A & B) & _). rewrite El2 in N2. cbn [option_map] in *.
    destruct (nth_error (mnodes m) i) as [(s1, q1)|]; [|discriminate]. destruct (nth_error (mnodes m2) i) as [(s2, q2)|]; [|discriminate].
    cbn in N1, N2. injection N1 as ->. injection N2 as ->. congruence.
  - destruct (i =? length ls).
    + destruct (nth_error (mnodes m) i) as [(s1, q1)|]; [|discriminate]. destruct (nth_error (mnodes m2) i) as [(s2, q2)|]; [|discriminate].
      cbn in N1, N2. injection N1 as ->. injection N2 as ->. reflexivity.
    + destruct (nth_error (mnodes m) i) as [(s1, q1)|]; [discriminate|]. destruct (nth_error (mnodes m2) i) as [(s2, q2)|]; [discriminate|]. reflexivity.
Qed.
Lemma alike_predict kd n k m m2 draw x : alike kd n k m m2 -> length x = n ->
  exists a b y, m_predict (node_ops draw) m x = Ok (a, y) /\ m_predict (node_ops draw) m2 x = Ok (b, y).
Proof.
  intros (ls & ls2 & lo & lo2 & W & W2 & F & FL) Hx.
  destruct (chain_like ls ls2 n k x F (nw_shape _ _ _ _ _ _ W) (nw_shape _ _ _ _ _ _ W2) Hx) as (ls1 & ls3 & y & E1 & E2 & _).
  destruct (predict_network draw true (length ls) m ls [NO kd lo] x ls1 y (nw_graph _ _ _ _ _ _ W)
      (nw_some _ _ _ _ _ _ W) (network_length _ _ _ _ _ _ W) (nw_nodes _ _ _ _ _ _ W) eq_refl E1) as (m1 & G1 & _).
  destruct (predict_network draw true (length ls2) m2 ls2 [NO kd lo2] x ls3 y (nw_graph _ _ _ _ _ _ W2)
      (nw_some _ _ _ _ _ _ W2) (network_length _ _ _ _ _ _ W2) (nw_nodes _ _ _ _ _ _ W2) eq_refl E2) as (m3 & G2 & _).
  eauto.
Qed.
Lemma alike_outcome kd n k r r2 : oboth (alike kd n k) r r2 -> same_outcome n r r2.
Proof.
  destruct r as [[m| |]|], r2 as [[m2| |]|]; cbn; auto. intros A. split.
  - destruct A as (ls & ls2 & lo & lo2 & W & W2 & F & FL).
    rewrite (network_length _ _ _ _ _ _ W), (network_length _ _ _ _ _ _ W2), (ic_nodes _ _ _ (nw_graph _ _ _ _ _ _ W)), (ic_nodes _ _ _ (nw_graph _ _ _ _ _ _ W2)).
    now rewrite (f2_len _ _ _ F).
  - split; [intros i; now apply (alike_params kd n k)|]. intros draw x. now apply (alike_predict kd n k).
Qed.

(** fit's result depends on the architecture, the data and the arguments only: not on the
    weights, outputs and scores the network had before. *)
Theorem c60_fit_forgets : forall draw kd mi eta d fuel epochs batch seed device m m2 ls ls2 n k,
  ready kd batch m ls n k -> ready kd batch m2 ls2 n k -> Forall2 same_type ls ls2 ->
  Forall fresh ls -> Forall fresh ls2 -> rows_sized d n k ->
  same_outcome n (fnn_fit start next normal draw kd mi eta d fuel epochs batch seed device m)
                 (fnn_fit start next normal draw kd mi eta d fuel epochs batch seed device m2).
Proof.
  intros draw kd mi eta d fuel epochs batch seed device m m2 ls ls2 n k R1 R2 F F1 F2 HZ.
  apply (alike_outcome kd n k). unfold fnn_fit.
  rewrite (ready_some _ _ _ _ _ _ R1), (ready_some _ _ _ _ _ _ R2). cbn [negb guard bind].
  destruct (ready_network _ _ _ _ _ _ R1) as (m' & lo & E1 & W1 & A1 & B1).
  destruct (ready_network _ _ _ _ _ _ R2) as (m2' & lo2 & E2 & W2 & A2 & B2). rewrite E1, E2. cbn [bind].
  destruct (m_init_network mi Normal seed device m' ls kd lo n k W1) as (m1 & ls1 & I1 & V1 & Q1).
  destruct (m_init_network mi Normal seed device m2' ls2 kd lo2 n k W2) as (m3 & ls3 & I2 & V2 & Q2).
  rewrite I1, I2. cbn [bind]. apply fit_sequential_like; [exact HZ|].
  exists ls1, ls3, lo, lo2. split; [exact V1|]. split; [exact V2|]. split.
  - eapply init_like; [apply W1|apply W2|exact F|exact F1|exact F2|exact Q1|exact Q2].
  - unfold llike. split; [congruence|]. split; [congruence|]. split; [apply W1|apply W2].
Qed.

Lemma fit_rested draw kd mi eta d fuel epochs batch seed device m m1 ls n k :
  ready kd batch m ls n k -> Forall fresh ls -> rows_sized d n k ->
  fnn_fit start next normal draw kd mi eta d fuel epochs batch seed device m = Some (Ok m1) ->
  rested kd n k ls k (ndiv n1 (nofnat (Nat.max batch 1))) m1.
Proof.
  intros R1 F HZ. unfold fnn_fit. rewrite (ready_some _ _ _ _ _ _ R1). cbn [negb guard bind].
  destruct (ready_network _ _ _ _ _ _ R1) as (m' & lo & E1 & W1 & A1 & B1). rewrite E1. cbn [bind].
  destruct (m_init_network mi Normal seed device m' ls kd lo n k W1) as (m2 & ls1 & I1 & V1 & Q1). rewrite I1. cbn [bind].
  apply fit_sequential_rested; [exact HZ|exact F|]. exists ls1, lo. split; [exact V1|].
  destruct Q1 as (L & Q1). split; [|split; [exact A1|split; [exact B1|]]].
  - apply forall2_nth; [exact L|]. intros i l El. destruct (Q1 i l El) as (l' & El' & X & Y). exists l'. split; [exact El'|].
    destruct (knd l) eqn:K; [|rewrite (Y ltac:(discriminate)); apply kept_refl].
    destruct (X eq_refl) as (X1 & X2 & _). split; [congruence|]. split; [exact X2|]. congruence.
  - apply Forall_forall. intros l' Hl'. apply In_nth_error in Hl'. destruct Hl' as (i & El').
    destruct (nth_error ls i) as [l|] eqn:El. 2:{ apply nth_error_None in El. assert (i < length ls1) by (apply nth_error_Some; congruence). lia. }
    destruct (Q1 i l El) as (l1 & El1 & X & Y). rewrite El' in El1. injection El1 as <-.
    pose proof (proj1 (Forall_forall _ _) F l (nth_error_In _ _ El)) as G. unfold fresh in *.
    destruct (knd l) eqn:K; [|rewrite (Y ltac:(discriminate)); now rewrite K].
    destruct (X eq_refl) as (X1 & X2 & X3 & X4 & _ & _ & X7 & X8). rewrite X1, X3, X4, X7, X8, tab_length, repeat_length, K. exact G.
Qed.
Lemma kept_type : forall ls ls2 n k, Forall2 kept ls ls2 -> nshape ls n k -> nshape ls2 n k -> Forall2 same_type ls ls2.
Proof.
  intros ls ls2 n k F. revert n k. induction F as [|l l2 ls ls2 K F IH]; intros n k HS HS2; constructor.
  - destruct K as (K1 & K2 & _). split; [exact K1|]. split; [exact K2|].
    destruct HS as (j & (S1 & S2 & S3 & S4) & HS), HS2 as (j2 & (T1 & T2 & T3 & T4) & HS2). rewrite S3, T3.
    destruct F as [|a b ? ? (_ & X & _) _]; [cbn in HS, HS2; congruence|].
    destruct HS as (? & (Y & _) & _), HS2 as (? & (Z & _) & _). congruence.
  - destruct HS as (j & HL & HS), HS2 as (j2 & HL2 & HS2). apply (IH j k HS).
    replace j with j2; [exact HS2|]. destruct F as [|a b ? ? (_ & X & _) _]; [cbn in HS, HS2; congruence|].
    destruct HS as (? & (Y & _) & _), HS2 as (? & (Z & _) & _). congruence.
Qed.

(** A second fit with the same loss and the same batch size gives what it gives on the network
    as built, whatever the first one did. *)
Theorem c60_second_fit : forall draw kd batch m ls n k mi eta d fuel epochs seed device m1,
  plain m ls n k -> Forall fresh ls -> rows_sized d n k ->
  fnn_fit start next normal draw kd mi eta d fuel epochs batch seed device m = Some (Ok m1) ->
  forall draw' mi' eta' d' fuel' epochs' seed' device', rows_sized d' n k ->
  same_outcome n (fnn_fit start next normal draw' kd mi' eta' d' fuel' epochs' batch seed' device' m)
                 (fnn_fit start next normal draw' kd mi' eta' d' fuel' epochs' batch seed' device' m1).
Proof.
  intros draw kd batch m ls n k mi eta d fuel epochs seed device m1 P F HZ E1 draw' mi' eta' d' fuel' epochs' seed' device' HZ'.
  destruct (fit_rested draw kd mi eta d fuel epochs batch seed device m m1 ls n k (or_introl P) F HZ E1) as (ls1 & lo & W & K & A & B & F1).
  apply (c60_fit_forgets draw' kd mi' eta' d' fuel' epochs' batch seed' device' m m1 ls ls1 n k); auto.
  - now left.
  - right. exists lo. auto.
  - eapply kept_type; [exact K|apply P|apply W].
Qed.

(** *** C61 *)
(** The loss layer is made once: a second fit with another loss or batch size trains with the
    loss and the factor of the first. *)
Theorem c61_second_fit_actual : forall draw kd batch m ls n k mi eta d fuel epochs seed device m1,
  plain m ls n k -> Forall fresh ls -> rows_sized d n k ->
  fnn_fit start next normal draw kd mi eta d fuel epochs batch seed device m = Some (Ok m1) ->
  forall draw' kd' batch' mi' eta' d' fuel' epochs' seed' device', rows_sized d' n k ->
  exists ml m0 used ls0 lo0, fit_losses kd batch m = Ok ml /\ m_init start next normal mi' Normal seed' device' ml = Ok (m0, used) /\
    network m0 ls0 kd lo0 n k /\ ls_inv lo0 = ndiv n1 (nofnat (Nat.max batch 1)) /\
    same_outcome n (fit_sequential draw' eta' d' fuel' epochs' batch' m0)
                   (fnn_fit start next normal draw' kd' mi' eta' d' fuel' epochs' batch' seed' device' m1).
Proof.
  intros draw kd batch m ls n k mi eta d fuel epochs seed device m1 P F HZ E1 draw' kd' batch' mi' eta' d' fuel' epochs' seed' device' HZ'.
  destruct (fit_rested draw kd mi eta d fuel epochs batch seed device m m1 ls n k (or_introl P) F HZ E1) as (ls1 & lo & W & K & A & B & F1).
  destruct (fit_losses_plain kd batch m ls n k P) as (ml & EL & WL).
  destruct (m_init_network mi' Normal seed' device' ml ls kd (loss_new k batch) n k WL) as (m0 & ls0 & I0 & V0 & Q0).
  exists ml, m0. do 2 eexists. exists (loss_new k batch). split; [exact EL|]. split; [exact I0|]. split; [exact V0|]. split; [reflexivity|].
  apply (alike_outcome kd n k). unfold fnn_fit.
  rewrite (ready_some kd batch m1 ls1 n k) by (right; exists lo; auto). cbn [negb guard bind].
  unfold fit_losses at 1. rewrite (ic_losses _ _ _ (nw_graph _ _ _ _ _ _ W)). cbn [bind].
  destruct (m_init_network mi' Normal seed' device' m1 ls1 kd lo n k W) as (m3 & ls3 & I3 & V3 & Q3). rewrite I3.
  apply fit_sequential_like; [exact HZ'|]. exists ls0, ls3, (loss_new k batch), lo. split; [exact V0|]. split; [exact V3|]. split.
  - eapply init_like; [apply WL|apply W| |exact F|exact F1|exact Q0|exact Q3]. eapply kept_type; [exact K|apply WL|apply W].
  - unfold llike. split; [exact A|]. split; [exact B|]. split; [apply WL|apply W].
Qed.
End Engine.
End Sim.
Print Assumptions c60_fit_forgets.
Print Assumptions c60_second_fit.
Print Assumptions c61_second_fit_actual.

Local Open Scope R_scope.

(** A dense layer with one input and one output and a linear activation; one row. *)
Definition ex_graph : dlgraph :=
  match gbuild (chain_build 2) with Ok g => g | _ => mkGraph 0 (fun _ => []) (fun _ => []) (fun _ => []) [] [] [] end.
Definition ex_fit_layers : list (layer R) :=
  [mkLayer KDense 1 [0] [0] [0] [0] [0] [0]; mkLayer (KAct Linear) 1 [] [] [] [] [0] [0]].
Definition ex_fit_model : model (node R) := mkModel ex_graph (map (fun l => (NL l, SNull)) ex_fit_layers).
Definition ex_fit_data : dataset R := ds_vec 0 [0; 1] 2 1 [1]%nat.
Definition ex_fit (batch : nat) (m : model (node R)) :=
  fnn_fit (fun s => s) (fun e => (0%Z, e)) (fun _ _ _ e => ((0, None), e)) (fun _ => 0) (MSE 0) MXavier 1 ex_fit_data 1 1 batch 1 1 m.

Lemma ex_fit_plain : plain ex_fit_model ex_fit_layers 1 1 /\ Forall fresh ex_fit_layers /\ rows_sized ex_fit_data 1 1.
Proof.
  split; [|split].
  - split; [|split; [cbn; lia|split; [reflexivity|]]].
    + destruct (c36_built false 2 (le_n 2)) as (s & E & H1 & H2 & H3 & H4 & H5).
      pose proof (is_chain_built _ _ false 2 E (le_n 2) H1 H2 H3 H4 H5) as C.
      unfold loss_build in E. rewrite app_nil_r in E. cbn [mgraph ex_fit_model]. unfold ex_graph. rewrite E. exact C.
    + exists 1%nat. split; [|exists 1%nat; split; [|reflexivity]]; unfold lshape; cbn; auto 10.
  - repeat constructor.
  - intros i Hi. change (ds_size ex_fit_data) with 1%nat in Hi. destruct i as [|i]; [|lia].
    exists [0], [1]. repeat split.
Qed.

(** After a fit with batch size 1, a fit with batch size 2 trains with factor 1 where the fit
    of the network as built trains with 1/2. *)
Theorem c61_second_fit_refuted : exists (m : model (node R)) ls n k d m1 m2 m3 start next normal,
  plain m ls n k /\ Forall fresh ls /\ rows_sized d n k /\
  let fit := fnn_fit (E := Z) start next normal (fun _ => 0) (MSE 0) MXavier 1 d 1 1 in
  fit 1%nat 1%Z 1%Z m = Some (Ok m1) /\ fit 2%nat 1%Z 1%Z m = Some (Ok m2) /\ fit 2%nat 1%Z 1%Z m1 = Some (Ok m3) /\
  params_at m3 0 <> params_at m2 0.
Proof.
  set (out := match ex_fit 1 ex_fit_model with
    | Some (Ok m1) => match ex_fit 2 ex_fit_model, ex_fit 2 m1 with
      | Some (Ok m2), Some (Ok m3) => Some (params_at m2 0, params_at m3 0) | _, _ => None end | _ => None end).
  assert (X : exists a b, out = Some (a, b) /\ b <> a).
  { unfold out. cbv -[Rplus Rmult Rminus Rdiv Rinv Ropp IZR INR sqrt Rlt_dec Req_EM_T Rle_dec total_order_T not].
    do 2 eexists. split; [reflexivity|]. intros E. injection E as _ E. lra. }
  destruct X as (a & b & E & N). unfold out in E. clear out.
  destruct (ex_fit 1 ex_fit_model) as [[m1| |]|] eqn:E1; try discriminate.
  destruct (ex_fit 2 ex_fit_model) as [[m2| |]|] eqn:E2; try discriminate.
  destruct (ex_fit 2 m1) as [[m3| |]|] eqn:E3; try discriminate. injection E as <- <-.
  exists ex_fit_model, ex_fit_layers, 1%nat, 1%nat, ex_fit_data, m1, m2, m3.
  exists (fun s => s), (fun e => (0%Z, e)), (fun _ _ _ e => ((0, None), e)).
  destruct ex_fit_plain as (A & B & C). split; [exact A|]. split; [exact B|]. split; [exact C|].
  cbv zeta. split; [exact E1|]. split; [exact E2|]. split; [exact E3|exact N].
Qed.
Print Assumptions c61_second_fit_refuted.

(** *** C60, over the reals: fit is initialisation followed by gradient descent *)
Theorem c60_fit_mean_squared_error : forall (E : Type) (start : Z -> E) next normal draw tol mi eta d rows fuel epochs batch seed device
    (m : model (node R)) ls n k,
  plain m ls n k -> Forall fresh ls -> Forall smooth_kind ls -> (0 < k)%nat ->
  rows_of d rows -> Forall (fun xt => length (fst xt) = n /\ length (snd xt) = k) rows ->
  (1 <= batch)%nat -> (ds_size d <= fuel)%nat ->
  exists bl m0 ls0 lo0 m', batches_of (ds_size d) batch bl /\
    network m0 ls0 (MSE tol) lo0 n k /\
    all_initialised next normal mi Normal (start (if Z.eq_dec seed 0 then device else seed)) ls ls0 /\
    fnn_fit start next normal draw (MSE tol) mi eta d fuel epochs batch seed device m = Some (Ok m') /\
    gd_run draw (MSE tol) (INR k * (1 / INR batch)) eta (map (pick rows) (concat (repeat bl epochs))) m0 m'.
Proof.
  intros E start next normal draw tol mi eta d rows fuel epochs batch seed device m ls n k P F HS Hk HR HZ Hb Hf.
  destruct (fit_losses_plain (MSE tol) batch m ls n k P) as (ml & EL & WL).
  destruct (m_init_network start next normal mi Normal seed device ml ls (MSE tol) (loss_new k batch) n k WL) as (m0 & ls0 & I0 & V0 & Q0).
  assert (K : Forall (fun l' => cleared l' /\ smooth_kind l') ls0).
  { destruct Q0 as (L & Q0). apply Forall_forall. intros l' Hl'. apply In_nth_error in Hl'. destruct Hl' as (i & El').
    destruct (nth_error ls i) as [l|] eqn:El. 2:{ apply nth_error_None in El. assert (i < length ls0)%nat by (apply nth_error_Some; congruence). lia. }
    destruct (Q0 i l El) as (l1 & El1 & X & Y). rewrite El' in El1. injection El1 as <-.
    pose proof (proj1 (Forall_forall _ _) F l (nth_error_In _ _ El)) as G. pose proof (proj1 (Forall_forall _ _) HS l (nth_error_In _ _ El)) as S'.
    unfold fresh, smooth_kind, cleared in *. destruct (knd l) as [|a] eqn:Kn.
    - destruct (X eq_refl) as (X1 & X2 & X3 & X4 & _). rewrite X1, X3, X4, Kn. destruct G as (-> & ->). split; [|exact I].
      intros _. split; intros p; apply nth_repeat.
    - rewrite (Y ltac:(discriminate)), Kn. split; [discriminate|exact S']. }
  destruct (c56_fit_mean_squared_error draw eta d rows m0 ls0 tol (loss_new k batch) n k batch epochs fuel V0 Hk eq_refl
    ltac:(eapply Forall_impl; [|exact K]; cbn; tauto) ltac:(eapply Forall_impl; [|exact K]; cbn; tauto) HR HZ Hb Hf)
    as (bl & m' & ls' & lo' & B & E1 & W' & _ & G).
  exists bl, m0, ls0, (loss_new k batch), m'. split; [exact B|]. split; [exact V0|]. split; [exact Q0|]. split.
  - unfold fnn_fit. rewrite (ready_some (MSE tol) batch m ls n k) by (now left). cbn [negb guard bind]. rewrite EL. cbn [bind].
    rewrite I0. exact E1.
  - replace (1 / INR batch) with (ls_inv (loss_new (T := R) k batch)); [exact G|]. cbn [loss_new ls_inv ndiv n1 NumR].
    rewrite Nat.max_l by exact Hb. unfold nofnat. cbn [nofZ NumR]. now rewrite <- INR_IZR_INZ.
Qed.
Print Assumptions c60_fit_mean_squared_error.

Example c60_c61_hypotheses_met : plain ex_fit_model ex_fit_layers 1 1 /\ Forall fresh ex_fit_layers /\ Forall smooth_kind ex_fit_layers /\
  rows_of ex_fit_data [([0], [1])] /\ rows_sized ex_fit_data 1 1 /\ (ds_size ex_fit_data <= 1)%nat /\
  exists m1, ex_fit 1 ex_fit_model = Some (Ok m1) /\ params_at m1 0 <> params_at ex_fit_model 0.
Proof.
  destruct ex_fit_plain as (A & B & C). split; [exact A|]. split; [exact B|]. split; [repeat constructor|].
  split. { split; [reflexivity|]. intros i x t Hi. destruct i as [|i]; [|destruct i; discriminate]. injection Hi as <- <-. split; reflexivity. }
  split; [exact C|]. split; [apply le_n|].
  set (out := match ex_fit 1 ex_fit_model with Some (Ok m1) => params_at m1 0 | _ => None end).
  assert (X : exists w b, out = Some ([w], [b]) /\ b <> 0).
  { unfold out. cbv -[Rplus Rmult Rminus Rdiv Rinv Ropp IZR INR sqrt Rlt_dec Req_EM_T Rle_dec total_order_T not].
    do 2 eexists. split; [reflexivity|]. lra. }
  destruct X as (w & b & X & N). unfold out in X. clear out.
  destruct (ex_fit 1 ex_fit_model) as [[m1| |]|]; try discriminate. exists m1. split; [reflexivity|]. rewrite X. cbn. intros E. injection E. congruence.
Qed.
