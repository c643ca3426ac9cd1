(** C73: networks that branch and have several losses. *)
From Verif Require Import Base Num RSum MathModel MathProofs LayerModel LossModel GraphModel GraphSpec GraphProofs PropGraph ModelModel NodeModel
  ChainProofs ModelProofs StepProofs GradSpec GradProofs GradChain PropModel PropStep TreeProofs HeadsSpec HeadsProofs.
From Coq Require Import Reals Lra Permutation.
Local Open Scope R_scope.

(** *** Vocabulary *)
(** A head: the nodes of its layers, the layers, and its loss. *)
Record lhead := mkLhead {
  lh_ids : list nat; lh_layers : list (layer R); lh_loss : nat; lh_kind : losskind R; lh_lo : lossl R
}.
Record multihead (m : model (node R)) (root : nat) (l0 : layer R) (hs : list lhead) (n k : nat) : Prop := {
  mh_star : star (mgraph m) root (map (fun h => (lh_ids h, lh_loss h)) hs);
  mh_some : hs <> [];
  mh_root : exists p, nth_error (mnodes m) root = Some (NL l0, p);
  mh_layers : forall h, In h hs ->
    Forall2 (fun i l => exists p, nth_error (mnodes m) i = Some (NL l, p)) (lh_ids h) (lh_layers h);
  mh_loss : forall h, In h hs -> exists p, nth_error (mnodes m) (lh_loss h) = Some (NO (lh_kind h) (lh_lo h), p);
  mh_shape : forall h, In h hs -> nshape (l0 :: lh_layers h) n k /\ length (ls_grad (lh_lo h)) = k /\ ls_in (lh_lo h) = k
}.
(** What head [h] predicts and loses. *)
Definition head_value (l0 : layer R) (h : lhead) (x : list R) : list R := net_value (l0 :: lh_layers h) x.
Definition head_loss (l0 : layer R) (h : lhead) (x t : list R) : R := loss_value (lh_kind h) t (head_value l0 h x).
(** The sum of the losses, each with the factor its backward applies. *)
Fixpoint objective (k : nat) (x t : list R) (l0 : layer R) (hs : list lhead) : R :=
  match hs with
  | [] => 0
  | h :: r => factor (lh_kind h) k (lh_lo h) * head_loss l0 h x t + objective k x t l0 r
  end.
Definition with_layer (h : lhead) (q : nat) (l : layer R) : lhead :=
  mkLhead (lh_ids h) (upd (lh_layers h) q l) (lh_loss h) (lh_kind h) (lh_lo h).

(** *** Chains *)
(** What the backward run of a chain adds. *)
Lemma chain_adds (ls : list (layer R)) n k x t kd f ls1 y ls2 gx :
  nshape ls n k -> length x = n -> (0 < k)%nat -> chain_smooth ls x -> loss_defined kd t (net_value ls x) ->
  chain_forward ls x = Ok (ls1, y) ->
  chain_backward ls1 x (tab k (fun i => f * nth i (loss_grad kd t (net_value ls x)) 0)) = Ok (ls2, gx) ->
  forall q l, nth_error ls q = Some l -> exists l', nth_error ls2 q = Some l' /\
    (forall p, (p < length (wts l))%nat -> exists d,
       derivable_pt_lim (fun s => loss_value kd t (net_value (upd ls q (with_weight l p s)) x)) 0 d /\
       nth p (wgrad l') 0 = nth p (wgrad l) 0 + f * d) /\
    (forall p, (p < length (bias l))%nat -> exists d,
       derivable_pt_lim (fun s => loss_value kd t (net_value (upd ls q (with_bias l p s)) x)) 0 d /\
       nth p (bgrad l') 0 = nth p (bgrad l) 0 + f * d).
Proof.
  intros HS Hx Hk Hsm HD EF EC q l Eq. apply nth_error_split in Eq. destruct Eq as (pre & post & -> & Hq). subst q.
  set (g := tab k (fun i => f * nth i (loss_grad kd t (net_value (pre ++ l :: post) x)) 0)) in *.
  assert (Hg : length g = k) by apply tab_length.
  assert (G : forall lc, base lc = l -> lcurve_ok lc -> (forall s, same_sizes l (at_t s lc)) ->
    exists d, derivable_pt_lim (fun s => loss_value kd t (net_value (pre ++ at_t s lc :: post) x)) 0 d /\
      exists l', nth_error ls2 (length pre) = Some l' /\
        f * d = ddot (length (dw lc)) (wgrad l') (wgrad l) (dw lc)
          + ddot (length (db lc)) (bgrad l') (bgrad l) (db lc)).
  { intros lc Hb Hok Hsz.
    assert (A0 : at_t 0 lc = l).
    { destruct Hok as (W0 & B0 & _). unfold at_t. rewrite W0, B0, Hb. now destruct l. }
    destruct (curve_step pre post l lc n k x Hb Hok (nshape_chain _ _ _ HS) Hx Hsm) as (run & yy & w & F & D & B).
    assert (YS : forall s, yy s = net_value (pre ++ at_t s lc :: post) x).
    { intros s. assert (WS : nshape (pre ++ at_t s lc :: post) n k).
      { apply (nshape_sizes (pre ++ l :: post)); [|exact HS]. apply Forall2_app; [apply Forall2_refl; intros z a b; auto|].
        constructor; [apply Hsz|apply Forall2_refl; intros z a b; auto]. }
      destruct (chain_forward_net _ n k x WS Hx) as (ls' & E' & _). rewrite F in E'. congruence. }
    assert (Y0 : yy 0 = net_value (pre ++ l :: post) x) by (rewrite YS, A0; reflexivity).
    assert (HD0 : loss_defined kd t (yy 0)) by (rewrite Y0; exact HD).
    pose proof (loss_curve kd t k yy w D Hk HD0) as DL. rewrite Y0 in DL.
    exists (dotl k (loss_grad kd t (net_value (pre ++ l :: post) x)) w). split.
    { eapply derivable_pt_lim_ext; [|exact DL]. intros s. cbn beta. now rewrite YS. }
    assert (R0 : run 0 = ls1) by (specialize (F 0); rewrite A0, EF in F; congruence).
    destruct (B g Hg) as (l1 & l' & l2 & gx' & E' & L' & Q). rewrite R0, EC in E'. injection E' as -> ->.
    exists l'. split; [rewrite <- L'; apply nth_error_mid|].
    rewrite <- Q. unfold g. rewrite dotl_scale. reflexivity. }
  destruct (G (frozen l) eq_refl (frozen_ok l)) as (d0 & _ & l' & El' & _).
  { intros s. rewrite at_t_frozen. intros a b; auto. }
  exists l'. split; [exact El'|]. split; intros p Hp.
  - destruct (G (wcurve l p) eq_refl (wcurve_ok l p Hp) (fun s => with_weight_sizes l p s)) as (d & D & l1 & E1 & Q).
    rewrite El' in E1. injection E1 as <-. exists d. split.
    { eapply derivable_pt_lim_ext; [|exact D]. intros s. cbn beta. now rewrite upd_mid. }
    rewrite Q. cbn [wcurve dw db]. unfold unit_vec at 1. rewrite tab_length, ddot_unit, ddot_zero by auto. ring.
  - destruct (G (bcurve l p) eq_refl (bcurve_ok l p Hp) (fun s => with_bias_sizes l p s)) as (d & D & l1 & E1 & Q).
    rewrite El' in E1. injection E1 as <-. exists d. split.
    { eapply derivable_pt_lim_ext; [|exact D]. intros s. cbn beta. now rewrite upd_mid. }
    rewrite Q. cbn [bcurve dw db]. unfold unit_vec at 1. rewrite tab_length, ddot_unit, ddot_zero by auto. ring.
Qed.

Lemma gforward_layers draw : forall (ls : list (layer R)) x,
  gforward (node_ops draw) (map NL ls) x = ('(ls', y) <- chain_forward ls x ;; Ok (map NL ls', y)).
Proof.
  induction ls as [|l ls IH]; intros x; cbn [map gforward chain_forward]; [reflexivity|].
  cbn [node_ops o_tforward n_tforward n_forward o_output n_output].
  destruct (layer_forward l x) as [l'| |]; cbn [bind]; auto. cbn [n_output bind]. fold (node_ops draw).
  change (mkOps n_forward (n_tforward draw) n_backward n_output n_gradient n_target) with (node_ops draw).
  rewrite IH. destruct (chain_forward ls (out l')) as [(ls', y)| |]; cbn [bind]; auto.
Qed.
Lemma gbackward_layers draw : forall (ls : list (layer R)) x g,
  gbackward (node_ops draw) (map NL ls) x g = ('(ls', gx) <- chain_backward ls x g ;; Ok (map NL ls', gx)).
Proof.
  induction ls as [|l ls IH]; intros x g; cbn [map gbackward chain_backward]; [reflexivity|].
  cbn [node_ops o_output n_output bind].
  change (mkOps n_forward (n_tforward draw) n_backward n_output n_gradient n_target) with (node_ops draw).
  rewrite IH. destruct (chain_backward ls (out l) g) as [(ls', gx)| |]; cbn [bind]; auto.
  cbn [node_ops o_backward n_backward].
  destruct (layer_backward l x gx) as [l'| |]; cbn [bind]; auto.
Qed.

(** *** The shared layer *)
Lemma layer_sem_params l l' x : same_params l l' -> length (out l') = length (out l) -> layer_sem l' x = layer_sem l x.
Proof. intros (A & B & C & D) L. unfold layer_sem. now rewrite A, C, D, L. Qed.
Lemma with_weight_params l l' p s : same_params l l' -> same_params (with_weight l p s) (with_weight l' p s).
Proof. intros (A & B & C & D). unfold with_weight, same_params. cbn [knd insz wts bias]. rewrite A, B, C, D. auto. Qed.
Lemma with_bias_params l l' p s : same_params l l' -> same_params (with_bias l p s) (with_bias l' p s).
Proof. intros (A & B & C & D). unfold with_bias, same_params. cbn [knd insz wts bias]. rewrite A, B, C, D. auto. Qed.
Lemma head_value_params l l' h x : same_params l l' -> length (out l') = length (out l) ->
  head_value l' h x = head_value l h x.
Proof. intros A L. unfold head_value, net_value. cbn [fold_left]. now rewrite (layer_sem_params l l' x A L). Qed.

(** The gradient [g] that reaches the shared layer from head [h]. *)
Definition reaches (l0 : layer R) (k : nat) (x t : list R) (h : lhead) (g : list R) : Prop :=
  exists lf lb, chain_forward (lh_layers h) (layer_sem l0 x) = Ok (lf, head_value l0 h x) /\
    chain_backward lf (layer_sem l0 x)
      (tab k (fun i => factor (lh_kind h) k (lh_lo h) * nth i (loss_grad (lh_kind h) t (head_value l0 h x)) 0)) = Ok (lb, g) /\
    length g = length (out l0).

Definition root_adds (k : nat) (x t : list R) (l0 : layer R) (hs : list lhead) (l l' : layer R) : Prop :=
  (forall p, (p < length (wts l0))%nat -> exists d,
     derivable_pt_lim (fun s => objective k x t (with_weight l0 p s) hs) 0 d /\
     nth p (wgrad l') 0 = nth p (wgrad l) 0 + d) /\
  (forall p, (p < length (bias l0))%nat -> exists d,
     derivable_pt_lim (fun s => objective k x t (with_bias l0 p s) hs) 0 d /\
     nth p (bgrad l') 0 = nth p (bgrad l) 0 + d).

Lemma root_sum draw l0 n k k0 x t : lshape l0 n k0 -> length x = n -> (0 < k)%nat ->
  forall (hg : list (lhead * list R)) cur, lshape cur n k0 -> same_params l0 cur -> out cur = layer_sem l0 x ->
  (forall h g, In (h, g) hg -> reaches l0 k x t h g /\ nshape (lh_layers h) k0 k /\
     chain_smooth (l0 :: lh_layers h) x /\ loss_defined (lh_kind h) t (head_value l0 h x)) ->
  exists fin, foldM (fun s g => o_backward (node_ops draw) s x g) (map snd hg) (NL cur) = Ok (NL fin) /\
    lshape fin n k0 /\ same_params l0 fin /\ root_adds k x t l0 (map fst hg) cur fin.
Proof.
  intros S0 Hx Hk hg. induction hg as [|(h, g) hg IH]; intros cur SC PC OC HH.
  - exists cur. cbn [map foldM]. split; [reflexivity|]. split; [exact SC|]. split; [exact PC|].
    split; intros p Hp; exists 0; (split; [apply (dlim_const 0)|ring]).
  - destruct (HH h g (or_introl eq_refl)) as ((lf & lb & EF & EB & Lg) & SH & SM & LD).
    assert (L0 : length (out l0) = k0) by apply S0.
    assert (LC : length (out cur) = length (out l0)) by (rewrite L0; apply SC).
    destruct (layer_backward_shape cur n k0 x g SC Hx ltac:(congruence)) as (nx & EN & PN & SN & ON).
    cbn [map snd foldM]. cbn [node_ops o_backward n_backward]. rewrite EN. cbn [bind].
    change (mkOps n_forward (n_tforward draw) n_backward n_output n_gradient n_target) with (node_ops draw).
    destruct (IH nx SN (same_params_trans _ _ _ PC PN) ltac:(congruence)) as (fin & EFi & SF & PF & (AW & AB)).
    { intros h' g' Hin. apply HH. now right. }
    exists fin. split; [exact EFi|]. split; [exact SF|]. split; [exact PF|].
    (* the chain of the current layer and the head *)
    assert (VC : net_value (cur :: lh_layers h) x = head_value l0 h x) by exact (head_value_params l0 cur h x PC LC).
    assert (FC : layer_forward cur x = Ok cur).
    { destruct (layer_forward_sem cur n k0 x SC Hx) as (E & _). rewrite E, (layer_sem_params l0 cur x PC LC), <- OC.
      now destruct cur. }
    assert (SMC : chain_smooth (cur :: lh_layers h) x).
    { destruct SM as (S1 & S2). split.
      - unfold layer_smooth in *. now rewrite (proj1 PC).
      - intros l' El'. rewrite FC in El'. injection El' as <-. rewrite OC.
        destruct (layer_forward_sem l0 n k0 x S0 Hx) as (E & _). exact (S2 _ E). }
    assert (FWD : chain_forward (cur :: lh_layers h) x = Ok (cur :: lf, head_value l0 h x)).
    { cbn [chain_forward]. rewrite FC. cbn [bind]. rewrite OC, EF. reflexivity. }
    assert (BWD : chain_backward (cur :: lf) x
        (tab k (fun i => factor (lh_kind h) k (lh_lo h) * nth i (loss_grad (lh_kind h) t (net_value (cur :: lh_layers h) x)) 0))
        = Ok (nx :: lb, ig nx)).
    { rewrite VC. cbn [chain_backward]. rewrite OC, EB. cbn [bind]. rewrite EN. reflexivity. }
    assert (NS : nshape (cur :: lh_layers h) n k) by (exists k0; auto).
    assert (LD' : loss_defined (lh_kind h) t (net_value (cur :: lh_layers h) x)) by (rewrite VC; exact LD).
    destruct (chain_adds _ n k x t (lh_kind h) _ _ _ _ _ NS Hx Hk SMC LD' FWD BWD 0 cur eq_refl) as (l' & E' & W1 & B1).
    cbn in E'. injection E' as <-. split; intros p Hp.
    + destruct (AW p Hp) as (d2 & D2 & Q2).
      destruct (W1 p) as (d1 & D1 & Q1); [now rewrite (proj1 (proj2 (proj2 PC)))|].
      exists (factor (lh_kind h) k (lh_lo h) * d1 + d2). split.
      * cbn [map fst objective].
        apply (dlim_plus (fun s => factor (lh_kind h) k (lh_lo h) * head_loss (with_weight l0 p s) h x t)
          (fun s => objective k x t (with_weight l0 p s) (map fst hg))); [|exact D2].
        eapply dlim_eq; [apply (dlim_mult (fun _ => factor (lh_kind h) k (lh_lo h)) (fun s => head_loss (with_weight l0 p s) h x t) 0 0 d1); [apply dlim_const|]|ring].
        eapply derivable_pt_lim_ext; [|exact D1]. intros s. cbn [upd]. unfold head_loss.
        f_equal. apply head_value_params; [now apply with_weight_params|]. exact LC.
      * rewrite Q2, Q1. ring.
    + destruct (AB p Hp) as (d2 & D2 & Q2).
      destruct (B1 p) as (d1 & D1 & Q1); [now rewrite (proj2 (proj2 (proj2 PC)))|].
      exists (factor (lh_kind h) k (lh_lo h) * d1 + d2). split.
      * cbn [map fst objective].
        apply (dlim_plus (fun s => factor (lh_kind h) k (lh_lo h) * head_loss (with_bias l0 p s) h x t)
          (fun s => objective k x t (with_bias l0 p s) (map fst hg))); [|exact D2].
        eapply dlim_eq; [apply (dlim_mult (fun _ => factor (lh_kind h) k (lh_lo h)) (fun s => head_loss (with_bias l0 p s) h x t) 0 0 d1); [apply dlim_const|]|ring].
        eapply derivable_pt_lim_ext; [|exact D1]. intros s. cbn [upd]. unfold head_loss.
        f_equal. apply head_value_params; [now apply with_bias_params|]. exact LC.
      * rewrite Q2, Q1. ring.
Qed.

Lemma objective_perm k x t l0 hs hs' : Permutation hs hs' -> objective k x t l0 hs = objective k x t l0 hs'.
Proof. intros P. induction P; cbn [objective]; lra. Qed.

Lemma objective_upd k x t l0 (H : R -> lhead) d : forall hs j h, nth_error hs j = Some h ->
  (forall s, lh_kind (H s) = lh_kind h /\ lh_lo (H s) = lh_lo h) ->
  derivable_pt_lim (fun s => head_loss l0 (H s) x t) 0 d ->
  derivable_pt_lim (fun s => objective k x t l0 (upd hs j (H s))) 0 (factor (lh_kind h) k (lh_lo h) * d).
Proof.
  induction hs as [|a hs IH]; intros [|j] h E HK D; try discriminate; cbn [upd objective].
  - cbn in E. injection E as ->.
    eapply dlim_eq; [apply (dlim_plus (fun s => factor (lh_kind (H s)) k (lh_lo (H s)) * head_loss l0 (H s) x t) (fun _ => objective k x t l0 hs));
      [|apply dlim_const]|apply Rplus_0_r].
    eapply derivable_pt_lim_ext; [intros s; cbn beta; rewrite (proj1 (HK s)), (proj2 (HK s)); reflexivity|].
    eapply dlim_eq; [apply (dlim_mult (fun _ => factor (lh_kind h) k (lh_lo h)) (fun s => head_loss l0 (H s) x t)); [apply dlim_const|exact D]|ring].
  - cbn in E. eapply dlim_eq; [apply (dlim_plus (fun _ => factor (lh_kind a) k (lh_lo a) * head_loss l0 a x t)
      (fun s => objective k x t l0 (upd hs j (H s)))); [apply dlim_const|exact (IH j h E HK D)]|ring].
Qed.

Lemma F2len {A B} (P : A -> B -> Prop) l l' : Forall2 P l l' -> length l' = length l.
Proof. induction 1; cbn; auto. Qed.
Lemma list_choice {A B} (P : A -> B -> Prop) : forall l, (forall a, In a l -> exists b, P a b) -> exists l', Forall2 P l l'.
Proof.
  induction l as [|a l IH]; intros H; [exists []; constructor|].
  destruct (H a (or_introl eq_refl)) as (b & Hb). destruct IH as (l' & Hl'); [intros a' Ha'; apply H; now right|].
  exists (b :: l'). constructor; auto.
Qed.

(** What a step does to a head. *)
Definition head_step (k : nat) (x t : list R) (l0 : layer R) (hs : list lhead) (j : nat) (h h' : lhead) : Prop :=
  lh_ids h' = lh_ids h /\ lh_loss h' = lh_loss h /\ lh_kind h' = lh_kind h /\
  Forall2 same_params (lh_layers h) (lh_layers h') /\
  ls_inv (lh_lo h') = ls_inv (lh_lo h) /\ ls_loss (lh_lo h') = head_loss l0 h x t /\
  ls_cum (lh_lo h') = ls_cum (lh_lo h) + head_loss l0 h x t /\
  forall q l, nth_error (lh_layers h) q = Some l -> exists l', nth_error (lh_layers h') q = Some l' /\
    (forall p, (p < length (wts l))%nat -> exists d,
       derivable_pt_lim (fun s => objective k x t l0 (upd hs j (with_layer h q (with_weight l p s)))) 0 d /\
       nth p (wgrad l') 0 = nth p (wgrad l) 0 + d) /\
    (forall p, (p < length (bias l))%nat -> exists d,
       derivable_pt_lim (fun s => objective k x t l0 (upd hs j (with_layer h q (with_bias l p s)))) 0 d /\
       nth p (bgrad l') 0 = nth p (bgrad l) 0 + d).

Lemma layers_keep draw : forall (s : node R) last g s', o_backward (node_ops draw) s last g = Ok s' ->
  o_output (node_ops draw) s' = o_output (node_ops draw) s.
Proof.
  intros [l|d|kd lo] last g s' E; cbn [node_ops o_backward n_backward o_output n_output] in *.
  - unfold layer_backward in E. destruct (knd l).
    + destruct (dense_1 (ig l) (wgrad l) (bgrad l) g last (wts l) (insz l) (length g)) as [((i, wg), bg)| |]; try discriminate.
      cbn [bind] in E. injection E as <-. reflexivity.
    + destruct (act_backward a (out l) (ig l) g) as [i| |]; try discriminate. cbn [bind] in E. injection E as <-. reflexivity.
  - unfold drop_backward in E. destruct (arr_mul_val (d_ig d) g (d_scale d) (d_size d)) as [i| |]; try discriminate.
    cbn [bind] in E. destruct (foldM (fun ig i => wr ig i n0) (d_mask d) i) as [i'| |]; try discriminate.
    cbn [bind] in E. injection E as <-. reflexivity.
  - destruct (loss_backward kd lo last) as [g'| |]; try discriminate. cbn [bind] in E. injection E as <-. reflexivity.
Qed.

(** When only the first layer branches, a step adds to every parameter's gradient the
    derivative of the sum of the losses. *)
Theorem c73_step_partial : forall draw m root l0 hs n k x t,
  multihead m root l0 hs n k -> (0 < k)%nat -> length x = n -> length t = k ->
  (forall h, In h hs -> chain_smooth (l0 :: lh_layers h) x /\ loss_defined (lh_kind h) t (head_value l0 h x)) ->
  exists m' l0' hs', m_step (node_ops draw) m x t = Ok m' /\ multihead m' root l0' hs' n k /\
    same_params l0 l0' /\ root_adds k x t l0 hs l0 l0' /\
    length hs' = length hs /\
    forall j h, nth_error hs j = Some h -> exists h', nth_error hs' j = Some h' /\ head_step k x t l0 hs j h h'.
Proof.
  intros draw m root l0 hs n k x t W Hk Hx Ht HH.
  (* the first layer *)
  assert (X : exists k0, lshape l0 n k0 /\ forall h, In h hs -> nshape (lh_layers h) k0 k).
  { destruct hs as [|h0 hs0] eqn:EH; [destruct (mh_some _ _ _ _ _ _ W eq_refl)|]. rewrite <- EH in *.
    destruct (mh_shape _ _ _ _ _ _ W h0) as ((k0 & S0 & _) & _); [rewrite EH; now left|]. exists k0. split; [exact S0|].
    intros h Hh. destruct (mh_shape _ _ _ _ _ _ W h Hh) as ((k1 & S1 & N1) & _).
    replace k0 with k1; [exact N1|]. destruct S0 as (_ & _ & A & _), S1 as (_ & _ & B & _). congruence. }
  destruct X as (k0 & S0 & NH).
  destruct (layer_forward_sem l0 n k0 x S0 Hx) as (EF0 & LY0).
  set (l1 := set_out l0 (layer_sem l0 x)) in *. set (y0 := layer_sem l0 x) in *.
  assert (S1 : lshape l1 n k0) by (apply lshape_set_out; auto).
  assert (P1 : same_params l0 l1) by (repeat split).
  (* the heads *)
  set (P := fun (h : lhead) (r : ghead (T := R) (S := node R) * lhead) => let '(gh, h') := r in
    gh_ids gh = lh_ids h /\ gh_loss gh = lh_loss h /\ gh_ss gh = map NL (lh_layers h) /\ gh_lo gh = NO (lh_kind h) (lh_lo h) /\
    gh_run (node_ops draw) t y0 gh /\ gh_ss2 gh = map NL (lh_layers h') /\ gh_lo2 gh = NO (lh_kind h') (lh_lo h') /\
    reaches l0 k x t h (gh_g gh) /\
    lh_ids h' = lh_ids h /\ lh_loss h' = lh_loss h /\ lh_kind h' = lh_kind h /\
    Forall2 same_params (lh_layers h) (lh_layers h') /\ nshape (lh_layers h') k0 k /\
    length (ls_grad (lh_lo h')) = k /\ ls_in (lh_lo h') = k /\
    ls_inv (lh_lo h') = ls_inv (lh_lo h) /\ ls_loss (lh_lo h') = head_loss l0 h x t /\
    ls_cum (lh_lo h') = ls_cum (lh_lo h) + head_loss l0 h x t /\
    (forall q l, nth_error (lh_layers h) q = Some l -> exists l', nth_error (lh_layers h') q = Some l' /\
      (forall p, (p < length (wts l))%nat -> exists d,
         derivable_pt_lim (fun s => head_loss l0 (with_layer h q (with_weight l p s)) x t) 0 d /\
         nth p (wgrad l') 0 = nth p (wgrad l) 0 + factor (lh_kind h) k (lh_lo h) * d) /\
      (forall p, (p < length (bias l))%nat -> exists d,
         derivable_pt_lim (fun s => head_loss l0 (with_layer h q (with_bias l p s)) x t) 0 d /\
         nth p (bgrad l') 0 = nth p (bgrad l) 0 + factor (lh_kind h) k (lh_lo h) * d))).
  assert (HP : forall h, In h hs -> exists r, P h r).
  { intros h Hh. destruct (HH h Hh) as (SM & LD). destruct (mh_shape _ _ _ _ _ _ W h Hh) as (_ & LG & LI).
    pose proof (NH h Hh) as NS.
    destruct (chain_forward_shape (lh_layers h) k0 k y0 NS LY0) as (lf & y & EF & Ly & PF & SF).
    destruct (chain_forward_net (lh_layers h) k0 k y0 NS LY0) as (lf' & EF' & _).
    assert (Ey : y = head_value l0 h x) by (change (head_value l0 h x) with (net_value (lh_layers h) y0); congruence).
    subst y. clear lf' EF'.
    destruct (loss_fwd (lh_kind h) (lh_lo h) t (head_value l0 h x) k Hk Ht Ly LI LD) as (lo1 & EL & T1 & I1 & G1 & V1 & Lo1 & C1).
    assert (HG1 : length (ls_grad lo1) = k) by (rewrite G1; exact LG).
    pose proof (loss_bwd (lh_kind h) lo1 t (head_value l0 h x) k Hk T1 Ht Ly HG1 LD) as EB.
    set (gv := tab k (fun i => factor (lh_kind h) k lo1 * nth i (loss_grad (lh_kind h) t (head_value l0 h x)) 0)) in *.
    assert (Hgv : length gv = k) by apply tab_length.
    assert (Ff : factor (lh_kind h) k lo1 = factor (lh_kind h) k (lh_lo h)) by (unfold factor; rewrite V1; reflexivity).
    destruct (chain_backward_shape lf k0 k y0 gv SF LY0 Hgv) as (lb & gx & EC & Lgx & PB & SB).
    assert (NC : nshape (l0 :: lh_layers h) n k) by (exists k0; auto).
    destruct (layer_backward_shape l1 n k0 x gx S1 Hx Lgx) as (l2 & EB2 & _).
    assert (FWD : chain_forward (l0 :: lh_layers h) x = Ok (l1 :: lf, head_value l0 h x)).
    { cbn [chain_forward]. rewrite EF0. cbn [bind]. change (out l1) with y0. rewrite EF. reflexivity. }
    assert (BWD : chain_backward (l1 :: lf) x
        (tab k (fun i => factor (lh_kind h) k (lh_lo h) * nth i (loss_grad (lh_kind h) t (net_value (l0 :: lh_layers h) x)) 0))
        = Ok (l2 :: lb, ig l2)).
    { rewrite <- Ff. cbn [chain_backward]. change (out l1) with y0. fold (head_value l0 h x). fold gv. rewrite EC. cbn [bind].
      rewrite EB2. reflexivity. }
    pose proof (chain_adds _ n k x t (lh_kind h) _ _ _ _ _ NC Hx Hk SM LD FWD BWD) as CA.
    exists (mkGhead (lh_ids h) (lh_loss h) (map NL (lh_layers h)) (NO (lh_kind h) (lh_lo h)) (map NL lf) (head_value l0 h x)
        (NO (lh_kind h) lo1) (NO (lh_kind h) (set_grad lo1 gv)) (map NL lb) gx,
      mkLhead (lh_ids h) lb (lh_loss h) (lh_kind h) (set_grad lo1 gv)).
    unfold P. cbn [gh_ids gh_loss gh_ss gh_lo gh_ss1 gh_y gh_lo1 gh_lo2 gh_ss2 gh_g lh_ids lh_loss lh_kind lh_lo lh_layers].
    do 4 (split; [reflexivity|]). split.
    { unfold gh_run. cbn [gh_ids gh_loss gh_ss gh_lo gh_ss1 gh_y gh_lo1 gh_lo2 gh_ss2 gh_g]. split.
      { rewrite map_length. exact (F2len _ _ _ (mh_layers _ _ _ _ _ _ W h Hh)). }
      split; [rewrite gforward_layers, EF; reflexivity|].
      split; [cbn [node_ops o_tforward n_tforward n_forward o_target n_target]; rewrite EL; reflexivity|].
      split; [cbn [node_ops o_backward n_backward]; rewrite EB; reflexivity|].
      cbn [node_ops o_gradient n_gradient set_grad ls_grad].
      change (mkOps n_forward (n_tforward draw) n_backward n_output n_gradient n_target) with (node_ops draw).
      rewrite gbackward_layers, EC. reflexivity. }
    do 2 (split; [reflexivity|]). split.
    { exists lf, lb. split; [exact EF|]. split; [|rewrite Lgx; symmetry; apply S0].
      rewrite <- Ff. exact EC. }
    do 3 (split; [reflexivity|]). split; [exact (all_same_trans _ _ _ PF PB)|]. split; [exact SB|].
    split; [exact Hgv|]. split; [exact I1|]. split; [exact V1|]. split; [exact Lo1|]. split; [exact C1|].
    intros q l Eq. destruct (CA (S q) l Eq) as (l' & E' & AW & AB). cbn in E'. exists l'. split; [exact E'|].
    split; [exact AW|exact AB]. }
  destruct (list_choice P hs HP) as (rs & FR).
  set (ghs := map fst rs). set (hs' := map snd rs).
  assert (GIN : forall gh, In gh ghs -> exists h h', In h hs /\ P h (gh, h')).
  { intros gh Hg. unfold ghs in Hg. apply in_map_iff in Hg. destruct Hg as ((gh', h') & E & Hr). cbn in E. subst gh'.
    clear - FR Hr. induction FR as [|h r hs rs HPr FR IH]; [destruct Hr|]. destruct Hr as [->|Hr].
    - exists h, h'. split; [now left|exact HPr].
    - destruct (IH Hr) as (h0 & h1 & A & B). exists h0, h1. split; [now right|exact B]. }
  assert (SHP : map (fun g => (gh_ids g, gh_loss g)) ghs = map (fun h => (lh_ids h, lh_loss h)) hs).
  { unfold ghs. clear - FR. induction FR as [|h (gh, h') hs rs HPr FR IH]; [reflexivity|]. cbn [map fst].
    rewrite IH. destruct HPr as (A & B & _). now rewrite A, B. }
  assert (NB : forall gs, Permutation gs (map gh_g ghs) -> exists hg, gs = map snd hg /\ Permutation (map fst hg) hs /\
     forall h g, In (h, g) hg -> In h hs /\ reaches l0 k x t h g).
  { intros gs PG. set (hg0 := combine hs (map gh_g ghs)).
    assert (E1 : map snd hg0 = map gh_g ghs /\ map fst hg0 = hs /\ forall h g, In (h, g) hg0 -> In h hs /\ reaches l0 k x t h g).
    { unfold hg0, ghs. clear - FR. induction FR as [|h (gh, h') hs rs HPr FR IH]; [split; [reflexivity|split; [reflexivity|intros h g []]]|].
      destruct IH as (I1 & I2 & I3). cbn [map fst combine snd]. rewrite I1, I2. split; [reflexivity|]. split; [reflexivity|].
      intros h0 g0 [E|Hin]; [|destruct (I3 _ _ Hin); split; [now right|auto]].
      injection E as <- <-. split; [now left|]. apply HPr. }
    destruct E1 as (E1 & E2 & E3). rewrite <- E1 in PG. apply Permutation_map_inv in PG.
    destruct PG as (hg & -> & PG). exists hg. split; [reflexivity|]. split.
    - rewrite <- E2. apply Permutation_map. now symmetry.
    - intros h g Hin. apply E3. eapply Permutation_in; [symmetry; exact PG|exact Hin]. }
  assert (RS : forall gs, Permutation gs (map gh_g ghs) -> exists fin,
     foldM (fun s g => o_backward (node_ops draw) s x g) gs (NL l1) = Ok (NL fin) /\ lshape fin n k0 /\ same_params l0 fin /\
     root_adds k x t l0 hs l1 fin).
  { intros gs PG. destruct (NB gs PG) as (hg & -> & PH & HI).
    destruct (root_sum draw l0 n k k0 x t S0 Hx Hk hg l1 S1 P1 eq_refl) as (fin & E & SF & PF & (AW & AB)).
    { intros h g Hin. destruct (HI h g Hin) as (A & B). split; [exact B|]. split; [exact (NH h A)|]. exact (HH h A). }
    exists fin. split; [exact E|]. split; [exact SF|]. split; [exact PF|].
    split; intros p Hp; [destruct (AW p Hp) as (d & D & Q)|destruct (AB p Hp) as (d & D & Q)]; exists d; (split; [|exact Q]);
      (eapply derivable_pt_lim_ext; [|exact D]); intros s; cbn beta; apply objective_perm; exact PH. }
  destruct (star_step (node_ops draw) (layers_keep draw) m root ghs (NL l0) (NL l1) y0 x t) as
    (gs & r2 & ns' & PG & E2 & ES & LN & ER & EH & _).
  { rewrite SHP. apply W. }
  { apply W. }
  { intros gh Hg i s Hs. destruct (GIN gh Hg) as (h & h' & Hh & HPr). destruct HPr as (A1 & A2 & A3 & A4 & _).
    rewrite A1, A2, A3, A4 in Hs. pose proof (mh_layers _ _ _ _ _ _ W h Hh) as FL. rewrite combine_snoc in Hs.
    2:{ rewrite map_length. exact (F2len _ _ _ FL). }
    apply in_app_or in Hs. destruct Hs as [Hs|[Hs|[]]].
    - clear - FL Hs. induction FL as [|j l ids ls (p & Ep) FL IH]; cbn in Hs; [destruct Hs|]. destruct Hs as [Hs|Hs]; [|auto].
      injection Hs as <- <-. eauto.
    - injection Hs as <- <-. exact (mh_loss _ _ _ _ _ _ W h Hh). }
  { cbn [node_ops o_tforward n_tforward n_forward]. rewrite EF0. reflexivity. }
  { reflexivity. }
  { intros gh Hg. destruct (GIN gh Hg) as (h & h' & Hh & HPr). apply HPr. }
  { intros gs PG. destruct (RS gs PG) as (fin & E & _). eauto. }
  destruct (RS gs PG) as (fin & E2' & SF & PF & RA). rewrite E2 in E2'. injection E2' as ->.
  exists (mkModel (mgraph m) ns'), fin, hs'. split; [exact ES|].
  assert (HIN : forall j h, nth_error hs j = Some h -> exists gh h', nth_error hs' j = Some h' /\ In gh ghs /\ P h (gh, h')).
  { unfold hs', ghs. clear - FR. induction FR as [|h (gh, h') hs rs HPr FR IH]; intros [|j] h0 E; try discriminate.
    - cbn in E. injection E as <-. exists gh, h'. split; [reflexivity|]. split; [now left|exact HPr].
    - destruct (IH j h0 E) as (gh0 & h1 & A & B & C). exists gh0, h1. split; [exact A|]. split; [now right|exact C]. }
  assert (HIN' : forall h', In h' hs' -> exists h gh, In h hs /\ In gh ghs /\ P h (gh, h')).
  { unfold hs', ghs. clear - FR. induction FR as [|h (gh, h1) hs rs HPr FR IH]; intros h' Hh'; [destruct Hh'|].
    destruct Hh' as [<-|Hh'].
    - exists h, gh. split; [now left|]. split; [now left|exact HPr].
    - destruct (IH h' Hh') as (h0 & gh0 & A & B & C). exists h0, gh0. split; [now right|]. split; [now right|exact C]. }
  assert (LH : length hs' = length hs) by (unfold hs'; rewrite map_length; exact (F2len _ _ _ FR)).
  split.
  { constructor; cbn [mgraph mnodes].
    - replace (map (fun h => (lh_ids h, lh_loss h)) hs') with (map (fun h => (lh_ids h, lh_loss h)) hs); [apply W|].
      unfold hs'. clear - FR. induction FR as [|h (gh, h1) hs rs HPr FR IH]; [reflexivity|]. cbn [map snd]. rewrite IH.
      destruct HPr as (_ & _ & _ & _ & _ & _ & _ & _ & A & B & _). now rewrite A, B.
    - intros E. rewrite E in LH. destruct hs; [destruct (mh_some _ _ _ _ _ _ W eq_refl)|discriminate].
    - eauto.
    - intros h' Hh'. destruct (HIN' h' Hh') as (h & gh & Hh & Hg & HPr). specialize (EH gh Hg).
      destruct HPr as (A1 & A2 & A3 & A4 & A5 & A6 & A7 & A8 & A9 & A10 & A11 & A12 & _).
      rewrite A1, A2, A6, A7 in EH. rewrite A9.
      pose proof (mh_layers _ _ _ _ _ _ W h Hh) as FL. apply F2len in FL. apply F2len in A12. assert (FL' : length (lh_ids h) = length (lh_layers h')) by congruence.
      assert (Q : forall ids (ls : list (layer R)) prev z zl, length ids = length ls ->
        (forall e, In e (linkup prev (ids ++ [zl]) (map NL ls ++ [z])) -> nth_error ns' (fst e) = Some (snd e)) ->
        Forall2 (fun i l => exists p, nth_error ns' i = Some (NL l, p)) ids ls).
      { clear. induction ids as [|i ids IH]; intros [|l ls] prev z zl L HE; try discriminate; constructor.
        - exists (SNode prev). apply (HE (i, (NL l, SNode prev))). now left.
        - apply (IH ls i z zl); [cbn in L; lia|]. intros e He. apply HE. now right. }
      exact (Q _ _ _ _ _ FL' EH).
    - intros h' Hh'. destruct (HIN' h' Hh') as (h & gh & Hh & Hg & HPr). specialize (EH gh Hg).
      destruct HPr as (A1 & A2 & A3 & A4 & A5 & A6 & A7 & A8 & A9 & A10 & A11 & A12 & _).
      rewrite A1, A2, A6, A7 in EH. rewrite A10.
      pose proof (mh_layers _ _ _ _ _ _ W h Hh) as FL. apply F2len in FL. apply F2len in A12. assert (FL' : length (lh_ids h) = length (lh_layers h')) by congruence.
      assert (Q : forall ids (ls : list (layer R)) prev z zl, length ids = length ls ->
        (forall e, In e (linkup prev (ids ++ [zl]) (map NL ls ++ [z])) -> nth_error ns' (fst e) = Some (snd e)) ->
        exists p, nth_error ns' zl = Some (z, p)).
      { clear. induction ids as [|i ids IH]; intros [|l ls] prev z zl L HE; try discriminate.
        - exists (SNode prev). apply (HE (zl, (z, SNode prev))). now left.
        - apply (IH ls i z zl); [cbn in L; lia|]. intros e He. apply HE. now right. }
      exact (Q _ _ _ _ _ FL' EH).
    - intros h' Hh'. destruct (HIN' h' Hh') as (h & gh & Hh & Hg & HPr).
      destruct HPr as (A1 & A2 & A3 & A4 & A5 & A6 & A7 & A8 & A9 & A10 & A11 & A12 & A13 & A14 & A15 & _).
      split; [exists k0; auto|]. auto. }
  split; [exact PF|]. split; [exact RA|]. split; [exact LH|].
  intros j h Ej. destruct (HIN j h Ej) as (gh & h' & Ej' & Hg & HPr). exists h'. split; [exact Ej'|].
  destruct HPr as (A1 & A2 & A3 & A4 & A5 & A6 & A7 & A8 & A9 & A10 & A11 & A12 & A13 & A14 & A15 & A16 & A17 & A18 & A19).
  unfold head_step. do 7 (split; [assumption|]).
  intros q l Eq. destruct (A19 q l Eq) as (l' & E' & AW & AB). exists l'. split; [exact E'|].
  split; intros p Hp; [destruct (AW p Hp) as (d & D & Q)|destruct (AB p Hp) as (d & D & Q)];
    exists (factor (lh_kind h) k (lh_lo h) * d); (split; [|exact Q]);
    (apply (objective_upd k x t l0 _ d hs j h Ej); [intros s; split; reflexivity|exact D]).
Qed.
Print Assumptions c73_step_partial.

(** *** Prediction on trees *)
(** Every layer has at most one layer before it, the inputs have none. *)
Record tree_shaped (g : dlgraph) : Prop := {
  ts_fin : finite_graph (nodes g) (fgraph g);
  ts_nd : NoDup (inputs g);
  ts_one : forall a a' b, In b (fgraph g a) -> In b (fgraph g a') -> a = a';
  ts_in : forall i a, In i (inputs g) -> ~ In i (fgraph g a)
}.
(** [p]: nodes from an input on, along forward arcs; [ss]: the layer objects on the way. *)
Definition branch (g : dlgraph) (p : list nat) : Prop :=
  (exists i r, p = i :: r /\ In i (inputs g)) /\ forall a b, hop p a b -> In b (fgraph g a).
Definition states_on {S} (m : model S) (p : list nat) (ss : list S) : Prop :=
  Forall2 (fun i s => exists q, nth_error (mnodes m) i = Some (s, q)) p ss.

Section Predict.
Context {T S : Type} (op : nodeops T S).
Local Open Scope nat_scope.

Lemma compose_snoc ss : forall s x, compose op (ss ++ [s]) x
  = (v <- compose op ss x ;; s' <- o_forward op s v ;; o_output op s').
Proof.
  induction ss as [|a ss IH]; intros s x; cbn [app compose bind].
  - destruct (o_forward op s x) as [s'| |]; cbn [bind]; auto. destruct (o_output op s'); reflexivity.
  - destruct (o_forward op a x) as [a'| |]; cbn [bind]; auto. destruct (o_output op a') as [y| |]; cbn [bind]; auto.
Qed.

Lemma feed_inputs x : forall ins (ns ns' : list (S * source)), NoDup ins ->
  foldM (feed_input op false x) ins ns = Ok ns' ->
  forall i, if mem i ins then exists s p s', nth_error ns i = Some (s, p) /\ o_forward op s x = Ok s' /\ nth_error ns' i = Some (s', p)
    else nth_error ns' i = nth_error ns i.
Proof.
  induction ins as [|a ins IH]; intros ns ns' ND E i; [cbn in E; injection E as <-; reflexivity|].
  inversion ND as [|? ? N1 N2]; subst. cbn [foldM] in E. unfold feed_input at 1, feed in E.
  destruct (rd ns a) as [(s, p)| |] eqn:Ea; try discriminate. cbn [bind] in E.
  destruct (o_forward op s x) as [s'| |] eqn:Es; try discriminate. cbn [bind] in E.
  apply rd_inv in Ea. rewrite (wr_some _ _ _ _ Ea) in E. cbn [bind] in E.
  specialize (IH _ _ N2 E i). cbn [mem existsb]. fold (mem i ins).
  assert (Hlt : a < length ns) by (apply nth_error_Some; congruence).
  destruct (mem i ins) eqn:EM.
  - rewrite Bool.orb_true_r. destruct IH as (s1 & p1 & s1' & A & B & C). exists s1, p1, s1'.
    rewrite Base.nth_error_upd in A. destruct (Nat.eqb_spec i a) as [->|]; [apply mem_In in EM; contradiction|auto].
  - rewrite Bool.orb_false_r. rewrite Base.nth_error_upd in IH. destruct (Nat.eqb_spec i a) as [->|]; [|exact IH].
    destruct (Nat.ltb_spec a (length ns)); [|lia]. exists s, p, s'. auto.
Qed.

Theorem c73_predict_branch : forall (m m' : model S) x y, tree_shaped (mgraph m) ->
  m_predict op m x = Ok (m', y) -> mgraph m' = mgraph m /\
  (forall p i ss, branch (mgraph m) (p ++ [i]) -> states_on m (p ++ [i]) ss ->
    exists s' q, nth_error (mnodes m') i = Some (s', q) /\ o_output op s' = compose op ss x) /\
  forall o r, outputs (mgraph m) = o :: r -> forall p ss, branch (mgraph m) (p ++ [o]) -> states_on m (p ++ [o]) ss ->
    compose op ss x = Ok y.
Proof.
  intros m m' x y TS E. unfold m_predict in E. destruct (outputs (mgraph m)) as [|o r] eqn:EO; [discriminate|].
  unfold sched in E.
  destruct (schedule (nodes (mgraph m) + 2) (fgraph (mgraph m)) (inputs (mgraph m))) as [arcs|] eqn:ES; [|discriminate].
  cbn [bind] in E.
  destruct (foldM (feed_input op false x) (inputs (mgraph m)) (mnodes m)) as [ns1| |] eqn:E1; try discriminate. cbn [bind] in E.
  destruct (foldM (run_arc op false) arcs ns1) as [ns2| |] eqn:E2; try discriminate. cbn [bind] in E.
  destruct (node_output op ns2 o) as [y'| |] eqn:E3; try discriminate. cbn [bind] in E. injection E as <- <-. cbn [mgraph mnodes].
  split; [reflexivity|].
  pose proof (feed_inputs x _ _ _ (ts_nd _ TS) E1) as FI.
  destruct (tree_order (nodes (mgraph m)) (fgraph (mgraph m)) (inputs (mgraph m)) (ts_fin _ TS) (ts_nd _ TS))
    with (fuel := nodes (mgraph m) + 2) (arcs := arcs) as (ND & IN & RD); auto.
  { intros a a' b A B _. now apply (ts_one _ TS a a' b). }
  { intros i a. apply (ts_in _ TS). }
  assert (NS : NoDup (map snd arcs)).
  { assert (ONE : forall a a' b, In (a, b) arcs -> In (a', b) arcs -> a = a').
    { intros a a' b A B. apply IN in A, B. now apply (ts_one _ TS a a' b). }
    clear - ND ONE. induction arcs as [|(a, b) arcs IH]; cbn [map]; [constructor|].
    inversion ND as [|? ? N1 N2]; subst. constructor.
    - intros X. apply in_map_iff in X. destruct X as ((a' & b') & E & X). cbn in E. subst b'. cbn [snd] in X.
      assert (a = a') by (apply (ONE a a' b); [now left|now right]). subst. contradiction.
    - apply IH; auto. intros a0 a' b0 A B. apply (ONE a0 a' b0); now right. }
  destruct (run_forward_inv op false arcs [] ns1 ns2 NS RD E2) as (LN & UN & AR).
  assert (G : forall p i ss, branch (mgraph m) (p ++ [i]) -> states_on m (p ++ [i]) ss ->
    reachable (fgraph (mgraph m)) (inputs (mgraph m)) i /\
    exists s' q, nth_error ns2 i = Some (s', q) /\ o_output op s' = compose op ss x).
  { induction p as [|a p IH] using rev_ind; intros i ss ((i0 & r0 & Ep & Hi0) & HB) HS.
    - cbn [app] in *. injection Ep as <- <-. split; [exists 0; now constructor|].
      inversion HS as [|? s ? ? (q & Eq) HS' E']; subst. inversion HS'; subst.
      pose proof (FI i) as FIi. assert (X : mem i (inputs (mgraph m)) = true) by now apply mem_In.
      rewrite X in FIi. destruct FIi as (s0 & p0 & s' & A & B & C). rewrite Eq in A. injection A as <- <-.
      exists s', q. split.
      + rewrite UN; [exact C|]. intros Z. apply in_map_iff in Z. destruct Z as ((a & b) & Eb & Z). cbn in Eb. subst b.
        apply IN in Z. destruct Z as (_ & Z). now apply (ts_in _ TS i a Hi0).
      + cbn [compose]. rewrite B. cbn [bind]. destruct (o_output op s'); reflexivity.
    - rewrite <- app_assoc in HS, HB, Ep. cbn [app] in HS, HB, Ep.
      assert (HS0 : exists ss1 sa si, ss = ss1 ++ [sa; si] /\ states_on m (p ++ [a]) (ss1 ++ [sa]) /\
        exists q, nth_error (mnodes m) i = Some (si, q)).
      { apply Forall2_app_inv_l in HS. destruct HS as (ss1 & ss2 & F1 & F2 & ->).
        inversion F2 as [|? sa ? t1 Ha F3]; subst. inversion F3 as [|? si ? t2 Hi F4]; subst. inversion F4; subst.
        exists ss1, sa, si. split; [reflexivity|]. split; [|exact Hi]. apply Forall2_app; [exact F1|]. constructor; auto. }
      destruct HS0 as (ss1 & sa & si & -> & HS1 & (q & Eq)).
      destruct (IH a (ss1 ++ [sa])) as (Ra & s' & q' & Es' & Eo).
      { split.
        - destruct p as [|z p]; cbn [app] in *; injection Ep as -> <-; eauto.
        - intros u v (l1 & l2 & El). apply HB. exists l1, (l2 ++ [i]).
          replace (p ++ [a; i]) with ((p ++ [a]) ++ [i]) by (rewrite <- app_assoc; reflexivity).
          rewrite El, <- app_assoc. reflexivity. }
      { exact HS1. }
      assert (Hai : In i (fgraph (mgraph m) a)) by (apply HB; exists p, []; reflexivity).
      split; [destruct Ra as (k & Wk); exists (Datatypes.S k); econstructor; eauto|].
      destruct (AR a i) as (ra & ya & s0 & p0 & rb & A1 & A2 & A3 & A4 & A5); [now apply IN|].
      rewrite Es' in A1. injection A1 as <-. cbn [fst] in A2.
      assert (Hin : mem i (inputs (mgraph m)) = false).
      { destruct (mem i (inputs (mgraph m))) eqn:EM; [|reflexivity]. apply mem_In in EM. destruct (ts_in _ TS i a EM Hai). }
      pose proof (FI i) as FIi. rewrite Hin in FIi. rewrite FIi, Eq in A3. injection A3 as <- <-.
      unfold feed in A4. destruct (o_forward op si ya) as [s2| |] eqn:E4; try discriminate. cbn [bind] in A4. injection A4 as <-.
      exists s2, q. split; [exact A5|].
      replace (ss1 ++ [sa; si]) with ((ss1 ++ [sa]) ++ [si]) by (rewrite <- app_assoc; reflexivity).
      rewrite compose_snoc, <- Eo, A2. cbn [bind]. rewrite E4. reflexivity. }
  split; [intros p i ss B S'; apply (G p i ss B S')|].
  intros o' r' E' p ss B S'. injection E' as <- <-.
  destruct (G p o ss B S') as (_ & s' & q & Es & Ec). rewrite <- Ec.
  unfold node_output in E3. rewrite (rd_some _ _ _ Es) in E3. exact E3.
Qed.
End Predict.
Print Assumptions c73_predict_branch.

(** A tree of layers of matching sizes: [win i], [wout i] are the sizes of layer [i]. *)
Record sized_tree (m : model (node R)) (win wout : nat -> nat) (n : nat) : Prop := {
  sz_tree : tree_shaped (mgraph m);
  sz_out : outputs (mgraph m) <> [];
  sz_node : forall i, In i (inputs (mgraph m) ++ outputs (mgraph m)) \/ (exists a, In i (fgraph (mgraph m) a)) ->
    exists l q, nth_error (mnodes m) i = Some (NL l, q) /\ lshape l (win i) (wout i);
  sz_in : forall i, In i (inputs (mgraph m)) -> win i = n;
  sz_arc : forall a b, In b (fgraph (mgraph m) a) -> win b = wout a
}.

Definition shaped (win wout : nat -> nat) (ns : list (node R * source)) (i : nat) : Prop :=
  exists l q, nth_error ns i = Some (NL l, q) /\ lshape l (win i) (wout i).
Lemma shaped_upd win wout ns b l q i : (b < length ns)%nat -> lshape l (win b) (wout b) ->
  (i = b \/ shaped win wout ns i) -> shaped win wout (upd ns b (NL l, q)) i.
Proof.
  intros Hb HS Hi. unfold shaped. rewrite Base.nth_error_upd. destruct (Nat.eqb_spec i b) as [->|Hne].
  - destruct (Nat.ltb_spec b (length ns)); [|lia]. exists l, q. auto.
  - destruct Hi as [->|(l' & q' & E & S')]; [contradiction|eauto].
Qed.

Theorem c73_predict_value : forall draw m win wout n x, sized_tree m win wout n -> length x = n ->
  exists m' y, m_predict (node_ops draw) m x = Ok (m', y) /\
    forall o r, outputs (mgraph m) = o :: r -> forall p ls, branch (mgraph m) (p ++ [o]) ->
      states_on m (p ++ [o]) (map NL ls) -> y = net_value ls x.
Proof.
  intros draw m win wout n x W Hx. set (g := mgraph m).
  assert (X : exists m' y, m_predict (node_ops draw) m x = Ok (m', y)).
  { unfold m_predict. fold g. destruct (outputs g) as [|o r] eqn:EO; [destruct (sz_out _ _ _ _ W EO)|].
    destruct (c34_schedule (nodes g) (fgraph g) (inputs g) (ts_fin _ (sz_tree _ _ _ _ W)) (ts_nd _ (sz_tree _ _ _ _ W)))
      as (arcs & ES & _ & _ & IN).
    unfold sched. rewrite (ES _ (le_n _)). cbn [bind].
    set (inside := fun i => In i (inputs g ++ outputs g) \/ exists a, In i (fgraph g a)).
    assert (I0 : forall i, inside i -> shaped win wout (mnodes m) i) by exact (sz_node _ _ _ _ W).
    assert (FI : forall ins ns, incl ins (inputs g) -> (forall i, inside i -> shaped win wout ns i) ->
      exists ns', foldM (feed_input (node_ops draw) false x) ins ns = Ok ns' /\ forall i, inside i -> shaped win wout ns' i).
    { induction ins as [|a ins IH]; intros ns HI HS; [exists ns; auto|].
      assert (Ha : In a (inputs g)) by (apply HI; now left).
      destruct (HS a) as (l & q & El & Sl); [left; apply in_or_app; now left|].
      cbn [foldM]. unfold feed_input at 1, feed. rewrite (rd_some _ _ _ El). cbn [bind].
      cbn [node_ops o_forward n_forward].
      change (mkOps n_forward (n_tforward draw) n_backward n_output n_gradient n_target) with (node_ops draw).
      assert (Lx : length x = win a) by (rewrite (sz_in _ _ _ _ W a Ha); exact Hx).
      destruct (layer_forward_sem l _ _ x Sl Lx) as (E & L). rewrite E. cbn [bind].
      rewrite (wr_some _ _ _ _ El). cbn [bind]. apply IH; [intros z Hz; apply HI; now right|].
      intros i Hi. apply shaped_upd; [apply nth_error_Some; congruence|now apply lshape_set_out|right; auto]. }
    destruct (FI (inputs g) (mnodes m) (incl_refl _) I0) as (ns1 & -> & I1). cbn [bind].
    assert (FA : forall al ns, incl al arcs -> (forall i, inside i -> shaped win wout ns i) ->
      exists ns', foldM (run_arc (node_ops draw) false) al ns = Ok ns' /\ forall i, inside i -> shaped win wout ns' i).
    { induction al as [|(a, b) al IH]; intros ns HI HS; [exists ns; auto|].
      assert (Hab : In (a, b) arcs) by (apply HI; now left). apply IN in Hab. destruct Hab as ((k & Wk) & Hb).
      assert (Ia : inside a).
      { inversion Wk as [? Hs|? c ? Wc Hc]; subst; [left; apply in_or_app; now left|right; eauto]. }
      destruct (HS a Ia) as (la & qa & Ea & Sa). destruct (HS b) as (l & q & El & Sl); [right; eauto|].
      cbn [foldM]. unfold run_arc at 1, node_output, feed. rewrite (rd_some _ _ _ Ea). cbn [bind].
      cbn [node_ops o_output n_output bind]. rewrite (rd_some _ _ _ El). cbn [bind o_forward n_forward].
      change (mkOps n_forward (n_tforward draw) n_backward n_output n_gradient n_target) with (node_ops draw).
      assert (Lx : length (out la) = win b) by (rewrite (sz_arc _ _ _ _ W a b Hb); apply Sa).
      destruct (layer_forward_sem l _ _ (out la) Sl Lx) as (E & L).
      change (o_forward (node_ops draw) (NL l) (out la)) with (l' <- layer_forward l (out la) ;; Ok (NL l')). rewrite E. cbn [bind].
      rewrite (wr_some _ _ _ _ El). cbn [bind]. apply IH; [intros z Hz; apply HI; now right|].
      intros i Hi. apply shaped_upd; [apply nth_error_Some; congruence|now apply lshape_set_out|right; auto]. }
    destruct (FA arcs ns1 (incl_refl _) I1) as (ns2 & -> & I2). cbn [bind].
    destruct (I2 o) as (l & q & El & Sl); [left; apply in_or_app; right; rewrite EO; now left|].
    unfold node_output. rewrite (rd_some _ _ _ El). cbn [bind node_ops o_output n_output]. eauto. }
  destruct X as (m' & y & E). exists m', y. split; [exact E|].
  intros o r EO p ls B HS.
  destruct (c73_predict_branch (node_ops draw) m m' x y (sz_tree _ _ _ _ W) E) as (_ & _ & Q).
  specialize (Q o r EO p (map NL ls) B HS).
  (* compose on layers *)
  assert (SHP : forall p0 ls0, (forall i, In i p0 -> In i (inputs g) \/ exists a, In i (fgraph g a)) ->
     states_on m p0 (map NL ls0) -> (forall a b, hop p0 a b -> In b (fgraph g a)) ->
     forall v, (forall i, hd_error p0 = Some i -> win i = length v) -> compose (node_ops draw) (map NL ls0) v = Ok (net_value ls0 v)).
  { induction p0 as [|i p0 IH]; intros [|l ls0] HI HSt HHop v Hv; try (inversion HSt; fail); [reflexivity|].
    cbn [map] in HSt. inversion HSt as [|? ? ? ? (q & Ei) HSt']; subst. cbn [map compose].
    destruct (sz_node _ _ _ _ W i) as (l' & q' & E' & S').
    { destruct (HI i (or_introl eq_refl)) as [A|A]; [left; apply in_or_app; now left|right; exact A]. }
    rewrite Ei in E'. injection E' as <- <-. specialize (Hv i eq_refl).
    destruct (layer_forward_sem l _ _ v S' (eq_sym Hv)) as (EL & LL). cbn [node_ops o_forward n_forward o_output].
    change (mkOps n_forward (n_tforward draw) n_backward n_output n_gradient n_target) with (node_ops draw).
    rewrite EL. cbn [bind n_output set_out out]. rewrite IH with (v := layer_sem l v).
    - reflexivity.
    - intros z Hz. apply HI. now right.
    - exact HSt'.
    - intros a b HH. apply HHop. apply hop_cons. now right.
    - intros z Hz. destruct p0 as [|z' p1]; [discriminate|]. cbn in Hz. injection Hz as <-.
      rewrite LL. apply (sz_arc _ _ _ _ W i z'). apply HHop. apply hop_cons. left. eauto. }
  destruct B as ((i0 & r0 & Ep & Hi0) & HB).
  assert (E0 : compose (node_ops draw) (map NL ls) x = Ok (net_value ls x)).
  { apply (SHP (p ++ [o])); auto.
    - rewrite Ep. intros i [<-|Hi]; [now left|]. destruct (hop_to i0 r0 i Hi) as (a & Ha). right. exists a.
      apply HB. now rewrite Ep.
    - rewrite Ep. intros i Hi. cbn in Hi. injection Hi as <-. rewrite (sz_in _ _ _ _ W i0 Hi0). auto. }
  congruence.
Qed.
Print Assumptions c73_predict_value.

(** *** Building *)
(** The calls that make such a network: the first layer, then head after head, each layer linked
    to the one before, then the loss of the head. [c]: the number of the next node. *)
Section Build.
Local Open Scope nat_scope.

Definition head_layers (c k : nat) : list gop :=
  flat_map (fun i => [GLayer; GEdge (if i =? 0 then 0 else c + i - 1) (c + i)]) (seq 0 k).
Fixpoint heads_calls (c : nat) (ks : list nat) : list gop :=
  match ks with
  | [] => []
  | k :: r => head_layers c k ++ [GLoss; GLossEdge (c + k - 1) (c + k)] ++ heads_calls (c + k + 1) r
  end.
Definition heads_build (ks : list nat) : list gop := GLayer :: heads_calls 1 ks.
Fixpoint heads_at (c : nat) (ks : list nat) : list (list nat * nat) :=
  match ks with [] => [] | k :: r => (seq c k, c + k) :: heads_at (c + k + 1) r end.

Lemma hop_snoc p z a b : hop (p ++ [z]) a b <-> hop p a b \/ ((exists q, p = q ++ [a]) /\ b = z).
Proof.
  split.
  - intros (l1 & l2 & E). destruct (exists_last (l := a :: b :: l2)) as (l3 & w & E3); [discriminate|].
    rewrite E3, app_assoc in E. apply app_inj_tail in E. destruct E as (Ep & <-).
    destruct l3 as [|a' l3]; [discriminate|]. cbn [app] in E3. injection E3 as <- E3.
    destruct l3 as [|b' l3]; cbn [app] in E3; injection E3 as <- E4.
    + right. split; [exists l1; exact Ep|reflexivity].
    + left. exists l1, l3. exact Ep.
  - intros [(l1 & l2 & ->)|((q & ->) & ->)].
    + exists l1, (l2 ++ [z]). now rewrite <- app_assoc.
    + exists q, []. now rewrite <- app_assoc.
Qed.

Record binv (s : dlgraph) (c : nat) (A : nat -> nat -> Prop) (L : list nat) : Prop := {
  bi_nodes : nodes s = c;
  bi_t : forall a b, In b (tgraph s a) <-> A a b;
  bi_b : forall a b, In b (bgraph s a) <-> A b a;
  bi_f : forall a b, In b (fgraph s a) <-> A a b /\ ~ In b L;
  bi_up : forall a b, A a b -> a < b < c;
  bi_pred : forall i, 0 < i < c -> ~ In i L -> exists a, A a i;
  bi_l : losses s = L;
  bi_lt : forall i, In i L -> 0 < i < c
}.

Lemma filter_none {A} (f : A -> bool) l : (forall i, In i l -> f i = false) -> filter f l = [].
Proof.
  induction l as [|i l IH]; intros G; [reflexivity|]. cbn [filter]. rewrite G by now left. apply IH.
  intros j Hj. apply G. now right.
Qed.
Lemma roles_first s c A L : binv s c A L -> 0 < c -> inputs (compute_roles s) = [0].
Proof.
  intros B Hc. unfold compute_roles. cbn [inputs]. rewrite (bi_nodes _ _ _ _ B).
  destruct c as [|c]; [lia|]. cbn [seq filter].
  assert (E0 : has_predecessors (S c) (fgraph s) 0 = false).
  { destruct (has_predecessors (S c) (fgraph s) 0) eqn:E; [|reflexivity]. apply existsb_exists in E.
    destruct E as (a & _ & E). apply mem_In, (bi_f _ _ _ _ B) in E. destruct E as (E & _).
    apply (bi_up _ _ _ _ B) in E. lia. }
  assert (M0 : mem 0 (losses s) = false).
  { destruct (mem 0 (losses s)) eqn:E; [|reflexivity]. apply mem_In in E. rewrite (bi_l _ _ _ _ B) in E.
    apply (bi_lt _ _ _ _ B) in E. lia. }
  rewrite E0, M0. cbn [negb andb]. f_equal.
  assert (G : forall i, In i (seq 1 c) -> negb (has_predecessors (S c) (fgraph s) i) && negb (mem i (losses s)) = false).
  { intros i Hi. apply in_seq in Hi. destruct (mem i (losses s)) eqn:EM; [apply Bool.andb_false_r|].
    rewrite Bool.andb_true_r. apply Bool.negb_false_iff.
    assert (NL : ~ In i L) by (intros X; rewrite <- (bi_l _ _ _ _ B) in X; apply mem_In in X; congruence).
    destruct (bi_pred _ _ _ _ B i ltac:(lia) NL) as (a & Ha). apply existsb_exists. exists a. split.
    - apply in_seq. pose proof (bi_up _ _ _ _ B a i Ha). lia.
    - apply mem_In. apply (bi_f _ _ _ _ B). auto. }
  apply filter_none. exact G.
Qed.

Lemma add_layer s c A L src : binv s c A L -> src < c -> ~ In src L ->
  exists s', foldM gstep [GLayer; GEdge src c] s = Ok s' /\ inputs s' = [0] /\
    binv s' (S c) (fun a b => A a b \/ (a = src /\ b = c)) L.
Proof.
  intros B Hs HL. destruct B as [B1 B2 B3 B4 B5 B6 B7 B8].
  cbn [foldM gstep bind]. unfold create_edge, add_backward, add_forward, add_node.
  cbn [nodes fgraph tgraph bgraph losses inputs outputs bind]. rewrite B1.
  rewrite !add_arc_in by lia. cbn [bind nodes fgraph tgraph bgraph losses inputs outputs].
  rewrite !add_arc_in by lia. cbn [bind].
  assert (BI : binv (mkGraph (S c) (fun i => if i =? src then sinsert c (fgraph s src) else fgraph s i)
      (fun i => if i =? src then sinsert c (tgraph s src) else tgraph s i)
      (fun i => if i =? c then sinsert src (bgraph s c) else bgraph s i) (losses s) (inputs s) (outputs s))
      (S c) (fun a b => A a b \/ (a = src /\ b = c)) L).
  { constructor; cbn [nodes fgraph tgraph bgraph losses].
    - reflexivity.
    - intros a b. rewrite ins_In, B2. tauto.
    - intros a b. rewrite ins_In, B3. tauto.
    - intros a b. rewrite ins_In, B4. split.
      + intros [(X & Y)|(-> & ->)]; [split; auto|]. split; [auto|]. intros X. apply B8 in X. lia.
      + intros ([X|X] & Y); auto.
    - intros a b [X|(-> & ->)]; [apply B5 in X; lia|lia].
    - intros i Hi Hn. destruct (Nat.eq_dec i c) as [->|]; [exists src; auto|].
      destruct (B6 i ltac:(lia) Hn) as (a & Ha). eauto.
    - exact B7.
    - intros i Hi. apply B8 in Hi. lia. }
  eexists. split; [reflexivity|]. split; [apply (roles_first _ _ _ _ BI); lia|].
  destruct BI as [C1 C2 C3 C4 C5 C6 C7 C8]. constructor; auto.
Qed.

Lemma add_loss_node s c A L src : binv s c A L -> src < c -> 0 < c ->
  exists s', foldM gstep [GLoss; GLossEdge src c] s = Ok s' /\ inputs s' = inputs s /\
    binv s' (S c) (fun a b => A a b \/ (a = src /\ b = c)) (L ++ [c]).
Proof.
  intros B Hs Hc. destruct B as [B1 B2 B3 B4 B5 B6 B7 B8].
  cbn [foldM gstep bind]. unfold create_loss_edge, add_backward, add_forward_loss, add_loss, add_node.
  cbn [nodes fgraph tgraph bgraph losses inputs outputs bind]. rewrite B1.
  rewrite !add_arc_in by lia. cbn [bind nodes fgraph tgraph bgraph losses inputs outputs].
  rewrite !add_arc_in by lia. cbn [bind].
  eexists. split; [reflexivity|]. split; [reflexivity|].
  constructor; cbn [nodes fgraph tgraph bgraph losses].
  - reflexivity.
  - intros a b. rewrite ins_In, B2. tauto.
  - intros a b. rewrite ins_In, B3. tauto.
  - intros a b. rewrite B4, in_app_iff. cbn [In]. split.
    + intros (X & Y). split; [auto|]. intros [Z|[Z|[]]]; [auto|]. apply B5 in X. lia.
    + intros ([X|(-> & ->)] & Y); [split; auto|]. exfalso. apply Y. auto.
  - intros a b [X|(-> & ->)]; [apply B5 in X; lia|lia].
  - intros i Hi Hn. rewrite in_app_iff in Hn. cbn [In] in Hn. destruct (B6 i) as (a & Ha); [|tauto|eauto].
    destruct (Nat.eq_dec i c); [subst; tauto|lia].
  - rewrite B7. f_equal. f_equal. lia.
  - intros i Hi. apply in_app_or in Hi. destruct Hi as [Hi|[<-|[]]]; [apply B8 in Hi; lia|lia].
Qed.

Lemma binv_ext s c A A' L : (forall a b, A a b <-> A' a b) -> binv s c A L -> binv s c A' L.
Proof.
  intros E [B1 B2 B3 B4 B5 B6 B7 B8]. constructor; auto.
  - intros a b. rewrite B2. apply E.
  - intros a b. rewrite B3. apply E.
  - intros a b. rewrite B4, E. tauto.
  - intros a b H. apply B5, E, H.
  - intros i Hi Hn. destruct (B6 i Hi Hn) as (a & Ha). exists a. now apply E.
Qed.

Lemma head_path c j : 0 :: seq c (S j) = (0 :: seq c j) ++ [c + j].
Proof. now rewrite seq_S. Qed.
Lemma head_last c j q a : 0 :: seq c j = q ++ [a] -> a = (if j =? 0 then 0 else c + j - 1).
Proof.
  destruct j as [|j].
  - cbn. destruct q as [|z q]; [intros E; now injection E as <-|destruct q; discriminate].
  - rewrite head_path. intros E. apply app_inj_tail in E. destruct E as (_ & <-). cbn. lia.
Qed.

Lemma add_head_layers c : forall j s A L, binv s c A L -> 0 < c -> ~ In 0 L ->
  exists s', foldM gstep (head_layers c j) s = Ok s' /\ (1 <= j -> inputs s' = [0]) /\ (j = 0 -> inputs s' = inputs s) /\
    binv s' (c + j) (fun a b => A a b \/ hop (0 :: seq c j) a b) L.
Proof.
  induction j as [|j IH]; intros s A L B Hc H0.
  - exists s. split; [reflexivity|]. split; [lia|]. split; [auto|]. rewrite Nat.add_0_r.
    eapply binv_ext; [|exact B]. intros a b. split; [auto|]. intros [X|X]; [exact X|].
    apply hop_cons in X. destruct X as [(_ & q & E)|X]; [discriminate|destruct (hop_nil _ _ X)].
  - destruct (IH s A L B Hc H0) as (s1 & E1 & _ & _ & B1).
    unfold head_layers in *. rewrite seq_S, flat_map_app, foldM_app, E1. cbn [bind flat_map plus app].
    set (src := if j =? 0 then 0 else c + j - 1).
    destruct (add_layer s1 (c + j) _ L src B1) as (s2 & E2 & I2 & B2).
    + unfold src. destruct (Nat.eqb_spec j 0); lia.
    + unfold src. destruct (Nat.eqb_spec j 0); [exact H0|].
      intros X. apply (bi_lt _ _ _ _ B) in X. lia.
    + exists s2. split; [exact E2|]. split; [auto|]. split; [lia|]. rewrite Nat.add_succ_r.
      eapply binv_ext; [|exact B2]. intros a b. rewrite head_path, hop_snoc. cbn beta. split.
      * intros [[X|X]|(-> & ->)]; auto. right. right. split; [|reflexivity]. unfold src. destruct j as [|j].
        -- exists []. reflexivity.
        -- exists (0 :: seq c j). rewrite head_path. f_equal. f_equal. cbn. lia.
      * intros [X|[X|((q & Eq) & ->)]]; auto. right. split; [|reflexivity]. exact (head_last _ _ _ _ Eq).
Qed.

Lemma heads_inv : forall ks c s A L, binv s c A L -> 0 < c -> Forall (fun k => 1 <= k) ks -> (ks = [] -> inputs s = [0]) ->
  exists s', foldM gstep (heads_calls c ks) s = Ok s' /\ inputs s' = [0] /\
    binv s' (c + length (flat_map (fun h => fst h ++ [snd h]) (heads_at c ks)))
      (fun a b => A a b \/ exists h, In h (heads_at c ks) /\ hop (0 :: fst h ++ [snd h]) a b) (L ++ map snd (heads_at c ks)).
Proof.
  induction ks as [|k ks IH]; intros c s A L B Hc HK HI.
  - exists s. cbn [heads_calls heads_at flat_map length foldM map]. split; [reflexivity|]. split; [auto|].
    rewrite Nat.add_0_r, app_nil_r. eapply binv_ext; [|exact B]. intros a b. split; [auto|].
    intros [X|(h & [] & _)]; exact X.
  - inversion HK as [|? ? K1 K2]; subst.
    assert (H0 : ~ In 0 L) by (intros X; apply (bi_lt _ _ _ _ B) in X; lia).
    destruct (add_head_layers c k s A L B Hc H0) as (s1 & E1 & I1 & _ & B1).
    destruct (add_loss_node s1 (c + k) _ L (c + k - 1) B1) as (s2 & E2 & I2 & B2); [lia|lia|].
    replace (S (c + k)) with (c + k + 1) in B2 by lia.
    destruct (IH (c + k + 1) s2 _ _ B2) as (s3 & E3 & I3 & B3); [lia|exact K2|intros _; rewrite I2; auto|].
    exists s3. cbn [heads_calls]. rewrite foldM_app, E1. cbn [bind].
    rewrite foldM_app, E2. cbn [bind]. split; [exact E3|]. split; [exact I3|].
    cbn [heads_at flat_map map fst snd].
    rewrite !app_length, seq_length. cbn [length].
    replace (c + (k + 1 + length (flat_map (fun h => fst h ++ [snd h]) (heads_at (c + k + 1) ks))))
      with (c + k + 1 + length (flat_map (fun h => fst h ++ [snd h]) (heads_at (c + k + 1) ks))) by lia.
    rewrite <- app_assoc in B3. cbn [app] in B3.
    eapply binv_ext; [|exact B3]. intros a b. cbn beta. split.
    + intros [[[X|X]|(-> & ->)]|(h & Hh & X)]; auto.
      * right. exists (seq c k, c + k). split; [now left|]. cbn [fst snd]. apply (proj2 (hop_snoc (0 :: seq c k) _ _ _)). auto.
      * right. exists (seq c k, c + k). split; [now left|]. cbn [fst snd]. apply (proj2 (hop_snoc (0 :: seq c k) _ _ _)).
        right. split; [|reflexivity]. destruct k as [|k]; [lia|]. exists (0 :: seq c k). rewrite head_path. f_equal. f_equal. lia.
      * right. exists h. split; [now right|exact X].
    + intros [X|(h & [<-|Hh] & X)]; auto.
      * cbn [fst snd] in X. apply (proj1 (hop_snoc (0 :: seq c k) _ _ _)) in X. destruct X as [X|((q & Eq) & ->)]; auto.
        left. right. split; [|reflexivity]. rewrite (head_last _ _ _ _ Eq). destruct (Nat.eqb_spec k 0); lia.
      * right. eauto.
Qed.

Lemma heads_seq : forall ks c, flat_map (fun h => fst h ++ [snd h]) (heads_at c ks)
  = seq c (length (flat_map (fun h => fst h ++ [snd h]) (heads_at c ks))).
Proof.
  induction ks as [|k ks IH]; intros c; [reflexivity|]. cbn [heads_at flat_map fst snd].
  rewrite !app_length, seq_length. cbn [length]. rewrite (IH (c + k + 1)) at 1.
  rewrite seq_app, seq_app. cbn [seq]. replace (c + (k + 1)) with (c + k + 1) by lia. reflexivity.
Qed.

Theorem c73_built : forall ks, ks <> [] -> Forall (fun k => 1 <= k) ks ->
  exists g, gbuild (heads_build ks) = Ok g /\ star g 0 (heads_at 1 ks).
Proof.
  intros ks HN HK.
  assert (B0 : binv (add_node graph_new) 1 (fun _ _ => False) []).
  { constructor; cbn; unfold no_edges; intros; try tauto; try lia. }
  destruct (heads_inv ks 1 (add_node graph_new) _ [] B0) as (g & E & I & B); [lia|exact HK|tauto|].
  exists g. assert (EG : gbuild (heads_build ks) = Ok g) by exact E. split; [exact EG|].
  destruct (c34_built_models _ _ EG) as (_ & F2 & F3 & _).
  constructor; auto.
  - rewrite (bi_l _ _ _ _ B). reflexivity.
  - rewrite heads_seq. change (NoDup (seq 0 (S (length (flat_map (fun h => fst h ++ [snd h]) (heads_at 1 ks)))))). apply seq_NoDup.
  - intros a b. rewrite (bi_t _ _ _ _ B). split; [intros [[]|X]; exact X|auto].
  - intros a b. rewrite (bi_b _ _ _ _ B). split; [intros [[]|X]; exact X|auto].
Qed.
End Build.
Print Assumptions c73_built.

(** *** Branching further down *)
(** Four 1x1 dense layers with weight 1: the second feeds the third and the fourth, each with a loss. *)
Definition fork_calls : list gop :=
  [GLayer; GLayer; GEdge 0 1; GLayer; GEdge 1 2; GLayer; GEdge 1 3; GLoss; GLossEdge 2 4; GLoss; GLossEdge 3 5]%nat.
Definition fork_unit : layer R := mkLayer KDense 1 [1] [0] [0] [0] [0] [0].
Definition fork_model (g : dlgraph) (l : layer R) : model (node R) :=
  mkModel g (map (fun s => (s, SNull)) [NL l; NL fork_unit; NL fork_unit; NL fork_unit; NO (MSE 1) (loss_new 1 1); NO (MSE 1) (loss_new 1 1)]).

(** The step adds 2 where the derivative of the sum of the losses is 4: the second layer's
    input gradient is that of one branch only. *)
Theorem c73_step_refuted : exists g m' l0' q, gbuild fork_calls = Ok g /\
  tree_shaped g /\ branch g [0; 1; 2]%nat /\ branch g [0; 1; 3]%nat /\
  m_step (node_ops (fun _ => 0)) (fork_model g fork_unit) [1] [0] = Ok m' /\
  nth_error (mnodes m') 0 = Some (NL l0', q) /\
  derivable_pt_lim (fun s =>
    factor (MSE 1) 1 (loss_new 1 1) * loss_value (MSE 1) [0] (net_value [with_weight fork_unit 0 s; fork_unit; fork_unit] [1]) +
    factor (MSE 1) 1 (loss_new 1 1) * loss_value (MSE 1) [0] (net_value [with_weight fork_unit 0 s; fork_unit; fork_unit] [1])) 0 4 /\
  nth 0 (wgrad l0') 0 = nth 0 (wgrad fork_unit) 0 + 2.
Proof.
  assert (X : match gbuild fork_calls with
    | Ok g => match m_step (node_ops (fun _ => 0)) (fork_model g fork_unit) [1] [0] with
      | Ok m' => match nth_error (mnodes m') 0 with Some (NL l, _) => nth 0 (wgrad l) 0 = 0 + 2 | _ => False end
      | _ => False end
    | _ => False end).
  { cbv -[Rplus Rmult Rdiv Rinv Rminus Ropp IZR pow Rltb]. field. }
  assert (Y : match gbuild fork_calls with
    | Ok g => (forall a, fgraph g a = match a with 0 => [1] | 1 => [2; 3] | _ => [] end)%nat /\ inputs g = [0%nat] /\ outputs g = [2; 3]%nat
    | _ => False end).
  { cbv. split; [|split; reflexivity]. intros [|[|[|[|a]]]]; reflexivity. }
  destruct (gbuild fork_calls) as [g| |] eqn:EG; try contradiction.
  destruct (m_step (node_ops (fun _ => 0)) (fork_model g fork_unit) [1] [0]) as [m'| |] eqn:ES; try contradiction.
  destruct (nth_error (mnodes m') 0) as [([l|d|kd lo], q)|] eqn:EN; try contradiction.
  destruct (c34_built_models _ _ EG) as (F1 & _ & _ & F4 & _).
  destruct Y as (YF & YI & YO).
  assert (BR : forall z, In z [2; 3]%nat -> branch g [0; 1; z]%nat).
  { intros z Hz. split; [exists 0%nat, [1%nat; z]; split; [reflexivity|rewrite YI; now left]|].
    intros a b H. rewrite YF. apply hop_cons in H. destruct H as [(-> & r & E)|H]; [injection E as <- _; now left|].
    apply hop_cons in H. destruct H as [(-> & r & E)|H]; [injection E as <- _; exact Hz|].
    apply hop_cons in H. destruct H as [(_ & r & E)|H]; [discriminate|destruct (hop_nil _ _ H)]. }
  exists g, m', l, q. split; [reflexivity|]. split.
  { constructor; auto.
    - intros a a' b. rewrite !YF. destruct a as [|[|a]], a' as [|[|a']]; cbn; intros; intuition congruence.
    - intros i a. rewrite YI, YF. intros [<-|[]]. destruct a as [|[|a]]; cbn; intuition congruence. }
  split; [apply BR; now left|]. split; [apply BR; right; now left|].
  split; [exact ES|]. split; [exact EN|]. split; [|exact X].
  assert (L : forall s, (1 + s) ^ 2 + (1 + s) ^ 2 =
    factor (MSE 1) 1 (loss_new 1 1) * loss_value (MSE 1) [0] (net_value [with_weight fork_unit 0 s; fork_unit; fork_unit] [1]) +
    factor (MSE 1) 1 (loss_new 1 1) * loss_value (MSE 1) [0] (net_value [with_weight fork_unit 0 s; fork_unit; fork_unit] [1])).
  { intros s. cbv -[Rplus Rmult Rdiv Rinv Rminus Ropp IZR pow]. field. }
  eapply derivable_pt_lim_ext; [exact L|].
  assert (D : derivable_pt_lim (fun s => (1 + s) ^ 2) 0 2).
  { eapply dlim_eq; [apply (dlim_comp (fun z => 1 + z) (fun u => u ^ 2)); [|apply derivable_pt_lim_pow]|].
    - apply (dlim_plus (fun _ => 1) (fun z => z)); [apply dlim_const|apply dlim_id].
    - simpl. ring. }
  eapply dlim_eq; [apply (dlim_plus (fun s => (1 + s) ^ 2) (fun s => (1 + s) ^ 2)); exact D|lra].
Qed.
Print Assumptions c73_step_refuted.

(** *** The hypotheses can be met *)
(** A 2->2 dense layer feeding a dense layer with a squared error, and a dense layer and a
    sigmoid with another. *)
Definition mh_first : layer R := mkLayer KDense 2 [1; 0; 0; 1] [0; 0] [0; 0; 0; 0] [0; 0] [0; 0] [0; 0].
Definition mh_dense : layer R := mkLayer KDense 2 [1; 1] [0] [0; 0] [0] [0] [0; 0].
Definition mh_sigm : layer R := mkLayer (KAct Sigmoid) 1 [] [] [] [] [0] [0].
Definition mh_model (g : dlgraph) : model (node R) :=
  mkModel g (map (fun s => (s, SNull)) [NL mh_first; NL mh_dense; NO (MSE 1) (loss_new 1 1); NL mh_dense; NL mh_sigm; NO (MSE 1) (loss_new 1 1)]).
Definition mh_heads : list lhead :=
  [mkLhead [1%nat] [mh_dense] 2 (MSE 1) (loss_new 1 1); mkLhead [3; 4]%nat [mh_dense; mh_sigm] 5 (MSE 1) (loss_new 1 1)].
Example c73_hypotheses_met : exists g, gbuild (heads_build [1; 2]%nat) = Ok g /\
  multihead (mh_model g) 0 mh_first mh_heads 2 1 /\
  (forall h, In h mh_heads -> chain_smooth (mh_first :: lh_layers h) [1; 2] /\ loss_defined (lh_kind h) [0] (head_value mh_first h [1; 2])).
Proof.
  destruct (c73_built [1; 2]%nat) as (g & EG & ST); [discriminate|repeat constructor|].
  exists g. split; [exact EG|]. split.
  - constructor.
    + exact ST.
    + discriminate.
    + exists SNull. reflexivity.
    + intros h [<-|[<-|[]]]; cbn [lh_ids lh_layers]; repeat constructor; eexists; reflexivity.
    + intros h [<-|[<-|[]]]; cbn [lh_loss]; eexists; reflexivity.
    + intros h [<-|[<-|[]]]; (split; [|split; reflexivity]).
      * exists 2%nat. split; [repeat split|]. exists 1%nat. split; [repeat split|]. reflexivity.
      * exists 2%nat. split; [repeat split|]. exists 1%nat. split; [repeat split|]. exists 1%nat. split; [repeat split; discriminate|]. reflexivity.
  - intros h [<-|[<-|[]]]; repeat split; cbn; auto.
Qed.

Example c73_tree_met : exists g, gbuild fork_calls = Ok g /\ sized_tree (fork_model g fork_unit) (fun _ => 1%nat) (fun _ => 1%nat) 1 /\
  branch g [0; 1; 2]%nat /\ states_on (fork_model g fork_unit) [0; 1; 2]%nat (map NL [fork_unit; fork_unit; fork_unit]) /\
  exists r, outputs g = 2%nat :: r.
Proof.
  destruct c73_step_refuted as (g & m' & l0' & q & EG & TS & B2 & _). exists g. split; [exact EG|].
  assert (Y : match gbuild fork_calls with
    | Ok g => (forall a, fgraph g a = match a with 0 => [1] | 1 => [2; 3] | _ => [] end)%nat /\ inputs g = [0%nat] /\ outputs g = [2; 3]%nat
    | _ => False end).
  { cbv. split; [|split; reflexivity]. intros [|[|[|[|a]]]]; reflexivity. }
  rewrite EG in Y. destruct Y as (YF & YI & YO). split.
  - constructor; cbn [fork_model mgraph].
    + exact TS.
    + rewrite YO. discriminate.
    + intros i Hi. assert (I : (i < 4)%nat).
      { rewrite YI, YO in Hi. destruct Hi as [Hi|(a & Hi)]; [cbn in Hi; lia|]. rewrite YF in Hi.
        destruct a as [|[|a]]; cbn in Hi; lia. }
      exists fork_unit, SNull. split; [|repeat split].
      destruct i as [|[|[|[|i]]]]; [reflexivity..|lia].
    + reflexivity.
    + reflexivity.
  - split; [exact B2|]. split; [repeat constructor; eexists; reflexivity|]. rewrite YO. eauto.
Qed.
