(** What a training step adds to the gradients, and parallel batches. *)
From Verif Require Import Base Num MathModel MathProofs LayerModel LossModel OptModel OptProofs GraphModel GraphProofs ModelModel NodeModel ChainProofs ModelProofs PropGraph PropModel TrainProofs CopyModel PropCopy FitModel.

Section Acc.
Context {T : Type} `{NumOps T} `{TransOps T} `{LimOps T}.

Definition vadd (a b : list T) : list T := tab (length a) (fun i => nadd (nth i a n0) (nth i b n0)).
Lemma vadd_app a b c d : length a = length c -> vadd (a ++ b) (c ++ d) = vadd a c ++ vadd b d.
Proof.
  intros L. unfold vadd. rewrite app_length, tab_app. f_equal.
  - apply tab_ext. intros i Hi. rewrite !app_nth1 by lia. reflexivity.
  - apply tab_ext. intros i Hi. rewrite !app_nth2 by lia. do 2 f_equal; lia.
Qed.
Lemma vadd_length a b : length (vadd a b) = length a.
Proof. apply tab_length. Qed.

(** All parameters and all gradients of a stack, flat. *)
Definition pvec (l : layer T) : list T := match knd l with KDense => wts l ++ bias l | KAct _ => [] end.
Definition gvec (l : layer T) : list T := match knd l with KDense => wgrad l ++ bgrad l | KAct _ => [] end.
Definition PV (ls : list (layer T)) : list T := flat_map pvec ls.
Definition GV (ls : list (layer T)) : list T := flat_map gvec ls.

(** Two runs of a loop that fills an array. *)
Lemma map2_into_over f (o1 o2 a b : list T) : length o1 = length o2 ->
  map2_into f o1 a b (length o1) = map2_into f o2 a b (length o2).
Proof.
  intros L. unfold map2_into.
  assert (G : forall n, n <= length o1 ->
    let r := fun o => for_ n (fun i o => x <- rd a i ;; y <- rd b i ;; wr o i (f x y)) o in
    (exists p1 p2, r o1 = Ok p1 /\ r o2 = Ok p2 /\ length p1 = length o1 /\ length p2 = length o1 /\
       forall i, i < n -> nth i p1 n0 = nth i p2 n0) \/ (r o1 = r o2 /\ forall p, r o1 <> Ok p)).
  { cbv zeta. induction n as [|n IH]; intros Hn.
    - left. exists o1, o2. cbn. repeat split; auto. intros i Hi. lia.
    - rewrite !for_S. destruct IH as [(p1 & p2 & E1 & E2 & L1 & L2 & N)|(E & N)]; [lia| |].
      + rewrite E1, E2. cbn [bind].
        destruct (rd a n) as [x| |]; cbn [bind]; [|right; split; [reflexivity|discriminate]|right; split; [reflexivity|discriminate]].
        destruct (rd b n) as [y| |]; cbn [bind]; [|right; split; [reflexivity|discriminate]|right; split; [reflexivity|discriminate]].
        rewrite !wr_ok by lia. left. exists (upd p1 n (f x y)), (upd p2 n (f x y)).
        rewrite !upd_length. repeat split; auto. intros i Hi.
        destruct (Nat.eq_dec i n) as [->|Hne].
        * rewrite !nth_upd_eq by lia. reflexivity.
        * rewrite !nth_upd_neq by auto. apply N. lia.
      + right. rewrite <- E.
        destruct (for_ n (fun i o => x <- rd a i ;; y <- rd b i ;; wr o i (f x y)) o1) as [p| |] eqn:EE.
        * exfalso. apply (N p). reflexivity.
        * split; [reflexivity|discriminate].
        * split; [reflexivity|discriminate]. }
  destruct (G (length o1) (le_n _)) as [(p1 & p2 & E1 & E2 & L1 & L2 & N)|(E & N)].
  - rewrite <- L, E1, E2. f_equal. apply (list_ext_nth n0); [congruence|]. intros i Hi. apply N. lia.
  - rewrite <- L. exact E.
Qed.

Definition same_loss (l l' : lossl T) : Prop :=
  ls_in l' = ls_in l /\ ls_inv l' = ls_inv l /\ length (ls_grad l') = length (ls_grad l).

Lemma loss_forward_same kd (l l2 : lossl T) y : same_loss l l2 -> ls_target l2 = ls_target l ->
  exists l' l2' r, loss_forward kd l y = (l', r) /\ loss_forward kd l2 y = (l2', r) /\
    same_loss l l' /\ same_loss l2 l2' /\ ls_target l' = ls_target l /\ ls_target l2' = ls_target l2.
Proof.
  intros (S1 & S2 & S3) ET.
  assert (R : forall l, same_loss l l) by (intros; repeat split).
  assert (A : forall l v, same_loss l (LossModel.add_loss l v) /\ ls_target (LossModel.add_loss l v) = ls_target l) by (intros; repeat split).
  assert (C : forall l v b, same_loss l (count (LossModel.add_loss l v) b) /\ ls_target (count (LossModel.add_loss l v) b) = ls_target l) by (intros; repeat split).
  destruct kd as [|tol]; cbn [loss_forward].
  - unfold cce_forward. rewrite ET. destruct (ls_target l) as [|a tg] eqn:El.
    + exists l, l2, Throw. repeat split; auto.
    + destruct (cross_entropy (a :: tg) y (length y)) as [v| |].
      * cbv zeta. cbn [LossModel.add_loss ls_target ls_in]. rewrite S1, ET, El.
        destruct (max_and_argmax y (length y)) as [(mv, mi)| |].
        -- destruct (argactive (a :: tg) 0 (ls_in l)) as [act| |].
           ++ exists (count (LossModel.add_loss l v) (mi =? act)), (count (LossModel.add_loss l2 v) (mi =? act)), (Ok tt).
              repeat split; auto.
           ++ exists (LossModel.add_loss l v), (LossModel.add_loss l2 v), Throw. repeat split; auto.
           ++ exists (LossModel.add_loss l v), (LossModel.add_loss l2 v), UB. repeat split; auto.
        -- exists (LossModel.add_loss l v), (LossModel.add_loss l2 v), Throw. repeat split; auto.
        -- exists (LossModel.add_loss l v), (LossModel.add_loss l2 v), UB. repeat split; auto.
      * exists l, l2, Throw. repeat split; auto.
      * exists l, l2, UB. repeat split; auto.
  - unfold mse_forward. rewrite ET. destruct (ls_target l) as [|a tg] eqn:El.
    + exists l, l2, Throw. repeat split; auto.
    + destruct (mean_squared_error (a :: tg) y (length y)) as [v| |].
      * eexists _, _, (Ok tt). repeat split; auto.
      * exists l, l2, Throw. repeat split; auto.
      * exists l, l2, UB. repeat split; auto.
Qed.
Lemma loss_backward_same kd (l l2 : lossl T) y : same_loss l l2 -> ls_target l2 = ls_target l ->
  loss_backward kd l2 y = loss_backward kd l y.
Proof.
  intros (S1 & S2 & S3) ET. destruct kd; cbn [loss_backward];
    unfold cce_backward, mse_backward, cross_entropy_1_arr, mean_squared_error_1; rewrite ET, S2;
    symmetry; apply map2_into_over; auto.
Qed.

Lemma act_backward_over a (o i1 i2 g : list T) : length i1 = length i2 -> length i1 <= length o -> length i1 <= length g ->
  act_backward a o i1 g = act_backward a o i2 g.
Proof.
  intros L L1 L2. unfold act_backward. rewrite <- L.
  assert (M : forall f s, length i1 <= length s -> map_into f i1 s (length i1) = map_into f i2 s (length i1)).
  { intros f s Hs. rewrite !(map_into_spec n0) by lia. rewrite !skipn_all2 by lia. reflexivity. }
  destruct a; rewrite ?M by auto; auto.
  rewrite !(softmax_1_opt_spec n0) by lia. rewrite !skipn_all2 by lia. reflexivity.
Qed.

(** What the backward pass of a layer adds depends on its parameters, its output, its input
    and the incoming gradient only. *)
Lemma layer_backward_val l n k last g : lshape l n k -> length last = n -> length g = k ->
  exists D gx, forall l2, lshape l2 n k -> same_params l l2 -> out l2 = out l ->
    exists l2', layer_backward l2 last g = Ok l2' /\ same_params l2 l2' /\ lshape l2' n k /\ out l2' = out l2 /\
      ig l2' = gx /\ gvec l2' = vadd (gvec l2) D /\ length D = length (gvec l2).
Proof.
  intros (S1 & S2 & S3 & S4) Hl Hg. destruct (knd l) as [|a] eqn:K.
  - destruct S4 as (A1 & A2 & A3 & A4).
    exists (tab (k * n) (fun p => nmul (nth (p / n) g n0) (nth (p mod n) last n0)) ++ g).
    exists (tab n (fun p => nsum k (fun i => nmul (nth i g n0) (nth (i * n + p) (wts l) n0)))).
    intros l2 (T1 & T2 & T3 & T4) (P1 & P2 & P3 & P4) EO. rewrite P1, K in T4. destruct T4 as (B1 & B2 & B3 & B4).
    unfold layer_backward. rewrite P1, K.
    destruct (dense_1_spec n0 (ig l2) (wgrad l2) (bgrad l2) g last (wts l2) n k)
      as (i' & wg' & bg' & E & L1 & L2 & L3 & Q1 & Q2 & Q3 & Q4); try lia.
    rewrite T1, Hg, E. cbn [bind]. eexists. split; [reflexivity|].
    split; [repeat split; cbn; congruence|].
    split; [unfold lshape; cbn [insz ig out knd wts wgrad bias bgrad]; rewrite ?P1, ?K; repeat split; congruence|].
    split; [reflexivity|]. cbn [ig]. split; [|].
    { apply (list_ext_nth n0); [rewrite tab_length; congruence|]. intros p Hp. rewrite Q1.
      rewrite L1, T2 in Hp. rewrite nth_tab by exact Hp. destruct (Nat.ltb_spec p n); [|lia].
      now rewrite P3. }
    unfold gvec. cbn [knd wgrad bgrad]. rewrite P1, K. split.
    + rewrite vadd_app by (rewrite tab_length; congruence). f_equal.
      * unfold vadd. apply (list_ext_nth n0); [rewrite tab_length; congruence|]. intros p Hp.
        rewrite L2, B2 in Hp. rewrite nth_tab by congruence. rewrite nth_tab by exact Hp.
        assert (Hn : n <> 0) by (intros ->; lia).
        pose proof (Nat.div_mod p n Hn) as DM.
        pose proof (Nat.mod_upper_bound p n Hn).
        assert (p / n < k) by (apply Nat.div_lt_upper_bound; lia).
        replace (nth p wg' n0) with (nth (p / n * n + p mod n) wg' n0) by (f_equal; lia).
        rewrite Q2 by auto. f_equal. f_equal. lia.
      * unfold vadd. apply (list_ext_nth n0); [rewrite tab_length; congruence|]. intros p Hp.
        rewrite L3, B4 in Hp. rewrite nth_tab by congruence. rewrite Q4.
        destruct (Nat.ltb_spec p k); [reflexivity|lia].
    + rewrite !app_length, tab_length. congruence.
  - destruct S4 as (-> & A2).
    assert (G : exists gx, act_backward a (out l) (ig l) g = Ok gx /\ length gx = n).
    { destruct (layer_backward_shape l n n last g) as (l' & E & _ & (U1 & U2 & _) & _); auto.
      - unfold lshape. rewrite K. auto.
      - unfold layer_backward in E. rewrite K in E.
        destruct (act_backward a (out l) (ig l) g) as [gx| |]; try discriminate.
        injection E as <-. exists gx. auto. }
    destruct G as (gx & EG & LG). exists [], gx.
    intros l2 (T1 & T2 & T3 & T4) (P1 & P2 & P3 & P4) EO. rewrite P1, K in T4.
    unfold layer_backward. rewrite P1, K. rewrite EO.
    rewrite (act_backward_over a (out l) (ig l2) (ig l) g) by lia. rewrite EG. cbn [bind].
    eexists. split; [reflexivity|]. split; [repeat split; auto|].
    split; [unfold lshape, set_ig; cbn; rewrite P1, K; auto|]. split; [exact EO|]. split; [reflexivity|].
    unfold gvec, set_ig. cbn [knd]. rewrite P1, K. auto.
Qed.

Lemma chain_forward_outs ls : forall n m x, nshape ls n m -> length x = n ->
  exists y outs, length y = m /\ forall ls2, Forall2 same_params ls ls2 -> nshape ls2 n m ->
    exists ls2', chain_forward ls2 x = Ok (ls2', y) /\ Forall2 same_params ls2 ls2' /\ nshape ls2' n m /\
      map out ls2' = outs /\ GV ls2' = GV ls2.
Proof.
  induction ls as [|l ls IH]; intros n m x HS Hx.
  - cbn in HS. subst m. exists x, []. split; [exact Hx|]. intros ls2 HF HS2. inversion HF; subst.
    exists []. cbn. auto 10.
  - destruct HS as (k & HL & HS). destruct (layer_forward_val l n k x HL Hx) as (y1 & Ly1 & F1).
    destruct (IH k m y1 HS Ly1) as (y & outs & Ly & F). exists y, (y1 :: outs). split; [exact Ly|].
    intros ls2 HF HS2. destruct ls2 as [|l2 tl2]; [inversion HF|].
    assert (P12 : same_params l l2 /\ Forall2 same_params ls tl2) by (inversion HF; auto).
    destruct P12 as (P1 & P2).
    destruct HS2 as (k2 & HL2 & HS2).
    assert (k2 = k).
    { destruct HL as (_ & A2 & A3 & A4), HL2 as (_ & B2 & B3 & B4), P1 as (Q1 & Q2 & Q3 & Q4).
      rewrite Q1 in B4. destruct (knd l).
      - destruct A4 as (_ & _ & A5 & _), B4 as (_ & _ & B5 & _). congruence.
      - destruct A4, B4. congruence. }
    subst k2. cbn [chain_forward]. rewrite (F1 l2 HL2 P1). cbn [bind set_out out].
    destruct (F tl2 P2 HS2) as (tl2' & E & P3 & HS3 & EO & EG). rewrite E. cbn [bind].
    eexists. split; [reflexivity|]. split; [constructor; [repeat split|exact P3]|]. split; [|split].
    + exists k. split; [|exact HS3]. apply lshape_set_out; auto.
    + cbn [map set_out out]. now rewrite EO.
    + unfold GV in *. cbn [flat_map]. rewrite EG. reflexivity.
Qed.

Lemma chain_backward_val ls : forall n m x g, nshape ls n m -> length x = n -> length g = m ->
  exists D gx, length gx = n /\ forall ls2, Forall2 same_params ls ls2 -> nshape ls2 n m -> map out ls2 = map out ls ->
    exists ls2', chain_backward ls2 x g = Ok (ls2', gx) /\ Forall2 same_params ls2 ls2' /\ nshape ls2' n m /\
      GV ls2' = vadd (GV ls2) D /\ length D = length (GV ls2).
Proof.
  induction ls as [|l ls IH]; intros n m x g HS Hx Hg.
  - cbn in HS. subst m. exists [], g. split; [exact Hg|]. intros ls2 HF HS2 HO. inversion HF; subst.
    exists []. cbn. auto 10.
  - destruct HS as (k & HL & HS).
    destruct (IH k m (out l) g HS) as (D2 & g2 & Lg2 & F2); [apply HL|exact Hg|].
    destruct (layer_backward_val l n k x g2 HL Hx Lg2) as (D1 & g1 & F1).
    exists (D1 ++ D2), g1. split.
    { destruct (F1 l HL (same_params_refl l) eq_refl) as (l' & _ & _ & (_ & X & _) & _ & <- & _). exact X. }
    intros ls2 HF HS2 HO. destruct ls2 as [|l2 tl2]; [inversion HF|].
    assert (P12 : same_params l l2 /\ Forall2 same_params ls tl2) by (inversion HF; auto).
    destruct P12 as (P1 & P2). injection HO as HO1 HO2.
    destruct HS2 as (k2 & HL2 & HS2).
    assert (k2 = k) by (destruct HL as (_ & _ & A & _), HL2 as (_ & _ & B & _); congruence).
    subst k2. cbn [chain_backward]. rewrite HO1.
    destruct (F2 tl2 P2 HS2 HO2) as (tl2' & E2 & P3 & S3 & V3 & L3). rewrite E2. cbn [bind].
    destruct (F1 l2 HL2 P1 HO1) as (l2' & E1 & P4 & S4 & O4 & I4 & V4 & L4). rewrite E1. cbn [bind]. rewrite I4.
    eexists. split; [reflexivity|]. split; [constructor; auto|]. split; [exists k; auto|].
    unfold GV in *. cbn [flat_map]. split.
    + rewrite V3, V4, vadd_app by congruence. reflexivity.
    + rewrite !app_length. congruence.
Qed.

(** The gradient of one training example: what a step adds, for all networks with these
    parameters. *)
Definition adds (ls : list (layer T)) (kd : losskind T) (lo : lossl T) (n k : nat) (draw : nat -> T)
    (xt : list T * list T) (D : list T) : Prop :=
  length (fst xt) = n /\
  forall m2 ls2 lo2, network m2 ls2 kd lo2 n k -> Forall2 same_params ls ls2 -> same_loss lo lo2 ->
    exists m2' ls2' lo2', m_step (node_ops draw) m2 (fst xt) (snd xt) = Ok m2' /\ network m2' ls2' kd lo2' n k /\
      Forall2 same_params ls2 ls2' /\ same_loss lo2 lo2' /\
      GV ls2' = vadd (GV ls2) D /\ length D = length (GV ls2).

Lemma same_loss_refl (l : lossl T) : same_loss l l.
Proof. repeat split. Qed.
Lemma same_loss_trans (a b c : lossl T) : same_loss a b -> same_loss b c -> same_loss a c.
Proof. intros (A1 & A2 & A3) (B1 & B2 & B3). repeat split; congruence. Qed.

Lemma step_adds draw m ls kd lo n k x t m' : network m ls kd lo n k -> length x = n ->
  m_step (node_ops draw) m x t = Ok m' -> exists D, adds ls kd lo n k draw (x, t) D.
Proof.
  intros W Hx E. unfold adds. cbn [fst snd].
  destruct (chain_forward_outs ls n k x (nw_shape _ _ _ _ _ _ W) Hx) as (y & outs & Ly & F).
  destruct (F ls (all_same_refl ls) (nw_shape _ _ _ _ _ _ W)) as (ls1 & E1 & P1 & S1 & O1 & G1).
  rewrite (c36_step _ _ _ _ draw m ls kd lo n k x t W) in E. rewrite E1 in E. cbn [bind] in E.
  destruct (loss_forward_same kd (set_target lo t) (set_target lo t) y (same_loss_refl _) eq_refl)
    as (lo1 & lo1' & r & EL & _ & SL & _ & TL & _).
  rewrite EL in E. destruct r as [[]| |]; try discriminate. cbn [bind] in E.
  destruct (loss_backward kd lo1 y) as [g| |] eqn:EB; try discriminate. cbn [bind] in E.
  assert (Lg : length g = k).
  { rewrite (loss_backward_len _ _ _ _ EB). destruct SL as (_ & _ & ->). cbn. apply W. }
  destruct (chain_backward_val ls1 n k x g S1 Hx Lg) as (D & gx & Lgx & FB).
  exists D. split; [exact Hx|]. intros m2 ls2 lo2 W2 P2 S2.
  rewrite (c36_step _ _ _ _ draw m2 ls2 kd lo2 n k x t W2).
  destruct (F ls2 P2 (nw_shape _ _ _ _ _ _ W2)) as (ls3 & E3 & P3 & S3 & O3 & G3).
  rewrite E3. cbn [bind].
  destruct (loss_forward_same kd (set_target lo t) (set_target lo2 t) y) as (l1 & l3 & r & EL1 & EL3 & SL1 & SL3 & TL1 & TL3).
  { destruct S2 as (A & B & C). repeat split; auto. }
  { reflexivity. }
  rewrite EL in EL1. injection EL1 as <- <-. rewrite EL3. cbn [bind].
  rewrite (loss_backward_same kd lo1 l3 y), EB.
  2:{ eapply same_loss_trans; [|exact SL3]. destruct SL as (A1 & A2 & A3), S2 as (B1 & B2 & B3).
      cbn in *. repeat split; cbn; congruence. }
  2:{ rewrite TL, TL3. reflexivity. }
  cbn [bind].
  assert (P13 : Forall2 same_params ls1 ls3).
  { eapply all_same_trans; [|exact P3]. eapply all_same_trans; [|exact P2].
    clear - P1. induction P1 as [|a b la lb (A & B & C & D) P IH]; constructor; auto.
    repeat split; congruence. }
  destruct (FB ls3 P13 S3) as (ls4 & E4 & P4 & S4 & V4 & L4); [congruence|].
  rewrite E4. cbn [bind]. eexists _, ls4, (set_grad l3 g). split; [reflexivity|].
  pose proof (all_same_trans _ _ _ P3 P4) as P24. pose proof (Forall2_len _ _ _ P24) as LL.
  split; [|split; [exact P24|split; [|split; [rewrite V4; congruence|congruence]]]].
  - constructor; cbn [mgraph mnodes]; rewrite ?LL; try apply W2; auto. apply place_fst.
  - destruct SL3 as (A1 & A2 & A3). repeat split; cbn in *; auto.
    rewrite Lg. symmetry. apply W2.
Qed.
End Acc.

Section Batch.
Context {T : Type} `{NumOps T} `{TransOps T} `{LimOps T}.
Variables (g : dlgraph) (kd : losskind T) (lo : lossl T) (n k : nat) (sg : list (kind T * nat * nat)).
Hypothesis HG : graph_copy g = g.
Variable draw : nat -> T.

(** Layers holding the shared parameters. *)
Definition ref (sh : list (list T * list T)) (ls : list (layer T)) : Prop :=
  sh = map params ls ++ [([], [])] /\ nshape ls n k /\ map sig ls = sg.

(** A model of the world with accumulated gradients [G]. *)
Definition gm (sh : list (list T * list T)) (m : model (node T)) (G : list T) : Prop :=
  mgraph m = g /\ length (mnodes m) = length sh /\
  exists ls lo', network (view sh m) ls kd lo' n k /\ ref sh ls /\ same_loss lo lo' /\ GV ls = G.

Lemma ref_same sh ls ls' : ref sh ls -> ref sh ls' -> Forall2 same_params ls ls'.
Proof.
  intros (A1 & A2 & A3) (B1 & B2 & B3). apply sigs_params_same; [congruence|].
  rewrite A1 in B1. apply app_inj_tail in B1. symmetry. tauto.
Qed.

Lemma keys_length (ns ns' : list (node T * source)) : keys ns' = keys ns -> length ns' = length ns.
Proof. unfold keys. intros E. apply (f_equal (@length _)) in E. now rewrite !map_length in E. Qed.
Lemma view_length sh (m : model (node T)) : length (mnodes m) = length sh -> length (mnodes (view sh m)) = length sh.
Proof. intros E. unfold view. cbn [mnodes]. rewrite map_length, combine_length. lia. Qed.

Lemma step_gm ls xt D sh m G : ref sh ls -> adds ls kd lo n k draw xt D -> gm sh m G ->
  exists m', m_step (node_ops draw) (view sh m) (fst xt) (snd xt) = Ok m' /\ shared_of m' = sh /\ gm sh m' (vadd G D) /\
    length D = length G.
Proof.
  intros R (Hx & A) (Eg & EL & l2 & lo2 & W & R2 & SL & EG).
  destruct (A (view sh m) l2 lo2 W (ref_same _ _ _ R R2) SL) as (m' & l3 & lo3 & E & W3 & P3 & SL3 & V & LD).
  exists m'. pose proof (step_keys draw _ _ _ _ E) as (K & G').
  assert (ES : shared_of m' = sh).
  { rewrite (keys_shared _ _ K), (network_shared _ _ _ _ _ _ W). symmetry. apply R2. }
  split; [exact E|]. split; [exact ES|]. split; [|congruence].
  split; [rewrite G'; exact Eg|]. split; [rewrite (keys_length _ _ K); now apply view_length|].
  exists l3, lo3. assert (EV : view sh m' = m') by (rewrite <- ES; apply view_shared). rewrite EV. split; [exact W3|].
  assert (S3 : map sig l3 = map sig l2) by (eapply sig_same; [apply W|apply W3|exact P3]).
  split; [|split; [eapply same_loss_trans; eauto|congruence]].
  destruct R2 as (R21 & R22 & R23). split; [|split; [apply W3|congruence]].
  rewrite <- ES. apply (network_shared _ _ _ _ _ _ W3).
Qed.

Lemma upd_same_error {A} (l : list A) c x : nth_error l c = Some x -> upd l c x = l.
Proof. revert c. induction l as [|a l IH]; intros [|c] E; try discriminate; cbn in *; [congruence|]. f_equal. auto. Qed.

Lemma steps_gm ls c : forall rows Ds sh ms m G, ref sh ls -> Forall2 (adds ls kd lo n k draw) rows Ds ->
  nth_error ms c = Some m -> gm sh m G ->
  exists m', wsteps draw (map (fun xt => WStep c (fst xt) (snd xt)) rows) (mkWorld sh ms) = Ok (mkWorld sh (upd ms c m')) /\
    gm sh m' (fold_left vadd Ds G) /\ Forall (fun D => length D = length G) Ds.
Proof.
  intros rows. induction rows as [|xt rows IH]; intros Ds sh ms m G R HF Em Gm.
  - inversion HF; subst. exists m. rewrite (upd_same_error _ _ _ Em). cbn. auto.
  - destruct Ds as [|D Ds]; [inversion HF|].
    assert (HF' : adds ls kd lo n k draw xt D /\ Forall2 (adds ls kd lo n k draw) rows Ds) by (inversion HF; auto).
    destruct HF' as (A & HF').
    destruct (step_gm ls xt D sh m G R A Gm) as (m1 & E1 & ES & Gm1 & LD).
    assert (Lc : c < length ms) by (apply nth_error_Some; congruence).
    destruct (IH Ds sh (upd ms c m1) m1 (vadd G D) R HF') as (m' & E2 & Gm2 & FD).
    { rewrite nth_error_upd, Nat.eqb_refl by exact Lc. reflexivity. }
    { exact Gm1. }
    exists m'. unfold wsteps in *. cbn [map foldM]. cbn [wstep]. unfold on_copy, rd, wr. cbn [w_models w_shared].
    rewrite Em. cbn [bind]. rewrite E1. cbn [bind].
    destruct (Nat.ltb_spec c (length ms)); [|lia]. cbn [bind]. rewrite ES, E2, upd_upd.
    split; [reflexivity|]. cbn [fold_left]. split; [exact Gm2|]. constructor; [exact LD|].
    eapply Forall_impl; [|exact FD]. intros D' HD'. cbn beta in HD'. now rewrite vadd_length in HD'.
Qed.

Lemma reset_gm sh m G : gm sh m G ->
  exists m', m_reset_score (view sh m) = Ok m' /\ shared_of m' = sh /\ gm sh m' G.
Proof.
  intros (Eg & EL & l2 & lo2 & W & R2 & SL & EG).
  unfold m_reset_score. rewrite (ic_losses _ _ _ (nw_graph _ _ _ _ _ _ W)). cbn [foldM].
  pose proof (nw_nodes _ _ _ _ _ _ W) as E0.
  destruct (exists_last (l := mnodes (view sh m))) as (rest & (q, lp) & EN).
  { intros Hn. rewrite Hn in E0. destruct l2; discriminate. }
  rewrite EN, map_app in E0. cbn [map fst] in E0. apply app_inj_tail in E0. destruct E0 as (E1 & ->).
  assert (LL : length rest = length l2) by (apply (f_equal (@length _)) in E1; rewrite !map_length in E1; exact E1).
  rewrite EN, (rd_app_mid rest _ [] _ LL). cbn [bind].
  rewrite (wr_app_mid rest _ _ [] _ LL). cbn [bind].
  eexists. split; [reflexivity|].
  assert (ES : shared_of (mkModel (mgraph (view sh m)) (rest ++ [(NO kd (reset_score lo2), lp)])) = sh).
  { unfold shared_of. cbn [mnodes]. rewrite <- (map_map fst shared_part), map_app, E1. cbn [map fst].
    rewrite map_app, map_map. cbn [map shared_part]. symmetry. apply R2. }
  split; [exact ES|]. split; [exact Eg|]. cbn [mnodes]. split.
  { pose proof (view_length sh m EL) as VL. rewrite EN in VL. rewrite app_length in *. exact VL. }
  exists l2, (reset_score lo2).
  assert (EV : view sh (mkModel (mgraph (view sh m)) (rest ++ [(NO kd (reset_score lo2), lp)]))
    = mkModel (mgraph (view sh m)) (rest ++ [(NO kd (reset_score lo2), lp)])) by (rewrite <- ES at 1; apply view_shared).
  rewrite EV. split; [|split; [exact R2|split; [exact SL|exact EG]]].
  constructor; cbn [mgraph mnodes]; try apply W. rewrite map_app, E1. reflexivity.
Qed.

(** Changing the shared parameters. *)
Lemma gm_shared sh sh' ls' m G : gm sh m G -> ref sh' ls' -> length sh' = length sh -> gm sh' m G.
Proof.
  intros (Eg & EL & l2 & lo2 & W & R2 & SL & EG) R' LS. split; [exact Eg|]. split; [congruence|].
  destruct R2 as (R21 & R22 & R23), R' as (R'1 & R'2 & R'3).
  destruct (network_view _ l2 kd lo2 n k ls' W R'2) as (l3 & W3 & S3 & P3); [congruence|].
  exists l3, lo2. rewrite R'1. rewrite view_view in W3 by congruence.
  split; [exact W3|]. split; [split; [now rewrite P3|split; [apply W3|congruence]]|]. split; [exact SL|].
  rewrite <- EG. clear - W W3 R'1 EL LS.
  pose proof (nw_nodes _ _ _ _ _ _ W) as E2. pose proof (nw_nodes _ _ _ _ _ _ W3) as E3.
  rewrite view_nodes in E2, E3. rewrite <- R'1 in E3.
  revert E2 E3. rewrite <- EL in LS. rewrite <- (map_length fst (mnodes m)) in LS, EL.
  generalize dependent (map fst (mnodes m)). clear. intros ns. revert sh sh' l2 l3.
  induction ns as [|s ns IH]; intros sh sh' l2 l3 LS EL E2 E3.
  - destruct l2; discriminate.
  - destruct sh as [|p sh]; [discriminate|]. destruct sh' as [|p' sh']; [discriminate|].
    cbn [combine map fst snd] in E2, E3. destruct l2 as [|l2 t2], l3 as [|l3 t3].
    + reflexivity.
    + cbn in E2, E3. injection E2 as E2 _. injection E3 as E3 _. destruct s; cbn in *; congruence.
    + cbn in E2, E3. injection E2 as E2 _. injection E3 as E3 _. destruct s; cbn in *; congruence.
    + cbn in E2, E3. injection E2 as E2 F2. injection E3 as E3 F3.
      unfold GV in *. cbn [flat_map]. f_equal; [|eapply IH; eauto].
      destruct s; cbn in E2, E3; try discriminate. injection E2 as <-. injection E3 as <-. reflexivity.
Qed.

Definition av (l : layer T) : list T * list T := match knd l with KDense => ([], []) | KAct _ => params l end.

Lemma moved_app eta a b c d : length a = length c -> moved eta (a ++ b) (c ++ d) = moved eta a c ++ moved eta b d.
Proof.
  intros L. unfold moved. rewrite app_length, tab_app. f_equal.
  - apply tab_ext. intros i Hi. rewrite !app_nth1 by lia. reflexivity.
  - apply tab_ext. intros i Hi. rewrite !app_nth2 by lia. do 2 f_equal; [|f_equal]; f_equal; lia.
Qed.
Lemma trained_pv eta ls : forall n k, nshape ls n k -> PV (map (trained eta) ls) = moved eta (PV ls) (GV ls).
Proof.
  induction ls as [|l ls IH]; intros n' k' S; [reflexivity|]. destruct S as (j & HL & S).
  unfold PV, GV in *. cbn [map flat_map]. rewrite (IH j k' S).
  assert (L : length (pvec l) = length (gvec l)).
  { destruct HL as (_ & _ & _ & HL). unfold pvec, gvec. destruct (knd l); [|reflexivity].
    destruct HL as (A & B & C & D). rewrite !app_length. congruence. }
  rewrite moved_app by exact L. f_equal. unfold pvec, gvec, trained. destruct HL as (_ & _ & _ & HL).
  destruct (knd l) eqn:K; [|rewrite K; reflexivity]. cbn [knd wts bias].
  destruct HL as (A & B & C & D). rewrite moved_app by congruence. reflexivity.
Qed.
Lemma trained_av eta ls : map av (map (trained eta) ls) = map av ls.
Proof.
  rewrite map_map. apply map_ext. intros l. unfold av, trained. destruct (knd l) eqn:K; [reflexivity|]. rewrite K. reflexivity.
Qed.
Lemma trained_gv eta ls : GV (map (trained eta) ls) = repeat n0 (length (GV ls)).
Proof.
  unfold GV. induction ls as [|l ls IH]; [reflexivity|]. cbn [map flat_map]. rewrite IH, app_length, repeat_app. f_equal.
  unfold gvec, trained. destruct (knd l) eqn:K; [|rewrite K; reflexivity]. cbn [knd wgrad bgrad].
  rewrite app_length, repeat_app. reflexivity.
Qed.

(** The parameters are determined by the flat vector. *)
Lemma recon ls : forall ls' n k, nshape ls n k -> nshape ls' n k -> map sig ls' = map sig ls ->
  PV ls' = PV ls -> map av ls' = map av ls -> map params ls' = map params ls.
Proof.
  induction ls as [|l ls IH]; intros [|l' ls'] n' k' S S' EG EP EA; try discriminate; [reflexivity|].
  destruct S as (j & HL & S), S' as (j' & HL' & S'). injection EG as G1 G2 G3 G4.
  assert (j' = j) by (destruct HL as (_ & _ & A & _), HL' as (_ & _ & B & _); congruence). subst j'.
  unfold PV in EP. cbn [flat_map map] in *.
  assert (A0 : av l' = av l /\ map av ls' = map av ls) by (split; congruence). destruct A0 as (A1 & A2).
  destruct HL as (_ & _ & _ & HL), HL' as (_ & _ & _ & HL'). rewrite G1 in HL'.
  unfold pvec at 1 3 in EP. rewrite G1 in EP. unfold av in A1. rewrite G1 in A1. unfold params at 1 3.
  destruct (knd l).
  - destruct HL as (B1 & _ & B3 & _), HL' as (C1 & _ & C3 & _). rewrite <- !app_assoc in EP.
    assert (AI : forall (a b c d : list T), length a = length c -> a ++ b = c ++ d -> a = c /\ b = d).
    { clear. induction a as [|x a IH]; intros b [|y c] d L E; try discriminate; [auto|].
      cbn in E. injection E as -> E. destruct (IH b c d) as (-> & ->); auto. }
    apply AI in EP; [|congruence]. destruct EP as (-> & EP). apply AI in EP; [|congruence]. destruct EP as (-> & EP).
    f_equal. eapply IH; eauto.
  - cbn in EP. unfold params in A1. f_equal; [exact A1|]. eapply IH; eauto.
Qed.

Lemma ref_length sh ls : ref sh ls -> length sh = S (length sg).
Proof. intros (-> & _ & <-). rewrite app_length, !map_length. cbn. lia. Qed.

Lemma train_gm eta sh ms c m G ls : ref sh ls -> nth_error ms c = Some m -> gm sh m G ->
  exists sh' m' ls', wstep draw (mkWorld sh ms) (WTrain eta c) = Ok (mkWorld sh' (upd ms c m'), None) /\
    ref sh' ls' /\ PV ls' = moved eta (PV ls) G /\ map av ls' = map av ls /\
    gm sh' m' (repeat n0 (length G)) /\ length sh' = length sh /\ length G = length (PV ls).
Proof.
  intros R Em (Eg & EL & l2 & lo2 & W & R2 & SL & EG).
  destruct (network_train eta _ l2 kd lo2 n k W) as (m' & E & G' & W').
  assert (ES : shared_of m' = map params (map (trained eta) l2) ++ [([], [])]) by apply (network_shared _ _ _ _ _ _ W').
  assert (R' : ref (shared_of m') (map (trained eta) l2)).
  { rewrite ES. split; [reflexivity|]. split; [apply W'|]. rewrite sig_trained. apply R2. }
  assert (LS : length (shared_of m') = length sh) by (rewrite (ref_length _ _ R'), (ref_length _ _ R2); reflexivity).
  exists (shared_of m'), m', (map (trained eta) l2).
  cbn [wstep]. unfold on_copy, rd, wr. cbn [w_models w_shared]. rewrite Em. cbn [bind]. rewrite E. cbn [bind].
  assert (Lc : c < length ms) by (apply nth_error_Some; congruence). apply Nat.ltb_lt in Lc. rewrite Lc.
  split; [reflexivity|]. split; [exact R'|].
  assert (PE : PV l2 = PV ls /\ map av l2 = map av ls).
  { pose proof (ref_same _ _ _ R R2) as F. clear - F. induction F as [|a b la lb (A & B & C & D) F (I1 & I2)]; [auto|].
    unfold PV in *. cbn [flat_map map]. rewrite I1, I2. unfold pvec, av, params. rewrite A, C, D. auto. }
  destruct PE as (PE & AE). rewrite <- PE, <- AE, <- EG.
  split; [apply (trained_pv eta l2 n k), W|]. split; [apply trained_av|]. split; [|split; [exact LS|]].
  - split; [rewrite G'; exact Eg|]. split; [unfold shared_of; now rewrite map_length|].
    exists (map (trained eta) l2), lo2. rewrite view_shared. split; [exact W'|]. split; [exact R'|]. split; [exact SL|].
    apply trained_gv.
  - pose proof (nw_shape _ _ _ _ _ _ W) as S. clear - S. generalize dependent n. induction l2 as [|l ls IH]; intros n' S; [reflexivity|].
    destruct S as (j & HL & S). unfold PV, GV in *. cbn [flat_map]. rewrite !app_length. f_equal; [|eapply IH; eauto].
    destruct HL as (_ & _ & _ & HL). unfold pvec, gvec. destruct (knd l); [|reflexivity].
    destruct HL as (A & B & C & D). rewrite !app_length. congruence.
Qed.

(** A task. *)
Lemma task_gm ls rows Ds sh ms m G : ref sh ls -> Forall2 (adds ls kd lo n k draw) rows Ds ->
  nth_error ms 0 = Some m -> gm sh m G ->
  exists m', run_task draw (mkWorld sh ms) rows = Ok (mkWorld sh (ms ++ [m']), length ms) /\
    gm sh m' (fold_left vadd Ds G) /\ Forall (fun D => length D = length G) Ds.
Proof.
  intros R HF Em (Eg & EL & l2 & lo2 & W & R2 & SL & EG).
  unfold run_task. cbn [wstep]. unfold rd. cbn [w_models w_shared]. rewrite Em. cbn [bind w_models].
  rewrite app_length. cbn [length]. replace (length ms + 1 - 1) with (length ms) by lia.
  destruct (steps_gm ls (length ms) rows Ds sh (ms ++ [model_copy m]) (model_copy m) G R HF) as (m' & E & Gm & FD).
  - rewrite nth_error_app2, Nat.sub_diag by lia. reflexivity.
  - split; [cbn; congruence|]. split; [cbn; rewrite map_length; exact EL|].
    exists l2, lo2. split; [|auto].
    constructor; try apply W.
    + pose proof (nw_graph _ _ _ _ _ _ W) as C. unfold model_copy, view in *. cbn [mgraph] in *. now rewrite Eg, HG, <- Eg.
    + pose proof (nw_nodes _ _ _ _ _ _ W) as C. rewrite view_nodes in *. unfold model_copy. cbn [mnodes].
      rewrite map_map. exact C.
  - exists m'. rewrite E. cbn [bind]. split; [|auto]. do 3 f_equal.
    clear. induction ms as [|a ms IH]; [reflexivity|]. cbn. now rewrite IH.
Qed.
End Batch.
