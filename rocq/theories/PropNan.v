(** C90: what NaN and infinities do to a network, its score and its training. *)
From Coq Require Import Reals Lra Lia.
From Verif Require Import Base Num MathModel MathProofs DumpModel LayerModel LossModel OptModel OptProofs GraphModel GraphProofs ModelModel NodeModel ChainProofs ModelProofs PropModel TrainProofs InitModel DynModel AdamProofs FloatModel FloatProofs FloatIeee PropFloat.
Local Open Scope nat_scope.
Existing Class fpu.
#[local] Existing Instances NumD TransD LimD.

(** *** Specification *)
Notation nans := (Forall isnan).
Definition some_nan (x : list dbl) : Prop := exists v, In v x /\ isnan v.
(** A dense layer has outputs. *)
Definition wide (ls : list (layer dbl)) : Prop := Forall (fun l => knd l = KDense -> bias l <> []) ls.
(** Kinds and widths *)
Definition shapes (ls : list (layer dbl)) : list (LayerModel.kind dbl * nat) := map (fun l => (knd l, length (bias l))) ls.
Definition params (ls : list (layer dbl)) : list dbl := flat_map layer_params ls.
Definition grads (ls : list (layer dbl)) : list dbl := flat_map layer_grads ls.

(** *** Lemmas *)
Section Nan.
Context (a : fpu).
Notation d0 := (DFin false 0).
Lemma nans_nth l i : nans l -> i < length l -> isnan (nth i l d0).
Proof. intros F Hi. rewrite Forall_forall in F. apply F, nth_In, Hi. Qed.
Lemma nth_nans l : (forall i, i < length l -> isnan (nth i l d0)) -> nans l.
Proof. intros N. apply Forall_forall. intros x I. destruct (In_nth _ _ d0 I) as (i & Hi & <-). auto. Qed.
Lemma nans_some l : nans l -> 0 < length l -> some_nan l.
Proof. destruct l as [|x l]; cbn; [lia|]. intros N _. exists x. inversion N. split; [now left|assumption]. Qed.
Lemma some_nan_at l : some_nan l -> exists i, i < length l /\ isnan (nth i l d0).
Proof. intros (x & I & N). destruct (In_nth _ _ d0 I) as (i & Hi & E). exists i. rewrite E. auto. Qed.

Lemma softmax_nan o x n : 0 < n -> length o = n -> length x = n -> some_nan x -> exists y, stable_softmax o x n = Ok y /\ length y = n /\ nans y.
Proof.
  intros Hn Lo Lx Nx. destruct (max_any a d0 x n Hn ltac:(lia)) as (m0 & Hm0 & _ & E0 & _).
  destruct (softmax_form a o x n d0 Hn Lo Lx ltac:(eauto)) as (m & Hm & Em & E). cbv zeta in E. eexists. split; [exact E|]. split; [apply tab_length|].
  destruct (some_nan_at x Nx) as (j & Hj & Nj). apply tab_forall. intros i Hi. apply nan_mul. right. apply nan_div. right. apply sum_nan. right. exists j. split; [lia|].
  apply sub_exp_nan, nan_sub. now left.
Qed.
Lemma act_nan f o x n : 0 < n -> length o = n -> length x = n -> nans x -> exists y, act_forward f o x = Ok y /\ length y = n /\ nans y.
Proof.
  intros Hn Lo Lx Nx. unfold act_forward. rewrite Lo.
  assert (P : forall h : dbl -> dbl, (forall v, isnan v -> isnan (h v)) -> exists y, map_into h o x n = Ok y /\ length y = n /\ nans y).
  { intros h Hh. rewrite (map_into_spec d0) by lia. rewrite skipn_all2, app_nil_r by lia. eexists. split; [reflexivity|]. split; [apply tab_length|].
    apply tab_forall. intros i Hi. apply Hh, nans_nth; [exact Nx|lia]. }
  destruct f.
  - apply P. intros v (s & ->). now exists s.
  - apply P. intros v (s & ->). unfold elu. change (nltb n0 (DNan s)) with false. cbv iota. apply nan_mul. right. apply nan_sub. left. now exists false.
  - apply softmax_nan; auto. apply nans_some; [exact Nx|lia].
  - apply P. intros v (s & ->). now exists false.
  - apply P. intros v (s & ->). apply nan_div. right. apply nan_add. right. now exists false.
  - exists x. auto.
Qed.
Lemma dense_nan o x w b n k : length o = k -> length w = k * n -> length b = k -> length x = n -> (some_nan x \/ nans b) ->
  exists y, dense o x w b n k = Ok y /\ length y = k /\ nans y.
Proof.
  intros Lo Lw Lb Lx N. rewrite (dense_spec d0) by lia. rewrite skipn_all2, app_nil_r by lia. eexists. split; [reflexivity|]. split; [apply tab_length|].
  apply tab_forall. intros i Hi. apply sum_nan. destruct N as [N|N]; [right|left; apply nans_nth; [exact N|lia]].
  destruct (some_nan_at x N) as (j & Hj & Nj). exists j. split; [lia|]. apply nan_mul. now right.
Qed.
Definition catches (l : layer dbl) (x : list dbl) : Prop :=
  match knd l with KDense => some_nan x \/ nans (bias l) | KAct Softmax => some_nan x | KAct _ => nans x end.
Lemma layer_nan l n k x : lshape l n k -> 0 < n -> length x = n -> catches l x -> exists y, layer_forward l x = Ok (set_out l y) /\ length y = k /\ nans y.
Proof.
  intros (S1 & S2 & S3 & S4) Hn Lx C. unfold layer_forward, catches in *. destruct (knd l) as [|f].
  - destruct S4 as (A1 & A2 & A3 & A4). destruct (dense_nan (out l) x (wts l) (bias l) n k) as (y & E & L & N); auto. rewrite Lx, S3, E. cbn [bind]. eauto.
  - destruct S4 as (-> & _). assert (G : exists y, act_forward f (out l) x = Ok y /\ length y = n /\ nans y).
    { destruct f; try (apply act_nan; auto; fail). unfold act_forward. rewrite S3. now apply softmax_nan. }
    destruct G as (y & E & L & N). rewrite E. cbn [bind]. eauto.
Qed.
Lemma lshape_wide (l : layer dbl) n k : lshape l n k -> 0 < n -> (knd l = KDense -> bias l <> []) -> 0 < k.
Proof.
  intros (S1 & S2 & S3 & S4) Hn B. destruct (knd l) as [|f]; [|lia]. destruct S4 as (_ & _ & A3 & _). specialize (B eq_refl). destruct (bias l); [congruence|cbn in A3; lia].
Qed.
Lemma nans_catch l n x : 0 < n -> length x = n -> nans x -> catches l x.
Proof. intros Hn Lx N. unfold catches. destruct (knd l) as [|[]]; auto; try left; apply nans_some; auto; lia. Qed.
Definition keeps (l l' : layer dbl) : Prop := same_params l l' /\ layer_grads l' = layer_grads l.
Lemma keeps_out l y : keeps l (set_out l y).
Proof. split; [repeat split|reflexivity]. Qed.
Lemma forward_keeps ls : forall n m x ls' y, nshape ls n m -> length x = n -> chain_forward ls x = Ok (ls', y) -> Forall2 keeps ls ls' /\ nshape ls' n m /\ length y = m.
Proof.
  induction ls as [|l ls IH]; intros n m x ls' y HS Lx E.
  - injection E as <- <-. cbn in HS. subst. repeat constructor.
  - destruct HS as (k & HL & HS). destruct (layer_forward_val l n k x HL Lx) as (z & Lz & F). cbn [chain_forward] in E.
    rewrite (F l HL (same_params_refl l)) in E. cbn [bind set_out out] in E. destruct (chain_forward ls z) as [(tl, y')| |] eqn:E2; try discriminate. cbn [bind] in E. injection E as <- <-.
    destruct (IH k m z tl y' HS Lz E2) as (K & HS' & Ly). split; [constructor; [apply keeps_out|exact K]|]. split; [|exact Ly]. exists k. split; [now apply lshape_set_out|exact HS'].
Qed.
(** A layer that catches a NaN spoils everything behind it. *)
Lemma forward_nan ls : forall n m x, nshape ls n m -> length x = n -> 0 < n -> wide ls -> nans x ->
  exists ls' y, chain_forward ls x = Ok (ls', y) /\ nans y.
Proof.
  induction ls as [|l ls IH]; intros n m x HS Lx Hn W N.
  - exists [], x. auto.
  - destruct HS as (k & HL & HS). inversion W as [|? ? W1 W2]; subst. destruct (layer_nan l (length x) k x HL Hn eq_refl (nans_catch l _ x Hn eq_refl N)) as (z & E & Lz & Nz).
    cbn [chain_forward]. rewrite E. cbn [bind set_out out]. destruct (IH k m z HS Lz (lshape_wide l _ k HL Hn W1) W2 Nz) as (tl & y & E2 & Ny). rewrite E2. cbn [bind]. eauto.
Qed.
Lemma forward_catch l ls n m x : nshape (l :: ls) n m -> length x = n -> 0 < n -> wide (l :: ls) -> catches l x ->
  exists ls' y, chain_forward (l :: ls) x = Ok (ls', y) /\ nans y.
Proof.
  intros (k & HL & HS) Lx Hn W C. inversion W as [|? ? W1 W2]; subst. destruct (layer_nan l (length x) k x HL Hn eq_refl C) as (z & E & Lz & Nz).
  cbn [chain_forward]. rewrite E. cbn [bind set_out out]. destruct (forward_nan ls k m z HS Lz (lshape_wide l _ k HL Hn W1) W2 Nz) as (tl & y & E2 & Ny). rewrite E2. cbn [bind]. eauto.
Qed.

(** *** Backward *)
Lemma backward_layer l n k last g l' : lshape l n k -> length last = n -> length g = k -> layer_backward l last g = Ok l' ->
  lshape l' n k /\ same_params l l' /\ ((nans g \/ nans (layer_grads l)) -> nans (layer_grads l')) /\ (nans g -> 0 < k -> nans (ig l')).
Proof.
  intros HL Ll Lg E. destruct (layer_backward_shape l n k last g HL Ll Lg) as (l2 & E2 & P & HL2 & _). rewrite E in E2. injection E2 as <-.
  split; [exact HL2|]. split; [exact P|]. destruct HL as (S1 & S2 & S3 & S4). destruct HL2 as (T1 & T2 & T3 & T4). unfold layer_backward in E. destruct (knd l) as [|f] eqn:K.
  - destruct S4 as (A1 & A2 & A3 & A4). rewrite S1, Lg in E.
    destruct (dense_1_spec d0 (ig l) (wgrad l) (bgrad l) g last (wts l) n k) as (i' & wg' & bg' & Ed & L1 & L2 & L3 & V1 & V2 & _ & V3); try lia.
    rewrite Ed in E. cbn [bind] in E. injection E as <-. unfold layer_grads in *. cbn [knd wgrad bgrad ig]. rewrite K. split.
    + intros N. apply Forall_app. split; apply nth_nans.
      * intros p Hp. rewrite L2, A2 in Hp. destruct (Nat.eq_dec n 0) as [->|Nn]; [lia|].
        rewrite (Nat.div_mod p n Nn), Nat.mul_comm. assert (Hi : p / n < k) by (apply Nat.div_lt_upper_bound; lia). assert (Hj : p mod n < n) by (apply Nat.mod_upper_bound; lia).
        rewrite (V2 _ _ Hi Hj). apply nan_add. destruct N as [N|N]; [right; apply nan_mul; left; apply nans_nth; [exact N|lia]|left].
        apply Forall_app in N. apply nans_nth; [apply N|]. rewrite A2. nia.
      * intros p Hp. rewrite L3, A4 in Hp. rewrite V3. rewrite (proj2 (Nat.ltb_lt p k) Hp). apply nan_add.
        destruct N as [N|N]; [right; apply nans_nth; [exact N|lia]|left]. apply Forall_app in N. apply nans_nth; [apply N|lia].
    + intros N Hk. apply nth_nans. intros p Hp. rewrite L1, S2 in Hp. rewrite V1. rewrite (proj2 (Nat.ltb_lt p n) Hp). apply sum_nan. right. exists 0. split; [exact Hk|]. apply nan_mul. left. apply nans_nth; [exact N|lia].
  - destruct S4 as (-> & A2). destruct (act_backward f (out l) (ig l) g) as [i'| |] eqn:Ea; try discriminate. cbn [bind] in E. injection E as <-. unfold layer_grads in *. cbn [knd set_ig]. rewrite K. split; [constructor|].
    intros N Hn. cbn [set_ig ig]. assert (G : exists i2, act_backward f (out l) (ig l) g = Ok i2 /\ nans i2).
    { unfold act_backward. rewrite S2.
      assert (PW : forall h : dbl -> dbl, exists i2, (i <- map_into h (ig l) (out l) n ;; map2_inplace nmul i g n) = Ok i2 /\ nans i2).
      { intros h. rewrite (map_into_spec d0) by lia. cbn [bind]. rewrite skipn_all2, app_nil_r by lia. rewrite (map2_inplace_spec d0) by (rewrite ?tab_length; lia).
        rewrite skipn_all2, app_nil_r by (rewrite tab_length; lia). eexists. split; [reflexivity|]. apply tab_forall. intros i Hi. apply nan_mul. right. apply nans_nth; [exact N|lia]. }
      destruct f; try apply PW.
      - rewrite (softmax_1_opt_spec d0) by lia. rewrite skipn_all2, app_nil_r by lia. eexists. split; [reflexivity|]. apply tab_forall. intros i Hi. apply sum_nan. right. exists 0. split; [exact Hn|].
        apply nan_mul. right. apply nans_nth; [exact N|lia].
      - rewrite (map_into_spec d0) by lia. rewrite skipn_all2, app_nil_r by lia. eexists. split; [reflexivity|]. apply tab_forall. intros i Hi. apply nans_nth; [exact N|lia]. }
    destruct G as (i2 & G1 & G2). rewrite G1 in Ea. injection Ea as <-. exact G2.
Qed.
Lemma backward_grads ls : forall n m x g ls' gx, nshape ls n m -> length x = n -> length g = m -> chain_backward ls x g = Ok (ls', gx) ->
  (nans (grads ls) -> nans (grads ls')) /\ (0 < n -> wide ls -> nans g -> nans (grads ls') /\ nans gx).
Proof.
  induction ls as [|l ls IH]; intros n m x g ls' gx HS Lx Lg E.
  - injection E as <- <-. split; [auto|]. intros _ _ N. split; [constructor|exact N].
  - destruct HS as (k & HL & HS). cbn [chain_backward] in E. assert (Lo : length (out l) = k) by apply HL.
    destruct (chain_backward_shape ls k m (out l) g HS Lo Lg) as (tl & g1 & E1 & L1 & P1 & _). rewrite E1 in E. cbn [bind] in E.
    destruct (layer_backward l x g1) as [l'| |] eqn:E2; try discriminate. cbn [bind] in E. injection E as <- <-.
    destruct (backward_layer l n k x g1 l' HL Lx L1 E2) as (_ & _ & B1 & B2). destruct (IH k m (out l) g tl g1 HS Lo Lg E1) as (I1 & I2).
    unfold grads in *. cbn [flat_map]. split.
    + intros N. apply Forall_app in N. apply Forall_app. split; [apply B1; right; apply N|apply I1, N].
    + intros Hn W N. pose proof (Forall_inv W) as W1. pose proof (Forall_inv_tail W) as W2. cbv beta in W1. pose proof (lshape_wide l n k HL Hn W1) as Hk. destruct (I2 Hk W2 N) as (J1 & J2).
      split; [apply Forall_app; split; [apply B1; now left|exact J1]|now apply B2].
Qed.
(** *** The losses *)
Lemma loss_grad_nan kd (lo : lossl dbl) y g : length (ls_grad lo) = length y -> nans y -> loss_backward kd lo y = Ok g -> nans g.
Proof.
  intros L N E. apply nth_nans. intros i Hi. pose proof (loss_backward_len _ _ _ _ E) as Lg.
  assert (X : forall h : dbl -> dbl -> dbl, (forall u v, isnan v -> isnan (h u v)) -> map2_into h (ls_grad lo) (ls_target lo) y (length (ls_grad lo)) = Ok g -> isnan (nth i g d0)).
  { intros h Hh Em. destruct (Nat.lt_ge_cases (length (ls_target lo)) (length (ls_grad lo))) as [Lt|Ge].
    - exfalso. revert Em. unfold map2_into. generalize (ls_grad lo) at 2. assert (Z : forall n o, length (ls_target lo) < n -> for_ n (fun i d => a0 <- rd (ls_target lo) i;; b <- rd y i;; wr d i (h a0 b)) o <> Ok g).
      { intros n. induction n as [|n IHn]; [lia|]. intros o Ln Em. rewrite for_S in Em. destruct (Nat.eq_dec n (length (ls_target lo))) as [->|Ne].
        - destruct (for_ _ _ o) as [o'| |]; cbn [bind] in Em; try discriminate. unfold rd in Em. rewrite (proj2 (nth_error_None _ _)) in Em by lia. discriminate.
        - destruct (for_ n _ o) as [o'| |] eqn:Ef; cbn [bind] in Em; try discriminate. clear IHn. revert Em. unfold rd at 1. rewrite (proj2 (nth_error_None _ _)) by lia. discriminate. }
      intros o. now apply Z.
    - rewrite (map2_into_spec d0) in Em by lia. rewrite skipn_all2, app_nil_r in Em by lia. injection Em as <-. rewrite tab_length in Hi. rewrite nth_tab by exact Hi. apply Hh, nans_nth; [exact N|lia]. }
  destruct kd as [|tol]; cbn [loss_backward] in E.
  - apply (X (cross_entropy_1 (ls_inv lo))); [|exact E]. intros u v (s & ->). apply nan_mul. right. apply nan_div. right. now exists s.
  - apply (X (squared_error_1 (ls_inv lo))); [|exact E]. intros u v Nv. apply nan_mul. right. apply nan_sub. now right.
Qed.
(** *** Calls *)
Lemma wide_same ls ls' : Forall2 same_params ls ls' -> wide ls -> wide ls'.
Proof.
  induction 1 as [|l l' ls ls' (P1 & P2 & P3 & P4) F IH]; intros W; [constructor|]. constructor.
  - rewrite P1, P4. exact (Forall_inv W).
  - apply IH, (Forall_inv_tail W).
Qed.
Lemma shapes_same ls ls' : Forall2 same_params ls ls' -> shapes ls' = shapes ls.
Proof. unfold shapes. induction 1 as [|l l' ls ls' (P1 & P2 & P3 & P4) F IH]; [reflexivity|]. cbn [map]. now rewrite IH, P1, P4. Qed.
Lemma wide_shapes ls : forall ls', shapes ls' = shapes ls -> wide ls -> wide ls'.
Proof.
  unfold shapes, wide. induction ls as [|l ls IH]; intros [|l' ls'] E W; try discriminate; [constructor|]. cbn [map] in E. injection E as E1 E2 E3. constructor; [|apply IH; [exact E3|exact (Forall_inv_tail W)]].
  intros K Z. rewrite Z in E2. cbn in E2. apply (Forall_inv W); [congruence|]. now destruct (bias l).
Qed.
Lemma trained_shapes eta ls : shapes (map (trained eta) ls) = shapes ls.
Proof.
  unfold shapes. rewrite map_map. apply map_ext. intros l. unfold trained. destruct (knd l) eqn:K; [|now rewrite K]. cbn [knd bias]. unfold moved. now rewrite tab_length.
Qed.
Lemma train_all_shapes ls : forall ad n k, nshape ls n k -> shapes (train_all ad ls) = shapes ls.
Proof.
  unfold shapes. induction ls as [|l ls IH]; intros ad n k HS; [reflexivity|]. destruct HS as (j & HL & HS). cbn [train_all map]. rewrite (IH _ j k HS). f_equal.
  unfold atrained. destruct (knd l) eqn:K; [|now rewrite K]. cbn [knd bias]. f_equal. rewrite skipn_length, amove_length; unfold layer_params, layer_grads; rewrite K.
  - rewrite app_length. lia.
  - destruct HL as (S1 & S2 & S3 & S4). rewrite K in S4. rewrite !app_length. lia.
Qed.
Lemma keeps_same ls ls' : Forall2 keeps ls ls' -> Forall2 same_params ls ls' /\ grads ls' = grads ls.
Proof. unfold grads. induction 1 as [|l l' ls ls' (P & G) F (I1 & I2)]; [now split|]. split; [now constructor|]. cbn [flat_map]. now rewrite G, I2. Qed.
Lemma step_grads draw m ls kd lo n k x t m' : network m ls kd lo n k -> length x = n -> m_step (node_ops draw) m x t = Ok m' ->
  exists ls' lo', network m' ls' kd lo' n k /\ Forall2 same_params ls ls' /\ (nans (grads ls) -> nans (grads ls')) /\
    (0 < n -> wide ls -> (exists ls1 y, chain_forward ls x = Ok (ls1, y) /\ nans y) -> nans (grads ls')).
Proof.
  intros W Lx E. rewrite (c36_step dbl _ _ _ draw m ls kd lo n k x t W) in E.
  destruct (chain_forward_shape ls n k x (nw_shape _ _ _ _ _ _ W) Lx) as (ls1 & y & EF & _). rewrite EF in E. cbn [bind] in E.
  destruct (forward_keeps ls n k x ls1 y (nw_shape _ _ _ _ _ _ W) Lx EF) as (K & S' & Ly). destruct (keeps_same _ _ K) as (P & GK).
  destruct (loss_forward kd (set_target lo t) y) as (lo1, r) eqn:EL.
  destruct r as [[]| |]; try discriminate. cbn [bind] in E.
  destruct (loss_backward kd lo1 y) as [g| |] eqn:EG; try discriminate. cbn [bind] in E.
  assert (Ll : length (ls_grad lo1) = k) by (rewrite (loss_forward_grad _ _ _ _ _ EL); cbn; apply W).
  assert (Lg : length g = k) by (rewrite (loss_backward_len _ _ _ _ EG); exact Ll).
  destruct (chain_backward_shape ls1 n k x g S' Lx Lg) as (ls2 & gx & EB & _ & P2 & S2).
  rewrite EB in E. cbn [bind] in E. injection E as <-. destruct (backward_grads ls1 n k x g ls2 gx S' Lx Lg EB) as (B1 & B2).
  exists ls2, (set_grad lo1 g). pose proof (all_same_trans _ _ _ P P2) as P3. split.
  { pose proof (Forall2_len _ _ _ P3) as LL. constructor; cbn [mgraph mnodes]; rewrite ?LL; try apply W; auto. apply place_fst. }
  split; [exact P3|]. split; [intros N; apply B1; now rewrite GK|].
  intros Hn Wd (ls1' & y' & EF' & Ny). rewrite EF in EF'. injection EF' as <- <-. apply B2; [exact Hn|now apply (wide_same ls)|].
  apply (loss_grad_nan kd lo1 y g); [lia|exact Ny|exact EG].
Qed.
Lemma call_grads draw m ls kd lo n k c m' : network m ls kd lo n k -> call_sized n c -> m_call draw m c = Ok m' ->
  exists ls' lo', network m' ls' kd lo' n k /\ Forall2 same_params ls ls' /\ (nans (grads ls) -> nans (grads ls')).
Proof.
  intros W Hc E. destruct c as [x|x t|]; cbn [m_call call_sized] in *.
  - destruct (chain_forward_shape ls n k x (nw_shape _ _ _ _ _ _ W) Hc) as (ls' & y & EF & _).
    destruct (forward_keeps ls n k x ls' y (nw_shape _ _ _ _ _ _ W) Hc EF) as (K & S' & Ly). destruct (keeps_same _ _ K) as (P & GK).
    destruct (predict_network draw true (length ls) m ls [NO kd lo] x ls' y (nw_graph _ _ _ _ _ _ W)
      (nw_some _ _ _ _ _ _ W) (network_length _ _ _ _ _ _ W) (nw_nodes _ _ _ _ _ _ W) eq_refl EF) as (m1 & E1 & G1 & N1).
    rewrite E1 in E. cbn [bind] in E. injection E as <-. exists ls', lo. split; [|split; [exact P|now rewrite GK]].
    pose proof (Forall2_len _ _ _ P) as LL. destruct W. constructor; rewrite ?G1, ?LL; auto.
  - destruct (step_grads draw m ls kd lo n k x t m' W Hc E) as (ls' & lo' & A & B & C & _). eauto 6.
  - unfold m_reset_score in E. rewrite (ic_losses _ _ _ (nw_graph _ _ _ _ _ _ W)) in E. cbn [foldM] in E.
    destruct (exists_last (l := mnodes m)) as (rest & (q, lp) & EN).
    { intros Hn. pose proof (nw_nodes _ _ _ _ _ _ W) as E0. rewrite Hn in E0. destruct ls; discriminate. }
    pose proof (nw_nodes _ _ _ _ _ _ W) as E0. rewrite EN, map_app in E0. cbn [map fst] in E0.
    apply app_inj_tail in E0. destruct E0 as (E1 & ->).
    assert (LL : length rest = length ls) by (apply (f_equal (@length _)) in E1; rewrite !map_length in E1; exact E1).
    rewrite EN in E. rewrite (rd_app_mid rest _ [] _ LL) in E. cbn [bind] in E.
    rewrite (wr_app_mid rest _ _ [] _ LL) in E. cbn [bind] in E. injection E as <-.
    exists ls, (reset_score lo). split; [|split; [apply all_same_refl|auto]].
    destruct W. constructor; cbn [mgraph mnodes reset_score ls_grad]; auto. rewrite map_app, E1. reflexivity.
Qed.
Lemma calls_grads draw cs : forall m ls kd lo n k m', network m ls kd lo n k -> Forall (call_sized n) cs -> foldM (m_call draw) cs m = Ok m' ->
  exists ls' lo', network m' ls' kd lo' n k /\ Forall2 same_params ls ls' /\ (nans (grads ls) -> nans (grads ls')).
Proof.
  induction cs as [|c cs IH]; intros m ls kd lo n k m' W HS E.
  - injection E as <-. exists ls, lo. split; [exact W|]. split; [apply all_same_refl|auto].
  - cbn [foldM] in E. destruct (m_call draw m c) as [m1| |] eqn:E1; try discriminate. cbn [bind] in E.
    destruct (call_grads draw m ls kd lo n k c m1 W (Forall_inv HS) E1) as (ls1 & lo1 & W1 & P1 & G1).
    destruct (IH m1 ls1 kd lo1 n k m' W1 (Forall_inv_tail HS) E) as (ls2 & lo2 & W2 & P2 & G2).
    exists ls2, lo2. split; [exact W2|]. split; [eapply all_same_trans; eauto|auto].
Qed.
(** *** Training *)
Lemma moved_nan eta p g : length g = length p -> nans g -> nans (moved eta p g).
Proof. intros L N. unfold moved. apply tab_forall. intros i Hi. apply nan_sub. right. apply nan_mul. right. apply nans_nth; [exact N|lia]. Qed.
Lemma trained_nan eta ls : forall n k, nshape ls n k -> nans (grads ls) -> nans (params (map (trained eta) ls)).
Proof.
  unfold grads, params. induction ls as [|l ls IH]; intros n k HS N; [constructor|]. destruct HS as (j & HL & HS). cbn [flat_map map] in *. apply Forall_app in N as (N1 & N2). apply Forall_app. split; [|now apply (IH j k)].
  destruct HL as (S1 & S2 & S3 & S4). unfold layer_params, layer_grads, trained in *. destruct (knd l) eqn:K; [|rewrite K; constructor]. cbn [knd wts bias]. apply Forall_app in N1 as (N1 & N3).
  apply Forall_app. split; apply moved_nan; try assumption; lia.
Qed.
Lemma delta_nan ad g : isnan g -> isnan (adam_delta ad g).
Proof. intros N. unfold adam_delta. cbv zeta. cbn [adam_visit a_m]. apply nan_mul. right. apply nan_div. left. apply nan_div. left. apply nan_add. right. apply nan_mul. now right. Qed.
Lemma amove_nan ps : forall ad gs, nans gs -> nans (amove ad ps gs).
Proof.
  induction ps as [|p ps IH]; intros ad [|g gs] N; cbn [amove]; try constructor; [|apply IH, (Forall_inv_tail N)].
  apply nan_sub. right. apply delta_nan, (Forall_inv N).
Qed.
End Nan.

(** *** One bad row *)
(** A NaN in one row of a batch, at a dense first layer: after the batch's update every
    parameter of the network is NaN, with gradient descent and with Adam. *)
Theorem c90_batch : forall (a : fpu) draw (m m' : model (node dbl)) l0 rest kd lo n k cs1 x t cs2,
  network m (l0 :: rest) kd lo n k -> knd l0 = KDense -> wide (l0 :: rest) -> 0 < n -> some_nan x ->
  Forall (call_sized n) (cs1 ++ CStep x t :: cs2) -> foldM (m_call draw) (cs1 ++ CStep x t :: cs2) m = Ok m' ->
  (forall eta, exists m2 ls2 lo2, m_train eta m' = Ok m2 /\ network m2 ls2 kd lo2 n k /\ shapes ls2 = shapes (l0 :: rest) /\ nans (params ls2)) /\
  (forall ad, exists ad2 m2 ls2 lo2, m_train_adam ad m' = Ok (ad2, m2) /\ network m2 ls2 kd lo2 n k /\ shapes ls2 = shapes (l0 :: rest) /\ nans (params ls2)).
Proof.
  intros a draw m m' l0 rest kd lo n k cs1 x t cs2 W K Wd Hn Nx HS E.
  rewrite foldM_app in E. destruct (foldM (m_call draw) cs1 m) as [m1| |] eqn:E1; try discriminate. cbn [bind foldM] in E.
  apply Forall_app in HS as (S1 & S2). destruct (calls_grads a draw cs1 m (l0 :: rest) kd lo n k m1 W S1 E1) as (ls1 & lo1 & W1 & P1 & _).
  destruct (m_call draw m1 (CStep x t)) as [m2| |] eqn:E2; try discriminate. cbn [bind] in E. pose proof (Forall_inv S2) as Lx. cbn [call_sized] in Lx. cbn [m_call] in E2.
  destruct (step_grads a draw m1 ls1 kd lo1 n k x t m2 W1 Lx E2) as (ls2 & lo2 & W2 & P2 & _ & G2).
  assert (N2 : nans (grads ls2)).
  { apply G2; [exact Hn|now apply (wide_same (l0 :: rest))|]. inversion P1 as [|? l1 ? r1 Q1 Q2]; subst.
    apply (forward_catch a l1 r1 (length x) k x); [apply W1|reflexivity|exact Hn|now apply (wide_same (l0 :: rest))|]. unfold catches. destruct Q1 as (-> & _). rewrite K. now left. }
  destruct (calls_grads a draw cs2 m2 ls2 kd lo2 n k m' W2 (Forall_inv_tail S2) E) as (ls3 & lo3 & W3 & P3 & G3). specialize (G3 N2).
  assert (Sh : shapes ls3 = shapes (l0 :: rest)) by (rewrite (shapes_same _ _ P3), (shapes_same _ _ P2), (shapes_same _ _ P1); reflexivity). split.
  - intros eta. destruct (network_train eta m' ls3 kd lo3 n k W3) as (m4 & E4 & _ & W4). exists m4, (map (trained eta) ls3), lo3. split; [exact E4|]. split; [exact W4|]. split; [now rewrite trained_shapes|].
    apply (trained_nan a eta ls3 n k); [apply W3|exact G3].
  - intros ad. destruct (network_train_adam ad m' ls3 kd lo3 n k W3) as (m4 & E4 & _ & W4). exists (after ad (flat_map layer_grads ls3)), m4, (train_all ad ls3), lo3. split; [exact E4|]. split; [exact W4|]. split; [rewrite (train_all_shapes a ls3 ad n k); [exact Sh|apply W3]|].
    unfold params. rewrite (train_all_params ls3 ad n k) by apply W3. apply amove_nan. exact G3.
Qed.
(** Then the network predicts NaN for every input, whatever is called, and training does not help. *)
Theorem c90_predict : forall (a : fpu) draw (m : model (node dbl)) ls kd lo n k x,
  network m ls kd lo n k -> wide ls -> 0 < n -> nans (params ls) -> (exists l, In l ls /\ knd l = KDense) -> length x = n ->
  exists m' y, m_predict (node_ops draw) m x = Ok (m', y) /\ length y = k /\ nans y.
Proof.
  intros a draw m ls kd lo n k x W Wd Hn N D Lx.
  assert (G : forall ls n x, nshape ls n k -> wide ls -> 0 < n -> nans (params ls) -> (exists l, In l ls /\ knd l = KDense) -> length x = n ->
    exists ls' y, chain_forward ls x = Ok (ls', y) /\ nans y).
  { clear. induction ls as [|l ls IH]; intros n x HS Wd Hn N (l1 & I & K) Lx; [destruct I|]. unfold params in N. cbn [flat_map] in N. apply Forall_app in N as (N1 & N2).
    destruct (knd l) as [|f] eqn:Kl.
    - apply (forward_catch a l ls n k x); auto. unfold catches. rewrite Kl. right. unfold layer_params in N1. rewrite Kl in N1. apply Forall_app in N1. apply N1.
    - destruct I as [->|I]; [congruence|]. destruct HS as (j & HL & HS). destruct (layer_forward_val l n j x HL Lx) as (z & Lz & F). cbn [chain_forward].
      rewrite (F l HL (same_params_refl l)). cbn [bind set_out out]. assert (Hj : 0 < j) by (apply (lshape_wide l n j HL Hn); congruence).
      destruct (IH j z HS (Forall_inv_tail Wd) Hj N2 ltac:(eauto) Lz) as (ls' & y & E & Ny). rewrite E. cbn [bind]. eauto. }
  destruct (G ls n x (nw_shape _ _ _ _ _ _ W) Wd Hn N D Lx) as (ls' & y & E & Ny).
  destruct (predict_network draw true (length ls) m ls [NO kd lo] x ls' y (nw_graph _ _ _ _ _ _ W)
      (nw_some _ _ _ _ _ _ W) (network_length _ _ _ _ _ _ W) (nw_nodes _ _ _ _ _ _ W) eq_refl E) as (m1 & E1 & _).
  exists m1, y. split; [exact E1|]. split; [|exact Ny]. now destruct (forward_keeps a ls n k x ls' y (nw_shape _ _ _ _ _ _ W) Lx E) as (_ & _ & Ly).
Qed.
Definition worse (p p' : dbl) : Prop := isnan p -> isnan p'.
Lemma Forall2_tab_l {A B} (R : A -> B -> Prop) (d : A) l : forall f, (forall i, i < length l -> R (nth i l d) (f i)) -> Forall2 R l (tab (length l) f).
Proof.
  unfold tab. induction l as [|x l IH]; intros f F; [constructor|]. cbn [length seq map]. constructor; [apply (F 0); cbn; lia|]. rewrite <- seq_shift, map_map. apply IH. intros i Hi. apply (F (S i)). cbn. lia.
Qed.
Theorem c90_stays : forall (a : fpu) (m : model (node dbl)) ls kd lo n k, network m ls kd lo n k ->
  (forall eta, exists m2 ls2, m_train eta m = Ok m2 /\ network m2 ls2 kd lo n k /\ shapes ls2 = shapes ls /\ Forall2 worse (params ls) (params ls2)) /\
  (forall ad, exists ad2 m2 ls2, m_train_adam ad m = Ok (ad2, m2) /\ network m2 ls2 kd lo n k /\ shapes ls2 = shapes ls /\ Forall2 worse (params ls) (params ls2)).
Proof.
  intros a m ls kd lo n k W. split.
  - intros eta. destruct (network_train eta m ls kd lo n k W) as (m2 & E & _ & W2). exists m2, (map (trained eta) ls). split; [exact E|]. split; [exact W2|]. split; [apply trained_shapes|].
    clear. unfold params. induction ls as [|l ls IH]; [constructor|]. cbn [map flat_map]. apply Forall2_app; [|exact IH].
    assert (M : forall p g, Forall2 worse p (moved eta p g)) by (intros p g; apply (Forall2_tab_l _ n0); intros i Hi Ni; apply nan_sub; now left).
    unfold layer_params, trained. destruct (knd l) eqn:K; [|rewrite K; constructor]. cbn [knd wts bias]. apply Forall2_app; apply M.
  - intros ad. destruct (network_train_adam ad m ls kd lo n k W) as (m2 & E & _ & W2). exists (after ad (flat_map layer_grads ls)), m2, (train_all ad ls). split; [exact E|]. split; [exact W2|]. split; [apply (train_all_shapes a ls ad n k), W|].
    unfold params. rewrite (train_all_params ls ad n k) by apply W. pose proof (all_grads_length ls n k (nw_shape _ _ _ _ _ _ W)) as L. revert L.
    generalize (flat_map layer_params ls), (flat_map layer_grads ls). clear. intros ps. revert ad. induction ps as [|p ps IH]; intros ad [|g gs] L; try discriminate; [constructor|].
    cbn [amove]. constructor; [intros Np; apply nan_sub; now left|apply IH; cbn in L; lia].
Qed.

(** *** The score *)
(** Rows with their targets, all predictions NaN *)
Definition nan_rows (kd : losskind dbl) (n : nat) (rows : list (list dbl * list dbl)) : Prop :=
  Forall (fun r => length (fst r) = n /\ length (snd r) = n /\ nans (snd r) /\
    match kd with CCE => exists v, In v (fst r) /\ deqb v (DFin false 0) = false | MSE _ => True end) rows.
Definition seen (rows : list (list dbl * list dbl)) : list (lop dbl) := flat_map (fun r => [OTarget (fst r); OForward (snd r)]) rows.
(** The target names class 0. *)
Definition first_class (r : list dbl * list dbl) : bool := negb (deqb (nth 0 (fst r) (DFin false 0)) (DFin false 0)).
Definition hits (kd : losskind dbl) (rows : list (list dbl * list dbl)) : nat :=
  match kd with CCE => length (filter first_class rows) | MSE _ => 0 end.

Lemma argmax_nan (a : fpu) (x : list dbl) : nans x -> 0 < length x -> max_and_argmax x (length x) = Ok (nth 0 x (DFin false 0), 0).
Proof.
  intros N L. assert (E : max_element x (length x) = Ok 0).
  { unfold max_element. destruct (Nat.eqb_spec (length x) 0); [lia|].
    match goal with |- for_from 1 (length x - 1) ?b ?s = _ => destruct (for_from_inv (fun _ m => m = 0) 1 (length x - 1) b s) as (m & E & ->) end; [reflexivity| |exact E].
    intros k m Hk ->. rewrite (rd_nth x 0 (DFin false 0)), (rd_nth x k (DFin false 0)) by lia. cbn [bind]. eexists. split; [reflexivity|].
    destruct (nans_nth x 0 N L) as (s & ->). reflexivity. }
  unfold max_and_argmax. rewrite E. cbn [bind]. unfold require. rewrite (proj2 (Nat.ltb_lt _ _) L). cbn [bind]. now rewrite (rd_nth x 0 (DFin false 0)) by lia.
Qed.
Lemma argactive_from (a : fpu) (t : list dbl) : forall n i, i + n = length t -> (exists j, i <= j < length t /\ deqb (nth j t (DFin false 0)) (DFin false 0) = false) ->
  exists j, argactive t i n = Ok j /\ (i =? j) = negb (deqb (nth i t (DFin false 0)) (DFin false 0)).
Proof.
  induction n as [|n IH]; intros i L (j & Hj & D); [lia|]. cbn [argactive]. rewrite (rd_nth t i (DFin false 0)) by lia. cbn [bind].
  change (neqb (nth i t (DFin false 0)) n0) with (deqb (nth i t (DFin false 0)) (DFin false 0)). destruct (deqb (nth i t (DFin false 0)) (DFin false 0)) eqn:E; cbn [negb].
  - assert (j <> i) by congruence. destruct (IH (S i) ltac:(lia)) as (r & R1 & R2); [exists j; split; [lia|exact D]|]. exists r. split; [exact R1|]. apply Nat.eqb_neq. intros <-.
    assert (G : forall m i r, argactive t i m = Ok r -> i <= r).
    { clear. induction m as [|m IH]; intros i r E; [discriminate|]. cbn [argactive] in E. destruct (rd t i); try discriminate. cbn [bind] in E. destruct (negb _); [injection E as <-; lia|apply IH in E; lia]. }
    apply G in R1. lia.
  - exists i. split; [reflexivity|]. apply Nat.eqb_refl.
Qed.
Lemma loss_nan (a : fpu) kd (l : lossl dbl) n t x : 0 < n -> ls_in l = n -> nan_rows kd n [(t, x)] ->
  exists v, isnan v /\ loss_forward kd (set_target l t) x = (count (LossModel.add_loss (set_target l t) v) (match kd with CCE => first_class (t, x) | MSE _ => false end), Ok tt).
Proof.
  intros Hn Li F. apply Forall_inv in F. cbn [fst snd] in F. destruct F as (Lt & Lx & N & A).
  assert (T : forall A (u v : A), match t with [] => u | _ :: _ => v end = v) by (destruct t; [cbn in Lt; lia|reflexivity]).
  assert (N0 : isnan (nth 0 x (DFin false 0))) by (apply nans_nth; [exact N|lia]).
  destruct kd as [|tol]; cbn [loss_forward].
  - unfold cce_forward. cbn [set_target ls_target]. rewrite T. rewrite (cross_entropy_spec (DFin false 0)) by lia.
    rewrite argmax_nan by (auto; lia).
    match goal with |- context [LossModel.add_loss _ ?v] => assert (Nv : isnan v); [|exists v; split; [exact Nv|]] end.
    { apply sum_nan. right. exists 0. split; [lia|]. unfold cross_entropy1. apply nan_mul. right. destruct N0 as (s & ->). now exists false. }
    cbn [LossModel.add_loss ls_target ls_in set_target]. rewrite Li.
    destruct A as (v & I & D). destruct (In_nth _ _ (DFin false 0) I) as (j & Hj & Ej).
    destruct (argactive_from a t n 0 ltac:(lia)) as (r & R1 & R2); [exists j; rewrite Ej; split; [lia|exact D]|]. rewrite R1. unfold first_class. cbn [fst]. now rewrite <- R2.
  - unfold mse_forward. cbn [set_target ls_target]. rewrite T. rewrite (mean_squared_error_spec (DFin false 0)) by lia.
    match goal with |- context [LossModel.add_loss _ ?v] => assert (Nv : isnan v); [|exists v; split; [exact Nv|]; destruct Nv as (s & ->)] end.
    { apply nan_div. left. apply sum_nan. right. exists 0. split; [lia|]. apply nan_mul. left. apply nan_sub. now right. }
    unfold nle. cbn. destruct tol; reflexivity.
Qed.

(** Any number of rows: every call succeeds, the loss and the total are NaN, and a row counts as
    correct exactly if the loss is the cross entropy and the target names class 0. *)
Theorem c90_score : forall (a : fpu) kd n rows (l : lossl dbl), 0 < n -> ls_in l = n -> nan_rows kd n rows ->
  exists l', loss_run (loss_forward kd) l (seen rows) = (l', repeat (Ok tt) (2 * length rows)) /\
    (rows <> [] \/ isnan (ls_cum l) -> isnan (ls_cum l') /\ isnan (avg_loss l')) /\
    (rows <> [] -> isnan (ls_loss l')) /\
    ls_cor l' = ls_cor l + hits kd rows /\ ls_cor l' + ls_inc l' = ls_cor l + ls_inc l + length rows.
Proof.
  intros a kd n rows. induction rows as [|(t, x) rows IH]; intros l Hn Li F.
  - exists l. split; [reflexivity|]. split; [intros [X|X]; [now elim X|split; [exact X|apply nan_div; now left]]|]. split; [intros X; now elim X|]. unfold hits. cbn. split; [destruct kd; cbn|]; lia.
  - destruct (loss_nan a kd l n t x Hn Li (Forall_cons _ (Forall_inv F) (Forall_nil _))) as (v & Nv & E).
    set (l1 := count (LossModel.add_loss (set_target l t) v) (match kd with CCE => first_class (t, x) | MSE _ => false end)) in *.
    destruct (IH l1 Hn) as (l' & E2 & C1 & C2 & C3 & C4); [cbn; exact Li|exact (Forall_inv_tail F)|]. exists l'. split.
    { unfold seen. cbn [flat_map fst snd app loss_run loss_step]. rewrite E. fold (seen rows). rewrite E2. cbn [length]. replace (2 * S (length rows)) with (S (S (2 * length rows))) by lia. reflexivity. }
    assert (N1 : isnan (ls_cum l1)) by (apply nan_add; now right). split; [intros _; apply C1; now right|].
    split.
    { intros _. destruct rows as [|r rows]; [|apply C2; discriminate]. injection E2 as <-. exact Nv. }
    assert (H1 : ls_cor l1 = ls_cor l + hits kd [(t, x)]) by (unfold l1, hits; cbn [count LossModel.add_loss set_target ls_cor filter]; destruct kd; [destruct (first_class (t, x))|]; cbn; lia).
    assert (H2 : ls_cor l1 + ls_inc l1 = S (ls_cor l + ls_inc l)) by (unfold l1; cbn [count LossModel.add_loss set_target ls_cor ls_inc]; destruct (match kd with CCE => _ | _ => _ end); lia).
    split; [|cbn [length]; lia]. rewrite C3, H1. unfold hits. destruct kd; [|lia]. cbn [filter]. destruct (first_class (t, x)); cbn [length]; lia.
Qed.
(** So a network that predicts nothing but NaN may have accuracy 1. *)
Theorem c90_accuracy_refuted : forall (a : fpu), ieee a -> exists rows l, rows <> [] /\ nan_rows CCE 2 rows /\
  fst (loss_run (loss_forward CCE) (loss_new 2 1) (seen rows)) = l /\ accuracy l = DFin false 1.
Proof.
  intros a IE. set (rows := [([DFin false 1; DFin false 0], [DNan false; DNan false])]).
  assert (D : deqb (DFin false 1) (DFin false 0) = false) by (cbn; apply Bool.not_true_is_false; rewrite Reqb_true; lra).
  assert (F : nan_rows CCE 2 rows).
  { apply Forall_cons; [|constructor]. cbn [fst snd length]. split; [reflexivity|]. split; [reflexivity|]. split; [repeat constructor; now exists false|]. exists (DFin false 1). split; [now left|exact D]. }
  destruct (c90_score a CCE 2 rows (loss_new 2 1) ltac:(lia) eq_refl F) as (l & E & _ & _ & C1 & C2). exists rows, l. split; [discriminate|]. split; [exact F|]. split; [now rewrite E|].
  unfold hits, rows, first_class in C1. cbn [filter fst nth] in C1. rewrite D in C1. cbn in C1, C2. unfold accuracy. rewrite C2, C1.
  change (ddiv a (dofZ a 1) (dofZ a 1) = DFin false 1). pose proof (fl_1 a IE) as F1. pose proof (big_1 a IE) as B1.
  assert (O : dround a false 1 = DFin false 1) by (rewrite (round_pos a IE) by (rewrite ?F1; lra); now rewrite F1).
  unfold dofZ. rewrite O. cbn [ddiv xorb]. assert (Z : Reqb 1 0 = false) by (apply Bool.not_true_is_false; rewrite Reqb_true; lra). rewrite Z.
  cbn [dval]. replace (1 / 1)%R with 1%R by lra. exact O.
Qed.

(** *** Adam *)
(** Not a finite number *)
Definition bad (x : dbl) : Prop := match x with DFin _ _ => False | _ => True end.
Lemma bad_add a x y : bad x \/ bad y -> bad (dadd a x y).
Proof. destruct x, y; cbn; intros [B|B]; try destruct B; try exact I; now destruct (Bool.eqb _ _). Qed.
Lemma bad_mul a x y : bad x \/ bad y -> bad (dmul a x y).
Proof. destruct x, y; cbn; intros [B|B]; try destruct B; try exact I; now destruct (Reqb _ _). Qed.
Lemma bad_div a x y : bad x -> bad (ddiv a x y).
Proof. destruct x, y; cbn; intros B; try destruct B; exact I. Qed.
Lemma bad_sqrt a x : bad x -> bad (dsqrt a x).
Proof. destruct x as [| [] |]; cbn; intros B; try destruct B; exact I. Qed.
Lemma bad_div2 a x y : bad x -> bad y -> isnan (ddiv a x y).
Proof. destruct x, y; cbn; intros B C; try destruct B; try destruct C; now exists false. Qed.
Lemma after_m (a : fpu) gs : forall ad : adam dbl, bad (a_m ad) \/ Exists bad gs -> bad (a_m (after ad gs)).
Proof.
  induction gs as [|g gs IH]; intros ad [B|B]; try (now inversion B); [exact B| |]; unfold after in *; cbn [fold_left]; apply IH.
  - left. apply bad_add. left. apply bad_mul. now right.
  - inversion B as [? ? G|]; subst; [left; apply bad_add; right; apply bad_mul; now right|now right].
Qed.
Lemma after_v (a : fpu) gs : forall ad : adam dbl, bad (a_v ad) \/ Exists (fun g => bad (dmul a g g)) gs -> bad (a_v (after ad gs)).
Proof.
  induction gs as [|g gs IH]; intros ad [B|B]; try (now inversion B); [exact B| |]; unfold after in *; cbn [fold_left]; apply IH.
  - left. apply bad_add. left. apply bad_mul. now right.
  - inversion B as [? ? G|]; subst; [left; apply bad_add; right; apply bad_mul; now right|now right].
Qed.
Lemma after_eta {T} `{NumOps T} (gs : list T) : forall ad, a_eta (after ad gs) = a_eta ad.
Proof. unfold after. induction gs as [|g gs IH]; intros ad; [reflexivity|]. cbn [fold_left]. now rewrite IH. Qed.
Lemma Exists_firstn (P : dbl -> Prop) d gs i j : j <= i -> i < length gs -> P (nth j gs d) -> Exists P (firstn (S i) gs).
Proof.
  intros Hj Hi HP. apply Exists_exists. exists (nth j gs d). split; [|exact HP].
  replace (nth j gs d) with (nth j (firstn (S i) gs) d); [apply nth_In; rewrite firstn_length; lia|].
  rewrite <- (firstn_skipn (S i) gs) at 2. rewrite app_nth1 by (rewrite firstn_length; lia). reflexivity.
Qed.
Lemma adam_trains (a : fpu) (m : model (node dbl)) ls kd lo n k ad : network m ls kd lo n k ->
  exists m' ls', m_train_adam ad m = Ok (after ad (grads ls), m') /\ network m' ls' kd lo n k /\ length (params ls') = length (params ls) /\ length (grads ls) = length (params ls) /\
    forall i, i < length (params ls) -> nth i (params ls') (DFin false 0) =
      dsub a (nth i (params ls) (DFin false 0)) (adam_delta (after ad (firstn i (grads ls))) (nth i (grads ls) (DFin false 0))).
Proof.
  intros W. destruct (network_train_adam ad m ls kd lo n k W) as (m2 & E & _ & W2). exists m2, (train_all ad ls). split; [exact E|]. split; [exact W2|].
  pose proof (all_grads_length ls n k (nw_shape _ _ _ _ _ _ W)) as L. fold (grads ls) (params ls) in L.
  assert (P : params (train_all ad ls) = amove ad (params ls) (grads ls)) by (apply (train_all_params ls ad n k), W). rewrite P.
  split; [apply amove_length; exact L|]. split; [exact L|]. intros i Hi. rewrite (amove_nth (DFin false 0)) by assumption. reflexivity.
Qed.
Lemma visit_after {T} `{NumOps T} (ad : adam T) gs i d : i < length gs -> adam_visit (after ad (firstn i gs)) (nth i gs d) = after ad (firstn (S i) gs).
Proof. intros Hi. rewrite (firstn_S_nth d gs i Hi). unfold after. rewrite fold_left_app. reflexivity. Qed.

(** One gradient that is not finite: this parameter and all later ones become NaN, and the
    optimizer does the same to every parameter from then on. *)
Theorem c90_adam_poison : forall (a : fpu) (m : model (node dbl)) ls kd lo n k ad, network m ls kd lo n k ->
  exists ad' m' ls', m_train_adam ad m = Ok (ad', m') /\ network m' ls' kd lo n k /\ length (params ls') = length (params ls) /\
    (forall i, i < length (params ls) -> (bad (a_m ad) /\ bad (a_v ad)) \/ (exists j, j <= i /\ bad (nth j (grads ls) (DFin false 0))) -> isnan (nth i (params ls') (DFin false 0))) /\
    ((bad (a_m ad) /\ bad (a_v ad)) \/ Exists bad (grads ls) -> bad (a_m ad') /\ bad (a_v ad')).
Proof.
  intros a m ls kd lo n k ad W. destruct (adam_trains a m ls kd lo n k ad W) as (m' & ls' & E & W' & L & Lg & V). exists (after ad (grads ls)), m', ls'.
  split; [exact E|]. split; [exact W'|]. split; [exact L|].
  assert (G : forall gs, (bad (a_m ad) /\ bad (a_v ad)) \/ Exists bad gs -> bad (a_m (after ad gs)) /\ bad (a_v (after ad gs))).
  { intros gs [[B1 B2]|B]; split; [apply after_m; now left|apply after_v; now left|apply after_m; now right|apply after_v; right].
    eapply Exists_impl; [|exact B]. intros g Bg. apply bad_mul. now left. }
  split; [|apply G]. intros i Hi B. rewrite V by exact Hi. apply nan_sub. right. unfold adam_delta. cbv zeta. rewrite visit_after by lia.
  destruct (G (firstn (S i) (grads ls))) as (G1 & G2); [destruct B as [B|(j & Hj & B)]; [now left|right; apply (Exists_firstn _ (DFin false 0) _ i j); auto; lia]|].
  apply nan_mul. right. apply bad_div2; [apply bad_div, G1|apply bad_add; left; apply bad_sqrt, bad_div, G2].
Qed.
(** A finite gradient whose square overflows: later parameters are NaN or keep their values,
    and so in all later calls: nothing is learned any more. *)
Theorem c90_adam_dead : forall (a : fpu) (m : model (node dbl)) ls kd lo n k ad, ieee a -> fin a (a_eta ad) -> network m ls kd lo n k ->
  exists ad' m' ls', m_train_adam ad m = Ok (ad', m') /\ network m' ls' kd lo n k /\ length (params ls') = length (params ls) /\
    (forall i, i < length (params ls) -> fin a (nth i (params ls) (DFin false 0)) ->
       bad (a_v ad) \/ (exists j, j <= i /\ bad (dmul a (nth j (grads ls) (DFin false 0)) (nth j (grads ls) (DFin false 0)))) ->
       isnan (nth i (params ls') (DFin false 0)) \/ fin a (nth i (params ls') (DFin false 0)) /\ dval (nth i (params ls') (DFin false 0)) = dval (nth i (params ls) (DFin false 0))) /\
    (bad (a_v ad) \/ Exists (fun g => bad (dmul a g g)) (grads ls) -> bad (a_v ad')) /\ a_eta ad' = a_eta ad.
Proof.
  intros a m ls kd lo n k ad IE Fe W. destruct (adam_trains a m ls kd lo n k ad W) as (m' & ls' & E & W' & L & Lg & V). exists (after ad (grads ls)), m', ls'.
  split; [exact E|]. split; [exact W'|]. split; [exact L|].
  assert (Ee : forall gs, a_eta (after ad gs) = a_eta ad) by (intros gs; apply after_eta).
  split; [|split; [apply after_v|apply Ee]]. intros i Hi Fp B. rewrite V by exact Hi. unfold adam_delta. cbv zeta. rewrite visit_after by lia. rewrite Ee.
  assert (Bv : bad (a_v (after ad (firstn (S i) (grads ls))))).
  { apply after_v. destruct B as [B|(j & Hj & B)]; [now left|right; apply (Exists_firstn _ (DFin false 0) _ i j); auto; lia]. }
  match goal with |- context [ndiv ?mc (nadd (nsqrt ?vc) ?ep)] => assert (Bd : bad (nadd (nsqrt vc) ep)) by (apply bad_add; left; apply bad_sqrt, bad_div, Bv); generalize dependent (nadd (nsqrt vc) ep); generalize mc end.
  intros mc dn Bd. destruct mc as [sm mm|sm|sm]; [|left; apply nan_sub; right; apply nan_mul; right; apply bad_div2; [exact I|exact Bd]..].
  destruct dn as [sd md|sd|sd]; [destruct Bd| |left; apply nan_sub; right; apply nan_mul; right; apply nan_div; right; now exists sd].
  right. change (ndiv (DFin sm mm) (DInf sd)) with (DFin (xorb sm sd) 0). destruct (mul_zero a IE (a_eta ad) (xorb sm sd) Fe) as (t & Et).
  change (nmul (a_eta ad) (DFin (xorb sm sd) 0)) with (dmul a (a_eta ad) (DFin (xorb sm sd) 0)). rewrite Et.
  destruct (sub_fin a _ (DFin t 0) Fp (fin_0 a IE t)) as (s & ->). destruct (fin_val a IE _ Fp) as (F1 & F2).
  assert (Z : (dval (nth i (params ls) (DFin false 0)) - dval (DFin t 0))%R = dval (nth i (params ls) (DFin false 0))) by (destruct t; cbn [dval]; lra).
  rewrite Z. destruct (round_small a IE s (dval (nth i (params ls) (DFin false 0)))) as (R1 & R2); [now rewrite F2|]. split; [exact R1|]. now rewrite R2.
Qed.
Theorem c90_overflow : forall a g, ieee a -> fin a g -> (2 ^ 513 <= Rabs (dval g))%R -> bad (dmul a g g).
Proof.
  intros a g IE Fg G. destruct (mul_fin a g g Fg Fg) as (s & ->).
  assert (X : (2 ^ 1026 <= dval g * dval g)%R).
  { change 1026 with (513 + 513). rewrite pow_add. rewrite <- (Rabs_right (dval g * dval g)) by (apply Rle_ge, Rle_0_sqr). rewrite Rabs_mult.
    apply Rmult_le_compat; auto; apply pow_le; lra. }
  set (r := (dval g * dval g)%R) in *. assert (P : (0 < 2 ^ 1024)%R) by (apply pow_lt; lra).
  assert (P2 : (2 ^ 1026 = 4 * 2 ^ 1024)%R) by (change 1026 with (2 + 1024); rewrite pow_add; lra).
  assert (T : (tiny <= r)%R) by (eapply Rle_trans; [apply tiny_1|]; pose proof (pow_le1 1026); lra).
  pose proof (ie_rel a IE r T) as Q. assert (I53 : (/ 2 ^ 53 <= / 2)%R) by (apply Rinv_le_contravar; [lra|]; pose proof (pow_ge 1 53 ltac:(lia)); lra).
  assert (Q2 : (r * / 2 ^ 53 <= r * / 2)%R) by (apply Rmult_le_compat_l; lra).
  rewrite (round_over a s r); [exact I|lra|]. destruct (ie_range a IE) as (_ & B). assert (L : (r / 2 <= fl a r)%R) by (unfold Rabs in Q; destruct (Rcase_abs _); lra). lra.
Qed.

(** *** Concrete cases *)
Notation d0 := (DFin false 0). Notation d1 := (DFin false 1).
Definition ex_dense (g : dbl) : list (layer dbl) :=
  [mkLayer KDense 2 [d1; d1] [d0] [g; d0] [d0] [d0] [d0; d0]; mkLayer (KAct Relu) 1 [] [] [] [] [d0] [d0]].
Definition ex_model (a : fpu) (g : dbl) (s : dlgraph) : model (node dbl) :=
  mkModel s (map (fun s => (s, SNull)) (map NL (ex_dense g) ++ [NO (MSE d0) (loss_new 1 1)])).
Lemma ex_net (a : fpu) g : exists s, network (ex_model a g s) (ex_dense g) (MSE d0) (loss_new 1 1) 2 1.
Proof.
  destruct (c36_built true 2 (le_n 2)) as (s & E & C). exists s.
  destruct C as (H1 & H2 & H3 & H4 & H5). constructor; cbn [mgraph mnodes ex_model].
  - exact (is_chain_built _ _ true 2 E (le_n 2) H1 H2 H3 H4 H5).
  - cbn. lia.
  - reflexivity.
  - cbn [nshape ex_dense]. exists 1. split; [|exists 1; split; [|reflexivity]].
    + unfold lshape. cbn. auto 10.
    + unfold lshape. cbn. split; [auto|]. split; [auto|]. split; [auto|]. split; [auto|]. lia.
  - reflexivity.
Qed.
(** With Adam a gradient that is not finite does not stay with its own parameter: the last
    parameter, whose gradient is zero, becomes NaN. *)
Theorem c90_adam_local_refuted : forall (a : fpu) (ad : adam dbl), exists m ls kd lo n k ad' m' ls',
  network m ls kd lo n k /\ Forall (fun p => ~ bad p) (params ls) /\ length (params ls) = 3 /\ bad (nth 0 (grads ls) d0) /\ nth 2 (grads ls) d1 = d0 /\
  m_train_adam ad m = Ok (ad', m') /\ network m' ls' kd lo n k /\ isnan (nth 2 (params ls') d0).
Proof.
  intros a ad. destruct (ex_net a (DInf false)) as (s & W). destruct (c90_adam_poison a _ _ _ _ _ _ ad W) as (ad' & m' & ls' & E & W' & L & V & _).
  exists (ex_model a (DInf false) s), (ex_dense (DInf false)), (MSE d0), (loss_new 1 1), 2, 1, ad', m', ls'. split; [exact W|].
  split; [repeat (apply Forall_cons; [exact (fun b : False => b)|]); constructor|]. split; [reflexivity|]. split; [exact I|]. split; [reflexivity|]. split; [exact E|]. split; [exact W'|].
  apply V; [cbn; lia|]. right. exists 0. split; [lia|exact I].
Qed.
(** The hypotheses of [c90_batch] and of [c90_predict] are met by a network with a batch of two
    rows, the first holding a NaN. *)
Example c90_batch_met : forall a : fpu, exists m m', network m (ex_dense d0) (MSE d0) (loss_new 1 1) 2 1 /\ wide (ex_dense d0) /\ some_nan [d1; DNan false] /\
  Forall (call_sized 2) ([] ++ CStep [d1; DNan false] [d1] :: [CStep [d1; d1] [d1]]) /\
  foldM (m_call (fun _ => d0)) ([] ++ CStep [d1; DNan false] [d1] :: [CStep [d1; d1] [d1]]) m = Ok m'.
Proof.
  intros a. destruct (ex_net a d0) as (s & W). exists (ex_model a d0 s).
  assert (St : forall m ls lo x, network m ls (MSE d0) lo 2 1 -> length x = 2 -> exists m' ls' lo', m_call (fun _ => d0) m (CStep x [d1]) = Ok m' /\ network m' ls' (MSE d0) lo' 2 1).
  { clear. intros m ls lo x W Lx. cbn [m_call].
    assert (X : exists m', m_step (node_ops (fun _ => d0)) m x [d1] = Ok m').
    { rewrite (c36_step dbl _ _ _ (fun _ => d0) m ls (MSE d0) lo 2 1 x [d1] W).
      destruct (chain_forward_shape ls 2 1 x (nw_shape _ _ _ _ _ _ W) Lx) as (ls1 & y & EF & _). rewrite EF. cbn [bind].
      destruct (forward_keeps a ls 2 1 x ls1 y (nw_shape _ _ _ _ _ _ W) Lx EF) as (K & S' & Ly).
      cbn [loss_forward]. unfold mse_forward. cbn [set_target ls_target]. rewrite (mean_squared_error_spec d0) by (rewrite ?Ly; cbn; lia). cbn [bind].
      cbn [loss_backward]. unfold mse_backward. cbn [count LossModel.add_loss set_target ls_grad ls_target ls_inv].
      pose proof (nw_grad _ _ _ _ _ _ W) as Lg. unfold mean_squared_error_1. rewrite (map2_into_spec d0) by (rewrite ?Lg, ?Ly; cbn; lia). cbn [bind].
      rewrite Lg. match goal with |- context [chain_backward ls1 x ?g] => destruct (chain_backward_shape ls1 2 1 x g S' Lx) as (ls2 & gx & EB & _) end.
      { rewrite app_length, tab_length, skipn_length, Lg. reflexivity. }
      rewrite EB. cbn [bind]. eauto. }
    destruct X as (m' & E). destruct (call_grads a (fun _ => d0) m ls (MSE d0) lo 2 1 (CStep x [d1]) m' W Lx E) as (ls' & lo' & W' & _). eauto 8. }
  destruct (St _ _ _ [d1; DNan false] W eq_refl) as (m1 & ls1 & lo1 & E1 & W1). destruct (St _ _ _ [d1; d1] W1 eq_refl) as (m2 & ls2 & lo2 & E2 & _).
  exists m2. split; [exact W|]. split; [apply Forall_cons; [discriminate|]; apply Forall_cons; [discriminate|constructor]|].
  split; [exists (DNan false); split; [right; now left|now exists false]|]. split; [repeat constructor|]. cbn [app foldM]. rewrite E1. cbn [bind]. rewrite E2. reflexivity.
Qed.
Example c90_predict_met : forall a : fpu, exists (m : model (node dbl)) ls kd lo, network m ls kd lo 2 1 /\ wide ls /\ nans (params ls) /\ (exists l, In l ls /\ knd l = KDense).
Proof.
  intros a. destruct (c90_batch_met a) as (m & m' & W & Wd & Nx & HS & E).
  destruct (c90_batch a _ _ _ _ _ _ _ _ _ _ _ _ _ W eq_refl Wd ltac:(lia) Nx HS E) as (G & _). destruct (G d1) as (m2 & ls2 & lo2 & _ & W2 & Sh & N2).
  exists m2, ls2, (MSE d0), lo2. split; [exact W2|]. split; [now apply (wide_shapes (ex_dense d0))|]. split; [exact N2|].
  destruct ls2 as [|l ls2]; [discriminate|]. exists l. split; [now left|]. now injection Sh as K _ _.
Qed.
(** The square of 2^600, a finite double, overflows; it is the gradient of a weight. *)
Example c90_adam_dead_met : let g := DFin false (2 ^ 600) in fin binary64 g /\ bad (dmul binary64 g g) /\ fin binary64 d1 /\
  exists m, network m (ex_dense g) (MSE d0) (@loss_new dbl (NumD binary64) 1 1) 2 1 /\ nth 0 (grads (ex_dense g)) d0 = g.
Proof.
  intros g. assert (F : fin binary64 g).
  { assert (E : (2 ^ 600 = 1 * powerRZ 2 600)%R) by (change 600%Z with (Z.of_nat 600); rewrite <- pow_powerRZ; lra). unfold g. rewrite E. apply b64; [lia|lia|]. rewrite <- E.
    eapply Rle_trans; [|apply (big_ge _ ieee_binary64)]. apply pow_ge. lia. }
  split; [exact F|]. split.
  - apply c90_overflow; [apply ieee_binary64|exact F|]. unfold g. cbn [dval]. rewrite Rabs_right by (apply Rle_ge, pow_le; lra). apply pow_ge. lia.
  - split; [apply fin_1, ieee_binary64|]. destruct (ex_net binary64 g) as (s & W). exists (ex_model binary64 g s). split; [exact W|reflexivity].
Qed.

Print Assumptions c90_batch.
Print Assumptions c90_predict.
Print Assumptions c90_stays.
Print Assumptions c90_score.
Print Assumptions c90_accuracy_refuted.
Print Assumptions c90_adam_poison.
Print Assumptions c90_adam_dead.
Print Assumptions c90_overflow.
Print Assumptions c90_adam_local_refuted.
