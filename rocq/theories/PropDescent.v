(** C68: a training step with a small enough learning rate decreases the cost. *)
From Coq Require Import Reals Lra.
From Verif Require Import Base Num RSum DatasetModel MathModel MathProofs LayerModel LossModel LossSpec PropLoss GradSpec GradProofs GradChain OptModel GraphModel GraphProofs
  ModelModel NodeModel ChainProofs ModelProofs PropModel TrainProofs FitModel PropFit PropStep.
Local Open Scope R_scope.

(** *** What the statement says *)
(** [c] is the cost of [m] on a list of rows: the sum of the losses of its predictions. *)
Definition total_cost draw kd (m : model (node R)) (rows : row_list) (c : R) : Prop :=
  exists cs, Forall2 (fun xt c => cost_at draw kd m (fst xt) (snd xt) c) rows cs /\ c = sum cs.
(** Some weight or bias of a dense layer has a non-zero derivative of the cost on [rows]. *)
Definition improvable draw kd (m : model (node R)) (rows : row_list) : Prop :=
  exists q l s p ds, nth_error (mnodes m) q = Some (NL l, s) /\ knd l = KDense /\
    ((p < length (wts l))%nat /\ Forall2 (wpartial draw kd m q p) rows ds \/ (p < length (bias l))%nat /\ Forall2 (bpartial draw kd m q p) rows ds) /\ sum ds <> 0.

(** *** Uniqueness *)
Lemma cost_unique draw kd m x t c c' : cost_at draw kd m x t c -> cost_at draw kd m x t c' -> c = c'.
Proof. intros (m1 & y & E & ->) (m2 & y' & E' & ->). rewrite E in E'. injection E' as <- <-. reflexivity. Qed.
Lemma wpartial_unique draw kd m q p xt d d' : wpartial draw kd m q p xt d -> wpartial draw kd m q p xt d' -> d = d'.
Proof.
  intros (l & s & C & E & _ & HC & D) (l' & s' & C' & E' & _ & HC' & D'). rewrite E in E'. injection E' as <- <-.
  apply (uniqueness_limite C 0); [exact D|]. eapply derivable_pt_lim_ext; [|exact D'].
  intros z. exact (cost_unique _ _ _ _ _ _ _ (HC' z) (HC z)).
Qed.
Lemma bpartial_unique draw kd m q p xt d d' : bpartial draw kd m q p xt d -> bpartial draw kd m q p xt d' -> d = d'.
Proof.
  intros (l & s & C & E & _ & HC & D) (l' & s' & C' & E' & _ & HC' & D'). rewrite E in E'. injection E' as <- <-.
  apply (uniqueness_limite C 0); [exact D|]. eapply derivable_pt_lim_ext; [|exact D'].
  intros z. exact (cost_unique _ _ _ _ _ _ _ (HC' z) (HC z)).
Qed.
Lemma Forall2_unique {A} (P : A -> R -> Prop) : (forall a d d', P a d -> P a d' -> d = d') ->
  forall l ds ds', Forall2 P l ds -> Forall2 P l ds' -> ds = ds'.
Proof.
  intros U. induction l as [|a l IH]; intros ds ds' F F'; inversion F; inversion F'; subst; [reflexivity|]. f_equal; eauto.
Qed.
Lemma Forall_choose {A B} (P : A -> B -> Prop) l : Forall (fun a => exists b, P a b) l -> exists bs, Forall2 P l bs.
Proof.
  induction 1 as [|a l (b & Hb) _ (bs & IH)]; [exists []; constructor|]. exists (b :: bs). now constructor.
Qed.

Lemma Forall2_of_nth {A} (P : A -> A -> Prop) : forall l l', length l' = length l ->
  (forall q a b, nth_error l q = Some a -> nth_error l' q = Some b -> P a b) -> Forall2 P l l'.
Proof.
  induction l as [|a l IH]; intros [|b l'] L HP; cbn [length] in L; try lia; constructor.
  - exact (HP 0%nat a b eq_refl eq_refl).
  - apply IH; [lia|]. intros q. exact (HP (S q)).
Qed.

(** *** Sums *)
Lemma sum_Rsum {A} n (F : A -> nat -> R) l : sum (map (fun a => Rsum n (F a)) l) = Rsum n (fun q => sum (map (fun a => F a q) l)).
Proof.
  induction l as [|a l IH]; cbn [map]; unfold sum in *; cbn [fold_right]; [symmetry; now apply Rsum_0|]. rewrite IH, <- Rsum_plus. reflexivity.
Qed.
Lemma sum_scale {A} c (F : A -> R) l : sum (map (fun a => F a * c) l) = sum (map F l) * c.
Proof. induction l as [|a l IH]; unfold sum in *; cbn [map fold_right]; [ring|]. rewrite IH. ring. Qed.
Lemma sum_plus {A} (F G : A -> R) l : sum (map (fun a => F a + G a) l) = sum (map F l) + sum (map G l).
Proof. induction l as [|a l IH]; unfold sum in *; cbn [map fold_right]; [ring|]. rewrite IH. ring. Qed.
Lemma dlim_sum {A} (F : A -> R -> R) (P : A -> R -> Prop) l ds :
  (forall a d, P a d -> derivable_pt_lim (F a) 0 d) -> Forall2 P l ds ->
  derivable_pt_lim (fun s => sum (map (fun a => F a s) l)) 0 (sum ds).
Proof.
  intros HP. induction 1 as [|a d l ds Hd _ IH]; unfold sum in *; cbn [map fold_right]; [apply dlim_const|].
  apply (dlim_plus (F a)); auto.
Qed.
Lemma descend f d : derivable_pt_lim f 0 d -> d < 0 -> exists e, 0 < e /\ forall h, 0 < h < e -> f h < f 0.
Proof.
  intros D Hd. destruct (D (- d) ltac:(lra)) as (dl & K). exists dl. split; [apply cond_pos|]. intros h (H0 & H1).
  specialize (K h ltac:(lra) ltac:(rewrite Rabs_right; lra)). rewrite Rplus_0_l in K. apply Rabs_def2 in K. destruct K as (K & _).
  assert (Q : (f h - f 0) / h < 0) by lra. apply (Rmult_lt_compat_r h) in Q; [|lra]. unfold Rdiv in Q. rewrite Rmult_assoc, Rinv_l in Q by lra. lra.
Qed.
Lemma Rsum_pos_one n f k : (forall i, (i < n)%nat -> 0 <= f i) -> (k < n)%nat -> 0 < f k -> 0 < Rsum n f.
Proof.
  intros HN Hk HP. apply Rlt_le_trans with (Rsum n (fun i => if (i =? k)%nat then f k else 0)).
  - rewrite (Rsum_single n k) by (auto; intros i _ Hi; apply Nat.eqb_neq in Hi; now rewrite Hi). now rewrite Nat.eqb_refl.
  - apply Rsum_le. intros i Hi. destruct (Nat.eqb_spec i k) as [->|]; [lra|auto].
Qed.

(** *** Values depend on kinds and parameters only *)
Definition like_params (l l' : layer R) : Prop := knd l' = knd l /\ wts l' = wts l /\ bias l' = bias l.
Lemma net_value_like : forall (ls ls' : list (layer R)) n k k' x, Forall2 like_params ls ls' -> nshape ls n k -> nshape ls' n k' ->
  length x = n -> net_value ls' x = net_value ls x.
Proof.
  induction ls as [|l ls IH]; intros ls' n k k' x P HS HS' Hx; inversion P as [|? l' ? ls0 (K & Kw & Kb) P2]; subst; [reflexivity|].
  destruct HS as (j & A & B), HS' as (j' & A' & B').
  assert (j' = j).
  { destruct A as (_ & _ & _ & S4), A' as (_ & _ & _ & S4'). rewrite K in S4'. destruct (knd l); [|destruct S4, S4'; congruence].
    destruct S4 as (_ & _ & X & _), S4' as (_ & _ & X' & _). congruence. }
  subst j'. unfold net_value. cbn [fold_left].
  assert (E : layer_sem l' x = layer_sem l x).
  { unfold layer_sem. rewrite K, Kw, Kb. destruct A as (_ & _ & O & _), A' as (_ & _ & O' & _). rewrite O, O'. reflexivity. }
  rewrite E. destruct (layer_forward_sem l (length x) j x A eq_refl) as (_ & L). exact (IH ls0 j k k' _ P2 B B' L).
Qed.

(** *** One row, all parameters moving *)
Lemma step_curve draw m ls kd lo n k x t :
  network m ls kd lo n k -> (0 < k)%nat -> ls_in lo = k -> row_ok draw kd m ls n k (x, t) ->
  exists ls', length ls' = length ls /\ step_adds draw kd (factor kd k lo) m (x, t) ls ls' /\
    forall cs, map base cs = ls -> Forall lcurve_ok cs -> (forall s, nshape (map (at_t s) cs) n k) ->
    exists d, derivable_pt_lim (fun s => loss_value kd t (net_value (map (at_t s) cs) x)) 0 d /\
      factor kd k lo * d = param_terms cs ls'.
Proof.
  intros W Hk Hin (Hx & Ht & Hsm & HD0). cbn [fst snd] in *.
  destruct (c54_step_adds_the_gradient draw m ls kd lo n k x t W Hk Hin Hx Ht Hsm HD0)
    as (m' & ls' & lo' & E & W' & P & _ & _ & _ & _ & A).
  exists ls'. split; [exact (Forall2_len _ _ _ P)|]. split; [exact A|].
  assert (HD : loss_defined kd t (net_value ls x)).
  { destruct (predict_net draw m ls kd lo n k x W Hx) as (m1 & E1). exact (HD0 _ _ E1). }
  pose proof (nw_shape _ _ _ _ _ _ W) as HS.
  destruct (chain_forward_net ls n k x HS Hx) as (ls1 & EF & Ly).
  destruct (loss_fwd kd lo t (net_value ls x) k Hk Ht Ly Hin HD) as (lo1 & EL & T1 & I1 & G1 & V1 & _).
  assert (HG1 : length (ls_grad lo1) = k) by (rewrite G1; apply W).
  pose proof (loss_bwd kd lo1 t (net_value ls x) k Hk T1 Ht Ly HG1 HD) as EB.
  set (g := tab k (fun i => factor kd k lo1 * nth i (loss_grad kd t (net_value ls x)) 0)) in *.
  assert (Hg : length g = k) by apply tab_length.
  rewrite (c36_step _ _ _ _ draw m ls kd lo n k x t W), EF in E. cbn [bind] in E. rewrite EL in E. cbn [bind] in E.
  rewrite EB in E. cbn [bind] in E. destruct (chain_backward ls1 x g) as [(ls2, gx)| |] eqn:EC; try discriminate.
  cbn [bind] in E. injection E as <-.
  assert (L2 : ls2 = ls').
  { pose proof (nw_nodes _ _ _ _ _ _ W') as N. cbn [mnodes] in N. rewrite place_fst in N. apply app_inj_tail in N.
    apply map_NL_inj. apply N. }
  subst ls2. intros cs Mb Hok Hsz.
  assert (M0 : map (at_t 0) cs = ls).
  { rewrite <- Mb. apply map_ext_in. intros c Hc. pose proof (proj1 (Forall_forall _ _) Hok c Hc) as (W0 & B0 & _).
    unfold at_t. rewrite W0, B0. now destruct (base c). }
  destruct (chain_vjp cs n k (fun _ => x) (repeat 0 n)) as (run & y & w & F & D & B).
  - rewrite Mb. now apply nshape_chain.
  - exact Hok.
  - rewrite <- Hx. apply const_deriv.
  - rewrite M0. exact Hsm.
  - assert (YS : forall s, y s = net_value (map (at_t s) cs) x).
    { intros s. destruct (chain_forward_net _ n k x (Hsz s) Hx) as (l0 & E' & _). rewrite F in E'. congruence. }
    assert (Y0 : y 0 = net_value ls x) by (rewrite YS, M0; reflexivity).
    exists (dotl k (loss_grad kd t (net_value ls x)) w). split.
    + pose proof (loss_curve kd t k y w D Hk ltac:(rewrite Y0; exact HD)) as DL. rewrite Y0 in DL.
      eapply derivable_pt_lim_ext; [|exact DL]. intros s. cbn beta. now rewrite YS.
    + assert (R0 : run 0 = ls1) by (specialize (F 0); rewrite M0, EF in F; congruence).
      destruct (B g Hg) as (l0 & gx' & E' & _ & Q & _). rewrite R0, EC in E'. injection E' as <- <-.
      rewrite dotl_zero, Rplus_0_l in Q. rewrite <- Q. unfold g. rewrite dotl_scale.
      assert (Ff : factor kd k lo1 = factor kd k lo) by (unfold factor; rewrite V1; reflexivity). now rewrite Ff.
Qed.

(** *** The curve of networks a batch moves along *)
(** From layer [l] towards [l1], reached at 1. *)
Definition toward (a b : list R) (s : R) : list R := tab (length a) (fun i => nth i a 0 - s * (nth i a 0 - nth i b 0)).
Definition away (a b : list R) : list R := tab (length a) (fun i => - (nth i a 0 - nth i b 0)).
Definition mv (c : layer R * layer R) : lcurve :=
  mkLcurve (fst c) (toward (wts (fst c)) (wts (snd c))) (toward (bias (fst c)) (bias (snd c)))
    (away (wts (fst c)) (wts (snd c))) (away (bias (fst c)) (bias (snd c))).
Lemma toward_0 a b : toward a b 0 = a.
Proof.
  unfold toward. apply (list_ext_nth 0); [apply tab_length|]. intros i Hi. rewrite tab_length in Hi. rewrite nth_tab by exact Hi. ring.
Qed.
Lemma toward_deriv a b : vec_deriv (length a) (toward a b) (away a b).
Proof.
  split; [intros; apply tab_length|]. split; [apply tab_length|]. intros i Hi. unfold away. rewrite nth_tab by exact Hi.
  apply (derivable_pt_lim_ext (fun s => nth i a 0 - s * (nth i a 0 - nth i b 0))).
  { intros s. unfold toward. now rewrite nth_tab. }
  eapply dlim_eq.
  - apply (dlim_minus (fun _ => nth i a 0) (fun s => s * (nth i a 0 - nth i b 0))); [apply dlim_const|].
    apply (dlim_mult (fun s => s) (fun _ => nth i a 0 - nth i b 0)); [apply dlim_id|apply dlim_const].
  - ring.
Qed.
Lemma mv_ok c : lcurve_ok (mv c).
Proof. split; [apply toward_0|]. split; [apply toward_0|]. split; apply toward_deriv. Qed.
Lemma mv_sizes c s : same_sizes (fst c) (at_t s (mv c)).
Proof.
  intros n k (S1 & S2 & S3 & S4). unfold lshape, at_t, mv, toward. cbn [base cw cb insz ig out knd wts wgrad bias bgrad].
  rewrite !tab_length. auto.
Qed.

Definition lterm (c : lcurve) (l : layer R) : R :=
  ddot (length (dw c)) (wgrad l) (wgrad (base c)) (dw c) + ddot (length (db c)) (bgrad l) (bgrad (base c)) (db c).
Lemma param_terms_Rsum dc dl : forall cs ls, length ls = length cs ->
  param_terms cs ls = Rsum (length cs) (fun q => lterm (nth q cs dc) (nth q ls dl)).
Proof.
  induction cs as [|c cs IH]; intros [|l ls] L; cbn [length] in L; try lia; [reflexivity|].
  cbn [param_terms length]. rewrite Rsum_shift, (IH ls) by lia. reflexivity.
Qed.

(** What the rows add to one gradient cell, in total. *)
Lemma cells_sum (P : list R * list R -> R -> Prop) (f : R) (cell : list (layer R) -> R) rows : forall Ls ds,
  (forall a d d', P a d -> P a d' -> d = d') -> Forall2 P rows ds ->
  Forall2 (fun xt ls' => exists d, P xt d /\ cell ls' = f * d) rows Ls ->
  sum (map cell Ls) = f * sum ds.
Proof.
  intros Ls ds U F1. revert Ls. induction F1 as [|xt d rows ds Hd _ IH]; intros Ls F2; inversion F2 as [|? ls' ? Ls' (d' & Hd' & E) F3]; subst;
    unfold sum in *; cbn [map fold_right]; [ring|]. rewrite (IH _ F3), E, (U _ _ _ Hd' Hd). ring.
Qed.

Definition sq_norm (a b : list R) : R := Rsum (length a) (fun i => (nth i a 0 - nth i b 0) * (nth i a 0 - nth i b 0)).
Lemma sq_norm_nonneg a b : 0 <= sq_norm a b.
Proof. apply Rsum_nonneg. intros i _. apply Rle_0_sqr. Qed.
Lemma sq_norm_0 a b : length b = length a -> sq_norm a b = 0 -> b = a.
Proof.
  intros L E. apply (list_ext_nth 0); [exact L|]. intros i Hi. rewrite L in Hi.
  destruct (Req_dec (nth i a 0 - nth i b 0) 0) as [Z|Z]; [lra|].
  pose proof (Rsum_pos_one (length a) (fun i => (nth i a 0 - nth i b 0) * (nth i a 0 - nth i b 0)) i (fun i _ => Rle_0_sqr _) Hi (Rlt_0_sqr _ Z)) as Q.
  unfold sq_norm in E. lra.
Qed.

Theorem c68_small_rate_descends : forall draw m ls kd lo n k rows,
  network m ls kd lo n k -> (0 < k)%nat -> ls_in lo = k -> 0 < ls_inv lo -> Forall cleared ls ->
  Forall (row_ok draw kd m ls n k) rows ->
  exists eta0, 0 < eta0 /\ forall eta, 0 < eta < eta0 ->
    exists m' c c', batch draw eta rows m = Ok m' /\ total_cost draw kd m rows c /\ total_cost draw kd m' rows c' /\
      c' <= c /\ (improvable draw kd m rows -> c' < c).
Proof.
  intros draw m ls kd lo n k rows W Hk Hin Hinv HC HR.
  set (f := factor kd k lo). assert (Hf : 0 < f).
  { unfold f, factor. destruct kd; [exact Hinv|]. apply Rmult_lt_0_compat; [now apply lt_0_INR|exact Hinv]. }
  destruct (c55_batch_is_gradient_descent draw 1 m ls kd lo n k rows W Hk Hin HC HR)
    as (m1 & ls1 & lo1 & cs1 & _ & W1 & _ & _ & KN1 & _ & _ & _ & GD1).
  assert (LEN : length ls1 = length ls) by (rewrite <- (map_length knd ls1), KN1; apply map_length).
  (* layer by layer: the direction *)
  assert (DIR : forall q l l1, nth_error ls q = Some l -> nth_error ls1 q = Some l1 ->
     knd l1 = knd l /\ length (wts l1) = length (wts l) /\ length (bias l1) = length (bias l) /\
     (knd l = KDense ->
       (forall p, (p < length (wts l))%nat -> exists ds, Forall2 (wpartial draw kd m q p) rows ds /\ nth p (wts l) 0 - nth p (wts l1) 0 = f * sum ds) /\
       (forall p, (p < length (bias l))%nat -> exists ds, Forall2 (bpartial draw kd m q p) rows ds /\ nth p (bias l) 0 - nth p (bias l1) 0 = f * sum ds)) /\
     (knd l <> KDense -> wts l1 = wts l /\ bias l1 = bias l)).
  { intros q l l1 E E1. destruct (node_at m ls kd lo n k q l W E) as (s & EN).
    destruct (GD1 q l s EN) as (l1' & s' & EN' & K & Lw & Lb & D & ND).
    pose proof (node_of m1 ls1 kd lo1 n k q l1' s' W1 EN') as E1'. rewrite E1 in E1'. injection E1' as <-.
    split; [exact K|]. split; [exact Lw|]. split; [exact Lb|]. split; [|exact ND]. intros KD. destruct (D KD) as (Dw & Db).
    split; intros p Hp; [destruct (Dw p Hp) as (ds & A & B)|destruct (Db p Hp) as (ds & A & B)]; exists ds; (split; [exact A|]); rewrite B; unfold f; ring. }
  set (cs := map mv (combine ls ls1)).
  assert (LC : length cs = length ls) by (unfold cs; rewrite map_length, combine_length; lia).
  assert (Mb : map base cs = ls).
  { unfold cs. rewrite map_map. cbn [mv base]. rewrite <- (map_ext _ _ (fun c => eq_refl (fst c))).
    clear - LEN. revert ls1 LEN. induction ls as [|l ls IH]; intros [|l1 ls1] L; cbn [length] in L; try lia; [reflexivity|].
    cbn [combine map fst]. f_equal. apply IH. lia. }
  assert (Hok : Forall lcurve_ok cs) by (unfold cs; rewrite Forall_map; apply Forall_forall; intros c _; apply mv_ok).
  assert (Hsz : forall s, nshape (map (at_t s) cs) n k).
  { intros s. apply (nshape_sizes ls); [|apply W]. rewrite <- Mb at 1. unfold cs. rewrite !map_map. clear.
    induction (combine ls ls1) as [|c l IH]; cbn [map]; constructor; auto. apply mv_sizes. }
  (* every row *)
  assert (RWS : exists Ls, Forall2 (fun xt ls' => length ls' = length ls /\ step_adds draw kd f m xt ls ls' /\
      exists d, derivable_pt_lim (fun s => loss_value kd (snd xt) (net_value (map (at_t s) cs) (fst xt))) 0 d /\ f * d = param_terms cs ls') rows Ls).
  { apply Forall_choose. eapply Forall_impl; [|exact HR]. intros (x, t) Hr.
    destruct (step_curve draw m ls kd lo n k x t W Hk Hin Hr) as (ls' & L & A & B). exists ls'. split; [exact L|]. split; [exact A|].
    destruct (B cs Mb Hok Hsz) as (d & D & E). exists d. auto. }
  destruct RWS as (Ls & F).
  assert (DS : exists Ds, Forall2 (fun xt d => derivable_pt_lim (fun s => loss_value kd (snd xt) (net_value (map (at_t s) cs) (fst xt))) 0 d) rows Ds /\
      f * sum Ds = sum (map (param_terms cs) Ls)).
  { clear - F. induction F as [|xt ls' rows Ls (_ & _ & d & D & E) _ (Ds & F1 & F2)].
    - exists []. split; [constructor|]. unfold sum. cbn. ring.
    - exists (d :: Ds). split; [now constructor|]. unfold sum in *. cbn [map fold_right]. rewrite <- F2, <- E. ring. }
  destruct DS as (Ds & FD & ED).
  set (C := fun s => sum (map (fun xt => loss_value kd (snd xt) (net_value (map (at_t s) cs) (fst xt))) rows)).
  assert (DC : derivable_pt_lim C 0 (sum Ds)).
  { unfold C. apply (dlim_sum (fun xt s => loss_value kd (snd xt) (net_value (map (at_t s) cs) (fst xt)))
      (fun xt d => derivable_pt_lim (fun s => loss_value kd (snd xt) (net_value (map (at_t s) cs) (fst xt))) 0 d)); auto. }
  set (dl := mkLayer (T := R) KDense 0 [] [] [] [] [] []).
  set (Q := Rsum (length cs) (fun q => sq_norm (wts (nth q ls dl)) (wts (nth q ls1 dl)) + sq_norm (bias (nth q ls dl)) (bias (nth q ls1 dl)))).
  (* the derivative is minus the squared length *)
  assert (SL : f * sum Ds = - Q).
  { rewrite ED.
    assert (E1 : map (param_terms cs) Ls = map (fun ls' => Rsum (length cs) (fun q => lterm (nth q cs (mv (dl, dl))) (nth q ls' dl))) Ls).
    { apply map_ext_in. intros ls' Hl. apply param_terms_Rsum. rewrite LC. clear - F Hl. induction F as [|? ? ? ? (L & _) _ IH]; [destruct Hl|].
      destruct Hl as [<-|Hl]; auto. }
    rewrite E1, sum_Rsum. replace (- Q) with (-1 * Q) by ring. unfold Q. rewrite <- Rsum_scal_l.
    apply Rsum_ext. intros q Hq. rewrite LC in Hq.
    destruct (nth_error ls q) as [l|] eqn:El; [|apply nth_error_None in El; lia].
    destruct (nth_error ls1 q) as [l1|] eqn:El1; [|apply nth_error_None in El1; lia].
    rewrite (nth_error_nth _ _ dl El), (nth_error_nth _ _ dl El1).
    assert (Ec : nth q cs (mv (dl, dl)) = mv (l, l1)).
    { unfold cs. rewrite map_nth, combine_nth by (symmetry; exact LEN). now rewrite (nth_error_nth _ _ dl El), (nth_error_nth _ _ dl El1). }
    rewrite Ec. unfold lterm. rewrite sum_plus. cbn [mv base dw db fst snd]. unfold away at 1 3. rewrite !tab_length.
    destruct (DIR q l l1 El El1) as (K & Lw & Lb & DD & ND).
    assert (AD : Forall2 (fun xt ls' => exists l', nth_error ls' q = Some l' /\
      (forall p, (p < length (wts l))%nat -> exists d, wpartial draw kd m q p xt d /\ nth p (wgrad l') 0 = nth p (wgrad l) 0 + f * d) /\
      (forall p, (p < length (bias l))%nat -> exists d, bpartial draw kd m q p xt d /\ nth p (bgrad l') 0 = nth p (bgrad l) 0 + f * d)) rows Ls).
    { clear - F El. induction F as [|xt ls' rows Ls (_ & A & _) _ IH]; constructor; auto. }
    unfold ddot. rewrite !sum_Rsum.
    assert (G : forall (grad : layer R -> list R) (a b : list R) (part : nat -> list R * list R -> R -> Prop),
      (forall p xt d d', part p xt d -> part p xt d' -> d = d') ->
      Forall2 (fun xt ls' => exists l', nth_error ls' q = Some l' /\
        forall p, (p < length a)%nat -> exists d, part p xt d /\ nth p (grad l') 0 = nth p (grad l) 0 + f * d) rows Ls ->
      (b = a \/ forall p, (p < length a)%nat -> exists ds, Forall2 (part p) rows ds /\ nth p a 0 - nth p b 0 = f * sum ds) ->
      Rsum (length a) (fun p => sum (map (fun ls' => (nth p (grad (nth q ls' dl)) 0 - nth p (grad l) 0) * nth p (away a b) 0) Ls)) = -1 * sq_norm a b).
    { intros grad a b part U FA HB. unfold sq_norm. rewrite <- Rsum_scal_l. apply Rsum_ext. intros p Hp. rewrite sum_scale.
      unfold away. rewrite nth_tab by exact Hp. destruct HB as [->|HB]; [rewrite Rminus_diag_eq by reflexivity; ring|].
      destruct (HB p Hp) as (ds & F1 & E2). rewrite (cells_sum (part p) f _ rows Ls ds (U p) F1); [rewrite E2; ring|].
      clear - FA Hp. induction FA as [|xt ls' rows Ls (l' & El' & A) _ IH]; constructor; auto.
      destruct (A p Hp) as (d & D & E). exists d. split; [exact D|]. rewrite (nth_error_nth _ _ dl El'), E. ring. }
    rewrite (G wgrad (wts l) (wts l1) (fun p => wpartial draw kd m q p)).
    - rewrite (G bgrad (bias l) (bias l1) (fun p => bpartial draw kd m q p)).
      + ring.
      + intros p xt d d'. apply bpartial_unique.
      + clear - AD. induction AD as [|? ? ? ? (l' & A & _ & B) _ IH]; constructor; eauto.
      + destruct (knd l) eqn:KL; [right; apply (DD eq_refl)|left; apply ND; discriminate].
    - intros p xt d d'. apply wpartial_unique.
    - clear - AD. induction AD as [|? ? ? ? (l' & A & B & _) _ IH]; constructor; eauto.
    - destruct (knd l) eqn:KL; [right; apply (DD eq_refl)|left; apply ND; discriminate]. }
  (* where a batch with rate eta ends *)
  assert (COSTS : forall (mm : model (node R)) lss l0, network mm lss kd l0 n k -> 
     total_cost draw kd mm rows (sum (map (fun xt => loss_value kd (snd xt) (net_value lss (fst xt))) rows))).
  { intros mm lss l0 WW. eexists. split; [|reflexivity]. clear - WW HR. induction HR as [|(x, t) rows (Hx & _) _ IH]; cbn [map]; constructor; auto.
    exact (cost_net draw mm lss kd l0 n k x t WW Hx). }
  assert (MV : forall eta, exists m' ls' lo', batch draw eta rows m = Ok m' /\ network m' ls' kd lo' n k /\
     sum (map (fun xt => loss_value kd (snd xt) (net_value ls' (fst xt))) rows) = C eta).
  { intros eta. destruct (c55_batch_is_gradient_descent draw eta m ls kd lo n k rows W Hk Hin HC HR)
      as (m' & ls' & lo' & cs' & E' & W' & _ & _ & KN' & _ & _ & _ & GD').
    exists m', ls', lo'. split; [exact E'|]. split; [exact W'|]. unfold C. f_equal. apply map_ext_in. intros (x, t) Hr. cbn [fst snd]. f_equal.
    pose proof (proj1 (Forall_forall _ _) HR _ Hr) as (Hx & _). cbn [fst] in Hx.
    apply (net_value_like (map (at_t eta) cs) ls' n k k x); [|apply Hsz|apply W'|exact Hx].
    assert (L' : length ls' = length ls) by (rewrite <- (map_length knd ls'), KN'; apply map_length).
    apply (Forall2_of_nth (A := layer R)); [rewrite map_length, LC; congruence|].
    intros q a b Ea Eb. rewrite nth_error_map in Ea. destruct (nth_error cs q) as [c|] eqn:Ec; [|discriminate]. injection Ea as <-.
    assert (Hq : (q < length ls)%nat) by (rewrite <- L'; apply nth_error_Some; congruence).
    destruct (nth_error ls q) as [l|] eqn:El; [|apply nth_error_None in El; lia].
    destruct (nth_error ls1 q) as [l1|] eqn:El1; [|apply nth_error_None in El1; lia].
    assert (c = mv (l, l1)).
    { apply (nth_error_nth _ _ (mv (dl, dl))) in Ec. rewrite <- Ec. unfold cs.
      rewrite map_nth, combine_nth by (symmetry; exact LEN). now rewrite (nth_error_nth _ _ dl El), (nth_error_nth _ _ dl El1). }
    subst c. destruct (DIR q l l1 El El1) as (K & Lw & Lb & DD & ND).
    destruct (node_at m ls kd lo n k q l W El) as (s & EN). destruct (GD' q l s EN) as (b' & s' & EN' & K' & Lw' & Lb' & D' & ND').
    pose proof (node_of m' ls' kd lo' n k q b' s' W' EN') as Eb'. rewrite Eb in Eb'. injection Eb' as <-.
    unfold like_params, at_t, mv. cbn [base cw cb knd wts bias fst snd]. split; [exact K'|].
    assert (G : forall (u v w : list R) (part : nat -> list R * list R -> R -> Prop), (forall p xt d d', part p xt d -> part p xt d' -> d = d') ->
      length w = length u ->
      (v = u /\ w = u \/ forall p, (p < length u)%nat -> (exists ds, Forall2 (part p) rows ds /\ nth p u 0 - nth p v 0 = f * sum ds) /\
         (exists ds, Forall2 (part p) rows ds /\ nth p w 0 = nth p u 0 - eta * (f * sum ds))) -> w = toward u v eta).
    { intros u v w part U Lu HB. apply (list_ext_nth 0); [unfold toward; rewrite tab_length; exact Lu|]. intros p Hp. rewrite Lu in Hp.
      unfold toward. rewrite nth_tab by exact Hp. destruct HB as [(-> & ->)|HB]; [ring|].
      destruct (HB p Hp) as ((ds & F1 & E1) & (ds' & F2 & E2)). rewrite E2, E1. rewrite (Forall2_unique _ (U p) _ _ _ F1 F2). reflexivity. }
    split.
    - apply (G _ _ _ (fun p => wpartial draw kd m q p)); [intros p xt d d'; apply wpartial_unique|exact Lw'|].
      destruct (knd l) eqn:KL; [right; intros p Hp; split; [apply (DD eq_refl)|apply (D' eq_refl)]; exact Hp|left; split; [apply ND|apply ND']; discriminate].
    - apply (G _ _ _ (fun p => bpartial draw kd m q p)); [intros p xt d d'; apply bpartial_unique|exact Lb'|].
      destruct (knd l) eqn:KL; [right; intros p Hp; split; [apply (DD eq_refl)|apply (D' eq_refl)]; exact Hp|left; split; [apply ND|apply ND']; discriminate]. }
  assert (M0 : map (at_t 0) cs = ls).
  { transitivity (map base cs); [|exact Mb]. apply map_ext_in. intros c Hc. pose proof (proj1 (Forall_forall _ _) Hok c Hc) as (W0 & B0 & _).
    unfold at_t. rewrite W0, B0. now destruct (base c). }
  assert (C0 : total_cost draw kd m rows (C 0)) by (unfold C; rewrite M0; exact (COSTS m ls lo W)).
  assert (QN : 0 <= Q) by (apply Rsum_nonneg; intros q _; pose proof (sq_norm_nonneg (wts (nth q ls dl)) (wts (nth q ls1 dl)));
    pose proof (sq_norm_nonneg (bias (nth q ls dl)) (bias (nth q ls1 dl))); lra).
  destruct (Req_dec Q 0) as [Q0|Q0].
  - (* nothing moves *)
    assert (SAME : forall q l l1, nth_error ls q = Some l -> nth_error ls1 q = Some l1 -> wts l1 = wts l /\ bias l1 = bias l).
    { intros q l l1 El El1. destruct (DIR q l l1 El El1) as (_ & Lw & Lb & _).
      assert (Hq : (q < length cs)%nat) by (rewrite LC; apply nth_error_Some; congruence).
      destruct (Req_dec (sq_norm (wts l) (wts l1) + sq_norm (bias l) (bias l1)) 0) as [Z|Z].
      - pose proof (sq_norm_nonneg (wts l) (wts l1)). pose proof (sq_norm_nonneg (bias l) (bias l1)).
        split; apply sq_norm_0; auto; lra.
      - exfalso. assert (0 < Q); [|lra]. unfold Q. apply (Rsum_pos_one _ _ q); [|exact Hq|].
        + intros i _. pose proof (sq_norm_nonneg (wts (nth i ls dl)) (wts (nth i ls1 dl))).
          pose proof (sq_norm_nonneg (bias (nth i ls dl)) (bias (nth i ls1 dl))). lra.
        + cbn beta. rewrite (nth_error_nth _ _ dl El), (nth_error_nth _ _ dl El1).
          pose proof (sq_norm_nonneg (wts l) (wts l1)). pose proof (sq_norm_nonneg (bias l) (bias l1)). lra. }
    assert (CC : forall s, C s = C 0).
    { intros s. unfold C. f_equal. apply map_ext_in. intros (x, t) Hr. f_equal. f_equal. cbn [fst snd].
      apply map_ext_in. intros c Hc. unfold cs in Hc. apply in_map_iff in Hc. destruct Hc as ((l, l1) & <- & Hc).
      apply (In_nth_error (combine ls ls1)) in Hc. destruct Hc as (q & Eq). 
      assert (EE : nth_error ls q = Some l /\ nth_error ls1 q = Some l1).
      { clear - Eq. revert ls ls1 Eq. induction q as [|q IH]; intros [|a ls] [|b ls1] Eq; cbn in *; try discriminate; [injection Eq as <- <-; auto|auto]. }
      destruct (SAME q l l1 (proj1 EE) (proj2 EE)) as (A & B). unfold at_t, mv. cbn [base cw cb fst snd]. rewrite A, B.
      assert (TS : forall (u : list R) z, toward u u z = u).
      { intros u z. unfold toward. apply (list_ext_nth 0); [apply tab_length|]. intros i Hi. rewrite tab_length in Hi. rewrite nth_tab by exact Hi. ring. }
      now rewrite !TS. }
    exists 1. split; [lra|]. intros eta He. destruct (MV eta) as (m' & ls' & lo' & E' & W' & EC).
    exists m', (C 0), (C 0). split; [exact E'|]. split; [exact C0|]. split; [rewrite <- (CC eta), <- EC; exact (COSTS m' ls' lo' W')|].
    split; [lra|]. intros (q & l & s & p & ds & EN & KD & HP & HS). exfalso. apply HS.
    pose proof (node_of m ls kd lo n k q l s W EN) as El.
    destruct (nth_error ls1 q) as [l1|] eqn:El1; [|apply nth_error_None in El1; rewrite LEN in El1; apply nth_error_None in El1; congruence].
    destruct (SAME q l l1 El El1) as (A & B). destruct (DIR q l l1 El El1) as (_ & _ & _ & DD & _). destruct (DD KD) as (Dw & Db).
    destruct HP as [(Hp & F1)|(Hp & F1)].
    + destruct (Dw p Hp) as (ds' & F2 & E2). rewrite (Forall2_unique _ (fun a d d' => wpartial_unique draw kd m q p a d d') _ _ _ F1 F2).
      rewrite A, Rminus_diag_eq in E2 by reflexivity. symmetry in E2. apply Rmult_integral in E2. destruct E2; [lra|assumption].
    + destruct (Db p Hp) as (ds' & F2 & E2). rewrite (Forall2_unique _ (fun a d d' => bpartial_unique draw kd m q p a d d') _ _ _ F1 F2).
      rewrite B, Rminus_diag_eq in E2 by reflexivity. symmetry in E2. apply Rmult_integral in E2. destruct E2; [lra|assumption].
  - (* downhill *)
    assert (ND : sum Ds < 0) by nra.
    destruct (descend C (sum Ds) DC ND) as (e & He & HD). exists e. split; [exact He|]. intros eta Hr.
    destruct (MV eta) as (m' & ls' & lo' & E' & W' & EC). exists m', (C 0), (C eta).
    split; [exact E'|]. split; [exact C0|]. split; [rewrite <- EC; exact (COSTS m' ls' lo' W')|].
    specialize (HD eta Hr). split; [lra|]. intros _. exact HD.
Qed.
Print Assumptions c68_small_rate_descends.

Lemma pick_all (rows : row_list) : pick rows (seq 0 (length rows)) = rows.
Proof.
  unfold pick. apply (list_ext_nth ([], [])); [now rewrite map_length, seq_length|].
  intros i Hi. rewrite map_length, seq_length in Hi.
  rewrite (nth_indep _ ([], []) (nth 0 rows ([], []))) by now rewrite map_length, seq_length.
  rewrite (map_nth (fun i => nth i rows ([], []))), seq_nth by exact Hi. reflexivity.
Qed.
(** One epoch of training with all rows in one batch. *)
Theorem c68_epoch_descends : forall draw m ls kd lo n k (d : dataset R) rows bs fuel,
  network m ls kd lo n k -> (0 < k)%nat -> ls_in lo = k -> 0 < ls_inv lo -> Forall cleared ls ->
  rows_of d rows -> Forall (row_ok draw kd m ls n k) rows -> (1 <= ds_size d <= bs)%nat -> (ds_size d <= fuel)%nat ->
  exists eta0, 0 < eta0 /\ forall eta, 0 < eta < eta0 ->
    exists m' c c', fit_sequential draw eta d fuel 1 bs m = Some (Ok m') /\
      total_cost draw kd m rows c /\ total_cost draw kd m' rows c' /\ c' <= c /\ (improvable draw kd m rows -> c' < c).
Proof.
  intros draw m ls kd lo n k d rows bs fuel W Hk Hin Hinv HC HR HO (Hs & Hb) Hf.
  destruct (c68_small_rate_descends draw m ls kd lo n k rows W Hk Hin Hinv HC HO) as (eta0 & He & D).
  exists eta0. split; [exact He|]. intros eta Hr. destruct (D eta Hr) as (m' & c & c' & E & T).
  exists m', c, c'. split; [|exact T].
  destruct (c39_sequential (ds_size d) bs ltac:(lia)) as (bl & B & F). unfold fit_sequential. rewrite F by exact Hf.
  assert (EB : bl = [seq 0 (ds_size d)]).
  { apply (c39_batches_unique (ds_size d) bs); [exact B|]. split; [cbn; apply app_nil_r|]. split; [|constructor].
    constructor; [rewrite seq_length; lia|constructor]. }
  subst bl. cbn [repeat concat flat_map]. rewrite !app_nil_r. rewrite (exec_batch draw eta d rows _ m HR).
  - rewrite <- (proj1 HR), pick_all, E. reflexivity.
  - apply Forall_forall. intros i Hi. apply in_seq in Hi. rewrite (proj1 HR). lia.
Qed.
Print Assumptions c68_epoch_descends.

(** One weight, one bias, both 0, on the row 1 -> 3: the derivative for the weight is -6. *)
Definition ex68_dense : layer R := mkLayer KDense 1 [0] [0] [0] [0] [0] [0].
Definition ex68_layers : list (layer R) := [ex68_dense; mkLayer (KAct Linear) 1 [] [] [] [] [0] [0]].
Definition ex68_lo : lossl R := loss_new 1 1.
Example c68_hypotheses_met : exists m : model (node R),
  network m ex68_layers (MSE 1) ex68_lo 1 1 /\ ls_in ex68_lo = 1%nat /\ 0 < ls_inv ex68_lo /\ Forall cleared ex68_layers /\
  Forall (row_ok (fun _ => 0) (MSE 1) m ex68_layers 1 1) [([1], [3])] /\ improvable (fun _ => 0) (MSE 1) m [([1], [3])].
Proof.
  destruct (c36_built true 2 (le_n 2)) as (s & E & H1 & H2 & H3 & H4 & H5).
  set (m := mkModel s (map (fun s => (s, SNull)) (map NL ex68_layers ++ [NO (MSE 1) ex68_lo]))). exists m.
  assert (W : network m ex68_layers (MSE 1) ex68_lo 1 1).
  { constructor; cbn [mgraph mnodes m].
    - exact (is_chain_built _ _ true 2 E (le_n 2) H1 H2 H3 H4 H5).
    - cbn. lia.
    - reflexivity.
    - cbn [nshape ex68_layers]. exists 1%nat. split; [|exists 1%nat; split; [|reflexivity]].
      + unfold lshape. cbn. auto 10.
      + unfold lshape. cbn. split; [auto|]. split; [auto|]. split; [auto|]. split; [auto|]. discriminate.
    - reflexivity. }
  split; [exact W|]. split; [reflexivity|]. split; [change (0 < 1 / 1); lra|].
  split. { constructor; [|constructor; [|constructor]]; intros K; [|discriminate]. split; intros [|[|p]]; reflexivity. }
  split.
  { constructor; [|constructor]. split; [reflexivity|]. split; [reflexivity|]. split; [|intros; exact I].
    apply (smooth_everywhere ex68_layers 1 1 [1] (nw_shape _ _ _ _ _ _ W) eq_refl). repeat constructor. }
  assert (N : nth_error (mnodes m) 0 = Some (NL ex68_dense, SNull)) by reflexivity.
  exists 0%nat, ex68_dense, SNull, 0%nat, [-6]. split; [exact N|]. split; [reflexivity|]. split; [|unfold sum; cbn; lra].
  left. split; [cbn; lia|]. constructor; [|constructor].
  exists ex68_dense, SNull, (fun z => loss_value (MSE 1) [3] (net_value (upd ex68_layers 0 (with_weight ex68_dense 0 z)) [1])).
  split; [exact N|]. split; [cbn; lia|]. split.
  { intros z. apply (cost_net _ _ (upd ex68_layers 0 (with_weight ex68_dense 0 z)) _ ex68_lo 1 1); [|reflexivity].
    eapply put_network; [exact W|reflexivity|apply with_weight_sizes]. }
  apply (derivable_pt_lim_ext (fun z => (3 - z) * (3 - z))).
  { intros z. unfold loss_value, mse_value. cbn. field. }
  eapply dlim_eq.
  - apply (dlim_mult (fun z => 3 - z) (fun z => 3 - z)); apply (dlim_minus (fun _ => 3) (fun z => z)); try apply dlim_const; apply dlim_id.
  - ring.
Qed.
