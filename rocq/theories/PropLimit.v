(** C76: rounded computations approach the exact ones. *)
From Coq Require Import Reals Lra Lia.
From Verif Require Import Base Num RSum DatasetModel MathModel MathProofs LayerModel LossModel GraphModel ModelModel NodeModel GradSpec GradProofs
  ChainProofs ModelProofs PropModel TrainProofs InitModel FitModel PropFit PropStep PropTraining RoundModel RoundSpec RoundProofs LimitSpec LimitProofs LimitLayers.
Local Open Scope R_scope.

(** *** The error of one dense layer *)
Section Error.
Variables (rnd : R -> R) (u : R).
Hypothesis Hp : precise rnd u.

Lemma u_pos : 0 <= u.
Proof. pose proof (pr_err _ _ Hp 1) as E. rewrite Rabs_R1 in E. pose proof (Rabs_pos (rnd 1 - 1)). lra. Qed.

Lemma sum_error b (f : nat -> R) n :
  let A := Rabs b + Rsum n (fun j => Rabs (f j)) in
  Rabs (@nsum_from R (NumF rnd) b n (fun j => rnd (f j)) - @nsum_from R NumR b n f) <= ((1 + u) ^ (n + 1) - 1) * A.
Proof.
  pose proof u_pos as Hu. induction n as [|n IH]; cbv zeta in *.
  - cbn [nsum_from Rsum]. change (Rabs (b - b) <= ((1 + u) ^ (0 + 1) - 1) * (Rabs b + 0)).
    rewrite Rminus_diag_eq, Rabs_R0 by reflexivity. cbn [Nat.add pow]. pose proof (Rabs_pos b). nra.
  - rewrite !nsum_from_S. cbn [nadd NumF NumR Rsum].
    set (sh := @nsum_from R (NumF rnd) b n (fun j => rnd (f j))) in *.
    set (se := @nsum_from R NumR b n f) in *.
    set (A := Rabs b + Rsum n (fun j => Rabs (f j))) in *.
    replace (Rabs b + (Rsum n (fun j => Rabs (f j)) + Rabs (f n))) with (A + Rabs (f n)) by (unfold A; ring).
    assert (HS : Rabs se <= A).
    { unfold se, A. rewrite nsum_from_Rsum. eapply Rle_trans; [apply Rabs_triang|]. apply Rplus_le_compat_l.
      clear. induction n as [|n IH]; cbn [Rsum]; [rewrite Rabs_R0; lra|]. eapply Rle_trans; [apply Rabs_triang|]. lra. }
    set (q := (1 + u) ^ (n + 1)) in *.
    assert (Hq : 1 + u <= q).
    { unfold q. rewrite Nat.add_1_r. cbn [pow]. assert (1 <= (1 + u) ^ n) by (apply pow_R1_Rle; lra). nra. }
    replace ((1 + u) ^ (S n + 1)) with ((1 + u) * q) by (unfold q; cbn [Nat.add pow]; reflexivity).
    pose proof (pr_err _ _ Hp (f n)) as E1. pose proof (Rabs_pos (f n)) as P1.
    set (z := sh + rnd (f n)).
    assert (E2 : Rabs (z - (se + f n)) <= (q - 1) * (A + Rabs (f n))).
    { unfold z. replace (sh + rnd (f n) - (se + f n)) with ((sh - se) + (rnd (f n) - f n)) by ring.
      eapply Rle_trans; [apply Rabs_triang|]. nra. }
    assert (E3 : Rabs z <= q * (A + Rabs (f n))).
    { replace z with ((z - (se + f n)) + (se + f n)) by ring. eapply Rle_trans; [apply Rabs_triang|].
      assert (Rabs (se + f n) <= A + Rabs (f n)) by (eapply Rle_trans; [apply Rabs_triang|]; lra). lra. }
    pose proof (pr_err _ _ Hp z) as E4.
    replace (rnd z - (se + f n)) with ((rnd z - z) + (z - (se + f n))) by ring.
    eapply Rle_trans; [apply Rabs_triang|].
    assert (u * Rabs z <= u * (q * (A + Rabs (f n)))) by (now apply Rmult_le_compat_l).
    lra.
Qed.
End Error.

(** Whatever the rounding, every output of a dense layer differs from the exact one by at most
    (1+u)^(inputs+1) - 1 times the sum of the magnitudes that were added. *)
Theorem c76_dense_error : forall rnd u (t : TransOps R) (l : layer R) n k x, precise rnd u -> knd l = KDense -> lshape l n k -> length x = n ->
  exists yh y, @layer_forward R (NumF rnd) t l x = Ok (set_out l yh) /\ @layer_forward R NumR TransR l x = Ok (set_out l y) /\
    length yh = k /\ length y = k /\
    forall i, (i < k)%nat -> Rabs (nth i yh 0 - nth i y 0) <=
      ((1 + u) ^ (n + 1) - 1) * (Rabs (nth i (bias l) 0) + Rsum n (fun j => Rabs (nth (i * n + j) (wts l) 0 * nth j x 0))).
Proof.
  intros rnd u t l n k x Hp K (S1 & S2 & S3 & S4) Lx. rewrite K in S4. destruct S4 as (A1 & A2 & A3 & A4).
  unfold layer_forward. rewrite K. rewrite S3, Lx.
  rewrite (@dense_spec R (NumF rnd) 0), (@dense_spec R NumR 0) by lia. rewrite !skipn_all2, !app_nil_r by lia. cbn [bind].
  eexists. eexists. split; [reflexivity|]. split; [reflexivity|]. split; [apply tab_length|]. split; [apply tab_length|].
  intros i Hi. rewrite !nth_tab by exact Hi.
  exact (sum_error rnd u Hp (nth i (bias l) 0) (fun j => nth (i * n + j) (wts l) 0 * nth j x 0) n).
Qed.
Print Assumptions c76_dense_error.

(** *** Predictions *)
(** [yh] is within [eps] of [y], entry by entry. *)
Definition near (eps : R) (y yh : list R) : Prop :=
  length yh = length y /\ forall i, Rabs (nth i yh 0 - nth i y 0) <= eps.
Lemma vtends_near Y y eps : vtends Y y -> 0 < eps -> eventually (fun a => near eps y (Y a)).
Proof.
  intros (LY & HY) He.
  apply (ev_mono (fun a => forall i, (i < length y)%nat -> Rabs (nth i (Y a) 0 - nth i y 0) <= eps)).
  - intros a HA. split; [apply LY|]. intros i. destruct (Nat.lt_ge_cases i (length y)) as [Hi|Hi]; [now apply HA|].
    rewrite !nth_overflow by (rewrite ?LY; lia). rewrite Rminus_diag_eq, Rabs_R0 by reflexivity. lra.
  - apply (ev_all (fun i a => Rabs (nth i (Y a) 0 - nth i y 0) <= eps)). intros i _. now apply HY.
Qed.

Lemma const_llim l n k : lshape l n k -> llim (fun _ => l) l n k.
Proof. intros S. constructor; auto using vtends_const. Qed.
Lemma const_clim ls : forall n k, nshape ls n k -> clim (map (fun l _ => l) ls) ls n k.
Proof.
  induction ls as [|l ls IH]; intros n k; cbn [nshape map].
  - intros ->. constructor.
  - intros (j & HL & HS). econstructor; [apply const_llim; eassumption|now apply IH].
Qed.
Lemma const_at a (ls : list (layer R)) : at_ a (map (fun l _ => l) ls) = ls.
Proof. unfold at_. rewrite map_map. apply map_id. Qed.
Lemma const_mlim kd n k m ls lo : network m ls kd lo n k -> ls_in lo = k ->
  mlim kd n k (fun _ => m) m (map (fun l _ => l) ls) ls.
Proof.
  intros W Hin. constructor; [apply const_clim; apply W|]. exists lo, (fun _ => lo).
  split; [exact W|]. split; [intros a; rewrite const_at; exact W|]. split; [exact Hin|]. split; [auto|apply tends_const].
Qed.

(** The prediction of a network in any arithmetic that is precise enough. *)
Theorem c76_predictions : forall draw (m : model (node R)) ls kd lo n k x, network m ls kd lo n k -> ls_in lo = k -> length x = n ->
  exists m' y, m_predict (node_ops draw) m x = Ok (m', y) /\ length y = k /\
    forall eps, 0 < eps -> eventually (fun a => exists ma ya, predictF a draw m x = Ok (ma, ya) /\ near eps y ya).
Proof.
  intros draw m ls kd lo n k x W Hin Lx.
  destruct (predict_lim draw kd n k _ m _ ls x (const_mlim kd n k m ls lo W Hin) Lx) as (y & m' & Y & M' & E & EA & Ly & HY).
  exists m', y. split; [exact E|]. split; [exact Ly|]. intros eps He.
  apply (ev_mono (fun a => near eps y (Y a))); [|now apply vtends_near]. intros a HA. exists (M' a), (Y a). auto.
Qed.
Print Assumptions c76_predictions.

(** *** Training *)
Definition batchF (a : arith) (draw : nat -> R) (eta : R) (rows : row_list) (m : model (node R)) : res (model (node R)) :=
  m1 <- resetF a m ;; m2 <- foldM (fun m xt => stepF a draw m (fst xt) (snd xt)) rows m1 ;; trainF a eta m2.

Lemma reset_lim kd n k M m Ls ls : mlim kd n k M m Ls ls ->
  exists M' m', m_reset_score m = Ok m' /\ (forall a, resetF a (M a) = Ok (M' a)) /\ mlim kd n k M' m' Ls ls.
Proof.
  intros [C (lo & Lo & W & WA & H1 & H2 & H3)].
  destruct (reset_net m ls kd lo n k W) as (m' & E & W').
  assert (EA : forall a, exists q, resetF a (M a) = Ok q /\ network q (at_ a Ls) kd (@reset_score R (a_num a) (Lo a)) n k).
  { intros a. exact (@reset_net R (a_num a) (M a) (at_ a Ls) kd (Lo a) n k (WA a)). }
  exists (fun a => run_or (resetF a (M a)) m), m'. split; [exact E|]. split.
  - intros a. destruct (EA a) as (q & -> & _). reflexivity.
  - constructor; [exact C|]. exists (reset_score lo), (fun a => @reset_score R (a_num a) (Lo a)).
    split; [exact W'|]. split; [|split; [exact H1|split; [exact H2|exact H3]]].
    intros a. destruct (EA a) as (q & -> & Q). exact Q.
Qed.

Lemma steps_lim draw kd n k rows : (0 < k)%nat -> forall M m Ls ls, mlim kd n k M m Ls ls -> Forall (row_fits kd n k) rows ->
  Forall (fun xt : list R * list R => chain_smooth ls (fst xt)) rows ->
  exists M' m' Ls' ls', steps draw rows m = Ok m' /\
    (forall a, foldM (fun m xt => stepF a draw m (fst xt) (snd xt)) rows (M a) = Ok (M' a)) /\
    mlim kd n k M' m' Ls' ls' /\ Forall2 same_params ls ls'.
Proof.
  intros Hk. unfold steps. induction rows as [|(x, t) rows IH]; intros M m Ls ls Q HF HS.
  - exists M, m, Ls, ls. split; [reflexivity|]. split; [reflexivity|]. split; [exact Q|apply all_same_refl].
  - inversion HF as [|? ? F1 F2]; subst. inversion HS as [|? ? S1 S2]; subst. cbn [fst] in S1.
    destruct (step_lim draw kd n k M m Ls ls x t Hk Q F1 S1) as (M1 & m1 & Ls1 & ls1 & E & EA & Q1 & SP).
    destruct (clim_shape _ _ _ _ (ml_chain _ _ _ _ _ _ _ Q)) as (NS & _). destruct (clim_shape _ _ _ _ (ml_chain _ _ _ _ _ _ _ Q1)) as (NS1 & _).
    destruct (IH M1 m1 Ls1 ls1 Q1 F2) as (M2 & m2 & Ls2 & ls2 & E2 & EA2 & Q2 & SP2).
    { rewrite Forall_forall in S2, F2 |- *. intros r Hr. apply (chain_smooth_same ls ls1 n k); auto. apply (F2 r Hr). }
    exists M2, m2, Ls2, ls2. cbn [foldM fst snd]. rewrite E. cbn [bind]. split; [exact E2|]. split.
    + intros a. rewrite EA. cbn [bind]. apply EA2.
    + split; [exact Q2|]. eapply all_same_trans; eauto.
Qed.

Lemma batch_lim draw eta kd n k rows M m Ls ls : (0 < k)%nat -> mlim kd n k M m Ls ls -> Forall (row_fits kd n k) rows ->
  Forall (fun xt : list R * list R => chain_smooth ls (fst xt)) rows ->
  exists M' m' Ls' ls', batch draw eta rows m = Ok m' /\ (forall a, batchF a draw eta rows (M a) = Ok (M' a)) /\
    mlim kd n k M' m' Ls' ls' /\ map knd ls' = map knd ls.
Proof.
  intros Hk Q HF HS. destruct (reset_lim kd n k M m Ls ls Q) as (M1 & m1 & E1 & EA1 & Q1).
  destruct (steps_lim draw kd n k rows Hk M1 m1 Ls ls Q1 HF HS) as (M2 & m2 & Ls2 & ls2 & E2 & EA2 & Q2 & SP).
  destruct (train_lim eta kd n k M2 m2 Ls2 ls2 Q2) as (M3 & m3 & E3 & EA3 & Q3).
  exists M3, m3. eexists. eexists. split; [unfold batch; rewrite E1; cbn [bind]; rewrite E2; exact E3|]. split.
  - intros a. unfold batchF. rewrite EA1. cbn [bind]. rewrite EA2. cbn [bind]. apply EA3.
  - split; [exact Q3|]. clear - SP. induction SP as [|l l' ls ls' (K & _) _ IH]; [reflexivity|]. cbn [map]. f_equal; [|exact IH].
    unfold trained. destruct (knd l') eqn:K'; cbn [knd]; congruence.
Qed.

(** The exact training meets no kink: at the start of every batch the network is differentiable
    at the rows of the batch. *)
Definition no_kinks draw eta kd n k (rows : row_list) (bl : list (list nat)) (m : model (node R)) : Prop :=
  forall b1 b b2 m1, b1 ++ b :: b2 = bl -> foldM (fun m b => batch draw eta (pick rows b) m) b1 m = Ok m1 ->
    forall ls lo, network m1 ls kd lo n k -> Forall (fun xt : list R * list R => chain_smooth ls (fst xt)) (pick rows b).

Lemma pick_Forall (P : list R * list R -> Prop) rows b : Forall P rows -> Forall (fun i => (i < length rows)%nat) b -> Forall P (pick rows b).
Proof.
  intros HP Hb. rewrite Forall_forall in *. intros r Hr. apply in_map_iff in Hr. destruct Hr as (i & <- & Hi). apply HP. apply nth_In. auto.
Qed.
Lemma batches_lim draw eta kd n k rows : (0 < k)%nat -> Forall (row_fits kd n k) rows -> forall bl M m Ls ls,
  mlim kd n k M m Ls ls -> Forall (Forall (fun i => (i < length rows)%nat)) bl ->
  no_kinks draw eta kd n k rows bl m \/ Forall smooth_kind ls ->
  exists M' m' Ls' ls', foldM (fun m b => batch draw eta (pick rows b) m) bl m = Ok m' /\
    (forall a, foldM (fun m b => batchF a draw eta (pick rows b) m) bl (M a) = Ok (M' a)) /\ mlim kd n k M' m' Ls' ls'.
Proof.
  intros Hk HF. induction bl as [|b bl IH]; intros M m Ls ls Q HB HK.
  - exists M, m, Ls, ls. auto.
  - inversion HB as [|? ? Hb HB']; subst.
    assert (SM : Forall (fun xt : list R * list R => chain_smooth ls (fst xt)) (pick rows b)).
    { destruct HK as [HK|HK].
      - destruct (ml_net _ _ _ _ _ _ _ Q) as (lo & Lo & W & _). exact (HK [] b bl m eq_refl eq_refl ls lo W).
      - apply pick_Forall; [|exact Hb]. eapply Forall_impl; [|exact HF]. intros (x, t) (L1 & _). cbn [fst] in *.
        apply (smooth_everywhere ls n k); auto. apply (clim_shape _ _ _ _ (ml_chain _ _ _ _ _ _ _ Q)). }
    destruct (batch_lim draw eta kd n k (pick rows b) M m Ls ls Hk Q (pick_Forall _ _ _ HF Hb) SM)
      as (M1 & m1 & Ls1 & ls1 & E & EA & Q1 & KK).
    destruct (IH M1 m1 Ls1 ls1 Q1 HB') as (M2 & m2 & Ls2 & ls2 & E2 & EA2 & Q2).
    { destruct HK as [HK|HK]; [left|right].
      - intros b1 b' b2 mx Eb Ef. apply (HK (b :: b1) b' b2 mx); [cbn; congruence|]. cbn [foldM]. rewrite E. exact Ef.
      - clear - KK HK. revert ls1 KK. induction HK as [|l ls HL _ IH]; intros [|l2 ls2] KK; try discriminate; constructor.
        + injection KK as K _. unfold smooth_kind in *. now rewrite K.
        + apply IH. now injection KK. }
    exists M2, m2, Ls2, ls2. cbn [foldM]. rewrite E. cbn [bind]. split; [exact E2|]. split; [|exact Q2].
    intros a. rewrite EA. cbn [bind]. apply EA2.
Qed.

(** fit from given initial weights: the loss layer is created (its factor is computed in the
    arithmetic at hand), then the training loop runs. *)
Definition fit_from (NT : NumOps R) (TT : TransOps R) (draw : nat -> R) kd eta d fuel epochs batch (m : model (node R)) : option (res (model (node R))) :=
  match @fit_losses R NT kd batch m with
  | Ok m => @fit_sequential R NT TT LimR draw eta d fuel epochs batch m
  | Throw => Some Throw
  | UB => Some UB
  end.

Lemma exec_batchF a draw eta d rows b m : rows_of d rows -> Forall (fun i => (i < length rows)%nat) b ->
  foldM (exec (@row_step R (a_num a) (a_fun a) LimR draw d) (resetF a) (trainF a eta)) (batch_calls b) m = batchF a draw eta (pick rows b) m.
Proof.
  intros (L & HR) Hb. unfold batch_calls, batchF. cbn [foldM exec].
  destruct (resetF a m) as [m1| |]; cbn [bind]; try reflexivity.
  rewrite foldM_app.
  set (st := foldM (fun m xt => stepF a draw m (fst xt) (snd xt)) (pick rows b)).
  transitivity (m2 <- st m1 ;; foldM (exec (@row_step R (a_num a) (a_fun a) LimR draw d) (resetF a) (trainF a eta)) [ETrain] m2).
  2:{ destruct (st m1) as [m2| |]; cbn [bind]; try reflexivity. cbn [foldM exec]. now destruct (trainF a eta m2). }
  f_equal. subst st. revert m1. induction b as [|i b IH]; intros m1; [reflexivity|].
  inversion Hb as [|? ? Hi Hb']; subst. cbn [map foldM exec pick].
  destruct (nth_error rows i) as [(x, t)|] eqn:E; [|apply nth_error_None in E; lia].
  rewrite (nth_error_nth _ _ ([], []) E). cbn [fst snd]. unfold row_step. destruct (HR i x t E) as (E1 & E2).
  change (@n0 R (a_num a)) with 0. rewrite E1. cbn [bind]. rewrite E2. cbn [bind].
  change (m_step (node_ops draw) m1 x t) with (stepF a draw m1 x t).
  destruct (stepF a draw m1 x t) as [m2| |]; cbn [bind]; auto.
Qed.
Lemma exec_batchesF a draw eta d rows : rows_of d rows -> forall bl m, Forall (Forall (fun i => (i < length rows)%nat)) bl ->
  foldM (exec (@row_step R (a_num a) (a_fun a) LimR draw d) (resetF a) (trainF a eta)) (flat_map batch_calls bl) m
  = foldM (fun m b => batchF a draw eta (pick rows b) m) bl m.
Proof.
  intros HR. induction bl as [|b bl IH]; intros m F; [reflexivity|].
  inversion F; subst. cbn [flat_map]. rewrite foldM_app, (exec_batchF a draw eta d rows b m) by auto. cbn [foldM].
  destruct (batchF a draw eta (pick rows b) m); cbn [bind]; auto.
Qed.

Lemma losses_lim kd batch m ls n k : plain m ls n k ->
  exists M m', @fit_losses R NumR kd batch m = Ok m' /\ (forall a, @fit_losses R (a_num a) kd batch m = Ok (M a)) /\
    mlim kd n k M m' (map (fun l _ => l) ls) ls.
Proof.
  intros P. destruct (fit_losses_plain kd batch m ls n k P) as (m' & E & W).
  assert (EA : forall a, exists q, @fit_losses R (a_num a) kd batch m = Ok q /\ network q ls kd (@loss_new R (a_num a) k batch) n k).
  { intros a. exact (@fit_losses_plain R (a_num a) kd batch m ls n k P). }
  exists (fun a => run_or (@fit_losses R (a_num a) kd batch m) m), m'. split; [exact E|]. split.
  - intros a. destruct (EA a) as (q & -> & _). reflexivity.
  - constructor; [apply const_clim; apply P|]. exists (loss_new k batch), (fun a => @loss_new R (a_num a) k batch).
    split; [exact W|]. split; [|split; [reflexivity|split; [reflexivity|]]].
    + intros a. destruct (EA a) as (q & -> & Q). rewrite const_at. exact Q.
    + cbn [loss_new ls_inv]. apply tends_ndiv; [|apply tends_1|apply (tends_nofZ (Z.of_nat (Nat.max batch 1)))].
      apply IZR_neq. lia.
Qed.

(** The parameters of two layers of the same kind and sizes are within [eps]. *)
Definition params_near (eps : R) (l la : layer R) : Prop :=
  knd la = knd l /\ insz la = insz l /\ near eps (wts l) (wts la) /\ near eps (bias l) (bias la).

Lemma clim_near eps Ls ls n k : 0 < eps -> clim Ls ls n k -> eventually (fun a => Forall2 (params_near eps) ls (at_ a Ls)).
Proof.
  intros He. induction 1 as [|L l Ls ls n j k W _ IH].
  - apply ev_true. intros a. constructor.
  - apply (ev_and_mono _ _ _ IH (ev_and _ _ (vtends_near _ _ eps (ll_w _ _ _ _ W) He) (vtends_near _ _ eps (ll_b _ _ _ _ W) He))).
    intros a F (N1 & N2). cbn [at_ map]. constructor; [|exact F].
    split; [apply W|]. split; [|auto]. rewrite (proj1 (ll_shapes _ _ _ _ W a)). symmetry. apply (ll_shape _ _ _ _ W).
Qed.

(** Training from given weights, in any arithmetic that is precise enough: all batches of all
    epochs run, the weights and biases end within [eps] of the exact ones, and so do the
    predictions of the trained network. *)
Definition training_converges draw kd eta d fuel epochs batch m n k : Prop :=
  exists m' ls' lo', fit_from NumR TransR draw kd eta d fuel epochs batch m = Some (Ok m') /\ network m' ls' kd lo' n k /\
    (forall eps, 0 < eps -> eventually (fun a => exists ma lsa loa,
       fit_from (a_num a) (a_fun a) draw kd eta d fuel epochs batch m = Some (Ok ma) /\ network ma lsa kd loa n k /\
       Forall2 (params_near eps) ls' lsa)) /\
    (forall x, length x = n -> exists m'' y, m_predict (node_ops draw) m' x = Ok (m'', y) /\
       forall eps, 0 < eps -> eventually (fun a => exists ma ma' ya,
         fit_from (a_num a) (a_fun a) draw kd eta d fuel epochs batch m = Some (Ok ma) /\
         predictF a draw ma x = Ok (ma', ya) /\ near eps y ya)).

Lemma training_lim draw kd eta d rows fuel epochs bs m ls n k : plain m ls n k -> (0 < k)%nat -> rows_of d rows ->
  Forall (row_fits kd n k) rows -> (1 <= bs)%nat -> (ds_size d <= fuel)%nat ->
  exists bl ml, batches_of (ds_size d) bs bl /\ fit_losses kd bs m = Ok ml /\
    (no_kinks draw eta kd n k rows (concat (repeat bl epochs)) ml \/ Forall smooth_kind ls ->
     training_converges draw kd eta d fuel epochs bs m n k).
Proof.
  intros P Hk HR HF Hb Hf. destruct (losses_lim kd bs m ls n k P) as (M & ml & EL & ELA & Q).
  destruct (c39_sequential (ds_size d) bs Hb) as (bl & B & F). exists bl, ml. split; [exact B|]. split; [exact EL|]. intros HK.
  assert (HB : Forall (Forall (fun i => (i < length rows)%nat)) (concat (repeat bl epochs))).
  { rewrite (proj1 HR). apply batches_lt in B. clear - B. induction epochs as [|e IH]; cbn [repeat concat]; [constructor|]. apply Forall_app; auto. }
  destruct (batches_lim draw eta kd n k rows Hk HF _ M ml _ ls Q HB HK) as (M' & m' & Ls' & ls' & E & EA & Q').
  assert (FE : fit_from NumR TransR draw kd eta d fuel epochs bs m = Some (Ok m')).
  { unfold fit_from. rewrite EL. unfold fit_sequential. rewrite F by exact Hf. rewrite repeat_flat.
    now rewrite (exec_batches draw eta d rows HR _ ml HB), E. }
  assert (FA : forall a, fit_from (a_num a) (a_fun a) draw kd eta d fuel epochs bs m = Some (Ok (M' a))).
  { intros a. unfold fit_from. rewrite ELA. unfold fit_sequential. rewrite F by exact Hf. rewrite repeat_flat.
    change (@m_reset_score R (a_num a)) with (resetF a). change (@m_train R (a_num a) eta) with (trainF a eta).
    now rewrite (exec_batchesF a draw eta d rows HR _ (M a) HB), EA. }
  destruct (ml_net _ _ _ _ _ _ _ Q') as (lo & Lo & W & WA & _).
  exists m', ls', lo. split; [exact FE|]. split; [exact W|]. split.
  - intros eps He. apply (ev_mono (fun a => Forall2 (params_near eps) ls' (at_ a Ls'))); [|exact (clim_near eps Ls' ls' n k He (ml_chain _ _ _ _ _ _ _ Q'))].
    intros a HA. exists (M' a), (at_ a Ls'), (Lo a). auto.
  - intros x Lx. destruct (predict_lim draw kd n k M' m' Ls' ls' x Q' Lx) as (y & m'' & Y & M'' & P1 & P2 & Ly & HY).
    exists m'', y. split; [exact P1|]. intros eps He.
    apply (ev_mono (fun a => near eps y (Y a))); [|now apply vtends_near]. intros a HA. exists (M' a), (M'' a), (Y a). auto.
Qed.

Theorem c76_training : forall draw kd eta d rows fuel epochs bs m ls n k,
  plain m ls n k -> (0 < k)%nat -> rows_of d rows -> Forall (row_fits kd n k) rows -> (1 <= bs)%nat -> (ds_size d <= fuel)%nat ->
  exists bl ml, batches_of (ds_size d) bs bl /\ fit_losses kd bs m = Ok ml /\
    (no_kinks draw eta kd n k rows (concat (repeat bl epochs)) ml -> training_converges draw kd eta d fuel epochs bs m n k).
Proof.
  intros draw kd eta d rows fuel epochs bs m ls n k P Hk HR HF Hb Hf.
  destruct (training_lim draw kd eta d rows fuel epochs bs m ls n k P Hk HR HF Hb Hf) as (bl & ml & B & E & X).
  exists bl, ml. auto.
Qed.
Print Assumptions c76_training.

(** Layers without kinks: nothing is asked of the run. *)
Theorem c76_training_smooth : forall draw kd eta d rows fuel epochs bs m ls n k,
  plain m ls n k -> (0 < k)%nat -> rows_of d rows -> Forall (row_fits kd n k) rows -> (1 <= bs)%nat -> (ds_size d <= fuel)%nat ->
  Forall smooth_kind ls -> training_converges draw kd eta d fuel epochs bs m n k.
Proof.
  intros draw kd eta d rows fuel epochs bs m ls n k P Hk HR HF Hb Hf HS.
  destruct (training_lim draw kd eta d rows fuel epochs bs m ls n k P Hk HR HF Hb Hf) as (bl & ml & B & E & X). auto.
Qed.
Print Assumptions c76_training_smooth.

(** The arithmetics that truncate after p binary digits are arithmetics in this sense, of
    arbitrarily small unit, so "precise enough" is met by arithmetics that do round. *)
Lemma trunc_accurate p : accurate (TransF (trunc p)) (/ 2 ^ p).
Proof.
  pose proof (trunc_rounding p) as Hp. constructor; intros x; cbn [nexp ntanh TransF].
  - pose proof (pr_err _ _ Hp (exp x)) as E. rewrite (Rabs_right (exp x)) in E by (pose proof (exp_pos x); lra). exact E.
  - exact (pr_err _ _ Hp (tanh x)).
Qed.
Definition truncating (p : nat) : arith := mkArith (trunc p) (TransF (trunc p)) (/ 2 ^ p) (trunc_rounding p) (trunc_accurate p).
Lemma units_small u0 : 0 < u0 -> exists p, a_unit (truncating p) <= u0.
Proof.
  intros Hu. destruct (pow_lt_1_zero (/ 2) ltac:(rewrite Rabs_right; lra) u0 Hu) as (N & HN).
  exists N. cbn [a_unit truncating]. pose proof (HN N (le_n N)) as E. rewrite pow_inv in E.
  rewrite Rabs_right in E; [lra|]. apply Rle_ge. left. apply Rinv_0_lt_compat. apply pow_lt. lra.
Qed.

Lemma plain_exists (ls : list (layer R)) n k : length ls = 2%nat -> nshape ls n k -> exists m, plain m ls n k.
Proof.
  intros L NS. destruct (c36_built false 2 (le_n 2)) as (s & E & H1 & H2 & H3 & H4 & H5).
  exists (mkModel s (map (fun l => (NL l, SNull)) ls)). split; [|split; [lia|split; [|exact NS]]].
  - cbn [mgraph]. rewrite L. exact (is_chain_built _ _ false 2 E (le_n 2) H1 H2 H3 H4 H5).
  - cbn [mnodes]. rewrite map_map. reflexivity.
Qed.
(** One input, one output, a ReLU whose input is positive on the only row. *)
Definition ex_relu_layers : list (layer R) :=
  [mkLayer KDense 1 [2] [1] [0] [0] [0] [0]; mkLayer (KAct Relu) 1 [] [] [] [] [0] [0]].
Definition ex_relu_data : dataset R := ds_vec 0 [3; 1] 2 1 [1]%nat.

Example c76_hypotheses_met :
  (forall u0, 0 < u0 -> exists p, a_unit (truncating p) <= u0) /\
  (exists m, plain m ex_step_layers 2 3 /\ rows_of ex_step_data ex_step_rows /\ Forall (row_fits (MSE 1) 2 3) ex_step_rows /\
     Forall smooth_kind ex_step_layers) /\
  (exists m ml, plain m ex_relu_layers 1 1 /\ rows_of ex_relu_data [([3], [1])] /\ Forall (row_fits (MSE 1) 1 1) [([3], [1])] /\
     batches_of (ds_size ex_relu_data) 1 [[0%nat]] /\ fit_losses (MSE 1) 1 m = Ok ml /\
     no_kinks (fun _ => 0) 1 (MSE 1) 1 1 [([3], [1])] [[0%nat]] ml).
Proof.
  split; [exact units_small|]. split.
  - destruct c54_c55_c56_hypotheses_met as (m0 & W & _ & _ & _ & HS & HR & HF & _).
    destruct (plain_exists ex_step_layers 2 3 eq_refl (nw_shape _ _ _ _ _ _ W)) as (m & P).
    exists m. split; [exact P|]. split; [exact HR|]. split; [|exact HS].
    eapply Forall_impl; [|exact HF]. intros (x, t) (A & B). split; [exact A|]. split; [exact B|]. discriminate.
  - assert (NS : nshape ex_relu_layers 1 1).
    { exists 1%nat. split; [|exists 1%nat; split; [|reflexivity]]; unfold lshape; cbn; auto 10. }
    destruct (plain_exists ex_relu_layers 1 1 eq_refl NS) as (m & P).
    destruct (fit_losses_plain (MSE 1) 1 m _ 1 1 P) as (ml & E & W).
    exists m, ml. split; [exact P|]. split.
    { split; [reflexivity|]. intros i x t Hi. destruct i as [|i]; [|destruct i; discriminate]. injection Hi as <- <-. split; reflexivity. }
    split; [constructor; [|constructor]; split; [reflexivity|split; [reflexivity|discriminate]]|].
    split; [split; [reflexivity|split; repeat constructor]|]. split; [exact E|].
    intros b1 b b2 m1 Eb Ef ls lo W1. destruct b1 as [|? b1]; [|injection Eb as _ Eb; destruct b1; discriminate].
    injection Eb as -> ->. cbn [foldM] in Ef. injection Ef as <-.
    rewrite (network_layers_unique _ _ _ _ _ _ _ _ W W1).
    constructor; [|constructor]. cbn [nth fst chain_smooth ex_relu_layers]. split; [exact I|].
    intros l' El. cbn in El. injection El as <-. cbn [out set_out].
    split; [|intros; exact I]. unfold layer_smooth; cbn [knd act_smooth].
    intros i Hi. destruct i as [|i]; [|cbn in Hi; lia]. cbn. lra.
Qed.
