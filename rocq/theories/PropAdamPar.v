(** C87: parallel training with Adam. *)
From Verif Require Import Base Num RSum DatasetModel MathModel MathProofs MathProofsR LayerModel LossModel LossSpec LossProofs OptModel OptProofs GraphModel GraphProofs ModelModel NodeModel
  ChainProofs ModelProofs GradSpec GradProofs GradChain PropLoss PropGraph PropModel TrainProofs PropStep CopyModel PropCopy FitModel ParProofs PropFit PropPar InitModel DynModel AdamProofs AdamParModel.
From Coq Require Import Reals Lra Permutation.
Local Open Scope nat_scope.

Section APar.
Context {T : Type} `{NumOps T} `{TransOps T} `{LimOps T}.
Variables (g : dlgraph) (kd : losskind T) (lo : lossl T) (n k : nat) (sg : list (kind T * nat * nat)).
Hypothesis HG : graph_copy g = g.
Variables (draw : nat -> T).
Let gm := gm g kd lo n k sg.
Let ref := ref (T := T) n k sg.

Lemma PV_params (ls : list (layer T)) : PV ls = flat_map layer_params ls. Proof. reflexivity. Qed.
Lemma GV_grads (ls : list (layer T)) : GV ls = flat_map layer_grads ls. Proof. reflexivity. Qed.
Lemma train_all_av (ls : list (layer T)) : forall a, map av (train_all a ls) = map av ls.
Proof.
  induction ls as [|l ls IH]; intros a; [reflexivity|]. cbn [train_all map]. rewrite IH. f_equal.
  unfold av, atrained. destruct (knd l) eqn:K; [reflexivity|]. now rewrite K.
Qed.
Lemma train_all_gv (ls : list (layer T)) : forall a, GV (train_all a ls) = repeat n0 (length (GV ls)).
Proof.
  unfold GV. induction ls as [|l ls IH]; intros a; [reflexivity|]. cbn [train_all flat_map]. rewrite IH, app_length, repeat_app. f_equal.
  unfold gvec, atrained. destruct (knd l) eqn:K; [|rewrite K; reflexivity]. cbn [knd wgrad bgrad].
  rewrite app_length, repeat_app. reflexivity.
Qed.
Lemma train_all_sig (ls : list (layer T)) : forall a n k, nshape ls n k -> map sig (train_all a ls) = map sig ls.
Proof.
  induction ls as [|l ls IH]; intros a n' k' HS; [reflexivity|]. destruct HS as (j & HL & HS). cbn [train_all map].
  rewrite (IH _ _ _ HS). f_equal. pose proof (atrained_shape a l _ _ HL) as HL'.
  unfold sig, atrained. destruct (knd l) eqn:K; cbn [knd insz out]; rewrite ?K; reflexivity.
Qed.

Lemma train_adam_gm a sh ms c m G ls : ref sh ls -> nth_error ms c = Some m -> gm sh m G ->
  exists sh' m' ls', train_copy_adam a (mkWorld sh ms) c = Ok (after a G, mkWorld sh' (upd ms c m')) /\
    ref sh' ls' /\ PV ls' = amove a (PV ls) G /\ map av ls' = map av ls /\
    gm sh' m' (repeat n0 (length G)) /\ length sh' = length sh /\ length G = length (PV ls).
Proof.
  intros R Em (Eg & EL & l2 & lo2 & W & R2 & SL & EG).
  destruct (network_train_adam a _ l2 kd lo2 n k W) as (m' & E & G' & W').
  pose proof (nw_shape _ _ _ _ _ _ W) as SH.
  assert (ES : shared_of m' = map params (train_all a l2) ++ [([], [])]) by apply (network_shared _ _ _ _ _ _ W').
  assert (R' : ref (shared_of m') (train_all a l2)).
  { rewrite ES. split; [reflexivity|]. split; [apply W'|]. rewrite (train_all_sig l2 a n k SH). apply R2. }
  assert (LS : length (shared_of m') = length sh) by (rewrite (ref_length _ _ _ _ _ R'), (ref_length _ _ _ _ _ R2); reflexivity).
  exists (shared_of m'), m', (train_all a l2).
  unfold train_copy_adam, on_copy, rd, wr. cbn [w_models w_shared]. rewrite Em. cbn [bind]. rewrite E. cbn [bind].
  assert (Lc : c < length ms) by (apply nth_error_Some; congruence). apply Nat.ltb_lt in Lc. rewrite Lc. cbn [bind].
  split; [rewrite <- EG; reflexivity|]. split; [exact R'|].
  assert (PE : PV l2 = PV ls /\ map av l2 = map av ls).
  { assert (F : Forall2 same_params ls l2) by (eapply ref_same; eauto). clear - F. induction F as [|a b la lb (A & B & C & D) F (I1 & I2)]; [auto|].
    unfold PV in *. cbn [flat_map map]. rewrite I1, I2. unfold pvec, av, params. rewrite A, C, D. auto. }
  destruct PE as (PE & AE). rewrite <- PE, <- AE, <- EG.
  split; [rewrite !PV_params, GV_grads; now apply (train_all_params l2 a n k)|]. split; [apply train_all_av|].
  split; [|split; [exact LS|exact (all_grads_length l2 n k SH)]].
  split; [rewrite G'; exact Eg|]. split; [unfold shared_of; now rewrite map_length|].
  exists (train_all a l2), lo2. rewrite view_shared. split; [exact W'|]. split; [exact R'|]. split; [exact SL|].
  apply train_all_gv.
Qed.

Section Round.
Variables (tasks : list (list (list T * list T))) (Dss : list (list (list T))).

Lemma aruns_gm a ls sh m G : ref sh ls -> gm sh m G -> Forall2 (Forall2 (adds ls kd lo n k draw)) tasks Dss ->
  forall p ms fin, (forall j, In j p -> j < length tasks) -> nth_error ms 0 = Some m ->
  NoDup (map snd fin) ->
  (forall j c, In (j, c) fin -> 0 < c < length ms /\ exists mc, nth_error ms c = Some mc /\ gm sh mc (task_grad Dss G j)) ->
  exists ms' fin', foldM (apar_step draw tasks) (map PRun p) (a, mkWorld sh ms, fin) = Ok (a, mkWorld sh ms', fin') /\
    nth_error ms' 0 = Some m /\ NoDup (map snd fin') /\ map fst fin' = rev p ++ map fst fin /\
    (forall j c, In (j, c) fin' -> 0 < c < length ms' /\ exists mc, nth_error ms' c = Some mc /\ gm sh mc (task_grad Dss G j)).
Proof.
  intros R Gm HF. induction p as [|j p IH]; intros ms fin Hp Em ND HI.
  - exists ms, fin. cbn. auto 10.
  - assert (Hj : j < length tasks) by (apply Hp; now left).
    destruct (nth_error tasks j) as [rows|] eqn:EJ; [|apply nth_error_None in EJ; lia].
    destruct (Forall2_nth_error _ _ _ _ _ HF EJ) as (Ds & ED & FD).
    destruct (task_gm g kd lo n k sg HG draw ls rows Ds sh ms m G R FD Em Gm) as (m' & E & Gm' & _).
    assert (TG : task_grad Dss G j = fold_left vadd Ds G).
    { unfold task_grad. now rewrite (nth_error_nth _ _ _ ED). }
    assert (L0 : 0 < length ms) by (destruct ms; [discriminate|cbn; lia]).
    destruct (IH (ms ++ [m']) ((j, length ms) :: fin)) as (ms' & fin' & E' & A1 & A2 & A3 & A4).
    + intros i Hi. apply Hp. now right.
    + rewrite nth_error_app1 by lia. exact Em.
    + cbn [map snd]. constructor; [|exact ND]. intros Hin. apply in_map_iff in Hin. destruct Hin as ((j0, c0) & Ec & Hin).
      cbn in Ec. subst c0. apply HI in Hin. lia.
    + intros j0 c0 [E0|Hin].
      * injection E0 as <- <-. rewrite app_length. cbn [length]. split; [lia|]. exists m'.
        rewrite nth_error_app2, Nat.sub_diag by lia. split; [reflexivity|]. rewrite TG. exact Gm'.
      * destruct (HI j0 c0 Hin) as (Hc & mc & Emc & Gmc). rewrite app_length. split; [lia|]. exists mc.
        rewrite nth_error_app1 by lia. auto.
    + exists ms', fin'. split; [|split; [exact A1|split; [exact A2|split; [|exact A4]]]].
      * cbn [map foldM]. unfold apar_step at 1. unfold rd. rewrite EJ. cbn [bind]. rewrite E. cbn [bind]. exact E'.
      * rewrite A3. cbn [map fst rev]. rewrite <- app_assoc. reflexivity.
Qed.

(** Adam's state and the parameters after the gradients [Gs], one after the other. *)
Definition amoves (a : adam T) (P : list T) (Gs : list (list T)) : adam T * list T :=
  fold_left (fun s G => (after (fst s) G, amove (fst s) (snd s) G)) Gs (a, P).

Lemma atrains_gm G m fin : NoDup (map fst fin) -> NoDup (map snd fin) ->
  forall js a sh ms ls, ref sh ls -> NoDup js -> nth_error ms 0 = Some m ->
  (forall j, In j js -> exists c mc, In (j, c) fin /\ c <> 0 /\ nth_error ms c = Some mc /\ gm sh mc (task_grad Dss G j)) ->
  exists sh' ms' ls', foldM (apar_step draw tasks) (map PTrain js) (a, mkWorld sh ms, fin)
      = Ok (fst (amoves a (PV ls) (map (task_grad Dss G) js)), mkWorld sh' ms', fin) /\
    ref sh' ls' /\ PV ls' = snd (amoves a (PV ls) (map (task_grad Dss G) js)) /\ map av ls' = map av ls /\
    nth_error ms' 0 = Some m /\ length sh' = length sh.
Proof.
  intros ND1 ND2. induction js as [|j js IH]; intros a sh ms ls R NDj Em HI.
  - exists sh, ms, ls. cbn. auto 10.
  - destruct (HI j (or_introl eq_refl)) as (c & mc & Hin & Hc & Emc & Gmc).
    destruct (train_adam_gm a sh ms c mc _ ls R Emc Gmc) as (sh1 & m1 & ls1 & E1 & R1 & P1 & A1 & _ & L1 & _).
    assert (Lc : c < length ms) by (apply nth_error_Some; congruence).
    inversion NDj as [|? ? Hnj NDj']; subst.
    destruct (IH (after a (task_grad Dss G j)) sh1 (upd ms c m1) ls1 R1 NDj') as (sh2 & ms2 & ls2 & E2 & R2 & P2 & A2 & M2 & L2).
    + rewrite nth_error_upd by exact Lc. destruct (Nat.eqb_spec 0 c); [congruence|exact Em].
    + intros j' Hj'. destruct (HI j' (or_intror Hj')) as (c' & mc' & Hin' & Hc' & Emc' & Gmc').
      exists c', mc'. split; [exact Hin'|]. split; [exact Hc'|]. split.
      * rewrite nth_error_upd by exact Lc. destruct (Nat.eqb_spec c' c) as [->|]; [|exact Emc'].
        exfalso. assert (j = j') by (eapply snd_inj; eauto). congruence.
      * eapply gm_shared; eauto.
    + exists sh2, ms2, ls2. cbn [map foldM]. unfold apar_step at 1. rewrite (find_fin fin j c ND1 Hin), E1. cbn [bind].
      rewrite P1 in *. split; [exact E2|]. split; [exact R2|]. split; [exact P2|]. split; [congruence|]. split; [exact M2|congruence].
Qed.

Lemma abarrier_round a ls sh ms m G p : ref sh ls -> gm sh m G -> nth_error ms 0 = Some m ->
  Forall2 (Forall2 (adds ls kd lo n k draw)) tasks Dss -> Permutation p (seq 0 (length tasks)) ->
  exists sh' ms' ls', apar_batch draw tasks (barrier p) (a, mkWorld sh ms)
      = Ok (fst (amoves a (PV ls) (map (task_grad Dss G) (seq 0 (length tasks)))), mkWorld sh' ms') /\
    ref sh' ls' /\ PV ls' = snd (amoves a (PV ls) (map (task_grad Dss G) (seq 0 (length tasks)))) /\
    map av ls' = map av ls /\ nth_error ms' 0 = Some m /\ gm sh' m G.
Proof.
  intros R Gm Em HF HP.
  assert (NDp : NoDup p) by (eapply Permutation_NoDup; [apply Permutation_sym, HP|apply seq_NoDup]).
  assert (Lp : length p = length tasks) by (rewrite (Permutation_length HP); apply seq_length).
  destruct (aruns_gm a ls sh m G R Gm HF p ms []) as (ms1 & fin & E1 & M1 & N1 & F1 & Q1).
  - intros j Hj. apply (Permutation_in j HP) in Hj. apply in_seq in Hj. lia.
  - exact Em.
  - constructor.
  - intros j c [].
  - cbn [map] in F1. rewrite app_nil_r in F1.
    destruct (atrains_gm G m fin) with (js := seq 0 (length tasks)) (a := a) (sh := sh) (ms := ms1) (ls := ls)
      as (sh2 & ms2 & ls2 & E2 & R2 & P2 & A2 & M2 & L2); auto.
    + rewrite F1. now apply NoDup_rev.
    + apply seq_NoDup.
    + intros j Hj.
      assert (Hin : In j (map fst fin)).
      { rewrite F1. apply -> in_rev. eapply Permutation_in; [apply Permutation_sym, HP|exact Hj]. }
      apply in_map_iff in Hin. destruct Hin as ((j0, c) & Ej & Hin). cbn in Ej. subst j0.
      destruct (Q1 j c Hin) as (Hc & mc & Emc & Gmc). exists c, mc. split; [exact Hin|]. split; [lia|]. auto.
    + exists sh2, ms2, ls2. unfold apar_batch, barrier. rewrite foldM_app, E1. cbn [bind]. rewrite Lp, E2. cbn [bind].
      split; [reflexivity|]. split; [exact R2|]. split; [exact P2|]. split; [exact A2|]. split; [exact M2|].
      eapply gm_shared; eauto.
Qed.
End Round.

Variable d : dataset T.
Hypothesis Hrow : forall sh ls i, ref sh ls -> i < ds_size d -> exists xt D, ds_input n0 d i = Ok (fst xt) /\
  ds_label n0 d i = Ok (snd xt) /\ adds ls kd lo n k draw xt D.

Lemma tasks_adds sh ls : ref sh ls -> forall b, (forall i, In i (concat b) -> i < ds_size d) ->
  exists tasks Dss, mapM (task_rows d) b = Ok tasks /\ Forall2 (Forall2 (adds ls kd lo n k draw)) tasks Dss.
Proof.
  intros R.
  assert (HT : forall l, (forall i, In i l -> i < ds_size d) -> exists rows Ds, task_rows d l = Ok rows /\ Forall2 (adds ls kd lo n k draw) rows Ds).
  { induction l as [|i l IH]; intros Hl; [exists [], []; split; [reflexivity|constructor]|].
    destruct IH as (rows & Ds & E & F); [intros; apply Hl; now right|].
    destruct (Hrow sh ls i R (Hl i (or_introl eq_refl))) as ((x, t) & D & E1 & E2 & A). cbn [fst snd] in *.
    exists ((x, t) :: rows), (D :: Ds). split; [|constructor; auto]. unfold task_rows in *. cbn [mapM]. rewrite E1, E. cbn [bind]. rewrite E2. reflexivity. }
  induction b as [|l b IH]; intros Hb; [exists [], []; split; [reflexivity|constructor]|]. cbn [concat] in Hb.
  destruct IH as (ts & Dss & E & F); [intros i Hi; apply Hb, in_or_app; now right|].
  destruct (HT l) as (rows & Ds & E1 & F1); [intros i Hi; apply Hb, in_or_app; now left|].
  exists (rows :: ts), (Ds :: Dss). cbn [mapM]. rewrite E1. cbn [bind]. rewrite E. split; [reflexivity|constructor; auto].
Qed.

Lemma amoves_length : forall Gs a P, Forall (fun G => length G = length P) Gs -> length (snd (amoves a P Gs)) = length P.
Proof.
  unfold amoves. induction Gs as [|G Gs IH]; intros a P F; [reflexivity|]. inversion F as [|? ? F1 F2]; subst. cbn [fold_left fst snd].
  assert (LA : length (amove a P G) = length P) by (now apply amove_length).
  rewrite IH; [exact LA|]. now rewrite LA.
Qed.

(** Whatever the order in which the tasks of each round finish, the same parameters. *)
Lemma arounds_equal : forall rounds a sh ls m, (forall r i, In r rounds -> In i (concat r) -> i < ds_size d) ->
  ref sh ls -> gm sh m (repeat n0 (length (PV ls))) ->
  exists a' sh', forall orders ms, Forall2 in_order orders rounds -> nth_error ms 0 = Some m ->
  exists ms', foldM (fun aw r => let '(a, w) := aw in
    '(w, _) <- wstep draw w (WReset 0) ;;
    tasks <- mapM (task_rows d) (fst r) ;;
    apar_batch draw tasks (snd r) (a, w)) (combine rounds (map barrier orders)) (a, mkWorld sh ms) = Ok (a', mkWorld sh' ms').
Proof.
  induction rounds as [|b rounds IH]; intros a sh ls m Hi R Gm.
  - exists a, sh. intros orders ms F _. inversion F. exists ms. reflexivity.
  - destruct (tasks_adds sh ls R b) as (tasks & Dss & ET & F2); [intros i; apply Hi; now left|].
    assert (LT : length tasks = length b) by (now apply mapM_len in ET).
    destruct (reset_gm g kd lo n k sg sh m _ Gm) as (m1 & EP1 & ESP1 & GP1).
    destruct (abarrier_round tasks Dss a ls sh [m1] m1 _ (seq 0 (length tasks)) R GP1 eq_refl F2 (Permutation_refl _))
      as (sh1 & ms1 & ls1 & E1 & R1 & P1 & A1 & M1 & G1).
    set (a1 := fst (amoves a (PV ls) (map (task_grad Dss (repeat n0 (length (PV ls)))) (seq 0 (length tasks))))) in *.
    assert (LP : length (PV ls1) = length (PV ls)).
    { rewrite P1. apply amoves_length. apply Forall_forall. intros G HGm. apply in_map_iff in HGm. destruct HGm as (j & <- & _).
      unfold task_grad. clear. generalize (nth j Dss []). intros Ds.
      transitivity (length (repeat (n0 (T := T)) (length (PV ls)))); [|apply repeat_length].
      generalize (repeat (n0 (T := T)) (length (PV ls))). induction Ds as [|D Ds IH]; intros G; [reflexivity|]. cbn [fold_left]. now rewrite IH, vadd_length. }
    destruct (IH a1 sh1 ls1 m1) as (a' & sh' & Q).
    { intros r i Hr. apply Hi. now right. }
    { exact R1. }
    { rewrite LP. exact G1. }
    exists a', sh'. intros orders ms FO Em. destruct orders as [|p orders']; [inversion FO|].
    assert (HP : in_order p b /\ Forall2 in_order orders' rounds) by (inversion FO; auto). destruct HP as (HP & FO').
    assert (L0 : 0 < length ms) by (destruct ms; [discriminate|cbn; lia]). pose proof L0 as L0'. apply Nat.ltb_lt in L0'.
    destruct (abarrier_round tasks Dss a ls sh (upd ms 0 m1) m1 _ p R GP1) as (sh2 & ms2 & ls2 & E2 & R2 & P2 & A2 & M2 & G2).
    { rewrite nth_error_upd, Nat.eqb_refl by exact L0. reflexivity. }
    { exact F2. }
    { rewrite LT. exact HP. }
    assert (sh2 = sh1) as ->.
    { destruct R1 as (-> & S3 & B3), R2 as (-> & S4 & B4). f_equal. apply (recon ls1 ls2 n k); auto; congruence. }
    destruct (Q orders' ms2 FO' M2) as (ms' & E3). exists ms'.
    cbn [map combine foldM fst snd]. cbn [wstep]. unfold on_copy, rd, wr.
    cbn [w_models w_shared]. rewrite Em. cbn [bind]. rewrite EP1. cbn [bind]. rewrite L0'. cbn [bind]. rewrite ESP1.
    rewrite ET. cbn [bind]. rewrite E2. cbn [bind]. exact E3.
Qed.
End APar.

Local Open Scope R_scope.
(** Parallel Adam, mean squared error: the run succeeds, and neither the order in which the
    tasks of a round finish nor the identity of the threads matters. *)
Theorem c87_parallel_order : forall draw eta d rows gops m ls tol lo n k rounds,
  gbuild gops = Ok (mgraph m) -> network m ls (MSE tol) lo n k -> (0 < k)%nat -> ls_in lo = k ->
  Forall no_gradient ls -> Forall smooth_kind ls ->
  rows_of d rows -> Forall (fun xt => length (fst xt) = n /\ length (snd xt) = k) rows ->
  (forall r i, In r rounds -> In i (concat r) -> (i < ds_size d)%nat) ->
  exists a' params', forall orders, Forall2 in_order orders rounds ->
  exists ms', apar_fit draw eta d (combine rounds (map barrier orders)) (world_of m) = Ok (a', mkWorld params' ms').
Proof.
  intros draw eta d rows gops m ls tol lo n k rounds HB W Hk Hin HZ HS HR HL Hi.
  assert (HG : graph_copy (mgraph m) = mgraph m).
  { eapply c38_same_graph; [exact HB|]. apply (is_chain_roles true (length ls)); apply W. }
  assert (R0 : ref n k (map sig ls) (shared_of m) ls).
  { split; [apply (network_shared _ _ _ _ _ _ W)|]. split; [apply (nw_shape _ _ _ _ _ _ W)|reflexivity]. }
  assert (Gm : gm (mgraph m) (MSE tol) lo n k (map sig ls) (shared_of m) m (repeat n0 (length (PV ls)))).
  { split; [reflexivity|]. split; [unfold shared_of; now rewrite map_length|].
    exists ls, lo. rewrite view_shared. split; [exact W|]. split; [exact R0|]. split; [apply same_loss_refl|].
    eapply no_gradient_gv; [apply (nw_shape _ _ _ _ _ _ W)|exact HZ]. }
  destruct (arounds_equal (mgraph m) (MSE tol) lo n k (map sig ls) HG draw d) with (rounds := rounds) (a := adam_default eta)
    (sh := shared_of m) (ls := ls) (m := m) as (a' & sh' & Q); auto.
  { intros sh l2 i (_ & SH & SG) Hs. destruct HR as (LR & HR).
    destruct (nth_error rows i) as [(x, t)|] eqn:EI; [|apply nth_error_None in EI; lia].
    destruct (HR i x t EI) as (E1 & E2).
    assert (HX : length x = n /\ length t = k) by (apply nth_error_In in EI; rewrite Forall_forall in HL; exact (HL _ EI)).
    destruct HX as (Hx & Ht).
    assert (LL : length l2 = length ls) by (apply (f_equal (@length _)) in SG; now rewrite !map_length in SG).
    set (m2 := mkModel (mgraph m) (map (fun s => (s, SNull)) (map NL l2 ++ [NO (MSE tol) lo]))).
    assert (W2 : network m2 l2 (MSE tol) lo n k).
    { constructor; cbn [m2 mgraph mnodes].
      - rewrite LL. apply W.
      - rewrite LL. apply W.
      - rewrite map_map. apply map_id.
      - exact SH.
      - apply W. }
    assert (HS2 : Forall smooth_kind l2).
    { clear - HS SG. revert l2 SG. induction HS as [|l ls HK HS IH]; intros [|l' l2] E; try discriminate; constructor.
      - injection E as K _. unfold smooth_kind in *. now rewrite K.
      - apply IH. now injection E. }
    destruct (c54_step_adds_the_gradient draw m2 l2 (MSE tol) lo n k x t W2 Hk Hin Hx Ht) as (m3 & _ & _ & E3 & _).
    - now apply (smooth_everywhere l2 n k x).
    - intros. exact I.
    - destruct (step_adds draw m2 l2 (MSE tol) lo n k x t m3 W2 Hx E3) as (D & A).
      exists (x, t), D. auto. }
  exists a', sh'. intros orders HO. exact (Q orders [m] HO eq_refl).
Qed.
Print Assumptions c87_parallel_order.

(** One input, one output, weights and bias zero, two equal rows. *)
Definition ex_ap_layers : list (layer R) :=
  [mkLayer KDense 1 [0] [0] [0] [0] [0] [0]; mkLayer (KAct Linear) 1 [] [] [] [] [0] [0]].
Definition ex_ap_nodes : list (node R * source) :=
  map (fun s => (s, SNull)) (map NL ex_ap_layers ++ [NO (MSE 1) (loss_new 1 2)]).
Definition ex_ap_data : dataset R := ds_vec 0 [1; 1; 1; 1] 2 1 [1]%nat.
Definition ex_ap_rows : list (list R * list R) := [([1], [1]); ([1], [1])].
Definition first_weight (sh : list (list R * list R)) : R := match sh with (w :: _, _) :: _ => w | _ => 0 end.

(** Two rows in one batch: the parallel variants make two Adam steps, the sequential one makes one
    with the sum. *)
Theorem c87_parallel_refuted : exists (m : model (node R)) a w m',
  gbuild (chain_build 2 ++ loss_build true 2) = Ok (mgraph m) /\
  network m ex_ap_layers (MSE 1) (loss_new 1 2) 1 1 /\
  entry_rounds 2 (ds_size ex_ap_data) 2 0 = Some [[[0]; [1]]]%nat /\
  apar_fit (fun _ => 0) 1 ex_ap_data [([[0]; [1]]%nat, barrier [0; 1]%nat)] (world_of m) = Ok (a, w) /\
  fit_adam (fun _ => 0) 1 ex_ap_data 2 1 2 m = Some (Ok m') /\
  first_weight (w_shared w) > 3 / 2 /\ first_weight (shared_of m') < 1 /\ w_shared w <> shared_of m'.
Proof.
  destruct (built (chain_build 2 ++ loss_build true 2) (fun g =>
    match apar_fit (fun _ => 0) 1 ex_ap_data [([[0]; [1]]%nat, barrier [0; 1]%nat)] (world_of (mkModel g ex_ap_nodes)),
      fit_adam (fun _ => 0) 1 ex_ap_data 2 1 2 (mkModel g ex_ap_nodes) with
    | Ok (a, w), Some (Ok m') => first_weight (w_shared w) > 3 / 2 /\ first_weight (shared_of m') < 1
    | _, _ => False end)) as (g & EG & HB).
  { cbv -[Rplus Rmult Rminus Rdiv Rinv Ropp IZR INR sqrt Rlt_dec Req_EM_T Rle_dec total_order_T not pow Rlt Rgt].
    assert (S1 : sqrt 1 = 1) by apply sqrt_1. assert (S4 : sqrt 4 = 2) by (replace 4 with (2 * 2) by ring; apply sqrt_square; lra).
    split; repeat match goal with |- context [sqrt ?x] => first [replace x with 1 by field; rewrite S1 | replace x with 4 by field; rewrite S4] end; lra. }
  destruct (c36_built true 2 (le_n 2)) as (s & E & H1 & H2 & H3 & H4 & H5).
  assert (s = g) as -> by (cbn [Nat.sub] in E; congruence).
  destruct (apar_fit _ _ _ _ (world_of (mkModel g ex_ap_nodes))) as [(a, w)| |] eqn:E1; try contradiction.
  destruct (fit_adam _ _ _ _ _ _ (mkModel g ex_ap_nodes)) as [[m'| |]|] eqn:E2; try contradiction.
  destruct HB as (A & B).
  exists (mkModel g ex_ap_nodes), a, w, m'. split; [exact EG|]. split; [|split; [reflexivity|]].
  - constructor; cbn [mgraph mnodes].
    + exact (is_chain_built _ _ true 2 E (le_n 2) H1 H2 H3 H4 H5).
    + cbn. lia.
    + reflexivity.
    + cbn [nshape ex_ap_layers]. exists 1%nat. split; [unfold lshape; cbn; auto 10|]. exists 1%nat. split; [|reflexivity].
      unfold lshape. cbn. split; [auto|]. split; [auto|]. split; [auto|]. split; [auto|]. discriminate.
    + reflexivity.
  - split; [exact E1|]. split; [exact E2|]. split; [exact A|]. split; [exact B|]. intros EE. rewrite EE in A. lra.
Qed.
Print Assumptions c87_parallel_refuted.

(** The hypotheses of [c87_parallel_order] on this network. *)
Example c87_parallel_met : exists m : model (node R),
  gbuild (chain_build 2 ++ loss_build true 2) = Ok (mgraph m) /\ network m ex_ap_layers (MSE 1) (loss_new 1 2) 1 1 /\
  Forall no_gradient ex_ap_layers /\ Forall smooth_kind ex_ap_layers /\ rows_of ex_ap_data ex_ap_rows /\
  Forall (fun xt => length (fst xt) = 1%nat /\ length (snd xt) = 1%nat) ex_ap_rows /\
  exists a' params', forall orders, Forall2 in_order orders [[[0]; [1]]; [[1]; [0]]]%nat ->
  exists ms', apar_fit (fun _ => 0) 1 ex_ap_data (combine [[[0]; [1]]; [[1]; [0]]]%nat (map barrier orders)) (world_of m)
    = Ok (a', mkWorld params' ms').
Proof.
  destruct c87_parallel_refuted as (m & _ & _ & _ & EB & W & _).
  assert (HZ : Forall no_gradient ex_ap_layers) by (repeat constructor).
  assert (HS : Forall smooth_kind ex_ap_layers) by (repeat constructor).
  assert (HR : rows_of ex_ap_data ex_ap_rows).
  { split; [reflexivity|]. intros i x t Hi. destruct i as [|[|[|i]]]; try discriminate; injection Hi as <- <-; split; reflexivity. }
  assert (HL : Forall (fun xt : list R * list R => length (fst xt) = 1%nat /\ length (snd xt) = 1%nat) ex_ap_rows) by (repeat constructor).
  exists m. split; [exact EB|]. split; [exact W|]. split; [exact HZ|]. split; [exact HS|]. split; [exact HR|]. split; [exact HL|].
  apply (c87_parallel_order (fun _ => 0) 1 ex_ap_data ex_ap_rows _ m _ 1 _ 1 1 _ EB W (le_n 1) eq_refl HZ HS HR HL).
  intros r i Hr Hi. cbn in Hr. destruct Hr as [<-|[<-|[]]]; cbn in Hi; destruct Hi as [<-|[<-|[]]]; cbn; lia.
Qed.
