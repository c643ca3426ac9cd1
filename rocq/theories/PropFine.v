(** C78: parallel training access by access. *)
From Verif Require Import Base Num DatasetModel MathModel MathProofs LayerModel LossModel OptModel OptProofs GraphModel GraphProofs ModelModel NodeModel ChainProofs ModelProofs PropGraph PropModel TrainProofs CopyModel PropCopy FitModel ParProofs PropFit PropPar RaceModel RaceProofs.
From Coq Require Import Reals Permutation.
Local Open Scope nat_scope.

Section Fine.
Context {T : Type} `{NumOps T} `{TransOps T} `{LimOps T}.

(** The copy [l] with the parameters of [c]. *)
Definition share (l c : layer T) : layer T := mkLayer (knd l) (insz l) (wts c) (bias c) (wgrad l) (bgrad l) (out l) (ig l).
Fixpoint shares (ls cs : list (layer T)) : list (layer T) :=
  match ls, cs with l :: ls, c :: cs => share l c :: shares ls cs | _, _ => [] end.

Lemma shares_spec (ls : list (layer T)) : forall cs n k, nshape ls n k -> nshape cs n k -> map sig cs = map sig ls ->
  nshape (shares ls cs) n k /\ map strip (shares ls cs) = map strip ls /\ map params (shares ls cs) = map params cs /\
  map sig (shares ls cs) = map sig ls /\ GV (shares ls cs) = GV ls /\ Forall2 same_params cs (shares ls cs).
Proof.
  induction ls as [|l ls IH]; intros [|c cs] n k HS HC E; try discriminate; [repeat split; auto; constructor|].
  destruct HS as (j & HL & HS), HC as (j' & HL' & HC). cbn [map] in E.
  assert (E1 : sig c = sig l) by congruence. assert (E2 : map sig cs = map sig ls) by congruence.
  unfold sig in E1. injection E1 as K1 K2 K3.
  assert (j' = j) by (destruct HL as (_ & _ & X & _), HL' as (_ & _ & Y & _); congruence). subst j'.
  destruct (IH cs j k HS HC E2) as (A1 & A2 & A3 & A4 & A5 & A6).
  cbn [shares map]. split; [|split; [|split; [|split; [|split]]]].
  - exists j. split; [|exact A1]. destruct HL as (B1 & B2 & B3 & B4), HL' as (C1 & C2 & C3 & C4). unfold lshape, share.
    cbn [knd insz wts bias wgrad bgrad out ig]. rewrite K1 in C4. repeat (split; [assumption|]).
    destruct (knd l); [|exact B4]. destruct B4 as (? & ? & ? & ?), C4 as (? & ? & ? & ?). auto.
  - rewrite A2. reflexivity.
  - rewrite A3. reflexivity.
  - rewrite A4. reflexivity.
  - unfold GV in *. cbn [flat_map]. rewrite A5. reflexivity.
  - constructor; [|exact A6]. unfold same_params, share. cbn. auto.
Qed.

Section Round.
Variables (g : dlgraph) (kd : losskind T) (lo : lossl T) (n k : nat) (draw : nat -> T) (eta : T).

(** A task on fixed parameters sums its gradients. *)
Lemma task_sum cur rows Ds : Forall2 (adds cur kd lo n k draw) rows Ds -> forall l2 lo2,
  is_chain true (length l2) g -> 1 <= length l2 -> nshape l2 n k -> length (ls_grad lo2) = k ->
  Forall2 same_params cur l2 -> same_loss lo lo2 ->
  exists l3 lo3, steps_of kd l2 lo2 rows = Ok (l3, lo3) /\ GV l3 = fold_left vadd Ds (GV l2) /\ nshape l3 n k /\
    Forall2 same_params l2 l3.
Proof.
  induction 1 as [|xt D rows Ds A F IH]; intros l2 lo2 HC HL HS HG HP SL.
  - exists l2, lo2. repeat split; auto. apply all_same_refl.
  - pose proof A as (Hx & A').
    assert (W : network (mkModel g (map (fun s => (s, SNull)) (map NL l2 ++ [NO kd lo2]))) l2 kd lo2 n k).
    { constructor; cbn [mgraph mnodes]; auto. rewrite map_map. cbn [fst]. apply map_id. }
    destruct (A' _ l2 lo2 W HP SL) as (m2 & l3 & lo3 & E2 & W2 & P2 & S2 & G2 & L2).
    pose proof (m_step_net draw _ l2 kd lo2 n k _ _ _ l3 lo3 W E2 W2) as EN.
    assert (LL : length l3 = length l2) by (clear - P2; induction P2; cbn; congruence).
    destruct (IH l3 lo3) as (l4 & lo4 & E4 & G4 & S4 & P4).
    + rewrite LL. exact HC.
    + lia.
    + apply W2.
    + apply W2.
    + eapply all_same_trans; eauto.
    + destruct SL as (? & ? & ?), S2 as (? & ? & ?). repeat split; congruence.
    + exists l4, lo4. unfold steps_of in *. cbn [foldM fst snd]. rewrite EN. cbn [bind]. split; [exact E4|].
      split; [cbn [fold_left]; now rewrite <- G2|]. split; [exact S4|]. eapply all_same_trans; eauto.
Qed.

(** A quiet round: all tasks on the parameters [cur], then one training per task. *)
Lemma quiet_outcome (ls cur : list (layer T)) lo2 tasks Dss : nshape ls n k -> nshape cur n k -> map sig cur = map sig ls ->
  is_chain true (length ls) g -> 1 <= length ls -> length (ls_grad lo2) = k -> same_loss lo lo2 ->
  Forall2 (Forall2 (adds cur kd lo n k draw)) tasks Dss ->
  exists rs, Forall2 (fun p r => alone (map params cur ++ [([], [])]) p = Ok r) (map (r_task kd ls lo2) tasks) rs /\
  forall c0, nshape c0 n k -> map sig c0 = map sig ls ->
  exists c1, foldM (train_with eta) rs (map params c0 ++ [([], [])]) = Ok (map params c1 ++ [([], [])]) /\
    nshape c1 n k /\ map sig c1 = map sig ls /\
    PV c1 = fold_left (moved eta) (map (fun Ds => fold_left vadd Ds (GV ls)) Dss) (PV c0) /\ map av c1 = map av c0.
Proof.
  intros HS HC ES CH L1 HG SL F.
  destruct (shares_spec ls cur n k HS HC ES) as (A1 & A2 & A3 & A4 & A5 & A6).
  assert (LS : length (shares ls cur) = length ls) by (rewrite <- (map_length sig), A4, map_length; reflexivity).
  assert (HH : holds (map params cur ++ [([], [])]) 0 (shares ls cur)).
  { intros i l E K. cbn [plus]. unfold rd. rewrite <- A3.
    rewrite nth_error_app1 by (rewrite map_length; apply nth_error_Some; congruence). rewrite nth_error_map, E. reflexivity. }
  induction F as [|rows Ds tasks Dss A F IH].
  - exists []. split; [constructor|]. intros c0 HS0 E0. exists c0. cbn. auto.
  - destruct IH as (rs & F1 & F2).
    destruct (task_sum cur rows Ds A (shares ls cur) lo2) as (l3 & lo3 & E3 & G3 & S3 & P3); auto; try (rewrite LS; auto).
    rewrite <- (alone_task (map params cur ++ [([], [])]) kd rows (shares ls cur) lo2 HH) in E3.
    pose proof (strip_task (map params cur ++ [([], [])]) kd rows (shares ls cur) lo2) as ST. rewrite A2, E3 in ST. cbn [bind] in ST.
    rewrite strip_task in ST.
    destruct (alone (map params cur ++ [([], [])]) (r_task kd ls lo2 rows)) as [(l4, lo4)| |] eqn:E4; try discriminate.
    cbn [bind] in ST. assert (EM : map strip l4 = map strip l3) by congruence.
    exists ((l4, lo4) :: rs). cbn [map]. split; [constructor; auto|]. intros c0 HS0 E0. cbn [foldM]. unfold train_with at 1. cbn [fst].
    rewrite <- (strip_updates l4), EM, strip_updates.
    destruct (upd_layers eta l3 [] [([], [])] c0 n k HS0 S3) as (c1 & U1 & U2 & U3 & U4 & U5).
    { rewrite (sig_same _ _ _ _ A1 S3 P3). congruence. }
    cbn [length app] in U1. rewrite U1. cbn [bind]. destruct (F2 c1 U2) as (c2 & V1 & V2 & V3 & V4 & V5); [congruence|].
    exists c2. split; [exact V1|]. split; [exact V2|]. split; [exact V3|]. split; [|congruence].
    cbn [map fold_left]. rewrite V4, U4, G3, A5. reflexivity.
Qed.
End Round.
End Fine.

Lemma outcome_rs {T} `{NumOps T} `{TransOps T} `{LimOps T} eta mem ps rs : Forall2 (fun p r => alone mem p = Ok r) ps rs ->
  forall m0, outcome eta mem ps m0 = foldM (train_with eta) rs m0.
Proof.
  unfold outcome. induction 1 as [|p r ps rs E F IH]; intros m0; cbn [foldM]; [reflexivity|]. rewrite E. cbn [bind].
  destruct (train_with eta m0 r); cbn [bind]; auto.
Qed.

(** *** Rounds over the reals *)
Definition quiet_rounds (rounds : list (list (list nat) * list rev_)) : Prop := Forall (fun r => quiet (snd r)) rounds.

Lemma fine_equal g kd lo n k (ls0 : list (layer R)) draw eta (d : dataset R) :
  (forall i x, i < ds_size d -> ds_input n0 d i = Ok x -> length x = n) ->
  nshape ls0 n k -> is_chain true (length ls0) g -> 1 <= length ls0 -> length (ls_grad lo) = k ->
  GV ls0 = repeat 0%R (length (PV ls0)) ->
  forall (bs : list (list (list nat))) ls m m',
  Forall (fun b => forall i, In i (concat b) -> i < ds_size d) bs ->
  ref n k (map sig ls0) (shared_of m) ls -> length (PV ls) = length (PV ls0) ->
  gm g kd lo n k (map sig ls0) (shared_of m) m (repeat 0%R (length (PV ls))) ->
  foldM (exec (row_step draw d) m_reset_score (m_train eta)) (flat_map (fun b => batch_calls (concat b)) bs) m = Ok m' ->
  (forall rounds mem', map fst rounds = bs -> quiet_rounds rounds ->
    fine_fit eta d kd ls0 lo rounds (shared_of m) mem' -> mem' = shared_of m') /\
  (exists rounds, map fst rounds = bs /\ quiet_rounds rounds /\ fine_fit eta d kd ls0 lo rounds (shared_of m) (shared_of m')).
Proof.
  intros Hx HS0 CH0 L0 HG0 GZ. induction bs as [|b bs IH]; intros ls m m' HO R HLP Gm E.
  - injection E as <-. split.
    + intros rounds mem' ER _ FF. destruct rounds; [|discriminate]. inversion FF. reflexivity.
    + exists []. split; [reflexivity|]. split; [constructor|]. constructor.
  - apply Forall_cons_iff in HO. destruct HO as (Hb & HO'). cbn [flat_map] in E. rewrite foldM_app in E. unfold batch_calls at 1 in E.
    cbn [app foldM exec] in E.
    destruct (reset_gm g kd lo n k (map sig ls0) (shared_of m) m _ Gm) as (m1 & E1 & ES1 & G1). rewrite view_shared in E1.
    rewrite E1 in E. cbn [bind] in E. rewrite foldM_app in E.
    match type of E with context [foldM ?f (map EStep (concat b)) m1] => destruct (foldM f (map EStep (concat b)) m1) as [m2| |] eqn:E2 end;
      try discriminate. cbn [bind foldM exec] in E.
    destruct (seq_steps g kd lo n k (map sig ls0) draw eta d ls (concat b) (shared_of m) m1 _ m2 R G1 ES1) as (rows & Ds & F1 & F2 & G2 & ES2); auto.
    { intros i x Hi. apply Hx. now apply Hb. }
    destruct (m_train eta m2) as [m3| |] eqn:E3; try discriminate. cbn [bind] in E.
    destruct (seq_train g kd lo n k (map sig ls0) draw eta ls (shared_of m) m2 _ m3 R G2 ES2 E3) as (ls3 & R3 & P3 & A3 & G3 & L3).
    unfold task_rows in F1. apply mapM_concat in F1. destruct F1 as (tasks & T1 & <-).
    change (mapM (task_rows d) b = Ok tasks) in T1.
    apply Forall2_concat in F2. destruct F2 as (Dss & <- & F2).
    pose proof R as (Esh & HSl & ESl).
    destruct (quiet_outcome g kd lo n k draw eta ls0 ls (reset_score lo) tasks Dss) as (rs & Q1 & Q2); auto.
    { repeat split. }
    destruct (Q2 ls HSl ESl) as (c1 & V1 & V2 & V3 & V4 & V5). rewrite <- Esh in Q1, V1.
    assert (EP : PV c1 = PV ls3).
    { rewrite V4, P3, GZ, <- HLP, <- task_sums. f_equal.
      unfold task_grad. rewrite <- (map_map (fun j => nth j Dss []) (fun Ds => fold_left vadd Ds (repeat 0%R (length (PV ls))))).
      f_equal. clear. induction Dss as [|D Dss IH]; [reflexivity|]. cbn [length seq map nth]. f_equal.
      rewrite <- seq_shift, map_map. exact IH. }
    assert (LP : length (PV ls3) = length (PV ls)) by (rewrite P3; apply moved_length).
    assert (ESH : map params c1 ++ [([], [])] = shared_of m3).
    { destruct R3 as (R31 & R32 & R33). rewrite R31. f_equal. apply (recon ls3 c1 n k); auto; congruence. }
    rewrite ESH in V1. rewrite fold_vadd_length, repeat_length in G3. rewrite <- LP in G3.
    destruct (IH ls3 m3 m' HO' R3) as (I1 & I2); [congruence|exact G3|exact E|]. split.
    + intros rounds mem' ER QR FF. inversion FF as [|b' es rounds' mem0 tasks' s mem2 T1' RS OV FF' X1 X2 X3]; subst; [discriminate|].
      cbn [map fst] in ER. injection ER as -> ER. inversion QR as [|? ? Q QR']; subst. cbn [snd] in Q.
      rewrite T1 in T1'. injection T1' as <-.
      pose proof (round_outcome eta _ _ _ _ RS Q OV) as O. rewrite (outcome_rs eta _ _ _ Q1) in O. rewrite V1 in O. injection O as O.
      rewrite <- O in FF'. apply (I1 rounds'); auto.
    + destruct I2 as (rounds & J1 & J2 & J3).
      destruct (quiet_run_exists eta _ _ _ _ Q1 V1) as (es & s & K1 & K2 & K3 & K4).
      exists ((b, es) :: rounds). split; [cbn; congruence|]. split; [constructor; auto|].
      econstructor; [exact T1|exact K1|exact K3|]. rewrite K4. exact J3.
Qed.

(** *** C78 *)
Section C78.
Variables (draw : nat -> R) (eta : R) (d : dataset R) (gops : list gop) (m : model (node R)) (ls : list (layer R))
  (kd : losskind R) (lo : lossl R) (n k : nat).

Lemma ready_fine (HR : ready d gops m ls kd lo n k) rounds bs fuel epochs m' :
  1 <= bs -> ds_size d <= fuel -> map (@concat nat) rounds = cut fuel (ds_size d) bs 0 ->
  fit_sequential draw eta d fuel epochs bs m = Some (Ok m') ->
  (forall runs mem', map fst runs = concat (repeat rounds epochs) -> quiet_rounds runs ->
    fine_fit eta d kd ls lo runs (shared_of m) mem' -> mem' = shared_of m') /\
  (exists runs, map fst runs = concat (repeat rounds epochs) /\ quiet_rounds runs /\
    fine_fit eta d kd ls lo runs (shared_of m) (shared_of m')).
Proof.
  intros Hb Hf HC E. destruct HR as [HB W HZ Hx].
  assert (GZ : GV ls = repeat 0%R (length (PV ls))) by (eapply no_gradient_gv; [apply (nw_shape _ _ _ _ _ _ W)|exact HZ]).
  assert (RF : ref n k (map sig ls) (shared_of m) ls).
  { split; [apply (network_shared _ _ _ _ _ _ W)|]. split; [apply (nw_shape _ _ _ _ _ _ W)|reflexivity]. }
  apply (fine_equal (mgraph m) kd lo n k ls draw eta d) with (ls := ls); auto; try apply W.
  - apply Forall_forall. intros r Hr i Hi. apply in_concat in Hr. destruct Hr as (rs & Hr1 & Hr2).
    apply repeat_spec in Hr1. subst rs.
    assert (HI : In i (concat (map (@concat nat) rounds))).
    { apply in_concat. exists (concat r). split; [|exact Hi]. now apply in_map. }
    rewrite HC in HI. destruct (cut_spec (ds_size d) bs Hb fuel 0) as (A & _ & _); [lia|lia|].
    rewrite A in HI. apply in_seq in HI. lia.
  - split; [reflexivity|]. split; [unfold shared_of; now rewrite map_length|].
    exists ls, lo. rewrite view_shared. split; [exact W|]. split; [exact RF|]. split; [apply same_loss_refl|exact GZ].
  - unfold fit_sequential in E. revert E. clear - Hb Hf HC. revert m. induction epochs as [|e IH]; intros m0 E.
    + injection E as <-. reflexivity.
    + cbn [fit_run] in E. rewrite epoch_spec in E by lia.
      cbn [repeat concat]. rewrite flat_map_app, foldM_app.
      assert (E0 : flat_map (fun r => batch_calls (concat r)) rounds = flat_map batch_calls (cut fuel (ds_size d) bs 0)).
      { rewrite <- HC, !flat_map_concat_map, map_map. reflexivity. }
      rewrite E0.
      destruct (foldM _ (flat_map batch_calls (cut fuel (ds_size d) bs 0)) m0) as [m1| |]; try discriminate. cbn [bind]. now apply IH.
Qed.

(** Both variants, access by access: in every execution in which no task of a round reads a
    parameter after the first write of that round, the parameters at the end are those of the
    sequential variant; and there is such an execution. *)
Theorem c78_entry : ready d gops m ls kd lo n k -> forall bs fuel epochs m',
  1 <= bs -> ds_size d <= fuel ->
  fit_sequential draw eta d fuel epochs bs m = Some (Ok m') ->
  exists rounds, entry_rounds fuel (ds_size d) bs 0 = Some rounds /\
  (forall runs mem', map fst runs = concat (repeat rounds epochs) -> quiet_rounds runs ->
    fine_fit eta d kd ls lo runs (shared_of m) mem' -> mem' = shared_of m') /\
  (exists runs, map fst runs = concat (repeat rounds epochs) /\ quiet_rounds runs /\
    fine_fit eta d kd ls lo runs (shared_of m) (shared_of m')).
Proof.
  intros HR bs fuel epochs m' Hb Hf E. rewrite entry_rounds_cut by lia. eexists. split; [reflexivity|].
  eapply ready_fine; eauto. rewrite map_map. rewrite <- (map_id (cut _ _ _ _)) at 2.
  apply map_ext. intros b. induction b as [|i b IH]; [reflexivity|]. cbn [map concat app]. now rewrite IH.
Qed.
Theorem c78_batch : ready d gops m ls kd lo n k -> forall bs conc fuel epochs m',
  1 <= bs -> 1 <= conc -> ds_size d <= fuel ->
  fit_sequential draw eta d fuel epochs (conc * bs) m = Some (Ok m') ->
  exists rounds, batch_rounds fuel conc (ds_size d) bs 0 = Some rounds /\
  (forall runs mem', map fst runs = concat (repeat rounds epochs) -> quiet_rounds runs ->
    fine_fit eta d kd ls lo runs (shared_of m) mem' -> mem' = shared_of m') /\
  (exists runs, map fst runs = concat (repeat rounds epochs) /\ quiet_rounds runs /\
    fine_fit eta d kd ls lo runs (shared_of m) (shared_of m')).
Proof.
  intros HR bs conc fuel epochs m' Hb Hc Hf E.
  destruct (batch_rounds_cut (ds_size d) bs conc Hb Hc fuel 0) as (rounds & E1 & E2 & _); [lia|].
  exists rounds. split; [exact E1|].
  apply (ready_fine HR rounds (conc * bs) fuel); auto. clear - Hb Hc. nia.
Qed.
End C78.
Print Assumptions c78_entry.
Print Assumptions c78_batch.

(** The hypotheses hold for the network and data of [c40_hypotheses_met]. *)
Example c78_hypotheses_met : exists (m : model (node R)) m',
  ready exr_data (chain_build 2 ++ loss_build true 2) m exr_layers (MSE 1%R) (loss_new 3 1) 2 3 /\
  fit_sequential (fun _ => 0%R) (1 / 2)%R exr_data 2 3 2 m = Some (Ok m') /\
  exists runs, map fst runs = [[[0]; [1]]; [[0]; [1]]; [[0]; [1]]] /\ quiet_rounds runs /\
    fine_fit (1 / 2)%R exr_data (MSE 1%R) exr_layers (loss_new 3 1) runs (shared_of m) (shared_of m').
Proof.
  destruct c40_hypotheses_met as (m & m' & A & B & _ & _). exists m, m'. split; [exact A|]. split; [exact B|].
  destruct (c78_entry (fun _ => 0%R) (1 / 2)%R _ _ _ _ _ _ _ _ A 2 2 3 m') as (rounds & E1 & _ & runs & E2 & Q & F); auto.
  vm_compute in E1. injection E1 as <-. exists runs. split; [exact E2|]. auto.
Qed.

(** *** Outside of this: executions that no order of whole tasks explains *)
(** [rstep], as a function. *)
Definition rexec {T} `{NumOps T} `{TransOps T} `{LimOps T} (eta : T) (s : rstate T) (e : rev_) : option (rstate T) :=
  match e, r_main s with
  | ETask i, _ =>
      match nth_error (r_tasks s) i with
      | Some (RLoad l k) => match get (r_mem s) l with Ok v => Some (mkRS (upd (r_tasks s) i (k v)) (r_main s) (r_mem s)) | _ => None end
      | _ => None
      end
  | EGet, MWait j =>
      match nth_error (r_tasks s) j with
      | Some (RRet (ls, lo)) => Some (mkRS (r_tasks s) (MTrain j (updates 0 ls)) (r_mem s))
      | _ => None
      end
  | ELoad, MTrain j ((l, g) :: us) =>
      match get (r_mem s) l with Ok v => Some (mkRS (r_tasks s) (MStore j l (nsub v (nmul eta g)) us) (r_mem s)) | _ => None end
  | EStore, MStore j l v us =>
      match put (r_mem s) l v with Ok mem => Some (mkRS (r_tasks s) (MTrain j us) mem) | _ => None end
  | ENext, MTrain j [] => Some (mkRS (r_tasks s) (MWait (S j)) (r_mem s))
  | _, _ => None
  end.
Fixpoint rexecs {T} `{NumOps T} `{TransOps T} `{LimOps T} (eta : T) (s : rstate T) (es : list rev_) : option (rstate T) :=
  match es with [] => Some s | e :: es => match rexec eta s e with Some s' => rexecs eta s' es | None => None end end.
Lemma rexec_step {T} `{NumOps T} `{TransOps T} `{LimOps T} (eta : T) s e s' : rexec eta s e = Some s' -> rstep eta s e s'.
Proof.
  destruct s as [ts mn mem]. unfold rexec. cbn [r_tasks r_main r_mem]. destruct e as [i| | | |].
  - destruct (nth_error ts i) as [[?|l k| |]|] eqn:E; try discriminate. destruct (get mem l) eqn:G; try discriminate.
    intros X. injection X as <-. econstructor; eauto.
  - destruct mn as [j|j us|j l v us]; try discriminate. destruct (nth_error ts j) as [[(ls, lo)|l k| |]|] eqn:E; try discriminate.
    intros X. injection X as <-. econstructor; eauto.
  - destruct mn as [j|j [|(l, g) us]|j l v us]; try discriminate. destruct (get mem l) eqn:G; try discriminate.
    intros X. injection X as <-. econstructor; eauto.
  - destruct mn as [j|j us|j l v us]; try discriminate. destruct (put mem l v) eqn:G; try discriminate.
    intros X. injection X as <-. econstructor; eauto.
  - destruct mn as [j|j [|(l, g) us]|j l v us]; try discriminate. intros X. injection X as <-. econstructor; eauto.
Qed.
Lemma rexecs_steps {T} `{NumOps T} `{TransOps T} `{LimOps T} (eta : T) es : forall s s', rexecs eta s es = Some s' -> rsteps eta s es s'.
Proof.
  induction es as [|e es IH]; intros s s' E; cbn [rexecs] in E.
  - injection E as <-. constructor.
  - destruct (rexec eta s e) as [s1|] eqn:E1; [|discriminate]. change (e :: es) with ([e] ++ es).
    eapply rsteps_trans; [apply rsteps_one, rexec_step; exact E1|auto].
Qed.

(** The orders of two whole tasks and their trainings. *)
Lemma two_tasks evs : schedule 2 evs ->
  evs = [PRun 0; PRun 1; PTrain 0; PTrain 1] \/ evs = [PRun 1; PRun 0; PTrain 0; PTrain 1] \/ evs = [PRun 0; PTrain 0; PRun 1; PTrain 1].
Proof.
  intros (P & F & O). cbn [seq map app] in P, F.
  assert (L : length evs = 4) by (apply Permutation_length in P; exact P).
  assert (N : NoDup evs).
  { apply Permutation_sym in P. eapply Permutation_NoDup; [exact P|]. repeat constructor; cbn; intuition congruence. }
  assert (I : forall e, In e evs -> In e [PRun 0; PRun 1; PTrain 0; PTrain 1]) by (intros e; now apply Permutation_in).
  destruct evs as [|e1 [|e2 [|e3 [|e4 [|e5 evs]]]]]; try discriminate L.
  pose proof (I e1 ltac:(cbn; auto)) as I1. pose proof (I e2 ltac:(cbn; auto)) as I2.
  pose proof (I e3 ltac:(cbn; auto)) as I3. pose proof (I e4 ltac:(cbn; auto)) as I4. clear I P L.
  assert (NN : e1 <> e2 /\ e1 <> e3 /\ e1 <> e4 /\ e2 <> e3 /\ e2 <> e4 /\ e3 <> e4).
  { inversion N as [|? ? N1 N2]; subst. inversion N2 as [|? ? N3 N4]; subst. inversion N4 as [|? ? N5 N6]; subst. cbn in *. intuition congruence. }
  clear N. cbn in I1, I2, I3, I4.
  destruct I1 as [<-|[<-|[<-|[<-|[]]]]], I2 as [<-|[<-|[<-|[<-|[]]]]]; try (exfalso; intuition congruence);
    destruct I3 as [<-|[<-|[<-|[<-|[]]]]], I4 as [<-|[<-|[<-|[<-|[]]]]]; try (exfalso; intuition congruence); try discriminate F; auto.
  all: exfalso.
  all: try (specialize (O 0 [] _ eq_refl); cbn in O; intuition congruence).
  all: try (specialize (O 0 [_] _ eq_refl); cbn in O; intuition congruence).
  all: try (specialize (O 1 [_; _] _ eq_refl); cbn in O; intuition congruence).
Qed.

#[local] Existing Instance PropModel.exTrans.
#[local] Existing Instance PropModel.exLim.
(** Task 1 reads two biases and two weights, then the main thread trains with the result of task 0, then task 1
    goes on. *)
Definition ex_torn : list rev_ :=
  repeat (ETask 0) 15 ++ repeat (ETask 1) 4 ++ [EGet] ++ concat (repeat [ELoad; EStore] 9) ++ [ENext] ++
  repeat (ETask 1) 11 ++ [EGet] ++ concat (repeat [ELoad; EStore] 9) ++ [ENext].

Theorem c78_torn : exists (m : model (node Z)) mem,
  gbuild (chain_build 2 ++ loss_build true 2) = Ok (mgraph m) /\
  network m ex_layers (MSE 1%Z) (loss_new 3 1) 2 3 /\
  entry_rounds 2 (ds_size ex_data) 2 0 = Some [[[0]; [1]]] /\
  fine_fit 1%Z ex_data (MSE 1%Z) ex_layers (loss_new 3 1) [([[0]; [1]], ex_torn)] (shared_of m) mem /\
  (forall evs w, schedule 2 evs -> par_fit (fun _ => 0%Z) 1%Z ex_data [([[0]; [1]], evs)] (world_of m) = Ok w -> w_shared w <> mem).
Proof.
  pose proof (built (chain_build 2 ++ loss_build true 2) (fun g =>
    let m := mkModel g ex_nodes in
    match mapM (task_rows ex_data) [[0]; [1]] with
    | Ok tasks =>
      match rexecs 1%Z (round_start (MSE 1%Z) ex_layers (reset_score (loss_new 3 1)) tasks (shared_of m)) ex_torn with
      | Some s =>
          match par_fit (fun _ => 0%Z) 1%Z ex_data [([[0]; [1]], [PRun 0; PRun 1; PTrain 0; PTrain 1])] (world_of m),
                par_fit (fun _ => 0%Z) 1%Z ex_data [([[0]; [1]], [PRun 1; PRun 0; PTrain 0; PTrain 1])] (world_of m),
                par_fit (fun _ => 0%Z) 1%Z ex_data [([[0]; [1]], [PRun 0; PTrain 0; PRun 1; PTrain 1])] (world_of m) with
          | Ok w1, Ok w2, Ok w3 => r_main s = MWait 2 /\ length (r_tasks s) = 2 /\ shared_eqb (w_shared w1) (r_mem s) = false /\
              shared_eqb (w_shared w2) (r_mem s) = false /\ shared_eqb (w_shared w3) (r_mem s) = false
          | _, _, _ => False
          end
      | None => False
      end
    | _ => False
    end)) as HB.
  destruct HB as (g & E & HB).
  { vm_compute. auto. }
  destruct ex_network as (m & Em & _ & Nm & W).
  assert (m = mkModel g ex_nodes) as -> by (clear HB; destruct m as (g', ns); cbn in *; congruence).
  clear Nm. cbv zeta in HB.
  destruct (mapM (task_rows ex_data) [[0]; [1]]) as [tasks| |] eqn:ET; try contradiction.
  destruct (rexecs 1%Z (round_start (MSE 1%Z) ex_layers (reset_score (loss_new 3 1)) tasks (shared_of (mkModel g ex_nodes))) ex_torn) as [s|] eqn:ER;
    try contradiction.
  destruct (par_fit (fun _ => 0%Z) 1%Z ex_data [([[0]; [1]], [PRun 0; PRun 1; PTrain 0; PTrain 1])] (world_of (mkModel g ex_nodes)))
    as [w1| |] eqn:E1; try contradiction.
  destruct (par_fit (fun _ => 0%Z) 1%Z ex_data [([[0]; [1]], [PRun 1; PRun 0; PTrain 0; PTrain 1])] (world_of (mkModel g ex_nodes)))
    as [w2| |] eqn:E2; try contradiction.
  destruct (par_fit (fun _ => 0%Z) 1%Z ex_data [([[0]; [1]], [PRun 0; PTrain 0; PRun 1; PTrain 1])] (world_of (mkModel g ex_nodes)))
    as [w3| |] eqn:E3; try contradiction.
  destruct HB as (H1 & H2 & B1 & B2 & B3). apply rexecs_steps in ER.
  assert (NE : forall w, shared_eqb (w_shared w) (r_mem s) = false -> w_shared w <> r_mem s).
  { intros w X EQ. unfold shared_eqb in X. destruct (list_eq_dec _ (w_shared w) (r_mem s)); [discriminate|contradiction]. }
  exists (mkModel g ex_nodes), (r_mem s). split; [exact Em|]. split; [exact W|]. split; [reflexivity|]. split.
  - econstructor; [exact ET|exact ER| |constructor]. unfold round_over. now rewrite H1, H2.
  - intros evs w HS EW. apply NE. apply two_tasks in HS. destruct HS as [->|[->| ->]].
    + rewrite E1 in EW. injection EW as <-. exact B1.
    + rewrite E2 in EW. injection EW as <-. exact B2.
    + rewrite E3 in EW. injection EW as <-. exact B3.
Qed.
Print Assumptions c78_torn.
