(** Proofs about the single accesses of parallel training. *)
From Verif Require Import Base Num DatasetModel MathModel MathProofs LayerModel LossModel OptModel OptProofs GraphModel GraphProofs ModelModel NodeModel ChainProofs ModelProofs PropGraph PropModel TrainProofs CopyModel PropCopy FitModel ParProofs RaceModel.

(** *** A task alone *)
Section Alone.
Context {T : Type}.
Variable mem : pmem T.

Lemma alone_bind {A B} (p : rprog T A) (f : A -> rprog T B) :
  alone mem (rbind p f) = (a <- alone mem p ;; alone mem (f a)).
Proof.
  induction p as [a|l k IH| |]; cbn [rbind alone bind]; auto.
  destruct (get mem l) as [v| |]; cbn [bind]; auto.
Qed.
Lemma alone_own {A} (r : res A) : alone mem (own r) = r.
Proof. destruct r; reflexivity. Qed.
Lemma alone_load l : alone mem (load l) = get mem l.
Proof. cbn. destruct (get mem l); reflexivity. Qed.
Lemma alone_for {S} n (body : nat -> S -> rprog T S) s :
  alone mem (rfor n body s) = for_ n (fun i s => alone mem (body i s)) s.
Proof.
  unfold rfor, for_. generalize 0. revert s. induction n as [|n IH]; intros s i; cbn [rfor_from for_from]; [reflexivity|].
  rewrite alone_bind. destruct (alone mem (body i s)); cbn [bind]; auto.
Qed.
Lemma alone_fold {A S} (f : S -> A -> rprog T S) l : forall s,
  alone mem (rfold f l s) = foldM (fun s a => alone mem (f s a)) l s.
Proof.
  induction l as [|a l IH]; intros s; cbn [rfold foldM]; [reflexivity|].
  rewrite alone_bind. destruct (alone mem (f s a)); cbn [bind]; auto.
Qed.
End Alone.

Section Tasks.
Context {T : Type} `{NumOps T} `{TransOps T} `{LimOps T}.
Variable mem : pmem T.

Lemma for_ext {S} n (b1 b2 : nat -> S -> res S) s : (forall i s, b1 i s = b2 i s) -> for_ n b1 s = for_ n b2 s.
Proof. intros E. unfold for_. apply for_from_ext. auto. Qed.

Lemma alone_dense c w b dst src inp o : rd mem c = Ok (w, b) ->
  alone mem (r_dense c dst src inp o) = dense dst src w b inp o.
Proof.
  intros E. unfold r_dense, dense. rewrite alone_for. apply for_ext. intros i d. unfold r_dense_row, dense_row.
  rewrite alone_bind, alone_load. unfold get. rewrite E. cbn [bind snd]. apply bind_ext. intros v.
  rewrite alone_bind, alone_own. apply bind_ext. intros d1. rewrite alone_for. apply for_ext. intros j d2.
  rewrite alone_bind, alone_load. unfold get. rewrite E. cbn [bind fst]. apply bind_ext. intros m. apply alone_own.
Qed.
Lemma alone_dense_1 c w b ig wg bg g last inp o : rd mem c = Ok (w, b) ->
  alone mem (r_dense_1 c ig wg bg g last inp o) = dense_1 ig wg bg g last w inp o.
Proof.
  intros E. unfold r_dense_1, dense_1. rewrite alone_bind, alone_own. apply bind_ext. intros ig1.
  rewrite alone_for. apply for_ext. intros i ((ig2, wg2), bg2). unfold r_dense_1_row, dense_1_row.
  rewrite alone_bind, alone_own. destruct (rd g i) as [gi| |]; cbn [bind]; auto.
  destruct (rd bg2 i) as [bi| |]; cbn [bind]; auto. destruct (wr bg2 i (nadd bi gi)) as [bg3| |]; cbn [bind]; auto.
  rewrite alone_for. apply for_ext. intros j ((ig3, wg3), bg4). cbv beta iota.
  rewrite alone_bind, alone_own. cbn [bind].
  destruct (rd last j) as [x| |]; cbn [bind]; auto.
  destruct (rd wg3 (i * inp + j)) as [v| |]; cbn [bind]; auto.
  destruct (wr wg3 (i * inp + j) (nadd v (nmul gi x))) as [wg4| |]; cbn [bind]; auto. cbv beta iota.
  rewrite alone_bind, alone_load. unfold get. rewrite E. cbn [bind fst]. apply bind_ext. intros m. apply alone_own.
Qed.

(** The memory holds the parameters of the layers. *)
Definition holds (c : nat) (ls : list (layer T)) : Prop :=
  forall i l, nth_error ls i = Some l -> knd l = KDense -> rd mem (c + i) = Ok (params l).
Lemma holds_cons c l ls : holds c (l :: ls) -> (knd l = KDense -> rd mem c = Ok (params l)) /\ holds (S c) ls.
Proof.
  intros A. split.
  - intros K. specialize (A 0 l eq_refl K). now rewrite Nat.add_0_r in A.
  - intros i q E K. rewrite Nat.add_succ_comm. apply (A (S i) q E K).
Qed.
Definition kp (l l' : layer T) : Prop := knd l' = knd l /\ params l' = params l.
Lemma holds_kp c ls ls' : Forall2 kp ls ls' -> holds c ls -> holds c ls'.
Proof.
  intros F A i l E K.
  assert (G : exists l0, nth_error ls i = Some l0 /\ kp l0 l).
  { clear - F E. revert i E. induction F as [|a b la lb Hab F IH]; intros [|i] E; try discriminate.
    - injection E as <-. exists a. auto.
    - apply IH. exact E. }
  destruct G as (l0 & E0 & (K0 & ->)). apply (A i l0 E0). congruence.
Qed.
Lemma kp_forward l x l' : layer_forward l x = Ok l' -> kp l l'.
Proof.
  unfold layer_forward. destruct (knd l) eqn:K.
  - intros E. apply bind_Ok_inv in E. destruct E as (o & _ & E). injection E as <-. split; reflexivity.
  - intros E. apply bind_Ok_inv in E. destruct E as (o & _ & E). injection E as <-. split; reflexivity.
Qed.
Lemma kp_backward l x g l' : layer_backward l x g = Ok l' -> kp l l'.
Proof.
  unfold layer_backward. destruct (knd l) eqn:K.
  - intros E. apply bind_Ok_inv in E. destruct E as (((i, wg), bg) & _ & E). injection E as <-. split; [cbn; congruence|reflexivity].
  - intros E. apply bind_Ok_inv in E. destruct E as (o & _ & E). injection E as <-. split; reflexivity.
Qed.
Lemma kp_chain_forward ls : forall x ls' y, chain_forward ls x = Ok (ls', y) -> Forall2 kp ls ls'.
Proof.
  induction ls as [|l ls IH]; intros x ls' y E; cbn [chain_forward] in E.
  - injection E as <- <-. constructor.
  - apply bind_Ok_inv in E. destruct E as (l' & E1 & E). apply bind_Ok_inv in E. destruct E as ((ls2, y2) & E2 & E).
    injection E as <- <-. constructor; [eapply kp_forward; eauto|eapply IH; eauto].
Qed.
Lemma kp_chain_backward ls : forall x g ls' y, chain_backward ls x g = Ok (ls', y) -> Forall2 kp ls ls'.
Proof.
  induction ls as [|l ls IH]; intros x g ls' y E; cbn [chain_backward] in E.
  - injection E as <- <-. constructor.
  - apply bind_Ok_inv in E. destruct E as ((ls2, g2) & E2 & E). apply bind_Ok_inv in E. destruct E as (l' & E1 & E).
    injection E as <- <-. constructor; [eapply kp_backward; eauto|eapply IH; eauto].
Qed.
Lemma kp_trans a b c : Forall2 kp a b -> Forall2 kp b c -> Forall2 kp a c.
Proof.
  intros F. revert c. induction F as [|x y la lb (A & B) F IH]; intros c G; inversion G as [|? z ? lc (A' & B') G']; subst; constructor; auto.
  split; congruence.
Qed.

Lemma alone_chain_forward ls : forall c x, holds c ls -> alone mem (r_chain_forward c ls x) = chain_forward ls x.
Proof.
  induction ls as [|l ls IH]; intros c x A; cbn [r_chain_forward chain_forward]; [reflexivity|].
  apply holds_cons in A. destruct A as (A1 & A2). rewrite alone_bind.
  assert (E : alone mem (r_layer_forward c l x) = layer_forward l x).
  { unfold r_layer_forward. destruct (knd l) eqn:K; [|apply alone_own].
    rewrite alone_bind, (alone_dense c (wts l) (bias l)) by auto. unfold layer_forward. rewrite K. reflexivity. }
  rewrite E. apply bind_ext. intros l'. rewrite alone_bind, IH by auto. apply bind_ext. intros (ls2, y). reflexivity.
Qed.
Lemma alone_chain_backward ls : forall c x g, holds c ls -> alone mem (r_chain_backward c ls x g) = chain_backward ls x g.
Proof.
  induction ls as [|l ls IH]; intros c x g A; cbn [r_chain_backward chain_backward]; [reflexivity|].
  apply holds_cons in A. destruct A as (A1 & A2). rewrite alone_bind, IH by auto. apply bind_ext. intros (ls2, g').
  rewrite alone_bind.
  assert (E : alone mem (r_layer_backward c l x g') = layer_backward l x g').
  { unfold r_layer_backward. destruct (knd l) eqn:K; [|apply alone_own].
    rewrite alone_bind, (alone_dense_1 c (wts l) (bias l)) by auto. unfold layer_backward. rewrite K.
    apply bind_ext. intros ((i, wg), bg). reflexivity. }
  rewrite E. apply bind_ext. intros l'. reflexivity.
Qed.
Lemma alone_step kd ls lo xt : holds 0 ls -> alone mem (r_step kd (ls, lo) xt) = net_step kd ls lo (fst xt) (snd xt).
Proof.
  intros A. unfold r_step, net_step. rewrite alone_bind, alone_chain_forward by auto.
  destruct (chain_forward ls (fst xt)) as [(ls1, y)| |] eqn:E; cbn [bind]; auto.
  rewrite alone_bind, alone_own. destruct (loss_forward kd (set_target lo (snd xt)) y) as (lo1, [[]| |]); cbn [bind]; auto.
  destruct (loss_backward kd lo1 y) as [g| |]; cbn [bind]; auto.
  rewrite alone_bind, alone_chain_backward by (eapply holds_kp; [eapply kp_chain_forward; eauto|auto]).
  apply bind_ext. intros (ls2, gx). reflexivity.
Qed.
Lemma kp_net_step kd ls lo x t ls' lo' : net_step kd ls lo x t = Ok (ls', lo') -> Forall2 kp ls ls'.
Proof.
  unfold net_step. intros E. apply bind_Ok_inv in E. destruct E as ((ls1, y) & E1 & E).
  destruct (loss_forward kd (set_target lo t) y) as (lo1, r). apply bind_Ok_inv in E. destruct E as (u & _ & E).
  apply bind_Ok_inv in E. destruct E as (g & _ & E). apply bind_Ok_inv in E. destruct E as ((ls2, gx) & E2 & E).
  injection E as <- <-. eapply kp_trans; [eapply kp_chain_forward; eauto|eapply kp_chain_backward; eauto].
Qed.
(** A task alone does the training steps of its rows. *)
Definition steps_of (kd : losskind T) (ls : list (layer T)) (lo : lossl T) (rows : list (list T * list T)) :=
  foldM (fun (st : list (layer T) * lossl T) xt => net_step kd (fst st) (snd st) (fst xt) (snd xt)) rows (ls, lo).
Lemma alone_task kd rows : forall ls lo, holds 0 ls -> alone mem (r_task kd ls lo rows) = steps_of kd ls lo rows.
Proof.
  unfold r_task, steps_of. induction rows as [|xt rows IH]; intros ls lo A; cbn [rfold foldM]; [reflexivity|].
  rewrite alone_bind, alone_step by auto. cbn [fst snd].
  destruct (net_step kd ls lo (fst xt) (snd xt)) as [(ls1, lo1)| |] eqn:E; cbn [bind]; auto.
  apply IH. eapply holds_kp; [eapply kp_net_step; eauto|auto].
Qed.
End Tasks.

(** *** A round *)
Section Round.
Context {T : Type} `{NumOps T} `{TransOps T} `{LimOps T}.
Variable eta : T.

Definition upd1 (mem : pmem T) (u : ploc * T) : res (pmem T) :=
  v <- get mem (fst u) ;; put mem (fst u) (nsub v (nmul eta (snd u))).
Definition train_with (mem : pmem T) (r : list (layer T) * lossl T) : res (pmem T) := foldM upd1 (updates 0 (fst r)) mem.
(** Every task on the parameters at the start of the round, then the trainings in order. *)
Definition outcome (mem0 : pmem T) (ps : list (task T)) (mem : pmem T) : res (pmem T) :=
  foldM (fun mem p => r <- alone mem0 p ;; train_with mem r) ps mem.

(** No task reads after the first write of the round. *)
Definition quiet (es : list rev_) : Prop := forall a b, es = a ++ EStore :: b -> forall i, ~ In (ETask i) b.
Lemma quiet_prefix a b : quiet (a ++ b) -> quiet a.
Proof. intros Q x y E i Hi. apply (Q x (y ++ b)) with (i := i); [rewrite E, <- app_assoc; reflexivity|]. apply in_or_app. now left. Qed.

Definition rest (mem0 : pmem T) (ps : list (task T)) (mn : mainst T) (mem : pmem T) : res (pmem T) :=
  match mn with
  | MWait j => outcome mem0 (skipn j ps) mem
  | MTrain j us => m1 <- foldM upd1 us mem ;; outcome mem0 (skipn (S j) ps) m1
  | MStore j l v us => m0 <- put mem l v ;; m1 <- foldM upd1 us m0 ;; outcome mem0 (skipn (S j) ps) m1
  end.

Lemma skipn_nth {A} (l : list A) j a : nth_error l j = Some a -> skipn j l = a :: skipn (S j) l.
Proof. revert j. induction l as [|x l IH]; intros [|j] E; try discriminate; cbn in *; [congruence|]. now apply IH. Qed.

Lemma round_inv ps mem0 es s : rsteps eta (mkRS ps (MWait 0) mem0) es s -> quiet es ->
  length (r_tasks s) = length ps /\
  (forall i p, nth_error (r_tasks s) i = Some p -> exists p0, nth_error ps i = Some p0 /\ alone mem0 p = alone mem0 p0) /\
  (~ In EStore es -> r_mem s = mem0) /\
  rest mem0 ps (r_main s) (r_mem s) = outcome mem0 ps mem0.
Proof.
  intros R Q. remember (mkRS ps (MWait 0) mem0) as s0. induction R as [s|s1 es s2 e s3 R IH ST].
  - subst s. cbn [r_tasks r_main r_mem rest skipn]. split; [reflexivity|]. split; [|auto]. intros i p E. eauto.
  - destruct (IH Heqs0 (quiet_prefix _ _ Q)) as (L & A & M & O). clear IH.
    inversion ST as [ts mn mem i l k v E G|ts mem j ls lo E|ts mem j l g us v G|ts mem mem' j l v us G|ts mem j]; subst; cbn [r_tasks r_main r_mem] in *.
    + assert (NS : ~ In EStore es).
      { intros HI. apply in_split in HI. destruct HI as (a & b & ->).
        apply (Q a (b ++ [ETask i])) with (i := i); [rewrite <- app_assoc; reflexivity|]. apply in_or_app. right. now left. }
      rewrite upd_length. split; [exact L|]. split; [|split; [intros _; now apply M|exact O]].
      intros i0 p E0. rewrite Base.nth_error_upd in E0. destruct (Nat.eqb_spec i0 i) as [->|N]; simpl andb in E0; cbv iota in E0.
      * assert (Li : i < length ts) by (apply nth_error_Some; congruence).
        apply Nat.ltb_lt in Li. unfold task in *. rewrite Li in E0. cbv iota in E0. injection E0 as <-.
        destruct (A i _ E) as (p0 & E1 & E2). exists p0. split; [exact E1|]. rewrite <- E2. cbn [alone].
        rewrite <- (M NS), G. reflexivity.
      * apply A. exact E0.
    + split; [exact L|]. split; [exact A|]. split; [intros NI; apply M; intros HI; apply NI, in_or_app; now left|].
      rewrite <- O. cbn [rest]. destruct (A j _ E) as (p0 & E1 & E2). rewrite (skipn_nth _ _ _ E1).
      unfold outcome at 2. cbn [foldM]. rewrite <- E2. cbn [alone bind]. reflexivity.
    + split; [exact L|]. split; [exact A|]. split; [intros NI; apply M; intros HI; apply NI, in_or_app; now left|].
      rewrite <- O. cbn [rest foldM]. unfold upd1 at 2. cbn [fst snd]. rewrite G. cbn [bind]. destruct (put mem l (nsub v (nmul eta g))); reflexivity.
    + split; [exact L|]. split; [exact A|]. split; [intros NI; exfalso; apply NI, in_or_app; right; now left|].
      rewrite <- O. cbn [rest]. rewrite G. reflexivity.
    + split; [exact L|]. split; [exact A|]. split; [intros NI; apply M; intros HI; apply NI, in_or_app; now left|].
      rewrite <- O. reflexivity.
Qed.
Lemma round_outcome ps mem0 es s : rsteps eta (mkRS ps (MWait 0) mem0) es s -> quiet es -> round_over s ->
  outcome mem0 ps mem0 = Ok (r_mem s).
Proof.
  intros R Q D. destruct (round_inv ps mem0 es s R Q) as (L & _ & _ & O). rewrite <- O. unfold round_over in D. rewrite D, L.
  cbn [rest]. rewrite skipn_all. reflexivity.
Qed.

(** *** Runs exist *)
Lemma rsteps_trans s1 e1 s2 e2 s3 : rsteps eta s1 e1 s2 -> rsteps eta s2 e2 s3 -> rsteps eta s1 (e1 ++ e2) s3.
Proof.
  intros A B. induction B as [s|s a sa e sb B IH ST]; [now rewrite app_nil_r|].
  rewrite app_assoc. econstructor; [apply IH; exact A|exact ST].
Qed.
Lemma rsteps_one s e s' : rstep eta s e s' -> rsteps eta s [e] s'.
Proof. intros A. change [e] with ([] ++ [e]). econstructor; [constructor|exact A]. Qed.

Lemma upd_upd {A} (l : list A) i x y : upd (upd l i x) i y = upd l i y.
Proof. revert i. induction l as [|a l IH]; intros [|i]; cbn; auto. now rewrite IH. Qed.

(** Task [i] runs to its end. *)
Lemma run_alone mem mn i p : forall ts r, nth_error ts i = Some p -> alone mem p = Ok r ->
  exists es, rsteps eta (mkRS ts mn mem) es (mkRS (upd ts i (RRet r)) mn mem) /\ Forall (eq (ETask i)) es.
Proof.
  induction p as [a|l k IH| |]; intros ts r E A; cbn [alone] in A; try discriminate.
  - injection A as ->. exists []. rewrite (upd_same_error _ _ _ E). split; constructor.
  - destruct (get mem l) as [v| |] eqn:G; try discriminate. cbn [bind] in A.
    assert (Li : i < length ts) by (apply nth_error_Some; congruence).
    destruct (IH v (upd ts i (k v)) r) as (es & R & F).
    + rewrite nth_error_upd, Nat.eqb_refl by exact Li. reflexivity.
    + exact A.
    + exists ([ETask i] ++ es). rewrite upd_upd in R. split.
      * eapply rsteps_trans; [|exact R]. apply rsteps_one. econstructor; eauto.
      * constructor; auto.
Qed.
Lemma run_updates us : forall ts j mem mem', foldM upd1 us mem = Ok mem' ->
  exists es, rsteps eta (mkRS ts (MTrain j us) mem) es (mkRS ts (MTrain j []) mem') /\ forall i, ~ In (ETask i) es.
Proof.
  induction us as [|(l, g) us IH]; intros ts j mem mem' E; cbn [foldM] in E.
  - injection E as <-. exists []. split; [constructor|auto].
  - unfold upd1 at 1 in E. cbn [fst snd] in E. apply bind_Ok_inv in E. destruct E as (m1 & E1 & E).
    apply bind_Ok_inv in E1. destruct E1 as (v & G & P).
    destruct (IH ts j m1 mem' E) as (es & R & F). exists (([ELoad] ++ [EStore]) ++ es). split.
    + eapply rsteps_trans; [|exact R]. eapply rsteps_trans; apply rsteps_one; econstructor; eauto.
    + intros i HI. cbn in HI. destruct HI as [HI|[HI|HI]]; try discriminate. now apply (F i).
Qed.
Lemma run_main (rs : list (list (layer T) * lossl T)) : forall k ts j mem mem',
  length rs - j = k -> j <= length rs ->
  ts = map RRet rs -> foldM train_with (skipn j rs) mem = Ok mem' ->
  exists es, rsteps eta (mkRS ts (MWait j) mem) es (mkRS ts (MWait (length rs)) mem') /\ forall i, ~ In (ETask i) es.
Proof.
  induction k as [|k IH]; intros ts j mem mem' Hk Hj -> E.
  - assert (j = length rs) as -> by lia. rewrite skipn_all in E. injection E as <-. exists []. split; [constructor|auto].
  - destruct (nth_error rs j) as [(gl, lo)|] eqn:EN; [|apply nth_error_None in EN; lia].
    rewrite (skipn_nth _ _ _ EN) in E. cbn [foldM] in E. apply bind_Ok_inv in E. destruct E as (m1 & E1 & E).
    unfold train_with in E1. cbn [fst] in E1.
    destruct (run_updates _ (map RRet rs) j mem m1 E1) as (es1 & R1 & F1).
    destruct (IH (map RRet rs) (S j) m1 mem') as (es2 & R2 & F2); auto; [lia|lia|].
    exists (([EGet] ++ es1) ++ ([ENext] ++ es2)). split.
    + eapply rsteps_trans; [eapply rsteps_trans; [|exact R1]|eapply rsteps_trans; [|exact R2]]; apply rsteps_one; econstructor.
      rewrite nth_error_map, EN. reflexivity.
    + intros i HI. rewrite !in_app_iff in HI. destruct HI as [[HI|HI]|[HI|HI]].
      * cbn in HI. destruct HI as [HI|[]]. discriminate.
      * now apply (F1 i).
      * cbn in HI. destruct HI as [HI|[]]. discriminate.
      * now apply (F2 i).
Qed.
Lemma run_all mem mn (ps : list (task T)) : forall todo done rs,
  ps = done ++ todo -> Forall2 (fun p r => alone mem p = Ok r) todo rs ->
  forall dr : list (list (layer T) * lossl T), length dr = length done ->
  exists es, rsteps eta (mkRS (map RRet dr ++ todo) mn mem) es (mkRS (map RRet dr ++ map RRet rs) mn mem) /\ ~ In EStore es.
Proof.
  induction todo as [|p todo IH]; intros done rs E F dr L; inversion F as [|? r ? rs' A F']; subst.
  - exists []. cbn. split; [constructor|auto].
  - destruct (run_alone mem mn (length dr) p (map RRet dr ++ p :: todo) r) as (es1 & R1 & F1).
    + rewrite nth_error_app2, map_length, Nat.sub_diag by (rewrite map_length; lia). reflexivity.
    + exact A.
    + destruct (IH (done ++ [p]) rs') with (dr := dr ++ [r]) as (es2 & R2 & F2); auto.
      * now rewrite <- app_assoc.
      * rewrite !app_length. cbn. lia.
      * exists (es1 ++ es2). split.
        -- eapply rsteps_trans; [exact R1|].
           rewrite map_app in R2. cbn [map] in R2. rewrite <- !app_assoc in R2. cbn [app] in R2.
           replace (upd (map RRet dr ++ p :: todo) (length dr) (RRet r)) with (map RRet dr ++ RRet r :: todo); [exact R2|].
           clear. induction dr as [|a dr IHd]; [reflexivity|]. cbn. now rewrite IHd.
        -- intros HI. apply in_app_or in HI. destruct HI as [HI|HI]; [|now apply F2].
           rewrite Forall_forall in F1. specialize (F1 _ HI). discriminate.
Qed.
(** If every task alone ends and the trainings succeed, some quiet run finishes the round. *)
Lemma quiet_run_exists ps mem mem' rs : Forall2 (fun p r => alone mem p = Ok r) ps rs ->
  foldM train_with rs mem = Ok mem' ->
  exists es s, rsteps eta (mkRS ps (MWait 0) mem) es s /\ quiet es /\ round_over s /\ r_mem s = mem'.
Proof.
  intros F E. destruct (run_all mem (MWait 0) ps ps [] rs eq_refl F [] eq_refl) as (es1 & R1 & N1). cbn [map app] in R1.
  destruct (run_main rs (length rs) (map RRet rs) 0 mem mem') as (es2 & R2 & N2); auto; [lia|lia|].
  exists (es1 ++ es2). eexists. split; [eapply rsteps_trans; eauto|]. split; [|split; [|reflexivity]].
  - intros a b EE i HI. apply app_eq_app in EE. destruct EE as (l & [(-> & E2)|(E1 & E2)]).
    + destruct l as [|x l].
      * cbn in E2. rewrite <- E2 in N2. apply (N2 i). now right.
      * cbn [app] in E2. injection E2 as <- ->. apply N1. apply in_or_app. right. now left.
    + apply (N2 i). rewrite E2. apply in_or_app. right. now right.
  - unfold round_over. cbn. now rewrite map_length.
Qed.
End Round.

(** *** What a task reads *)
Section Reads.
Context {T : Type} `{NumOps T} `{TransOps T} `{LimOps T}.
Variable mem : pmem T.

Fixpoint reads {A} (p : rprog T A) (l : ploc) : Prop :=
  match p with
  | RLoad l' k => l' = l \/ exists v, get mem l' = Ok v /\ reads (k v) l
  | _ => False
  end.
Lemma reads_l {A B} (p : rprog T A) (f : A -> rprog T B) l : reads p l -> reads (rbind p f) l.
Proof.
  induction p as [a|l' k IH| |]; cbn [rbind reads]; try contradiction.
  intros [->|(v & G & R)]; [now left|right]. exists v. auto.
Qed.
Lemma reads_r {A B} (p : rprog T A) (f : A -> rprog T B) a l : alone mem p = Ok a -> reads (f a) l -> reads (rbind p f) l.
Proof.
  induction p as [b|l' k IH| |]; cbn [rbind reads alone]; try discriminate.
  - intros E. injection E as ->. auto.
  - intros E R. apply bind_Ok_inv in E. destruct E as (v & G & E). right. exists v. auto.
Qed.

Variable eta : T.
(** The task gets to the point where it is about to read [l]. *)
Lemma run_reads mn i l p : forall ts, nth_error ts i = Some p -> reads p l ->
  exists es k, rsteps eta (mkRS ts mn mem) es (mkRS (upd ts i (RLoad l k)) mn mem).
Proof.
  induction p as [a|l' k IH| |]; intros ts E R; cbn [reads] in R; try contradiction.
  destruct R as [->|(v & G & R)].
  - exists [], k. rewrite (upd_same_error _ _ _ E). constructor.
  - assert (Li : i < length ts) by (apply nth_error_Some; congruence).
    destruct (IH v (upd ts i (k v))) as (es & k' & RS).
    + now rewrite nth_error_upd, Nat.eqb_refl by exact Li.
    + exact R.
    + exists ([ETask i] ++ es), k'. rewrite upd_upd in RS. eapply rsteps_trans; [|exact RS].
      apply rsteps_one. econstructor; eauto.
Qed.

(** The forward pass reads the first parameter that training writes. *)
Lemma alone_layer_forward c l x : (knd l = KDense -> rd mem c = Ok (params l)) ->
  alone mem (r_layer_forward c l x) = layer_forward l x.
Proof.
  intros A. unfold r_layer_forward. destruct (knd l) eqn:K; [|apply alone_own].
  rewrite alone_bind, (alone_dense mem c (wts l) (bias l)) by auto. unfold layer_forward. rewrite K. reflexivity.
Qed.
Lemma reads_forward ls : forall c n m x l u, nshape ls n m -> length x = n -> holds mem c ls ->
  hd_error (updates c ls) = Some (l, u) -> reads (r_chain_forward c ls x) l.
Proof.
  induction ls as [|q ls IH]; intros c n m x l u HS Hx HM EU; cbn [updates] in EU; [discriminate|].
  destruct HS as (k & HL & HS). apply holds_cons in HM. destruct HM as (HM1 & HM2).
  cbn [r_chain_forward]. destruct (updates_of c q) as [|(l0, u0) us] eqn:EQ.
  - cbn [app] in EU. destruct (layer_forward_val q n k x HL Hx) as (y1 & Ly1 & F1).
    apply reads_r with (a := set_out q y1).
    + rewrite alone_layer_forward by exact HM1. apply F1; [exact HL|apply same_params_refl].
    + apply reads_l. cbn [set_out out]. apply (IH (S c) k m y1 l u HS Ly1 HM2 EU).
  - cbn [app hd_error] in EU. injection EU as -> ->. apply reads_l. unfold r_layer_forward, updates_of in *.
    destruct HL as (L1 & L2 & L3 & L4). destruct (knd q) eqn:K; [|discriminate]. destruct L4 as (W1 & W2 & W3 & W4).
    specialize (HM1 eq_refl). apply reads_l. unfold r_dense.
    assert (HB : exists b0, get mem (c, true, 0) = Ok b0 \/ length (bias q) = 0).
    { unfold get. rewrite HM1. cbn [bind params snd]. destruct (bias q) as [|b0 bs]; [exists u|exists b0]; auto. }
    destruct HB as (b0 & HB).
    destruct (length (out q)) as [|k'] eqn:EK.
    { subst k. cbn in W2, W4. destruct (wgrad q); [|discriminate]. destruct (bgrad q); [|discriminate]. discriminate. }
    unfold rfor at 1. cbn [rfor_from]. apply reads_l. unfold r_dense_row. rewrite Hx.
    destruct (wgrad q) as [|w0 ws] eqn:EW.
    + cbn [length seq combine map app] in EQ. destruct (bgrad q) as [|g0 gs]; [discriminate|].
      cbn in EQ. injection EQ as <- _ _. apply reads_l. cbn [load reads]. now left.
    + cbn [length seq combine map app fst snd] in EQ. injection EQ as <- _ _.
      destruct HB as [HB|HB]; [|lia].
      apply reads_r with (a := b0); [rewrite alone_load; exact HB|].
      apply reads_r with (a := upd (out q) 0 b0).
      { rewrite alone_own. apply wr_ok. lia. }
      destruct n as [|n']; [cbn in W2; lia|]. unfold rfor. cbn [rfor_from]. apply reads_l. apply reads_l.
      cbn [load reads]. left. f_equal.
Qed.
Lemma reads_task kd ls lo n m (rows : list (list T * list T)) l u : nshape ls n m -> holds mem 0 ls -> rows <> [] ->
  Forall (fun xt : list T * list T => length (fst xt) = n) rows ->
  hd_error (updates 0 ls) = Some (l, u) -> reads (r_task kd ls lo rows) l.
Proof.
  intros HS HM HR HX HU. destruct rows as [|xt rows]; [contradiction|]. inversion HX as [|? ? Hx _]; subst.
  unfold r_task. cbn [rfold]. apply reads_l. unfold r_step. apply reads_l.
  eapply reads_forward; eauto.
Qed.
(** Which locations training writes depends on the shape only. *)
Lemma updates_shape (ls : list (layer T)) : forall c (ls' : list (layer T)) n m, nshape ls n m -> nshape ls' n m -> Forall2 kp ls ls' ->
  map fst (updates c ls') = map fst (updates c ls) :> list ploc.
Proof.
  induction ls as [|l ls IH]; intros c ls' n m HS HS' F; inversion F as [|? l' ? ls2 (K1 & K2) F']; subst; [reflexivity|].
  destruct HS as (k & HL & HS), HS' as (k' & HL' & HS'). cbn [updates]. rewrite !map_app.
  assert (KK : k' = k).
  { destruct HL as (_ & A2 & A3 & A4), HL' as (_ & B2 & B3 & B4). rewrite K1 in B4. unfold params in K2. injection K2 as K2 K3. destruct (knd l).
    - destruct A4 as (_ & _ & A5 & _), B4 as (_ & _ & B5 & _). congruence.
    - destruct A4, B4. congruence. }
  subst k'. f_equal; [|eapply IH; eauto].
  destruct HL as (_ & _ & _ & HL), HL' as (_ & _ & _ & HL'). unfold updates_of. rewrite K1 in *. destruct (knd l); [|reflexivity].
  destruct HL as (_ & A1 & _ & A2), HL' as (_ & B1 & _ & B2). rewrite !map_app, !map_map. cbn [fst].
  assert (G : forall (f : nat -> ploc) (a b : list T), length a = length b ->
    map (fun jg : nat * T => f (fst jg)) (combine (seq 0 (length a)) a) = map (fun jg : nat * T => f (fst jg)) (combine (seq 0 (length b)) b)).
  { clear. intros f a b L. rewrite <- L. generalize 0. revert b L. induction a as [|x a IH]; intros [|y b] L i; try discriminate; [reflexivity|].
    cbn [length seq combine map fst]. f_equal. apply IH. cbn in L. lia. }
  f_equal; [apply (G (fun j => (c, false, j)))|apply (G (fun j => (c, true, j)))]; congruence.
Qed.
End Reads.

(** *** Steps of a network *)
Section Net.
Context {T : Type} `{NumOps T} `{TransOps T} `{LimOps T}.
Variable draw : nat -> T.

Lemma nl_inj (a b : list (layer T)) kd lo kd' lo' : map NL a ++ [NO kd lo] = map NL b ++ [NO kd' lo'] -> a = b /\ lo = lo'.
Proof.
  intros E. apply app_inj_tail in E. destruct E as (E & E'). split; [|congruence].
  revert b E. induction a as [|x a IH]; intros [|y b] E; try discriminate; [reflexivity|].
  cbn in E. injection E as -> E. f_equal. auto.
Qed.
Lemma m_step_net m ls kd lo n k x t m' ls' lo' : network m ls kd lo n k -> m_step (node_ops draw) m x t = Ok m' ->
  network m' ls' kd lo' n k -> net_step kd ls lo x t = Ok (ls', lo').
Proof.
  intros W E W'. rewrite (c36_step _ _ _ _ draw m ls kd lo n k x t W) in E. unfold net_step.
  destruct (chain_forward ls x) as [(ls1, y)| |]; try discriminate. cbn [bind] in *.
  destruct (loss_forward kd (set_target lo t) y) as (lo1, [[]| |]); try discriminate. cbn [bind] in *.
  destruct (loss_backward kd lo1 y) as [g| |]; try discriminate. cbn [bind] in *.
  destruct (chain_backward ls1 x g) as [(ls2, gx)| |]; try discriminate. cbn [bind] in *. injection E as <-.
  pose proof (nw_nodes _ _ _ _ _ _ W') as EN. cbn [mnodes] in EN. rewrite place_fst in EN. apply nl_inj in EN.
  destruct EN as (-> & <-). reflexivity.
Qed.
Definition model_steps (rows : list (list T * list T)) (m : model (node T)) : res (model (node T)) :=
  foldM (fun m xt => m_step (node_ops draw) m (fst xt) (snd xt)) rows m.
Lemma same_kp (ls ls' : list (layer T)) : Forall2 same_params ls ls' -> Forall2 kp ls ls'.
Proof. induction 1 as [|a b la lb (A & B & C & D) F IH]; constructor; auto. split; [exact A|]. unfold params. congruence. Qed.
Lemma step_net m ls kd lo n k x t m' : network m ls kd lo n k -> length x = n -> m_step (node_ops draw) m x t = Ok m' ->
  exists ls' lo', net_step kd ls lo x t = Ok (ls', lo') /\ network m' ls' kd lo' n k /\ Forall2 kp ls ls' /\ same_loss lo lo'.
Proof.
  intros W Hx E. destruct (step_adds draw m ls kd lo n k x t m' W Hx E) as (D & _ & A).
  destruct (A m ls lo W (all_same_refl ls) (same_loss_refl lo)) as (m2 & ls2 & lo2 & E2 & W2 & P2 & S2 & _).
  cbn [fst snd] in E2. assert (m2 = m') by congruence. subst m2.
  exists ls2, lo2. split; [eapply m_step_net; eauto|]. split; [exact W2|]. split; [now apply same_kp|exact S2].
Qed.
Lemma steps_net kd n k rows : forall m ls lo m', network m ls kd lo n k ->
  Forall (fun xt : list T * list T => length (fst xt) = n) rows -> model_steps rows m = Ok m' ->
  exists ls' lo', steps_of kd ls lo rows = Ok (ls', lo') /\ nshape ls' n k /\ Forall2 kp ls ls'.
Proof.
  induction rows as [|xt rows IH]; intros m ls lo m' W HX E; unfold model_steps in *; cbn [foldM] in E.
  - exists ls, lo. split; [reflexivity|]. split; [apply W|].
    clear. induction ls; constructor; auto. split; reflexivity.
  - inversion HX as [|? ? Hx HX']; subst. apply bind_Ok_inv in E. destruct E as (m1 & E1 & E).
    destruct (step_net m ls kd lo (length (fst xt)) k (fst xt) (snd xt) m1 W eq_refl E1) as (ls1 & lo1 & N1 & W1 & P1 & _).
    destruct (IH m1 ls1 lo1 m' W1 HX' E) as (ls2 & lo2 & N2 & S2 & P2).
    exists ls2, lo2. unfold steps_of in *. cbn [foldM fst snd]. rewrite N1. cbn [bind].
    split; [exact N2|]. split; [exact S2|]. eapply kp_trans; eauto.
Qed.
Lemma network_holds (m : model (node T)) ls kd lo n k : network m ls kd lo n k -> holds (shared_of m) 0 ls.
Proof.
  intros W i l E K. rewrite (network_shared _ _ _ _ _ _ W). cbn [plus]. unfold rd.
  rewrite nth_error_app1 by (rewrite map_length; apply nth_error_Some; congruence).
  rewrite nth_error_map, E. reflexivity.
Qed.
End Net.

(** *** The parameter fields of a copy are not used *)
Section Strip.
Context {T : Type} `{NumOps T} `{TransOps T} `{LimOps T}.
Definition strip (l : layer T) : layer T := mkLayer (knd l) (insz l) [] [] (wgrad l) (bgrad l) (out l) (ig l).
Variable mem : pmem T.

Lemma strip_forward c l x : alone mem (r_layer_forward c (strip l) x) = (l' <- alone mem (r_layer_forward c l x) ;; Ok (strip l')).
Proof.
  unfold r_layer_forward. cbn [strip knd out]. destruct (knd l) as [|a] eqn:K.
  - rewrite !alone_bind. destruct (alone mem (r_dense c (out l) x (length x) (length (out l)))); cbn [bind alone]; auto.
  - rewrite !alone_own. unfold layer_forward. cbn [strip knd out]. rewrite K.
    destruct (act_forward a (out l) x); cbn [bind]; auto.
Qed.
Lemma strip_backward c l x g : alone mem (r_layer_backward c (strip l) x g) = (l' <- alone mem (r_layer_backward c l x g) ;; Ok (strip l')).
Proof.
  unfold r_layer_backward. cbn [strip knd out ig wgrad bgrad insz]. destruct (knd l) as [|a] eqn:K.
  - rewrite !alone_bind. destruct (alone mem (r_dense_1 c (ig l) (wgrad l) (bgrad l) g x (insz l) (length g))) as [((i, wg), bg)| |]; cbn [bind alone]; auto.
  - rewrite !alone_own. unfold layer_backward. cbn [strip knd out ig]. rewrite K.
    destruct (act_backward a (out l) (ig l) g); cbn [bind]; auto.
Qed.
Lemma strip_chain_forward ls : forall c x, alone mem (r_chain_forward c (map strip ls) x)
  = ('(ls', y) <- alone mem (r_chain_forward c ls x) ;; Ok (map strip ls', y)).
Proof.
  induction ls as [|l ls IH]; intros c x; cbn [map r_chain_forward]; [reflexivity|].
  rewrite !alone_bind, strip_forward. destruct (alone mem (r_layer_forward c l x)) as [l'| |]; cbn [bind]; auto.
  rewrite !alone_bind. cbn [strip out]. rewrite IH.
  destruct (alone mem (r_chain_forward (S c) ls (out l'))) as [(ls', y)| |]; cbn [bind]; auto.
Qed.
Lemma strip_chain_backward ls : forall c x g, alone mem (r_chain_backward c (map strip ls) x g)
  = ('(ls', y) <- alone mem (r_chain_backward c ls x g) ;; Ok (map strip ls', y)).
Proof.
  induction ls as [|l ls IH]; intros c x g; cbn [map r_chain_backward]; [reflexivity|].
  rewrite !alone_bind. cbn [strip out]. rewrite IH.
  destruct (alone mem (r_chain_backward (S c) ls (out l) g)) as [(ls', g')| |]; cbn [bind]; auto.
  rewrite !alone_bind, strip_backward.
  destruct (alone mem (r_layer_backward c l x g')) as [l'| |]; cbn [bind]; auto.
Qed.
Lemma strip_step kd ls lo xt : alone mem (r_step kd (map strip ls, lo) xt)
  = ('(ls', lo') <- alone mem (r_step kd (ls, lo) xt) ;; Ok (map strip ls', lo')).
Proof.
  unfold r_step. rewrite !alone_bind, strip_chain_forward.
  destruct (alone mem (r_chain_forward 0 ls (fst xt))) as [(ls1, y)| |]; cbn [bind]; auto.
  rewrite !alone_bind, !alone_own. destruct (loss_forward kd (set_target lo (snd xt)) y) as (lo1, [[]| |]); cbn [bind]; auto.
  destruct (loss_backward kd lo1 y) as [g| |]; cbn [bind]; auto.
  rewrite !alone_bind, strip_chain_backward.
  destruct (alone mem (r_chain_backward 0 ls1 (fst xt) g)) as [(ls2, gx)| |]; cbn [bind]; auto.
Qed.
Lemma strip_task kd rows : forall ls lo, alone mem (r_task kd (map strip ls) lo rows)
  = ('(ls', lo') <- alone mem (r_task kd ls lo rows) ;; Ok (map strip ls', lo')).
Proof.
  unfold r_task. induction rows as [|xt rows IH]; intros ls lo; cbn [rfold]; [reflexivity|].
  rewrite !alone_bind, strip_step. destruct (alone mem (r_step kd (ls, lo) xt)) as [(ls1, lo1)| |]; cbn [bind]; auto.
Qed.
Lemma strip_updates ls : forall c, updates c (map strip ls) = updates c ls.
Proof. induction ls as [|l ls IH]; intros c; cbn [map updates]; [reflexivity|]. now rewrite IH. Qed.

Lemma outcome_strip eta kd ls ls2 lo tasks : map strip ls = map strip ls2 -> forall m0,
  outcome eta mem (map (r_task kd ls lo) tasks) m0 = outcome eta mem (map (r_task kd ls2 lo) tasks) m0.
Proof.
  intros E. assert (G : forall ls3, forall m0, outcome eta mem (map (r_task kd (map strip ls3) lo) tasks) m0 = outcome eta mem (map (r_task kd ls3 lo) tasks) m0).
  { intros ls3. unfold outcome. induction tasks as [|r tasks IH]; intros m0; cbn [map foldM]; [reflexivity|].
    rewrite strip_task. destruct (alone mem (r_task kd ls3 lo r)) as [(ls', lo')| |]; cbn [bind]; auto.
    unfold train_with. cbn [fst]. rewrite strip_updates. destruct (foldM (upd1 eta) (updates 0 ls') m0); cbn [bind]; auto. }
  intros m0. rewrite <- (G ls), <- (G ls2), E. reflexivity.
Qed.
End Strip.

(** *** Training with the gradients of a task *)
Section Updates.
Context {T : Type} `{NumOps T} `{TransOps T} `{LimOps T}.
Variable eta : T.

Lemma rd_mid {A} (pre : list A) x post : rd (pre ++ x :: post) (length pre) = Ok x.
Proof. unfold rd. now rewrite nth_error_app2, Nat.sub_diag by lia. Qed.
Lemma wr_mid {A} (pre : list A) x y post : wr (pre ++ x :: post) (length pre) y = Ok (pre ++ y :: post).
Proof.
  rewrite wr_ok by (rewrite app_length; cbn; lia). f_equal. induction pre as [|a pre IH]; [reflexivity|]. cbn. now rewrite IH.
Qed.
Lemma moved_cons w ws g gs : moved eta (w :: ws) (g :: gs) = nsub w (nmul eta g) :: moved eta ws gs.
Proof. unfold moved, tab. cbn [length seq map nth]. rewrite <- seq_shift, map_map. reflexivity. Qed.

Lemma upd_weights gs : forall (pre post : pmem T) dn ws b, length gs = length ws ->
  foldM (upd1 eta) (map (fun jg : nat * T => ((length pre, false, fst jg), snd jg)) (combine (seq (length dn) (length gs)) gs)) (pre ++ (dn ++ ws, b) :: post)
  = Ok (pre ++ (dn ++ moved eta ws gs, b) :: post).
Proof.
  induction gs as [|g gs IH]; intros pre post dn [|w ws] b L; try discriminate; [reflexivity|].
  cbn [length seq combine map foldM]. unfold upd1 at 1. cbn [fst snd]. unfold get, put. rewrite rd_mid. cbn [bind fst snd].
  rewrite rd_mid. cbn [bind]. rewrite wr_mid. cbn [bind]. rewrite wr_mid. cbn [bind].
  specialize (IH pre post (dn ++ [nsub w (nmul eta g)]) ws b). rewrite app_length, <- !app_assoc in IH. cbn [length app] in IH.
  rewrite Nat.add_1_r in IH. rewrite IH by (cbn in L; lia). now rewrite moved_cons.
Qed.
Lemma upd_biases gs : forall (pre post : pmem T) dn ws w, length gs = length ws ->
  foldM (upd1 eta) (map (fun jg : nat * T => ((length pre, true, fst jg), snd jg)) (combine (seq (length dn) (length gs)) gs)) (pre ++ (w, dn ++ ws) :: post)
  = Ok (pre ++ (w, dn ++ moved eta ws gs) :: post).
Proof.
  induction gs as [|g gs IH]; intros pre post dn [|b ws] w L; try discriminate; [reflexivity|].
  cbn [length seq combine map foldM]. unfold upd1 at 1. cbn [fst snd]. unfold get, put. rewrite rd_mid. cbn [bind fst snd].
  rewrite rd_mid. cbn [bind]. rewrite wr_mid. cbn [bind]. rewrite wr_mid. cbn [bind].
  specialize (IH pre post (dn ++ [nsub b (nmul eta g)]) ws w). rewrite app_length, <- !app_assoc in IH. cbn [length app] in IH.
  rewrite Nat.add_1_r in IH. rewrite IH by (cbn in L; lia). now rewrite moved_cons.
Qed.
Lemma upd_layers gl : forall (pre post : pmem T) ls n k, nshape ls n k -> nshape gl n k -> map sig gl = map sig ls ->
  exists ls', foldM (upd1 eta) (updates (length pre) gl) (pre ++ map params ls ++ post) = Ok (pre ++ map params ls' ++ post) /\
    nshape ls' n k /\ map sig ls' = map sig ls /\ PV ls' = moved eta (PV ls) (GV gl) /\ map av ls' = map av ls.
Proof.
  induction gl as [|g gl IH]; intros pre post [|l ls] n k HS HG ES; try discriminate.
  - exists []. cbn [updates foldM]. cbn in HS. auto.
  - destruct HS as (j & HL & HS), HG as (j' & HL' & HG). cbn [map] in ES.
    assert (E1 : sig g = sig l) by congruence. assert (E2 : map sig gl = map sig ls) by congruence.
    unfold sig in E1. injection E1 as K1 K2 K3.
    assert (j' = j) by (destruct HL as (_ & _ & X & _), HL' as (_ & _ & Y & _); congruence). subst j'.
    assert (ONE : exists l', foldM (upd1 eta) (updates_of (length pre) g) (pre ++ params l :: map params ls ++ post) = Ok (pre ++ params l' :: map params ls ++ post) /\
      lshape l' n j /\ sig l' = sig l /\ pvec l' = moved eta (pvec l) (gvec g) /\ av l' = av l /\ length (pvec l) = length (gvec g)).
    { destruct HL as (A1 & A2 & A3 & A4), HL' as (B1 & B2 & B3 & B4). unfold updates_of, pvec, gvec, av, lshape. rewrite K1 in *.
      destruct (knd l) eqn:K.
      - destruct A4 as (C1 & C2 & C3 & C4), B4 as (D1 & D2 & D3 & D4).
        exists (mkLayer KDense (insz l) (moved eta (wts l) (wgrad g)) (moved eta (bias l) (bgrad g)) (wgrad l) (bgrad l) (out l) (ig l)).
        cbn [knd insz wts bias wgrad bgrad out ig]. split; [|split; [|split; [|split; [|split]]]].
        + rewrite foldM_app. unfold params at 1. pose proof (upd_weights (wgrad g) pre (map params ls ++ post) [] (wts l) (bias l)) as U.
          cbn [length app] in U. rewrite U by congruence. cbn [bind].
          pose proof (upd_biases (bgrad g) pre (map params ls ++ post) [] (bias l) (moved eta (wts l) (wgrad g))) as V.
          cbn [length app] in V. rewrite V by congruence. reflexivity.
        + unfold moved. rewrite !tab_length. auto 10.
        + unfold sig. cbn. congruence.
        + rewrite moved_app by congruence. reflexivity.
        + reflexivity.
        + rewrite !app_length. congruence.
      - exists l. cbn [foldM]. rewrite K. repeat split; auto; apply A4. }
    destruct ONE as (l' & E & S1 & S2 & S3 & S4 & S5).
    destruct (IH (pre ++ [params l']) post ls j k HS HG E2) as (ls' & F & T1 & T2 & T3 & T4).
    exists (l' :: ls'). cbn [updates map]. rewrite foldM_app. cbn [app]. rewrite E. cbn [bind].
    rewrite app_length in F. cbn [length] in F. rewrite Nat.add_1_r in F. rewrite <- !app_assoc in F. cbn [app] in F. rewrite F.
    split; [reflexivity|]. split; [exists j; auto|]. split; [congruence|]. split.
    + unfold PV, GV in *. cbn [flat_map]. rewrite S3, T3, moved_app by exact S5. reflexivity.
    + congruence.
Qed.
End Updates.
