(** C101: the score of a model. *)
From Verif Require Import Base Num RSum MathModel MathProofs LayerModel LossModel LossSpec LossProofs GraphModel GraphSpec GraphProofs PropGraph
  ModelModel NodeModel ChainProofs ModelProofs StepProofs PropLoss PropModel PropStep TrainProofs DumpModel FloatModel FloatProofs FloatIeee ScoreModel.
From Coq Require Import Reals Lra.

(** *** Vocabulary *)
Section Vocabulary.
Context {T : Type} `{NumOps T} `{TransOps T} `{LimOps T}.

(** The calls a user makes between two looks at the score. *)
Inductive scall := SPredict (x : list T) | SStep (x t : list T) | STrain (eta : T) | SReset.
Definition s_call (draw : nat -> T) (m : model (node T)) (c : scall) : res (model (node T)) :=
  match c with
  | SPredict x => '(m', _) <- m_predict (node_ops draw) m x ;; Ok m'
  | SStep x t => m_step (node_ops draw) m x t
  | STrain eta => m_train eta m
  | SReset => m_reset_score m
  end.
(** Steps and predictions since the last reset, and whether there was one. *)
Fixpoint steps_since (cs : list scall) (before : nat) : nat :=
  match cs with
  | [] => before
  | SStep _ _ :: r => steps_since r (S before)
  | SReset :: r => steps_since r 0
  | _ :: r => steps_since r before
  end.
Fixpoint predictions_since (cs : list scall) (before : nat) : nat :=
  match cs with
  | [] => before
  | SPredict _ :: r => predictions_since r (S before)
  | SReset :: r => predictions_since r 0
  | _ :: r => predictions_since r before
  end.
Definition resets (cs : list scall) : bool := existsb (fun c => match c with SReset => true | _ => false end) cs.

(** How often one pass over the inputs [l] and the connections [run] calls layer [i]. *)
Definition visits (i : nat) (l : list nat) (run : list arc) : nat :=
  count_occ Nat.eq_dec l i + count_occ Nat.eq_dec (map snd run) i.
(** Layer [i] is a loss layer that has evaluated [c] predictions. *)
Definition evaluations (m : model (node T)) (i c : nat) : Prop :=
  exists kd lo p, nth_error (mnodes m) i = Some (NO kd lo, p) /\ ls_cor lo + ls_inc lo = c.
End Vocabulary.
Arguments scall T : clear implicits.

Section Counts.
Context {T : Type} `{NumOps T} `{TransOps T} `{LimOps T}.
Variable draw : nat -> T.
Notation ops := (node_ops draw).

Definition at_ (ns : list (node T * source)) (i c : nat) : Prop :=
  exists kd lo p, nth_error ns i = Some (NO kd lo, p) /\ ls_cor lo + ls_inc lo = c.

Lemma rd_some {A} (l : list A) i x : rd l i = Ok x -> nth_error l i = Some x.
Proof. unfold rd. destruct (nth_error l i); intros E; [injection E as <-; reflexivity|discriminate]. Qed.
Lemma wr_nth_error {A} (l : list A) i x l' j : wr l i x = Ok l' ->
  nth_error l' j = if j =? i then Some x else nth_error l j.
Proof.
  unfold wr. destruct (i <? length l) eqn:E; [|discriminate]. apply Nat.ltb_lt in E. intros X. injection X as <-.
  revert i j E. induction l as [|a l IH]; intros [|i] [|j] E; cbn in *; try lia; try reflexivity. apply IH. lia.
Qed.

Lemma forward_counts kd (lo lo' : lossl T) x : loss_forward kd lo x = (lo', Ok tt) ->
  ls_cor lo' + ls_inc lo' = S (ls_cor lo + ls_inc lo).
Proof.
  assert (G : forall (l : lossl T) v b, ls_cor (count (LossModel.add_loss l v) b) + ls_inc (count (LossModel.add_loss l v) b) = S (ls_cor l + ls_inc l)).
  { intros l v []; cbn; lia. }
  destruct kd as [|tol]; cbn [loss_forward]; unfold cce_forward, mse_forward.
  - destruct (ls_target lo) as [|a t] eqn:ET; [discriminate|]. rewrite <- ET.
    destruct (cross_entropy _ _ _); try discriminate. destruct (max_and_argmax x (length x)) as [(mv, mi)| |]; try discriminate.
    destruct (argactive _ _ _); try discriminate. intros E. injection E as <-. apply G.
  - destruct (ls_target lo) as [|a t] eqn:ET; [discriminate|]. rewrite <- ET.
    destruct (mean_squared_error _ _ _); try discriminate. intros E. injection E as <-. apply G.
Qed.

Lemma feed_counts tr kd lo p x from s' p' : feed ops tr (NO kd lo) p x from = Ok (s', p') ->
  exists lo', s' = NO kd lo' /\ ls_cor lo' + ls_inc lo' = S (ls_cor lo + ls_inc lo).
Proof.
  unfold feed. cbn [node_ops o_tforward o_forward n_tforward n_forward].
  destruct (loss_forward kd lo x) as (lo', r) eqn:EL. destruct r as [[]| |]; cbn [bind];
    destruct tr; intros E; try discriminate; injection E as <- <-; exists lo'; split; auto; eapply forward_counts; eauto.
Qed.

Lemma input_counts tr x ns j ns' i c : at_ ns i c -> feed_input ops tr x ns j = Ok ns' ->
  at_ ns' i (c + if Nat.eq_dec j i then 1 else 0).
Proof.
  intros (kd & lo & p & EN & EC) E. unfold feed_input in E.
  destruct (rd ns j) as [(s, q)| |] eqn:ER; try discriminate. cbn [bind] in E.
  destruct (feed ops tr s q x SInput) as [(s', q')| |] eqn:EF; try discriminate. cbn [bind] in E.
  apply rd_some in ER. unfold at_. rewrite (wr_nth_error _ _ _ _ i E).
  destruct (Nat.eq_dec j i) as [->|NE].
  - rewrite EN in ER. injection ER as <- <-. destruct (feed_counts _ _ _ _ _ _ _ _ EF) as (lo' & -> & EL).
    rewrite Nat.eqb_refl. exists kd, lo', q'. split; [reflexivity|lia].
  - destruct (i =? j) eqn:EB; [apply Nat.eqb_eq in EB; congruence|]. exists kd, lo, p. split; [exact EN|lia].
Qed.
Lemma arc_counts tr ns ab ns' i c : at_ ns i c -> run_arc ops tr ns ab = Ok ns' ->
  at_ ns' i (c + if Nat.eq_dec (snd ab) i then 1 else 0).
Proof.
  destruct ab as (a, j). cbn [snd]. intros (kd & lo & p & EN & EC) E. unfold run_arc in E.
  destruct (node_output ops ns a) as [x| |]; try discriminate. cbn [bind] in E.
  destruct (rd ns j) as [(s, q)| |] eqn:ER; try discriminate. cbn [bind] in E.
  destruct (feed ops tr s q x (SNode a)) as [(s', q')| |] eqn:EF; try discriminate. cbn [bind] in E.
  apply rd_some in ER. unfold at_. rewrite (wr_nth_error _ _ _ _ i E).
  destruct (Nat.eq_dec j i) as [->|NE].
  - rewrite EN in ER. injection ER as <- <-. destruct (feed_counts _ _ _ _ _ _ _ _ EF) as (lo' & -> & EL).
    rewrite Nat.eqb_refl. exists kd, lo', q'. split; [reflexivity|lia].
  - destruct (i =? j) eqn:EB; [apply Nat.eqb_eq in EB; congruence|]. exists kd, lo, p. split; [exact EN|lia].
Qed.
Lemma inputs_counts tr x l i : forall ns ns' c, at_ ns i c -> foldM (feed_input ops tr x) l ns = Ok ns' ->
  at_ ns' i (c + count_occ Nat.eq_dec l i).
Proof.
  induction l as [|j l IH]; intros ns ns' c A E.
  - injection E as <-. cbn. rewrite Nat.add_0_r. exact A.
  - cbn [foldM] in E. destruct (feed_input ops tr x ns j) as [ns1| |] eqn:E1; try discriminate. cbn [bind] in E.
    pose proof (IH _ _ _ (input_counts _ _ _ _ _ _ _ A E1) E) as B. cbn [count_occ].
    destruct (Nat.eq_dec j i); [replace (c + S (count_occ Nat.eq_dec l i)) with (c + 1 + count_occ Nat.eq_dec l i) by lia; exact B|].
    rewrite Nat.add_0_r in B. exact B.
Qed.
Lemma run_counts tr l i : forall ns ns' c, at_ ns i c -> foldM (run_arc ops tr) l ns = Ok ns' ->
  at_ ns' i (c + count_occ Nat.eq_dec (map snd l) i).
Proof.
  induction l as [|j l IH]; intros ns ns' c A E.
  - injection E as <-. cbn. rewrite Nat.add_0_r. exact A.
  - cbn [foldM] in E. destruct (run_arc ops tr ns j) as [ns1| |] eqn:E1; try discriminate. cbn [bind] in E.
    pose proof (IH _ _ _ (arc_counts _ _ _ _ _ _ A E1) E) as B. cbn [count_occ map].
    destruct (Nat.eq_dec (snd j) i); [replace (c + S (count_occ Nat.eq_dec (map snd l) i)) with (c + 1 + count_occ Nat.eq_dec (map snd l) i) by lia; exact B|].
    rewrite Nat.add_0_r in B. exact B.
Qed.

(** Functions that change no score. *)
Lemma keep_fold {A} (f : list (node T * source) -> A -> res (list (node T * source))) i c l :
  (forall ns a ns', at_ ns i c -> f ns a = Ok ns' -> at_ ns' i c) ->
  forall ns ns', at_ ns i c -> foldM f l ns = Ok ns' -> at_ ns' i c.
Proof.
  intros F. induction l as [|a l IH]; intros ns ns' X E; [injection E as <-; exact X|].
  cbn [foldM] in E. destruct (f ns a) as [ns1| |] eqn:E1; try discriminate. cbn [bind] in E. eauto.
Qed.
Lemma target_keeps t ns j ns' i c : at_ ns i c -> set_targets ops t ns j = Ok ns' -> at_ ns' i c.
Proof.
  intros (kd & lo & p & EN & EC) E. unfold set_targets in E.
  destruct (rd ns j) as [(s, q)| |] eqn:ER; try discriminate. cbn [bind] in E.
  apply rd_some in ER. unfold at_. rewrite (wr_nth_error _ _ _ _ i E).
  destruct (i =? j) eqn:EB; [|eauto 10]. apply Nat.eqb_eq in EB. subst j. rewrite EN in ER. injection ER as <- <-.
  cbn. eauto 10.
Qed.
Lemma back_keeps x ns j g ns' i c : at_ ns i c -> back_node ops x ns j g = Ok ns' -> at_ ns' i c.
Proof.
  intros (kd & lo & p & EN & EC) E. unfold back_node in E.
  destruct (rd ns j) as [(s, q)| |] eqn:ER; try discriminate. cbn [bind] in E.
  destruct (deref ops ns x q) as [lst| |]; try discriminate. cbn [bind] in E.
  destruct (o_backward ops s lst g) as [s'| |] eqn:EB'; try discriminate. cbn [bind] in E.
  apply rd_some in ER. unfold at_. rewrite (wr_nth_error _ _ _ _ i E).
  destruct (i =? j) eqn:EB; [|eauto 10]. apply Nat.eqb_eq in EB. subst j. rewrite EN in ER. injection ER as <- <-.
  cbn in EB'. destruct (loss_backward kd lo lst) as [g'| |]; try discriminate. injection EB' as <-. eauto 10.
Qed.
Lemma back_arc_keeps x ns ab ns' i c : at_ ns i c -> back_arc ops x ns ab = Ok ns' -> at_ ns' i c.
Proof.
  destruct ab as (a, b). unfold back_arc. intros A E. destruct (rd ns a) as [(s, q)| |]; try discriminate.
  cbn [bind] in E. eapply back_keeps; eauto.
Qed.
Lemma mapM_nth {A B} (f : A -> res B) l : forall l', mapM f l = Ok l' -> forall i a, nth_error l i = Some a ->
  exists b, f a = Ok b /\ nth_error l' i = Some b.
Proof.
  induction l as [|x l IH]; intros l' E [|i] a EN; try discriminate; cbn in *;
    destruct (f x) as [b| |] eqn:EF; try discriminate; cbn [bind] in E;
    destruct (mapM f l) as [r| |] eqn:ER; try discriminate; cbn [bind] in E; injection E as <-; cbn.
  - injection EN as <-. eauto.
  - eauto.
Qed.
Lemma reset_zero l i : forall ns ns', foldM (fun ns j => '(s, p) <- rd ns j ;;
      wr ns j (match s with NO k lo => NO k (reset_score lo) | s => s end, p)) l ns = Ok ns' ->
  forall c, at_ ns i c -> (In i l -> at_ ns' i 0) /\ (~ In i l -> at_ ns' i c).
Proof.
  induction l as [|j l IH]; intros ns ns' E c A; cbn [foldM] in E.
  - injection E as <-. split; [intros []|auto].
  - destruct A as (kd & lo & p & EN & EC).
    destruct (rd ns j) as [(s, q)| |] eqn:ER; try discriminate. cbn [bind] in E. apply rd_some in ER.
    destruct (wr ns j _) as [ns1| |] eqn:EW; try discriminate. cbn [bind] in E.
    destruct (Nat.eq_dec j i) as [->|NE].
    + rewrite EN in ER. injection ER as <- <-.
      assert (A1 : at_ ns1 i 0). { unfold at_. rewrite (wr_nth_error _ _ _ _ i EW), Nat.eqb_refl. exists kd, (reset_score lo), p. split; reflexivity. }
      destruct (IH _ _ E 0 A1) as (X & Y). split; [|intros N; elim N; now left].
      intros _. destruct (in_dec Nat.eq_dec i l); auto.
    + assert (A1 : at_ ns1 i c). { unfold at_. rewrite (wr_nth_error _ _ _ _ i EW). destruct (i =? j) eqn:EB; [apply Nat.eqb_eq in EB; congruence|eauto 10]. }
      destruct (IH _ _ E c A1) as (X & Y). split; [intros [?|?]; [congruence|auto]|intros N; apply Y; intros ?; apply N; now right].
Qed.

Lemma call_counts m m' q i c trun frun : sched (tgraph (mgraph m)) (nodes (mgraph m)) (inputs (mgraph m)) = Ok trun ->
  sched (fgraph (mgraph m)) (nodes (mgraph m)) (inputs (mgraph m)) = Ok frun ->
  In i (losses (mgraph m)) -> evaluations m i c -> s_call draw m q = Ok m' ->
  mgraph m' = mgraph m /\
  evaluations m' i (match q with
    | SPredict _ => c + visits i (inputs (mgraph m)) frun
    | SStep _ _ => c + visits i (inputs (mgraph m)) trun
    | STrain _ => c
    | SReset => 0 end).
Proof.
  intros ST SF HI A E. change (at_ (mnodes m) i c) in A. unfold visits. rewrite !Nat.add_assoc.
  destruct q as [x|x t|eta|]; cbn [s_call] in E.
  - unfold m_predict in E. destruct (outputs (mgraph m)) as [|o os]; [discriminate|]. rewrite SF in E. cbn [bind] in E.
    destruct (foldM (feed_input ops false x) _ _) as [n1| |] eqn:E1; try discriminate. cbn [bind] in E.
    destruct (foldM (run_arc ops false) _ _) as [n2| |] eqn:E2; try discriminate. cbn [bind] in E.
    destruct (node_output ops n2 o) as [y| |]; try discriminate. cbn [bind] in E. injection E as <-.
    split; [reflexivity|]. exact (run_counts _ _ _ _ _ _ (inputs_counts _ _ _ _ _ _ _ A E1) E2).
  - unfold m_step in E. rewrite ST in E. cbn [bind] in E.
    destruct (sched (bgraph _) _ _) as [brun| |]; try discriminate. cbn [bind] in E.
    destruct (foldM (set_targets ops t) _ _) as [n0'| |] eqn:E0; try discriminate. cbn [bind] in E.
    destruct (foldM (feed_input ops true x) _ _) as [n1| |] eqn:E1; try discriminate. cbn [bind] in E.
    destruct (foldM (run_arc ops true) _ _) as [n2| |] eqn:E2; try discriminate. cbn [bind] in E.
    destruct (foldM (fun ns i => back_node ops x ns i []) _ _) as [n3| |] eqn:E3; try discriminate. cbn [bind] in E.
    destruct (foldM (back_arc ops x) _ _) as [n4| |] eqn:E4; try discriminate. cbn [bind] in E. injection E as <-.
    split; [reflexivity|]. change (at_ n4 i (c + count_occ Nat.eq_dec (inputs (mgraph m)) i + count_occ Nat.eq_dec (map snd trun) i)).
    eapply keep_fold; [| |exact E4]; [intros ns a ns' X Y; exact (back_arc_keeps _ _ _ _ _ _ X Y)|].
    eapply keep_fold; [| |exact E3]; [intros ns a ns' X Y; exact (back_keeps _ _ _ _ _ _ _ X Y)|].
    eapply run_counts; [|exact E2]. eapply inputs_counts; [|exact E1].
    eapply keep_fold; [| |exact E0]; [intros ns a ns' X Y; exact (target_keeps _ _ _ _ _ _ X Y)|exact A].
  - unfold m_train in E. destruct (mapM _ _) as [ns| |] eqn:EM; try discriminate. cbn [bind] in E. injection E as <-.
    split; [reflexivity|]. destruct A as (kd & lo & p & EN & EC).
    destruct (mapM_nth _ _ _ EM _ _ EN) as (b & Eb & EN'). cbn in Eb. injection Eb as <-. exists kd, lo, p. auto.
  - unfold m_reset_score in E. destruct (foldM _ _ _) as [ns| |] eqn:EM; try discriminate. cbn [bind] in E. injection E as <-.
    split; [reflexivity|]. exact (proj1 (reset_zero _ i _ _ EM c A) HI).
Qed.
End Counts.

(** *** The theorems *)
(** How many predictions a loss has evaluated after any calls that return, in any model. *)
Theorem c101_counts : forall T (NT : NumOps T) (TT : TransOps T) (LT : LimOps T) draw cs (m m' : model (node T)) i c trun frun,
  sched (tgraph (mgraph m)) (nodes (mgraph m)) (inputs (mgraph m)) = Ok trun ->
  sched (fgraph (mgraph m)) (nodes (mgraph m)) (inputs (mgraph m)) = Ok frun ->
  In i (losses (mgraph m)) -> evaluations m i c -> foldM (s_call draw) cs m = Ok m' ->
  evaluations m' i ((if resets cs then 0 else c) + steps_since cs 0 * visits i (inputs (mgraph m)) trun +
                    predictions_since cs 0 * visits i (inputs (mgraph m)) frun).
Proof.
  intros T NT TT LT draw cs m m' i c trun frun ST SF HI A E.
  set (a := visits i (inputs (mgraph m)) trun). set (b := visits i (inputs (mgraph m)) frun).
  assert (G : forall cs m1, mgraph m1 = mgraph m -> forall c s p d, evaluations m1 i d -> d = c + s * a + p * b ->
    foldM (s_call draw) cs m1 = Ok m' ->
    evaluations m' i ((if resets cs then 0 else c) + steps_since cs s * a + predictions_since cs p * b)).
  { clear E A c cs. induction cs as [|q cs IH]; intros m1 EG c s p d A ED E.
    - injection E as <-. cbn. rewrite <- ED. exact A.
    - cbn [foldM] in E. destruct (s_call draw m1 q) as [m2| |] eqn:E1; try discriminate. cbn [bind] in E.
      rewrite <- EG in ST, SF, HI.
      destruct (call_counts draw m1 m2 q i d trun frun ST SF HI A E1) as (EG2 & A2). rewrite EG in *. fold a b in A2.
      destruct q as [x|x t|eta|]; cbn [steps_since predictions_since resets existsb orb].
      + eapply IH; [exact EG2|exact A2|subst d; cbn; lia|exact E].
      + eapply IH; [exact EG2|exact A2|subst d; cbn; lia|exact E].
      + eapply IH; [exact EG2|exact A2|exact ED|exact E].
      + fold (resets cs). specialize (IH m2 EG2 0 0 0 0 A2 eq_refl E). destruct (resets cs); exact IH. }
  eapply G; [reflexivity|exact A|cbn; lia|exact E].
Qed.
Print Assumptions c101_counts.

(** Over the reals: in a model in which every step calls every loss once and predictions call
    none, both figures are averages over all pairs of a loss and a step since the reset. *)
Local Open Scope R_scope.
Definition Rtotal (f : lossl R -> R) (los : list (lossl R)) : R := fold_right (fun l a => f l + a) 0 los.

Lemma mean_value f (m : model (node R)) los :
  Forall2 (fun i lo => exists kd p, nth_error (mnodes m) i = Some (NO kd lo, p)) (losses (mgraph m)) los ->
  m_mean f m = Ok (Rtotal f los / INR (length los)).
Proof.
  intros F. unfold m_mean.
  assert (G : forall l los a, Forall2 (fun i lo => exists kd p, nth_error (mnodes m) i = Some (NO kd lo, p)) l los ->
    foldM (fun a i => lo <- loss_at m i ;; Ok (nadd a (f lo))) l a = Ok (a + Rtotal f los)).
  { clear. intros l los a F. revert a. induction F as [|i lo l los (kd & p & EN) F IH]; intros a; cbn [foldM].
    - cbn. now rewrite Rplus_0_r.
    - unfold loss_at at 1, rd. rewrite EN. cbn [bind]. rewrite IH. f_equal. unfold Rtotal. cbn [fold_right nadd NumR]. ring. }
  rewrite (G _ _ _ F). cbn [bind]. f_equal. unfold nofnat. cbn [ndiv nofZ n0 NumR].
  rewrite <- INR_IZR_INZ, Rplus_0_l.
  replace (length (losses (mgraph m))) with (length los); [reflexivity|]. clear -F. induction F; cbn; auto.
Qed.

Lemma Rtotal_scale f g c los : (forall l, In l los -> f l = g l / c) -> Rtotal f los = Rtotal g los / c.
Proof.
  induction los as [|l los IH]; intros E; [cbn; unfold Rdiv; ring|].
  change (f l + Rtotal f los = (g l + Rtotal g los) / c). rewrite IH by (intros; apply E; now right). rewrite (E l) by now left. unfold Rdiv. ring.
Qed.

Theorem c101_mean : forall draw cs (m m' : model (node R)) trun frun k,
  sched (tgraph (mgraph m)) (nodes (mgraph m)) (inputs (mgraph m)) = Ok trun ->
  sched (fgraph (mgraph m)) (nodes (mgraph m)) (inputs (mgraph m)) = Ok frun ->
  losses (mgraph m) <> [] ->
  (forall i, In i (losses (mgraph m)) -> visits i (inputs (mgraph m)) trun = 1%nat /\ visits i (inputs (mgraph m)) frun = 0%nat /\
     exists c, evaluations m i c /\ (resets cs = true \/ c = 0%nat)) ->
  foldM (s_call draw) cs m = Ok m' -> steps_since cs 0 = k -> (0 < k)%nat ->
  exists los, Forall2 (fun i lo => exists kd p, nth_error (mnodes m') i = Some (NO kd lo, p)) (losses (mgraph m)) los /\
    (forall lo, In lo los -> (ls_cor lo + ls_inc lo)%nat = k) /\
    m_avg_loss m' = Ok (Rtotal ls_cum los / (INR k * INR (length los))) /\
    m_accuracy m' = Ok (Rtotal (fun lo => INR (ls_cor lo)) los / (INR k * INR (length los))) /\
    0 <= Rtotal (fun lo => INR (ls_cor lo)) los / (INR k * INR (length los)) <= 1.
Proof.
  intros draw cs m m' trun frun k ST SF LN HV E EK Hk.
  assert (EG : mgraph m' = mgraph m).
  { assert (EM : exists i, In i (losses (mgraph m))) by (destruct (losses (mgraph m)) as [|i l]; [congruence|exists i; now left]).
    destruct EM as (i & HI). destruct (HV i HI) as (_ & _ & c & A & _). clear HV LN EK Hk k.
    revert m c ST SF HI A E. induction cs as [|q cs IH]; intros m c ST SF HI A E; [injection E as <-; reflexivity|].
    cbn [foldM] in E. destruct (s_call draw m q) as [m1| |] eqn:E1; try discriminate. cbn [bind] in E.
    destruct (call_counts draw m m1 q i c trun frun ST SF HI A E1) as (EG & A1). rewrite <- EG.
    eapply IH; rewrite ?EG; eauto. }
  assert (X : exists los, Forall2 (fun i lo => exists kd p, nth_error (mnodes m') i = Some (NO kd lo, p)) (losses (mgraph m)) los /\
    forall lo, In lo los -> (ls_cor lo + ls_inc lo)%nat = k).
  { assert (Y : forall i, In i (losses (mgraph m)) -> evaluations m' i k).
    { intros i HI. destruct (HV i HI) as (V1 & V2 & c & A & D).
      pose proof (c101_counts _ _ _ _ draw cs m m' i c trun frun ST SF HI A E) as B. rewrite V1, V2, EK in B.
      replace ((if resets cs then 0 else c) + k * 1 + predictions_since cs 0 * 0)%nat with k in B; [exact B|].
      destruct D as [->| ->]; [|destruct (resets cs)]; lia. }
    clear -Y. induction (losses (mgraph m)) as [|i l IH]; [exists []; split; [constructor|intros _ []]|].
    destruct IH as (los & F & C); [intros; apply Y; now right|].
    destruct (Y i) as (kd & lo & p & EN & EC); [now left|].
    exists (lo :: los). split; [constructor; eauto|]. intros l0 [<-|H]; auto. }
  destruct X as (los & F & C). exists los. split; [exact F|]. split; [exact C|].
  assert (Ll : (0 < length los)%nat). { destruct F; [congruence|cbn; lia]. }
  apply lt_INR in Hk. apply lt_INR in Ll. cbn in Hk, Ll.
  rewrite <- EG in F.
  assert (AL : Rtotal avg_loss los = Rtotal ls_cum los / INR k).
  { apply Rtotal_scale. intros lo HI. unfold avg_loss, nofnat. cbn [ndiv nofZ NumR]. now rewrite (C lo HI), <- INR_IZR_INZ. }
  assert (AA : Rtotal accuracy los = Rtotal (fun lo => INR (ls_cor lo)) los / INR k).
  { apply Rtotal_scale. intros lo HI. unfold accuracy, nofnat. cbn [ndiv nofZ NumR]. now rewrite (C lo HI), <- !INR_IZR_INZ. }
  unfold m_avg_loss, m_accuracy. rewrite !(mean_value _ m' los F), AL, AA.
  split; [f_equal; field; lra|]. split; [f_equal; field; lra|].
  assert (Q : 0 <= Rtotal (fun lo => INR (ls_cor lo)) los <= INR k * INR (length los)).
  { clear -C. induction los as [|lo los IH]; [cbn; lra|]. cbn [Rtotal fold_right length]. rewrite S_INR.
    destruct IH as (A & B); [intros; apply C; now right|]. unfold Rtotal in *.
    pose proof (pos_INR (ls_cor lo)). assert (INR (ls_cor lo) <= INR k) by (apply le_INR; rewrite <- (C lo) by (now left); lia). lra. }
  assert (P : 0 < INR k * INR (length los)) by (apply Rmult_lt_0_compat; lra).
  split; [apply Rmult_le_pos; [lra|left; now apply Rinv_0_lt_compat]|].
  apply (Rmult_le_reg_r (INR k * INR (length los))); [exact P|]. unfold Rdiv. rewrite Rmult_assoc, Rinv_l by lra. lra.
Qed.
Print Assumptions c101_mean.

(** *** Layers in a row *)
(** The targets and predictions of the steps since the last reset, newest first; what the
    model would have predicted at the time of the step. *)
Fixpoint shown (draw : nat -> R) (m : model (node R)) (cs : list (scall R)) (h : list (list R * list R)) : list (list R * list R) :=
  match cs with
  | [] => h
  | c :: r =>
      match s_call draw m c with
      | Ok m1 =>
          shown draw m1 r
            match c with
            | SStep x t => match m_predict (node_ops draw) m x with Ok (_, y) => (t, y) :: h | _ => h end
            | SReset => []
            | _ => h
            end
      | _ => h
      end
  end.
Definition loss_hit (kd : losskind R) : list R -> list R -> Prop := match kd with CCE => ce_hit | MSE tol => mse_hit tol end.
Definition scall_sized (n k : nat) (c : scall R) : Prop :=
  match c with SPredict x => length x = n | SStep x t => length x = n /\ length t = k | _ => True end.
Definition scored (kd : losskind R) (lo : lossl R) (h : list (list R * list R)) : Prop :=
  ls_cum lo = total (loss_value kd) h /\ count_of (loss_hit kd) h (ls_cor lo) /\ (ls_cor lo + ls_inc lo)%nat = length h.

Lemma evaluate_scores kd lo t y k lo1 h : (0 < k)%nat -> ls_in lo = k -> length t = k -> length y = k ->
  loss_forward kd (set_target lo t) y = (lo1, Ok tt) -> scored kd lo h -> scored kd lo1 ((t, y) :: h) /\ ls_in lo1 = k.
Proof.
  intros Hk EI Lt Ly E (S1 & S2 & S3).
  assert (X : exists b, (b = true <-> loss_hit kd t y) /\ lo1 = count (LossModel.add_loss (set_target lo t) (loss_value kd t y)) b).
  { destruct kd as [|tol]; cbn [loss_forward loss_hit loss_value] in *.
    - destruct (cce_ok k Hk (set_target lo t) y EI (or_intror Lt) Ly) as (A & B).
      destruct (ce_valid_dec (ls_target (set_target lo t))) as [V|V].
      + destruct (A V) as (b & Hb & E1). rewrite E1 in E. injection E as <-. exists b. split; [exact Hb|]. reflexivity.
      + destruct (B V) as (l' & E1 & _). rewrite E1 in E. discriminate.
    - destruct (mse_ok tol k Hk (set_target lo t) y EI (or_intror Lt) Ly) as (A & B).
      destruct (mse_valid_dec (ls_target (set_target lo t))) as [V|V].
      + destruct (A V) as (b & Hb & E1). rewrite E1 in E. injection E as <-. exists b. split; [exact Hb|]. reflexivity.
      + destruct (B V) as (l' & E1 & _). rewrite E1 in E. discriminate. }
  destruct X as (b & Hb & ->). split; [|exact EI]. split; [change (ls_cum lo + loss_value kd t y = loss_value kd t y + total (loss_value kd) h); rewrite S1; ring|].
  split; cbn.
  - destruct b; [apply co_yes|apply co_no]; auto; cbn; [now apply Hb|]. intros Q. apply Hb in Q. discriminate.
  - destruct b; lia.
Qed.

Lemma network_scores draw m ls kd lo n k c m1 h : (0 < k)%nat -> network m ls kd lo n k -> ls_in lo = k -> scall_sized n k c ->
  scored kd lo h -> s_call draw m c = Ok m1 ->
  exists ls1 lo1, network m1 ls1 kd lo1 n k /\ ls_in lo1 = k /\
    scored kd lo1 (match c with
            | SStep x t => match m_predict (node_ops draw) m x with Ok (_, y) => (t, y) :: h | _ => h end
            | SReset => []
            | _ => h
            end).
Proof.
  intros Hk W EI Hc S E. destruct c as [x|x t|eta|]; cbn [s_call scall_sized] in *.
  - destruct (chain_forward_shape ls n k x (nw_shape _ _ _ _ _ _ W) Hc) as (ls' & y & EF & Ly & P & S').
    destruct (predict_network draw true (length ls) m ls [NO kd lo] x ls' y (nw_graph _ _ _ _ _ _ W)
      (nw_some _ _ _ _ _ _ W) (network_length _ _ _ _ _ _ W) (nw_nodes _ _ _ _ _ _ W) eq_refl EF)
      as (m2 & E1 & G1 & N1).
    rewrite E1 in E. cbn [bind] in E. injection E as <-.
    exists ls', lo. split; [|auto]. pose proof (PropModel.Forall2_len _ _ _ P) as LL.
    destruct W. constructor; rewrite ?G1, ?LL; auto.
  - destruct Hc as (Hx & Ht).
    destruct (chain_forward_shape ls n k x (nw_shape _ _ _ _ _ _ W) Hx) as (ls1 & y & EF & Ly & P & S').
    destruct (predict_network draw true (length ls) m ls [NO kd lo] x ls1 y (nw_graph _ _ _ _ _ _ W)
      (nw_some _ _ _ _ _ _ W) (network_length _ _ _ _ _ _ W) (nw_nodes _ _ _ _ _ _ W) eq_refl EF)
      as (m2 & E1 & _). rewrite E1.
    rewrite (step_network draw (length ls) m ls kd lo x t (nw_graph _ _ _ _ _ _ W)
      (nw_some _ _ _ _ _ _ W) (nw_nodes _ _ _ _ _ _ W) eq_refl) in E.
    unfold net_step in E. rewrite EF in E. cbn [bind] in E.
    destruct (loss_forward kd (set_target lo t) y) as (lo1, r) eqn:EL.
    destruct r as [[]| |]; try discriminate. cbn [bind] in E.
    destruct (evaluate_scores kd lo t y k lo1 h Hk EI Ht Ly EL S) as (SC & EI1).
    destruct (loss_backward kd lo1 y) as [g| |] eqn:EG; try discriminate. cbn [bind] in E.
    assert (Lg : length g = k).
    { rewrite (loss_backward_len _ _ _ _ EG), (loss_forward_grad _ _ _ _ _ EL). cbn. apply W. }
    destruct (chain_backward_shape ls1 n k x g S' Hx Lg) as (ls2 & gx & EB & _ & P2 & S2).
    rewrite EB in E. cbn [bind] in E. injection E as <-.
    exists ls2, (set_grad lo1 g). pose proof (all_same_trans _ _ _ P P2) as P3.
    split; [|split; [exact EI1|exact SC]]. pose proof (PropModel.Forall2_len _ _ _ P3) as LL.
    constructor; cbn [mgraph mnodes]; rewrite ?LL; try apply W; auto. apply place_fst.
  - destruct (network_train eta m ls kd lo n k W) as (m2 & E1 & _ & W2). rewrite E1 in E. injection E as <-.
    exists (map (trained eta) ls), lo. auto.
  - unfold m_reset_score in E. rewrite (ic_losses _ _ _ (nw_graph _ _ _ _ _ _ W)) in E. cbn [foldM] in E.
    destruct (exists_last (l := mnodes m)) as (rest & (q, lp) & EN).
    { intros Hn. pose proof (nw_nodes _ _ _ _ _ _ W) as E0. rewrite Hn in E0. destruct ls; discriminate. }
    pose proof (nw_nodes _ _ _ _ _ _ W) as E0. rewrite EN, map_app in E0. cbn [map fst] in E0.
    apply app_inj_tail in E0. destruct E0 as (E1 & ->).
    assert (LL : length rest = length ls) by (apply (f_equal (@length _)) in E1; rewrite !map_length in E1; exact E1).
    rewrite EN in E. rewrite (rd_app_mid rest _ [] _ LL) in E. cbn [bind] in E.
    rewrite (wr_app_mid rest _ _ [] _ LL) in E. cbn [bind] in E. injection E as <-.
    exists ls, (reset_score lo). split; [|split; [exact EI|split; [reflexivity|split; [constructor|reflexivity]]]].
    destruct W. constructor; cbn [mgraph mnodes reset_score ls_grad]; auto.
    rewrite map_app, E1. reflexivity.
Qed.

Theorem c101_network : forall draw cs (m m' : model (node R)) ls kd lo n k, (0 < k)%nat ->
  network m ls kd lo n k -> ls_in lo = k -> ls_cum lo = 0 -> ls_cor lo = 0%nat -> ls_inc lo = 0%nat ->
  Forall (scall_sized n k) cs -> foldM (s_call draw) cs m = Ok m' ->
  let h := shown draw m cs [] in
  length h = steps_since cs 0 /\
  (h <> [] -> m_avg_loss m' = Ok (total (loss_value kd) h / INR (length h)) /\
   exists c, count_of (loss_hit kd) h c /\ m_accuracy m' = Ok (INR c / INR (length h))).
Proof.
  intros draw cs m m' ls kd lo n k Hk W EI E1 E2 E3 HS E.
  assert (G : forall cs m ls lo h, network m ls kd lo n k -> ls_in lo = k -> scored kd lo h -> Forall (scall_sized n k) cs ->
    foldM (s_call draw) cs m = Ok m' -> exists ls' lo', network m' ls' kd lo' n k /\ scored kd lo' (shown draw m cs h) /\
      length (shown draw m cs h) = steps_since cs (length h)).
  { clear -Hk. induction cs as [|c cs IH]; intros m ls lo h W EI S HS E.
    - injection E as <-. eauto.
    - cbn [foldM shown] in *. destruct (s_call draw m c) as [m1| |] eqn:EC; try discriminate. cbn [bind] in E.
      assert (HC : scall_sized n k c /\ Forall (scall_sized n k) cs) by (inversion HS; auto). destruct HC as (HC & HS').
      destruct (network_scores draw m ls kd lo n k c m1 h Hk W EI HC S EC) as (ls1 & lo1 & W1 & EI1 & S1).
      destruct (IH m1 ls1 lo1 _ W1 EI1 S1 HS' E) as (ls2 & lo2 & W2 & S2 & L2). exists ls2, lo2.
      split; [exact W2|]. split; [exact S2|]. rewrite L2. destruct c as [x|x t|eta|]; cbn [steps_since]; auto.
      destruct HC as (Hx & _).
      destruct (c36_predict_value draw m ls kd lo n k x W Hx) as (m2 & EP). rewrite EP. reflexivity. }
  destruct (G cs m ls lo [] W EI) as (ls' & lo' & W' & (S1 & S2 & S3) & L); auto.
  { split; [exact E1|]. rewrite E2, E3. split; [constructor|reflexivity]. }
  cbv zeta. split; [exact L|]. set (h := shown draw m cs []) in *. intros Hh.
  assert (F : Forall2 (fun i l => exists kd p, nth_error (mnodes m') i = Some (NO kd l, p)) (losses (mgraph m')) [lo']).
  { rewrite (ic_losses _ _ _ (nw_graph _ _ _ _ _ _ W')). constructor; [|constructor].
    pose proof (nw_nodes _ _ _ _ _ _ W') as EN. apply (f_equal (fun l => nth_error l (length ls'))) in EN.
    rewrite nth_error_app2 in EN by (rewrite map_length; auto). rewrite map_length, Nat.sub_diag, nth_error_map in EN.
    cbn in EN. destruct (nth_error (mnodes m') (length ls')) as [(s, p)|] eqn:Q; [|discriminate]. cbn in EN. injection EN as ->.
    exists kd, p. reflexivity. }
  assert (Lh : 0 < INR (length h)). { apply lt_0_INR. destruct h; [congruence|cbn; lia]. }
  unfold m_avg_loss, m_accuracy. rewrite !(mean_value _ m' _ F). cbn [Rtotal fold_right length INR].
  unfold avg_loss, accuracy, nofnat. cbn [ndiv nofZ NumR]. rewrite S3, <- !INR_IZR_INZ, S1.
  split; [f_equal; field; lra|]. exists (ls_cor lo'). split; [exact S2|]. f_equal. field. lra.
Qed.
Print Assumptions c101_network.

(** *** Nothing evaluated *)
Definition zeroed {T} `{NumOps T} (ns : list (node T * source)) (i : nat) : Prop :=
  exists kd lo p, nth_error ns i = Some (NO kd lo, p) /\ ls_cum lo = n0 /\ ls_cor lo = 0%nat /\ ls_inc lo = 0%nat.
Definition is_loss {T} (ns : list (node T * source)) (i : nat) : Prop := exists kd lo p, nth_error ns i = Some (NO kd lo, p).

Lemma reset_zeroes {T} `{NumOps T} l : forall (ns ns' : list (node T * source)), foldM (fun ns j => '(s, p) <- rd ns j ;;
      wr ns j (match s with NO k lo => NO k (reset_score lo) | s => s end, p)) l ns = Ok ns' ->
  forall i, (zeroed ns i \/ (In i l /\ is_loss ns i)) -> zeroed ns' i.
Proof.
  induction l as [|j l IH]; intros ns ns' E i A; cbn [foldM] in E.
  - injection E as <-. destruct A as [A|([] & _)]. exact A.
  - destruct (rd ns j) as [(s, q)| |] eqn:ER; try discriminate. cbn [bind] in E. apply rd_some in ER.
    destruct (wr ns j _) as [ns1| |] eqn:EW; try discriminate. cbn [bind] in E.
    apply (IH _ _ E). unfold zeroed, is_loss. rewrite (wr_nth_error _ _ _ _ i EW).
    destruct (i =? j) eqn:EB.
    + apply Nat.eqb_eq in EB. subst j. left. destruct A as [(kd & lo & p & EN & A1)|(_ & kd & lo & p & EN)];
        rewrite EN in ER; injection ER as <- <-; exists kd, (reset_score lo), p; repeat split.
    + apply Nat.eqb_neq in EB. destruct A as [A|([->|HI] & A)]; [now left|congruence|now right].
Qed.

(** With doubles: right after a reset both figures of every model are NaN, with or without losses. *)
Theorem c101_nan : forall (a : fpu) (m m' : model (node dbl)), fl a 0 = 0 -> 0 <= big a ->
  (forall i, In i (losses (mgraph m)) -> is_loss (mnodes m) i) ->
  @m_reset_score dbl (NumD a) m = Ok m' ->
  @m_accuracy dbl (NumD a) m' = Ok dnan /\ @m_avg_loss dbl (NumD a) m' = Ok dnan.
Proof.
  intros a m m' F0 B0 HL E.
  assert (Z0 : dofZ a 0 = DFin false 0).
  { unfold dofZ, dround. rewrite F0, Rabs_R0. destruct (Rltb (big a) 0) eqn:Q; [apply Rltb_true in Q; lra|].
    assert (QE : Reqb 0 0 = true) by now apply Reqb_true. now rewrite QE. }
  assert (Z1 : ddiv a (DFin false 0) (DFin false 0) = dnan).
  { unfold ddiv. assert (QE : Reqb 0 0 = true) by now apply Reqb_true. now rewrite QE. }
  unfold m_reset_score in E. destruct (foldM _ _ _) as [ns| |] eqn:EM; try discriminate. cbn [bind] in E. injection E as <-.
  assert (Z : forall i, In i (losses (mgraph m)) -> zeroed (H := NumD a) ns i).
  { intros i HI. apply (reset_zeroes (H := NumD a) _ _ _ EM). right. auto. }
  assert (G : forall f : lossl dbl -> dbl, (forall lo, ls_cum lo = DFin false 0 -> ls_cor lo = 0%nat -> ls_inc lo = 0%nat -> f lo = dnan) ->
    @m_mean dbl (NumD a) f (mkModel (mgraph m) ns) = Ok dnan).
  { intros f Hf. unfold m_mean. cbn [mgraph].
    assert (X : forall l x, (forall i, In i l -> zeroed (H := NumD a) ns i) ->
      exists y, foldM (fun b i => lo <- loss_at (mkModel (mgraph m) ns) i ;; Ok (dadd a b (f lo))) l x = Ok y /\ (l = [] -> y = x) /\ (l <> [] \/ x = dnan -> y = dnan)).
    { induction l as [|i l IH]; intros x HZ; cbn [foldM].
      - exists x. split; [reflexivity|]. split; [auto|]. intros [N|N]; [congruence|exact N].
      - destruct (HZ i) as (kd & lo & p & EN & C1 & C2 & C3); [now left|].
        unfold loss_at at 1, rd. cbn [mnodes]. rewrite EN. cbn [bind].
        rewrite (Hf lo C1 C2 C3).
        assert (N : dadd a x dnan = dnan) by (destruct x; reflexivity). rewrite N.
        destruct (IH dnan) as (y & EY & _ & Y2); [intros; apply HZ; now right|].
        exists y. split; [exact EY|]. split; [discriminate|]. intros _. apply Y2. now right. }
    destruct (X (losses (mgraph m)) (DFin false 0) Z) as (y & EY & Y1 & Y2).
    change (@nadd dbl (NumD a)) with (dadd a). change (@n0 dbl (NumD a)) with (DFin false 0). rewrite EY. cbn [bind]. f_equal.
    change (ddiv a y (dofZ a (Z.of_nat (length (losses (mgraph m))))) = dnan).
    destruct (losses (mgraph m)) as [|i l]; [|rewrite Y2 by (left; discriminate); reflexivity].
    rewrite (Y1 eq_refl). cbn [length Z.of_nat]. now rewrite Z0. }
  split; apply G; intros lo C1 C2 C3.
  - unfold accuracy, nofnat. rewrite C2, C3. change (ddiv a (dofZ a 0) (dofZ a 0) = dnan). now rewrite Z0.
  - unfold avg_loss, nofnat. rewrite C1, C2, C3. change (ddiv a (DFin false 0) (dofZ a 0) = dnan). now rewrite Z0.
Qed.
Print Assumptions c101_nan.

(** *** The hypotheses can be met *)
(** Two losses on one layer, each called once by a step and not by predictions. *)
Definition two_losses : list gop := [GLayer; GLayer; GEdge 0 1; GLoss; GLossEdge 1 2; GLoss; GLossEdge 1 3]%nat.
(** One loss behind two layers: a step evaluates it twice. *)
Definition one_loss_twice : list gop := [GLayer; GLayer; GEdge 0 1; GLoss; GLossEdge 0 2; GLossEdge 1 2]%nat.
Definition sc_id : layer R := mkLayer (KAct Linear) 1 [] [] [] [] [0] [0].
Definition sc_model (g : dlgraph) (n : nat) : model (node R) :=
  mkModel g (map (fun s => (s, SNull)) ([NL sc_id; NL sc_id] ++ repeat (NO (MSE 1) (loss_new 1 1)) n)).
Definition sc_calls : list (scall R) := [SPredict [1]; SStep [3] [0]; SReset; SStep [1] [1]; SPredict [0]; STrain 1; SStep [2] [2]].

Example c101_mean_met : exists g trun frun m', gbuild two_losses = Ok g /\
  sched (tgraph g) (nodes g) (inputs g) = Ok trun /\ sched (fgraph g) (nodes g) (inputs g) = Ok frun /\ losses g <> [] /\
  (forall i, In i (losses g) -> visits i (inputs g) trun = 1%nat /\ visits i (inputs g) frun = 0%nat /\
    exists c, evaluations (sc_model g 2) i c /\ (resets sc_calls = true \/ c = 0%nat)) /\
  foldM (s_call (fun _ => 0)) sc_calls (sc_model g 2) = Ok m' /\ steps_since sc_calls 0 = 2%nat.
Proof.
  assert (X : match gbuild two_losses with
    | Ok g => match foldM (s_call (fun _ => 0)) sc_calls (sc_model g 2) with Ok _ => True | _ => False end
    | _ => False end).
  { vm_compute. exact Logic.I. }
  assert (Y : match gbuild two_losses with
    | Ok g => sched (tgraph g) (nodes g) (inputs g) = Ok [(0, 1); (1, 2); (1, 3)]%nat /\ sched (fgraph g) (nodes g) (inputs g) = Ok [(0, 1)]%nat /\
        losses g = [2; 3]%nat /\ inputs g = [0]%nat
    | _ => False end) by (clear X; vm_compute; repeat split).
  destruct (gbuild two_losses) as [g| |]; try contradiction. destruct Y as (Y1 & Y2 & Y3 & Y4).
  destruct (foldM (s_call (fun _ => 0)) sc_calls (sc_model g 2)) as [m'| |] eqn:EM; try contradiction.
  exists g, [(0, 1); (1, 2); (1, 3)]%nat, [(0, 1)]%nat, m'. rewrite Y3, Y4.
  split; [reflexivity|]. rewrite Y4 in Y1, Y2. split; [exact Y1|]. split; [exact Y2|]. split; [discriminate|].
  split; [|split; [exact EM|reflexivity]].
  intros i [<-|[<-|[]]]; (split; [reflexivity|split; [reflexivity|]]); exists 0%nat;
    (split; [exists (MSE 1), (loss_new 1 1), SNull; split; reflexivity|now left]).
Qed.

Example c101_twice : exists g trun frun m', gbuild one_loss_twice = Ok g /\
  sched (tgraph g) (nodes g) (inputs g) = Ok trun /\ sched (fgraph g) (nodes g) (inputs g) = Ok frun /\ In 2%nat (losses g) /\
  visits 2 (inputs g) trun = 2%nat /\ visits 2 (inputs g) frun = 0%nat /\
  foldM (s_call (fun _ => 0)) sc_calls (sc_model g 1) = Ok m' /\ evaluations m' 2 4.
Proof.
  assert (X : match gbuild one_loss_twice with
    | Ok g => match foldM (s_call (fun _ => 0)) sc_calls (sc_model g 1) with Ok _ => True | _ => False end
    | _ => False end).
  { vm_compute. exact Logic.I. }
  assert (Y : match gbuild one_loss_twice with
    | Ok g => exists trun, sched (tgraph g) (nodes g) (inputs g) = Ok trun /\ visits 2 (inputs g) trun = 2%nat /\
        sched (fgraph g) (nodes g) (inputs g) = Ok [(0, 1)]%nat /\ losses g = [2]%nat /\ inputs g = [0]%nat
    | _ => False end) by (clear X; vm_compute; eexists; split; [reflexivity|]; repeat split).
  destruct (gbuild one_loss_twice) as [g| |]; try contradiction. destruct Y as (trun & Y1 & YV & Y2 & Y3 & Y4).
  destruct (foldM (s_call (fun _ => 0)) sc_calls (sc_model g 1)) as [m'| |] eqn:EM; try contradiction.
  exists g, trun, [(0, 1)]%nat, m'.
  split; [reflexivity|]. split; [exact Y1|]. split; [exact Y2|]. rewrite Y3. split; [now left|].
  split; [exact YV|]. split; [rewrite Y4; reflexivity|]. split; [exact EM|].
  pose proof (c101_counts R _ _ _ (fun _ => 0) sc_calls (sc_model g 1) m' 2 0 trun [(0, 1)]%nat Y1 Y2) as C.
  cbn [mgraph sc_model] in C. rewrite Y3, YV, Y4 in C. apply C; [now left| |exact EM].
  exists (MSE 1), (loss_new 1 1), SNull. split; reflexivity.
Qed.

Example c101_network_met : exists m m', network m [sc_id; sc_id] (MSE 1) (loss_new 1 1) 1 1 /\
  Forall (scall_sized 1 1) sc_calls /\ foldM (s_call (fun _ => 0)) sc_calls m = Ok m' /\
  length (shown (fun _ => 0) m sc_calls []) = 2%nat.
Proof.
  destruct (c36_built true 2 (le_n 2)) as (s & E & H1 & H2 & H3 & H4 & H5).
  assert (X : exists m', foldM (s_call (fun _ => 0)) sc_calls (sc_model s 1) = Ok m').
  { match type of E with ?b = _ => assert (Y : match b with
      | Ok g => match foldM (s_call (fun _ => 0)) sc_calls (sc_model g 1) with Ok _ => True | _ => False end
      | _ => False end) by (vm_compute; exact Logic.I) end.
    rewrite E in Y. destruct (foldM (s_call (fun _ => 0)) sc_calls (sc_model s 1)) as [m'| |]; try contradiction. eauto. }
  destruct X as (m' & EM).
  assert (W : network (sc_model s 1) [sc_id; sc_id] (MSE 1) (loss_new 1 1) 1 1).
  { constructor; cbn [mgraph mnodes sc_model length]; [exact (is_chain_built _ _ true 2 E (le_n 2) H1 H2 H3 H4 H5)|lia|reflexivity| |reflexivity].
    cbn [nshape]. exists 1%nat. split; [unfold lshape; cbn; repeat split; auto; discriminate|].
    exists 1%nat. split; [unfold lshape; cbn; repeat split; auto; discriminate|reflexivity]. }
  assert (F : Forall (scall_sized 1 1) sc_calls) by (repeat constructor).
  exists (sc_model s 1), m'. split; [exact W|]. split; [exact F|]. split; [exact EM|].
  destruct (c101_network (fun _ => 0) sc_calls _ m' _ _ _ 1 1 (le_n 1) W eq_refl eq_refl eq_refl eq_refl F EM) as (L & _). exact L.
Qed.

Example c101_nan_met : exists g m', gbuild two_losses = Ok g /\ fl binary64 0 = 0 /\ 0 <= big binary64 /\ losses g = [2; 3]%nat /\
  let m := mkModel g (map (fun s => (s, SNull)) (repeat (NO (MSE (DFin false 1)) (@loss_new dbl (NumD binary64) 1 1)) 4)) in
  (forall i, In i (losses g) -> is_loss (mnodes m) i) /\ @m_reset_score dbl (NumD binary64) m = Ok m'.
Proof.
  assert (Y : match gbuild two_losses with Ok g => losses g = [2; 3]%nat | _ => False end) by reflexivity.
  destruct (gbuild two_losses) as [g| |]; try contradiction. exists g. eexists. split; [reflexivity|].
  split; [exact (ie_int _ ieee_binary64 0 ltac:(discriminate))|].
  split; [pose proof (ie_range _ ieee_binary64) as (B & _); apply Rle_trans with (2 ^ 1023)%R; [apply pow_le; lra|exact B]|].
  split; [exact Y|]. cbv zeta. rewrite Y. split.
  - intros i [<-|[<-|[]]]; eexists _, _, _; reflexivity.
  - unfold m_reset_score. cbn [mgraph mnodes]. rewrite Y. reflexivity.
Qed.

(** A loss connected with create_edge in place of create_loss_edge: predictions count, with the
    target of the last step. *)
Definition loss_as_layer : list gop := [GLayer; GLayer; GEdge 0 1; GLoss; GEdge 0 2]%nat.
Definition sc_predicts : list (scall R) := [SStep [3] [0]; SPredict [1]; SPredict [2]].
Example c101_predictions_count : exists g trun frun m', gbuild loss_as_layer = Ok g /\
  sched (tgraph g) (nodes g) (inputs g) = Ok trun /\ sched (fgraph g) (nodes g) (inputs g) = Ok frun /\ In 2%nat (losses g) /\
  visits 2 (inputs g) trun = 1%nat /\ visits 2 (inputs g) frun = 1%nat /\
  foldM (s_call (fun _ => 0)) sc_predicts (sc_model g 1) = Ok m' /\ evaluations m' 2 3.
Proof.
  assert (X : match gbuild loss_as_layer with
    | Ok g => match foldM (s_call (fun _ => 0)) sc_predicts (sc_model g 1) with Ok _ => True | _ => False end
    | _ => False end).
  { vm_compute. exact Logic.I. }
  assert (Y : match gbuild loss_as_layer with
    | Ok g => exists trun frun, sched (tgraph g) (nodes g) (inputs g) = Ok trun /\ sched (fgraph g) (nodes g) (inputs g) = Ok frun /\
        visits 2 (inputs g) trun = 1%nat /\ visits 2 (inputs g) frun = 1%nat /\ losses g = [2]%nat
    | _ => False end) by (clear X; vm_compute; do 2 eexists; split; [reflexivity|]; split; [reflexivity|]; repeat split).
  destruct (gbuild loss_as_layer) as [g| |]; try contradiction. destruct Y as (trun & frun & Y1 & Y2 & V1 & V2 & Y3).
  destruct (foldM (s_call (fun _ => 0)) sc_predicts (sc_model g 1)) as [m'| |] eqn:EM; try contradiction.
  exists g, trun, frun, m'.
  split; [reflexivity|]. split; [exact Y1|]. split; [exact Y2|]. rewrite Y3. split; [now left|].
  split; [exact V1|]. split; [exact V2|]. split; [exact EM|].
  pose proof (c101_counts R _ _ _ (fun _ => 0) sc_predicts (sc_model g 1) m' 2 0 trun frun Y1 Y2) as C.
  cbn [mgraph sc_model] in C. rewrite Y3, V1, V2 in C. apply C; [now left| |exact EM].
  exists (MSE 1), (loss_new 1 1), SNull. split; reflexivity.
Qed.
