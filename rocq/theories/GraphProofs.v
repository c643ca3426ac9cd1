(** Proofs about schedules. *)
From Coq Require Import FinFun.
From Verif Require Import Base GraphModel GraphSpec.

Lemma NoDup_app {A} (l l' : list A) : NoDup l -> NoDup l' -> (forall x, In x l -> ~ In x l') ->
  NoDup (l ++ l').
Proof.
  intros H. induction H as [|x l Hx H IH]; intros H' Hd; [exact H'|].
  cbn. constructor.
  - rewrite in_app_iff. intros [K|K]; [contradiction|]. apply (Hd x); [now left|exact K].
  - apply IH; [exact H'|]. intros y Hy. apply Hd. now right.
Qed.

Lemma mem_In x l : mem x l = true <-> In x l.
Proof.
  unfold mem. rewrite existsb_exists. split.
  - intros (y & Hy & E). apply Nat.eqb_eq in E. now subst.
  - intros H. exists x. split; auto. apply Nat.eqb_refl.
Qed.
Lemma mem_false x l : mem x l = false <-> ~ In x l.
Proof. rewrite <- mem_In. destruct (mem x l); split; congruence. Qed.

(** *** One node, one level *)
Definition arcs_of (g : edges) (a : nat) : list arc := map (fun b => (a, b)) (g a).
Definition dones_of (g : edges) (a : nat) : list nat := map (fun _ => a) (g a).

(** The queue after looking at successors [bs]. *)
Lemma visit_fold curr from bs : forall ret done next ret' done' next',
  fold_left (visit curr from) bs (ret, done, next) = (ret', done', next') ->
  ret' = ret ++ map (fun b => (from, b)) bs /\
  done' = done ++ map (fun _ => from) bs /\
  (NoDup next -> NoDup next') /\
  (In from curr -> forall x, In x next' <->
     In x next \/ (In x bs /\ ~ In x curr /\ ~ In x done)).
Proof.
  induction bs as [|b bs IH]; intros ret done next ret' done' next' E.
  - cbn in E. injection E as <- <- <-. rewrite !app_nil_r. split; [auto|]. split; [auto|].
    split; [auto|]. intros _ x. split; [auto|]. intros [H|(H & _)]; [auto|destruct H].
  - cbn [fold_left] in E. unfold visit at 2 in E. apply IH in E. clear IH.
    destruct E as (-> & -> & ND & HI). cbn [map]. rewrite <- !app_assoc.
    split; [reflexivity|]. split; [reflexivity|].
    set (nx := if mem b curr || mem b (done ++ [from]) || mem b next then next else next ++ [b]) in *.
    assert (Hnx : (NoDup next -> NoDup nx)).
    { intros Hn. unfold nx. destruct (mem b curr || mem b (done ++ [from]) || mem b next) eqn:M; auto.
      apply orb_false_elim in M. destruct M as (_ & M). apply mem_false in M.
      apply NoDup_app; auto.
      - constructor; [intros []|constructor].
      - intros x Hx [->|[]]. contradiction. }
    split; [auto|]. intros Hf x. rewrite (HI Hf x).
    assert (Hin : In x nx <-> In x next \/ (x = b /\ ~ In x curr /\ ~ In x done)).
    { unfold nx. destruct (mem b curr || mem b (done ++ [from]) || mem b next) eqn:M.
      - split; [auto|]. intros [H|(-> & H1 & H2)]; auto.
        apply orb_prop in M. destruct M as [M|M]; [|now apply mem_In].
        apply orb_prop in M. destruct M as [M|M]; apply mem_In in M; [contradiction|].
        apply in_app_or in M. destruct M as [M|[->|[]]]; contradiction.
      - apply orb_false_elim in M. destruct M as (M & M3). apply orb_false_elim in M.
        destruct M as (M1 & M2). apply mem_false in M1, M2, M3.
        rewrite in_app_iff. cbn [In]. split.
        + intros [H|[->|[]]]; auto. right. split; [auto|]. split; [auto|].
          intros H. apply M2. apply in_or_app. now left.
        + intros [H|(-> & _)]; auto. }
    rewrite Hin, in_app_iff. cbn [In]. split.
    + intros [[H|(-> & H1 & H2)]|(H1 & H2 & H3)]; auto.
      right. split; [auto|]. split; [auto|]. intros H. apply H3. now left.
    + intros [H|([->|H] & H1 & H2)]; auto.
      right. split; [auto|]. split; [auto|]. intros [H'|[->|[]]]; contradiction.
Qed.

Lemma level_spec g curr ret done ret' done' next : level g curr ret done = (ret', done', next) ->
  ret' = ret ++ flat_map (arcs_of g) curr /\
  done' = done ++ flat_map (dones_of g) curr /\
  NoDup next /\
  (forall x, In x next <-> (exists a, In a curr /\ In x (g a)) /\ ~ In x curr /\ ~ In x done).
Proof.
  unfold level.
  assert (G : forall todo ret0 done0 next0 ret1 done1 next1,
    (forall a, In a todo -> In a curr) ->
    fold_left (expand g curr) todo (ret0, done0, next0) = (ret1, done1, next1) ->
    ret1 = ret0 ++ flat_map (arcs_of g) todo /\
    done1 = done0 ++ flat_map (dones_of g) todo /\
    (NoDup next0 -> NoDup next1) /\
    (forall x, In x next1 <-> In x next0 \/
       ((exists a, In a todo /\ In x (g a)) /\ ~ In x curr /\ ~ In x done0))).
  { induction todo as [|a todo IH]; intros ret0 done0 next0 ret1 done1 next1 Hsub E.
    - cbn in E. injection E as <- <- <-. cbn. rewrite !app_nil_r. repeat split; auto.
      intros [H|((a & [] & _) & _)]. exact H.
    - cbn [fold_left] in E. unfold expand at 2 in E.
      destruct (fold_left (visit curr a) (g a) (ret0, done0, next0)) as ((r & d) & nx) eqn:V.
      apply visit_fold in V. destruct V as (-> & -> & V1 & V2).
      specialize (V2 (Hsub a (or_introl eq_refl))).
      apply IH in E; [|intros b Hb; apply Hsub; now right].
      destruct E as (-> & -> & E1 & E2). cbn [flat_map]. rewrite <- !app_assoc.
      split; [reflexivity|]. split; [reflexivity|]. split; [auto|].
      intros x. rewrite E2, V2. clear E1 E2 V1 V2. split.
      + intros [[H|(H1 & H2 & H3)]|((b & Hb & Hx) & H2 & H3)]; auto.
        * right. split; [|auto]. exists a. split; [now left|auto].
        * right. split; [exists b; split; [now right|auto]|]. split; [auto|].
          intros H. apply H3, in_or_app. now left.
      + intros [H|((b & [->|Hb] & Hx) & H2 & H3)]; auto.
        right. split; [exists b; auto|]. split; [auto|].
        intros H. apply in_app_or in H. destruct H as [H|H]; [contradiction|].
        apply in_map_iff in H. destruct H as (y & <- & _). apply H2, Hsub. now left. }
  intros E. apply G in E; [|auto]. destruct E as (-> & -> & E1 & E2).
  split; [reflexivity|]. split; [reflexivity|]. split; [apply E1; constructor|].
  intros x. rewrite E2. cbn [In]. tauto.
Qed.

Lemma has_succ_iff g x : has_successors g x = true <-> exists b, In b (g x).
Proof.
  unfold has_successors. destruct (g x) as [|b l]; split.
  - discriminate.
  - intros (b & []).
  - intros _. exists b. now left.
  - auto.
Qed.

Lemma in_dones g l x : In x (flat_map (dones_of g) l) <-> In x l /\ has_successors g x = true.
Proof.
  rewrite in_flat_map. unfold dones_of. split.
  - intros (a & Ha & H). apply in_map_iff in H. destruct H as (b & -> & Hb).
    split; [auto|]. apply has_succ_iff. eauto.
  - intros (H & Hs). apply has_succ_iff in Hs. destruct Hs as (b & Hb).
    exists x. split; [auto|]. apply in_map_iff. eauto.
Qed.

Lemma in_arcs g l a b : In (a, b) (flat_map (arcs_of g) l) <-> In a l /\ In b (g a).
Proof.
  rewrite in_flat_map. unfold arcs_of. split.
  - intros (c & Hc & H). apply in_map_iff in H. destruct H as (d & E & Hd).
    injection E as -> ->. auto.
  - intros (Ha & Hb). exists a. split; [auto|]. apply in_map_iff. eauto.
Qed.

(** *** The loop *)
Section Run.
Variables (g : edges) (start : list nat) (n : nat).
Hypothesis Hfin : finite_graph n g.

Let active := has_successors g.

(** State after [k] rounds: [E] the nodes expanded so far. *)
Record rinv (k : nat) (E curr : list nat) (ret : list arc) (done : list nat) : Prop := {
  ri_ret : ret = flat_map (arcs_of g) E;
  ri_done : forall x, In x done <-> In x E /\ active x = true;
  ri_nd : NoDup (filter active (E ++ curr));
  ri_old : forall x, In x E -> active x = true -> exists j, j < k /\ dist g start x j;
  ri_cur : forall x, In x curr -> active x = true -> dist g start x k;
  ri_walk : forall x, In x curr -> walk g start k x;
  ri_all : forall j x, walk g start j x -> j <= k -> active x = true -> In x (E ++ curr);
  ri_sorted : forall l1 a b l2 a' b', ret = l1 ++ (a, b) :: l2 -> In (a', b') l1 ->
     exists j j', dist g start a' j' /\ dist g start a j /\ j' <= j
}.

Lemma arc_active a b : In b (g a) -> active a = true.
Proof. intros H. apply has_succ_iff. eauto. Qed.

Lemma dist_unique x j k : dist g start x j -> dist g start x k -> j = k.
Proof. intros (W1 & M1) (W2 & M2). specialize (M1 k W2). specialize (M2 j W1). lia. Qed.

Lemma rinv_init : NoDup start -> rinv 0 [] start [] [].
Proof.
  intros Hnd. split.
  - reflexivity.
  - cbn. intros x. tauto.
  - cbn. now apply NoDup_filter.
  - intros x [].
  - intros x Hx _. split; [now constructor|]. intros j _. lia.
  - intros x Hx. now constructor.
  - intros j x W Hj _. assert (j = 0) as -> by lia. inversion W. auto.
  - intros l1 a b l2 a' b' E. destruct l1; discriminate.
Qed.

Lemma rinv_step k E curr ret done ret' done' next :
  rinv k E curr ret done -> level g curr ret done = (ret', done', next) ->
  rinv (S k) (E ++ curr) next ret' done'.
Proof.
  intros I L. apply level_spec in L. destruct L as (-> & -> & ND & HN).
  destruct I as [I1 I2 I3 I4 I5 I6 I7 I8].
  assert (Hwalk : forall x, In x next -> walk g start (S k) x).
  { intros x Hx. apply HN in Hx. destruct Hx as ((a & Ha & Hb) & _).
    econstructor; [apply I6; exact Ha|exact Hb]. }
  assert (Hnew : forall x, In x next -> active x = true -> ~ In x (E ++ curr)).
  { intros x Hx Ha Hin. apply HN in Hx. destruct Hx as (_ & Hc & Hd).
    apply in_app_or in Hin. destruct Hin as [Hin|Hin]; [|contradiction].
    apply Hd, I2. auto. }
  split.
  - rewrite I1, flat_map_app. reflexivity.
  - intros x. rewrite in_app_iff, I2, in_dones, in_app_iff. unfold active. tauto.
  - rewrite filter_app. apply NoDup_app.
    + exact I3.
    + now apply NoDup_filter.
    + intros x Hx Hx'. apply filter_In in Hx, Hx'. destruct Hx as (Hx & Ha), Hx' as (Hx' & _).
      now apply (Hnew x).
  - intros x Hx Ha. apply in_app_or in Hx. destruct Hx as [Hx|Hx].
    + destruct (I4 x Hx Ha) as (j & Hj & D). exists j. split; [lia|auto].
    + exists k. split; [lia|]. now apply I5.
  - intros x Hx Ha. split; [now apply Hwalk|].
    intros j W. destruct (Nat.le_gt_cases (S k) j) as [|Hlt]; [auto|exfalso].
    apply (Hnew x Hx Ha). apply (I7 j x W); [lia|auto].
  - exact Hwalk.
  - intros j x W Hj Ha. destruct (Nat.eq_dec j (S k)) as [->|Hne].
    + inversion W as [|k' a b Wa Hb]; subst.
      assert (Hain : In a (E ++ curr)).
      { apply (I7 k a Wa); [lia|]. now apply (arc_active a x). }
      destruct (in_dec Nat.eq_dec x (E ++ curr)) as [Hin|Hnin].
      { rewrite in_app_iff. now left. }
      (* x is new: then a is in curr, else x would already be there *)
      rewrite in_app_iff. right. apply HN. split; [|split].
      * apply in_app_or in Hain. destruct Hain as [Hain|Hain]; [|eauto].
        exfalso. apply Hnin.
        destruct (I4 a Hain (arc_active a x Hb)) as (j & Hj' & (Wa' & _)).
        apply (I7 (S j) x); [econstructor; eauto|lia|auto].
      * intros H. apply Hnin, in_or_app. now right.
      * intros H. apply I2 in H. apply Hnin, in_or_app. left. tauto.
    + rewrite in_app_iff. left. apply (I7 j x W); [lia|auto].
  - intros l1 a b l2 a' b' Eq Hin.
    (* position of (a, b) *)
    assert (Hcases : (exists l2', ret = l1 ++ (a, b) :: l2') \/
      (exists l1', l1 = ret ++ l1' /\ flat_map (arcs_of g) curr = l1' ++ (a, b) :: l2)).
    { clear - Eq. revert l1 Eq. induction ret as [|h ret IH]; intros l1 Eq.
      - right. exists l1. auto.
      - destruct l1 as [|h1 l1]; cbn in Eq.
        + injection Eq as -> Eq. left. exists ret. reflexivity.
        + injection Eq as <- Eq. destruct (IH l1 Eq) as [(l2' & ->)|(l1' & -> & E2)].
          * left. exists l2'. reflexivity.
          * right. exists l1'. auto. }
    destruct Hcases as [(l2' & E1)|(l1' & -> & E1)]; [eapply I8; eauto|].
    assert (Hab : In a curr /\ In b (g a)).
    { apply in_arcs. rewrite E1. apply in_or_app. right. now left. }
    destruct Hab as (Ha & Hb).
    pose proof (I5 a Ha (arc_active a b Hb)) as Da.
    apply in_app_or in Hin. destruct Hin as [Hin|Hin].
    + rewrite I1 in Hin. apply in_arcs in Hin. destruct Hin as (Ha' & Hb').
      destruct (I4 a' Ha' (arc_active a' b' Hb')) as (j' & Hj' & D').
      exists k, j'. split; [auto|]. split; [auto|]. lia.
    + assert (Hab' : In a' curr /\ In b' (g a')).
      { apply in_arcs. rewrite E1. apply in_or_app. now left. }
      destruct Hab' as (Ha' & Hb'). exists k, k. split; [|auto].
      now apply I5, (arc_active a' b').
Qed.

Lemma active_lt x : active x = true -> x < n.
Proof. intros H. apply has_succ_iff in H. destruct H as (b & Hb). destruct (Hfin x) as (_ & K). now destruct (K b Hb). Qed.

Lemma count_active E curr : NoDup (filter active (E ++ curr)) ->
  length (filter active E) + length (filter active curr) <= n.
Proof.
  intros Hnd. rewrite <- app_length, <- filter_app.
  rewrite <- (seq_length n 0). apply NoDup_incl_length; [exact Hnd|].
  intros x Hx. apply filter_In in Hx. destruct Hx as (_ & Hx). apply in_seq.
  pose proof (active_lt x Hx). lia.
Qed.

Lemma run_loop_ok fuel : forall k E curr ret done,
  rinv k E curr ret done -> n - length (filter active E) + 2 <= fuel ->
  exists ret' k' E' done', run_loop fuel g curr ret done = Some ret' /\
    rinv k' E' [] ret' done'.
Proof.
  induction fuel as [|fuel IH]; intros k E curr ret done I Hf; [lia|].
  destruct curr as [|c cs] eqn:Ec.
  - exists ret, k, E, done. split; [reflexivity|exact I].
  - rewrite <- Ec in *. assert (Hrun : run_loop (S fuel) g curr ret done =
      let '(ret', done', next) := level g curr ret done in run_loop fuel g next ret' done').
    { subst curr. reflexivity. }
    rewrite Hrun. clear Hrun.
    destruct (level g curr ret done) as ((ret', done'), next) eqn:L.
    pose proof (rinv_step _ _ _ _ _ _ _ _ I L) as I'.
    pose proof (count_active _ _ (ri_nd _ _ _ _ _ I)) as Hcnt.
    destruct (filter active curr) as [|x xs] eqn:Fc.
    + (* nothing to expand: next is empty *)
      assert (next = []) as ->.
      { apply level_spec in L. destruct L as (_ & _ & _ & HN).
        destruct next as [|y ys]; [reflexivity|exfalso].
        destruct (HN y) as (H1 & _). destruct (H1 (or_introl eq_refl)) as ((a & Ha & Hy) & _).
        assert (In a (filter active curr)).
        { apply filter_In. split; [auto|]. now apply (arc_active a y). }
        rewrite Fc in H. destruct H. }
      exists ret', (S k), (E ++ curr), done'. split; [|exact I'].
      destruct fuel; reflexivity.
    + apply (IH (S k) (E ++ curr)); [exact I'|].
      rewrite filter_app, app_length, Fc. cbn [length] in *. lia.
Qed.

Lemma NoDup_arcs E : NoDup (filter active E) -> NoDup (flat_map (arcs_of g) E).
Proof.
  induction E as [|a E IH]; intros Hnd; [constructor|].
  cbn [flat_map filter] in *. unfold arcs_of at 1.
  destruct (active a) eqn:Ha.
  - inversion Hnd as [|x l Hx Hl]; subst. apply NoDup_app.
    + apply FinFun.Injective_map_NoDup; [|apply (Hfin a)]. intros x y E'. congruence.
    + now apply IH.
    + intros (u, v) H1 H2. apply in_map_iff in H1. destruct H1 as (b & E1 & Hb).
      injection E1 as -> ->. apply in_arcs in H2. destruct H2 as (H2 & _).
      apply Hx, filter_In. auto.
  - unfold active, has_successors in Ha. destruct (g a) eqn:Eg; [|discriminate]. cbn. now apply IH.
Qed.

Lemma schedule_ok : NoDup start -> forall fuel, n + 2 <= fuel ->
  exists arcs, schedule fuel g start = Some arcs /\
    NoDup arcs /\
    (forall a b, In (a, b) arcs <-> reachable g start a /\ In b (g a)) /\
    (forall l1 a b l2 a' b', arcs = l1 ++ (a, b) :: l2 -> In (a', b') l1 ->
       exists j j', dist g start a' j' /\ dist g start a j /\ j' <= j).
Proof.
  intros Hnd fuel Hf.
  destruct (run_loop_ok fuel 0 [] start [] [] (rinv_init Hnd)) as (arcs & k & E & done & Er & I).
  { cbn. lia. }
  exists arcs. split; [exact Er|]. destruct I as [I1 I2 I3 I4 I5 I6 I7 I8].
  rewrite app_nil_r in *. split; [|split].
  - rewrite I1. now apply NoDup_arcs.
  - intros a b. rewrite I1, in_arcs. split.
    + intros (Ha & Hb). split; [|exact Hb].
      destruct (I4 a Ha (arc_active a b Hb)) as (j & _ & (W & _)). now exists j.
    + intros ((j & W) & Hb). split; [|exact Hb].
      (* every walk ends in E: the final queue is empty *)
      assert (G : forall i x, walk g start i x -> active x = true -> In x E).
      { induction i as [|i IHi]; intros x Wx Hx.
        - apply (I7 0 x Wx); [lia|auto].
        - inversion Wx as [|k' p q Wp Hq]; subst.
          pose proof (IHi p Wp (arc_active p x Hq)) as Hp.
          destruct (I4 p Hp (arc_active p x Hq)) as (jp & Hjp & (Wp' & _)).
          apply (I7 (S jp) x); [econstructor; eauto|lia|auto]. }
      apply (G j a W). now apply (arc_active a b).
  - exact I8.
Qed.
End Run.

(** More fuel does not change the result. *)
Lemma run_loop_mono fuel : forall fuel' g curr ret done arcs, fuel <= fuel' ->
  run_loop fuel g curr ret done = Some arcs -> run_loop fuel' g curr ret done = Some arcs.
Proof.
  induction fuel as [|fuel IH]; intros fuel' g curr ret done arcs Hle H.
  - destruct curr; [|discriminate]. destruct fuel'; exact H.
  - destruct curr as [|c cs]; [destruct fuel'; exact H|].
    destruct fuel' as [|fuel']; [lia|]. cbn [run_loop] in *.
    destruct (level g (c :: cs) ret done) as ((r, d), nx). apply IH; [lia|exact H].
Qed.

(** *** Building *)
Lemma sinsert_In x l y : In y (sinsert x l) <-> y = x \/ In y l.
Proof.
  induction l as [|z t IH]; cbn [sinsert].
  - cbn. intuition.
  - destruct (Nat.ltb_spec x z); [cbn; intuition|].
    destruct (Nat.eqb_spec x z) as [->|]; [cbn; intuition|].
    cbn [In]. rewrite IH. intuition.
Qed.

Inductive ssorted : list nat -> Prop :=
| ss_nil : ssorted []
| ss_cons : forall x l, (forall y, In y l -> x < y) -> ssorted l -> ssorted (x :: l).

Lemma ssorted_NoDup l : ssorted l -> NoDup l.
Proof.
  induction 1 as [|x l Hx H IH]; constructor; auto. intros Hin. specialize (Hx x Hin). lia.
Qed.

Lemma sinsert_sorted x l : ssorted l -> ssorted (sinsert x l).
Proof.
  induction 1 as [|z l Hz H IH]; cbn [sinsert].
  - constructor; [intros y []|constructor].
  - destruct (Nat.ltb_spec x z).
    + constructor; [|now constructor]. intros y [<-|Hy]; [auto|]. specialize (Hz y Hy). lia.
    + destruct (Nat.eqb_spec x z); [now constructor|].
      constructor; [|exact IH]. intros y Hy. apply sinsert_In in Hy. destruct Hy as [->|Hy]; [lia|auto].
Qed.

Lemma ssorted_seq n : forall a, ssorted (seq a n).
Proof.
  induction n as [|n IH]; intros a; cbn; constructor; auto.
  intros y Hy. apply in_seq in Hy. lia.
Qed.

Definition gwf (n : nat) (g : edges) : Prop :=
  forall a, ssorted (g a) /\ forall b, In b (g a) -> a < n /\ b < n.

Lemma gwf_finite n g : gwf n g -> finite_graph n g.
Proof. intros H a. destruct (H a) as (S & B). split; [now apply ssorted_NoDup|exact B]. Qed.

Lemma gwf_mono n n' g : n <= n' -> gwf n g -> gwf n' g.
Proof. intros Hle H a. destruct (H a) as (S & B). split; [exact S|]. intros b Hb. specialize (B b Hb). lia. Qed.

Lemma gwf_none n : gwf n no_edges.
Proof. intros a. split; [constructor|intros b []]. Qed.

Lemma add_arc_ok n g a b g' : gwf n g -> add_arc n g a b = Ok g' ->
  a < n /\ b < n /\ gwf n g' /\ forall i x, In x (g' i) <-> In x (g i) \/ (i = a /\ x = b).
Proof.
  intros H E. unfold add_arc in E. destruct (Nat.ltb_spec a n); [|discriminate].
  destruct (Nat.ltb_spec b n); [|discriminate]. cbn in E. injection E as <-.
  assert (Hin : forall i x, In x (if i =? a then sinsert b (g a) else g i) <-> In x (g i) \/ (i = a /\ x = b)).
  { intros i x. destruct (Nat.eqb_spec i a) as [->|Hne].
    - rewrite sinsert_In. intuition.
    - intuition. }
  split; [auto|]. split; [auto|]. split; [|exact Hin].
  intros i. split.
  - destruct (Nat.eqb_spec i a) as [->|]; [apply sinsert_sorted|]; apply H.
  - intros x Hx. apply Hin in Hx. destruct Hx as [Hx|(-> & ->)]; [now apply (H i)|auto].
Qed.

Definition dwf (s : dlgraph) : Prop :=
  gwf (nodes s) (fgraph s) /\ gwf (nodes s) (tgraph s) /\ gwf (nodes s) (bgraph s) /\
  NoDup (losses s) /\ (forall x, In x (losses s) -> x < nodes s) /\
  NoDup (inputs s) /\ (forall x, In x (inputs s) -> x < nodes s) /\
  NoDup (outputs s) /\ (forall x, In x (outputs s) -> x < nodes s).

Lemma NoDup_filter_seq f n : NoDup (filter f (seq 0 n)).
Proof. apply NoDup_filter, seq_NoDup. Qed.
Lemma lt_filter_seq f n x : In x (filter f (seq 0 n)) -> x < n.
Proof. intros H. apply filter_In in H. destruct H as (H & _). apply in_seq in H. lia. Qed.

Lemma dwf_roles s : dwf s -> dwf (compute_roles s).
Proof.
  intros (A & B & C & D & E & _). unfold compute_roles.
  split; [exact A|]. split; [exact B|]. split; [exact C|]. split; [exact D|]. split; [exact E|].
  cbn [nodes inputs outputs].
  split; [apply NoDup_filter_seq|]. split; [apply lt_filter_seq|].
  split; [apply NoDup_filter_seq|apply lt_filter_seq].
Qed.

Lemma gstep_dwf s o s' : dwf s -> gstep s o = Ok s' -> dwf s'.
Proof.
  intros W E.
  assert (Hback : forall s a b s', dwf s -> add_backward s a b = Ok s' -> dwf s').
  { clear. intros s a b s' (A & B & C & D) E. unfold add_backward in E.
    destruct (add_arc (nodes s) (bgraph s) a b) as [t| |] eqn:Ea; try discriminate.
    cbn in E. injection E as <-. apply add_arc_ok in Ea; [|exact C].
    destruct Ea as (_ & _ & Ct & _). split; [exact A|]. split; [exact B|]. split; [exact Ct|exact D]. }
  assert (Hfwd : forall s a b s', dwf s -> add_forward s a b = Ok s' -> dwf s').
  { clear. intros s a b s' (A & B & C & D) E. unfold add_forward in E.
    destruct (add_arc (nodes s) (fgraph s) a b) as [f| |] eqn:Ea; try discriminate.
    cbn [bind] in E. destruct (add_arc (nodes s) (tgraph s) a b) as [t| |] eqn:Eb; try discriminate.
    cbn [bind] in E. injection E as <-. apply add_arc_ok in Ea; [|exact A]. apply add_arc_ok in Eb; [|exact B].
    apply dwf_roles. split; [apply Ea|]. split; [apply Eb|]. split; [exact C|exact D]. }
  assert (Hfl : forall s a b s', dwf s -> add_forward_loss s a b = Ok s' -> dwf s').
  { clear. intros s a b s' (A & B & C & D) E. unfold add_forward_loss in E.
    destruct (add_arc (nodes s) (tgraph s) a b) as [t| |] eqn:Eb; try discriminate.
    cbn [bind] in E. injection E as <-. apply add_arc_ok in Eb; [|exact B].
    split; [exact A|]. split; [apply Eb|]. split; [exact C|exact D]. }
  assert (Hnode : dwf (add_node s)).
  { destruct W as (A & B & C & D & E1 & F & G & H & I).
    split; [eapply gwf_mono; [|exact A]; cbn; lia|].
    split; [eapply gwf_mono; [|exact B]; cbn; lia|].
    split; [eapply gwf_mono; [|exact C]; cbn; lia|].
    repeat split; cbn; auto.
    - intros x Hx. specialize (E1 x Hx). lia.
    - intros x Hx. specialize (G x Hx). lia.
    - intros x Hx. specialize (I x Hx). lia. }
  destruct o; cbn [gstep] in E.
  - injection E as <-. exact Hnode.
  - injection E as <-. destruct Hnode as (A & B & C & D & E1 & F). unfold add_loss.
    split; [exact A|]. split; [exact B|]. split; [exact C|]. cbn [add_node nodes losses] in *.
    split.
    + apply NoDup_app; [exact D|constructor; [intros []|constructor]|].
      intros x Hx [<-|[]]. destruct W as (_ & _ & _ & _ & E0 & _). specialize (E0 _ Hx). lia.
    + split; [|exact F]. intros x Hx. apply in_app_or in Hx. destruct Hx as [Hx|[<-|[]]]; [auto|lia].
  - unfold create_edge in E. destruct (add_backward s b a) as [s1| |] eqn:E1; try discriminate.
    cbn [bind] in E. eapply Hfwd; [|exact E]. exact (Hback _ _ _ _ W E1).
  - unfold create_loss_edge in E. destruct (add_backward s b a) as [s1| |] eqn:E1; try discriminate.
    cbn [bind] in E. eapply Hfl; [|exact E]. exact (Hback _ _ _ _ W E1).
  - exact (Hfwd _ _ _ _ W E).
  - exact (Hfl _ _ _ _ W E).
  - exact (Hback _ _ _ _ W E).
Qed.

Lemma foldM_inv {S A} (P : S -> Prop) (f : S -> A -> res S) l : forall s s',
  (forall s a s', P s -> f s a = Ok s' -> P s') -> P s -> foldM f l s = Ok s' -> P s'.
Proof.
  induction l as [|a l IH]; intros s s' Hf Hs E; cbn in E.
  - injection E as <-. exact Hs.
  - destruct (f s a) as [s1| |] eqn:E1; try discriminate. cbn in E.
    eapply IH; [exact Hf| |exact E]. eapply Hf; eauto.
Qed.

Lemma gbuild_dwf os s : gbuild os = Ok s -> dwf s.
Proof.
  unfold gbuild. apply foldM_inv.
  - intros s0 a s'. apply gstep_dwf.
  - unfold graph_new, dwf. cbn [nodes fgraph tgraph bgraph losses inputs outputs].
    split; [apply gwf_none|]. split; [apply gwf_none|]. split; [apply gwf_none|].
    repeat split; try constructor; intros x [].
Qed.
