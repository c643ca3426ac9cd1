(** C77: data races of the concurrent code. *)
From Verif Require Import Base Num DatasetModel MathModel MathProofs LayerModel LossModel OptModel OptProofs GraphModel GraphProofs ModelModel NodeModel ChainProofs ModelProofs PropGraph PropModel TrainProofs CopyModel PropCopy FitModel ParProofs PropFit PropPar Conc ThreadModel ThreadProofs PropThread RaceModel RaceProofs.
From Coq Require Import Reals Permutation.
Local Open Scope nat_scope.

(** *** Data races *)
(** The next access of a task: location, and whether it is a write. *)
Definition next_access {T} (p : prog T) : option (cloc * bool) :=
  match p with Done => None | Load l _ => Some (l, false) | Store l _ _ => Some (l, true) end.
(** Two tasks are about to access [l], one of them to write it: nothing orders the two. *)
Definition race_at {T} (l : cloc) (ps : list (prog T)) : Prop :=
  exists i j p q w w', i <> j /\ nth_error ps i = Some p /\ nth_error ps j = Some q /\
    next_access p = Some (l, w) /\ next_access q = Some (l, w') /\ (w = true \/ w' = true).

Lemma good_access {T} sz cls (E : cloc -> T) i p m l w : good sz cls E i p m -> next_access p = Some (l, w) ->
  cls l = Own i \/ cls l = Shared \/ (cls l = Const /\ w = false).
Proof.
  destruct p as [|l' k|l' v p]; cbn [good next_access]; intros G A; try discriminate; injection A as <- <-;
    destruct G as (_ & G); destruct (cls l') as [j| |]; try tauto; destruct G as (-> & _); auto.
Qed.
(** Only shared locations race. *)
Lemma inv_race {T} sz cls (E : cloc -> T) ps m l : inv sz cls E (ps, m) -> race_at l ps -> cls l = Shared.
Proof.
  intros I (i & j & p & q & w & w' & N & Ep & Eq & Ap & Aq & W).
  pose proof (good_access sz cls E i p m l w (I i p Ep) Ap) as Gp.
  pose proof (good_access sz cls E j q m l w' (I j q Eq) Aq) as Gq.
  destruct Gp as [Gp|[Gp|(Gp & Wp)]]; [|exact Gp|]; destruct Gq as [Gq|[Gq|(Gq & Wq)]]; try congruence; try exact Gq.
  subst. destruct W; discriminate.
Qed.

(** dense_thread_opt: no interleaving has a data race. *)
Theorem c77_dense_thread_opt :
  forall (T : Type) (NT : NumOps T) (d0 : T) (dst src w bias : list T) inp out,
    out <= length dst -> out * inp <= length w -> inp <= length src -> out <= length bias ->
    let arrs := fwd_arrs dst src w bias in
    forall ps m, csteps (fun a => length (arrs a)) (dense_tasks inp out, mem_of d0 arrs) (ps, m) ->
    forall l, ~ race_at l ps.
Proof.
  intros T NT d0 dst src w bias inp out Hd Hw Hs Hb arrs ps m Hst l R.
  pose proof (inv_steps _ _ _ _ _ (fwd_inv d0 dst src w bias inp out Hd Hw Hs Hb) Hst) as I.
  apply (inv_race _ _ _ _ _ _ I) in R. unfold fwd_cls in R. destruct (fst l); [destruct (snd l <? out)|]; discriminate.
Qed.
Print Assumptions c77_dense_thread_opt.

(** One task alone. *)
Inductive psteps {T} (sz : nat -> nat) : prog T -> cmem T -> prog T -> cmem T -> Prop :=
| pss_refl : forall p m, psteps sz p m p m
| pss_step : forall p m p' m' p'' m'', pstep sz p m p' m' -> psteps sz p' m' p'' m'' -> psteps sz p m p'' m''.
Lemma psteps_csteps {T} sz (p : prog T) m p' m' : psteps sz p m p' m' -> forall ps i, nth_error ps i = Some p ->
  csteps sz (ps, m) (upd ps i p', m').
Proof.
  induction 1 as [p m|p m p1 m1 p2 m2 ST R IH]; intros ps i E.
  - replace (upd ps i p) with ps; [constructor|]. revert i E. induction ps as [|q ps IH]; intros [|i] E; try discriminate; cbn in *; [congruence|]. f_equal. auto.
  - assert (L : i < length ps) by (apply nth_error_Some; congruence).
    specialize (IH (upd ps i p1) i). rewrite Base.nth_error_upd, Nat.eqb_refl in IH. apply Nat.ltb_lt in L. rewrite L in IH.
    specialize (IH eq_refl). replace (upd (upd ps i p1) i p2) with (upd ps i p2) in IH.
    + eapply csteps_trans; [|exact IH]. eapply css_step; [constructor|]. econstructor; eauto.
    + clear. revert i. induction ps as [|q ps IH]; intros [|i]; cbn; auto. now rewrite <- IH.
Qed.
Lemma inr_intro sz a i : i < sz a -> inr_ sz (a, i).
Proof. auto. Qed.

(** dense_1_thread_opt: there is a race exactly when there are two outputs and an input, and
    every race is on an input gradient. *)
Theorem c77_dense_1_thread_opt_actual :
  forall (T : Type) (NT : NumOps T) (d0 : T) (ig wg bg g last w : list T) inp out,
    inp <= length ig -> out * inp <= length wg -> out <= length bg ->
    out <= length g -> inp <= length last -> out * inp <= length w ->
    let arrs := bwd_arrs ig wg bg g last w inp in
    let run := csteps (fun a => length (arrs a)) (dense_1_tasks inp out, mem_of d0 arrs) in
    ((exists ps m l, run (ps, m) /\ race_at l ps) <-> 2 <= out /\ 1 <= inp) /\
    (forall ps m l, run (ps, m) -> race_at l ps -> exists j, j < inp /\ l = (IG, j)).
Proof.
  intros T NT d0 ig wg bg g last w inp out Hig Hwg Hbg Hg Hx Hw arrs run.
  assert (Loc : forall ps m l, run (ps, m) -> race_at l ps -> exists j, j < inp /\ l = (IG, j) /\ out <> 1).
  { intros ps m l Hst R.
    pose proof (inv_steps _ _ _ _ _ (bwd_inv d0 ig wg bg g last w inp out Hig Hwg Hbg Hg Hx Hw) Hst) as I.
    apply (inv_race _ _ _ _ _ _ I) in R. unfold bwd_cls in R. destruct l as (a, i). cbn [fst snd] in R.
    destruct a as [|[|[|[|[|[|[|a]]]]]]]; try discriminate.
    - destruct (Nat.ltb_spec i inp); [|discriminate]. destruct (Nat.eqb_spec out 1); [discriminate|]. exists i. auto.
    - destruct (i <? out * inp); discriminate.
    - destruct (i <? out); discriminate. }
  split; [|intros ps m l Hst R; destruct (Loc ps m l Hst R) as (j & A & B & _); eauto].
  split.
  - intros (ps & m & l & Hst & R). destruct (Loc ps m l Hst R) as (j & Hj & _ & N1). split; [|lia].
    destruct out as [|[|out]]; [|lia|lia]. exfalso.
    assert (G : forall s1 s2 : list (prog T) * cmem T, csteps (fun a => length (arrs a)) s1 s2 -> fst s1 = [] -> fst s2 = []).
    { clear. intros s1 s2 S0. induction S0 as [|s1 s2 s3 S1 IH S2]; intros E; auto. specialize (IH E).
      inversion S2 as [ps i p p' m m' Hn Hp]; subst. cbn in IH. subst ps. destruct i; discriminate. }
    specialize (G _ _ Hst eq_refl). cbn in G. subst ps. destruct R as ([|i] & jj & p & q & w1 & w2 & _ & E & _); discriminate.
  - intros (Ho & Hi).
    destruct inp as [|inp']; [lia|].
    assert (SI : 0 < length (arrs IG)) by (cbn; lia).
    assert (S1 : forall o, o < 2 -> o < length (arrs GRAD) /\ o < length (arrs BG) /\ 0 < length (arrs SRC) /\
      o * S inp' + 0 < length (arrs WG) /\ o * S inp' + 0 < length (arrs WTS)).
    { intros o H2. cbn [arrs bwd_arrs GRAD BG SRC WG WTS]. repeat split; try lia; nia. }
    set (sz := fun a : nat => length (arrs a)) in *.
    assert (RUN : forall o m, o < 2 -> exists k m1, psteps sz (dense_1_task (S inp') o) m (Load (IG, 0) k) m1 /\
      exists v p, k (m1 (IG, 0)) = Store (IG, 0) v p).
    { intros o m H2. destruct (S1 o H2) as (B1 & B2 & B3 & B4 & B5). unfold dense_1_task, incr. cbn [dense_1_task_loop].
      eexists _, _. split.
      - do 9 (eapply pss_step; [constructor; apply inr_intro; assumption|]). apply pss_refl.
      - cbn beta. unfold incr. eauto. }
    assert (E0 : nth_error (dense_1_tasks (S inp') out) 0 = Some (dense_1_task (S inp') 0)).
    { unfold dense_1_tasks. rewrite (nth_error_nth' _ Done) by (rewrite tab_length; lia). now rewrite nth_tab by lia. }
    assert (E1 : nth_error (dense_1_tasks (S inp') out) 1 = Some (dense_1_task (S inp') 1)).
    { unfold dense_1_tasks. rewrite (nth_error_nth' _ Done) by (rewrite tab_length; lia). now rewrite nth_tab by lia. }
    assert (LT : length (dense_1_tasks (S inp') out) = out) by apply tab_length.
    destruct (RUN 0 (mem_of d0 arrs)) as (k0 & m0 & R0 & v0 & p0 & K0); [lia|].
    destruct (RUN 1 m0) as (k1 & m1 & R1 & _); [lia|].
    pose proof (psteps_csteps _ _ _ _ _ R0 _ _ E0) as C0.
    assert (C1 : csteps sz (upd (dense_1_tasks (S inp') out) 0 (Load (IG, 0) k0), m0)
      (upd (upd (dense_1_tasks (S inp') out) 0 (Load (IG, 0) k0)) 0 (k0 (m0 (IG, 0))), m0)).
    { eapply css_step; [constructor|]. econstructor; [|constructor; apply inr_intro; exact SI].
      rewrite Base.nth_error_upd, LT. cbn [Nat.eqb andb]. destruct (Nat.ltb_spec 0 out); [reflexivity|lia]. }
    rewrite K0 in C1. set (ps1 := upd (upd _ 0 _) 0 _) in C1.
    assert (F1 : nth_error ps1 1 = Some (dense_1_task (S inp') 1)).
    { unfold ps1. rewrite !Base.nth_error_upd. exact E1. }
    assert (F0 : nth_error ps1 0 = Some (Store (IG, 0) v0 p0)).
    { unfold ps1. rewrite Base.nth_error_upd, upd_length, LT. cbn [Nat.eqb andb]. destruct (Nat.ltb_spec 0 out); [reflexivity|lia]. }
    pose proof (psteps_csteps _ _ _ _ _ R1 _ _ F1) as C2.
    exists (upd ps1 1 (Load (IG, 0) k1)), m1, (IG, 0). split.
    + eapply csteps_trans; [exact C0|]. eapply csteps_trans; [exact C1|exact C2].
    + assert (L1 : length ps1 = out) by (unfold ps1; now rewrite !upd_length).
      exists 0, 1, (Store (IG, 0) v0 p0), (Load (IG, 0) k1), true, false. split; [discriminate|].
      rewrite !Base.nth_error_upd, L1. cbn [Nat.eqb andb]. split; [exact F0|]. split.
      * destruct (Nat.ltb_spec 1 out); [reflexivity|lia].
      * cbn. auto.
Qed.
Print Assumptions c77_dense_1_thread_opt_actual.

(** *** Parallel training *)
Section Training.
Context {T : Type} `{NumOps T} `{TransOps T} `{LimOps T}.

(** The next access to the shared parameters of a task ([Some i]) or of the main thread
    ([None]): location, and whether it is a write. *)
Definition shared_access (s : rstate T) (t : option nat) : option (ploc * bool) :=
  match t with
  | Some i => match nth_error (r_tasks s) i with Some (RLoad l _) => Some (l, false) | _ => None end
  | None => match r_main s with
            | MTrain _ ((l, _) :: _) => Some (l, false) | MStore _ l _ _ => Some (l, true) | _ => None end
  end.
(** Two threads are about to access the same parameter, one of them to write it. *)
Definition training_race (s : rstate T) : Prop :=
  exists t t' l w w', t <> t' /\ shared_access s t = Some (l, w) /\ shared_access s t' = Some (l, w') /\
    (w = true \/ w' = true).

Lemma race_inv s : training_race s -> exists i l k j v us,
  nth_error (r_tasks s) i = Some (RLoad l k) /\ r_main s = MStore j l v us.
Proof.
  assert (M : forall t l, shared_access s t = Some (l, true) -> t = None /\ exists j v us, r_main s = MStore j l v us).
  { intros [i|] l; cbn [shared_access].
    - destruct (nth_error (r_tasks s) i) as [[a|l' k| |]|]; discriminate.
    - destruct (r_main s) as [j|j [|(l', g) us]|j l' v us]; try discriminate. intros E. injection E as ->. eauto 10. }
  assert (K : forall t l w, shared_access s t = Some (l, w) -> t <> None -> exists i k, nth_error (r_tasks s) i = Some (RLoad l k)).
  { intros [i|] l w E N; [|contradiction]. cbn [shared_access] in E.
    destruct (nth_error (r_tasks s) i) as [[a|l' k| |]|] eqn:EN; try discriminate. injection E as -> _. eauto. }
  intros (t & t' & l & w & w' & N & A & A' & [-> | ->]).
  - apply M in A. destruct A as (-> & j & v & us & EM). apply K in A'; [|congruence]. destruct A' as (i & k & E). eauto 10.
  - apply M in A'. destruct A' as (-> & j & v & us & EM). apply K in A; [|congruence]. destruct A as (i & k & E). eauto 10.
Qed.

Definition has_parameter (ls : list (layer T)) : Prop := exists l, In l ls /\ knd l = KDense /\ wts l ++ bias l <> [].

Lemma no_updates ls : forall c n m, nshape ls n m -> ~ has_parameter ls -> updates c ls = [].
Proof.
  induction ls as [|l ls IH]; intros c n m HS NP; [reflexivity|]. destruct HS as (k & HL & HS). cbn [updates].
  rewrite (IH (S c) k m HS); [|intros (q & A & B); apply NP; exists q; split; [now right|exact B]].
  rewrite app_nil_r. unfold updates_of. destruct HL as (_ & _ & _ & HL). destruct (knd l) eqn:K; [|reflexivity].
  destruct HL as (A1 & A2 & A3 & A4). destruct (wts l ++ bias l) eqn:E.
  - apply app_eq_nil in E. destruct E as (E1 & E2). rewrite E1, E2 in *. cbn in A1, A3.
    destruct (wgrad l); [|cbn in A2; lia]. destruct (bgrad l); [|cbn in A4; lia]. reflexivity.
  - exfalso. apply NP. exists l. split; [now left|]. split; [exact K|]. rewrite E. discriminate.
Qed.
Lemma some_updates ls : forall c n m, nshape ls n m -> has_parameter ls -> exists l u, hd_error (updates c ls) = Some (l, u).
Proof.
  induction ls as [|l ls IH]; intros c n m HS (q & HI & K & NE); [destruct HI|]. destruct HS as (k & HL & HS). cbn [updates].
  destruct (updates_of c l) as [|(l0, u0) us] eqn:EQ; [|cbn; eauto]. cbn [app].
  destruct HI as [->|HI]; [|apply (IH (S c) k m HS); exists q; auto]. exfalso.
  destruct HL as (_ & _ & _ & HL). unfold updates_of in EQ. rewrite K in *. destruct HL as (A1 & A2 & A3 & A4).
  apply app_eq_nil in EQ. destruct EQ as (E1 & E2). apply map_eq_nil in E1, E2.
  apply NE. destruct (wgrad q); [|discriminate]. destruct (bgrad q); [|discriminate].
  destruct (wts q); [|cbn in *; lia]. destruct (bias q); [|cbn in *; lia]. reflexivity.
Qed.

(** A round of parallel training has a data race exactly when the network has a parameter and
    a task other than the first has a row to learn. *)
Theorem c77_training_actual : forall (draw : nat -> T) (eta : T) (m : model (node T)) ls kd lo n k
    (tasks : list (list (list T * list T))),
  network m ls kd lo n k ->
  Forall (Forall (fun xt => length (fst xt) = n)) tasks ->
  Forall (fun rows => exists m', model_steps draw rows m = Ok m') tasks ->
  ((exists es s, rsteps eta (round_start kd ls lo tasks (shared_of m)) es s /\ training_race s) <->
   has_parameter ls /\ exists j rows, 1 <= j /\ nth_error tasks j = Some rows /\ rows <> []).
Proof.
  intros draw eta m ls kd lo n k tasks W HX HOK.
  pose proof (network_holds _ _ _ _ _ _ W) as HM. pose proof (nw_shape _ _ _ _ _ _ W) as HS.
  assert (AL : forall i rows, nth_error tasks i = Some rows -> exists ls' lo',
    alone (shared_of m) (r_task kd ls lo rows) = Ok (ls', lo') /\ map fst (updates 0 ls') = map fst (updates 0 ls)).
  { intros i rows E. apply nth_error_In in E. rewrite Forall_forall in HX, HOK. destruct (HOK _ E) as (m' & EM).
    destruct (steps_net draw kd n k rows m ls lo m' W (HX _ E) EM) as (ls' & lo' & A & B & C).
    exists ls', lo'. rewrite alone_task by exact HM. split; [exact A|]. eapply updates_shape; eauto. }
  split.
  - intros (es & s & R & RC). apply race_inv in RC. destruct RC as (i & l & kk & j & v & us & EI & EM). split.
    + (* no parameters: the main thread never stores *)
      destruct (updates 0 ls) as [|u0 us0] eqn:EU.
      2:{ assert (DEC : forall q : layer T, (knd q = KDense /\ wts q ++ bias q <> []) \/ ~ (knd q = KDense /\ wts q ++ bias q <> [])).
          { intros q. destruct (knd q); [|right; intros (X & _); discriminate].
            destruct (wts q ++ bias q); [right; intros (_ & X); contradiction|left; split; [reflexivity|discriminate]]. }
          assert (G : has_parameter ls \/ ~ has_parameter ls).
          { clear - DEC. unfold has_parameter. induction ls as [|q ls IH]; [right; intros (x & [] & _)|].
            destruct (DEC q) as [D|D]; [left; exists q; split; [now left|exact D]|].
            destruct IH as [(x & A & B)|N]; [left; exists x; split; [now right|exact B]|].
            right. intros (x & [->|HI] & B); [now apply D|]. apply N. eauto. }
          destruct G as [G|G]; [exact G|]. rewrite (no_updates ls 0 n k HS G) in EU. discriminate. }
      exfalso.
      assert (INV : ~ In EStore es /\ match r_main s with MWait _ => True | MTrain _ us => us = [] | MStore _ _ _ _ => False end).
      { clear EI EM. unfold round_start in R. remember (mkRS (map (r_task kd ls lo) tasks) (MWait 0) (shared_of m)) as s0.
        induction R as [s|s1 es s2 e s3 R IH ST]; [subst; cbn; auto|].
        destruct (IH Heqs0) as (N & Q). subst s1.
        inversion ST as [ts mn mem i0 l0 k0 v0 E G|ts mem j0 ls0 lo0 E|ts mem j0 l0 g us0 v0 G|ts mem mem' j0 l0 v0 us0 G|ts mem j0]; subst; cbn [r_main] in *.
        - split; [|exact Q]. intros HI. apply in_app_or in HI. destruct HI as [HI|[HI|[]]]; [auto|discriminate].
        - split; [intros HI; apply in_app_or in HI; destruct HI as [HI|[HI|[]]]; [auto|discriminate]|].
          destruct (round_inv eta _ _ _ _ R) as (_ & A & _).
          { intros a b EE. exfalso. apply N. rewrite EE. apply in_or_app. right. now left. }
          destruct (A j0 _ E) as (p0 & E1 & E2). rewrite nth_error_map in E1.
          destruct (nth_error tasks j0) as [rows|] eqn:ER; [|discriminate]. injection E1 as <-.
          destruct (AL j0 rows ER) as (ls' & lo' & A1 & A2). rewrite A1 in E2. cbn in E2. injection E2 as -> ->.
          now apply map_eq_nil in A2.
        - discriminate.
        - contradiction.
        - split; [|exact I]. intros HI. apply in_app_or in HI. destruct HI as [HI|[HI|[]]]; [auto|discriminate]. }
      destruct INV as (_ & INV). rewrite EM in INV. exact INV.
    + (* tasks after the first without rows read nothing *)
      assert (DEC : forall l : list (list (list T * list T)), (exists j rows, nth_error l j = Some rows /\ rows <> []) \/ Forall (eq []) l).
      { clear. induction l as [|r l IH]; [right; constructor|]. destruct r as [|x r].
        - destruct IH as [(j & rows & A & B)|F]; [left; exists (S j), rows; auto|right; constructor; auto].
        - left. exists 0, (x :: r). split; [reflexivity|discriminate]. }
      destruct (DEC (tl tasks)) as [(j0 & rows & A & B)|F].
      { exists (S j0), rows. split; [lia|]. split; [|exact B]. destruct tasks; [destruct j0; discriminate|exact A]. }
      exfalso.
      assert (INV : (forall i p, nth_error (r_tasks s) (S i) = Some p -> exists a, p = RRet a) /\
        (r_main s = MWait 0 \/ forall p, nth_error (r_tasks s) 0 = Some p -> exists a, p = RRet a)).
      { clear EI EM. unfold round_start in R. remember (mkRS (map (r_task kd ls lo) tasks) (MWait 0) (shared_of m)) as s0.
        induction R as [s|s1 es s2 e s3 R IH ST].
        - subst. cbn [r_tasks r_main]. split; [|now left]. intros i0 p E. rewrite nth_error_map in E.
          destruct (nth_error tasks (S i0)) as [rows|] eqn:ER; [|discriminate]. injection E as <-.
          destruct tasks as [|t0 tasks]; [discriminate|]. cbn in ER. apply nth_error_In in ER. cbn [tl] in F.
          rewrite Forall_forall in F. rewrite <- (F _ ER). unfold r_task. cbn. eauto.
        - destruct (IH Heqs0) as (A & B). clear IH.
          inversion ST as [ts mn mem i0 l0 k0 v0 E G|ts mem j0 ls0 lo0 E|ts mem j0 l0 g us0 v0 G|ts mem mem' j0 l0 v0 us0 G|ts mem j0]; subst; cbn [r_main r_tasks] in *.
          + assert (i0 = 0) as -> by (destruct i0; [reflexivity|destruct (A _ _ E); discriminate]).
            split.
            * intros i1 p E1. apply (A i1). rewrite Base.nth_error_upd in E1. exact E1.
            * destruct B as [B|B]; [now left|]. destruct (B _ E) as (a & X). discriminate.
          + split; [exact A|]. right. destruct j0 as [|j0].
            * intros p E1. assert (X : Some (RRet (ls0, lo0)) = Some p) by (rewrite <- E; exact E1). injection X as <-. eauto.
            * destruct B as [B|B]; [discriminate|exact B].
          + split; [exact A|]. right. destruct B as [B|B]; [discriminate|exact B].
          + split; [exact A|]. right. destruct B as [B|B]; [discriminate|exact B].
          + split; [exact A|]. right. destruct B as [B|B]; [discriminate|exact B]. }
      destruct INV as (A & B). destruct i as [|i].
      * destruct B as [B|B]; [congruence|]. destruct (B _ EI) as (a & X). discriminate.
      * destruct (A _ _ EI) as (a & X). discriminate.
  - intros (HP & j & rows & Hj & EJ & NE).
    destruct (some_updates ls 0 n k HS HP) as (l & u & HU).
    destruct tasks as [|rows0 tasks]; [destruct j; discriminate|]. destruct j as [|j]; [lia|].
    destruct (AL 0 rows0 eq_refl) as (ls0 & lo0 & A0 & U0).
    set (ts := map (r_task kd ls lo) (rows0 :: tasks)).
    destruct (run_alone eta (shared_of m) (MWait 0) 0 (r_task kd ls lo rows0) ts (ls0, lo0) eq_refl A0) as (es1 & R1 & _).
    assert (HU0 : exists g us, updates 0 ls0 = (l, g) :: us).
    { destruct (updates 0 ls0) as [|(l0, g0) us]; destruct (updates 0 ls) as [|(l1, g1) us1]; try discriminate.
      cbn in U0, HU. injection U0 as -> _. injection HU as -> _. eauto. }
    destruct HU0 as (g0 & us & HU0).
    assert (RT : reads (shared_of m) (r_task kd ls lo rows) l).
    { eapply reads_task; eauto. rewrite Forall_forall in HX. apply HX. apply nth_error_In in EJ. exact EJ. }
    assert (GL : exists v, get (shared_of m) l = Ok v).
    { destruct (AL (S j) rows EJ) as (lsj & loj & AJ & _). clear - RT AJ. revert RT AJ. generalize (r_task kd ls lo rows) as p.
      induction p as [a|l' k' IH| |]; cbn [reads alone]; try contradiction.
      intros [->|(v & G & R)] A.
      - destruct (get (shared_of m) l) as [v| |]; [eauto|discriminate|discriminate].
      - rewrite G in A. cbn [bind] in A. eapply IH; eauto. }
    destruct GL as (v & GL).
    set (ts1 := upd ts 0 (RRet (ls0, lo0))) in *.
    assert (R2 : rsteps eta (mkRS ts1 (MWait 0) (shared_of m)) ([EGet] ++ [ELoad])
      (mkRS ts1 (MStore 0 l (nsub v (nmul eta g0)) us) (shared_of m))).
    { eapply rsteps_trans; apply rsteps_one.
      - econstructor. reflexivity.
      - rewrite HU0. econstructor. exact GL. }
    assert (EJ1 : nth_error ts1 (S j) = Some (r_task kd ls lo rows)).
    { cbn. rewrite nth_error_map. cbn in EJ. rewrite EJ. reflexivity. }
    destruct (run_reads (shared_of m) eta (MStore 0 l (nsub v (nmul eta g0)) us) (S j) l _ ts1 EJ1 RT) as (es3 & k3 & R3).
    eexists _, _. split; [eapply rsteps_trans; [exact R1|]; eapply rsteps_trans; [exact R2|exact R3]|].
    exists (Some (S j)), None, l, false, true. split; [discriminate|]. cbn [shared_access r_tasks r_main].
    rewrite Base.nth_error_upd, Nat.eqb_refl.
    assert (LJ : S j < length ts1) by (apply nth_error_Some; congruence). apply Nat.ltb_lt in LJ.
    split; [|auto].
    match goal with |- context [true && (?a <? ?b)] => replace (a <? b) with true by (symmetry; exact LJ) end. reflexivity.
Qed.
End Training.
Print Assumptions c77_training_actual.

(** *** Which rounds of fit have one *)
Definition later_rows (rounds : list (list (list nat))) : Prop :=
  exists b j is, In b rounds /\ 1 <= j /\ nth_error b j = Some is /\ is <> [].

Theorem c77_entry_rounds : forall fuel size bs rounds,
  entry_rounds fuel size bs 0 = Some rounds -> (later_rows rounds <-> 2 <= bs /\ 2 <= size).
Proof.
  intros fuel size bs.
  assert (ONLY : forall fuel i rounds, entry_rounds fuel size bs i = Some rounds -> later_rows rounds -> 2 <= bs /\ i + 2 <= size).
  { clear fuel. induction fuel as [|fuel IH]; intros i rounds E L; cbn [entry_rounds] in E;
      (destruct (Nat.ltb_spec i size); [|injection E as <-; destruct L as (b & j & is & [] & _)]); [discriminate|].
    destruct (entry_rounds fuel size bs (i + min bs (size - i))) as [r|] eqn:ER; [|discriminate]. injection E as <-.
    destruct L as (b & j & is & [<-|HI] & Hj & EN & NE).
    - assert (j < length (map (fun j => [j]) (seq i (min bs (size - i))))) as HL by (apply nth_error_Some; congruence).
      rewrite map_length, seq_length in HL. lia.
    - destruct (IH _ _ ER) as (A & B); [exists b, j, is; auto|]. lia. }
  intros rounds E. split.
  - intros L. destruct (ONLY _ _ _ E L). lia.
  - intros (Hb & Hs). destruct fuel as [|fuel]; cbn [entry_rounds] in E; (destruct (Nat.ltb_spec 0 size); [|lia]); [discriminate|].
    destruct (entry_rounds fuel size bs (0 + min bs (size - 0))) as [r|]; [|discriminate]. injection E as <-.
    exists (map (fun j => [j]) (seq 0 (min bs (size - 0)))), 1, [1]. split; [now left|]. split; [lia|]. split; [|discriminate].
    rewrite nth_error_map, (nth_error_nth' _ 0) by (rewrite seq_length; lia). rewrite seq_nth by lia. reflexivity.
Qed.
Theorem c77_batch_rounds : forall fuel conc size bs rounds,
  batch_rounds fuel conc size bs 0 = Some rounds -> (later_rows rounds <-> 2 <= conc /\ bs < size).
Proof.
  intros fuel conc size bs.
  assert (ONLY : forall fuel i rounds, batch_rounds fuel conc size bs i = Some rounds -> later_rows rounds -> 2 <= conc /\ i + bs < size).
  { clear fuel. induction fuel as [|fuel IH]; intros i rounds E L; cbn [batch_rounds] in E;
      (destruct (Nat.ltb_spec i size); [|injection E as <-; destruct L as (b & j & is & [] & _)]); [discriminate|].
    destruct (batch_rounds fuel conc size bs (i + conc * bs)) as [r|] eqn:ER; [|discriminate]. injection E as <-.
    destruct L as (b & j & is & [<-|HI] & Hj & EN & NE).
    - assert (j < length (map (fun t => seq (i + t * bs) (min bs (size - (i + t * bs)))) (seq 0 conc))) as HL by (apply nth_error_Some; congruence).
      rewrite map_length, seq_length in HL. rewrite nth_error_map, (nth_error_nth' _ 0) in EN by (rewrite seq_length; lia).
      rewrite seq_nth in EN by lia. cbn [option_map plus] in EN. injection EN as <-.
      destruct (min bs (size - (i + j * bs))) eqn:EM; [contradiction NE; reflexivity|]. nia.
    - destruct (IH _ _ ER) as (A & B); [exists b, j, is; auto|]. lia. }
  intros rounds E. split.
  - intros L. destruct (ONLY _ _ _ E L). lia.
  - intros (Hc & Hs). assert (Hb : 1 <= bs).
    { destruct bs as [|bs]; [|lia]. exfalso. revert E. assert (G : forall fuel, batch_rounds fuel conc size 0 0 = None); [|now rewrite G].
      clear fuel ONLY. induction fuel as [|fuel IH]; cbn [batch_rounds]; (destruct (Nat.ltb_spec 0 size); [|lia]); [reflexivity|].
      replace (0 + conc * 0) with 0 by lia. now rewrite IH. }
    destruct fuel as [|fuel]; cbn [batch_rounds] in E; (destruct (Nat.ltb_spec 0 size); [|lia]); [discriminate|].
    destruct (batch_rounds fuel conc size bs (0 + conc * bs)) as [r|]; [|discriminate]. injection E as <-.
    exists (map (fun t => seq (0 + t * bs) (min bs (size - (0 + t * bs)))) (seq 0 conc)), 1, (seq (0 + 1 * bs) (min bs (size - (0 + 1 * bs)))).
    split; [now left|]. split; [lia|]. split.
    + rewrite nth_error_map, (nth_error_nth' _ 0) by (rewrite seq_length; lia). rewrite seq_nth by lia. reflexivity.
    + destruct (min bs (size - (0 + 1 * bs))) eqn:EM; [lia|]. discriminate.
Qed.
Print Assumptions c77_entry_rounds.
Print Assumptions c77_batch_rounds.

(** *** The property is false *)
(** dense_1 on two threads, two outputs and one input. *)
Theorem c77_dense_1_thread_opt_refuted : exists (ig wg bg g last w : list Z) ps m l,
  length ig = 1 /\ length wg = 2 /\ length bg = 2 /\ length g = 2 /\ length last = 1 /\ length w = 2 /\
  csteps (fun a => length (bwd_arrs ig wg bg g last w 1 a)) (dense_1_tasks 1 2, mem_of 0%Z (bwd_arrs ig wg bg g last w 1)) (ps, m) /\
  race_at l ps.
Proof.
  destruct (c77_dense_1_thread_opt_actual Z NumZ 0%Z [5]%Z [0; 0]%Z [0; 0]%Z [2; 3]%Z [7]%Z [1; 4]%Z 1 2) as ((_ & A) & _); cbn; try lia.
  destruct A as (ps & m & l & S & R); [lia|].
  exists [5]%Z, [0; 0]%Z, [0; 0]%Z, [2; 3]%Z, [7]%Z, [1; 4]%Z, ps, m, l. repeat (split; [reflexivity|]). auto.
Qed.
Print Assumptions c77_dense_1_thread_opt_refuted.

#[local] Existing Instance PropModel.exTrans.
#[local] Existing Instance PropModel.exLim.
(** A round of two tasks, one row each: the hypotheses of [c77_training_actual] and a race. *)
Theorem c77_training_refuted : exists (m : model (node Z)) tasks es s,
  gbuild (chain_build 2 ++ loss_build true 2) = Ok (mgraph m) /\
  network m ex_layers (MSE 1%Z) (loss_new 3 1) 2 3 /\
  entry_rounds 2 (ds_size ex_data) 2 0 = Some [[[0]; [1]]] /\ mapM (task_rows ex_data) [[0]; [1]] = Ok tasks /\
  Forall (Forall (fun xt => length (fst xt) = 2)) tasks /\
  Forall (fun rows => exists m', model_steps (fun _ => 0%Z) rows m = Ok m') tasks /\
  rsteps 1%Z (round_start (MSE 1%Z) ex_layers (loss_new 3 1) tasks (shared_of m)) es s /\ training_race s.
Proof.
  pose proof (built (chain_build 2 ++ loss_build true 2) (fun g =>
    match model_steps (fun _ => 0%Z) [([1; 2]%Z, [6; 10; 0]%Z)] (mkModel g ex_nodes),
          model_steps (fun _ => 0%Z) [([2; 1]%Z, [5; 4; 1]%Z)] (mkModel g ex_nodes) with Ok _, Ok _ => True | _, _ => False end)) as HB.
  destruct HB as (g & E & HB); [vm_compute; exact I|].
  destruct ex_network as (m & Em & _ & Nm & W).
  assert (m = mkModel g ex_nodes) as -> by (destruct m as (g', ns); cbn in *; congruence).
  assert (HX : Forall (Forall (fun xt : list Z * list Z => length (fst xt) = 2)) [[([1; 2]%Z, [6; 10; 0]%Z)]; [([2; 1]%Z, [5; 4; 1]%Z)]])
    by (repeat constructor).
  assert (HS : Forall (fun rows => exists m', model_steps (fun _ => 0%Z) rows (mkModel g ex_nodes) = Ok m')
    [[([1; 2]%Z, [6; 10; 0]%Z)]; [([2; 1]%Z, [5; 4; 1]%Z)]]).
  { destruct (model_steps (fun _ => 0%Z) [([1; 2]%Z, [6; 10; 0]%Z)] (mkModel g ex_nodes)) eqn:E1; try contradiction.
    destruct (model_steps (fun _ => 0%Z) [([2; 1]%Z, [5; 4; 1]%Z)] (mkModel g ex_nodes)) eqn:E2; try contradiction.
    constructor; [eauto|]. constructor; [eauto|constructor]. }
  destruct (c77_training_actual (fun _ => 0%Z) 1%Z _ _ _ _ _ _ _ W HX HS) as (_ & A).
  destruct A as (es & s & S & R).
  { split.
    - eexists. split; [left; reflexivity|]. split; [reflexivity|discriminate].
    - exists 1. eexists. split; [lia|]. split; [reflexivity|discriminate]. }
  exists (mkModel g ex_nodes), [[([1; 2]%Z, [6; 10; 0]%Z)]; [([2; 1]%Z, [5; 4; 1]%Z)]], es, s.
  split; [exact Em|]. split; [exact W|]. split; [reflexivity|]. split; [vm_compute; reflexivity|].
  split; [exact HX|]. split; [exact HS|]. split; [exact S|exact R].
Qed.
Print Assumptions c77_training_refuted.

(** The hypotheses of [c77_dense_thread_opt]: two outputs, three inputs, the two tasks in the
    middle of their accesses. *)
Example c77_dense_hypotheses_met :
  let arrs := fwd_arrs [0; 0]%Z [1; 2; 3]%Z [1; 0; 2; 4; 1; 3]%Z [7; 8]%Z in
  exists ps m p q, csteps (fun a => length (arrs a)) (dense_tasks 3 2, mem_of 0%Z arrs) (ps, m) /\
    ps = [p; q] /\ next_access p <> None /\ next_access q <> None /\ m (DST, 0) = 7%Z /\ m (DST, 1) = 8%Z.
Proof.
  intros arrs. set (r := run_sched [0; 1; 1; 0; 0; 1] (dense_tasks 3 2) (mem_of 0%Z arrs)).
  destruct r as ([|p [|q [|p3 ps]]], m) eqn:E; try (exfalso; revert E; unfold r; vm_compute; discriminate).
  exists [p; q], m, p, q. split; [rewrite <- E; apply run_sched_csteps; reflexivity|]. split; [reflexivity|].
  unfold r in E. cbn in E. injection E as <- <- <-. cbn. repeat split; discriminate.
Qed.
