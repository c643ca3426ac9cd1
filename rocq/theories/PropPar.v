(** C40: parallel training. *)
From Verif Require Import Base Num DatasetModel MathModel MathProofs LayerModel LossModel OptModel OptProofs GraphModel GraphProofs ModelModel NodeModel ChainProofs ModelProofs PropGraph PropModel TrainProofs CopyModel PropCopy FitModel ParProofs PropFit.
From Coq Require Import Reals Lra Permutation.
Local Open Scope nat_scope.

(** *** Rounds *)
Lemma entry_rounds_cut size bs : 1 <= bs -> forall fuel i, size - i <= fuel ->
  entry_rounds fuel size bs i = Some (map (map (fun j => [j])) (cut fuel size bs i)).
Proof.
  intros Hb. induction fuel as [|fuel IH]; intros i Hf; cbn [entry_rounds cut].
  - destruct (Nat.ltb_spec i size); [lia|reflexivity].
  - destruct (Nat.ltb_spec i size); [|reflexivity]. rewrite IH by lia. reflexivity.
Qed.
Lemma chunk_seq bs size : forall conc i,
  concat (map (fun t => seq (i + t * bs) (min bs (size - (i + t * bs)))) (seq 0 conc)) = seq i (min (conc * bs) (size - i)).
Proof.
  induction conc as [|conc IH]; intros i; [reflexivity|].
  rewrite seq_S, map_app, concat_app, IH. cbn [map concat plus]. rewrite app_nil_r.
  destruct (Nat.le_gt_cases (conc * bs) (size - i)).
  - replace (min (conc * bs) (size - i)) with (conc * bs) by lia.
    rewrite <- seq_app. f_equal. cbn [Nat.mul]. lia.
  - replace (min bs (size - (i + conc * bs))) with 0 by lia. cbn [seq]. rewrite app_nil_r. f_equal. cbn [Nat.mul]. lia.
Qed.
Lemma batch_rounds_cut size bs conc : 1 <= bs -> 1 <= conc -> forall fuel i, size - i <= fuel ->
  exists r, batch_rounds fuel conc size bs i = Some r /\ map (@concat nat) r = cut fuel size (conc * bs) i /\
    Forall (fun tasks => length tasks = conc) r.
Proof.
  intros Hb Hc. assert (1 <= conc * bs) by nia.
  induction fuel as [|fuel IH]; intros i Hf; cbn [batch_rounds cut].
  - destruct (Nat.ltb_spec i size); [lia|]. exists []. auto.
  - destruct (Nat.ltb_spec i size) as [Hs|Hs]; [|exists []; auto].
    destruct (IH (i + conc * bs)) as (r & E & C & L); [lia|]. rewrite E. eexists. split; [reflexivity|].
    cbn [map]. rewrite chunk_seq. split.
    + f_equal. rewrite C. destruct (Nat.le_gt_cases (conc * bs) (size - i)).
      * f_equal. lia.
      * assert (Z : forall f j, size <= j -> cut f size (conc * bs) j = []).
        { intros [|f] j Hj; [reflexivity|]. cbn [cut]. destruct (Nat.ltb_spec j size); [lia|reflexivity]. }
        rewrite !Z by lia. reflexivity.
    + constructor; [now rewrite map_length, seq_length|exact L].
Qed.

Section Par.
Context {T : Type} `{NumOps T} `{TransOps T} `{LimOps T}.
Variables (g : dlgraph) (kd : losskind T) (lo : lossl T) (n k : nat) (sg : list (kind T * nat * nat)).
Hypothesis HG : graph_copy g = g.
Variables (draw : nat -> T) (eta : T).
Let gm := gm g kd lo n k sg.
Let ref := ref (T := T) n k sg.

Variables (tasks : list (list (list T * list T))) (Dss : list (list (list T))).
Definition task_grad (G : list T) (j : nat) : list T := fold_left vadd (nth j Dss []) G.

Lemma Forall2_nth_error {A B} (R : A -> B -> Prop) l l' j x : Forall2 R l l' -> nth_error l j = Some x ->
  exists y, nth_error l' j = Some y /\ R x y.
Proof.
  intros F. revert j. induction F as [|a b la lb Hab F IH]; intros [|j] E; try discriminate.
  - injection E as <-. exists b. auto.
  - apply IH. exact E.
Qed.

Lemma runs_gm ls sh m G : ref sh ls -> gm sh m G -> Forall2 (Forall2 (adds ls kd lo n k draw)) tasks Dss ->
  forall p ms fin, (forall j, In j p -> j < length tasks) -> nth_error ms 0 = Some m ->
  NoDup (map snd fin) ->
  (forall j c, In (j, c) fin -> 0 < c < length ms /\ exists mc, nth_error ms c = Some mc /\ gm sh mc (task_grad G j)) ->
  exists ms' fin', foldM (par_step draw eta tasks) (map PRun p) (mkWorld sh ms, fin) = Ok (mkWorld sh ms', fin') /\
    nth_error ms' 0 = Some m /\ NoDup (map snd fin') /\ map fst fin' = rev p ++ map fst fin /\
    (forall j c, In (j, c) fin' -> 0 < c < length ms' /\ exists mc, nth_error ms' c = Some mc /\ gm sh mc (task_grad G j)).
Proof.
  intros R Gm HF. induction p as [|j p IH]; intros ms fin Hp Em ND HI.
  - exists ms, fin. cbn. auto 10.
  - assert (Hj : j < length tasks) by (apply Hp; now left).
    destruct (nth_error tasks j) as [rows|] eqn:EJ; [|apply nth_error_None in EJ; lia].
    destruct (Forall2_nth_error _ _ _ _ _ HF EJ) as (Ds & ED & FD).
    destruct (task_gm g kd lo n k sg HG draw ls rows Ds sh ms m G R FD Em Gm) as (m' & E & Gm' & _).
    assert (TG : task_grad G j = fold_left vadd Ds G).
    { unfold task_grad. now rewrite (nth_error_nth _ _ _ ED). }
    assert (L0 : 0 < length ms) by (destruct ms; [discriminate|cbn; lia]).
    destruct (IH (ms ++ [m']) ((j, length ms) :: fin)) as (ms' & fin' & E' & A1 & A2 & A3 & A4).
    + intros i Hi. apply Hp. now right.
    + rewrite nth_error_app1 by lia. exact Em.
    + cbn [map snd]. constructor; [|exact ND]. intros Hin. apply in_map_iff in Hin. destruct Hin as ((j0, c0) & Ec & Hin).
      cbn in Ec. subst c0. apply HI in Hin. lia.
    + intros j0 c0 [E0|Hin].
      * injection E0 as <- <-. rewrite app_length. cbn [length]. split; [lia|]. exists m'.
        rewrite nth_error_app2, Nat.sub_diag by lia. split; [reflexivity|]. rewrite TG. exact Gm'.
      * destruct (HI j0 c0 Hin) as (Hc & mc & Emc & Gmc). rewrite app_length. split; [lia|]. exists mc.
        rewrite nth_error_app1 by lia. auto.
    + exists ms', fin'. split; [|split; [exact A1|split; [exact A2|split; [|exact A4]]]].
      * cbn [map foldM]. unfold par_step at 1. unfold rd. rewrite EJ. cbn [bind]. rewrite E. cbn [bind]. exact E'.
      * rewrite A3. cbn [map fst rev]. rewrite <- app_assoc. reflexivity.
Qed.

Lemma find_fin (fin : list (nat * nat)) j c : NoDup (map fst fin) -> In (j, c) fin ->
  find (fun jc => fst jc =? j) fin = Some (j, c).
Proof.
  induction fin as [|(a, b) fin IH]; intros ND HI; [destruct HI|]. cbn [find fst].
  inversion ND as [|? ? Hn ND']; subst. destruct HI as [E|HI].
  - injection E as -> ->. now rewrite Nat.eqb_refl.
  - destruct (Nat.eqb_spec a j) as [->|]; [|auto]. exfalso. apply Hn. apply in_map_iff. exists (j, c). auto.
Qed.
Lemma snd_inj (fin : list (nat * nat)) j j' c : NoDup (map snd fin) -> In (j, c) fin -> In (j', c) fin -> j = j'.
Proof.
  induction fin as [|(a, b) fin IH]; intros ND H2 H3; [destruct H2|].
  inversion ND as [|? ? Hn ND']; subst. cbn [snd] in Hn.
  destruct H2 as [E|H2], H3 as [E'|H3].
  - congruence.
  - injection E as -> ->. exfalso. apply Hn. apply in_map_iff. exists (j', c). auto.
  - injection E' as -> ->. exfalso. apply Hn. apply in_map_iff. exists (j, c). auto.
  - auto.
Qed.

Lemma trains_gm G m fin : NoDup (map fst fin) -> NoDup (map snd fin) ->
  forall js sh ms ls, ref sh ls -> NoDup js -> nth_error ms 0 = Some m ->
  (forall j, In j js -> exists c mc, In (j, c) fin /\ c <> 0 /\ nth_error ms c = Some mc /\ gm sh mc (task_grad G j)) ->
  exists sh' ms' ls', foldM (par_step draw eta tasks) (map PTrain js) (mkWorld sh ms, fin) = Ok (mkWorld sh' ms', fin) /\
    ref sh' ls' /\ PV ls' = fold_left (moved eta) (map (task_grad G) js) (PV ls) /\ map av ls' = map av ls /\
    nth_error ms' 0 = Some m /\ length sh' = length sh.
Proof.
  intros ND1 ND2. induction js as [|j js IH]; intros sh ms ls R NDj Em HI.
  - exists sh, ms, ls. cbn. auto 10.
  - destruct (HI j (or_introl eq_refl)) as (c & mc & Hin & Hc & Emc & Gmc).
    destruct (train_gm g kd lo n k sg draw eta sh ms c mc _ ls R Emc Gmc)
      as (sh1 & m1 & ls1 & E1 & R1 & P1 & A1 & _ & L1 & _).
    assert (Lc : c < length ms) by (apply nth_error_Some; congruence).
    inversion NDj as [|? ? Hnj NDj']; subst.
    destruct (IH sh1 (upd ms c m1) ls1 R1 NDj') as (sh2 & ms2 & ls2 & E2 & R2 & P2 & A2 & M2 & L2).
    + rewrite nth_error_upd by exact Lc. destruct (Nat.eqb_spec 0 c); [congruence|exact Em].
    + intros j' Hj'. destruct (HI j' (or_intror Hj')) as (c' & mc' & Hin' & Hc' & Emc' & Gmc').
      exists c', mc'. split; [exact Hin'|]. split; [exact Hc'|]. split.
      * rewrite nth_error_upd by exact Lc. destruct (Nat.eqb_spec c' c) as [->|]; [|exact Emc'].
        exfalso. assert (j = j') by (eapply snd_inj; eauto). congruence.
      * eapply gm_shared; eauto.
    + exists sh2, ms2, ls2. cbn [map foldM]. unfold par_step at 1. rewrite (find_fin fin j c ND1 Hin), E1. cbn [bind].
      split; [exact E2|]. split; [exact R2|]. cbn [fold_left]. rewrite <- P1.
      split; [exact P2|]. split; [congruence|]. split; [exact M2|congruence].
Qed.

(** One round whose tasks all finish before the first training. *)
Lemma barrier_round ls sh ms m G p : ref sh ls -> gm sh m G -> nth_error ms 0 = Some m ->
  Forall2 (Forall2 (adds ls kd lo n k draw)) tasks Dss -> Permutation p (seq 0 (length tasks)) ->
  exists sh' ms' ls', par_batch draw eta tasks (barrier p) (mkWorld sh ms) = Ok (mkWorld sh' ms') /\
    ref sh' ls' /\ PV ls' = fold_left (moved eta) (map (task_grad G) (seq 0 (length tasks))) (PV ls) /\
    map av ls' = map av ls /\ nth_error ms' 0 = Some m /\ gm sh' m G.
Proof.
  intros R Gm Em HF HP.
  assert (NDp : NoDup p) by (eapply Permutation_NoDup; [apply Permutation_sym, HP|apply seq_NoDup]).
  assert (Lp : length p = length tasks) by (rewrite (Permutation_length HP); apply seq_length).
  destruct (runs_gm ls sh m G R Gm HF p ms []) as (ms1 & fin & E1 & M1 & N1 & F1 & Q1).
  - intros j Hj. apply (Permutation_in j HP) in Hj. apply in_seq in Hj. lia.
  - exact Em.
  - constructor.
  - intros j c [].
  - cbn [map] in F1. rewrite app_nil_r in F1.
    destruct (trains_gm G m fin) with (js := seq 0 (length tasks)) (sh := sh) (ms := ms1) (ls := ls)
      as (sh2 & ms2 & ls2 & E2 & R2 & P2 & A2 & M2 & L2); auto.
    + rewrite F1. now apply NoDup_rev.
    + apply seq_NoDup.
    + intros j Hj.
      assert (Hin : In j (map fst fin)).
      { rewrite F1. apply -> in_rev. eapply Permutation_in; [apply Permutation_sym, HP|exact Hj]. }
      apply in_map_iff in Hin. destruct Hin as ((j0, c) & Ej & Hin). cbn in Ej. subst j0.
      destruct (Q1 j c Hin) as (Hc & mc & Emc & Gmc). exists c, mc. split; [exact Hin|]. split; [lia|]. auto.
    + exists sh2, ms2, ls2. unfold par_batch, barrier. rewrite foldM_app, E1. cbn [bind]. rewrite Lp, E2. cbn [bind].
      split; [reflexivity|]. split; [exact R2|]. split; [exact P2|]. split; [exact A2|]. split; [exact M2|].
      eapply gm_shared; eauto.
Qed.

(** The same rows one after the other. *)
Lemma sequential_round ls sh ms m G : ref sh ls -> gm sh m G -> nth_error ms 0 = Some m ->
  Forall2 (Forall2 (adds ls kd lo n k draw)) tasks Dss ->
  exists sh' ms' ls' m', wsteps draw (map (fun xt => WStep 0 (fst xt) (snd xt)) (concat tasks) ++ [WTrain eta 0]) (mkWorld sh ms)
      = Ok (mkWorld sh' ms') /\
    ref sh' ls' /\ PV ls' = moved eta (PV ls) (fold_left vadd (concat Dss) G) /\ map av ls' = map av ls /\
    nth_error ms' 0 = Some m' /\ gm sh' m' (repeat n0 (length G)) /\
    length G = length (PV ls) /\ Forall (fun D => length D = length G) (concat Dss).
Proof.
  intros R Gm Em HF.
  assert (HC : Forall2 (adds ls kd lo n k draw) (concat tasks) (concat Dss)).
  { clear - HF. induction HF as [|a b la lb Hab F IH]; [constructor|]. cbn [concat]. now apply Forall2_app. }
  destruct (steps_gm g kd lo n k sg draw ls 0 (concat tasks) (concat Dss) sh ms m G R HC Em Gm) as (m1 & E1 & G1 & FD).
  assert (L0 : 0 < length ms) by (destruct ms; [discriminate|cbn; lia]).
  destruct (train_gm g kd lo n k sg draw eta sh (upd ms 0 m1) 0 m1 (fold_left vadd (concat Dss) G) ls R) as (sh2 & m2 & ls2 & E2 & R2 & P2 & A2 & G2 & L2 & LG).
  { rewrite nth_error_upd, Nat.eqb_refl by exact L0. reflexivity. }
  { exact G1. }
  assert (LF : length (fold_left vadd (concat Dss) G) = length G).
  { clear. revert G. induction (concat Dss) as [|D Ds IH]; intros G; [reflexivity|]. cbn [fold_left]. now rewrite IH, vadd_length. }
  exists sh2, (upd (upd ms 0 m1) 0 m2), ls2, m2. unfold wsteps in *. rewrite foldM_app, E1. cbn [bind foldM]. rewrite E2. cbn [bind].
  split; [reflexivity|]. split; [exact R2|]. split; [exact P2|]. split; [exact A2|].
  split; [rewrite nth_error_upd, Nat.eqb_refl by (rewrite upd_length; exact L0); reflexivity|].
  rewrite LF in *. auto.
Qed.

(** A sequence of steps that succeeds has per-row gradients. *)
Lemma adds_ref ls ls' lo' xt D : Forall2 same_params ls ls' -> same_loss lo lo' ->
  adds ls' kd lo' n k draw xt D -> adds ls kd lo n k draw xt D.
Proof.
  intros P S (Hx & A). split; [exact Hx|]. intros m2 ls2 lo2 W2 P2 S2.
  apply (A m2 ls2 lo2 W2).
  - eapply all_same_trans; [|exact P2]. clear - P. induction P as [|a b la lb (A & B & C & D) P IH]; constructor; auto.
    repeat split; congruence.
  - destruct S as (A1 & A2 & A3), S2 as (B1 & B2 & B3). repeat split; congruence.
Qed.
Lemma steps_adds ls : forall rows sh ms m G w, ref sh ls -> gm sh m G -> nth_error ms 0 = Some m ->
  Forall (fun xt => length (fst xt) = n) rows ->
  wsteps draw (map (fun xt => WStep 0 (fst xt) (snd xt)) rows) (mkWorld sh ms) = Ok w ->
  exists Ds, Forall2 (adds ls kd lo n k draw) rows Ds.
Proof.
  intros rows. induction rows as [|xt rows IH]; intros sh ms m G w R Gm Em HS E; [exists []; constructor|].
  assert (HS' : length (fst xt) = n /\ Forall (fun xt => length (fst xt) = n) rows) by (inversion HS; auto).
  destruct HS' as (Hx & HS').
  unfold wsteps in *. cbn [map foldM] in E. cbn [wstep] in E. unfold on_copy, rd, wr in E. cbn [w_models w_shared] in E.
  rewrite Em in E. cbn [bind] in E.
  destruct (m_step (node_ops draw) (view sh m) (fst xt) (snd xt)) as [m1| |] eqn:E1; try discriminate. cbn [bind] in E.
  assert (L0 : 0 < length ms) by (destruct ms; [discriminate|cbn; lia]).
  pose proof L0 as L0'. apply Nat.ltb_lt in L0'. rewrite L0' in E. cbn [bind] in E.
  pose proof Gm as (Eg & EL & l2 & lo2 & W & R2 & SL & EG).
  destruct (step_adds draw _ l2 kd lo2 n k _ _ _ W Hx E1) as (D & A).
  apply (adds_ref ls) in A; [|eapply ref_same; eauto|exact SL]. destruct xt as (x, t). cbn [fst snd] in *.
  destruct (step_gm g kd lo n k sg draw ls (x, t) D sh m G R A Gm) as (m1' & E1' & ES & Gm1 & LD).
  cbn [fst snd] in E1'. rewrite E1 in E1'. injection E1' as <-.
  rewrite ES in E.
  destruct (IH sh (upd ms 0 m1) m1 (vadd G D) w R Gm1) as (Ds & F); auto.
  { rewrite nth_error_upd, Nat.eqb_refl by exact L0. reflexivity. }
  exists (D :: Ds). constructor; auto.
Qed.
End Par.

(** *** The sequential run, as gradients *)
Section Seq.
Context {T : Type} `{NumOps T} `{TransOps T} `{LimOps T}.
Variables (g : dlgraph) (kd : losskind T) (lo : lossl T) (n k : nat) (sg : list (kind T * nat * nat)).
Variables (draw : nat -> T) (eta : T) (d : dataset T).
Let run := foldM (exec (row_step draw d) m_reset_score (m_train eta)).

Lemma seq_steps ls : forall b sh m G m', ref n k sg sh ls -> gm g kd lo n k sg sh m G -> shared_of m = sh ->
  (forall i x, In i b -> ds_input n0 d i = Ok x -> length x = n) ->
  run (map EStep b) m = Ok m' ->
  exists rows Ds, task_rows d b = Ok rows /\ Forall2 (adds ls kd lo n k draw) rows Ds /\
    gm g kd lo n k sg sh m' (fold_left vadd Ds G) /\ shared_of m' = sh.
Proof.
  induction b as [|i b IH]; intros sh m G m' R Gm ES Hx E.
  - injection E as <-. exists [], []. split; [reflexivity|]. split; [constructor|]. split; [exact Gm|exact ES].
  - unfold run in *. cbn [map foldM exec] in E. unfold row_step in E at 1.
    destruct (ds_input n0 d i) as [x| |] eqn:E1; try discriminate. cbn [bind] in E.
    destruct (ds_label n0 d i) as [t| |] eqn:E2; try discriminate. cbn [bind] in E.
    destruct (m_step (node_ops draw) m x t) as [m1| |] eqn:E3; try discriminate. cbn [bind] in E.
    assert (Lx : length x = n) by (apply (Hx i); [now left|exact E1]).
    pose proof Gm as (Eg & EL & l2 & lo2 & W & R2 & SL & EG). rewrite <- ES, view_shared in W.
    destruct (step_adds draw _ l2 kd lo2 n k _ _ _ W Lx E3) as (D & A).
    apply (adds_ref kd lo n k draw ls) in A; [|eapply ref_same; eauto|exact SL].
    destruct (step_gm g kd lo n k sg draw ls (x, t) D sh m G R A Gm) as (m1' & E1' & ES1 & Gm1 & LD).
    rewrite <- ES, view_shared in E1'. cbn [fst snd] in E1'. rewrite E3 in E1'. injection E1' as <-.
    destruct (IH sh m1 (vadd G D) m' R Gm1 ES1) as (rows & Ds & F1 & F2 & F3 & F4); auto.
    { intros i' x' Hi'. apply Hx. now right. }
    exists ((x, t) :: rows), (D :: Ds). unfold task_rows in *. cbn [mapM]. rewrite E1. cbn [bind]. rewrite E2. cbn [bind].
    rewrite F1. cbn [bind]. split; [reflexivity|]. split; [constructor; auto|]. split; [exact F3|exact F4].
Qed.

Lemma seq_train ls sh m G m' : ref n k sg sh ls -> gm g kd lo n k sg sh m G -> shared_of m = sh ->
  m_train eta m = Ok m' ->
  exists ls', ref n k sg (shared_of m') ls' /\ PV ls' = moved eta (PV ls) G /\ map av ls' = map av ls /\
    gm g kd lo n k sg (shared_of m') m' (repeat n0 (length G)) /\ length G = length (PV ls).
Proof.
  intros R Gm ES E.
  destruct (train_gm g kd lo n k sg draw eta sh [m] 0 m G ls R eq_refl Gm) as (sh1 & m1 & ls1 & E1 & R1 & P1 & A1 & G1 & L1 & LG).
  cbn [wstep] in E1. unfold on_copy, rd, wr in E1. cbn [w_models w_shared nth_error bind] in E1.
  rewrite <- ES, view_shared in E1. rewrite E in E1. cbn [bind] in E1. cbn in E1. injection E1 as <- <-.
  exists ls1. auto.
Qed.

Lemma mapM_concat {A B} (f : A -> res B) : forall b rows, mapM f (concat b) = Ok rows ->
  exists tasks, mapM (mapM f) b = Ok tasks /\ concat tasks = rows.
Proof.
  induction b as [|l b IH]; intros rows E; [injection E as <-; exists []; auto|]. cbn [concat] in E.
  assert (AP : forall l1 l2 r, mapM f (l1 ++ l2) = Ok r -> exists r1 r2, mapM f l1 = Ok r1 /\ mapM f l2 = Ok r2 /\ r = r1 ++ r2).
  { clear. induction l1 as [|a l1 IH]; intros l2 r E; [exists [], r; auto|]. cbn [app mapM] in E.
    destruct (f a) as [y| |] eqn:Ea; try discriminate. cbn [bind] in E.
    destruct (mapM f (l1 ++ l2)) as [r'| |] eqn:Er; try discriminate. cbn [bind] in E. injection E as <-.
    destruct (IH _ _ Er) as (r1 & r2 & A1 & A2 & ->). exists (y :: r1), r2. cbn [mapM]. rewrite Ea. cbn [bind]. rewrite A1. auto. }
  destruct (AP _ _ _ E) as (r1 & r2 & E1 & E2 & ->). destruct (IH _ E2) as (ts & E3 & <-).
  exists (r1 :: ts). cbn [mapM]. rewrite E1. cbn [bind]. rewrite E3. auto.
Qed.
Lemma Forall2_concat {A B} (R : A -> B -> Prop) : forall tasks Ds, Forall2 R (concat tasks) Ds ->
  exists Dss, concat Dss = Ds /\ Forall2 (Forall2 R) tasks Dss.
Proof.
  induction tasks as [|t tasks IH]; intros Ds F; [inversion F; exists []; auto|]. cbn [concat] in F.
  apply Forall2_app_inv_l in F. destruct F as (D1 & D2 & F1 & F2 & ->). destruct (IH _ F2) as (Dss & <- & F3).
  exists (D1 :: Dss). split; [reflexivity|]. now constructor.
Qed.
End Seq.

(** *** Sums, over the reals *)
Local Open Scope R_scope.
Definition at_sum (i : nat) (Gs : list (list R)) : R := fold_right (fun G s => nth i G 0 + s) 0 Gs.
Lemma at_sum_app i a b : at_sum i (a ++ b) = at_sum i a + at_sum i b.
Proof. unfold at_sum. induction a as [|x a IH]; cbn [app fold_right]; [lra|]. rewrite IH. lra. Qed.
Lemma vadd_sum i : forall Ds G, (i < length G)%nat -> nth i (fold_left vadd Ds G) 0 = nth i G 0 + at_sum i Ds.
Proof.
  induction Ds as [|D Ds IH]; intros G L; cbn [fold_left at_sum fold_right]; [lra|].
  rewrite IH by (rewrite vadd_length; exact L). unfold vadd. rewrite nth_tab by exact L. unfold at_sum. cbn. lra.
Qed.
Lemma fold_vadd_length : forall (Ds : list (list R)) G, length (fold_left vadd Ds G) = length G.
Proof. induction Ds as [|D Ds IH]; intros G; [reflexivity|]. cbn [fold_left]. now rewrite IH, vadd_length. Qed.
Lemma moved_length (eta : R) p G : length (moved eta p G) = length p.
Proof. apply tab_length. Qed.
Lemma moved_sum (eta : R) i : forall Gs P, (i < length P)%nat ->
  nth i (fold_left (moved eta) Gs P) 0 = nth i P 0 - eta * at_sum i Gs.
Proof.
  induction Gs as [|G Gs IH]; intros P L; cbn [fold_left at_sum fold_right]; [lra|].
  rewrite IH by (rewrite moved_length; exact L). unfold moved. rewrite nth_tab by exact L. unfold at_sum. cbn. lra.
Qed.
Lemma fold_moved_length (eta : R) : forall Gs P, length (fold_left (moved eta) Gs P) = length P.
Proof. induction Gs as [|G Gs IH]; intros P; [reflexivity|]. cbn [fold_left]. now rewrite IH, moved_length. Qed.
Lemma task_sums (eta : R) (P : list R) Dss :
  fold_left (moved eta) (map (task_grad Dss (repeat 0 (length P))) (seq 0 (length Dss))) P
  = moved eta P (fold_left vadd (concat Dss) (repeat 0 (length P))).
Proof.
  apply (list_ext_nth 0).
  - now rewrite fold_moved_length, moved_length.
  - intros i Hi. rewrite fold_moved_length in Hi. rewrite moved_sum by exact Hi.
    unfold moved. rewrite nth_tab by exact Hi. cbn [n0 nsub nmul NumR].
    rewrite vadd_sum by (rewrite repeat_length; exact Hi).
    replace (nth i (repeat 0 (length P)) 0) with 0 by (symmetry; apply nth_repeat).
    rewrite Rplus_0_l. f_equal. f_equal.
    assert (E : map (task_grad Dss (repeat 0 (length P))) (seq 0 (length Dss))
                = map (fun Ds => fold_left vadd Ds (repeat 0 (length P))) Dss).
    { unfold task_grad. rewrite <- (map_map (fun j => nth j Dss []) (fun Ds => fold_left vadd Ds (repeat 0 (length P)))).
      f_equal. clear. induction Dss as [|D Dss IH]; [reflexivity|]. cbn [length seq map nth]. f_equal.
      rewrite <- seq_shift, map_map. exact IH. }
    rewrite E. clear E. induction Dss as [|Ds Dss IH]; [reflexivity|]. cbn [map concat]. rewrite at_sum_app.
    cbn [at_sum fold_right]. unfold at_sum in *. rewrite IH. f_equal.
    rewrite vadd_sum by (rewrite repeat_length; exact Hi). rewrite nth_repeat. unfold at_sum. lra.
Qed.
Local Close Scope R_scope.

(** *** C40 *)
Definition in_order (p : list nat) (tasks : list (list nat)) : Prop := Permutation p (seq 0 (length tasks)).
Definition no_gradient (l : layer R) : Prop := Forall (eq 0%R) (wgrad l ++ bgrad l).

Lemma mapM_len {A B} (f : A -> res B) l r : mapM f l = Ok r -> length r = length l.
Proof. intros E. now apply mapM_length in E. Qed.

Lemma rounds_equal g kd lo n k sg draw eta (d : dataset R) : graph_copy g = g ->
  (forall i x, i < ds_size d -> ds_input n0 d i = Ok x -> length x = n) ->
  forall (rounds : list (list (list nat) * list nat)) sh ls ms mp m m',
  Forall (fun r => in_order (snd r) (fst r) /\ forall i, In i (concat (fst r)) -> i < ds_size d) rounds ->
  ref n k sg sh ls -> nth_error ms 0 = Some mp ->
  gm g kd lo n k sg sh mp (repeat 0%R (length (PV ls))) ->
  gm g kd lo n k sg sh m (repeat 0%R (length (PV ls))) -> shared_of m = sh ->
  foldM (exec (row_step draw d) m_reset_score (m_train eta)) (flat_map (fun r => batch_calls (concat (fst r))) rounds) m = Ok m' ->
  exists ms', par_fit draw eta d (map (fun r => (fst r, barrier (snd r))) rounds) (mkWorld sh ms) = Ok (mkWorld (shared_of m') ms').
Proof.
  intros HG Hx. induction rounds as [|(b, p) rounds IH]; intros sh ls ms mp m m' HO R Em Gp Gm ES E.
  - injection E as <-. exists ms. rewrite ES. reflexivity.
  - apply Forall_cons_iff in HO. destruct HO as ((Hp & Hb) & HO'). cbn [fst snd] in Hp, Hb. cbn [flat_map fst] in E. rewrite foldM_app in E. unfold batch_calls at 1 in E.
    cbn [app foldM exec] in E.
    destruct (reset_gm g kd lo n k sg sh m _ Gm) as (m1 & E1 & ES1 & G1). rewrite <- ES, view_shared in E1.
    rewrite E1 in E. cbn [bind] in E. rewrite foldM_app in E.
    match type of E with context [foldM ?f (map EStep (concat b)) m1] => destruct (foldM f (map EStep (concat b)) m1) as [m2| |] eqn:E2 end;
      try discriminate. cbn [bind foldM exec] in E.
    destruct (seq_steps g kd lo n k sg draw eta d ls (concat b) sh m1 _ m2 R G1 ES1) as (rows & Ds & F1 & F2 & G2 & ES2); auto.
    { intros i x Hi. apply Hx. now apply Hb. }
    destruct (m_train eta m2) as [m3| |] eqn:E3; try discriminate. cbn [bind] in E.
    destruct (seq_train g kd lo n k sg draw eta ls sh m2 _ m3 R G2 ES2 E3) as (ls3 & R3 & P3 & A3 & G3 & L3).
    unfold task_rows in F1. apply mapM_concat in F1. destruct F1 as (tasks & T1 & <-).
    apply Forall2_concat in F2. destruct F2 as (Dss & <- & F2).
    assert (LT : length tasks = length b) by (apply mapM_len in T1; exact T1).
    assert (LD : length Dss = length tasks) by (symmetry; clear - F2; induction F2; cbn; congruence).
    destruct (reset_gm g kd lo n k sg sh mp _ Gp) as (mp1 & EP1 & ESP1 & GP1).
    assert (L0 : 0 < length ms) by (destruct ms; [discriminate|cbn; lia]). pose proof L0 as L0'. apply Nat.ltb_lt in L0'.
    destruct (barrier_round g kd lo n k sg HG draw eta tasks Dss ls sh (upd ms 0 mp1) mp1 _ p R GP1)
      as (sh' & ms' & ls' & E4 & R4 & P4 & A4 & M4 & G4).
    { rewrite nth_error_upd, Nat.eqb_refl by exact L0. reflexivity. }
    { exact F2. }
    { rewrite LT. exact Hp. }
    assert (EP : PV ls' = PV ls3).
    { rewrite P4, P3, <- LD. apply task_sums. }
    assert (ESH : sh' = shared_of m3).
    { destruct R3 as (-> & S3 & B3), R4 as (-> & S4 & B4). f_equal.
      apply (recon ls3 ls' n k); auto; congruence. }
    subst sh'.
    assert (LP : length (PV ls') = length (PV ls)) by (rewrite P4; apply fold_moved_length).
    rewrite fold_vadd_length, repeat_length in G3.
    destruct (IH (shared_of m3) ls' ms' mp1 m3 m' HO' R4 M4) as (ms'' & E5).
    + rewrite LP. exact G4.
    + rewrite LP. exact G3.
    + reflexivity.
    + exact E.
    + exists ms''. unfold par_fit in *. cbn [map foldM fst snd]. cbn [wstep]. unfold on_copy, rd, wr.
      cbn [w_models w_shared]. rewrite Em. cbn [bind]. rewrite EP1. cbn [bind]. rewrite L0'. cbn [bind]. rewrite ESP1.
      change (mapM (task_rows d) b = Ok tasks) in T1. rewrite T1. cbn [bind]. rewrite E4. cbn [bind]. exact E5.
Qed.

Lemma no_gradient_gv (ls : list (layer R)) : forall n k, nshape ls n k -> Forall no_gradient ls ->
  GV ls = repeat 0%R (length (PV ls)).
Proof.
  induction ls as [|l ls IH]; intros n k S F; [reflexivity|]. destruct S as (j & HL & S). inversion F as [|? ? F1 F2]; subst.
  unfold PV, GV in *. cbn [flat_map]. rewrite app_length, repeat_app, (IH j k S F2). f_equal.
  destruct HL as (_ & _ & _ & HL). unfold pvec, gvec, no_gradient in *. destruct (knd l); [|reflexivity].
  assert (L : length (wts l ++ bias l) = length (wgrad l ++ bgrad l)) by (rewrite !app_length; lia).
  rewrite L. clear - F1. induction F1 as [|a v <- F1 IH]; [reflexivity|]. cbn [length repeat]. now rewrite <- IH.
Qed.

Section C40.
Variables (draw : nat -> R) (eta : R) (d : dataset R) (gops : list gop) (m : model (node R)) (ls : list (layer R))
  (kd : losskind R) (lo : lossl R) (n k : nat).

(** A freshly built network, no gradient accumulated yet, and data that fits it. *)
Record ready : Prop := {
  rd_built : gbuild gops = Ok (mgraph m);
  rd_net : network m ls kd lo n k;
  rd_zero : Forall no_gradient ls;
  rd_rows : forall i x, i < ds_size d -> ds_input n0 d i = Ok x -> length x = n }.

Lemma ready_rounds (HR : ready) rounds bs fuel epochs m' orders :
  1 <= bs -> ds_size d <= fuel -> map (@concat nat) rounds = cut fuel (ds_size d) bs 0 ->
  fit_sequential draw eta d fuel epochs bs m = Some (Ok m') ->
  Forall2 in_order orders (concat (repeat rounds epochs)) ->
  exists w, par_fit draw eta d (combine (concat (repeat rounds epochs)) (map barrier orders)) (world_of m) = Ok w /\
    w_shared w = shared_of m'.
Proof.
  intros Hb Hf HC E HO. destruct HR as [HB W HZ Hx].
  assert (HG : graph_copy (mgraph m) = mgraph m).
  { eapply c38_same_graph; [exact HB|]. apply (is_chain_roles true (length ls)); apply W. }
  assert (Gm : gm (mgraph m) kd lo n k (map sig ls) (shared_of m) m (repeat 0%R (length (PV ls)))).
  { split; [reflexivity|]. split; [unfold shared_of; now rewrite map_length|].
    exists ls, lo. rewrite view_shared. split; [exact W|]. split; [|split].
    - split; [apply (network_shared _ _ _ _ _ _ W)|]. split; [apply (nw_shape _ _ _ _ _ _ W)|reflexivity].
    - apply same_loss_refl.
    - eapply no_gradient_gv; [apply (nw_shape _ _ _ _ _ _ W)|exact HZ]. }
  unfold fit_sequential in E.
  assert (EE : foldM (exec (row_step draw d) m_reset_score (m_train eta))
      (flat_map (fun r => batch_calls (concat r)) (concat (repeat rounds epochs))) m = Ok m').
  { revert E. clear - Hb Hf HC. revert m. induction epochs as [|e IH]; intros m0 E.
    - injection E as <-. reflexivity.
    - cbn [fit_run] in E. rewrite epoch_spec in E by lia.
      cbn [repeat concat]. rewrite flat_map_app, foldM_app.
      assert (E0 : flat_map (fun r => batch_calls (concat r)) rounds = flat_map batch_calls (cut fuel (ds_size d) bs 0)).
      { rewrite <- HC, !flat_map_concat_map, map_map. reflexivity. }
      rewrite E0.
      destruct (foldM _ (flat_map batch_calls (cut fuel (ds_size d) bs 0)) m0) as [m1| |]; try discriminate. cbn [bind]. now apply IH. }
  destruct (rounds_equal (mgraph m) kd lo n k (map sig ls) draw eta d HG Hx (combine (concat (repeat rounds epochs)) orders)
    (shared_of m) ls [m] m m m') as (ms' & E'); auto.
  - assert (HI : Forall (fun r => forall i, In i (concat r) -> i < ds_size d) (concat (repeat rounds epochs))).
    { apply Forall_forall. intros r Hr i Hi. apply in_concat in Hr. destruct Hr as (rs & Hr1 & Hr2).
      apply repeat_spec in Hr1. subst rs.
      assert (HI : In i (concat (map (@concat nat) rounds))).
      { apply in_concat. exists (concat r). split; [|exact Hi]. now apply in_map. }
      rewrite HC in HI. destruct (cut_spec (ds_size d) bs Hb fuel 0) as (A & _ & _); [lia|lia|].
      rewrite A in HI. apply in_seq in HI. lia. }
    clear - HO HI. induction HO as [|o r lo' lr H HO IH]; constructor; inversion HI; auto.
  - split; [apply (network_shared _ _ _ _ _ _ W)|]. split; [apply (nw_shape _ _ _ _ _ _ W)|reflexivity].
  - rewrite <- EE. f_equal. clear - HO. induction HO as [|o r lo' lr H HO IH]; [reflexivity|]. cbn [combine flat_map fst]. now rewrite IH.
  - exists (mkWorld (shared_of m') ms'). split; [|reflexivity]. rewrite <- E'. f_equal.
    clear - HO. induction HO as [|o r lo' lr H HO IH]; [reflexivity|]. cbn [combine map fst snd]. now rewrite IH.
Qed.

(** If in every round all tasks finish, in any order, before the first training, then both
    variants leave the parameters that the sequential one leaves. *)
Theorem c40_entry_partial : ready -> forall bs fuel epochs m',
  1 <= bs -> ds_size d <= fuel ->
  fit_sequential draw eta d fuel epochs bs m = Some (Ok m') ->
  exists rounds, entry_rounds fuel (ds_size d) bs 0 = Some rounds /\
  forall orders, Forall2 in_order orders (concat (repeat rounds epochs)) ->
  exists w, par_fit draw eta d (combine (concat (repeat rounds epochs)) (map barrier orders)) (world_of m) = Ok w /\
    w_shared w = shared_of m'.
Proof.
  intros HR bs fuel epochs m' Hb Hf E. rewrite entry_rounds_cut by lia. eexists. split; [reflexivity|].
  intros orders HO. eapply ready_rounds; eauto. rewrite map_map. rewrite <- (map_id (cut _ _ _ _)) at 2.
  apply map_ext. intros b. induction b as [|i b IH]; [reflexivity|]. cbn [map concat app]. now rewrite IH.
Qed.
Theorem c40_batch_partial : ready -> forall bs conc fuel epochs m',
  1 <= bs -> 1 <= conc -> ds_size d <= fuel ->
  fit_sequential draw eta d fuel epochs (conc * bs) m = Some (Ok m') ->
  exists rounds, batch_rounds fuel conc (ds_size d) bs 0 = Some rounds /\
  forall orders, Forall2 in_order orders (concat (repeat rounds epochs)) ->
  exists w, par_fit draw eta d (combine (concat (repeat rounds epochs)) (map barrier orders)) (world_of m) = Ok w /\
    w_shared w = shared_of m'.
Proof.
  intros HR bs conc fuel epochs m' Hb Hc Hf E.
  destruct (batch_rounds_cut (ds_size d) bs conc Hb Hc fuel 0) as (rounds & E1 & E2 & _); [lia|].
  exists rounds. split; [exact E1|]. intros orders HO.
  apply (ready_rounds HR rounds (conc * bs) fuel); auto. clear - Hb Hc. nia.
Qed.
End C40.
Print Assumptions c40_entry_partial.
Print Assumptions c40_batch_partial.

(** A schedule: every task runs once, the results are used in order, each after its task
    has run. *)
Definition schedule (t : nat) (evs : list pev) : Prop :=
  Permutation evs (map PRun (seq 0 t) ++ map PTrain (seq 0 t)) /\
  filter (fun e => match e with PTrain _ => true | _ => false end) evs = map PTrain (seq 0 t) /\
  forall j a b, evs = a ++ PTrain j :: b -> In (PRun j) a.

#[local] Existing Instance PropModel.exTrans.
#[local] Existing Instance PropModel.exLim.
(** Two rows in one batch, one layer; sequentially, with all tasks first, and with the
    second task after the first training. *)
Definition ex_data : dataset Z := DS [1; 2; 6; 10; 0; 2; 1; 5; 4; 1]%Z 5 1 10 2 2 [2; 3; 4] [0; 1].
Definition ex_late : list pev := [PRun 0; PTrain 0; PRun 1; PTrain 1].
Definition shared_eqb (a b : list (list Z * list Z)) : bool :=
  if list_eq_dec (fun p q : list Z * list Z =>
      match list_eq_dec Z.eq_dec (fst p) (fst q), list_eq_dec Z.eq_dec (snd p) (snd q) with
      | left e, left e' => left (injective_projections p q e e')
      | right e, _ => right (fun E => e (f_equal fst E))
      | _, right e => right (fun E => e (f_equal snd E)) end) a b then true else false.
Theorem c40_schedule_refuted : exists (m : model (node Z)) (m' : model (node Z)) w w',
  gbuild (chain_build 2 ++ loss_build true 2) = Ok (mgraph m) /\
  network m ex_layers (MSE 1%Z) (loss_new 3 1) 2 3 /\
  fit_sequential (fun _ => 0%Z) 1%Z ex_data 2 1 2 m = Some (Ok m') /\
  entry_rounds 2 (ds_size ex_data) 2 0 = Some [[[0]; [1]]] /\
  schedule 2 (barrier [1; 0]) /\ schedule 2 ex_late /\
  par_fit (fun _ => 0%Z) 1%Z ex_data [([[0]; [1]], barrier [1; 0])] (world_of m) = Ok w /\ w_shared w = shared_of m' /\
  par_fit (fun _ => 0%Z) 1%Z ex_data [([[0]; [1]], ex_late)] (world_of m) = Ok w' /\ w_shared w' <> shared_of m'.
Proof.
  pose proof (built (chain_build 2 ++ loss_build true 2) (fun g =>
    let m := mkModel g ex_nodes in
    match fit_sequential (fun _ => 0%Z) 1%Z ex_data 2 1 2 m,
          par_fit (fun _ => 0%Z) 1%Z ex_data [([[0]; [1]], barrier [1; 0])] (world_of m),
          par_fit (fun _ => 0%Z) 1%Z ex_data [([[0]; [1]], ex_late)] (world_of m) with
    | Some (Ok m'), Ok w, Ok w' => shared_eqb (w_shared w) (shared_of m') = true /\ shared_eqb (w_shared w') (shared_of m') = false
    | _, _, _ => False
    end)) as HB.
  destruct HB as (g & E & HB); [vm_compute; auto|].
  destruct ex_network as (m & Em & _ & Nm & W).
  assert (m = mkModel g ex_nodes) as -> by (destruct m as (g', ns); cbn in *; congruence).
  clear Nm. cbv zeta in HB.
  destruct (fit_sequential (fun _ => 0%Z) 1%Z ex_data 2 1 2 (mkModel g ex_nodes)) as [[m'| |]|] eqn:E1; try contradiction.
  destruct (par_fit (fun _ => 0%Z) 1%Z ex_data [([[0]; [1]], barrier [1; 0])] (world_of (mkModel g ex_nodes))) as [w| |] eqn:E2; try contradiction.
  destruct (par_fit (fun _ => 0%Z) 1%Z ex_data [([[0]; [1]], ex_late)] (world_of (mkModel g ex_nodes))) as [w'| |] eqn:E3; try contradiction.
  destruct HB as (A & B). unfold shared_eqb in *.
  exists (mkModel g ex_nodes), m', w, w'. split; [exact Em|]. split; [exact W|]. split; [exact E1|]. split; [reflexivity|].
  split; [|split; [|split; [exact E2|split; [|split; [exact E3|]]]]].
  - split; [|split; [reflexivity|]].
    + cbn. apply perm_swap.
    + intros j a b EE. destruct a as [|e1 [|e2 [|e3 [|e4 a]]]]; cbn in EE; try discriminate; injection EE; intros; subst;
        try discriminate; cbn; auto. destruct a; discriminate.
  - split; [|split; [reflexivity|]].
    + cbn. apply perm_skip. apply perm_swap.
    + intros j a b EE. destruct a as [|e1 [|e2 [|e3 [|e4 a]]]]; cbn in EE; try discriminate; injection EE; intros; subst;
        try discriminate; cbn; auto. destruct a; discriminate.
  - destruct (list_eq_dec _ (w_shared w) (shared_of m')); [assumption|discriminate].
  - destruct (list_eq_dec _ (w_shared w') (shared_of m')); [discriminate|assumption].
Qed.
Print Assumptions c40_schedule_refuted.

(** The hypotheses of the two theorems: a dense layer and Tanh, over the reals. *)
Definition exr_layers : list (layer R) :=
  [mkLayer KDense 2 [1; 2; 3; 4; 5; 6]%R [1; 0; 7]%R (repeat 0%R 6) (repeat 0%R 3) (repeat 0%R 3) (repeat 0%R 2);
   mkLayer (KAct Tanh) 3 [] [] [] [] (repeat 0%R 3) (repeat 0%R 3)].
Definition exr_nodes : list (node R * source) :=
  map (fun s => (s, SNull)) (map NL exr_layers ++ [NO (MSE 1%R) (loss_new 3 1)]).
Definition exr_data : dataset R := DS [1; 2; 6; 10; 0; 2; 1; 5; 4; 1]%R 5 1 10 2 2 [2; 3; 4] [0; 1].
Example c40_hypotheses_met : exists (m : model (node R)) m',
  ready exr_data (chain_build 2 ++ loss_build true 2) m exr_layers (MSE 1%R) (loss_new 3 1) 2 3 /\
  fit_sequential (fun _ => 0%R) (1 / 2)%R exr_data 2 3 2 m = Some (Ok m') /\
  batch_rounds 2 2 (ds_size exr_data) 1 0 = Some [[[0]; [1]]] /\
  Forall2 in_order [[1; 0]; [0; 1]; [1; 0]] (concat (repeat [[[0]; [1]]] 3)).
Proof.
  pose proof (built (chain_build 2 ++ loss_build true 2) (fun g =>
    match fit_sequential (fun _ => 0%R) (1 / 2)%R exr_data 2 3 2 (mkModel g exr_nodes) with
    | Some (Ok m') => True | _ => False end)) as HB.
  destruct HB as (g & E & HB); [vm_compute; exact I|].
  destruct (c36_built true 2 (le_n 2)) as (s & E' & C).
  assert (s = g) by congruence. subst s.
  destruct (fit_sequential (fun _ => 0%R) (1 / 2)%R exr_data 2 3 2 (mkModel g exr_nodes)) as [[m'| |]|] eqn:E1; try contradiction.
  exists (mkModel g exr_nodes), m'. split; [|split; [exact E1|split; [reflexivity|]]].
  - constructor.
    + exact E.
    + destruct C as (H1 & H2 & H3 & H4 & H5). constructor; cbn [mgraph mnodes].
      * exact (is_chain_built _ _ true 2 E (le_n 2) H1 H2 H3 H4 H5).
      * cbn. lia.
      * reflexivity.
      * cbn [nshape exr_layers]. exists 3. split; [|exists 3; split; [|reflexivity]].
        -- unfold lshape. cbn. auto 10.
        -- unfold lshape. cbn. split; [auto|]. split; [auto|]. split; [auto|]. split; [auto|]. discriminate.
      * reflexivity.
    + unfold no_gradient. repeat constructor.
    + intros i x Hi. destruct i as [|[|i]]; cbn in *; intros EE; [| |lia]; injection EE as <-; reflexivity.
  - cbn [repeat concat app]. unfold in_order. cbn.
    constructor; [apply perm_swap|]. constructor; [apply Permutation_refl|]. constructor; [apply perm_swap|]. constructor.
Qed.
