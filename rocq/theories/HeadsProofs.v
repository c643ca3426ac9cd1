(** One training step of a network whose first layer feeds several chains of layers, each ending
    in its own loss. *)
From Verif Require Import Base GraphModel GraphSpec GraphProofs PropGraph ModelModel ChainProofs StepProofs TreeProofs HeadsSpec.
From Coq Require Import Permutation.

(** *** Paths *)
Lemma hop_cons c p a b : hop (c :: p) a b <-> (a = c /\ exists q, p = b :: q) \/ hop p a b.
Proof.
  split.
  - intros (l1 & l2 & E). destruct l1 as [|d l1]; cbn [app] in E; injection E as -> E.
    + left. split; [reflexivity|eauto].
    + right. exists l1, l2. exact E.
  - intros [(-> & q & ->)|(l1 & l2 & ->)].
    + exists [], q. reflexivity.
    + exists (c :: l1), l2. reflexivity.
Qed.
Lemma hop_nil a b : ~ hop [] a b.
Proof. intros (l1 & l2 & E). destruct l1; discriminate. Qed.
Lemma hop_in p a b : hop p a b -> In a p /\ In b p.
Proof. intros (l1 & l2 & ->). split; apply in_or_app; right; cbn; auto. Qed.
Lemma hop_tl c p a b : hop (c :: p) a b -> In b p.
Proof.
  intros H. apply hop_cons in H. destruct H as [(_ & q & ->)|H]; [now left|]. apply (hop_in _ _ _ H).
Qed.
Lemma hop_to c p b : In b p -> exists a, hop (c :: p) a b.
Proof.
  revert c. induction p as [|d p IH]; intros c []; [subst d|].
  - exists c. apply hop_cons. left. eauto.
  - destruct (IH d H) as (a & Ha). exists a. apply hop_cons. now right.
Qed.
Lemma hop_unique p : NoDup p -> forall a a' b, hop p a b -> hop p a' b -> a = a'.
Proof.
  induction p as [|c p IH]; intros ND a a' b H H'; [destruct (hop_nil _ _ H)|].
  inversion ND as [|? ? N1 N2]; subst. apply hop_cons in H, H'.
  destruct H as [(-> & q & ->)|H], H' as [(-> & q' & E')|H']; auto.
  - apply hop_tl in H'. inversion N2; subst. contradiction.
  - subst p. apply hop_tl in H. inversion N2; subst. contradiction.
  - eauto.
Qed.
Lemma flat_map_same {A B} (f : A -> list B) l : NoDup (flat_map f l) -> forall h h' b, In h l -> In h' l ->
  In b (f h) -> In b (f h') -> h = h'.
Proof.
  induction l as [|c l IH]; intros ND h h' b H H' Hb Hb'; [destruct H|].
  cbn [flat_map] in ND. apply NoDup_split in ND. destruct ND as (N1 & N2 & N3).
  assert (X : forall h, In h l -> In b (f h) -> In b (flat_map f l)) by (intros; apply in_flat_map; eauto).
  destruct H as [->|H], H' as [->|H']; auto.
  - exfalso. apply (N3 b Hb). eauto.
  - exfalso. apply (N3 b Hb'). eauto.
  - eauto.
Qed.
Lemma flat_map_part {A B} (f : A -> list B) l h : NoDup (flat_map f l) -> In h l -> NoDup (f h).
Proof.
  induction l as [|c l IH]; intros ND []; cbn [flat_map] in ND; apply NoDup_split in ND; destruct ND as (N1 & N2 & _).
  - now subst.
  - auto.
Qed.

(** *** The arcs of such a network *)
Section Star.
Variables (g : dlgraph) (root : nat) (hs : list (list nat * nat)).
Hypothesis HST : star g root hs.
Notation body h := (fst h ++ [snd h]) (only parsing).

Lemma root_out h : In h hs -> ~ In root (fst h ++ [snd h]).
Proof.
  intros Hh Hr. pose proof (st_nd _ _ _ HST) as ND. inversion ND as [|? ? N1 N2]; subst. apply N1.
  apply in_flat_map. eauto.
Qed.
Lemma body_nd h : In h hs -> NoDup (fst h ++ [snd h]).
Proof.
  intros Hh. pose proof (st_nd _ _ _ HST) as ND. inversion ND as [|? ? N1 N2]; subst.
  exact (flat_map_part _ _ h N2 Hh).
Qed.
Lemma path_nd h : In h hs -> NoDup (root :: fst h ++ [snd h]).
Proof. intros Hh. constructor; [now apply root_out|now apply body_nd]. Qed.
Lemma body_same h h' b : In h hs -> In h' hs -> In b (fst h ++ [snd h]) -> In b (fst h' ++ [snd h']) -> h = h'.
Proof.
  pose proof (st_nd _ _ _ HST) as ND. inversion ND as [|? ? N1 N2]; subst.
  apply (flat_map_same (fun h => fst h ++ [snd h]) hs N2).
Qed.

Lemma t_one a a' b : In b (tgraph g a) -> In b (tgraph g a') -> a = a'.
Proof.
  intros H H'. apply (st_t _ _ _ HST) in H, H'. destruct H as (h & I1 & P1), H' as (h' & I2 & P2).
  assert (h = h') by (apply (body_same h h' b); auto; eapply hop_tl; eauto). subst h'.
  eapply hop_unique; [apply (path_nd h I1)|eauto|eauto].
Qed.
Lemma root_no_pred a : ~ In root (tgraph g a).
Proof.
  intros H. apply (st_t _ _ _ HST) in H. destruct H as (h & I1 & P1). apply hop_tl in P1.
  now apply (root_out h I1).
Qed.
Lemma root_last a : ~ In a (bgraph g root).
Proof.
  intros H. apply (st_b _ _ _ HST) in H. destruct H as (h & I1 & P1). apply hop_tl in P1.
  now apply (root_out h I1).
Qed.
Lemma b_one a a' b : In b (bgraph g a) -> In b (bgraph g a') -> b <> root -> a = a'.
Proof.
  intros H H' Hb. apply (st_b _ _ _ HST) in H, H'. destruct H as (h & I1 & P1), H' as (h' & I2 & P2).
  assert (B1 : In b (fst h ++ [snd h])).
  { destruct (hop_in _ _ _ P1) as ([E|X] & _); [congruence|exact X]. }
  assert (B2 : In b (fst h' ++ [snd h'])).
  { destruct (hop_in _ _ _ P2) as ([E|X] & _); [congruence|exact X]. }
  assert (h = h') by (now apply (body_same h h' b)). subst h'.
  pose proof (path_nd h I1) as ND. revert P1 P2 ND. generalize (root :: fst h ++ [snd h]). clear.
  induction l as [|c p IH]; intros H H' ND; [destruct (hop_nil _ _ H)|].
  inversion ND as [|? ? N1 N2]; subst. apply hop_cons in H, H'.
  destruct H as [(-> & q & ->)|H], H' as [(E1 & q' & E')|H']; auto.
  - congruence.
  - apply hop_in in H'. tauto.
  - subst c. apply hop_in in H. tauto.
Qed.
Lemma loss_no_pred h a : In h hs -> ~ In (snd h) (bgraph g a).
Proof.
  intros Hh H. apply (st_b _ _ _ HST) in H. destruct H as (h' & I1 & P1).
  assert (In (snd h) (fst h' ++ [snd h'])).
  { destruct (hop_in _ _ _ P1) as ([E|X] & _); [|exact X].
    exfalso. apply (root_out h Hh). rewrite E. apply in_or_app. right. now left. }
  assert (h = h') by (apply (body_same h h' (snd h)); auto; apply in_or_app; right; now left). subst h'.
  pose proof (path_nd h I1) as ND. destruct P1 as (l1 & l2 & E).
  change (root :: fst h ++ [snd h]) with ((root :: fst h) ++ [snd h]) in *. rewrite E in ND.
  destruct (exists_last (l := snd h :: a :: l2)) as (l3 & z & E3); [discriminate|].
  rewrite E3, app_assoc in E. apply app_inj_tail in E. destruct E as (_ & <-).
  apply NoDup_split in ND. destruct ND as (_ & ND & _).
  destruct l3 as [|z3 l3]; [discriminate|]. cbn [app] in E3. injection E3 as <- E3.
  inversion ND as [|? ? N1 N2]; subst. apply N1. rewrite E3. apply in_or_app. right. now left.
Qed.

Lemma walk_path h : In h hs -> forall p a, root :: fst h ++ [snd h] = p ++ a -> forall c, In c p ->
  reachable (tgraph g) [root] c.
Proof.
  intros Hh p. induction p as [|d p IH] using rev_ind; intros a E c Hc; [destruct Hc|].
  rewrite <- app_assoc in E. cbn [app] in E. apply in_app_or in Hc. destruct Hc as [Hc|[->|[]]]; [eapply IH; eauto|].
  destruct (exists_last (l := root :: fst h)) as (z & w & _); [discriminate|]. clear z w.
  destruct p as [|d0 p0] using rev_ind.
  - cbn in E. injection E as -> _. exists 0. constructor. now left.
  - clear IHp0. destruct (IH (c :: a) E d0) as (k & W); [apply in_or_app; right; now left|].
    exists (S k). apply (walk_S _ _ k d0 c W). apply (st_t _ _ _ HST). exists h. split; [exact Hh|].
    rewrite E. exists p0, a. now rewrite <- app_assoc.
Qed.
Lemma t_reach h a : In h hs -> In a (root :: fst h ++ [snd h]) -> reachable (tgraph g) [root] a.
Proof. intros Hh Ha. eapply (walk_path h Hh _ []); [symmetry; apply app_nil_r|exact Ha]. Qed.

Lemma b_reach h : In h hs -> forall p a, root :: fst h ++ [snd h] = p ++ a -> forall c, In c a ->
  reachable (bgraph g) (map snd hs) c.
Proof.
  intros Hh p a. revert p. induction a as [|d a IH]; intros p E c Hc; [destruct Hc|].
  destruct Hc as [->|Hc]; [|apply (IH (p ++ [d])); [rewrite <- app_assoc; exact E|exact Hc]].
  destruct a as [|e a].
  - change (root :: fst h ++ [snd h]) with ((root :: fst h) ++ [snd h]) in E.
    apply app_inj_tail in E. destruct E as (_ & <-). exists 0. constructor. now apply in_map.
  - destruct (IH (p ++ [c])) with (c := e) as (k & W); [rewrite <- app_assoc; exact E|now left|].
    exists (S k). apply (walk_S _ _ k e c W). apply (st_b _ _ _ HST). exists h. split; [exact Hh|].
    rewrite E. exists p, a. reflexivity.
Qed.

Lemma loss_nd : NoDup (map snd hs).
Proof.
  pose proof (st_nd _ _ _ HST) as ND. inversion ND as [|? ? N1 N2]; subst. clear - N2. revert N2.
  induction hs as [|h l IH]; intros ND; cbn [map]; [constructor|].
  cbn [flat_map] in ND. apply NoDup_split in ND. destruct ND as (N1 & N2 & N3). constructor; [|auto].
  intros X. apply in_map_iff in X. destruct X as (h' & E & Hh').
  apply (N3 (snd h)); [apply in_or_app; right; now left|]. apply in_flat_map. exists h'. split; [exact Hh'|].
  rewrite E. apply in_or_app. right. now left.
Qed.

(** The training schedule. *)
Lemma t_sched : exists arcs, sched (tgraph g) (nodes g) (inputs g) = Ok arcs /\
  NoDup (map snd arcs) /\ respects_dependencies arcs /\
  (forall a b, In (a, b) arcs <-> exists h, In h hs /\ hop (root :: fst h ++ [snd h]) a b).
Proof.
  pose proof (st_in _ _ _ HST) as EI. rewrite EI.
  assert (N1 : NoDup [root]) by (constructor; [intros []|constructor]).
  destruct (c34_schedule (nodes g) (tgraph g) [root] (st_tfin _ _ _ HST) N1) as (arcs & E & _).
  specialize (E (nodes g + 2) (le_n _)).
  destruct (tree_order (nodes g) (tgraph g) [root] (st_tfin _ _ _ HST) N1) with (fuel := nodes g + 2) (arcs := arcs)
    as (ND & IN & RD); auto.
  { intros a a' b A B _. now apply (t_one a a' b). }
  { intros y a [<-|[]]. apply root_no_pred. }
  exists arcs. unfold sched. rewrite E. split; [reflexivity|].
  assert (CH : forall a b, In (a, b) arcs <-> exists h, In h hs /\ hop (root :: fst h ++ [snd h]) a b).
  { intros a b. rewrite IN. split.
    - intros (_ & H). now apply (st_t _ _ _ HST) in H.
    - intros (h & Hh & P). split; [|apply (st_t _ _ _ HST); eauto].
      apply (t_reach h a Hh). apply (hop_in _ _ _ P). }
  split; [|split; [exact RD|exact CH]].
  assert (ONE : forall a a' b, In (a, b) arcs -> In (a', b) arcs -> a = a').
  { intros a a' b A B. apply IN in A, B. now apply (t_one a a' b). }
  clear - ND ONE. induction arcs as [|(a, b) arcs IH]; cbn [map]; [constructor|].
  inversion ND as [|? ? N1 N2]; subst. constructor.
  - intros X. apply in_map_iff in X. destruct X as ((a' & b') & E & X). cbn in E. subst b'. cbn [snd] in X.
    assert (a = a') by (apply (ONE a a' b); [now left|now right]). subst. contradiction.
  - apply IH; auto. intros a0 a' b0 A B. apply (ONE a0 a' b0); now right.
Qed.

(** The backward schedule. *)
Lemma b_sched : exists arcs, sched (bgraph g) (nodes g) (losses g) = Ok arcs /\
  NoDup arcs /\ NoDup (map snd (filter (fun ab => negb (snd ab =? root)) arcs)) /\ respects_dependencies arcs /\
  (forall a b, In (a, b) arcs <-> exists h, In h hs /\ hop (root :: fst h ++ [snd h]) b a).
Proof.
  rewrite (st_loss _ _ _ HST).
  destruct (c34_schedule (nodes g) (bgraph g) (map snd hs) (st_bfin _ _ _ HST) loss_nd) as (arcs & E & _).
  specialize (E (nodes g + 2) (le_n _)).
  destruct (tree_order (nodes g) (bgraph g) (map snd hs) (st_bfin _ _ _ HST) loss_nd) with (fuel := nodes g + 2) (arcs := arcs)
    as (ND & IN & RD); auto.
  { intros a a' b A B NE. apply (b_one a a' b A B). intros ->. apply NE.
    destruct (bgraph g root) as [|z q] eqn:EB; [reflexivity|]. exfalso. apply (root_last z). rewrite EB. now left. }
  { intros y a Hy. apply in_map_iff in Hy. destruct Hy as (h & <- & Hh). now apply loss_no_pred. }
  exists arcs. unfold sched. rewrite E. split; [reflexivity|]. split; [exact ND|].
  assert (CH : forall a b, In (a, b) arcs <-> exists h, In h hs /\ hop (root :: fst h ++ [snd h]) b a).
  { intros a b. rewrite IN. split.
    - intros (_ & H). now apply (st_b _ _ _ HST) in H.
    - intros (h & Hh & P). split; [|apply (st_b _ _ _ HST); eauto].
      apply (b_reach h Hh [] (root :: fst h ++ [snd h]) eq_refl). apply (hop_in _ _ _ P). }
  split; [|split; [exact RD|exact CH]].
  assert (ONE : forall a a' b, In (a, b) arcs -> In (a', b) arcs -> b <> root -> a = a').
  { intros a a' b A B. apply IN in A, B. now apply (b_one a a' b). }
  clear - ND ONE. induction arcs as [|(a, b) arcs IH]; cbn [filter map]; [constructor|].
  inversion ND as [|? ? N1 N2]; subst. assert (ND' : NoDup (map snd (filter (fun ab => negb (snd ab =? root)) arcs))).
  { apply IH; auto. intros a0 a' b0 A B. apply (ONE a0 a' b0); now right. }
  cbn [snd]. destruct (Nat.eqb_spec b root) as [->|Hb]; cbn [negb]; [exact ND'|].
  cbn [map snd]. constructor; [|exact ND'].
  intros X. apply in_map_iff in X. destruct X as ((a' & b') & E & X). cbn in E. subst b'.
  apply filter_In in X. destruct X as (X & _).
  assert (a = a') by (apply (ONE a a' b); [now left|now right|exact Hb]). subst. contradiction.
Qed.
End Star.

(** *** One step *)
Section Step.
Context {T S : Type} (op : nodeops T S).
Notation nd := (S * source)%type.
Hypothesis Hkeep : forall s last g s', o_backward op s last g = Ok s' -> o_output op s' = o_output op s.

(** The states along a chain, with what _last_input points to. *)
Fixpoint linkup (prev : nat) (ids : list nat) (ss : list S) : list (nat * nd) :=
  match ids, ss with
  | i :: ids', s :: ss' => (i, (s, SNode prev)) :: linkup i ids' ss'
  | _, _ => []
  end.
Lemma linkup_keys ids : forall prev ss, length ss = length ids -> map fst (linkup prev ids ss) = ids.
Proof.
  induction ids as [|i ids IH]; intros prev [|s ss] L; try discriminate; cbn [linkup map fst]; auto.
  f_equal. apply IH. cbn in L. lia.
Qed.

(** A head: the states before the step, after the forward half and after the backward half. *)
Record ghead := mkGhead {
  gh_ids : list nat; gh_loss : nat;
  gh_ss : list S; gh_lo : S; gh_ss1 : list S; gh_y : list T; gh_lo1 : S; gh_lo2 : S; gh_ss2 : list S; gh_g : list T
}.
Definition gh_run (t y0 : list T) (h : ghead) : Prop :=
  length (gh_ss h) = length (gh_ids h) /\
  gforward op (gh_ss h) y0 = Ok (gh_ss1 h, gh_y h) /\
  o_tforward op (o_target op (gh_lo h) t) (gh_y h) = Ok (gh_lo1 h) /\
  o_backward op (gh_lo1 h) (gh_y h) [] = Ok (gh_lo2 h) /\
  gbackward op (gh_ss1 h) y0 (o_gradient op (gh_lo2 h)) = Ok (gh_ss2 h, gh_g h).

Lemma head_fwd : forall ids ss prev (F : nat -> nd) y0 ss1 y loid lo lo1,
  gforward op ss y0 = Ok (ss1, y) -> o_tforward op lo y = Ok lo1 -> length ss = length ids ->
  o_output op (fst (F prev)) = Ok y0 ->
  (forall e, In e (linkup prev (ids ++ [loid]) (ss1 ++ [lo1])) -> F (fst e) = snd e) ->
  forall a b, hop (prev :: ids ++ [loid]) a b -> exists ya s s1, o_output op (fst (F a)) = Ok ya /\
    In (b, s) (combine (ids ++ [loid]) (ss ++ [lo])) /\ o_tforward op s ya = Ok s1 /\ F b = (s1, SNode a).
Proof.
  induction ids as [|i ids IH]; intros [|s ss] prev F y0 ss1 y loid lo lo1 EF EL L EO HF a b HP; try discriminate.
  - cbn in EF. injection EF as <- <-. cbn [app] in *. apply hop_cons in HP. destruct HP as [(-> & q & E)|HP].
    + injection E as <- <-. exists y0, lo, lo1. split; [exact EO|]. split; [now left|]. split; [exact EL|].
      apply (HF (loid, (lo1, SNode prev))). now left.
    + apply hop_cons in HP. destruct HP as [(_ & q & E)|HP]; [discriminate|destruct (hop_nil _ _ HP)].
  - cbn [gforward] in EF. destruct (o_tforward op s y0) as [s'| |] eqn:ES; try discriminate. cbn [bind] in EF.
    destruct (o_output op s') as [z| |] eqn:EZ; try discriminate. cbn [bind] in EF.
    destruct (gforward op ss z) as [(r, w)| |] eqn:ER; try discriminate. cbn [bind] in EF. injection EF as <- <-.
    cbn [app linkup] in HF. pose proof (HF (i, (s', SNode prev)) (or_introl eq_refl)) as Fi. cbn [fst snd] in Fi.
    cbn [app] in HP. apply hop_cons in HP. destruct HP as [(-> & q & E)|HP].
    + injection E as <- <-. exists y0, s, s'. cbn [app combine]. split; [exact EO|]. split; [now left|]. auto.
    + destruct (IH ss i F z r w loid lo lo1 ER EL) with (a := a) (b := b) as (ya & s0 & s1 & A & B & C & D).
      * cbn in L. lia.
      * rewrite Fi. exact EZ.
      * intros e He. apply HF. now right.
      * exact HP.
      * exists ya, s0, s1. cbn [app combine]. split; [exact A|]. split; [now right|]. auto.
Qed.

Lemma head_bwd : forall ids ss1 prev (F G : nat -> nd) y0 ss2 g loid lo2,
  gbackward op ss1 y0 (o_gradient op lo2) = Ok (ss2, g) -> length ss1 = length ids ->
  o_output op (fst (F prev)) = Ok y0 ->
  (forall e, In e (linkup prev ids ss1) -> F (fst e) = snd e) ->
  (forall e, In e (linkup prev (ids ++ [loid]) (ss2 ++ [lo2])) -> G (fst e) = snd e) ->
  (forall a b, hop (ids ++ [loid]) b a -> exists s c last s', F b = (s, SNode c) /\
     o_output op (fst (F c)) = Ok last /\ o_backward op s last (o_gradient op (fst (G a))) = Ok s' /\
     G b = (s', SNode c)) /\
  o_gradient op (fst (G (hd loid (ids ++ [loid])))) = g.
Proof.
  induction ids as [|i ids IH]; intros [|s ss1] prev F G y0 ss2 g loid lo2 EB L EO HF HG; try discriminate.
  - cbn in EB. injection EB as <- <-. cbn [app hd] in *. split.
    + intros a b HP. apply hop_cons in HP. destruct HP as [(_ & q & E)|HP]; [discriminate|destruct (hop_nil _ _ HP)].
    + cbn [linkup] in HG. pose proof (HG (loid, (lo2, SNode prev)) (or_introl eq_refl)) as Gl.
      cbn [fst snd] in Gl. now rewrite Gl.
  - cbn [gbackward] in EB. destruct (o_output op s) as [z| |] eqn:EZ; try discriminate. cbn [bind] in EB.
    destruct (gbackward op ss1 z (o_gradient op lo2)) as [(r, w)| |] eqn:ER; try discriminate. cbn [bind] in EB.
    destruct (o_backward op s y0 w) as [s'| |] eqn:ES; try discriminate. cbn [bind] in EB. injection EB as <- <-.
    cbn [linkup] in HF. pose proof (HF (i, (s, SNode prev)) (or_introl eq_refl)) as Fi. cbn [fst snd] in Fi.
    cbn [app linkup] in HG. pose proof (HG (i, (s', SNode prev)) (or_introl eq_refl)) as Gi. cbn [fst snd] in Gi.
    destruct (IH ss1 i F G z r w loid lo2 ER) as (A & B).
    + cbn in L. lia.
    + rewrite Fi. exact EZ.
    + intros e He. apply HF. now right.
    + intros e He. apply HG. now right.
    + split.
      * intros a b HP. cbn [app] in HP. apply hop_cons in HP. destruct HP as [(-> & q & E)|HP]; [|now apply A].
        exists s, prev, y0, s'. split; [exact Fi|]. split; [exact EO|]. split; [|exact Gi].
        rewrite E in B. cbn [hd] in B. rewrite B. exact ES.
      * cbn [app hd]. rewrite Gi. reflexivity.
Qed.

(** Reading a table. *)
Fixpoint look (tbl : list (nat * nd)) (d : nd) (i : nat) : nd :=
  match tbl with [] => d | (j, v) :: r => if i =? j then v else look r d i end.
Lemma look_in tbl d : NoDup (map fst tbl) -> forall e, In e tbl -> look tbl d (fst e) = snd e.
Proof.
  induction tbl as [|(j, v) tbl IH]; intros ND e []; cbn [map fst] in ND; inversion ND as [|? ? N1 N2]; subst.
  - cbn. now rewrite Nat.eqb_refl.
  - cbn [look]. destruct (Nat.eqb_spec (fst e) j) as [Ej|]; [|auto].
    exfalso. apply N1. rewrite <- Ej. now apply in_map.
Qed.

Lemma targets_spec t : forall ls (ns : list nd), NoDup ls -> (forall i, In i ls -> i < length ns) ->
  exists ns', foldM (set_targets op t) ls ns = Ok ns' /\ length ns' = length ns /\
    forall i, nth_error ns' i = if mem i ls then option_map (fun sp => (o_target op (fst sp) t, snd sp)) (nth_error ns i)
      else nth_error ns i.
Proof.
  induction ls as [|a ls IH]; intros ns ND HI; [exists ns; auto|].
  inversion ND as [|? ? N1 N2]; subst. cbn [foldM]. unfold set_targets at 1.
  destruct (nth_error ns a) as [(s, p)|] eqn:Ea.
  2:{ apply nth_error_None in Ea. specialize (HI a (or_introl eq_refl)). lia. }
  rewrite (rd_some _ _ _ Ea). cbn [bind]. rewrite (wr_some _ _ _ _ Ea). cbn [bind].
  destruct (IH (upd ns a (o_target op s t, p)) N2) as (ns' & E & L & HN).
  { intros i Hi. rewrite upd_length. apply HI. now right. }
  exists ns'. split; [exact E|]. split; [now rewrite L, upd_length|]. intros i. rewrite HN.
  cbn [mem existsb]. fold (mem i ls). rewrite Base.nth_error_upd.
  destruct (Nat.eqb_spec i a) as [->|Hne]; [|reflexivity].
  destruct (mem a ls) eqn:EM; [apply mem_In in EM; contradiction|].
  assert (a < length ns) by (apply nth_error_Some; congruence).
  destruct (Nat.ltb_spec a (length ns)); [|lia]. rewrite Ea. reflexivity.
Qed.

Lemma losses_spec x (F G : nat -> nd) : forall ls (ns : list nd), NoDup ls ->
  (forall i, In i ls -> exists s p last s', nth_error ns i = Some (s, p) /\ deref op ns x p = Ok last /\
     o_backward op s last [] = Ok s' /\ G i = (s', p)) ->
  exists ns', foldM (fun ns i => back_node op x ns i []) ls ns = Ok ns' /\ length ns' = length ns /\
    (forall i, nth_error ns' i = if mem i ls then Some (G i) else nth_error ns i) /\
    (forall i, option_map (fun sp => o_output op (fst sp)) (nth_error ns' i)
           = option_map (fun sp => o_output op (fst sp)) (nth_error ns i)).
Proof.
  induction ls as [|a ls IH]; intros ns ND HI; [exists ns; auto|].
  inversion ND as [|? ? N1 N2]; subst. cbn [foldM]. unfold back_node at 1.
  destruct (HI a (or_introl eq_refl)) as (s & p & last & s' & E1 & E2 & E3 & E4).
  rewrite (rd_some _ _ _ E1). cbn [bind]. rewrite E2. cbn [bind]. rewrite E3. cbn [bind].
  rewrite (wr_some _ _ _ _ E1). cbn [bind].
  assert (Hlt : a < length ns) by (apply nth_error_Some; congruence).
  assert (OUT : forall j, option_map (fun sp : nd => o_output op (fst sp)) (nth_error (upd ns a (s', p)) j)
           = option_map (fun sp : nd => o_output op (fst sp)) (nth_error ns j)).
  { intros j. rewrite Base.nth_error_upd. destruct (Nat.eqb_spec j a) as [->|]; [|reflexivity].
    rewrite E1. destruct (Nat.ltb_spec a (length ns)) as [Hl|Hl]; [|lia]. cbn. now rewrite (Hkeep _ _ _ _ E3). }
  destruct (IH (upd ns a (s', p)) N2) as (ns' & E & L & HN & HO).
  { intros i Hi. destruct (HI i (or_intror Hi)) as (s0 & p0 & last0 & s0' & A & B & C & D).
    exists s0, p0, last0, s0'. rewrite Base.nth_error_upd. destruct (Nat.eqb_spec i a); [subst; contradiction|].
    rewrite (deref_same op x ns _ p0 OUT). auto. }
  exists ns'. split; [exact E|]. split; [now rewrite L, upd_length|]. split.
  - intros i. rewrite HN. cbn [mem existsb]. fold (mem i ls). rewrite Base.nth_error_upd.
    destruct (Nat.eqb_spec i a) as [->|Hne]; [|reflexivity]. cbn [orb].
    destruct (mem a ls) eqn:EM; [reflexivity|]. destruct (Nat.ltb_spec a (length ns)); [|lia]. now rewrite E4.
  - intros i. rewrite HO. apply OUT.
Qed.

Variables (m : model S) (root : nat) (hs : list ghead) (r0 r1 : S) (y0 x t : list T).
Notation shape := (map (fun h => (gh_ids h, gh_loss h)) hs).
Hypothesis HST : star (mgraph m) root shape.
Hypothesis Hroot : exists p, nth_error (mnodes m) root = Some (r0, p).
Hypothesis Hnodes : forall h, In h hs -> forall i s, In (i, s) (combine (gh_ids h ++ [gh_loss h]) (gh_ss h ++ [gh_lo h])) ->
  exists p, nth_error (mnodes m) i = Some (s, p).
Hypothesis Hrf : o_tforward op r0 x = Ok r1.
Hypothesis Hro : o_output op r1 = Ok y0.
Hypothesis Hrun : forall h, In h hs -> gh_run t y0 h.
Hypothesis Hback : forall gs, Permutation gs (map gh_g hs) ->
  exists r2, foldM (fun s g => o_backward op s x g) gs r1 = Ok r2.

Lemma shape_in h : In h hs -> In (gh_ids h, gh_loss h) shape.
Proof. intros Hh. apply in_map_iff. eauto. Qed.

Lemma combine_snoc {A B} (a : list A) (b : list B) i x0 : length b = length a ->
  combine (a ++ [i]) (b ++ [x0]) = combine a b ++ [(i, x0)].
Proof. revert b. induction a as [|c a IH]; intros [|d b] L; try discriminate; cbn; auto. f_equal. apply IH. cbn in L. lia. Qed.

Theorem star_step : exists gs r2 ns', Permutation gs (map gh_g hs) /\
  foldM (fun s g => o_backward op s x g) gs r1 = Ok r2 /\
  m_step op m x t = Ok (mkModel (mgraph m) ns') /\ length ns' = length (mnodes m) /\
  nth_error ns' root = Some (r2, SInput) /\
  (forall h, In h hs -> forall e, In e (linkup root (gh_ids h ++ [gh_loss h]) (gh_ss2 h ++ [gh_lo2 h])) ->
     nth_error ns' (fst e) = Some (snd e)) /\
  (forall i, i <> root -> (forall h, In h hs -> ~ In i (gh_ids h ++ [gh_loss h])) -> nth_error ns' i = nth_error (mnodes m) i).
Proof.
  set (f1 := fun h => linkup root (gh_ids h ++ [gh_loss h]) (gh_ss1 h ++ [gh_lo1 h])).
  set (f2 := fun h => linkup root (gh_ids h ++ [gh_loss h]) (gh_ss2 h ++ [gh_lo2 h])).
  assert (L1 : forall h, In h hs -> length (gh_ss1 h) = length (gh_ids h)).
  { intros h Hh. destruct (Hrun h Hh) as (A & B & _). rewrite <- A. exact (gforward_length _ _ _ _ _ B). }
  assert (L2 : forall h, In h hs -> length (gh_ss2 h) = length (gh_ids h)).
  { intros h Hh. destruct (Hrun h Hh) as (A & _ & _ & _ & B). rewrite <- (L1 h Hh). exact (gbackward_length _ _ _ _ _ _ B). }
  pose proof (st_nd _ _ _ HST) as ND0.
  assert (KEYS : forall f, (forall h, In h hs -> map fst (f h) = gh_ids h ++ [gh_loss h]) ->
    map fst (flat_map f hs : list (nat * nd)) = flat_map (fun h => fst h ++ [snd h]) shape).
  { intros f Hf. clear - Hf. revert Hf. induction hs as [|h l IH]; intros Hf; [reflexivity|].
    cbn [flat_map map]. rewrite map_app, Hf by now left. cbn [fst snd]. f_equal. apply IH. intros h' Hh'. apply Hf. now right. }
  assert (K1 : forall h, In h hs -> map fst (f1 h) = gh_ids h ++ [gh_loss h]).
  { intros h Hh. apply linkup_keys. rewrite !app_length, (L1 h Hh). reflexivity. }
  assert (K2 : forall h, In h hs -> map fst (f2 h) = gh_ids h ++ [gh_loss h]).
  { intros h Hh. apply linkup_keys. rewrite !app_length, (L2 h Hh). reflexivity. }
  set (F := look ((root, (r1, SInput)) :: flat_map f1 hs) (r1, SNull)).
  set (G := look ((root, (r1, SInput)) :: flat_map f2 hs) (r1, SNull)).
  assert (F0 : F root = (r1, SInput)) by (unfold F; cbn; now rewrite Nat.eqb_refl).
  assert (FE : forall h, In h hs -> forall e, In e (f1 h) -> F (fst e) = snd e).
  { intros h Hh e He. unfold F. apply look_in.
    - cbn [map fst]. rewrite KEYS by exact K1. exact ND0.
    - right. apply in_flat_map. eauto. }
  assert (GE : forall h, In h hs -> forall e, In e (f2 h) -> G (fst e) = snd e).
  { intros h Hh e He. unfold G. apply look_in.
    - cbn [map fst]. rewrite KEYS by exact K2. exact ND0.
    - right. apply in_flat_map. eauto. }
  destruct (t_sched _ _ _ HST) as (trun & ET & TN & TR & TC).
  destruct (b_sched _ _ _ HST) as (brun & EB & BN0 & BN & BR & BC).
  assert (BODY : forall h, In h hs -> forall i, In i (gh_ids h ++ [gh_loss h]) -> exists s, In (i, s) (combine (gh_ids h ++ [gh_loss h]) (gh_ss h ++ [gh_lo h]))).
  { intros h Hh i Hi. destruct (Hrun h Hh) as (A & _).
    assert (LL : length (gh_ss h ++ [gh_lo h]) = length (gh_ids h ++ [gh_loss h])) by (rewrite !app_length, A; reflexivity).
    revert LL Hi. generalize (gh_ids h ++ [gh_loss h]) (gh_ss h ++ [gh_lo h]). clear.
    induction l as [|c l IH]; intros [|d q] LL Hi; try discriminate; [destruct Hi|].
    destruct Hi as [->|Hi]; [exists d; now left|]. destruct (IH q) as (s & Hs); [cbn in LL; lia|exact Hi|].
    exists s. now right. }
  assert (NODE : forall h, In h hs -> forall i, In i (gh_ids h ++ [gh_loss h]) -> i < length (mnodes m)).
  { intros h Hh i Hi. destruct (BODY h Hh i Hi) as (s & Hs). destruct (Hnodes h Hh i s Hs) as (p & E).
    apply nth_error_Some. congruence. }
  assert (RB : forall h, In h hs -> ~ In root (gh_ids h ++ [gh_loss h])).
  { intros h Hh. exact (root_out _ _ _ HST _ (shape_in h Hh)). }
  assert (LOSS : forall i, In i (losses (mgraph m)) <-> exists h, In h hs /\ i = gh_loss h).
  { intros i. rewrite (st_loss _ _ _ HST), map_map. cbn [snd]. rewrite in_map_iff. split; intros (h & A & B); exists h; auto. }
  assert (LND : NoDup (losses (mgraph m))) by (rewrite (st_loss _ _ _ HST); exact (loss_nd _ _ _ HST)).
  assert (LB : forall h h', In h hs -> In h' hs -> In (gh_loss h) (gh_ids h') -> False).
  { intros h h' Hh Hh' HI.
    assert (E : (gh_ids h, gh_loss h) = (gh_ids h', gh_loss h')).
    { apply (body_same _ _ _ HST _ _ (gh_loss h)); try now apply shape_in; cbn [fst snd].
      - apply in_or_app. right. now left.
      - apply in_or_app. now left. }
    injection E as E1 E2. pose proof (body_nd _ _ _ HST _ (shape_in h' Hh')) as ND. cbn [fst snd] in ND.
    apply NoDup_split in ND. destruct ND as (_ & _ & ND). apply (ND (gh_loss h) HI). rewrite E2. now left. }
  assert (RL : ~ In root (losses (mgraph m))).
  { intros X. apply LOSS in X. destruct X as (h & Hh & E). apply (RB h Hh). rewrite E. apply in_or_app. right. now left. }
  (* targets *)
  destruct (targets_spec t (losses (mgraph m)) (mnodes m) LND) as (ns1 & E1 & LN1 & HN1).
  { intros i Hi. apply LOSS in Hi. destruct Hi as (h & Hh & ->). apply (NODE h Hh). apply in_or_app. right. now left. }
  (* input *)
  destruct Hroot as (rp & ER).
  assert (ER1 : nth_error ns1 root = Some (r0, rp)).
  { rewrite HN1. destruct (mem root (losses (mgraph m))) eqn:EM; [apply mem_In in EM; contradiction|exact ER]. }
  assert (E2 : foldM (feed_input op true x) (inputs (mgraph m)) ns1 = Ok (upd ns1 root (r1, SInput))).
  { rewrite (st_in _ _ _ HST). cbn [foldM]. unfold feed_input, feed. rewrite (rd_some _ _ _ ER1). cbn [bind].
    rewrite Hrf. cbn [bind]. rewrite (wr_some _ _ _ _ ER1). reflexivity. }
  set (ns2 := upd ns1 root (r1, SInput)) in *.
  assert (Hrl : root < length ns1) by (apply nth_error_Some; congruence).
  assert (LN2 : length ns2 = length (mnodes m)) by (unfold ns2; rewrite upd_length; exact LN1).
  assert (R2 : nth_error ns2 root = Some (r1, SInput)).
  { unfold ns2. rewrite Base.nth_error_upd, Nat.eqb_refl. destruct (Nat.ltb_spec root (length ns1)); [reflexivity|lia]. }
  (* the states the arcs start from *)
  set (hb := fun h => gh_ids h ++ [gh_loss h]) in *.
  assert (ST2 : forall h, In h hs -> forall i s, In (i, s) (combine (hb h) (gh_ss h ++ [o_target op (gh_lo h) t])) ->
    exists p, nth_error ns2 i = Some (s, p)).
  { intros h Hh i s Hs. destruct (Hrun h Hh) as (A & _). unfold hb in Hs. rewrite combine_snoc in Hs by exact A.
    assert (Hir : i <> root).
    { intros ->. apply (RB h Hh). apply in_app_or in Hs. apply in_or_app. destruct Hs as [Hs|[Hs|[]]].
      - left. eapply in_combine_l; eauto.
      - right. injection Hs as -> _. now left. }
    unfold ns2. rewrite Base.nth_error_upd. destruct (Nat.eqb_spec i root); [contradiction|]. rewrite HN1.
    apply in_app_or in Hs. destruct Hs as [Hs|[Hs|[]]].
    - destruct (Hnodes h Hh i s) as (p & Ep); [rewrite combine_snoc by exact A; apply in_or_app; now left|].
      exists p. destruct (mem i (losses (mgraph m))) eqn:EM; [|exact Ep].
      apply mem_In, LOSS in EM. destruct EM as (h' & Hh' & ->). exfalso.
      apply (LB h' h Hh' Hh). eapply in_combine_l; eauto.
    - injection Hs as <- <-. destruct (Hnodes h Hh (gh_loss h) (gh_lo h)) as (p & Ep).
      { rewrite combine_snoc by exact A. apply in_or_app. right. now left. }
      exists p. destruct (mem (gh_loss h) (losses (mgraph m))) eqn:EM; [rewrite Ep; reflexivity|].
      assert (In (gh_loss h) (losses (mgraph m))) by (apply LOSS; eauto). apply mem_In in H. congruence. }
  (* forward *)
  assert (HOP : forall a b, In (a, b) trun <-> exists h, In h hs /\ hop (root :: hb h) a b).
  { intros a b. rewrite TC. split.
    - intros (h0 & Hh0 & P). apply in_map_iff in Hh0. destruct Hh0 as (h & <- & Hh). exists h. auto.
    - intros (h & Hh & P). exists (gh_ids h, gh_loss h). split; [now apply shape_in|exact P]. }
  destruct (run_forward op true F trun [] ns2) as (ns3 & E3 & LN3 & HN3); auto.
  { intros a b Hab. apply HOP in Hab. destruct Hab as (h & Hh & P). destruct (Hrun h Hh) as (A & B & C & _).
    destruct (head_fwd (gh_ids h) (gh_ss h) root F y0 (gh_ss1 h) (gh_y h) (gh_loss h) (o_target op (gh_lo h) t) (gh_lo1 h))
      with (a := a) (b := b) as (ya & s & s1 & Q1 & Q2 & Q3 & Q4); auto.
    { rewrite F0. exact Hro. }
    { exact (FE h Hh). }
    destruct (ST2 h Hh b s Q2) as (p & Ep). exists ya, s, p. split; [exact Q1|]. split; [exact Ep|].
    unfold feed. rewrite Q3, Q4. reflexivity. }
  { intros a b Hab Hno. apply HOP in Hab. destruct Hab as (h & Hh & P).
    destruct (hop_in _ _ _ P) as ([<-|Ha] & _); [now rewrite F0|].
    destruct (hop_to root (hb h) a Ha) as (c & Hc). exfalso. apply (Hno c). apply HOP. eauto. }
  assert (TGT : forall i, In i (map snd trun) <-> exists h, In h hs /\ In i (hb h)).
  { intros i. rewrite in_map_iff. split.
    - intros ((a & b) & E & Hab). cbn in E. subst b. apply HOP in Hab. destruct Hab as (h & Hh & P).
      exists h. split; [exact Hh|]. now apply hop_tl in P.
    - intros (h & Hh & Hi). destruct (hop_to root (hb h) i Hi) as (c & Hc). exists (c, i). split; [reflexivity|].
      apply HOP. eauto. }
  assert (ST3 : forall h, In h hs -> forall i, In i (root :: hb h) -> nth_error ns3 i = Some (F i)).
  { intros h Hh i [<-|Hi]; rewrite HN3.
    - destruct (mem root (map snd trun)) eqn:EM; [reflexivity|]. now rewrite F0.
    - assert (X : In i (map snd trun)) by (apply TGT; eauto). apply mem_In in X. now rewrite X. }
  assert (R3 : nth_error ns3 root = Some (r1, SInput)).
  { rewrite HN3. destruct (mem root (map snd trun)) eqn:EM; [|exact R2]. now rewrite F0. }
  (* where the states of a head point *)
  assert (LINK : forall (Q : nat -> nd) ids prev ss, length ss = length ids ->
    (forall e, In e (linkup prev ids ss) -> Q (fst e) = snd e) ->
    forall i, In i ids -> exists s c, Q i = (s, SNode c) /\ In c (prev :: ids) /\ In s ss).
  { intros Q. induction ids as [|j ids IH]; intros prev [|s ss] L HQ i Hi; try discriminate; [destruct Hi|].
    cbn [linkup] in HQ. destruct Hi as [->|Hi].
    - exists s, prev. split; [apply (HQ (i, (s, SNode prev))); now left|]. split; now left.
    - destruct (IH j ss) with (i := i) as (s' & c & A & B & C); [cbn in L; lia|intros e He; apply HQ; now right|exact Hi|].
      exists s', c. split; [exact A|]. split; [now right|now right]. }
  (* losses *)
  destruct (losses_spec x F G (losses (mgraph m)) ns3 LND) as (ns4 & E4 & LN4 & HN4 & HO4).
  { intros i Hi. apply LOSS in Hi. destruct Hi as (h & Hh & ->). destruct (Hrun h Hh) as (A & B & C & D & E).
    (* the loss is the last of its chain *)
    destruct (exists_last (l := root :: gh_ids h)) as (pre & c & Epc); [discriminate|].
    assert (LAST : In (gh_loss h, (gh_lo1 h, SNode c)) (f1 h) /\ In (gh_loss h, (gh_lo2 h, SNode c)) (f2 h)).
    { assert (X : forall ids ss prev pre c z lz, length ss = length ids -> prev :: ids = pre ++ [c] ->
        In (lz, (z, SNode c)) (linkup prev (ids ++ [lz]) (ss ++ [z]))).
      { clear. induction ids as [|j ids IH]; intros [|s ss] prev pre c z lz L E; try discriminate; cbn [app linkup].
        - destruct pre as [|q pre]; [injection E as ->; now left|]. destruct pre; discriminate.
        - destruct pre as [|q pre]; [discriminate|]. cbn [app] in E. injection E as -> E. right.
          apply (IH ss j pre); [cbn in L; lia|exact E]. }
      split; [apply (X _ _ _ pre); [now apply L1|exact Epc]|apply (X _ _ _ pre); [now apply L2|exact Epc]]. }
    destruct LAST as (La & Lb). pose proof (FE h Hh _ La) as FL. pose proof (GE h Hh _ Lb) as GL. cbn [fst snd] in FL, GL.
    exists (gh_lo1 h), (SNode c), (gh_y h), (gh_lo2 h).
    split; [rewrite (ST3 h Hh); [now rewrite FL|right; apply in_or_app; right; now left]|].
    split; [|split; [exact D|exact GL]].
    (* what it points to *)
    cbn [deref]. unfold node_output.
    assert (Hc : In c (root :: gh_ids h)) by (rewrite Epc; apply in_or_app; right; now left).
    rewrite (rd_some _ _ (F c)); [|apply (ST3 h Hh); destruct Hc as [->|Hc]; [now left|right; apply in_or_app; now left]].
    destruct (F c) as (sc, pc) eqn:EFc. cbn [bind].
    assert (P : hop (root :: hb h) c (gh_loss h)).
    { unfold hb. change (root :: gh_ids h ++ [gh_loss h]) with ((root :: gh_ids h) ++ [gh_loss h]). rewrite Epc.
      exists pre, []. now rewrite <- app_assoc. }
    (* by the forward facts *)
    clear - B EFc Hro F0 FE L1 Hh Epc A. subst f1. cbn beta in FE. specialize (FE h Hh).
    assert (X : forall ids ss prev ss1 yy pre y1, gforward op ss y1 = Ok (ss1, yy) -> length ss = length ids ->
       o_output op (fst (F prev)) = Ok y1 -> prev :: ids = pre ++ [c] ->
       (forall e, In e (linkup prev ids ss1) -> F (fst e) = snd e) -> o_output op (fst (F c)) = Ok yy).
    { clear. induction ids as [|j ids IH]; intros [|s ss] prev ss1 yy pre y1 EF L EO EP HF; try discriminate.
      - cbn in EF. injection EF as <- <-. destruct pre as [|q pre]; [injection EP as ->; exact EO|destruct pre; discriminate].
      - cbn [gforward] in EF. destruct (o_tforward op s y1) as [s'| |]; try discriminate. cbn [bind] in EF.
        destruct (o_output op s') as [z| |] eqn:EZ; try discriminate. cbn [bind] in EF.
        destruct (gforward op ss z) as [(r, w)| |] eqn:ER; try discriminate. cbn [bind] in EF. injection EF as <- <-.
        destruct pre as [|q pre]; [discriminate|]. cbn [app] in EP. injection EP as -> EP. cbn [linkup] in HF.
        apply (IH ss j r w pre z ER); [cbn in L; lia| |exact EP|intros e He; apply HF; now right].
        pose proof (HF (j, (s', SNode q)) (or_introl eq_refl)) as Fj. cbn [fst snd] in Fj. now rewrite Fj. }
    specialize (X (gh_ids h) (gh_ss h) root (gh_ss1 h) (gh_y h) pre y0 B A).
    rewrite F0 in X. specialize (X Hro Epc). rewrite EFc in X. cbn [fst] in X. apply X.
    intros e He. apply FE. clear - He. revert He. generalize root (gh_ss1 h). generalize (gh_ids h).
    induction l as [|j l IH]; intros prev [|s ss] He; cbn [linkup app] in *; try contradiction.
    destruct He as [He|He]; [now left|right]. now apply IH. }
  (* backward *)
  assert (BOP : forall a b, In (a, b) brun <-> exists h, In h hs /\ hop (root :: hb h) b a).
  { intros a b. rewrite BC. split.
    - intros (h0 & Hh0 & P). apply in_map_iff in Hh0. destruct Hh0 as (h & <- & Hh). exists h. auto.
    - intros (h & Hh & P). exists (gh_ids h, gh_loss h). split; [now apply shape_in|exact P]. }
  assert (ST4 : forall h, In h hs -> forall i, In i (gh_ids h) -> nth_error ns4 i = Some (F i)).
  { intros h Hh i Hi. rewrite HN4. destruct (mem i (losses (mgraph m))) eqn:EM.
    - apply mem_In, LOSS in EM. destruct EM as (h' & Hh' & ->). destruct (LB h' h Hh' Hh Hi).
    - apply (ST3 h Hh). right. apply in_or_app. now left. }
  assert (R4 : nth_error ns4 root = Some (r1, SInput)).
  { rewrite HN4. destruct (mem root (losses (mgraph m))) eqn:EM; [apply mem_In in EM; contradiction|exact R3]. }
  assert (HB : forall h, In h hs -> (forall a b, hop (hb h) b a -> exists s c last s', F b = (s, SNode c) /\
     o_output op (fst (F c)) = Ok last /\ o_backward op s last (o_gradient op (fst (G a))) = Ok s' /\
     G b = (s', SNode c)) /\ o_gradient op (fst (G (hd (gh_loss h) (hb h)))) = gh_g h).
  { intros h Hh. destruct (Hrun h Hh) as (A & B & C & D & E).
    apply (head_bwd (gh_ids h) (gh_ss1 h) root F G y0 (gh_ss2 h) (gh_g h) (gh_loss h) (gh_lo2 h)); auto.
    - rewrite F0. exact Hro.
    - intros e He. apply (FE h Hh). unfold f1. clear - He. revert He. generalize root (gh_ss1 h). generalize (gh_ids h).
      induction l as [|j l IH]; intros prev [|s ss] He; cbn [linkup app] in *; try contradiction.
      destruct He as [He|He]; [now left|right]. now apply IH.
    - exact (GE h Hh). }
  assert (INTO : Permutation (into root brun) (map (fun h => hd (gh_loss h) (hb h)) hs)).
  { apply NoDup_Permutation.
    - unfold into. clear - BN0. induction brun as [|(a, b) l IH]; cbn [filter map]; [constructor|].
      inversion BN0 as [|? ? N1 N2]; subst. cbn [snd]. destruct (Nat.eqb_spec b root) as [->|]; [|auto].
      cbn [map fst]. constructor; [|auto]. intros X. apply in_map_iff in X. destruct X as ((a' & b') & E & X).
      cbn in E. subst a'. apply filter_In in X. destruct X as (X & E). cbn [snd] in E. apply Nat.eqb_eq in E. subst b'. contradiction.
    - inversion ND0 as [|? ? N1 N2]; subst. clear - N2. revert N2. unfold hb. induction hs as [|h l IH]; intros N2; cbn [map]; [constructor|].
      cbn [map flat_map fst snd] in N2. apply NoDup_split in N2. destruct N2 as (A & B & C). constructor; [|auto].
      assert (HD : forall h : ghead, In (hd (gh_loss h) (gh_ids h ++ [gh_loss h])) (gh_ids h ++ [gh_loss h])).
      { intros h0. destruct (gh_ids h0); now left. }
      intros X. apply in_map_iff in X. destruct X as (h' & E & Hh'). apply (C _ (HD h)). rewrite <- E.
      apply in_flat_map. exists (gh_ids h', gh_loss h'). split; [apply in_map_iff; eauto|apply HD].
    - intros a. unfold into. rewrite !in_map_iff. split.
      + intros ((a' & b) & E & X). cbn in E. subst a'. apply filter_In in X. destruct X as (X & E). cbn in E.
        apply Nat.eqb_eq in E. subst b. apply BOP in X. destruct X as (h & Hh & P). exists h. split; [|exact Hh].
        apply hop_cons in P. destruct P as [(_ & q & E)|P]; [now rewrite E|].
        exfalso. apply (RB h Hh). apply (hop_in _ _ _ P).
      + intros (h & <- & Hh). exists (hd (gh_loss h) (hb h), root). split; [reflexivity|].
        apply filter_In. cbn [snd]. split; [|apply Nat.eqb_refl]. apply BOP. exists h. split; [exact Hh|].
        apply hop_cons. left. split; [reflexivity|]. unfold hb. destruct (gh_ids h); cbn; eauto. }
  destruct (Hback (map (fun a => o_gradient op (fst (G a))) (into root brun))) as (r2 & ER2).
  { rewrite (Permutation_map (fun a => o_gradient op (fst (G a))) INTO), map_map.
    erewrite map_ext_in; [apply Permutation_refl|]. intros h Hh. apply (HB h Hh). }
  destruct (run_backward op x Hkeep root G brun [] ns4 r1 SInput r2) as (ns5 & E5 & LN5 & HN5); auto.
  { intros (a & b) Hab. cbn [app] in Hab. apply BOP in Hab. destruct Hab as (h & Hh & P). cbn [fst].
    apply hop_tl in P. intros ->. now apply (RB h Hh). }
  { intros a b Hab Hb. apply BOP in Hab. destruct Hab as (h & Hh & P). apply hop_cons in P.
    destruct P as [(-> & _)|P]; [contradiction|].
    assert (Hbi : In b (gh_ids h)).
    { destruct (hop_in _ _ _ P) as (X & _). unfold hb in X. apply in_app_or in X. destruct X as [X|[<-|[]]]; [exact X|].
      exfalso. pose proof (body_nd _ _ _ HST _ (shape_in h Hh)) as ND. cbn [fst snd] in ND.
      destruct P as (l1 & l2 & E). unfold hb in E. rewrite E in ND.
      destruct (exists_last (l := gh_loss h :: a :: l2)) as (l9 & z & E9); [discriminate|].
      rewrite E9, app_assoc in E. apply app_inj_tail in E. destruct E as (_ & <-).
      apply NoDup_split in ND. destruct ND as (_ & ND & _).
      destruct l9 as [|z9 l9]; [discriminate|]. cbn [app] in E9. injection E9 as <- E9.
      inversion ND as [|? ? N9 N10]; subst. apply N9. rewrite E9. apply in_or_app. right. now left. }
    destruct (HB h Hh) as (X & _). destruct (X a b P) as (s & c & last & s' & Q1 & Q2 & Q3 & Q4).
    exists s, (SNode c), last, s'. split; [rewrite (ST4 h Hh b Hbi); now rewrite Q1|]. split; [|auto].
    rewrite (deref_same op x ns3 ns4 (SNode c) HO4). cbn [deref]. unfold node_output.
    rewrite (rd_some _ _ (F c)).
    - destruct (F c) as (sc, pc). cbn [bind]. exact Q2.
    - apply (ST3 h Hh).
      destruct (LINK F (hb h) root (gh_ss1 h ++ [gh_lo1 h])) with (i := b) as (s0 & c0 & Z1 & Z2 & _).
      + unfold hb. rewrite !app_length, (L1 h Hh). reflexivity.
      + exact (FE h Hh).
      + unfold hb. apply in_or_app. now left.
      + rewrite Q1 in Z1. injection Z1 as -> ->. exact Z2. }
  { intros a b Hab Hno. apply BOP in Hab. destruct Hab as (h & Hh & P).
    assert (Ha : In a (hb h)) by (now apply hop_tl in P).
    unfold hb in Ha. apply in_app_or in Ha. destruct Ha as [Ha|[<-|[]]].
    - exfalso. apply in_split in Ha. destruct Ha as (l1 & l2 & El).
      destruct (l2 ++ [gh_loss h]) as [|c q] eqn:Eq; [destruct l2; discriminate|].
      apply (Hno c). apply BOP. exists h. split; [exact Hh|]. apply hop_cons. right. exists l1, q.
      unfold hb. rewrite El, <- app_assoc. cbn [app]. now rewrite Eq.
    - rewrite HN4. assert (X : In (gh_loss h) (losses (mgraph m))) by (apply LOSS; eauto).
      apply mem_In in X. now rewrite X. }
  { rewrite <- ER2. clear. generalize r1. induction (into root brun) as [|a l IH]; intros s; cbn [foldM map]; [reflexivity|].
    destruct (o_backward op s x (o_gradient op (fst (G a)))); cbn [bind]; auto. }
  exists (map (fun a => o_gradient op (fst (G a))) (into root brun)), r2, ns5.
  split. { rewrite (Permutation_map (fun a => o_gradient op (fst (G a))) INTO), map_map.
    erewrite map_ext_in; [apply Permutation_refl|]. intros h Hh. apply (HB h Hh). }
  split; [exact ER2|].
  split. { unfold m_step. rewrite ET. cbn [bind]. rewrite EB. cbn [bind]. rewrite E1. cbn [bind]. rewrite E2. cbn [bind].
    rewrite E3. cbn [bind]. rewrite E4. cbn [bind]. rewrite E5. reflexivity. }
  split; [congruence|].
  split; [rewrite HN5, Nat.eqb_refl; reflexivity|].
  split.
  - intros h Hh e He. assert (Hi : In (fst e) (hb h)).
    { unfold hb; rewrite <- (K2 h Hh). now apply in_map. }
    rewrite HN5. destruct (Nat.eqb_spec (fst e) root) as [Er|Hne]; [exfalso; apply (RB h Hh); rewrite <- Er; exact Hi|].
    rewrite <- (GE h Hh e He).
    unfold hb in Hi. apply in_app_or in Hi. destruct Hi as [Hi|[Hi|[]]].
    + assert (X : In (fst e) (map snd brun)).
      { apply in_split in Hi. destruct Hi as (l1 & l2 & El).
        destruct (l2 ++ [gh_loss h]) as [|c q] eqn:Eq; [destruct l2; discriminate|].
        apply in_map_iff. exists (c, fst e). split; [reflexivity|]. apply BOP. exists h. split; [exact Hh|].
        apply hop_cons. right. exists l1, q. unfold hb. rewrite El, <- app_assoc. cbn [app]. now rewrite Eq. }
      apply mem_In in X. now rewrite X.
    + rewrite <- Hi. destruct (mem (gh_loss h) (map snd brun)); [reflexivity|].
      rewrite HN4. assert (X : In (gh_loss h) (losses (mgraph m))) by (apply LOSS; eauto).
      apply mem_In in X. now rewrite X.
  - intros i Hir Hno. rewrite HN5. destruct (Nat.eqb_spec i root); [contradiction|].
    assert (X : mem i (map snd brun) = false).
    { destruct (mem i (map snd brun)) eqn:EM; [|reflexivity]. apply mem_In, in_map_iff in EM.
      destruct EM as ((a & b) & E & Hab). cbn in E. subst b. apply BOP in Hab. destruct Hab as (h & Hh & P).
      destruct (hop_in _ _ _ P) as ([X|X] & _); [congruence|]. destruct (Hno h Hh X). }
    rewrite X, HN4. destruct (mem i (losses (mgraph m))) eqn:EM.
    { apply mem_In, LOSS in EM. destruct EM as (h & Hh & ->). exfalso. apply (Hno h Hh). apply in_or_app. right. now left. }
    rewrite HN3. destruct (mem i (map snd trun)) eqn:EM2.
    { apply mem_In, TGT in EM2. destruct EM2 as (h & Hh & Hi). destruct (Hno h Hh Hi). }
    unfold ns2. rewrite Base.nth_error_upd. destruct (Nat.eqb_spec i root); [contradiction|]. rewrite HN1, EM. reflexivity.
Qed.
End Step.
