(** C81: layers several connections lead to. *)
From Verif Require Import Base Num RSum MathModel MathProofs LayerModel LossModel GraphModel GraphSpec GraphProofs PropGraph ModelModel NodeModel
  ChainProofs ModelProofs StepProofs GradSpec GradProofs GradChain PropModel PropStep TreeProofs HeadsSpec HeadsProofs PropHeads.
From Coq Require Import Reals Lra.

(** *** Routes *)
(** [route start arcs b p]: [p] is found by going back from [b], always along the connection
    that comes last in the list among those into the node and before the one just used, until
    a starting node none leads to is reached. *)
Inductive route (start : list nat) : list (nat * nat) -> nat -> list nat -> Prop :=
| route_start : forall arcs b, In b start -> (forall a, ~ In (a, b) arcs) -> route start arcs b [b]
| route_last : forall l1 a b l2 p, (forall a', ~ In (a', b) l2) -> route start l1 a p ->
    route start (l1 ++ (a, b) :: l2) b (p ++ [b]).

Lemma last_arc_unique (l1 l2 l3 l4 : list (nat * nat)) a a' b :
  l1 ++ (a, b) :: l2 = l3 ++ (a', b) :: l4 -> (forall c, ~ In (c, b) l2) -> (forall c, ~ In (c, b) l4) ->
  l1 = l3 /\ a = a' /\ l2 = l4.
Proof.
  revert l3. induction l1 as [|z l1 IH]; intros [|z' l3] E H1 H2; cbn in E.
  - injection E as -> ->. auto.
  - injection E as <- E. destruct (H1 a'). rewrite E. apply in_or_app. right. now left.
  - injection E as -> E. destruct (H2 a). rewrite <- E. apply in_or_app. right. now left.
  - injection E as -> E. destruct (IH _ E H1 H2) as (-> & -> & ->). auto.
Qed.

Lemma route_unique start arcs b p : route start arcs b p -> forall p', route start arcs b p' -> p = p'.
Proof.
  induction 1 as [arcs b Hb HN|l1 a b l2 p HL HR IH]; intros p' HR'.
  - inversion HR' as [? ? ? HN'|l1' a' ? l2' q HL' HR1 E]; subst; [reflexivity|].
    destruct (HN a'). apply in_or_app. right. now left.
  - inversion HR' as [? ? ? HN' E|l1' a' ? l2' q HL' HR1 E]; subst.
    + destruct (HN' a). apply in_or_app. right. now left.
    + destruct (last_arc_unique _ _ _ _ _ _ _ E HL' HL) as (-> & -> & ->). now rewrite (IH q HR1).
Qed.

Lemma route_snoc start arcs a b i p : route start (arcs ++ [(a, b)]) i p <->
  (i = b /\ exists p', route start arcs a p' /\ p = p' ++ [b]) \/ (i <> b /\ route start arcs i p).
Proof.
  split.
  - intros HR. inversion HR as [? ? Hi HN|l1 a' ? l2 q HL HR1 E]; subst.
    + right. assert (N : i <> b).
      { intros ->. apply (HN a). apply in_or_app. right. now left. }
      split; [exact N|]. constructor; [exact Hi|]. intros c Hc. apply (HN c). apply in_or_app. now left.
    + destruct l2 as [|z l2] using rev_ind.
      * apply app_inj_tail in E. destruct E as (-> & E). injection E as -> ->. left. eauto.
      * clear IHl2. rewrite app_comm_cons, app_assoc in E. apply app_inj_tail in E. destruct E as (<- & ->).
        right. split.
        { intros ->. apply (HL a). apply in_or_app. right. now left. }
        constructor; [|exact HR1]. intros c Hc. apply (HL c). apply in_or_app. now left.
  - intros [(-> & p' & HR & ->)|(N & HR)].
    + constructor; [intros c []|exact HR].
    + inversion HR as [? ? Hi HN|l1 a' ? l2 q HL HR1]; subst.
      * constructor; [exact Hi|]. intros c Hc. apply in_app_or in Hc. destruct Hc as [Hc|[Hc|[]]]; [now apply (HN c)|].
        injection Hc as -> ->. contradiction.
      * rewrite <- app_assoc. cbn [app]. constructor; [|exact HR1]. intros c Hc.
        apply in_app_or in Hc. destruct Hc as [Hc|[Hc|[]]]; [now apply (HL c)|]. injection Hc as -> ->. contradiction.
Qed.

(** Every connection of the list leaves a starting node or a node an earlier one leads to. *)
Definition fed (start : list nat) (arcs : list (nat * nat)) : Prop :=
  forall l1 a b l2, arcs = l1 ++ (a, b) :: l2 -> In a start \/ exists c, In (c, a) l1.

Lemma fed_prefix start l l' : fed start (l ++ l') -> fed start l.
Proof. intros F l1 a b l2 E. apply (F l1 a b (l2 ++ l')). rewrite E, <- app_assoc. reflexivity. Qed.

Lemma route_exists start arcs : fed start arcs -> forall i, In i start \/ (exists c, In (c, i) arcs) ->
  exists p, route start arcs i p.
Proof.
  induction arcs as [|(a, b) arcs IH] using rev_ind; intros F i Hi.
  - destruct Hi as [Hi|(c & [])]. exists [i]. constructor; auto.
  - pose proof (fed_prefix _ _ _ F) as F1. destruct (Nat.eq_dec i b) as [->|N].
    + destruct (IH F1 a) as (p & Hp).
      { destruct (F arcs a b [] eq_refl) as [X|X]; auto. }
      exists (p ++ [b]). apply route_snoc. left. eauto.
    + destruct (IH F1 i) as (p & Hp).
      { destruct Hi as [X|(c & X)]; [now left|]. apply in_app_or in X. destruct X as [X|[X|[]]]; [right; eauto|].
        injection X as -> ->. contradiction. }
      exists p. apply route_snoc. right. auto.
Qed.

Lemma route_covered start arcs i p : route start arcs i p -> In i start \/ exists c, In (c, i) arcs.
Proof.
  intros HR. inversion HR as [? ? Hi HN|l1 a ? l2 q HL HR1]; subst; [now left|].
  right. exists a. apply in_or_app. right. now left.
Qed.

Lemma schedule_fed n g start fuel arcs : finite_graph n g -> NoDup start ->
  schedule fuel g start = Some arcs -> fed start arcs.
Proof.
  intros Hf Hn E l1 a b l2 El.
  destruct (c34_schedule n g start Hf Hn) as (arcs1 & E1 & U & ND & IN). rewrite <- (U _ _ E) in IN.
  destruct (proj1 (IN a b)) as ((k & Wk) & Hab); [rewrite El; apply in_or_app; right; now left|].
  revert Wk. induction k as [k IH] using lt_wf_ind; intros Wk.
  inversion Wk as [? Hs|k0 c ? Wc Hc]; subst; [now left|].
  assert (Hca : In (c, a) (l1 ++ (a, b) :: l2)) by (apply IN; split; [exists k0; exact Wc|exact Hc]).
  apply in_app_or in Hca. destruct Hca as [X|[X|X]]; [right; eauto| |].
  - injection X as -> ->. apply (IH k0); [lia|exact Wc].
  - apply in_split in X. destruct X as (l3 & l4 & ->).
    destruct (c35_breadth_first n g start fuel (l1 ++ (a, b) :: l3 ++ (c, a) :: l4) Hf Hn E (l1 ++ (a, b) :: l3) c a l4 a b)
      as (j & j' & (W1 & M1) & (W2 & M2) & Hle).
    + rewrite <- app_assoc. reflexivity.
    + apply in_or_app. right. now left.
    + specialize (M2 _ Wc). apply (IH j'); [lia|exact W1].
Qed.

(** A route is a path through the graph from a starting node. *)
Lemma route_path g start arcs b p : (forall a c, In (a, c) arcs -> In c (g a)) -> route start arcs b p ->
  (exists i r, p = i :: r /\ In i start) /\ (exists q, p = q ++ [b]) /\ (forall a c, hop p a c -> In c (g a)).
Proof.
  intros HA HR. induction HR as [arcs b Hb HN|l1 a b l2 p HL HR IH].
  - split; [exists b, []; auto|]. split; [exists []; reflexivity|].
    intros a c HH. apply hop_cons in HH. destruct HH as [(_ & r & E)|HH]; [discriminate|destruct (hop_nil _ _ HH)].
  - destruct IH as ((i & r & -> & Hi) & (q & Eq) & HH).
    { intros a' c Hac. apply HA. apply in_or_app. now left. }
    split; [exists i, (r ++ [b]); auto|]. split; [eauto|].
    intros a' c H'. rewrite Eq in H'. rewrite <- app_assoc in H'. cbn [app] in H'.
    assert (X : hop (q ++ [a]) a' c \/ (a' = a /\ c = b)).
    { destruct H' as (l3 & l4 & E). destruct l4 as [|z l4] using rev_ind.
      - replace (l3 ++ [a'; c]) with ((l3 ++ [a']) ++ [c]) in E by (rewrite <- app_assoc; reflexivity).
        replace (q ++ [a; b]) with ((q ++ [a]) ++ [b]) in E by (rewrite <- app_assoc; reflexivity).
        apply app_inj_tail in E. destruct E as (E & ->). apply app_inj_tail in E. destruct E as (_ & ->). auto.
      - clear IHl4. left. exists l3, l4.
        replace (q ++ [a; b]) with ((q ++ [a]) ++ [b]) in E by (rewrite <- app_assoc; reflexivity).
        replace (l3 ++ a' :: c :: l4 ++ [z]) with ((l3 ++ a' :: c :: l4) ++ [z]) in E by (rewrite <- app_assoc; reflexivity).
        apply app_inj_tail in E. apply E. }
    destruct X as [X|(-> & ->)]; [apply HH; now rewrite Eq|].
    apply HA. apply in_or_app. right. now left.
Qed.

(** *** What a graph of layers predicts *)
Local Open Scope R_scope.
(** Dense and activation layers connected in any way, the sizes of connected layers matching:
    [win i], [wout i] are the sizes of layer [i]. Cycles are allowed. *)
Record sized_graph (m : model (node R)) (win wout : nat -> nat) (n : nat) : Prop := {
  sg_fin : finite_graph (nodes (mgraph m)) (fgraph (mgraph m));
  sg_nd : NoDup (inputs (mgraph m));
  sg_node : forall i, In i (inputs (mgraph m) ++ outputs (mgraph m)) \/ (exists a, In i (fgraph (mgraph m) a)) ->
    exists l q, nth_error (mnodes m) i = Some (NL l, q) /\ lshape l (win i) (wout i);
  sg_in : forall i, In i (inputs (mgraph m)) -> win i = n;
  sg_arc : forall a b, In b (fgraph (mgraph m) a) -> win b = wout a
}.

Section Run.
Variables (draw : nat -> R) (m : model (node R)) (win wout : nat -> nat) (n : nat) (x : list R).
Hypothesis W : sized_graph m win wout n.
Hypothesis Hx : length x = n.
Let g := mgraph m.
Let inside i := In i (inputs g ++ outputs g) \/ exists a, In i (fgraph g a).

(** Node [i] after the connections [done]. *)
Definition after (done : list (nat * nat)) (ns : list (node R * source)) (i : nat) : Prop :=
  exists l q, nth_error (mnodes m) i = Some (NL l, q) /\ lshape l (win i) (wout i) /\
  ((exists p ls, route (inputs g) done i p /\ states_on m p (map NL ls) /\ length (net_value ls x) = wout i /\
     nth_error ns i = Some (NL (set_out l (net_value ls x)), q)) \/
   (~ In i (inputs g) /\ (forall c, ~ In (c, i) done) /\ nth_error ns i = Some (NL l, q))).

Lemma states_snoc p i ls l q : states_on m p (map NL ls) -> nth_error (mnodes m) i = Some (NL l, q) ->
  states_on m (p ++ [i]) (map NL (ls ++ [l])).
Proof. intros A B. rewrite map_app. apply Forall2_app; [exact A|]. constructor; [eauto|constructor]. Qed.
Lemma net_value_snoc ls l v : net_value (ls ++ [l]) v = layer_sem l (net_value ls v).
Proof. unfold net_value. rewrite fold_left_app. reflexivity. Qed.

Lemma forward_again l i j v y : lshape l i j -> length v = j -> length y = i ->
  layer_forward (set_out l v) y = Ok (set_out l (layer_sem l y)) /\ length (layer_sem l y) = j.
Proof.
  intros A B C. destruct (layer_forward_sem _ _ _ y (lshape_set_out l _ _ v A B) C) as (E & L).
  assert (X : layer_sem (set_out l v) y = layer_sem l y).
  { apply layer_sem_params; [repeat split|]. cbn [set_out out]. rewrite B. symmetry. apply A. }
  rewrite X in E, L. split; [exact E|exact L].
Qed.

Lemma run_inputs : exists ns, foldM (feed_input (node_ops draw) false x) (inputs g) (mnodes m) = Ok ns /\
  forall i, inside i -> after [] ns i.
Proof.
  assert (X : forall ins ns, incl ins (inputs g) -> NoDup ins -> (forall i, In i ins -> nth_error ns i = nth_error (mnodes m) i) ->
    exists ns', foldM (feed_input (node_ops draw) false x) ins ns = Ok ns' /\
      forall i l q, lshape l (win i) (wout i) -> nth_error (mnodes m) i = Some (NL l, q) ->
        nth_error ns' i = if mem i ins then Some (NL (set_out l (layer_sem l x)), q) else nth_error ns i).
  { induction ins as [|a ins IH]; intros ns HI ND HN; [exists ns; split; [reflexivity|reflexivity]|].
    apply NoDup_cons_iff in ND as (N1 & N2).
    assert (Ha : In a (inputs g)) by (apply HI; now left).
    destruct (sg_node _ _ _ _ W a) as (l & q & El & Sl); [left; apply in_or_app; now left|].
    pose proof (HN a (or_introl eq_refl)) as Ea. rewrite El in Ea.
    cbn [foldM]. unfold feed_input at 1, feed. rewrite (rd_some _ _ _ Ea). cbn [bind].
    change (o_forward (node_ops draw) (NL l) x) with (l' <- layer_forward l x ;; Ok (NL l')).
    destruct (layer_forward_sem l _ _ x Sl) as (E & L).
    { rewrite (sg_in _ _ _ _ W a Ha). exact Hx. }
    rewrite E. cbn [bind]. rewrite (wr_some _ _ _ _ Ea). cbn [bind].
    destruct (IH (upd ns a (NL (set_out l (layer_sem l x)), q))) as (ns' & E' & F').
    { intros z Hz. apply HI. now right. }
    { exact N2. }
    { intros i Hi. rewrite Base.nth_error_upd. destruct (Nat.eqb_spec i a) as [->|]; [contradiction|]. apply HN. now right. }
    exists ns'. split; [exact E'|]. intros i li qi Si Ei. rewrite (F' i li qi Si Ei).
    cbn [mem existsb]. fold (mem i ins). destruct (mem i ins) eqn:EM; [now rewrite Bool.orb_true_r|].
    rewrite Bool.orb_false_r, Base.nth_error_upd. destruct (Nat.eqb_spec i a) as [->|]; [|reflexivity].
    destruct (Nat.ltb_spec a (length ns)) as [|Z]; [|apply nth_error_None in Z; congruence].
    rewrite El in Ei. injection Ei as -> ->. reflexivity. }
  destruct (X (inputs g) (mnodes m) (incl_refl _) (sg_nd _ _ _ _ W) (fun _ _ => eq_refl)) as (ns & E & F).
  exists ns. split; [exact E|]. intros i Hi. destruct (sg_node _ _ _ _ W i Hi) as (l & q & El & Sl).
  exists l, q. split; [exact El|]. split; [exact Sl|]. specialize (F i l q Sl El).
  destruct (mem i (inputs g)) eqn:EM.
  - apply mem_In in EM. left. exists [i], [l]. split; [now constructor; [|intros ? []]|].
    split; [repeat constructor; eauto|]. split; [|exact F].
    apply (layer_forward_sem l _ _ x Sl). rewrite (sg_in _ _ _ _ W i EM). exact Hx.
  - right. split; [intros Z; apply mem_In in Z; congruence|]. split; [intros c []|]. now rewrite F.
Qed.

Lemma run_arcs : forall arcs done ns, fed (inputs g) (done ++ arcs) ->
  (forall a b, In (a, b) (done ++ arcs) -> In b (fgraph g a) /\ inside a) -> (forall i, inside i -> after done ns i) ->
  exists ns', foldM (run_arc (node_ops draw) false) arcs ns = Ok ns' /\ forall i, inside i -> after (done ++ arcs) ns' i.
Proof.
  induction arcs as [|(a, b) arcs IH]; intros done ns F IN A.
  - exists ns. rewrite app_nil_r. auto.
  - destruct (IN a b) as (Hab & Ia); [apply in_or_app; right; now left|].
    assert (Ib : inside b) by (right; eauto).
    destruct (A a Ia) as (la & qa & Ea & Sa & [(pa & lsa & Ra & Pa & La & Na)|(Z1 & Z2 & _)]).
    2:{ exfalso. destruct (F done a b arcs eq_refl) as [X|(c & X)]; [contradiction|now apply Z2 in X]. }
    destruct (A b Ib) as (lb & qb & Eb & Sb & Bb).
    assert (Y : exists v, length v = wout b /\ nth_error ns b = Some (NL (set_out lb v), qb)).
    { destruct Bb as [(pb & lsb & _ & _ & Lb & Nb)|(_ & _ & Nb)]; [eauto|]. exists (out lb). split; [apply Sb|].
      rewrite Nb. destruct lb; reflexivity. }
    destruct Y as (v & Lv & Nb).
    cbn [foldM]. unfold run_arc at 1, node_output, feed. rewrite (rd_some _ _ _ Na). cbn [bind].
    change (o_output (node_ops draw) (NL (set_out la (net_value lsa x)))) with (Ok (net_value lsa x)). cbn [bind].
    rewrite (rd_some _ _ _ Nb). cbn [bind].
    change (o_forward (node_ops draw) (NL (set_out lb v)) (net_value lsa x))
      with (l' <- layer_forward (set_out lb v) (net_value lsa x) ;; Ok (NL l')).
    destruct (forward_again lb _ _ v (net_value lsa x) Sb Lv) as (E & L).
    { rewrite La. symmetry. now apply (sg_arc _ _ _ _ W). }
    rewrite E. cbn [bind]. rewrite (wr_some _ _ _ _ Nb). cbn [bind].
    destruct (IH (done ++ [(a, b)]) (upd ns b (NL (set_out lb (layer_sem lb (net_value lsa x))), qb))) as (ns' & E' & A').
    { rewrite <- app_assoc. exact F. }
    { rewrite <- app_assoc. exact IN. }
    { intros i Hi. unfold after. destruct (Nat.eq_dec i b) as [->|N].
      - exists lb, qb. split; [exact Eb|]. split; [exact Sb|]. left. exists (pa ++ [b]), (lsa ++ [lb]).
        split; [apply route_snoc; left; eauto|]. split; [eapply states_snoc; eauto|].
        rewrite net_value_snoc. split; [exact L|]. rewrite Base.nth_error_upd, Nat.eqb_refl.
        destruct (Nat.ltb_spec b (length ns)) as [|Z]; [reflexivity|apply nth_error_None in Z; congruence].
      - destruct (A i Hi) as (l & q & El & Sl & C). exists l, q. split; [exact El|]. split; [exact Sl|].
        assert (NE : nth_error (upd ns b (NL (set_out lb (layer_sem lb (net_value lsa x))), qb)) i = nth_error ns i).
        { rewrite Base.nth_error_upd. destruct (Nat.eqb_spec i b); [contradiction|reflexivity]. }
        rewrite NE. destruct C as [(p & ls & R' & P & L' & N')|(Z1 & Z2 & N')].
        + left. exists p, ls. split; [apply route_snoc; right; auto|auto].
        + right. split; [exact Z1|]. split; [|exact N']. intros c Hc. apply in_app_or in Hc.
          destruct Hc as [Hc|[Hc|[]]]; [now apply (Z2 c)|]. injection Hc as -> ->. contradiction. }
    rewrite <- app_assoc in A'. exists ns'. split; [exact E'|exact A'].
Qed.
End Run.

Lemma states_unique (m : model (node R)) : forall p ls ls', states_on m p (map NL ls) -> states_on m p (map NL ls') -> ls = ls'.
Proof.
  induction p as [|i p IH]; intros [|l ls] [|l' ls'] A B; try reflexivity; try (inversion A; fail); try (inversion B; fail).
  cbn [map] in A, B. inversion A as [|? ? ? ? (q1 & E1) A']; subst. inversion B as [|? ? ? ? (q2 & E2) B']; subst.
  rewrite E1 in E2. injection E2 as -> _. f_equal. now apply IH.
Qed.

(** The prediction is the composition of the layers along one path, which the graph alone
    determines: the route of the first output layer in the forward schedule. An output layer no
    input leads to returns what its buffer held before. *)
Theorem c81_single_path : forall g o r arcs, outputs g = o :: r ->
  schedule (nodes g + 2) g.(fgraph) (inputs g) = Some arcs ->
  finite_graph (nodes g) (fgraph g) -> NoDup (inputs g) ->
  (reachable (fgraph g) (inputs g) o -> exists p q, route (inputs g) arcs o p /\ p = q ++ [o] /\ branch g p /\
     forall draw m win wout n x ls, mgraph m = g -> sized_graph m win wout n -> length x = n ->
       states_on m p (map NL ls) -> exists m', m_predict (node_ops draw) m x = Ok (m', net_value ls x)) /\
  (~ reachable (fgraph g) (inputs g) o ->
     forall draw m win wout n x, mgraph m = g -> sized_graph m win wout n -> length x = n ->
       exists m' l s, nth_error (mnodes m) o = Some (NL l, s) /\ m_predict (node_ops draw) m x = Ok (m', out l)).
Proof.
  intros g o r arcs EO ES Hf Hn.
  pose proof (schedule_fed _ _ _ _ _ Hf Hn ES) as F.
  destruct (c34_schedule _ _ _ Hf Hn) as (arcs1 & _ & U & _ & IN). rewrite <- (U _ _ ES) in IN. clear U arcs1.
  assert (RUN : forall draw m win wout n x, mgraph m = g -> sized_graph m win wout n -> length x = n ->
    exists ns, m_predict (node_ops draw) m x = (y <- node_output (node_ops draw) ns o ;; Ok (mkModel g ns, y)) /\
      after m win wout x arcs ns o).
  { intros draw m win wout n x EG W Hx. subst g.
    destruct (run_inputs draw m win wout n x W Hx) as (ns1 & E1 & A1).
    destruct (run_arcs draw m win wout n x W arcs [] ns1) as (ns2 & E2 & A2).
    - exact F.
    - cbn [app]. intros a b Hab. apply IN in Hab. destruct Hab as ((k & Wk) & Hb). split; [exact Hb|].
      inversion Wk as [? Hs|? c ? Wc Hc]; subst; [left; apply in_or_app; now left|right; eauto].
    - exact A1.
    - exists ns2. split.
      + unfold m_predict. rewrite EO. unfold sched. rewrite ES. cbn [bind]. rewrite E1. cbn [bind]. rewrite E2. reflexivity.
      + apply A2. left. apply in_or_app. right. rewrite EO. now left. }
  assert (COV : reachable (fgraph g) (inputs g) o -> In o (inputs g) \/ exists c, In (c, o) arcs).
  { intros (k & Wk). inversion Wk as [? Hs|k0 c ? Wc Hc]; subst; [now left|]. right. exists c. apply IN.
    split; [exists k0; exact Wc|exact Hc]. }
  split.
  - intros HR. destruct (route_exists _ _ F o (COV HR)) as (p & Hp).
    destruct (route_path (fgraph g) _ _ _ _ (fun a c Hac => proj2 (proj1 (IN a c) Hac)) Hp) as (P1 & (q & Eq) & P3).
    exists p, q. split; [exact Hp|]. split; [exact Eq|]. split; [split; assumption|].
    intros draw m win wout n x ls EG W Hx HS.
    destruct (RUN draw m win wout n x EG W Hx) as (ns & E & (l & s & El & Sl & [(p' & ls' & R' & P' & L' & N')|(Z1 & Z2 & _)])).
    + rewrite EG in R'. pose proof (route_unique _ _ _ _ Hp _ R') as Epp. subst p'.
      assert (ls' = ls).
      { exact (states_unique m p ls' ls P' HS). }
      subst ls'. exists (mkModel g ns). rewrite E. unfold node_output. rewrite (rd_some _ _ _ N'). reflexivity.
    + exfalso. rewrite EG in Z1. destruct (COV HR) as [X|(c & X)]; [contradiction|now apply Z2 in X].
  - intros HR draw m win wout n x EG W Hx.
    destruct (RUN draw m win wout n x EG W Hx) as (ns & E & (l & s & El & Sl & [(p' & ls' & R' & P' & L' & N')|(Z1 & Z2 & N')])).
    + exfalso. apply HR. rewrite EG in R'. destruct (route_covered _ _ _ _ R') as [X|(c & X)]; [exists 0%nat; now constructor|].
      apply IN in X. destruct X as ((k & Wk) & Hc). exists (S k). econstructor; eauto.
    + exists (mkModel g ns), l, s. split; [exact El|]. rewrite E. unfold node_output. rewrite (rd_some _ _ _ N'). reflexivity.
Qed.
Print Assumptions c81_single_path.

(** Layers off that path take no part: replacing them changes no prediction. *)
Theorem c81_others_ignored : forall g o r arcs p, outputs g = o :: r ->
  schedule (nodes g + 2) (fgraph g) (inputs g) = Some arcs -> route (inputs g) arcs o p ->
  forall draw m m' win wout win' wout' n x, mgraph m = g -> mgraph m' = g ->
    sized_graph m win wout n -> sized_graph m' win' wout' n -> length x = n ->
    (forall i l q, In i p -> nth_error (mnodes m) i = Some (NL l, q) -> exists q', nth_error (mnodes m') i = Some (NL l, q')) ->
    exists m1 m2 y, m_predict (node_ops draw) m x = Ok (m1, y) /\ m_predict (node_ops draw) m' x = Ok (m2, y).
Proof.
  intros g o r arcs p EO ES HR draw m m' win wout win' wout' n x EG EG' W W' Hx HS.
  assert (Hf : finite_graph (nodes g) (fgraph g)) by (rewrite <- EG; apply W).
  assert (Hn : NoDup (inputs g)) by (rewrite <- EG; apply W).
  destruct (c34_schedule _ _ _ Hf Hn) as (arcs1 & _ & U & _ & IN). rewrite <- (U _ _ ES) in IN. clear U arcs1.
  destruct (c81_single_path g o r arcs EO ES Hf Hn) as (A & _).
  destruct A as (p' & q & HR' & Eq & BR & A).
  { destruct (route_covered _ _ _ _ HR) as [X|(c & X)]; [exists 0%nat; now constructor|].
    apply IN in X. destruct X as ((k & Wk) & Hc). exists (S k). econstructor; eauto. }
  rewrite <- (route_unique _ _ _ _ HR _ HR') in *. clear HR' p'.
  assert (X : forall p0, (forall i, In i p0 -> In i p) -> exists ls, states_on m p0 (map NL ls) /\ states_on m' p0 (map NL ls)).
  { induction p0 as [|i p0 IH]; intros HI; [exists []; split; constructor|].
    destruct IH as (ls & L1 & L2); [intros z Hz; apply HI; now right|].
    assert (Hi : In i p) by (apply HI; now left).
    destruct (sg_node _ _ _ _ W i) as (l & s & El & _).
    { rewrite EG. destruct BR as ((i0 & r0 & Ep & Hi0) & HH). rewrite Ep in Hi. destruct Hi as [<-|Hi]; [left; apply in_or_app; now left|].
      right. destruct (hop_to i0 r0 i Hi) as (a & Ha). exists a. apply HH. now rewrite Ep. }
    destruct (HS i l s Hi El) as (s' & El'). exists (l :: ls). split; constructor; eauto. }
  destruct (X p (fun _ H => H)) as (ls & L1 & L2).
  destruct (A draw m win wout n x ls EG W Hx L1) as (m1 & E1).
  destruct (A draw m' win' wout' n x ls EG' W' Hx L2) as (m2 & E2). eauto.
Qed.
Print Assumptions c81_others_ignored.

(** *** Shortcuts *)
(** Three layers in a row and a connection from the first to the last; the same without it; and
    five layers in a row with a connection from the first to the fourth. *)
Definition row3_calls : list gop := [GLayer; GLayer; GLayer; GEdge 0 1; GEdge 1 2]%nat.
Definition short3_calls : list gop := (row3_calls ++ [GEdge 0 2])%nat.
Definition short5_calls : list gop :=
  [GLayer; GLayer; GLayer; GLayer; GLayer; GEdge 0 1; GEdge 1 2; GEdge 2 3; GEdge 3 4; GEdge 0 3]%nat.
Definition layers_model (g : dlgraph) (ls : list (layer R)) : model (node R) := mkModel g (map (fun l => (NL l, SNull)) ls).

(** How a built graph looks, by computation. *)
Definition looks (g : dlgraph) (k : nat) (succ : nat -> list nat) (arcs : list (nat * nat)) : Prop :=
  nodes g = k /\ (forall a, fgraph g a = succ a) /\ inputs g = [0%nat] /\ outputs g = [(k - 1)%nat] /\
  schedule (nodes g + 2) (fgraph g) (inputs g) = Some arcs.

Lemma looks_of os k succ arcs : match gbuild os with Ok g => looks g k succ arcs | _ => False end ->
  exists g, gbuild os = Ok g /\ looks g k succ arcs /\ finite_graph (nodes g) (fgraph g) /\ NoDup (inputs g).
Proof.
  destruct (gbuild os) as [g| |] eqn:E; try contradiction. intros L. exists g. split; [reflexivity|]. split; [exact L|].
  destruct (c34_built_models _ _ E) as (F1 & _ & _ & F4 & _). auto.
Qed.

Lemma sized_layers g k succ arcs ls win wout n : looks g k succ arcs -> finite_graph (nodes g) (fgraph g) -> NoDup (inputs g) ->
  length ls = k -> (forall i l, nth_error ls i = Some l -> lshape l (win i) (wout i)) -> (0 < k)%nat -> win 0%nat = n ->
  (forall a b, In b (succ a) -> win b = wout a) -> sized_graph (layers_model g ls) win wout n.
Proof.
  intros (L1 & L2 & L3 & L4 & L5) Hf Hn HL HS Hk Hw HA. constructor; cbn [layers_model mgraph mnodes]; auto.
  - intros i Hi. assert (I : (i < k)%nat).
    { rewrite L3, L4 in Hi. destruct Hi as [[<-|[<-|[]]]|(a & Ha)]; [lia|lia|]. apply Hf in Ha. lia. }
    rewrite <- HL in I. apply nth_error_Some in I. destruct (nth_error ls i) as [l|] eqn:E; [|contradiction].
    exists l, SNull. split; [now rewrite nth_error_map, E|auto].
  - intros i. rewrite L3. intros [<-|[]]. exact Hw.
  - intros a b. rewrite L2. apply HA.
Qed.

Lemma looks_predict g k succ arcs p q : looks g k succ arcs -> finite_graph (nodes g) (fgraph g) -> NoDup (inputs g) ->
  route [0%nat] arcs (k - 1) p -> (forall ls, length ls = k -> exists ls', q ls = ls' /\ Forall2 (fun i l => nth_error ls i = Some l) p ls') ->
  forall draw ls win wout n x, length ls = k -> (forall i l, nth_error ls i = Some l -> lshape l (win i) (wout i)) -> (0 < k)%nat ->
    win 0%nat = n -> (forall a b, In b (succ a) -> win b = wout a) -> length x = n ->
    exists m', m_predict (node_ops draw) (layers_model g ls) x = Ok (m', net_value (q ls) x).
Proof.
  intros L Hf Hn HR HQ draw ls win wout n x HL HS Hk Hw HA Hx.
  pose proof (sized_layers _ _ _ _ _ _ _ _ L Hf Hn HL HS Hk Hw HA) as W.
  destruct L as (L1 & L2 & L3 & L4 & L5).
  destruct (c34_schedule _ _ _ Hf Hn) as (arcs1 & _ & U & _ & IN). rewrite <- (U _ _ L5) in IN. clear U arcs1.
  destruct (c81_single_path g _ _ _ L4 L5 Hf Hn) as (A & _). rewrite L3 in A, IN.
  destruct A as (p' & z & HR' & Eq & BR & A).
  { destruct (route_covered _ _ _ _ HR) as [X|(c & X)]; [exists 0%nat; now constructor|].
    apply IN in X. destruct X as ((j & Wk) & Hc). exists (S j). econstructor; eauto. }
  rewrite <- (route_unique _ _ _ _ HR _ HR') in *. clear HR' p'.
  destruct (HQ ls HL) as (ls' & -> & F). eapply A; [reflexivity|exact W|exact Hx|].
  unfold states_on. clear - F. induction F as [|i l p ls' Hi F IH]; cbn [map]; constructor; auto.
  exists SNull. cbn [layers_model mnodes]. now rewrite nth_error_map, Hi.
Qed.

Ltac route_step l1 a l2 := eapply (route_last _ l1 a _ l2); [cbn; intuition congruence|].

(** A connection past one layer has no effect whatever the layers compute. *)
Theorem c81_contributes_refuted : exists g g', gbuild short3_calls = Ok g /\ gbuild row3_calls = Ok g' /\
  acyclic (fgraph g) /\ In 2%nat (fgraph g 0%nat) /\ outputs g = [2%nat] /\ outputs g' = [2%nat] /\
  forall draw l0 l1 l2 n j k x, lshape l0 n j -> lshape l1 j j -> lshape l2 j k -> length x = n ->
    exists m m' y, y = net_value [l0; l1; l2] x /\
      m_predict (node_ops draw) (layers_model g [l0; l1; l2]) x = Ok (m, y) /\
      m_predict (node_ops draw) (layers_model g' [l0; l1; l2]) x = Ok (m', y).
Proof.
  destruct (looks_of short3_calls 3 (fun a => match a with 0 => [1; 2] | 1 => [2] | _ => [] end)%nat [(0, 1); (0, 2); (1, 2)]%nat)
    as (g & EG & L & Hf & Hn).
  { vm_compute. split; [reflexivity|]. split; [|auto]. intros [|[|[|a]]]; reflexivity. }
  destruct (looks_of row3_calls 3 (fun a => match a with 0 => [1] | 1 => [2] | _ => [] end)%nat [(0, 1); (1, 2)]%nat)
    as (g' & EG' & L' & Hf' & Hn').
  { vm_compute. split; [reflexivity|]. split; [|auto]. intros [|[|[|a]]]; reflexivity. }
  exists g, g'. split; [exact EG|]. split; [exact EG'|].
  pose proof L as (L1 & L2 & L3 & L4 & L5). pose proof L' as (_ & _ & _ & L4' & _).
  split. { exists (fun i => i). intros a b. rewrite L2. destruct a as [|[|a]]; cbn; intuition lia. }
  split. { rewrite L2. cbn. auto. }
  split; [exact L4|]. split; [exact L4'|].
  intros draw l0 l1 l2 n j k x S0 S1 S2 Hx.
  set (win := fun i => match i with 0%nat => n | _ => j end). set (wout := fun i => match i with 0 | 1 => j | _ => k end%nat).
  assert (HS : forall i l, nth_error [l0; l1; l2] i = Some l -> lshape l (win i) (wout i)).
  { intros [|[|[|[|i]]]] l E; try discriminate E; cbn in E; injection E as <-; assumption. }
  assert (ID : forall ls : list (layer R), length ls = 3%nat -> exists ls', (fun l => l) ls = ls' /\
    Forall2 (fun i l => nth_error ls i = Some l) [0; 1; 2]%nat ls').
  { intros ls H3. destruct ls as [|a [|b [|c [|]]]]; try discriminate H3. eexists. split; [reflexivity|]. repeat constructor. }
  edestruct (looks_predict g 3 _ _ [0; 1; 2]%nat (fun l => l) L Hf Hn) with (draw := draw) (ls := [l0; l1; l2]) (win := win) (wout := wout) (n := n) (x := x)
    as (m & E); auto.
  { change [0; 1; 2]%nat with ([0; 1] ++ [2])%nat. route_step [(0, 1); (0, 2)]%nat 1%nat (@nil (nat * nat)).
    change [0; 1]%nat with ([0] ++ [1])%nat. route_step (@nil (nat * nat)) 0%nat [(0, 2)]%nat. constructor; cbn; auto. }
  { intros a b. destruct a as [|[|a]]; cbn; intuition (subst; reflexivity). }
  edestruct (looks_predict g' 3 _ _ [0; 1; 2]%nat (fun l => l) L' Hf' Hn') with (draw := draw) (ls := [l0; l1; l2]) (win := win) (wout := wout) (n := n) (x := x)
    as (m' & E'); auto.
  { change [0; 1; 2]%nat with ([0; 1] ++ [2])%nat. route_step [(0, 1)]%nat 1%nat (@nil (nat * nat)).
    change [0; 1]%nat with ([0] ++ [1])%nat. route_step (@nil (nat * nat)) 0%nat (@nil (nat * nat)). constructor; cbn; auto. }
  { intros a b. destruct a as [|[|a]]; cbn; intuition (subst; reflexivity). }
  exists m, m', (net_value [l0; l1; l2] x). auto.
Qed.
Print Assumptions c81_contributes_refuted.

(** A connection past two layers replaces them when something follows. *)
Theorem c81_bypassed_refuted : exists g, gbuild short5_calls = Ok g /\ acyclic (fgraph g) /\ outputs g = [4%nat] /\
  In 1%nat (fgraph g 0%nat) /\ In 2%nat (fgraph g 1%nat) /\ In 3%nat (fgraph g 2%nat) /\ In 4%nat (fgraph g 3%nat) /\
  forall draw l0 l1 l2 l3 l4 n j k x, lshape l0 n j -> lshape l1 j j -> lshape l2 j j -> lshape l3 j j -> lshape l4 j k -> length x = n ->
    exists m, m_predict (node_ops draw) (layers_model g [l0; l1; l2; l3; l4]) x = Ok (m, net_value [l0; l3; l4] x).
Proof.
  destruct (looks_of short5_calls 5 (fun a => match a with 0 => [1; 3] | 1 => [2] | 2 => [3] | 3 => [4] | _ => [] end)%nat
    [(0, 1); (0, 3); (1, 2); (3, 4); (2, 3)]%nat) as (g & EG & L & Hf & Hn).
  { vm_compute. split; [reflexivity|]. split; [|auto]. intros [|[|[|[|[|a]]]]]; reflexivity. }
  exists g. split; [exact EG|]. pose proof L as (L1 & L2 & L3 & L4 & L5).
  split. { exists (fun i => i). intros a b. rewrite L2. destruct a as [|[|[|[|a]]]]; cbn; intuition lia. }
  split; [exact L4|]. rewrite !L2. do 4 (split; [cbn; auto|]).
  intros draw l0 l1 l2 l3 l4 n j k x S0 S1 S2 S3 S4 Hx.
  set (win := fun i => match i with 0%nat => n | _ => j end). set (wout := fun i => match i with 0 | 1 | 2 | 3 => j | _ => k end%nat).
  assert (HS : forall i l, nth_error [l0; l1; l2; l3; l4] i = Some l -> lshape l (win i) (wout i)).
  { intros [|[|[|[|[|[|i]]]]]] l E; try discriminate E; cbn in E; injection E as <-; assumption. }
  edestruct (looks_predict g 5 _ _ [0; 3; 4]%nat (fun l => [nth 0 l l0; nth 3 l l0; nth 4 l l0]) L Hf Hn) with (draw := draw)
    (ls := [l0; l1; l2; l3; l4]) (win := win) (wout := wout) (n := n) (x := x) as (m & E); auto.
  { change [0; 3; 4]%nat with ([0; 3] ++ [4])%nat. route_step [(0, 1); (0, 3); (1, 2)]%nat 3%nat [(2, 3)]%nat.
    change [0; 3]%nat with ([0] ++ [3])%nat. route_step [(0, 1)]%nat 0%nat [(1, 2)]%nat. constructor; cbn; intuition congruence. }
  { intros ls H5. destruct ls as [|a [|b [|c [|d [|e [|]]]]]]; try discriminate H5. eexists. split; [reflexivity|]. repeat constructor. }
  { lia. }
  { intros a b. destruct a as [|[|[|[|a]]]]; cbn; intuition (subst; reflexivity). }
  exists m. exact E.
Qed.
Print Assumptions c81_bypassed_refuted.

(** *** Training *)
(** Two layers side by side between a first and a last one, all 1x1 with weight 1. *)
Definition diamond_calls : list gop :=
  [GLayer; GLayer; GLayer; GLayer; GEdge 0 1; GEdge 0 2; GEdge 1 3; GEdge 2 3; GLoss; GLossEdge 3 4]%nat.
Definition diamond_model (g : dlgraph) (l0 l1 : layer R) : model (node R) :=
  mkModel g (map (fun s => (s, SNull)) [NL l0; NL l1; NL fork_unit; NL fork_unit; NO (MSE 1) (loss_new 1 1)]).
Definition diamond_cost (m : model (node R)) (x t : list R) (v : R) : Prop :=
  exists m' y, m_predict (node_ops (fun _ => 0)) m x = Ok (m', y) /\ v = loss_value (MSE 1) t y.

Lemma diamond_second : forall s, match gbuild diamond_calls with
    | Ok g => match m_predict (node_ops (fun _ => 0)) (diamond_model g fork_unit (with_weight fork_unit 0 s)) [1] with
       | Ok (_, y) => loss_value (MSE 1) [0] y = 1 | _ => False end
    | _ => False end.
Proof. intros s. cbv -[Rplus Rmult Rdiv Rinv Rminus Ropp IZR pow Rltb]. field. Qed.
Lemma diamond_first : forall s, match gbuild diamond_calls with
    | Ok g => match m_predict (node_ops (fun _ => 0)) (diamond_model g (with_weight fork_unit 0 s) fork_unit) [1] with
       | Ok (_, y) => loss_value (MSE 1) [0] y = (1 + s) ^ 2 | _ => False end
    | _ => False end.
Proof. intros s. cbv -[Rplus Rmult Rdiv Rinv Rminus Ropp IZR pow Rltb]. field. Qed.
(** The second layer has no influence on the prediction, yet a step gives its weight the
    gradient 2; the weight of the first gets 4 where the derivative is 2. *)
Theorem c81_step_refuted : exists g m' l0' l1' q0 q1, gbuild diamond_calls = Ok g /\ acyclic (fgraph g) /\
  m_step (node_ops (fun _ => 0)) (diamond_model g fork_unit fork_unit) [1] [0] = Ok m' /\
  nth_error (mnodes m') 0 = Some (NL l0', q0) /\ nth_error (mnodes m') 1 = Some (NL l1', q1) /\
  (exists c, (forall s, diamond_cost (diamond_model g fork_unit (with_weight fork_unit 0 s)) [1] [0] (c s)) /\
     derivable_pt_lim c 0 0 /\ nth 0 (wgrad l1') 0 = nth 0 (wgrad fork_unit) 0 + 2) /\
  (exists c, (forall s, diamond_cost (diamond_model g (with_weight fork_unit 0 s) fork_unit) [1] [0] (c s)) /\
     derivable_pt_lim c 0 2 /\ nth 0 (wgrad l0') 0 = nth 0 (wgrad fork_unit) 0 + 4).
Proof.
  assert (X : match gbuild diamond_calls with
    | Ok g => match m_step (node_ops (fun _ => 0)) (diamond_model g fork_unit fork_unit) [1] [0] with
      | Ok m' => match nth_error (mnodes m') 0, nth_error (mnodes m') 1 with
          Some (NL l0, _), Some (NL l1, _) => nth 0 (wgrad l0) 0 = 0 + 4 /\ nth 0 (wgrad l1) 0 = 0 + 2 | _, _ => False end
      | _ => False end
    | _ => False end).
  { cbv -[Rplus Rmult Rdiv Rinv Rminus Ropp IZR pow Rltb]. split; field. }
  assert (Y : match gbuild diamond_calls with
    | Ok g => forall a, fgraph g a = match a with 0 => [1; 2] | 1 | 2 => [3] | _ => [] end%nat
    | _ => False end).
  { cbv. intros [|[|[|[|[|a]]]]]; reflexivity. }
  pose proof diamond_second as P1. pose proof diamond_first as P0.
  destruct (gbuild diamond_calls) as [g| |] eqn:EG; try contradiction.
  destruct (m_step (node_ops (fun _ => 0)) (diamond_model g fork_unit fork_unit) [1] [0]) as [m'| |] eqn:ES; try contradiction.
  destruct (nth_error (mnodes m') 0) as [([l0|d|kd lo], q0)|] eqn:E0; try contradiction.
  destruct (nth_error (mnodes m') 1) as [([l1|d|kd lo], q1)|] eqn:E1; try contradiction.
  destruct X as (X0 & X1).
  exists g, m', l0, l1, q0, q1. split; [reflexivity|].
  split. { exists (fun i => i). intros a b. rewrite Y. destruct a as [|[|[|a]]]; cbn; intuition lia. }
  split; [exact ES|]. split; [exact E0|]. split; [exact E1|]. split.
  - exists (fun _ => 1). split; [|split; [apply dlim_const|exact X1]].
    intros s. specialize (P1 s). unfold diamond_cost.
    destruct (m_predict (node_ops (fun _ => 0)) (diamond_model g fork_unit (with_weight fork_unit 0 s)) [1]) as [(m1, y)| |]; try contradiction.
    exists m1, y. split; [reflexivity|now rewrite P1].
  - exists (fun s => (1 + s) ^ 2). split; [|split; [|exact X0]].
    + intros s. specialize (P0 s). unfold diamond_cost.
      destruct (m_predict (node_ops (fun _ => 0)) (diamond_model g (with_weight fork_unit 0 s) fork_unit) [1]) as [(m1, y)| |]; try contradiction.
      exists m1, y. split; [reflexivity|now rewrite P0].
    + eapply dlim_eq; [apply (dlim_comp (fun z => 1 + z) (fun u => u ^ 2)); [|apply derivable_pt_lim_pow]|].
      * apply (dlim_plus (fun _ => 1) (fun z => z)); [apply dlim_const|apply dlim_id].
      * simpl. ring.
Qed.
Print Assumptions c81_step_refuted.

(** *** The hypotheses can be met *)
(** A graph with a cycle and two connections into its last layer: 0->1, 1->2, 2->1, 0->3, 2->3
    with sizes 2, 3 and 1; the route of the last layer passes through the cycle's layers. *)
Definition loop_calls : list gop :=
  [GLayer; GLayer; GLayer; GLayer; GEdge 0 1; GEdge 1 2; GEdge 2 1; GEdge 0 3; GEdge 2 3]%nat.
Definition dense_of (n k : nat) : layer R :=
  mkLayer KDense n (repeat 1 (k * n)) (repeat 0 k) (repeat 0 (k * n)) (repeat 0 k) (repeat 0 k) (repeat 0 n).
Definition loop_win (i : nat) : nat := match i with 0%nat => 2%nat | _ => 3%nat end.
Definition loop_wout (i : nat) : nat := match i with 3%nat => 1%nat | _ => 3%nat end.
Lemma dense_of_shape n k : lshape (dense_of n k) n k.
Proof. repeat split; cbn; apply repeat_length. Qed.

Example c81_hypotheses_met : exists g arcs, gbuild loop_calls = Ok g /\ outputs g = [3%nat] /\
  schedule (nodes g + 2) (fgraph g) (inputs g) = Some arcs /\ reachable (fgraph g) (inputs g) 3 /\
  route (inputs g) arcs 3 [0; 1; 2; 3]%nat /\ ~ acyclic (fgraph g) /\
  sized_graph (layers_model g [dense_of 2 3; dense_of 3 3; dense_of 3 3; dense_of 3 1]) loop_win loop_wout 2 /\
  states_on (layers_model g [dense_of 2 3; dense_of 3 3; dense_of 3 3; dense_of 3 1]) [0; 1; 2; 3]%nat
    (map NL [dense_of 2 3; dense_of 3 3; dense_of 3 3; dense_of 3 1]).
Proof.
  destruct (looks_of loop_calls 4 (fun a => match a with 0 => [1; 3] | 1 => [2] | 2 => [1; 3] | _ => [] end)%nat
    [(0, 1); (0, 3); (1, 2); (2, 1); (2, 3)]%nat) as (g & EG & L & Hf & Hn).
  { vm_compute. split; [reflexivity|]. split; [|auto]. intros [|[|[|[|a]]]]; reflexivity. }
  pose proof L as (L1 & L2 & L3 & L4 & L5).
  exists g, [(0, 1); (0, 3); (1, 2); (2, 1); (2, 3)]%nat. split; [exact EG|]. split; [exact L4|]. split; [exact L5|].
  split. { exists 1%nat. apply (walk_S _ _ 0%nat 0%nat); [constructor; rewrite L3; now left|]. rewrite L2. cbn. auto. }
  split.
  { rewrite L3. change [0; 1; 2; 3]%nat with ([0; 1; 2] ++ [3])%nat. route_step [(0, 1); (0, 3); (1, 2); (2, 1)]%nat 2%nat (@nil (nat * nat)).
    change [0; 1; 2]%nat with ([0; 1] ++ [2])%nat. route_step [(0, 1); (0, 3)]%nat 1%nat [(2, 1)]%nat.
    change [0; 1]%nat with ([0] ++ [1])%nat. route_step (@nil (nat * nat)) 0%nat [(0, 3)]%nat. constructor; cbn; auto. }
  split.
  { intros (rank & HR). pose proof (HR 1%nat 2%nat) as A. pose proof (HR 2%nat 1%nat) as B. rewrite L2 in A, B. cbn in A, B.
    specialize (A (or_introl eq_refl)). specialize (B (or_introl eq_refl)). lia. }
  split.
  - eapply sized_layers; eauto; try reflexivity; try lia.
    + intros [|[|[|[|[|i]]]]] l E; try discriminate E; cbn in E; injection E as <-; apply dense_of_shape.
    + intros a b. destruct a as [|[|[|a]]]; cbn; intuition (subst; reflexivity).
  - repeat constructor; eexists; reflexivity.
Qed.

(** An output layer no input leads to: 0->1, 1->0, 1->2. *)
Example c81_unreachable_met : exists g, gbuild [GLayer; GLayer; GLayer; GEdge 0 1; GEdge 1 0; GEdge 1 2]%nat = Ok g /\
  outputs g = [2%nat] /\ ~ reachable (fgraph g) (inputs g) 2 /\
  sized_graph (layers_model g [dense_of 2 2; dense_of 2 2; dense_of 2 2]) (fun _ => 2%nat) (fun _ => 2%nat) 2.
Proof.
  assert (Y : match gbuild [GLayer; GLayer; GLayer; GEdge 0 1; GEdge 1 0; GEdge 1 2]%nat with
    | Ok g => nodes g = 3%nat /\ inputs g = [] /\ outputs g = [2%nat] | _ => False end) by (vm_compute; auto).
  destruct (gbuild [GLayer; GLayer; GLayer; GEdge 0 1; GEdge 1 0; GEdge 1 2]%nat) as [g| |] eqn:EG; try contradiction.
  destruct (c34_built_models _ _ EG) as (F1 & _ & _ & F4 & _). destruct Y as (Y1 & Y2 & Y3).
  exists g. split; [reflexivity|]. split; [exact Y3|]. split.
  - rewrite Y2. assert (X : forall k v, ~ walk (fgraph g) [] k v).
    { intros k v Wv. induction Wv as [v []|k a b Wa IH Hb]. exact IH. }
    intros (k & Wk). exact (X _ _ Wk).
  - constructor; cbn [layers_model mgraph mnodes]; auto; try (intros; reflexivity).
    intros i Hi. assert (I : (i < 3)%nat).
    { rewrite Y2, Y3 in Hi. destruct Hi as [[<-|[]]|(a & Ha)]; [lia|]. apply F1 in Ha. lia. }
    exists (dense_of 2 2), SNull. split; [|apply dense_of_shape]. destruct i as [|[|[|i]]]; [reflexivity..|lia].
Qed.
