(** C62, C63: the arcs, roles and losses a DLGraph reports are those it was given.
    C64: assigning a model. *)
From Verif Require Import Base GraphModel GraphSpec GraphProofs IdentityModel.

(** *** What the calls say: the arcs they name, between layers *)
Definition arcs_f (o : pop) : list (nat * nat) :=
  match o with
  | PEdgeFrom froms to | PFrontFrom froms to => map (fun a => (a, to)) froms
  | PEdgeTo from tos | PFrontTo from tos => map (fun b => (from, b)) tos
  | _ => []
  end.
Definition arcs_t (o : pop) : list (nat * nat) :=
  match o with
  | PEdgeFromLoss froms to | PFrontFromLoss froms to => map (fun a => (a, to)) froms
  | _ => arcs_f o
  end.
Definition arcs_b (o : pop) : list (nat * nat) :=
  match o with
  | PEdgeFrom froms to | PEdgeFromLoss froms to => map (fun a => (to, a)) froms
  | PEdgeTo from tos => map (fun b => (b, from)) tos
  | PBackFrom froms to => map (fun a => (a, to)) froms
  | PBackTo from tos => map (fun b => (from, b)) tos
  | _ => []
  end.
Definition added (os : list pop) (x : nat) : Prop := In (PNode x) os \/ In (PLoss x) os.
(** Every layer named by an arc was added before. *)
Definition known (os : list pop) : Prop :=
  forall pre o post a b, os = pre ++ o :: post -> In (a, b) (arcs_f o ++ arcs_t o ++ arcs_b o) ->
    added pre a /\ added pre b.
(** The graph has exactly these arcs, between the positions of the layers. *)
Definition holds (ls : list nat) (g : edges) (A : list (nat * nat)) : Prop :=
  forall i j, In j (g i) <-> exists a b, In (a, b) A /\ nth_error ls i = Some a /\ nth_error ls j = Some b.

(** *** Proofs *)
Lemma index_of_some ls x i : index_of ls x = Some i -> nth_error ls i = Some x.
Proof.
  revert i. induction ls as [|y ls IH]; intros i E; cbn in E; [discriminate|].
  destruct (Nat.eqb_spec y x) as [->|]; [injection E as <-; reflexivity|].
  destruct (index_of ls x) as [k|]; [|discriminate]. injection E as <-. cbn. auto.
Qed.
Lemma index_of_none ls x : index_of ls x = None <-> ~ In x ls.
Proof.
  induction ls as [|y ls IH]; cbn; [tauto|].
  destruct (Nat.eqb_spec y x) as [->|Hne].
  - split; [discriminate|]. intros H. exfalso. auto.
  - destruct (index_of ls x) as [k|]; cbn.
    + split; [discriminate|]. intros H. assert (K : Some k = None) by (apply IH; tauto). discriminate.
    + split; auto. intros _ [E|E]; [auto|]. now apply IH in E.
Qed.
Lemma index_of_in ls x : In x ls -> exists i, index_of ls x = Some i /\ nth_error ls i = Some x.
Proof.
  intros Hin. destruct (index_of ls x) as [i|] eqn:E.
  - exists i. split; [reflexivity|now apply index_of_some].
  - now apply index_of_none in E.
Qed.
Lemma nth_error_inj (ls : list nat) i j x : NoDup ls -> nth_error ls i = Some x -> nth_error ls j = Some x -> i = j.
Proof.
  intros HN A B. apply (proj1 (NoDup_nth_error ls) HN).
  - apply nth_error_Some. congruence.
  - congruence.
Qed.

Definition good (ls : list nat) (g : edges) (A : list (nat * nat)) : Prop :=
  gwf (length ls) g /\ holds ls g A /\ forall a b, In (a, b) A -> In a ls /\ In b ls.
Record inv (s : pgraph) (F T B : list (nat * nat)) : Prop := mkInv {
  iv_nodup : NoDup (pl s); iv_nodes : nodes (px s) = length (pl s);
  iv_f : good (pl s) (fgraph (px s)) F; iv_t : good (pl s) (tgraph (px s)) T;
  iv_b : good (pl s) (bgraph (px s)) B }.

Lemma p_arc_good ls g A a b : NoDup ls -> good ls g A -> In a ls -> In b ls ->
  exists g', p_arc ls g a b = Ok g' /\ good ls g' (A ++ [(a, b)]).
Proof.
  intros HN (W & HH & HI) Ha Hb. unfold p_arc.
  destruct (index_of_in _ _ Ha) as (i & -> & Ni). destruct (index_of_in _ _ Hb) as (j & -> & Nj).
  eexists. split; [reflexivity|].
  assert (Li : i < length ls) by (apply nth_error_Some; congruence).
  assert (Lj : j < length ls) by (apply nth_error_Some; congruence).
  assert (Hin : forall k x, In x (if k =? i then sinsert j (g i) else g k) <-> In x (g k) \/ (k = i /\ x = j)).
  { intros k x. destruct (Nat.eqb_spec k i) as [->|Hne]; [rewrite sinsert_In|]; intuition. }
  split; [|split].
  - intros k. split.
    + destruct (Nat.eqb_spec k i) as [->|]; [apply sinsert_sorted|]; apply W.
    + intros x Hx. apply Hin in Hx. destruct Hx as [Hx|(-> & ->)]; [now apply (W k)|auto].
  - intros k x. rewrite Hin, (HH k x). split.
    + intros [(a' & b' & H1 & H2)|(-> & ->)].
      * exists a', b'. split; [apply in_app_iff; auto|exact H2].
      * exists a, b. split; [apply in_app_iff; right; now left|auto].
    + intros (a' & b' & H1 & H2 & H3). apply in_app_iff in H1. destruct H1 as [H1|[E|[]]].
      * left. eauto.
      * injection E as <- <-. right. split; eapply nth_error_inj; eauto.
  - intros a' b' H1. apply in_app_iff in H1. destruct H1 as [H1|[E|[]]]; [auto|].
    injection E as <- <-. auto.
Qed.
Lemma p_arc_throw ls g a b : ~ (In a ls /\ In b ls) -> p_arc ls g a b = Throw.
Proof.
  intros HN. unfold p_arc. destruct (index_of ls a) as [i|] eqn:E1; [|reflexivity].
  destruct (index_of ls b) as [j|] eqn:E2; [|reflexivity]. exfalso. apply HN.
  apply index_of_some in E1, E2. split; eapply nth_error_In; eauto.
Qed.

Definition both (s : pgraph) (e : nat * nat) : Prop := In (fst e) (pl s) /\ In (snd e) (pl s).
Lemma both_dec s e : both s e \/ ~ both s e.
Proof.
  unfold both. destruct (in_dec Nat.eq_dec (fst e) (pl s)), (in_dec Nat.eq_dec (snd e) (pl s)); tauto.
Qed.

Lemma on_f_ok s F T B a b : inv s F T B -> both s (a, b) ->
  exists s', on_f s a b = Ok s' /\ pl s' = pl s /\ inv s' (F ++ [(a, b)]) T B.
Proof.
  intros [N1 N2 HF HT HB] (Ha & Hb). cbn in Ha, Hb. unfold on_f.
  destruct (p_arc_good _ _ _ a b N1 HF Ha Hb) as (g' & -> & G). cbn [bind]. cbv zeta.
  eexists. split; [reflexivity|]. split; [reflexivity|]. constructor; cbn [pl px nodes fgraph tgraph bgraph]; assumption.
Qed.
Lemma on_t_ok s F T B a b : inv s F T B -> both s (a, b) ->
  exists s', on_t s a b = Ok s' /\ pl s' = pl s /\ inv s' F (T ++ [(a, b)]) B.
Proof.
  intros [N1 N2 HF HT HB] (Ha & Hb). cbn in Ha, Hb. unfold on_t.
  destruct (p_arc_good _ _ _ a b N1 HT Ha Hb) as (g' & -> & G). cbn [bind]. cbv zeta.
  eexists. split; [reflexivity|]. split; [reflexivity|]. constructor; cbn [pl px nodes fgraph tgraph bgraph]; assumption.
Qed.
Lemma on_b_ok s F T B a b : inv s F T B -> both s (a, b) ->
  exists s', on_b s a b = Ok s' /\ pl s' = pl s /\ inv s' F T (B ++ [(a, b)]).
Proof.
  intros [N1 N2 HF HT HB] (Ha & Hb). cbn in Ha, Hb. unfold on_b.
  destruct (p_arc_good _ _ _ a b N1 HB Ha Hb) as (g' & -> & G). cbn [bind]. cbv zeta.
  eexists. split; [reflexivity|]. split; [reflexivity|]. constructor; cbn [pl px nodes fgraph tgraph bgraph]; assumption.
Qed.
Lemma on_f_throw s a b : ~ both s (a, b) -> on_f s a b = Throw.
Proof. intros N1. unfold on_f. now rewrite (p_arc_throw _ _ _ _ N1). Qed.
Lemma on_t_throw s a b : ~ both s (a, b) -> on_t s a b = Throw.
Proof. intros N1. unfold on_t. now rewrite (p_arc_throw _ _ _ _ N1). Qed.
Lemma on_b_throw s a b : ~ both s (a, b) -> on_b s a b = Throw.
Proof. intros N1. unfold on_b. now rewrite (p_arc_throw _ _ _ _ N1). Qed.

(** A loop over arcs: it adds them all, or one of them names an unknown layer and it throws. *)
Definition adds (f : pgraph -> nat -> res pgraph) (e : nat -> nat * nat) (kf kt kb : bool) : Prop :=
  (forall s F T B x, inv s F T B -> both s (e x) -> exists s', f s x = Ok s' /\ pl s' = pl s /\
     inv s' (F ++ if kf then [e x] else []) (T ++ if kt then [e x] else []) (B ++ if kb then [e x] else [])) /\
  (forall s x, ~ both s (e x) -> f s x = Throw).
Definition only (k : bool) (l : list (nat * nat)) : list (nat * nat) := if k then l else [].
Lemma fold_adds f e kf kt kb : adds f e kf kt kb -> forall xs s F T B, inv s F T B ->
  (Forall (both s) (map e xs) /\ exists s', foldM f xs s = Ok s' /\ pl s' = pl s /\
     inv s' (F ++ only kf (map e xs)) (T ++ only kt (map e xs)) (B ++ only kb (map e xs))) \/
  (Exists (fun p => ~ both s p) (map e xs) /\ foldM f xs s = Throw).
Proof.
  intros (HA & HN). induction xs as [|x xs IH]; intros s F T B HI.
  - left. split; [constructor|]. exists s. split; [reflexivity|]. split; [reflexivity|].
    assert (Z : forall k (l : list (nat * nat)), l ++ only k [] = l) by (intros [|] l; apply app_nil_r).
    cbn [map]. rewrite !Z. exact HI.
  - cbn [map foldM]. destruct (both_dec s (e x)) as [Hb|Hb].
    + destruct (HA s F T B x HI Hb) as (s1 & -> & P1 & I1). cbn [bind].
      destruct (IH s1 _ _ _ I1) as [(HF & s2 & E2 & P2 & I2)|(HE & E2)].
      * left. split.
        { constructor; [exact Hb|]. eapply Forall_impl; [|exact HF]. intros p. unfold both. now rewrite P1. }
        exists s2. split; [exact E2|]. split; [congruence|].
        assert (Z : forall (k : bool) (l : list (nat * nat)), (l ++ (if k then [e x] else [])) ++ only k (map e xs) = l ++ only k (e x :: map e xs)).
        { intros [|] l; cbn [only]; rewrite <- app_assoc; reflexivity. }
        rewrite !Z in I2. exact I2.
      * right. split; [|exact E2]. apply Exists_cons_tl. eapply Exists_impl; [|exact HE]. intros p. unfold both. now rewrite P1.
    + right. split; [now apply Exists_cons_hd|]. now rewrite (HN s x Hb).
Qed.

Lemma adds_ft e (f : pgraph -> nat -> res pgraph) :
  (forall s x, f s x = bind (on_f s (fst (e x)) (snd (e x))) (fun s => on_t s (fst (e x)) (snd (e x)))) ->
  adds f e true true false.
Proof.
  intros Ef. split.
  - intros s F T B x HI Hb. rewrite Ef. destruct (e x) as (a, b) eqn:Ee. cbn [fst snd].
    destruct (on_f_ok s F T B a b HI Hb) as (s1 & -> & P1 & I1). cbn [bind].
    destruct (on_t_ok s1 _ _ _ a b I1) as (s2 & -> & P2 & I2); [unfold both; now rewrite P1|].
    exists s2. split; [reflexivity|]. split; [congruence|]. rewrite app_nil_r. exact I2.
  - intros s x Hb. rewrite Ef. destruct (e x) as (a, b). cbn [fst snd]. now rewrite (on_f_throw _ _ _ Hb).
Qed.
Lemma adds_t e (f : pgraph -> nat -> res pgraph) :
  (forall s x, f s x = on_t s (fst (e x)) (snd (e x))) -> adds f e false true false.
Proof.
  intros Ef. split.
  - intros s F T B x HI Hb. rewrite Ef. destruct (e x) as (a, b) eqn:Ee. cbn [fst snd].
    destruct (on_t_ok s F T B a b HI Hb) as (s1 & -> & P1 & I1).
    exists s1. split; [reflexivity|]. split; [exact P1|]. rewrite !app_nil_r. exact I1.
  - intros s x Hb. rewrite Ef. destruct (e x) as (a, b). cbn [fst snd]. now rewrite (on_t_throw _ _ _ Hb).
Qed.
Lemma adds_b e (f : pgraph -> nat -> res pgraph) :
  (forall s x, f s x = on_b s (fst (e x)) (snd (e x))) -> adds f e false false true.
Proof.
  intros Ef. split.
  - intros s F T B x HI Hb. rewrite Ef. destruct (e x) as (a, b) eqn:Ee. cbn [fst snd].
    destruct (on_b_ok s F T B a b HI Hb) as (s1 & -> & P1 & I1).
    exists s1. split; [reflexivity|]. split; [exact P1|]. rewrite !app_nil_r. exact I1.
  - intros s x Hb. rewrite Ef. destruct (e x) as (a, b). cbn [fst snd]. now rewrite (on_b_throw _ _ _ Hb).
Qed.

Lemma ad_front_from to : adds (fun s from => s <- on_f s from to ;; on_t s from to) (fun a => (a, to)) true true false.
Proof. apply adds_ft. reflexivity. Qed.
Lemma ad_front_to from : adds (fun s to => s <- on_f s from to ;; on_t s from to) (fun b => (from, b)) true true false.
Proof. apply adds_ft. reflexivity. Qed.
Lemma ad_loss_from to : adds (fun s from => on_t s from to) (fun a => (a, to)) false true false.
Proof. apply adds_t. reflexivity. Qed.
Lemma ad_back_from to : adds (fun s from => on_b s from to) (fun a => (a, to)) false false true.
Proof. apply adds_b. reflexivity. Qed.
Lemma ad_back_to from : adds (fun s to => on_b s from to) (fun b => (from, b)) false false true.
Proof. apply adds_b. reflexivity. Qed.

Lemma inv_roles s F T B : inv s F T B -> inv (p_roles s) F T B.
Proof. intros [N1 N2 HF HT HB]. constructor; cbn; assumption. Qed.
Lemma good_grow ls g A x : ~ In x ls -> good ls g A -> good (ls ++ [x]) g A.
Proof.
  intros HN (W & HH & HI). split; [|split].
  - eapply gwf_mono; [|exact W]. rewrite app_length. lia.
  - intros i j. rewrite (HH i j). split; intros (a & b & H1 & H2 & H3); exists a, b; (split; [exact H1|]).
    + rewrite !nth_error_app1 by (apply nth_error_Some; congruence). auto.
    + destruct (HI a b H1) as (Ha & Hb).
      assert (Z : forall k y, In y ls -> nth_error (ls ++ [x]) k = Some y -> nth_error ls k = Some y).
      { intros k y Hy E. destruct (lt_dec k (length ls)) as [L|L]; [now rewrite nth_error_app1 in E|].
        rewrite nth_error_app2 in E by lia. destruct (k - length ls) as [|m]; cbn in E.
        - injection E as <-. contradiction.
        - destruct m; discriminate. }
      auto.
  - intros a b H1. destruct (HI a b H1). split; apply in_app_iff; auto.
Qed.
Lemma inv_node s F T B x : inv s F T B -> inv (p_add_node s x) F T B.
Proof.
  intros [N1 N2 HF HT HB]. unfold p_add_node. destruct (mem x (pl s)) eqn:E; [constructor; assumption|].
  apply mem_false in E. constructor; cbn [pl px add_node nodes fgraph tgraph bgraph].
  - apply GraphProofs.NoDup_app; [exact N1|constructor; [intros []|constructor]|]. intros y Hy [<-|[]]. contradiction.
  - rewrite app_length, N2. cbn. lia.
  - now apply good_grow.
  - now apply good_grow.
  - now apply good_grow.
Qed.
Lemma inv_loss s F T B x : inv s F T B -> inv (p_add_loss s x) F T B.
Proof. intros HI. destruct (inv_node _ _ _ _ x HI) as [N1 N2 HF HT HB]. constructor; cbn; assumption. Qed.
Lemma node_in s x y : In y (pl (p_add_node s x)) <-> In y (pl s) \/ y = x.
Proof.
  unfold p_add_node. destruct (mem x (pl s)) eqn:E.
  - apply GraphProofs.mem_In in E. split; [auto|]. intros [H|H]; subst; auto.
  - cbn [pl]. rewrite in_app_iff. cbn. intuition.
Qed.

Definition arcs (o : pop) : list (nat * nat) := arcs_f o ++ arcs_t o ++ arcs_b o.
Definition is_add (o : pop) : option nat := match o with PNode x | PLoss x => Some x | _ => None end.

(** One call: it does what it says, or names an unknown layer and throws. *)
Lemma pstep_spec s o F T B : inv s F T B ->
  (Forall (both s) (arcs o) /\ exists s', pstep s o = Ok s' /\ inv s' (F ++ arcs_f o) (T ++ arcs_t o) (B ++ arcs_b o) /\
     forall y, In y (pl s') <-> In y (pl s) \/ is_add o = Some y) \/
  (Exists (fun p => ~ both s p) (arcs o) /\ pstep s o = Throw).
Proof.
  intros HI.
  assert (HF : forall s (e : nat -> nat * nat) xs, Forall (both s) (map e xs) -> forall k1 k2 k3, Forall (both s) (only k1 (map e xs) ++ only k2 (map e xs) ++ only k3 (map e xs))).
  { intros s0 e0 xs0 H0 [|] [|] [|]; repeat (apply Forall_app; split); cbn; auto. }
  assert (SW : forall (s : pgraph) (f : nat -> nat) to xs, Forall (both s) (map (fun a => (f a, to)) xs) -> Forall (both s) (map (fun a => (to, f a)) xs)).
  { intros s0 f to xs H0. rewrite Forall_map in *. eapply Forall_impl; [|exact H0]. unfold both. cbn. tauto. }
  assert (SI : forall s s' (l : list nat), pl s' = pl s -> forall y, In y (pl s') <-> In y (pl s) \/ None = Some y).
  { intros s0 s1 _ -> y. split; [auto|]. intros [H|H]; [auto|discriminate]. }
  assert (BB : forall s s' l, pl s' = pl s -> Forall (both s) l -> Forall (both s') l).
  { intros s0 s1 l P. apply Forall_impl. intros p. unfold both. now rewrite P. }
  destruct o as [x|x|froms to|froms to|from tos|froms to|froms to|from tos|froms to|from tos];
    unfold arcs; cbn [pstep arcs_f arcs_t arcs_b is_add].
  - left. split; [constructor|]. eexists. split; [reflexivity|]. split; [rewrite !app_nil_r; now apply inv_node|].
    intros y. rewrite node_in. split; (intros [H|H]; [now left|right; congruence]).
  - left. split; [constructor|]. eexists. split; [reflexivity|]. split; [rewrite !app_nil_r; now apply inv_loss|].
    intros y. unfold p_add_loss. cbv zeta. cbn [pl]. rewrite node_in. split; (intros [H|H]; [now left|right; congruence]).
  - (* edge_from *) unfold edge_from, front_from, back_to.
    destruct (fold_adds _ (fun a => (a, to)) true true false (ad_front_from to) froms s F T B HI)
      as [(B1 & s1 & -> & P1 & I1)|(B1 & ->)]; cbn [bind].
    + destruct (fold_adds _ (fun a => (to, a)) false false true (ad_back_to to) froms (p_roles s1) _ _ _ (inv_roles _ _ _ _ I1))
        as [(B2 & s2 & E2 & P2 & I2)|(B2 & E2)].
      * left. split.
        { apply Forall_app. split; [exact B1|]. apply Forall_app. split; [exact B1|]. exact (SW s (fun a => a) to froms B1). }
        exists s2. split; [exact E2|]. cbn [only] in I1, I2. rewrite !app_nil_r in I2. split; [exact I2|].
        apply (SI s s2 froms). cbn in P2. congruence.
      * exfalso. apply Exists_exists in B2. destruct B2 as (p & Hp & Nb). apply Nb.
        apply (proj1 (Forall_forall _ _) (BB s (p_roles s1) _ P1 (SW s (fun a => a) to froms B1)) p Hp).
    + right. split; [|reflexivity]. apply Exists_app. left. exact B1.
  - (* edge_from_loss *) unfold edge_from_loss, front_from_loss, back_to.
    destruct (fold_adds _ (fun a => (a, to)) false true false (ad_loss_from to) froms s F T B HI)
      as [(B1 & s1 & -> & P1 & I1)|(B1 & ->)]; cbn [bind].
    + destruct (fold_adds _ (fun a => (to, a)) false false true (ad_back_to to) froms s1 _ _ _ I1)
        as [(B2 & s2 & E2 & P2 & I2)|(B2 & E2)].
      * left. split.
        { apply Forall_app. split; [constructor|]. apply Forall_app. split; [exact B1|]. exact (SW s (fun a => a) to froms B1). }
        exists s2. split; [exact E2|]. cbn [only] in I1, I2. rewrite !app_nil_r in *. split; [exact I2|].
        apply (SI s s2 froms). congruence.
      * exfalso. apply Exists_exists in B2. destruct B2 as (p & Hp & Nb). apply Nb.
        apply (proj1 (Forall_forall _ _) (BB s s1 _ P1 (SW s (fun a => a) to froms B1)) p Hp).
    + right. split; [|reflexivity]. apply Exists_app. right. apply Exists_app. left. exact B1.
  - (* edge_to *) unfold edge_to, front_to, back_from.
    destruct (fold_adds _ (fun b => (from, b)) true true false (ad_front_to from) tos s F T B HI)
      as [(B1 & s1 & -> & P1 & I1)|(B1 & ->)]; cbn [bind].
    + assert (SW' : Forall (both s) (map (fun b => (b, from)) tos)).
      { rewrite Forall_map in *. eapply Forall_impl; [|exact B1]. unfold both. cbn. tauto. }
      destruct (fold_adds _ (fun b => (b, from)) false false true (ad_back_from from) tos (p_roles s1) _ _ _ (inv_roles _ _ _ _ I1))
        as [(B2 & s2 & E2 & P2 & I2)|(B2 & E2)].
      * left. split.
        { apply Forall_app. split; [exact B1|]. apply Forall_app. split; [exact B1|]. exact SW'. }
        exists s2. split; [exact E2|]. cbn [only] in I1, I2. rewrite !app_nil_r in *. split; [exact I2|].
        apply (SI s s2 tos). cbn in P2. congruence.
      * exfalso. apply Exists_exists in B2. destruct B2 as (p & Hp & Nb). apply Nb.
        apply (proj1 (Forall_forall _ _) (BB s (p_roles s1) _ P1 SW') p Hp).
    + right. split; [|reflexivity]. apply Exists_app. left. exact B1.
  - (* front_from *) unfold front_from.
    destruct (fold_adds _ (fun a => (a, to)) true true false (ad_front_from to) froms s F T B HI)
      as [(B1 & s1 & -> & P1 & I1)|(B1 & ->)]; cbn [bind].
    + left. split; [exact (HF s _ froms B1 true true false)|]. exists (p_roles s1). split; [reflexivity|].
      split; [now apply inv_roles|]. apply (SI s (p_roles s1) froms). exact P1.
    + right. split; [|reflexivity]. apply Exists_app. left. exact B1.
  - (* front_from_loss *) unfold front_from_loss.
    destruct (fold_adds _ (fun a => (a, to)) false true false (ad_loss_from to) froms s F T B HI)
      as [(B1 & s1 & -> & P1 & I1)|(B1 & ->)]; cbn [bind].
    + left. split; [exact (HF s _ froms B1 false true false)|]. exists s1. split; [reflexivity|].
      split; [exact I1|]. now apply (SI s s1 froms).
    + right. split; [|reflexivity]. apply Exists_app. right. apply Exists_app. left. exact B1.
  - (* front_to *) unfold front_to.
    destruct (fold_adds _ (fun b => (from, b)) true true false (ad_front_to from) tos s F T B HI)
      as [(B1 & s1 & -> & P1 & I1)|(B1 & ->)]; cbn [bind].
    + left. split; [exact (HF s _ tos B1 true true false)|]. exists (p_roles s1). split; [reflexivity|].
      split; [now apply inv_roles|]. apply (SI s (p_roles s1) tos). exact P1.
    + right. split; [|reflexivity]. apply Exists_app. left. exact B1.
  - (* back_from *) unfold back_from.
    destruct (fold_adds _ (fun a => (a, to)) false false true (ad_back_from to) froms s F T B HI)
      as [(B1 & s1 & -> & P1 & I1)|(B1 & ->)].
    + left. split; [exact (HF s _ froms B1 false false true)|]. exists s1. split; [reflexivity|].
      split; [exact I1|]. now apply (SI s s1 froms).
    + right. split; [|reflexivity]. exact B1.
  - (* back_to *) unfold back_to.
    destruct (fold_adds _ (fun b => (from, b)) false false true (ad_back_to from) tos s F T B HI)
      as [(B1 & s1 & -> & P1 & I1)|(B1 & ->)].
    + left. split; [exact (HF s _ tos B1 false false true)|]. exists s1. split; [reflexivity|].
      split; [exact I1|]. now apply (SI s s1 tos).
    + right. split; [|reflexivity]. exact B1.
Qed.

Lemma pbuild_snoc os o : pbuild (os ++ [o]) = bind (pbuild os) (fun s => pstep s o).
Proof.
  unfold pbuild. rewrite foldM_app. destruct (foldM pstep os p_new) as [s| |]; cbn; [|reflexivity|reflexivity].
  destruct (pstep s o); reflexivity.
Qed.
Lemma added_snoc os o x : added (os ++ [o]) x <-> added os x \/ is_add o = Some x.
Proof.
  unfold added. rewrite !in_app_iff. cbn [In]. destruct o; cbn [is_add];
    (split; [intros [[H|[H|[]]]|[H|[H|[]]]]; try discriminate; try (injection H as <-); auto
            |intros [[H|H]|H]; try discriminate; try (injection H as <-); auto]).
Qed.
Lemma known_snoc os o : known (os ++ [o]) <->
  known os /\ forall a b, In (a, b) (arcs o) -> added os a /\ added os b.
Proof.
  split.
  - intros K. split.
    + intros pre o' post a b E Hin. subst os. apply (K pre o' (post ++ [o]) a b); [|exact Hin].
      now rewrite <- app_assoc.
    + intros a b Hin. exact (K os o [] a b eq_refl Hin).
  - intros (K & Ho) pre o' post a b E Hin. destruct post as [|q post _] using rev_ind.
    + apply app_inj_tail in E. destruct E as (-> & ->). auto.
    + rewrite app_comm_cons, app_assoc in E. apply app_inj_tail in E. destruct E as (-> & ->). eauto.
Qed.

Lemma inv_new : inv p_new [] [] [].
Proof.
  assert (G : good [] no_edges []).
  { split; [apply gwf_none|]. split; [|intros a b []]. intros i j. split; [intros []|intros (a & b & [] & _)]. }
  constructor; cbn; auto; constructor.
Qed.

Lemma pbuild_spec os :
  (known os /\ exists s, pbuild os = Ok s /\ inv s (flat_map arcs_f os) (flat_map arcs_t os) (flat_map arcs_b os) /\
     forall x, In x (pl s) <-> added os x) \/
  (~ known os /\ pbuild os = Throw).
Proof.
  induction os as [|o os IH] using rev_ind.
  - left. split.
    + intros pre o post a b E. destruct pre; discriminate.
    + exists p_new. split; [reflexivity|]. split; [exact inv_new|]. intros x. unfold added. cbn. tauto.
  - rewrite pbuild_snoc. destruct IH as [(K & s & -> & HI & HP)|(K & ->)]; cbn [bind].
    + destruct (pstep_spec s o _ _ _ HI) as [(HB & s' & -> & HI' & HP')|(HB & ->)].
      * left. split.
        { apply known_snoc. split; [exact K|]. intros a b Hab.
          apply (proj1 (Forall_forall _ _) HB) in Hab. destruct Hab as (H1 & H2). cbn in H1, H2.
          split; now apply HP. }
        exists s'. split; [reflexivity|]. rewrite !flat_map_app. cbn [flat_map]. rewrite !app_nil_r.
        split; [exact HI'|]. intros x. rewrite HP', HP, added_snoc. tauto.
      * right. split; [|reflexivity]. intros K'. apply known_snoc in K'. destruct K' as (_ & K').
        apply Exists_exists in HB. destruct HB as ((a, b) & Hab & Nb). apply Nb.
        destruct (K' a b Hab). split; now apply HP.
    + right. split; [|reflexivity]. intros K'. apply known_snoc in K'. tauto.
Qed.

(** *** Theorems *)

(** Building succeeds exactly when every arc is between layers added before; otherwise it
    throws. It never does anything undefined. *)
Theorem c62_errors : forall os,
  (known os <-> exists s, pbuild os = Ok s) /\ (~ known os <-> pbuild os = Throw) /\ pbuild os <> UB.
Proof.
  intros os. destruct (pbuild_spec os) as [(K & s & -> & _)|(K & ->)].
  - split; [split; eauto|]. split; [|discriminate]. split; [tauto|discriminate].
  - split; [split; [tauto|intros (s & E); discriminate]|]. split; [|discriminate]. split; auto.
Qed.
Print Assumptions c62_errors.

Definition linked (ls : list nat) (A : list (nat * nat)) (i j : nat) : Prop :=
  exists a b, In (a, b) A /\ nth_error ls i = Some a /\ nth_error ls j = Some b.
(** Every query on a graph over the layers [ls] answers according to the arcs [A]. *)
Definition reports (ls : list nat) (g : edges) (A : list (nat * nat)) : Prop :=
  let n := length ls in
  (forall i, ssorted (successors g i) /\ forall j, In j (successors g i) <-> linked ls A i j) /\
  (forall j, ssorted (predecessors n g j) /\ forall i, In i (predecessors n g j) <-> linked ls A i j) /\
  (forall i, has_successors g i = true <-> exists j, linked ls A i j) /\
  (forall j, has_predecessors n g j = true <-> exists i, linked ls A i j) /\
  exists m, adjacent_matrix n g = Ok m /\ length m = n * n /\
    forall i j, i < n -> j < n -> (nth (i * n + j) m 0%Z = 1%Z /\ linked ls A i j) \/
                                  (nth (i * n + j) m 0%Z = 0%Z /\ ~ linked ls A i j).

Lemma filter_sorted (f : nat -> bool) l : ssorted l -> ssorted (filter f l).
Proof.
  induction 1 as [|x l Hx HS IH]; [constructor|]. cbn [filter]. destruct (f x); [|exact IH].
  constructor; [|exact IH]. intros y Hy. apply filter_In in Hy. apply Hx. tauto.
Qed.

Lemma row_ones (n a : nat) l : (forall b, In b l -> a * n + b < n * n) -> forall m : list Z, length m = n * n ->
  exists m', foldM (fun m b => wr m (a * n + b) 1%Z) l m = Ok m' /\ length m' = n * n /\
    forall p, nth p m' 0%Z = if existsb (fun b => p =? a * n + b) l then 1%Z else nth p m 0%Z.
Proof.
  induction l as [|b l IH]; intros Hl m Lm.
  - exists m. auto.
  - cbn [foldM]. rewrite wr_ok by (rewrite Lm; apply Hl; now left). cbn [bind].
    destruct (IH (fun b Hb => Hl b (or_intror Hb)) (upd m (a * n + b) 1%Z)) as (m' & E & L & V).
    { now rewrite upd_length. }
    exists m'. split; [exact E|]. split; [exact L|]. intros p. rewrite V. cbn [existsb].
    destruct (existsb (fun b0 => p =? a * n + b0) l); [now rewrite orb_true_r|]. rewrite orb_false_r.
    destruct (Nat.eqb_spec p (a * n + b)) as [->|Hne].
    + apply nth_upd_eq. rewrite Lm. apply Hl. now left.
    + now apply nth_upd_neq.
Qed.

Lemma adjacent_spec n g : gwf n g -> exists m, adjacent_matrix n g = Ok m /\ length m = n * n /\
  forall i j, i < n -> j < n -> nth (i * n + j) m 0%Z = if mem j (g i) then 1%Z else 0%Z.
Proof.
  intros W. unfold adjacent_matrix.
  assert (HL : forall a b, a < n -> b < n -> a * n + b < n * n) by (intros; nia).
  pose (P := fun k (m : list Z) => length m = n * n /\
    forall i j, i < n -> j < n -> nth (i * n + j) m 0%Z = if (i <? k) && mem j (g i) then 1%Z else 0%Z).
  destruct (for_inv P n (fun a m => foldM (fun m b => wr m (a * n + b) 1%Z) (g a) m) (repeat 0%Z (n * n))) as (m & E & L & V).
  - split; [apply repeat_length|]. intros i j Hi Hj. cbn. apply nth_repeat.
  - intros a m Ha (L & V).
    destruct (row_ones n a (g a)) with (m := m) as (m' & E & L' & V'); [|exact L|].
    { intros b Hb. apply HL; [exact Ha|]. now apply (W a). }
    exists m'. split; [exact E|]. split; [exact L'|]. intros i j Hi Hj. rewrite V', V by assumption.
    assert (Q : existsb (fun b => i * n + j =? a * n + b) (g a) = (i =? a) && mem j (g a)).
    { apply eq_true_iff_eq. rewrite existsb_exists, andb_true_iff, Nat.eqb_eq, GraphProofs.mem_In. split.
      - intros (b & Hb & Eb). apply Nat.eqb_eq in Eb.
        assert (Lb : b < n) by (now apply (W a)).
        destruct (divmod_unique n i j Hj) as (D1 & D2). destruct (divmod_unique n a b Lb) as (D3 & D4).
        rewrite Eb in D1, D2. rewrite <- D1, <- D2, D3, D4. auto.
      - intros (-> & Hj'). exists j. split; [exact Hj'|]. apply Nat.eqb_refl. }
    rewrite Q. destruct (Nat.eqb_spec i a) as [->|Hne].
    + rewrite Nat.ltb_irrefl. assert (Z : a <? S a = true) by (apply Nat.ltb_lt; lia). rewrite Z.
      cbn [andb]. destruct (mem j (g a)); reflexivity.
    + cbn [andb]. assert (Z : (i <? S a) = (i <? a)).
      { apply eq_true_iff_eq. rewrite !Nat.ltb_lt. lia. }
      now rewrite Z.
  - exists m. split; [exact E|]. split; [exact L|]. intros i j Hi Hj. rewrite V by assumption.
    apply Nat.ltb_lt in Hi. now rewrite Hi.
Qed.

Lemma good_reports ls g A : good ls g A -> reports ls g A.
Proof.
  intros (W & HH & HI). unfold reports. cbv zeta.
  assert (HP : forall i j, In i (predecessors (length ls) g j) <-> linked ls A i j).
  { intros i j. unfold predecessors. rewrite filter_In, GraphProofs.mem_In, in_seq, (HH i j). split; [tauto|].
    intros L. split; [|exact L]. destruct L as (a & b & _ & Ha & _). assert (i < length ls) by (apply nth_error_Some; congruence). lia. }
  split; [|split; [|split; [|split]]].
  - intros i. split; [apply W|]. intros j. apply HH.
  - intros j. split; [apply filter_sorted, ssorted_seq|]. intros i. apply HP.
  - intros i. rewrite has_succ_iff. split; intros (j & Hj); exists j; now apply HH.
  - intros j. unfold has_predecessors. rewrite existsb_exists. split.
    + intros (i & Hi & Hm). exists i. apply HP. unfold predecessors. apply filter_In. auto.
    + intros (i & Hi). apply HP in Hi. unfold predecessors in Hi. apply filter_In in Hi. eauto.
  - destruct (adjacent_spec _ _ W) as (m & E & L & V). exists m. split; [exact E|]. split; [exact L|].
    intros i j Hi Hj. rewrite V by assumption. destruct (mem j (g i)) eqn:Em.
    + left. split; [reflexivity|]. apply GraphProofs.mem_In in Em. now apply HH.
    + right. split; [reflexivity|]. apply mem_false in Em. intros Hl. apply Em. now apply HH.
Qed.

(** The layers are those added, each once; the three graphs report exactly the arcs of the
    calls, whichever overloads were used and in whatever order. *)
Theorem c62_reports : forall os s, pbuild os = Ok s ->
  NoDup (pl s) /\ (forall x, In x (pl s) <-> added os x) /\
  reports (pl s) (fgraph (px s)) (flat_map arcs_f os) /\
  reports (pl s) (tgraph (px s)) (flat_map arcs_t os) /\
  reports (pl s) (bgraph (px s)) (flat_map arcs_b os).
Proof.
  intros os s E. destruct (pbuild_spec os) as [(_ & s' & E' & [N1 N2 HF HT HB] & HP)|(_ & E')]; [|congruence].
  assert (s' = s) as -> by congruence.
  split; [exact N1|]. split; [exact HP|]. split; [|split]; now apply good_reports.
Qed.
Print Assumptions c62_reports.

(** A graph built with edges only: the backward arcs are the training arcs reversed. *)
Definition edge_call (o : pop) : Prop :=
  match o with PNode _ | PLoss _ | PEdgeFrom _ _ | PEdgeFromLoss _ _ | PEdgeTo _ _ => True | _ => False end.
Theorem c62_backward_mirrors : forall os s, pbuild os = Ok s -> Forall edge_call os ->
  forall i j, In j (tgraph (px s) i) <-> In i (bgraph (px s) j).
Proof.
  intros os s E HE i j. destruct (c62_reports os s E) as (_ & _ & _ & (RT & _) & (RB & _)).
  specialize (RT i) as (_ & RT). specialize (RB j) as (_ & RB). unfold successors in RT, RB. rewrite RT, RB. unfold linked.
  assert (M : forall a b, In (a, b) (flat_map arcs_t os) <-> In (b, a) (flat_map arcs_b os)).
  { intros a b. rewrite !in_flat_map. split; intros (o & Ho & Hin); exists o; (split; [exact Ho|]);
      apply (proj1 (Forall_forall _ _) HE) in Ho; destruct o; cbn in *; try contradiction;
      rewrite in_map_iff in *; destruct Hin as (x & Ex & Hx); injection Ex as <- <-; eauto. }
  split; intros (a & b & Hab & Ha & Hb); exists b, a; (split; [now apply M|auto]).
Qed.
Print Assumptions c62_backward_mirrors.

(** *** C63 *)
Definition losses_of (os : list pop) : list nat :=
  flat_map (fun o => match o with PLoss x => [x] | _ => [] end) os.
(** Every loss is a layer the graph does not have yet. *)
Definition new_losses (os : list pop) : Prop :=
  forall pre x post, os = pre ++ PLoss x :: post -> ~ added pre x.

Lemma pstep_arcs_keep s o s' : pstep s o = Ok s' -> is_add o = None ->
  pl s' = pl s /\ losses (px s') = losses (px s).
Proof.
  intros E Ha.
  pose (K := fun s' : pgraph => pl s' = pl s /\ losses (px s') = losses (px s)).
  assert (Kf : forall s0 a b s1, K s0 -> on_f s0 a b = Ok s1 -> K s1).
  { intros s0 a b s1 K0 E0. unfold on_f in E0. destruct (p_arc (pl s0) (fgraph (px s0)) a b); try discriminate.
    injection E0 as <-. exact K0. }
  assert (Kt : forall s0 a b s1, K s0 -> on_t s0 a b = Ok s1 -> K s1).
  { intros s0 a b s1 K0 E0. unfold on_t in E0. destruct (p_arc (pl s0) (tgraph (px s0)) a b); try discriminate.
    injection E0 as <-. exact K0. }
  assert (Kb : forall s0 a b s1, K s0 -> on_b s0 a b = Ok s1 -> K s1).
  { intros s0 a b s1 K0 E0. unfold on_b in E0. destruct (p_arc (pl s0) (bgraph (px s0)) a b); try discriminate.
    injection E0 as <-. exact K0. }
  assert (Kft : forall (e1 e2 : nat -> nat) xs s0 s1, K s0 ->
    foldM (fun s x => s <- on_f s (e1 x) (e2 x) ;; on_t s (e1 x) (e2 x)) xs s0 = Ok s1 -> K s1).
  { intros e1 e2 xs s0 s1 K0. apply foldM_inv; [|exact K0]. intros s2 x s3 K2 E2.
    apply bind_Ok_inv in E2. destruct E2 as (s4 & E4 & E5). eapply Kt; [|exact E5]. eapply Kf; eauto. }
  assert (Kfb : forall (e1 e2 : nat -> nat) xs s0 s1, K s0 -> foldM (fun s x => on_b s (e1 x) (e2 x)) xs s0 = Ok s1 -> K s1).
  { intros e1 e2 xs s0 s1 K0. apply foldM_inv; [|exact K0]. intros s2 x s3 K2 E2. eapply Kb; eauto. }
  assert (Kfl : forall (e1 e2 : nat -> nat) xs s0 s1, K s0 -> foldM (fun s x => on_t s (e1 x) (e2 x)) xs s0 = Ok s1 -> K s1).
  { intros e1 e2 xs s0 s1 K0. apply foldM_inv; [|exact K0]. intros s2 x s3 K2 E2. eapply Kt; eauto. }
  assert (K0 : K s) by (split; reflexivity). change (K s').
  destruct o as [x|x|froms to|froms to|from tos|froms to|froms to|from tos|froms to|from tos];
    cbn [is_add] in Ha; try discriminate; cbn [pstep] in E;
    unfold edge_from, edge_from_loss, edge_to, front_from, front_from_loss, front_to, back_from, back_to in E.
  - apply bind_Ok_inv in E. destruct E as (s1 & E1 & E2). apply bind_Ok_inv in E1. destruct E1 as (s2 & E3 & E4).
    injection E4 as <-. apply (Kfb (fun _ => to) (fun x => x) froms (p_roles s2)); [|exact E2].
    exact (Kft (fun x => x) (fun _ => to) froms s s2 K0 E3).
  - apply bind_Ok_inv in E. destruct E as (s1 & E1 & E2).
    apply (Kfb (fun _ => to) (fun x => x) froms s1); [|exact E2].
    exact (Kfl (fun x => x) (fun _ => to) froms s s1 K0 E1).
  - apply bind_Ok_inv in E. destruct E as (s1 & E1 & E2). apply bind_Ok_inv in E1. destruct E1 as (s2 & E3 & E4).
    injection E4 as <-. apply (Kfb (fun x => x) (fun _ => from) tos (p_roles s2)); [|exact E2].
    exact (Kft (fun _ => from) (fun x => x) tos s s2 K0 E3).
  - apply bind_Ok_inv in E. destruct E as (s1 & E1 & E2). injection E2 as <-. exact (Kft (fun x => x) (fun _ => to) froms s s1 K0 E1).
  - exact (Kfl (fun x => x) (fun _ => to) froms s s' K0 E).
  - apply bind_Ok_inv in E. destruct E as (s1 & E1 & E2). injection E2 as <-. exact (Kft (fun _ => from) (fun x => x) tos s s1 K0 E1).
  - exact (Kfb (fun x => x) (fun _ => to) froms s s' K0 E).
  - exact (Kfb (fun _ => from) (fun x => x) tos s s' K0 E).
Qed.

Lemma mapM_rd_app {A} (l l' : list A) is r : mapM (rd l) is = Ok r -> mapM (rd (l ++ l')) is = Ok r.
Proof.
  revert r. induction is as [|i is IH]; intros r E; [exact E|]. cbn [mapM] in *.
  apply bind_Ok_inv in E. destruct E as (x & E1 & E). apply bind_Ok_inv in E. destruct E as (xs & E2 & E).
  unfold rd in *. destruct (nth_error l i) as [y|] eqn:En; [|discriminate]. injection E1 as ->.
  rewrite nth_error_app1 by (apply nth_error_Some; congruence). rewrite En. cbn [bind]. rewrite (IH _ E2). exact E.
Qed.
Lemma mapM_snoc {A B} (f : A -> res B) l x r y : mapM f l = Ok r -> f x = Ok y -> mapM f (l ++ [x]) = Ok (r ++ [y]).
Proof.
  revert r. induction l as [|a l IH]; intros r E Ey; cbn [mapM app] in *.
  - injection E as <-. rewrite Ey. reflexivity.
  - apply bind_Ok_inv in E. destruct E as (b & E1 & E). apply bind_Ok_inv in E. destruct E as (bs & E2 & E).
    injection E as <-. rewrite E1. cbn [bind]. rewrite (IH bs E2 Ey). reflexivity.
Qed.
Lemma mapM_rd_In {A} (l : list A) is r : mapM (rd l) is = Ok r ->
  forall x, In x r <-> exists i, In i is /\ nth_error l i = Some x.
Proof.
  revert r. induction is as [|i is IH]; intros r E x; cbn [mapM] in E.
  - injection E as <-. split; [intros []|intros (i & [] & _)].
  - apply bind_Ok_inv in E. destruct E as (y & E1 & E). apply bind_Ok_inv in E. destruct E as (ys & E2 & E).
    injection E as <-. apply rd_Ok_inv in E1. cbn [In]. rewrite (IH _ E2). split.
    + intros [->|(k & Hk & Ek)]; eauto.
    + intros (k & [->|Hk] & Ek); [left; congruence|right; eauto].
Qed.

(** When every loss is a new layer, the loss layers are the ones added with add_loss, in
    order, and the forward layers are the others. *)
Theorem c63_losses_partial : forall os s, pbuild os = Ok s -> new_losses os ->
  p_at s (losses (px s)) = Ok (losses_of os) /\
  forall i, In i (forward_layers_idx s) <-> exists x, nth_error (pl s) i = Some x /\ ~ In x (losses_of os).
Proof.
  intros os s E HN.
  assert (M : p_at s (losses (px s)) = Ok (losses_of os)).
  { revert s E HN. induction os as [|o os IH] using rev_ind; intros s E HN; [injection E as <-; reflexivity|].
    rewrite pbuild_snoc in E. apply bind_Ok_inv in E. destruct E as (s0 & E0 & E).
    assert (HN0 : new_losses os).
    { intros pre x post Eo. apply (HN pre x (post ++ [o])). rewrite Eo, <- app_assoc. reflexivity. }
    specialize (IH s0 E0 HN0). unfold losses_of in *. rewrite flat_map_app. cbn [flat_map]. rewrite app_nil_r.
    destruct (is_add o) as [x|] eqn:Ea.
    - destruct o as [y|y| | | | | | | |]; try discriminate; cbn [is_add] in Ea; injection Ea as ->; cbn [pstep] in E; injection E as <-.
      + rewrite app_nil_r. unfold p_add_node. destruct (mem x (pl s0)); [exact IH|].
        unfold p_at in *. cbn [pl px add_node losses]. now apply mapM_rd_app.
      + assert (Hx : mem x (pl s0) = false).
        { apply mem_false. intros Hin. apply (HN os x []); [reflexivity|].
          destruct (c62_reports os s0 E0) as (_ & HP & _). now apply HP. }
        unfold p_add_loss, p_add_node. rewrite Hx. cbv zeta. unfold p_at in *. cbn [pl px add_node losses].
        apply mapM_snoc; [now apply mapM_rd_app|]. rewrite app_length. cbn [length].
        replace (length (pl s0) + 1 - 1) with (length (pl s0)) by lia.
        apply rd_ok. rewrite nth_error_app2, Nat.sub_diag by lia. reflexivity.
    - destruct (pstep_arcs_keep _ _ _ E Ea) as (P & L). unfold p_at. rewrite P, L.
      destruct o; try discriminate; rewrite app_nil_r; exact IH. }
  split; [exact M|]. intros i. unfold forward_layers_idx. rewrite filter_In, in_seq, negb_true_iff, mem_false.
  pose proof (mapM_rd_In _ _ _ M) as MI. destruct (c62_reports os s E) as (ND & _). split.
  - intros (Hi & Hl). destruct (nth_error (pl s) i) as [x|] eqn:Ex; [|apply nth_error_None in Ex; lia].
    exists x. split; [reflexivity|]. intros Hin. apply MI in Hin. destruct Hin as (k & Hk & Ek).
    assert (k = i) as -> by (eapply nth_error_inj; eauto). contradiction.
  - intros (x & Ex & Hx). assert (i < length (pl s)) by (apply nth_error_Some; congruence).
    split; [lia|]. intros Hl. apply Hx. apply MI. eauto.
Qed.
Print Assumptions c63_losses_partial.

(** add_loss on a layer the graph already has registers the layer added last instead, here
    layer 6, which is no loss and is dropped from the forward layers; called twice it
    registers the same loss twice. *)
Theorem c63_losses_refuted : exists os s os' s',
  pbuild os = Ok s /\ losses_of os = [5] /\ p_at s (losses (px s)) = Ok [6] /\ forward_layers_idx s = [0] /\
  pbuild os' = Ok s' /\ losses_of os' = [5; 5] /\ p_at s' (losses (px s')) = Ok [5; 5].
Proof.
  exists [PNode 5; PNode 6; PLoss 5]. eexists. exists [PLoss 5; PLoss 5]. eexists.
  split; [reflexivity|]. split; [reflexivity|]. split; [reflexivity|]. split; [reflexivity|].
  split; [reflexivity|]. split; reflexivity.
Qed.
Print Assumptions c63_losses_refuted.

Fixpoint fresh_losses (seen : list nat) (os : list pop) : Prop :=
  match os with
  | [] => True
  | PLoss x :: t => ~ In x seen /\ fresh_losses (x :: seen) t
  | PNode x :: t => fresh_losses (x :: seen) t
  | _ :: t => fresh_losses seen t
  end.
Lemma fresh_losses_new os : fresh_losses [] os -> new_losses os.
Proof.
  assert (G : forall os seen, fresh_losses seen os -> forall pre x post, os = pre ++ PLoss x :: post ->
    ~ In x seen /\ ~ added pre x).
  { clear. induction os as [|o os IH]; intros seen HF pre x post E; [destruct pre; discriminate|].
    destruct pre as [|q pre].
    - injection E as -> ->. cbn in HF. split; [tauto|]. unfold added. cbn. tauto.
    - injection E as <- ->.
      assert (S1 : exists seen', fresh_losses seen' (pre ++ PLoss x :: post) /\ (In x seen -> In x seen') /\
        (o = PNode x \/ o = PLoss x -> In x seen')).
      { destruct o; cbn in HF; eexists; (split; [(apply HF || exact HF)|]); cbn;
          (split; [auto|]); intros [H|H]; try discriminate; injection H as <-; auto. }
      destruct S1 as (seen' & HF' & H1 & H2). destruct (IH seen' HF' pre x post eq_refl) as (H3 & H4).
      split; [tauto|]. unfold added in *. cbn [In]. tauto. }
  intros HF pre x post E. exact (proj2 (G os [] HF pre x post E)).
Qed.

(** A diamond with a loss, built with the vector overloads. *)
Definition ex_calls : list pop :=
  [PNode 10; PNode 11; PNode 12; PNode 13; PLoss 14; PNode 11;
   PEdgeTo 10 [11; 12]; PEdgeFrom [11; 12] 13; PEdgeFromLoss [13] 14].
Example c62_c63_hypotheses_met :
  exists s, pbuild ex_calls = Ok s /\ Forall edge_call ex_calls /\ new_losses ex_calls /\ known ex_calls /\
    successors (fgraph (px s)) 0 = [1; 2] /\ predecessors 5 (tgraph (px s)) 4 = [3] /\
    predecessors 5 (fgraph (px s)) 4 = [] /\ successors (bgraph (px s)) 3 = [1; 2] /\
    pbuild [PNode 1; PFrontTo 1 [2]] = Throw.
Proof.
  assert (K : match pbuild ex_calls with
    | Ok s => successors (fgraph (px s)) 0 = [1; 2] /\ predecessors 5 (tgraph (px s)) 4 = [3] /\
        predecessors 5 (fgraph (px s)) 4 = [] /\ successors (bgraph (px s)) 3 = [1; 2]
    | _ => False
    end) by (vm_compute; auto).
  destruct (pbuild ex_calls) as [s| |] eqn:E; try contradiction. destruct K as (K1 & K2 & K3 & K4).
  exists s. split; [reflexivity|]. split; [repeat constructor|].
  split; [apply fresh_losses_new; cbn; intuition discriminate|].
  split; [apply c62_errors; eauto|]. auto.
Qed.

(** *** C64 *)
Lemma nth_error_upd_in {A} (l : list A) i x j : i < length l ->
  nth_error (upd l i x) j = if j =? i then Some x else nth_error l j.
Proof. intros L. rewrite Base.nth_error_upd. apply Nat.ltb_lt in L. rewrite L. now rewrite andb_true_r. Qed.

Section Assign.
Context {C : Type}.

Record wfm (h : heap C) (g : pgraph) : Prop := mkWfm {
  wm_nodup : NoDup (pl g); wm_nodes : nodes (px g) = length (pl g); wm_dwf : dwf (px g);
  wm_alloc : forall x, In x (pl g) -> x < length h }.

Lemma wfm_heap h h' g : length h <= length h' -> wfm h g -> wfm h' g.
Proof. intros L [A B D E]. constructor; auto. intros x Hx. specialize (E x Hx). lia. Qed.

Lemma p_at_ok h g is : wfm h g -> (forall x, In x is -> x < nodes (px g)) -> exists r, p_at g is = Ok r.
Proof.
  intros W Hi. eexists. unfold p_at. apply (mapM_ok _ (fun i => nth i (pl g) 0)).
  intros x Hx. apply rd_nth. rewrite <- (wm_nodes _ _ W). auto.
Qed.
Lemma run_of_ok n g start : gwf n g -> NoDup start -> exists r, run_of g n start = Ok r.
Proof.
  intros W HN. destruct (schedule_ok g start n (gwf_finite _ _ W) HN (n + 2) (le_n _)) as (a & E & _).
  exists a. unfold run_of. now rewrite E.
Qed.

(** The caches of [s] are those of the graph [g]. *)
Definition caches (s : mstate) (g : pgraph) : Prop :=
  st_layers s = pl g /\
  p_at g (inputs (px g)) = Ok (st_inputs s) /\
  p_at g (outputs (px g)) = Ok (st_outputs s) /\
  p_at g (losses (px g)) = Ok (st_losses s) /\
  run_of (tgraph (px g)) (nodes (px g)) (inputs (px g)) = Ok (st_trun s) /\
  run_of (fgraph (px g)) (nodes (px g)) (inputs (px g)) = Ok (st_frun s) /\
  run_of (bgraph (px g)) (nodes (px g)) (losses (px g)) = Ok (st_brun s).

Lemma update_ok h s : wfm h (st_graph s) -> exists s', st_update s = Ok s' /\ st_graph s' = st_graph s /\ caches s' (st_graph s).
Proof.
  intros W. pose proof (wm_dwf _ _ W) as (A & B & D & E & F & G & I & J & K).
  destruct (p_at_ok h _ _ W I) as (i & Ei). destruct (p_at_ok h _ _ W K) as (o & Eo). destruct (p_at_ok h _ _ W F) as (l & El).
  destruct (run_of_ok _ _ _ B G) as (t & Et). destruct (run_of_ok _ _ _ A G) as (f & Ef). destruct (run_of_ok _ _ _ D E) as (b & Eb).
  unfold st_update. cbv zeta. rewrite Ei, Eo, El, Et, Ef, Eb. cbn [bind]. eexists. split; [reflexivity|].
  split; [reflexivity|]. unfold caches. cbn. auto 10.
Qed.

Lemma clones_ok (ls : list nat) : forall h : heap C, (forall x, In x ls -> x < length h) ->
  exists cs, mapM (rd h) ls = Ok cs /\ length cs = length ls /\ clones C h ls = Ok (h ++ cs, seq (length h) (length ls)).
Proof.
  induction ls as [|l ls IH]; intros h Hl.
  - exists []. cbn. rewrite app_nil_r. auto.
  - assert (L : l < length h) by (apply Hl; now left).
    destruct (nth_error h l) as [c|] eqn:En; [|apply nth_error_None in En; lia].
    assert (Ml : exists cs, mapM (rd h) ls = Ok cs).
    { eexists. apply (mapM_ok _ (fun i => nth i h c)). intros x Hx. apply rd_nth. apply Hl. now right. }
    destruct Ml as (cs & Ec).
    destruct (IH (h ++ [c])) as (cs' & E1 & L1 & E2).
    { intros x Hx. rewrite app_length. assert (x < length h) by (apply Hl; now right). lia. }
    assert (cs' = cs) as -> by (apply (mapM_rd_app _ [c]) in Ec; congruence).
    exists (c :: cs). cbn [mapM clones]. rewrite (rd_ok _ _ _ En). cbn [bind]. rewrite Ec, E2. cbn [bind].
    rewrite app_length. cbn [length app]. replace (length h + 1) with (S (length h)) by lia.
    rewrite <- app_assoc. cbn [app]. auto.
Qed.

Lemma graph_copy_dwf s : dwf s -> dwf (graph_copy s).
Proof.
  intros (A & B & D & E & F & _).
  apply (dwf_roles (mkGraph (nodes s) (fgraph s) (tgraph s) (bgraph s) (losses s) [] [])). unfold dwf.
  cbn [nodes fgraph tgraph bgraph losses inputs outputs].
  split; [exact A|]. split; [exact B|]. split; [exact D|]. split; [exact E|]. split; [exact F|].
  split; [constructor|]. split; [intros x []|]. split; [constructor|intros x []].
Qed.
Lemma graph_copy_twice s : graph_copy (graph_copy s) = graph_copy s.
Proof. reflexivity. Qed.

Lemma p_copy_ok h g : wfm h g -> exists cs, mapM (rd h) (pl g) = Ok cs /\ length cs = length (pl g) /\
  p_copy C h g = Ok (h ++ cs, mkP (seq (length h) (length (pl g))) (graph_copy (px g))) /\
  wfm (h ++ cs) (mkP (seq (length h) (length (pl g))) (graph_copy (px g))).
Proof.
  intros W. destruct (clones_ok (pl g) h (wm_alloc _ _ W)) as (cs & E1 & L & E2).
  exists cs. split; [exact E1|]. split; [exact L|]. split.
  - unfold p_copy. rewrite E2. reflexivity.
  - constructor; cbn [pl px].
    + apply seq_NoDup.
    + rewrite seq_length. cbn. apply (wm_nodes _ _ W).
    + apply graph_copy_dwf, W.
    + intros x Hx. apply in_seq in Hx. rewrite app_length. lia.
Qed.

(** Copy construction: new layers with the contents of those of the original; the caches are
    those of the new graph. *)
Lemma m_copy_ok h s : wfm h (st_graph s) -> exists cs s',
  mapM (rd h) (pl (st_graph s)) = Ok cs /\ m_copy C h s = Ok (h ++ cs, s') /\
  st_graph s' = mkP (seq (length h) (length (pl (st_graph s)))) (graph_copy (px (st_graph s))) /\
  wfm (h ++ cs) (st_graph s') /\ caches s' (st_graph s') /\ length cs = length (pl (st_graph s)).
Proof.
  intros W. destruct (p_copy_ok h _ W) as (cs & E1 & L & E2 & W').
  unfold m_copy. rewrite E2. cbn [bind].
  destruct (update_ok (h ++ cs) (mkState (mkP (seq (length h) (length (pl (st_graph s)))) (graph_copy (px (st_graph s))))
    (st_layers s) (st_inputs s) (st_outputs s) (st_losses s) (st_trun s) (st_frun s) (st_brun s)) W') as (s' & E3 & G & K).
  cbn [st_graph] in G, K. rewrite E3. cbn [bind]. exists cs, s'. rewrite G. auto 8.
Qed.

(** Assignment: the caches are those of a copy [p] of the right hand side, the graph holds
    other layers. *)
Lemma m_assign_ok h l obj : wfm h (st_graph l) -> wfm h (st_graph obj) ->
  exists h1 p h' l' cs, m_copy C h obj = Ok (h1, p) /\ m_assign C h l obj = Ok (h', l') /\
    (exists e, h' = h ++ e) /\
    st_layers l' = st_layers p /\ st_inputs l' = st_inputs p /\ st_outputs l' = st_outputs p /\ st_losses l' = st_losses p /\
    st_trun l' = st_trun p /\ st_frun l' = st_frun p /\ st_brun l' = st_brun p /\
    px (st_graph l') = px (st_graph p) /\ wfm h' (st_graph l') /\
    mapM (rd h) (pl (st_graph obj)) = Ok cs /\ mapM (rd h') (st_layers l') = Ok cs /\ mapM (rd h') (pl (st_graph l')) = Ok cs /\
    (forall x, In x (st_layers l') -> length h <= x < length h' /\ ~ In x (pl (st_graph l'))) /\
    (forall x, In x (pl (st_graph l')) -> length h <= x < length h').
Proof.
  intros Wl Wo. destruct (m_copy_ok h obj Wo) as (cs & p & E1 & E2 & Gp & Wp & Kp & Lc).
  exists (h ++ cs), p. unfold m_assign. rewrite E2. cbn [bind]. unfold st_swap, st_move.
  assert (Wl1 : wfm (h ++ cs) (st_graph l)) by (eapply wfm_heap; [|exact Wl]; rewrite app_length; lia).
  destruct (p_copy_ok _ _ Wl1) as (cl & C1 & C2 & C3 & Wt). rewrite C3. cbn [bind st_graph].
  set (h2 := (h ++ cs) ++ cl) in *.
  assert (Wp2 : wfm h2 (st_graph p)) by (eapply wfm_heap; [|exact Wp]; unfold h2; rewrite (app_length (h ++ cs)); lia).
  destruct (p_copy_ok _ _ Wp2) as (cp & D1 & D2 & D3 & Wl2). rewrite D3. cbn [bind st_graph].
  set (h3 := h2 ++ cp) in *.
  set (gt := mkP (seq (length (h ++ cs)) (length (pl (st_graph l)))) (graph_copy (px (st_graph l)))) in *.
  set (gl := mkP (seq (length h2) (length (pl (st_graph p)))) (graph_copy (px (st_graph p)))) in *.
  assert (Wt3 : wfm h3 gt) by (eapply wfm_heap; [|exact Wt]; unfold h3; rewrite app_length; lia).
  destruct (p_copy_ok _ _ Wt3) as (ct & T1 & T2 & T3 & Wr). rewrite T3. cbn [bind].
  exists (h3 ++ ct). eexists. exists cs. split; [reflexivity|]. split; [reflexivity|].
  cbn [st_graph st_layers st_inputs st_outputs st_losses st_trun st_frun st_brun].
  assert (Lp : length (pl (st_graph p)) = length cs) by (rewrite Gp; cbn [pl]; rewrite seq_length; lia).
  assert (LS : st_layers p = seq (length h) (length cs)).
  { destruct Kp as (K1 & _). rewrite K1, Gp. cbn [pl]. now rewrite Lc. }
  assert (EQ : h3 ++ ct = h ++ (cs ++ cl ++ cp ++ ct)).
  { unfold h3, h2. now rewrite <- !app_assoc. }
  (* contents of the clones *)
  assert (RS : forall (a b c : list C), mapM (rd (a ++ b ++ c)) (seq (length a) (length b)) = Ok b).
  { intros a b. revert a. induction b as [|x b IHb]; intros a c; [reflexivity|]. cbn [length seq mapM app].
    rewrite (rd_ok (a ++ x :: b ++ c) (length a) x) by (rewrite nth_error_app2, Nat.sub_diag by lia; reflexivity).
    cbn [bind]. specialize (IHb (a ++ [x]) c). rewrite app_length, <- app_assoc in IHb. cbn [length app] in IHb.
    replace (length a + 1) with (S (length a)) in IHb by lia. rewrite IHb. reflexivity. }
  assert (Ecp : cp = cs).
  { destruct Kp as (K1 & _). rewrite <- K1, LS in D1. unfold h2 in D1. rewrite <- app_assoc, RS in D1. congruence. }
  split; [exists (cs ++ cl ++ cp ++ ct); exact EQ|].
  do 7 (split; [reflexivity|]).
  split; [unfold gl; cbn [px]; rewrite Gp; reflexivity|].
  split; [eapply wfm_heap; [|exact Wl2]; rewrite (app_length h3); fold h3; lia|].
  split; [exact E1|].
  split; [rewrite EQ, LS; apply RS|].
  split.
  { unfold gl. cbn [pl]. rewrite Lp, <- Ecp. unfold h3. rewrite <- app_assoc. rewrite RS. reflexivity. }
  assert (LL : length (h3 ++ ct) = length h2 + length cp + length ct) by (unfold h3; rewrite !app_length; lia).
  assert (L2 : length h2 = length h + length cs + length cl) by (unfold h2; rewrite !app_length; lia).
  split.
  - intros x Hx. rewrite LS in Hx. apply in_seq in Hx. split; [lia|]. unfold gl. cbn [pl]. rewrite in_seq. lia.
  - intros x Hx. unfold gl in Hx. cbn [pl] in Hx. apply in_seq in Hx. rewrite Ecp in *. lia.
Qed.

(** *** Building calls *)
Lemma p_arc_index n ls g a b g' : length ls = n -> p_arc ls g a b = Ok g' ->
  exists i j, i < n /\ j < n /\ add_arc n g i j = Ok g'.
Proof.
  intros Ln E. unfold p_arc in E. destruct (index_of ls a) as [i|] eqn:Ea; [|discriminate].
  destruct (index_of ls b) as [j|] eqn:Eb; [|discriminate]. injection E as <-.
  apply index_of_some in Ea, Eb.
  assert (Li : i < n) by (subst n; apply nth_error_Some; congruence).
  assert (Lj : j < n) by (subst n; apply nth_error_Some; congruence).
  exists i, j. split; [exact Li|]. split; [exact Lj|]. unfold add_arc.
  apply Nat.ltb_lt in Li, Lj. rewrite Li, Lj. reflexivity.
Qed.
Definition arc_op (f : pgraph -> res pgraph) : Prop :=
  forall h g g', wfm h g -> f g = Ok g' -> wfm h g' /\ pl g' = pl g.
Lemma back_arc_op a b : arc_op (fun g => back_from g [b] a).
Proof.
  intros h g g' [A B D E] Ef. cbn [back_from foldM] in Ef. unfold back_from in Ef. cbn [foldM] in Ef.
  apply bind_Ok_inv in Ef. destruct Ef as (g1 & E1 & E2). injection E2 as <-. unfold on_b in E1.
  apply bind_Ok_inv in E1. destruct E1 as (t & Et & E1). injection E1 as <-. split; [|reflexivity].
  destruct (p_arc_index (nodes (px g)) _ _ _ _ _ (eq_sym B) Et) as (i & j & _ & _ & Ea).
  constructor; cbn [pl px nodes]; auto. apply (gstep_dwf (px g) (GBack j i)); [exact D|].
  cbn [gstep]. unfold add_backward. rewrite Ea. reflexivity.
Qed.
Lemma front_loss_op a b : arc_op (fun g => front_from_loss g [a] b).
Proof.
  intros h g g' [A B D E] Ef. unfold front_from_loss in Ef. cbn [foldM] in Ef.
  apply bind_Ok_inv in Ef. destruct Ef as (g1 & E1 & E2). injection E2 as <-. unfold on_t in E1.
  apply bind_Ok_inv in E1. destruct E1 as (t & Et & E1). injection E1 as <-. split; [|reflexivity].
  destruct (p_arc_index (nodes (px g)) _ _ _ _ _ (eq_sym B) Et) as (i & j & _ & _ & Ea).
  constructor; cbn [pl px nodes]; auto. apply (gstep_dwf (px g) (GFrontLoss i j)); [exact D|].
  cbn [gstep]. unfold add_forward_loss. rewrite Ea. reflexivity.
Qed.
Lemma front_op a b : arc_op (fun g => front_from g [a] b).
Proof.
  intros h g g' [A B D E] Ef. unfold front_from in Ef. cbn [foldM] in Ef.
  apply bind_Ok_inv in Ef. destruct Ef as (g1 & E1 & E2). injection E2 as <-.
  apply bind_Ok_inv in E1. destruct E1 as (g2 & E1 & E2). injection E2 as <-.
  apply bind_Ok_inv in E1. destruct E1 as (g3 & E1 & E2). unfold on_f in E1. unfold on_t in E2.
  apply bind_Ok_inv in E1. destruct E1 as (f & Ef & E1). injection E1 as <-.
  apply bind_Ok_inv in E2. destruct E2 as (t & Et & E2). injection E2 as <-. cbn [pl px tgraph] in *. split; [|reflexivity].
  unfold p_arc in Ef, Et.
  destruct (index_of (pl g) a) as [i|] eqn:Ia; [|discriminate].
  destruct (index_of (pl g) b) as [j|] eqn:Ib; [|discriminate].
  injection Ef as <-. injection Et as <-. apply index_of_some in Ia, Ib.
  assert (Li : i <? nodes (px g) = true) by (apply Nat.ltb_lt; rewrite B; apply nth_error_Some; congruence).
  assert (Lj : j <? nodes (px g) = true) by (apply Nat.ltb_lt; rewrite B; apply nth_error_Some; congruence).
  constructor; cbn [pl px nodes p_roles compute_roles]; auto. apply (gstep_dwf (px g) (GFront i j)); [exact D|].
  cbn [gstep]. unfold add_forward, add_arc. rewrite Li, Lj. reflexivity.
Qed.
Lemma wfm_node h g c : wfm h g -> wfm (h ++ [c]) (p_add_node g (length h)) /\ pl (p_add_node g (length h)) = pl g ++ [length h].
Proof.
  intros [A B D E]. unfold p_add_node.
  assert (Hm : mem (length h) (pl g) = false) by (apply mem_false; intros Hx; specialize (E _ Hx); lia).
  rewrite Hm. apply mem_false in Hm. split; [|reflexivity]. constructor; cbn [pl px].
  - apply GraphProofs.NoDup_app; [exact A|constructor; [intros []|constructor]|]. intros y Hy [<-|[]]. contradiction.
  - cbn [add_node nodes]. rewrite B, app_length. cbn. lia.
  - apply (gstep_dwf (px g) GLayer); [exact D|reflexivity].
  - intros x Hx. rewrite app_length. cbn. apply in_app_iff in Hx. destruct Hx as [Hx|[<-|[]]]; [specialize (E x Hx)|]; lia.
Qed.
Lemma wfm_loss h g c : wfm h g -> wfm (h ++ [c]) (p_add_loss g (length h)) /\ pl (p_add_loss g (length h)) = pl g ++ [length h].
Proof.
  intros W. destruct (wfm_node h g c W) as ([A' B' D' E'] & P). unfold p_add_loss. cbv zeta. cbn [pl px].
  split; [|exact P]. constructor; cbn [pl px nodes]; auto.
  pose proof W as [A B D E].
  assert (Hm : mem (length h) (pl g) = false) by (apply mem_false; intros Hx; specialize (E _ Hx); lia).
  unfold p_add_node in *. rewrite Hm in *. cbn [pl px add_node nodes fgraph tgraph bgraph losses inputs outputs] in *.
  rewrite app_length. cbn [length]. replace (length (pl g) + 1 - 1) with (nodes (add_node (px g)) - 1) by (cbn; lia).
  apply (gstep_dwf (px g) GLoss); [exact D|]. reflexivity.
Qed.

Definition wfw (w : objects C) : Prop := Forall (fun s => wfm (ob_heap C w) (st_graph s)) (ob_models C w).
Definition fresh_caches (s : mstate) : Prop := caches s (st_graph s).

Lemma on_model_spec w m f w' : wfw w -> (forall g g', wfm (ob_heap C w) g -> f g = Ok g' -> wfm (ob_heap C w) g') ->
  on_model C w m f = Ok w' ->
  exists s s' g, nth_error (ob_models C w) m = Some s /\ f (st_graph s) = Ok g /\ st_graph s' = g /\ fresh_caches s' /\
    ob_heap C w' = ob_heap C w /\ ob_models C w' = upd (ob_models C w) m s' /\ wfw w'.
Proof.
  intros W Hf E. unfold on_model in E.
  apply bind_Ok_inv in E. destruct E as (s & Es & E). apply rd_Ok_inv in Es.
  apply bind_Ok_inv in E. destruct E as (g & Eg & E).
  assert (Ws : wfm (ob_heap C w) (st_graph s)) by (eapply (proj1 (Forall_forall _ _) W); eapply nth_error_In; eauto).
  pose proof (Hf _ _ Ws Eg) as Wg.
  destruct (update_ok (ob_heap C w) (mkState g (st_layers s) (st_inputs s) (st_outputs s) (st_losses s)
    (st_trun s) (st_frun s) (st_brun s)) Wg) as (s' & Eu & G & K).
  cbn [st_graph] in G, K. rewrite Eu in E. cbn [bind] in E.
  apply bind_Ok_inv in E. destruct E as (ms & Em & E). injection E as <-. apply wr_Ok_inv in Em. destruct Em as (_ & ->).
  exists s, s', g. split; [exact Es|]. split; [exact Eg|]. split; [exact G|].
  split; [unfold fresh_caches; now rewrite G|]. split; [reflexivity|]. split; [reflexivity|].
  unfold wfw. cbn [ob_heap ob_models]. apply Forall_forall. intros s0 Hs0. apply In_nth_error in Hs0. destruct Hs0 as (k & Hk).
  rewrite nth_error_upd_in in Hk by (apply nth_error_Some; congruence). destruct (k =? m).
  - injection Hk as <-. now rewrite G.
  - eapply (proj1 (Forall_forall _ _) W). eapply nth_error_In; eauto.
Qed.

(** Which models a call rebuilds the caches of, and which it assigns to. *)
Definition rebuilds (o : oop C) : option nat :=
  match o with
  | OLayer _ m _ | OLoss _ m _ | OEdge _ m _ _ | OLossEdge _ m _ _
  | OFront _ m _ _ | OFrontLoss _ m _ _ | OBack _ m _ _ => Some m
  | _ => None
  end.
Definition assigns (o : oop C) : option nat := match o with OAssign _ m _ => Some m | _ => None end.
(** Model [m] was assigned to, and not built on since. *)
Definition stale (os : list (oop C)) (m : nat) : bool :=
  fold_left (fun b o => match assigns o with
                        | Some k => if k =? m then true else b
                        | None => match rebuilds o with Some k => if k =? m then false else b | None => b end
                        end) os false.

Definition apart (s : mstate) : Prop := forall x, In x (st_layers s) -> ~ In x (pl (st_graph s)).
Definition state_of (b : bool) (s : mstate) : Prop :=
  length (st_layers s) = length (pl (st_graph s)) /\ if b then apart s else fresh_caches s.

Lemma fresh_state s : fresh_caches s -> state_of false s.
Proof. intros K. split; [|exact K]. destruct K as (K & _). now rewrite K. Qed.

Lemma stale_snoc os o m : stale (os ++ [o]) m =
  match assigns o with
  | Some k => if k =? m then true else stale os m
  | None => match rebuilds o with Some k => if k =? m then false else stale os m | None => stale os m end
  end.
Proof. unfold stale. rewrite fold_left_app. reflexivity. Qed.

Lemma wfw_upd (w : objects C) h m s' : (exists e, h = ob_heap C w ++ e) -> wfw w -> wfm h (st_graph s') ->
  wfw (mkObjects C h (upd (ob_models C w) m s')).
Proof.
  intros (e & Eh) W Ws. unfold wfw. cbn [ob_heap ob_models]. apply Forall_forall. intros s0 Hs0. apply In_nth_error in Hs0.
  destruct Hs0 as (k & Hk).
  assert (Hold : forall s, In s (ob_models C w) -> wfm h (st_graph s)).
  { intros s Hs. eapply wfm_heap; [|exact (proj1 (Forall_forall _ _) W s Hs)]. rewrite Eh, app_length. lia. }
  destruct (lt_dec m (length (ob_models C w))) as [L|L].
  - rewrite nth_error_upd_in in Hk by exact L. destruct (k =? m); [injection Hk as <-; exact Ws|].
    apply Hold. eapply nth_error_In; eauto.
  - assert (Z : upd (ob_models C w) m s' = ob_models C w).
    { apply list_ext_nth with (d := s'); [apply upd_length|]. intros i _. rewrite nth_upd.
      assert (m <? length (ob_models C w) = false) as -> by (apply Nat.ltb_ge; lia). now rewrite andb_false_r. }
    rewrite Z in Hk. apply Hold. eapply nth_error_In; eauto.
Qed.

(** One call: the states of all models are as [stale] says. *)
Lemma ostep_state os w o w' : wfw w ->
  (forall m s, nth_error (ob_models C w) m = Some s -> state_of (stale os m) s) ->
  (forall m, length (ob_models C w) <= m -> stale os m = false) ->
  ostep C w o = Ok w' ->
  wfw w' /\ (forall m s, nth_error (ob_models C w') m = Some s -> state_of (stale (os ++ [o]) m) s) /\
  (forall m, length (ob_models C w') <= m -> stale (os ++ [o]) m = false).
Proof.
  intros W HS HL E.
  assert (KEEP : forall s h', wfw w -> assigns o = None -> rebuilds o = None -> ob_models C w' = ob_models C w ++ s ->
    length s <= 1 -> Forall fresh_caches s -> Forall (fun s => wfm h' (st_graph s)) s -> ob_heap C w' = h' ->
    (exists e, h' = ob_heap C w ++ e) \/ length h' = length (ob_heap C w) ->
    wfw w' /\ (forall m s, nth_error (ob_models C w') m = Some s -> state_of (stale (os ++ [o]) m) s) /\
    (forall m, length (ob_models C w') <= m -> stale (os ++ [o]) m = false)).
  { intros s h' _ Ha Hr Em Ls Fs Ws Eh He. split; [|split].
    - unfold wfw. rewrite Em, Eh. apply Forall_app. split; [|exact Ws]. eapply Forall_impl; [|exact W].
      intros s0. apply wfm_heap. destruct He as [(e & ->)|He]; [rewrite app_length|]; lia.
    - intros m s0 Hm. rewrite stale_snoc, Ha, Hr. rewrite Em in Hm.
      destruct (lt_dec m (length (ob_models C w))) as [L|L].
      + rewrite nth_error_app1 in Hm by exact L. auto.
      + rewrite (HL m) by lia. apply fresh_state. rewrite nth_error_app2 in Hm by lia.
        eapply (proj1 (Forall_forall _ _) Fs). eapply nth_error_In; eauto.
    - intros m Hm. rewrite stale_snoc, Ha, Hr. apply HL. rewrite Em, app_length in Hm. lia. }
  assert (BUILD : forall k f w1, assigns o = None -> rebuilds o = Some k ->
    wfw w1 -> ob_models C w1 = ob_models C w \/ (exists s1, fresh_caches s1 /\ ob_models C w1 = upd (ob_models C w) k s1) ->
    (forall g g', wfm (ob_heap C w1) g -> f g = Ok g' -> wfm (ob_heap C w1) g') ->
    on_model C w1 k f = Ok w' ->
    wfw w' /\ (forall m s, nth_error (ob_models C w') m = Some s -> state_of (stale (os ++ [o]) m) s) /\
    (forall m, length (ob_models C w') <= m -> stale (os ++ [o]) m = false)).
  { intros k f w1 Ha Hr W1 Em Hf E1.
    destruct (on_model_spec w1 k f w' W1 Hf E1) as (s & s' & g & N1 & _ & _ & F1 & _ & M1 & W').
    assert (L1 : length (ob_models C w1) = length (ob_models C w)).
    { destruct Em as [->|(s1 & _ & ->)]; [reflexivity|apply upd_length]. }
    assert (Lk : k < length (ob_models C w1)) by (apply nth_error_Some; congruence).
    split; [exact W'|]. split.
    - intros m s0 Hm. rewrite stale_snoc, Ha, Hr. rewrite M1, nth_error_upd_in in Hm by exact Lk.
      rewrite (Nat.eqb_sym k m). destruct (Nat.eqb_spec m k) as [->|Hne].
      + injection Hm as <-. now apply fresh_state.
      + apply HS. destruct Em as [<-|(s1 & _ & Em)]; [exact Hm|]. rewrite Em, nth_error_upd_in in Hm by lia.
        apply Nat.eqb_neq in Hne. now rewrite Hne in Hm.
    - intros m Hm. rewrite stale_snoc, Ha, Hr. rewrite M1, upd_length in Hm.
      assert (k =? m = false) as -> by (apply Nat.eqb_neq; lia). apply HL. lia. }
  destruct o as [|m|m m'|m c|m c|m a b|m a b|m a b|m a b|m a b|x c]; cbn [ostep] in E.
  - (* new *) injection E as <-. apply (KEEP [st_new] (ob_heap C w)); auto.
    + constructor; [|constructor]. unfold fresh_caches, caches. cbn. repeat split.
    + constructor; [|constructor]. constructor; cbn; auto; [constructor|apply (gbuild_dwf []); reflexivity|intros x []].
  - (* copy *) apply bind_Ok_inv in E. destruct E as (s & Es & E). apply rd_Ok_inv in Es.
    assert (Ws : wfm (ob_heap C w) (st_graph s)) by (eapply (proj1 (Forall_forall _ _) W); eapply nth_error_In; eauto).
    destruct (m_copy_ok _ s Ws) as (cs & s' & _ & E2 & _ & W' & K & _). rewrite E2 in E. cbn [bind] in E. injection E as <-.
    apply (KEEP [s'] (ob_heap C w ++ cs)); auto.
    left. eexists. reflexivity.
  - (* assign *) apply bind_Ok_inv in E. destruct E as (l & El & E). apply rd_Ok_inv in El.
    apply bind_Ok_inv in E. destruct E as (obj & Eo & E). apply rd_Ok_inv in Eo.
    assert (Wl : wfm (ob_heap C w) (st_graph l)) by (eapply (proj1 (Forall_forall _ _) W); eapply nth_error_In; eauto).
    assert (Wo : wfm (ob_heap C w) (st_graph obj)) by (eapply (proj1 (Forall_forall _ _) W); eapply nth_error_In; eauto).
    destruct (m_assign_ok _ l obj Wl Wo) as (h1 & p & h' & l' & cs & _ & E2 & Eh & Q1 & _ & _ & _ & _ & _ & _ & _ & W' & M1 & M2 & M3 & AP & _).
    rewrite E2 in E. cbn [bind] in E. apply bind_Ok_inv in E. destruct E as (ms & Em & E). injection E as <-.
    apply wr_Ok_inv in Em. destruct Em as (Lm & ->). split; [now apply wfw_upd|]. cbn [ob_models]. split.
    + intros k s Hk. rewrite stale_snoc. cbn [assigns]. rewrite nth_error_upd_in in Hk by exact Lm.
      rewrite (Nat.eqb_sym m k). destruct (k =? m).
      * injection Hk as <-. split; [|intros x Hx; now apply AP].
        apply mapM_length in M2, M3. congruence.
      * auto.
    + intros k Hk. rewrite upd_length in Hk. rewrite stale_snoc. cbn [assigns].
      assert (m =? k = false) as -> by (apply Nat.eqb_neq; lia). apply HL. lia.
  - (* layer *) assert (W1 : wfw (mkObjects C (ob_heap C w ++ [c]) (ob_models C w))).
    { unfold wfw. cbn [ob_heap ob_models]. eapply Forall_impl; [|exact W]. intros s. apply wfm_heap. rewrite app_length. lia. }
    unfold on_model in E. apply bind_Ok_inv in E. destruct E as (s & Es & E). cbn [bind ob_models ob_heap] in *. pose proof (rd_Ok_inv _ _ _ Es) as Ns.
    assert (Ws : wfm (ob_heap C w) (st_graph s)) by (eapply (proj1 (Forall_forall _ _) W); eapply nth_error_In; eauto).
    destruct (wfm_node _ _ c Ws) as (Wn & Pn).
    apply (BUILD m (fun g => Ok (if length (pl g) =? length (pl (st_graph s)) then p_add_node (st_graph s) (length (ob_heap C w)) else g))
                 (mkObjects C (ob_heap C w ++ [c]) (ob_models C w))); auto.
    + cbn [ob_heap]. intros g g' Wg Eg. injection Eg as <-. destruct (_ =? _); auto.
    + unfold on_model. cbn [ob_models ob_heap]. rewrite Es. cbn [bind]. rewrite Nat.eqb_refl. exact E.
  - (* loss *) assert (W1 : wfw (mkObjects C (ob_heap C w ++ [c]) (ob_models C w))).
    { unfold wfw. cbn [ob_heap ob_models]. eapply Forall_impl; [|exact W]. intros s. apply wfm_heap. rewrite app_length. lia. }
    unfold on_model in E. apply bind_Ok_inv in E. destruct E as (s & Es & E). cbn [bind ob_models ob_heap] in *. pose proof (rd_Ok_inv _ _ _ Es) as Ns.
    assert (Ws : wfm (ob_heap C w) (st_graph s)) by (eapply (proj1 (Forall_forall _ _) W); eapply nth_error_In; eauto).
    destruct (wfm_loss _ _ c Ws) as (Wn & Pn).
    apply (BUILD m (fun g => Ok (if length (pl g) =? length (pl (st_graph s)) then p_add_loss (st_graph s) (length (ob_heap C w)) else g))
                 (mkObjects C (ob_heap C w ++ [c]) (ob_models C w))); auto.
    + cbn [ob_heap]. intros g g' Wg Eg. injection Eg as <-. destruct (_ =? _); auto.
    + unfold on_model. cbn [ob_models ob_heap]. rewrite Es. cbn [bind]. rewrite Nat.eqb_refl. exact E.
  - (* edge *) apply bind_Ok_inv in E. destruct E as (w1 & E1 & E).
    destruct (on_model_spec w m _ w1 W (fun g g' Wg Eg => proj1 (back_arc_op a b _ g g' Wg Eg)) E1) as (s & s1 & g & _ & _ & _ & F1 & H1 & M1 & W1).
    apply (BUILD m (fun g => front_from g [a] b) w1); eauto.
    intros g0 g' Wg Eg. exact (proj1 (front_op a b _ g0 g' Wg Eg)).
  - apply bind_Ok_inv in E. destruct E as (w1 & E1 & E).
    destruct (on_model_spec w m _ w1 W (fun g g' Wg Eg => proj1 (back_arc_op a b _ g g' Wg Eg)) E1) as (s & s1 & g & _ & _ & _ & F1 & H1 & M1 & W1).
    apply (BUILD m (fun g => front_from_loss g [a] b) w1); eauto.
    intros g0 g' Wg Eg. exact (proj1 (front_loss_op a b _ g0 g' Wg Eg)).
  - apply (BUILD m (fun g => front_from g [a] b) w); auto. intros g0 g' Wg Eg. exact (proj1 (front_op a b _ g0 g' Wg Eg)).
  - apply (BUILD m (fun g => front_from_loss g [a] b) w); auto. intros g0 g' Wg Eg. exact (proj1 (front_loss_op a b _ g0 g' Wg Eg)).
  - apply (BUILD m (fun g => back_from g [b] a) w); auto. intros g0 g' Wg Eg. exact (proj1 (back_arc_op a b _ g0 g' Wg Eg)).
  - (* write *) apply bind_Ok_inv in E. destruct E as (h & Eh & E). injection E as <-. apply wr_Ok_inv in Eh. destruct Eh as (_ & ->).
    apply (KEEP [] (upd (ob_heap C w) x c)); auto.
    + cbn. now rewrite app_nil_r.
    + right. apply upd_length.
Qed.

Lemma oexec_state os w : oexec C os = Ok w ->
  wfw w /\ (forall m s, nth_error (ob_models C w) m = Some s -> state_of (stale os m) s) /\
  (forall m, length (ob_models C w) <= m -> stale os m = false).
Proof.
  revert w. induction os as [|o os IH] using rev_ind; intros w E.
  - injection E as <-. split; [constructor|]. split; [|reflexivity]. intros m s Hm. destruct m; discriminate.
  - unfold oexec in E. rewrite foldM_app in E. apply bind_Ok_inv in E. destruct E as (w0 & E0 & E). cbn [foldM] in E.
    apply bind_Ok_inv in E. destruct E as (w1 & E1 & E). injection E as <-.
    destruct (IH w0 E0) as (W & HS & HL). eapply ostep_state; eauto.
Qed.
End Assign.

(** The runs and layers the methods of an assigned model use: exactly those a copy of the
    right hand side would have, on layers of its own whose contents are those of the right
    hand side. Everything else is untouched. *)
Definition same_caches (s p : mstate) : Prop :=
  st_layers s = st_layers p /\ st_inputs s = st_inputs p /\ st_outputs s = st_outputs p /\ st_losses s = st_losses p /\
  st_trun s = st_trun p /\ st_frun s = st_frun p /\ st_brun s = st_brun p.
Theorem c64_assignment_actual : forall C os (w : objects C) m m' l obj,
  oexec C os = Ok w -> nth_error (ob_models C w) m = Some l -> nth_error (ob_models C w) m' = Some obj ->
  exists w' s wc p cs,
    ostep C w (OAssign C m m') = Ok w' /\ ob_models C w' = upd (ob_models C w) m s /\
    ostep C w (OCopy C m') = Ok wc /\ ob_models C wc = ob_models C w ++ [p] /\ same_caches s p /\
    (forall x, x < length (ob_heap C w) -> nth_error (ob_heap C w') x = nth_error (ob_heap C w) x) /\
    (forall x, In x (st_layers s) -> length (ob_heap C w) <= x < length (ob_heap C w')) /\
    mapM (rd (ob_heap C w)) (pl (st_graph obj)) = Ok cs /\ mapM (rd (ob_heap C w')) (st_layers s) = Ok cs.
Proof.
  intros C os w m m' l obj E El Eo. destruct (oexec_state os w E) as (W & _ & _).
  assert (Wl : wfm (ob_heap C w) (st_graph l)) by (eapply (proj1 (Forall_forall _ _) W); eapply nth_error_In; eauto).
  assert (Wo : wfm (ob_heap C w) (st_graph obj)) by (eapply (proj1 (Forall_forall _ _) W); eapply nth_error_In; eauto).
  destruct (m_assign_ok _ l obj Wl Wo) as (h1 & p & h' & s & cs & E1 & E2 & (e & Eh) & Q1 & Q2 & Q3 & Q4 & Q5 & Q6 & Q7 & _ & _ & M1 & M2 & _ & AP & _).
  assert (Lm : m < length (ob_models C w)) by (apply nth_error_Some; congruence).
  cbn [ostep]. rewrite (rd_ok _ _ _ El), (rd_ok _ _ _ Eo). cbn [bind]. rewrite E1, E2. cbn [bind]. rewrite wr_ok by exact Lm. cbn [bind].
  exists (mkObjects C h' (upd (ob_models C w) m s)), s, (mkObjects C h1 (ob_models C w ++ [p])), p, cs.
  split; [reflexivity|]. split; [reflexivity|]. split; [reflexivity|]. split; [reflexivity|].
  split; [unfold same_caches; auto 10|]. cbn [ob_heap]. split.
  - intros x Hx. rewrite Eh. now apply nth_error_app1.
  - split; [intros x Hx; now apply AP|auto].
Qed.
Print Assumptions c64_assignment_actual.

(** Building with the layers a model itself returns: it works, except when the model was
    assigned to and not built on since; then every such call throws. *)
Definition connects {C} (o : oop C) (m a b : nat) : Prop :=
  o = OEdge C m a b \/ o = OLossEdge C m a b \/ o = OFront C m a b \/ o = OFrontLoss C m a b \/ o = OBack C m a b.
Theorem c64_layers_actual : forall C os (w : objects C) m s a b o,
  oexec C os = Ok w -> nth_error (ob_models C w) m = Some s -> In a (st_layers s) -> In b (st_layers s) ->
  connects o m a b ->
  if stale os m then ostep C w o = Throw else exists w', ostep C w o = Ok w'.
Proof.
  intros C os w m s a b o E Es Ha Hb Ho. destruct (oexec_state os w E) as (W & HS & _).
  specialize (HS m s Es). destruct HS as (LL & HS).
  assert (Ws : wfm (ob_heap C w) (st_graph s)) by (eapply (proj1 (Forall_forall _ _) W); eapply nth_error_In; eauto).
  destruct (stale os m).
  - (* stale *)
    pose proof (HS a Ha) as Na. pose proof (HS b Hb) as Nb.
    assert (TB : forall f : objects C -> res (objects C), on_model C w m (fun g => back_from g [b] a) = Throw /\ bind (on_model C w m (fun g => back_from g [b] a)) f = Throw).
    { intros f. unfold on_model. rewrite (rd_ok _ _ _ Es). cbn [bind]. unfold back_from. cbn [foldM].
      rewrite on_b_throw by (unfold both; cbn; tauto). cbn. auto. }
    assert (TF : on_model C w m (fun g => front_from g [a] b) = Throw).
    { unfold on_model. rewrite (rd_ok _ _ _ Es). cbn [bind]. unfold front_from. cbn [foldM].
      rewrite on_f_throw by (unfold both; cbn; tauto). reflexivity. }
    assert (TL : on_model C w m (fun g => front_from_loss g [a] b) = Throw).
    { unfold on_model. rewrite (rd_ok _ _ _ Es). cbn [bind]. unfold front_from_loss. cbn [foldM].
      rewrite on_t_throw by (unfold both; cbn; tauto). reflexivity. }
    destruct Ho as [->|[->|[->|[->| ->]]]]; cbn [ostep].
    + exact (proj2 (TB _)).
    + exact (proj2 (TB _)).
    + exact TF.
    + exact TL.
    + exact (proj1 (TB (fun w => Ok w))).
  - destruct HS as (K & _). rewrite K in Ha, Hb.
    assert (ARC : forall ls g x y, In x ls -> In y ls -> exists g', p_arc ls g x y = Ok g').
    { intros ls g x y Hx Hy. destruct (index_of_in _ _ Hx) as (i & Ei & _). destruct (index_of_in _ _ Hy) as (j & Ej & _).
      unfold p_arc. rewrite Ei, Ej. eauto. }
    assert (OM : forall w1 s1 f, wfw w1 -> nth_error (ob_models C w1) m = Some s1 ->
      (forall g g', wfm (ob_heap C w1) g -> f g = Ok g' -> wfm (ob_heap C w1) g') ->
      (exists g', f (st_graph s1) = Ok g') -> exists w2, on_model C w1 m f = Ok w2).
    { intros w1 s1 f W1 E1 Hf (g' & Eg).
      assert (Ws1 : wfm (ob_heap C w1) (st_graph s1)) by (eapply (proj1 (Forall_forall _ _) W1); eapply nth_error_In; eauto).
      unfold on_model. rewrite (rd_ok _ _ _ E1). cbn [bind]. rewrite Eg. cbn [bind].
      destruct (update_ok (ob_heap C w1) (mkState g' (st_layers s1) (st_inputs s1) (st_outputs s1) (st_losses s1)
        (st_trun s1) (st_frun s1) (st_brun s1)) (Hf _ _ Ws1 Eg)) as (s' & -> & _). cbn [bind].
      rewrite wr_ok by (apply nth_error_Some; congruence). cbn [bind]. eauto. }
    assert (OB : forall g, In a (pl g) -> In b (pl g) -> exists g', back_from g [b] a = Ok g' /\ pl g' = pl g).
    { intros g Ga Gb. unfold back_from. cbn [foldM]. unfold on_b. destruct (ARC (pl g) (bgraph (px g)) b a Gb Ga) as (t & ->). cbn. eauto. }
    assert (OF : forall g, In a (pl g) -> In b (pl g) -> exists g', front_from g [a] b = Ok g').
    { intros g Ga Gb. unfold front_from. cbn [foldM]. unfold on_f.
      destruct (ARC (pl g) (fgraph (px g)) a b Ga Gb) as (t & ->). cbn [bind]. cbv zeta. unfold on_t. cbn [pl px tgraph].
      destruct (ARC (pl g) (tgraph (px g)) a b Ga Gb) as (t' & ->). cbn. eauto. }
    assert (OL : forall g, In a (pl g) -> In b (pl g) -> exists g', front_from_loss g [a] b = Ok g').
    { intros g Ga Gb. unfold front_from_loss. cbn [foldM]. unfold on_t.
      destruct (ARC (pl g) (tgraph (px g)) a b Ga Gb) as (t & ->). cbn. eauto. }
    assert (B1 : exists w1, on_model C w m (fun g => back_from g [b] a) = Ok w1).
    { apply (OM w s); auto.
      - intros g g' Wg Eg. exact (proj1 (back_arc_op a b _ g g' Wg Eg)).
      - destruct (OB (st_graph s) Ha Hb) as (g' & Eg & _). eauto. }
    destruct B1 as (w1 & B1).
    destruct (on_model_spec w m _ w1 W (fun g g' Wg Eg => proj1 (back_arc_op a b _ g g' Wg Eg)) B1) as (s0 & s1 & g & N0 & Eg & G1 & F1 & H1 & M1 & W1).
    assert (s0 = s) as -> by congruence.
    destruct (OB (st_graph s) Ha Hb) as (g' & Eg' & Pg). assert (g' = g) as -> by congruence.
    assert (N1 : nth_error (ob_models C w1) m = Some s1).
    { rewrite M1, nth_error_upd_in, Nat.eqb_refl by (apply nth_error_Some; congruence). reflexivity. }
    assert (P1 : pl (st_graph s1) = pl (st_graph s)) by congruence.
    destruct Ho as [->|[->|[->|[->| ->]]]]; cbn [ostep].
    + rewrite B1. cbn [bind]. apply (OM w1 s1); auto.
      * intros g0 g' Wg Eg0. exact (proj1 (front_op a b _ g0 g' Wg Eg0)).
      * apply OF; now rewrite P1.
    + rewrite B1. cbn [bind]. apply (OM w1 s1); auto.
      * intros g0 g' Wg Eg0. exact (proj1 (front_loss_op a b _ g0 g' Wg Eg0)).
      * apply OL; now rewrite P1.
    + apply (OM w s); auto. intros g0 g' Wg Eg0. exact (proj1 (front_op a b _ g0 g' Wg Eg0)).
    + apply (OM w s); auto. intros g0 g' Wg Eg0. exact (proj1 (front_loss_op a b _ g0 g' Wg Eg0)).
    + eauto.
Qed.
Print Assumptions c64_layers_actual.

(** Two layers in model 0, assigned to model 1: connecting model 0's own layers works,
    connecting model 1's own layers throws. *)
Definition ex_objects : list (oop bool) :=
  [ONew bool; OLayer bool 0 true; OLayer bool 0 false; ONew bool; OAssign bool 1 0].
Theorem c64_layers_refuted : exists (os : list (oop bool)) w s0 s1 a0 b0 a1 b1 w',
  oexec bool os = Ok w /\ ob_models bool w = [s0; s1] /\ st_layers s0 = [a0; b0] /\ st_layers s1 = [a1; b1] /\
  ostep bool w (OEdge bool 0 a0 b0) = Ok w' /\ ostep bool w (OEdge bool 1 a1 b1) = Throw.
Proof.
  exists ex_objects.
  assert (K : match oexec bool ex_objects with
    | Ok w => match ob_models bool w with
              | [s0; s1] => st_layers s0 = [0; 1] /\ st_layers s1 = [2; 3]
              | _ => False end
    | _ => False end) by (vm_compute; auto).
  destruct (oexec bool ex_objects) as [w| |] eqn:E; try contradiction.
  destruct (ob_models bool w) as [|s0 [|s1 [|]]] eqn:Em; try contradiction. destruct K as (K0 & K1).
  pose proof (c64_layers_actual bool ex_objects w 0 s0 0 1 (OEdge bool 0 0 1) E) as A0.
  pose proof (c64_layers_actual bool ex_objects w 1 s1 2 3 (OEdge bool 1 2 3) E) as A1.
  rewrite Em, K0 in A0. rewrite Em, K1 in A1. cbn in A0, A1.
  destruct A0 as (w' & A0); unfold connects; auto.
  exists w, s0, s1, 0, 1, 2, 3, w'. split; [reflexivity|]. split; [exact Em|]. split; [exact K0|]. split; [exact K1|].
  split; [exact A0|]. apply A1; unfold connects; auto.
Qed.
Print Assumptions c64_layers_refuted.

(** After a further add_layer on model 1 its layers can be connected again. *)
Example c64_hypotheses_met : exists w s, oexec bool (ex_objects ++ [OLayer bool 1 true]) = Ok w /\
  nth_error (ob_models bool w) 1 = Some s /\ length (st_layers s) = 3 /\ NoDup (st_layers s) /\
  stale ex_objects 1 = true /\ stale (ex_objects ++ [OLayer bool 1 true]) 1 = false.
Proof.
  assert (K : match oexec bool (ex_objects ++ [OLayer bool 1 true]) with
    | Ok w => match nth_error (ob_models bool w) 1 with
              | Some s => length (st_layers s) = 3 /\ st_layers s = [4; 5; 6]
              | _ => False end
    | _ => False end) by (vm_compute; auto).
  destruct (oexec bool (ex_objects ++ [OLayer bool 1 true])) as [w| |] eqn:E; try contradiction.
  destruct (nth_error (ob_models bool w) 1) as [s|] eqn:Es; [|contradiction]. destruct K as (K1 & K2).
  exists w, s. split; [reflexivity|]. split; [exact Es|]. split; [exact K1|]. split; [|split; reflexivity].
  rewrite K2. repeat (constructor; [cbn; lia|]). constructor.
Qed.
