(** Runs of models whose layers form a tree: forward values are fixed once computed; backward
    values too, except at the first layer. *)
From Verif Require Import Base GraphModel GraphSpec GraphProofs PropGraph ModelModel ChainProofs StepProofs.

Lemma NoDup_split {A} (l l' : list A) : NoDup (l ++ l') ->
  NoDup l /\ NoDup l' /\ (forall x, In x l -> ~ In x l').
Proof.
  induction l as [|a l IH]; cbn [app]; intros H.
  - split; [constructor|]. split; [exact H|]. intros x [].
  - inversion H as [|? ? H1 H2]; subst. destruct (IH H2) as (A1 & A2 & A3). rewrite in_app_iff in H1.
    split; [constructor; tauto|]. split; [exact A2|]. intros x [->|Hx]; [tauto|auto].
Qed.

(** *** Order of the arcs *)
Section Order.
Variables (n : nat) (g : edges) (start : list nat).
Hypothesis Hfin : finite_graph n g.
Hypothesis Hnd : NoDup start.
Hypothesis Hone : forall a a' b, In b (g a) -> In b (g a') -> g b <> [] -> a = a'.
Hypothesis Hst : forall x a, In x start -> ~ In x (g a).

Lemma walk_unique : forall k v, walk g start k v -> forall k', g v <> [] -> walk g start k' v -> k' = k.
Proof.
  intros k v W. induction W as [x Hx|k a b W IH Hb]; intros k' Hg W'.
  - inversion W' as [|j a b W2 Hb]; subst; auto. destruct (Hst x a Hx Hb).
  - inversion W' as [x Hx|j a' b' W2 Hb']; subst; [destruct (Hst b a Hx Hb)|].
    f_equal. apply IH.
    + intros E. rewrite E in Hb. destruct Hb.
    + now rewrite (Hone _ _ _ Hb Hb' Hg).
Qed.

Lemma tree_order fuel arcs : schedule fuel g start = Some arcs ->
  NoDup arcs /\ (forall a b, In (a, b) arcs <-> reachable g start a /\ In b (g a)) /\
  respects_dependencies arcs.
Proof.
  intros E. destruct (c34_schedule n g start Hfin Hnd) as (arcs1 & E1 & U & ND & IN).
  rewrite <- (U _ _ E) in ND, IN. split; [exact ND|]. split; [exact IN|].
  intros l1 v w l2 u El Hin.
  assert (Hv : reachable g start v /\ In w (g v)) by (apply IN; rewrite El; apply in_or_app; right; now left).
  assert (Hu : reachable g start u /\ In v (g u)) by now apply IN.
  destruct Hu as ((ku & Wu) & Huv). destruct Hv as (_ & Hw).
  assert (Hgv : g v <> []) by (intros Z; rewrite Z in Hw; destruct Hw).
  assert (Wv : walk g start (S ku) v) by (econstructor; eauto).
  assert (Huu : g u <> []) by (intros Z; rewrite Z in Huv; destruct Huv).
  pose proof Hin as Hin0.
  rewrite El in Hin. apply in_app_or in Hin. destruct Hin as [Hin|[Hin|Hin]]; [exact Hin|exfalso|exfalso].
  - injection Hin as -> ->. pose proof (walk_unique _ _ Wu _ Hgv Wv). lia.
  - apply in_split in Hin. destruct Hin as (l3 & l4 & E4).
    destruct (c35_breadth_first n g start fuel arcs Hfin Hnd E (l1 ++ (v, w) :: l3) u v l4 v w)
      as (j & j' & (W1 & _) & (W2 & _) & Hle).
    + rewrite El, E4, <- app_assoc. reflexivity.
    + apply in_or_app. right. now left.
    + pose proof (walk_unique _ _ Wv _ Hgv W1). pose proof (walk_unique _ _ Wu _ Huu W2). lia.
Qed.
End Order.

(** *** Forward runs *)
Section Forward.
Context {T S : Type} (op : nodeops T S) (tr : bool).
Notation nd := (S * source)%type.

Lemma rd_some {A} (l : list A) i x : nth_error l i = Some x -> rd l i = Ok x.
Proof. intros E. unfold rd. now rewrite E. Qed.
Lemma rd_inv {A} (l : list A) i x : rd l i = Ok x -> nth_error l i = Some x.
Proof. unfold rd. destruct (nth_error l i); congruence. Qed.
Lemma wr_some {A} (l : list A) i x y : nth_error l i = Some x -> wr l i y = Ok (upd l i y).
Proof. intros E. apply wr_ok. apply nth_error_Some. congruence. Qed.

(** Given values [F] that solve the data flow equations, the run computes them. *)
Lemma run_forward (F : nat -> nd) : forall arcs done ns,
  NoDup (map snd (done ++ arcs)) -> respects_dependencies (done ++ arcs) ->
  (forall a b, In (a, b) arcs -> exists y s p, o_output op (fst (F a)) = Ok y /\
     nth_error ns b = Some (s, p) /\ feed op tr s p y (SNode a) = Ok (F b)) ->
  (forall a b, In (a, b) arcs -> (forall c, ~ In (c, a) arcs) -> nth_error ns a = Some (F a)) ->
  exists ns', foldM (run_arc op tr) arcs ns = Ok ns' /\ length ns' = length ns /\
    forall i, nth_error ns' i = if mem i (map snd arcs) then Some (F i) else nth_error ns i.
Proof.
  induction arcs as [|(a, b) arcs IH]; intros done ns ND RD HF HS.
  - exists ns. cbn. auto.
  - assert (Ea : nth_error ns a = Some (F a)).
    { apply (HS a b); [now left|]. intros c Hc.
      assert (X : In (c, a) done).
      { apply (RD done a b arcs); [reflexivity|]. apply in_or_app. now right. }
      apply in_split in X. destruct X as (d1 & d2 & ->).
      rewrite map_app in ND. apply in_map with (f := snd) in Hc. cbn [snd] in Hc.
      apply NoDup_split in ND. destruct ND as (_ & _ & ND). apply (ND a); [|exact Hc].
      rewrite map_app. apply in_or_app. right. now left. }
    destruct (HF a b (or_introl eq_refl)) as (y & s & p & E1 & E2 & E3).
    cbn [foldM]. unfold run_arc at 1, node_output. rewrite (rd_some _ _ _ Ea). destruct (F a) as (fa, pa) eqn:EFa.
    cbn [fst] in E1. cbn [bind]. rewrite E1. cbn [bind]. rewrite (rd_some _ _ _ E2). cbn [bind]. rewrite E3. cbn [bind].
    rewrite (wr_some _ _ _ _ E2). cbn [bind].
    assert (NB : ~ In b (map snd arcs)).
    { rewrite map_app in ND. cbn [map snd] in ND. apply NoDup_split in ND. destruct ND as (_ & ND & _).
      inversion ND; auto. }
    assert (Hlt : b < length ns) by (apply nth_error_Some; congruence).
    (* b is not the source of an earlier arc or of this one *)
    destruct (IH (done ++ [(a, b)]) (upd ns b (F b))) as (ns' & EN & LN & HN).
    + now rewrite <- app_assoc.
    + now rewrite <- app_assoc.
    + intros a' b' Hin. destruct (HF a' b' (or_intror Hin)) as (y' & s' & p' & A & B & C).
      exists y', s', p'. split; [exact A|]. split; [|exact C].
      rewrite Base.nth_error_upd. destruct (Nat.eqb_spec b' b) as [->|]; [|exact B].
      exfalso. apply NB. apply in_map with (f := snd) in Hin. exact Hin.
    + intros a' b' Hin Hno. rewrite Base.nth_error_upd. destruct (Nat.eqb_spec a' b) as [->|Hne].
      * destruct (Nat.ltb_spec b (length ns)); [reflexivity|lia].
      * apply (HS a' b'); [now right|]. intros c [Hc|Hc]; [congruence|]. now apply (Hno c).
    + exists ns'. split; [exact EN|]. split; [now rewrite LN, upd_length|].
      intros i. rewrite HN. cbn [map snd mem existsb]. fold (mem i (map snd arcs)).
      destruct (mem i (map snd arcs)) eqn:EM; [now rewrite Bool.orb_true_r|].
      rewrite Bool.orb_false_r, Base.nth_error_upd. destruct (Nat.eqb_spec i b) as [->|]; [|reflexivity].
      destruct (Nat.ltb_spec b (length ns)); [reflexivity|lia].
Qed.

(** What a run that succeeds has computed. *)
Lemma run_forward_inv : forall arcs done ns ns',
  NoDup (map snd (done ++ arcs)) -> respects_dependencies (done ++ arcs) ->
  foldM (run_arc op tr) arcs ns = Ok ns' ->
  length ns' = length ns /\
  (forall i, ~ In i (map snd arcs) -> nth_error ns' i = nth_error ns i) /\
  forall a b, In (a, b) arcs -> exists ra y s p rb, nth_error ns' a = Some ra /\ o_output op (fst ra) = Ok y /\
    nth_error ns b = Some (s, p) /\ feed op tr s p y (SNode a) = Ok rb /\ nth_error ns' b = Some rb.
Proof.
  induction arcs as [|(a, b) arcs IH]; intros done ns ns' ND RD E.
  - cbn in E. injection E as <-. split; [reflexivity|]. split; [reflexivity|]. intros a b [].
  - cbn [foldM] in E. unfold run_arc at 1, node_output in E.
    destruct (rd ns a) as [(sa, pa)| |] eqn:Ea; try discriminate. cbn [bind] in E.
    destruct (o_output op sa) as [y| |] eqn:Ey; try discriminate. cbn [bind] in E.
    destruct (rd ns b) as [(s, p)| |] eqn:Eb; try discriminate. cbn [bind] in E.
    destruct (feed op tr s p y (SNode a)) as [rb| |] eqn:Ef; try discriminate. cbn [bind] in E.
    apply rd_inv in Ea, Eb. rewrite (wr_some _ _ _ _ Eb) in E. cbn [bind] in E.
    assert (NB : ~ In b (map snd arcs)).
    { rewrite map_app in ND. cbn [map snd] in ND. apply NoDup_split in ND. destruct ND as (_ & ND & _).
      inversion ND; auto. }
    assert (NA : ~ In a (map snd arcs)).
    { intros Hc. apply in_map_iff in Hc. destruct Hc as ((c & a') & Z & Hc). cbn in Z. subst a'.
      assert (X : In (c, a) done).
      { apply (RD done a b arcs); [reflexivity|]. apply in_or_app. right. now right. }
      rewrite map_app in ND. apply NoDup_split in ND. destruct ND as (_ & _ & ND).
      apply (ND a); [apply in_map with (f := snd) in X; exact X|].
      right. apply in_map with (f := snd) in Hc. exact Hc. }
    assert (NAB : a <> b).
    { intros ->. assert (X : In (b, b) done).
      { apply (RD done b b arcs); [reflexivity|]. apply in_or_app. right. now left. }
      rewrite map_app in ND. apply NoDup_split in ND. destruct ND as (_ & _ & ND).
      apply (ND b); [apply in_map with (f := snd) in X; exact X|]. now left. }
    assert (Hlt : b < length ns) by (apply nth_error_Some; congruence).
    destruct (IH (done ++ [(a, b)]) (upd ns b rb) ns') as (L & U & A).
    + now rewrite <- app_assoc.
    + now rewrite <- app_assoc.
    + exact E.
    + rewrite upd_length in L. split; [exact L|]. split.
      * intros i Hi. cbn [map snd In] in Hi. rewrite U by tauto. rewrite Base.nth_error_upd.
        destruct (Nat.eqb_spec i b); [subst; tauto|reflexivity].
      * intros a' b' [Hin|Hin].
        -- injection Hin as <- <-. exists (sa, pa), y, s, p, rb.
           rewrite (U a NA), (U b NB), !Base.nth_error_upd, Nat.eqb_refl.
           destruct (Nat.eqb_spec a b); [contradiction|]. destruct (Nat.ltb_spec b (length ns)); [|lia]. auto.
        -- destruct (A a' b' Hin) as (ra & y' & s' & p' & rb' & A1 & A2 & A3 & A4 & A5).
           exists ra, y', s', p', rb'. split; [exact A1|]. split; [exact A2|]. split; [|auto].
           rewrite Base.nth_error_upd in A3. destruct (Nat.eqb_spec b' b) as [->|]; [|exact A3].
           exfalso. apply NB. apply in_map with (f := snd) in Hin. exact Hin.
Qed.
End Forward.

(** *** Backward runs *)
Section Backward.
Context {T S : Type} (op : nodeops T S) (x : list T).
Notation nd := (S * source)%type.
(** Backward does not write output buffers. *)
Hypothesis Hkeep : forall s last g s', o_backward op s last g = Ok s' -> o_output op s' = o_output op s.

Definition into (root : nat) (arcs : list arc) : list nat :=
  map fst (filter (fun ab => snd ab =? root) arcs).

Lemma deref_same (ns ns' : list nd) p :
  (forall i, option_map (fun sp => o_output op (fst sp)) (nth_error ns' i)
           = option_map (fun sp => o_output op (fst sp)) (nth_error ns i)) ->
  deref op ns' x p = deref op ns x p.
Proof.
  intros HE. destruct p as [| |i]; cbn [deref]; auto. unfold node_output, rd. specialize (HE i).
  destruct (nth_error ns' i) as [(s', p')|], (nth_error ns i) as [(s, p)|]; cbn in *; congruence.
Qed.

(** [G]: the states after backward of the layers other than [root]. *)
Lemma run_backward root (G : nat -> nd) : forall arcs done (ns : list nd) s0 p0 rf,
  (forall ab, In ab (done ++ arcs) -> fst ab <> root) ->
  NoDup (map snd (filter (fun ab => negb (snd ab =? root)) (done ++ arcs))) ->
  respects_dependencies (done ++ arcs) ->
  (forall a b, In (a, b) arcs -> b <> root -> exists s p last s', nth_error ns b = Some (s, p) /\
     deref op ns x p = Ok last /\ o_backward op s last (o_gradient op (fst (G a))) = Ok s' /\ G b = (s', p)) ->
  (forall a b, In (a, b) arcs -> (forall c, ~ In (c, a) arcs) -> nth_error ns a = Some (G a)) ->
  nth_error ns root = Some (s0, p0) ->
  (forall a b, In (a, b) arcs -> b = root -> deref op ns x p0 = Ok x) ->
  foldM (fun s a => o_backward op s x (o_gradient op (fst (G a)))) (into root arcs) s0 = Ok rf ->
  exists ns', foldM (back_arc op x) arcs ns = Ok ns' /\ length ns' = length ns /\
    forall i, nth_error ns' i = if i =? root then Some (rf, p0)
      else if mem i (map snd arcs) then Some (G i) else nth_error ns i.
Proof.
  induction arcs as [|(a, b) arcs IH]; intros done ns s0 p0 rf NR ND RD HF HS HR HP HG.
  - exists ns. cbn in HG |- *. injection HG as <-. split; [reflexivity|]. split; [reflexivity|].
    intros i. destruct (Nat.eqb_spec i root) as [->|]; auto.
  - assert (Har : a <> root) by (apply (NR (a, b)); apply in_or_app; right; now left).
    assert (Ea : nth_error ns a = Some (G a)).
    { apply (HS a b); [now left|]. intros c Hc.
      assert (X : In (c, a) done).
      { apply (RD done a b arcs); [reflexivity|]. apply in_or_app. now right. }
      rewrite filter_app, map_app in ND. apply NoDup_split in ND. destruct ND as (_ & _ & ND).
      assert (Q : forall l, In (c, a) l -> In a (map snd (filter (fun ab => negb (snd ab =? root)) l))).
      { intros l Hl. apply in_map_iff. exists (c, a). split; [reflexivity|]. apply filter_In. split; [exact Hl|].
        cbn [snd]. destruct (Nat.eqb_spec a root); [contradiction|reflexivity]. }
      apply (ND a); apply Q; assumption. }
    cbn [foldM]. unfold back_arc at 1. rewrite (rd_some _ _ _ Ea). destruct (G a) as (ga, pa) eqn:EGa. cbn [bind].
    unfold back_node.
    assert (OUT : forall (ns0 : list nd) i s p s' last gr, nth_error ns0 i = Some (s, p) -> o_backward op s last gr = Ok s' ->
      forall j, option_map (fun sp : nd => o_output op (fst sp)) (nth_error (upd ns0 i (s', p)) j)
           = option_map (fun sp : nd => o_output op (fst sp)) (nth_error ns0 j)).
    { intros ns0 i s p s' last gr E1 E2 j. rewrite Base.nth_error_upd. destruct (Nat.eqb_spec j i) as [->|]; [|reflexivity].
      rewrite E1. destruct (Nat.ltb_spec i (length ns0)) as [Hl|Hl].
      - cbn. now rewrite (Hkeep _ _ _ _ E2).
      - apply nth_error_None in Hl. congruence. }
    destruct (Nat.eq_dec b root) as [->|Hbr].
    + unfold into in HG. cbn [filter snd] in HG. rewrite Nat.eqb_refl in HG. cbn [map fst foldM] in HG.
      rewrite EGa in HG. cbn [fst] in HG. destruct (o_backward op s0 x (o_gradient op ga)) as [s1| |] eqn:E1; try discriminate.
      cbn [bind] in HG. rewrite (rd_some _ _ _ HR). cbn [bind].
      rewrite (HP a root (or_introl eq_refl) eq_refl). cbn [bind]. rewrite E1. cbn [bind].
      rewrite (wr_some _ _ _ _ HR). cbn [bind].
      assert (Hlt : root < length ns) by (apply nth_error_Some; congruence).
      pose proof (OUT ns root s0 p0 s1 _ _ HR E1) as O1.
      destruct (IH (done ++ [(a, root)]) (upd ns root (s1, p0)) s1 p0 rf) as (ns' & EN & LN & HN).
      * now rewrite <- app_assoc.
      * now rewrite <- app_assoc.
      * now rewrite <- app_assoc.
      * intros a' b' Hin Hne. destruct (HF a' b' (or_intror Hin) Hne) as (s & p & last & s' & A & B & C & D).
        exists s, p, last, s'. rewrite Base.nth_error_upd. destruct (Nat.eqb_spec b' root); [contradiction|].
        rewrite (deref_same ns _ p O1). auto.
      * intros a' b' Hin Hno. rewrite Base.nth_error_upd.
        assert (a' <> root) by (apply (NR (a', b')); apply in_or_app; right; now right).
        destruct (Nat.eqb_spec a' root); [contradiction|]. apply (HS a' b'); [now right|].
        intros c [Hc|Hc]; [congruence|]. now apply (Hno c).
      * rewrite Base.nth_error_upd, Nat.eqb_refl. destruct (Nat.ltb_spec root (length ns)); [reflexivity|lia].
      * intros a' b' Hin Hb. rewrite (deref_same ns _ p0 O1). apply (HP a' b'); [now right|exact Hb].
      * exact HG.
      * exists ns'. split; [exact EN|]. split; [now rewrite LN, upd_length|].
        intros i. rewrite HN. destruct (Nat.eqb_spec i root); [reflexivity|]. cbn [map snd mem existsb].
        fold (mem i (map snd arcs)). destruct (Nat.eqb_spec i root); [contradiction|]. cbn [orb].
        destruct (mem i (map snd arcs)); [reflexivity|]. rewrite Base.nth_error_upd.
        destruct (Nat.eqb_spec i root); [contradiction|reflexivity].
    + destruct (HF a b (or_introl eq_refl) Hbr) as (s & p & last & s' & E1 & E2 & E3 & E4).
      rewrite EGa in E3. cbn [fst] in E3. rewrite (rd_some _ _ _ E1). cbn [bind]. rewrite E2. cbn [bind]. rewrite E3. cbn [bind].
      rewrite (wr_some _ _ _ _ E1). cbn [bind].
      assert (NB : ~ In b (map snd arcs)).
      { rewrite filter_app, map_app in ND. apply NoDup_split in ND. destruct ND as (_ & ND & _).
        cbn [filter snd] in ND. destruct (Nat.eqb_spec b root); [contradiction|]. cbn [negb map snd] in ND.
        inversion ND as [|? ? X Y]; subst. intros Z. apply X. apply in_map_iff in Z. destruct Z as ((c & b') & Z & Hc).
        cbn in Z. subst b'. apply in_map_iff. exists (c, b). split; [reflexivity|]. apply filter_In. split; [exact Hc|].
        cbn [snd]. destruct (Nat.eqb_spec b root); [contradiction|reflexivity]. }
      assert (Hlt : b < length ns) by (apply nth_error_Some; congruence).
      pose proof (OUT ns b s p s' _ _ E1 E3) as O1.
      destruct (IH (done ++ [(a, b)]) (upd ns b (s', p)) s0 p0 rf) as (ns' & EN & LN & HN).
      * now rewrite <- app_assoc.
      * now rewrite <- app_assoc.
      * now rewrite <- app_assoc.
      * intros a' b' Hin Hne. destruct (HF a' b' (or_intror Hin) Hne) as (s1 & p1 & last1 & s1' & A & B & C & D).
        exists s1, p1, last1, s1'. rewrite Base.nth_error_upd. destruct (Nat.eqb_spec b' b) as [->|].
        { exfalso. apply NB. apply in_map with (f := snd) in Hin. exact Hin. }
        rewrite (deref_same ns _ p1 O1). auto.
      * intros a' b' Hin Hno. rewrite Base.nth_error_upd. destruct (Nat.eqb_spec a' b) as [->|Hne].
        -- destruct (Nat.ltb_spec b (length ns)); [|lia]. now rewrite E4.
        -- apply (HS a' b'); [now right|]. intros c [Hc|Hc]; [congruence|]. now apply (Hno c).
      * rewrite Base.nth_error_upd. destruct (Nat.eqb_spec root b); [congruence|exact HR].
      * intros a' b' Hin Hb. rewrite (deref_same ns _ p0 O1). apply (HP a' b'); [now right|exact Hb].
      * unfold into in HG |- *. cbn [filter snd] in HG. destruct (Nat.eqb_spec b root); [contradiction|]. exact HG.
      * exists ns'. split; [exact EN|]. split; [now rewrite LN, upd_length|].
        intros i. rewrite HN. destruct (Nat.eqb_spec i root); [reflexivity|]. cbn [map snd mem existsb].
        fold (mem i (map snd arcs)). destruct (mem i (map snd arcs)) eqn:EM; [now rewrite Bool.orb_true_r|].
        rewrite Bool.orb_false_r, Base.nth_error_upd. destruct (Nat.eqb_spec i b) as [->|]; [|reflexivity].
        destruct (Nat.ltb_spec b (length ns)); [|lia]. now rewrite E4.
Qed.
End Backward.
