(** Models whose graph is a chain. *)
From Verif Require Import Base Num GraphModel GraphSpec GraphProofs ModelModel.

(** *** Chain graphs *)
(** Layers 0..n-1 in a row; with a loss as node n when [lossy]. *)
Record is_chain (lossy : bool) (n : nat) (s : dlgraph) : Prop := {
  ic_nodes : nodes s = if lossy then S n else n;
  ic_f : forall i, fgraph s i = if S i <? n then [S i] else [];
  ic_t : forall i, tgraph s i = if S i <? (if lossy then S n else n) then [S i] else [];
  ic_b : forall i, bgraph s i = match i with 0 => [] | S j => if i <? (if lossy then S n else n) then [j] else [] end;
  ic_losses : losses s = if lossy then [n] else [];
  ic_in : inputs s = [0];
  ic_out : outputs s = [n - 1]
}.

Definition up_arcs (k n : nat) : list arc := map (fun i => (i, S i)) (seq k n).
Definition down_arcs (n : nat) : list arc := map (fun i => (S i, i)) (rev (seq 0 n)).

Lemma run_loop_up m : forall k fuel g ret done, m + 2 <= fuel ->
  (forall i, k <= i -> g i = if i <? k + m then [S i] else []) ->
  (forall x, In x done -> x < k) ->
  run_loop fuel g [k] ret done = Some (ret ++ up_arcs k m).
Proof.
  induction m as [|m IH]; intros k fuel g ret done Hf Hg Hd.
  - destruct fuel as [|fuel]; [lia|]. cbn [run_loop]. unfold level, expand. cbn [fold_left].
    rewrite Hg by lia. destruct (Nat.ltb_spec k (k + 0)); [lia|]. cbn [fold_left].
    rewrite app_nil_r. destruct fuel; reflexivity.
  - destruct fuel as [|fuel]; [lia|]. cbn [run_loop]. unfold level, expand. cbn [fold_left].
    rewrite Hg by lia. destruct (Nat.ltb_spec k (k + S m)); [|lia]. cbn [fold_left visit].
    assert (M1 : mem (S k) [k] = false).
    { apply mem_false. intros [H'|[]]. lia. }
    assert (M2 : mem (S k) (done ++ [k]) = false).
    { apply mem_false. intros H'. apply in_app_or in H'. destruct H' as [H'|[H'|[]]]; [|lia].
      specialize (Hd _ H'). lia. }
    rewrite M1, M2. cbn [orb mem existsb app].
    rewrite (IH (S k)); [|lia| |].
    + rewrite <- app_assoc. reflexivity.
    + intros i Hi. rewrite Hg by lia. replace (S k + m) with (k + S m) by lia. reflexivity.
    + intros x Hx. apply in_app_or in Hx. destruct Hx as [Hx|[<-|[]]]; [|lia].
      specialize (Hd _ Hx). lia.
Qed.

Lemma run_loop_down m : forall fuel g ret done, m + 2 <= fuel ->
  (forall i, i <= m -> g i = match i with 0 => [] | S j => [j] end) ->
  (forall x, In x done -> m < x) ->
  run_loop fuel g [m] ret done = Some (ret ++ down_arcs m).
Proof.
  induction m as [|m IH]; intros fuel g ret done Hf Hg Hd.
  - destruct fuel as [|fuel]; [lia|]. cbn [run_loop]. unfold level, expand. cbn [fold_left].
    rewrite Hg by lia. cbn [fold_left]. rewrite app_nil_r. destruct fuel; reflexivity.
  - destruct fuel as [|fuel]; [lia|]. cbn [run_loop]. unfold level, expand. cbn [fold_left].
    rewrite Hg by lia. cbn [fold_left visit].
    assert (M1 : mem m [S m] = false).
    { apply mem_false. intros [H'|[]]. lia. }
    assert (M2 : mem m (done ++ [S m]) = false).
    { apply mem_false. intros H'. apply in_app_or in H'. destruct H' as [H'|[H'|[]]]; [|lia].
      specialize (Hd _ H'). lia. }
    rewrite M1, M2. cbn [orb mem existsb app].
    rewrite IH; [|lia| |].
    + unfold down_arcs. rewrite seq_S, rev_app_distr. cbn. rewrite <- app_assoc. reflexivity.
    + intros i Hi. apply Hg. lia.
    + intros x Hx. apply in_app_or in Hx. destruct Hx as [Hx|[<-|[]]]; [|lia].
      specialize (Hd _ Hx). lia.
Qed.

Lemma chain_forward_run lossy n s : is_chain lossy n s -> 1 <= n ->
  schedule (nodes s + 2) (fgraph s) (inputs s) = Some (up_arcs 0 (n - 1)).
Proof.
  intros H Hn. rewrite (ic_in _ _ _ H). unfold schedule.
  rewrite (run_loop_up (n - 1)).
  - reflexivity.
  - rewrite (ic_nodes _ _ _ H). destruct lossy; lia.
  - intros i _. rewrite (ic_f _ _ _ H). cbn [plus].
    destruct (Nat.ltb_spec (S i) n), (Nat.ltb_spec i (n - 1)); auto; lia.
  - intros x [].
Qed.

Lemma chain_training_run n s : is_chain true n s -> 1 <= n ->
  schedule (nodes s + 2) (tgraph s) (inputs s) = Some (up_arcs 0 n).
Proof.
  intros H Hn. rewrite (ic_in _ _ _ H). unfold schedule.
  rewrite (run_loop_up n).
  - reflexivity.
  - rewrite (ic_nodes _ _ _ H). lia.
  - intros i _. rewrite (ic_t _ _ _ H). cbn [plus].
    destruct (Nat.ltb_spec (S i) (S n)), (Nat.ltb_spec i n); auto; lia.
  - intros x [].
Qed.

Lemma chain_backward_run n s : is_chain true n s -> 1 <= n ->
  schedule (nodes s + 2) (bgraph s) (losses s) = Some (down_arcs n).
Proof.
  intros H Hn. rewrite (ic_losses _ _ _ H). unfold schedule.
  rewrite (run_loop_down n).
  - reflexivity.
  - rewrite (ic_nodes _ _ _ H). lia.
  - intros i Hi. rewrite (ic_b _ _ _ H). destruct i as [|j]; [reflexivity|].
    destruct (Nat.ltb_spec (S j) (S n)); [reflexivity|lia].
  - intros x [].
Qed.

(** *** Running a chain *)
Section Run.
Context {T S : Type} (op : nodeops T S).
Notation nd := (S * source)%type.

Lemma rd_app_mid {A} (pre : list A) x post k : length pre = k -> rd (pre ++ x :: post) k = Ok x.
Proof. intros <-. rewrite (rd_nth _ _ x) by (rewrite app_length; cbn; lia). f_equal. rewrite app_nth2, Nat.sub_diag by lia. reflexivity. Qed.
Lemma wr_app_mid {A} (pre : list A) x y post k : length pre = k ->
  wr (pre ++ x :: post) k y = Ok (pre ++ y :: post).
Proof.
  intros <-. rewrite wr_ok by (rewrite app_length; cbn; lia). f_equal.
  induction pre as [|h t IH]; cbn; [reflexivity|]. now rewrite IH.
Qed.

(** The layers after [s], each fed with its predecessor's output. *)
Fixpoint chain_after (tr : bool) (k : nat) (s : S) (rest : list nd) : res (list nd) :=
  match rest with
  | [] => Ok []
  | (r, p) :: rest' =>
      y <- o_output op s ;;
      '(r', p') <- feed op tr r p y (SNode k) ;;
      rest'' <- chain_after tr (Datatypes.S k) r' rest' ;;
      Ok ((r', p') :: rest'')
  end.

Lemma run_up tr rest : forall pre s p post k, length pre = k ->
  foldM (run_arc op tr) (up_arcs k (length rest)) (pre ++ (s, p) :: rest ++ post)
  = (rest' <- chain_after tr k s rest ;; Ok (pre ++ (s, p) :: rest' ++ post)).
Proof.
  induction rest as [|(r, q) rest IH]; intros pre s p post k Hk.
  - reflexivity.
  - unfold up_arcs. cbn [length seq map foldM]. unfold run_arc at 1, node_output.
    rewrite (rd_app_mid pre (s, p) _ k Hk). cbn [bind chain_after].
    destruct (o_output op s) as [y| |]; cbn [bind]; auto.
    replace (pre ++ (s, p) :: ((r, q) :: rest) ++ post) with ((pre ++ [(s, p)]) ++ (r, q) :: rest ++ post)
      by (rewrite <- app_assoc; reflexivity).
    assert (Hk' : length (pre ++ [(s, p)]) = Datatypes.S k) by (rewrite app_length; cbn; lia).
    rewrite (rd_app_mid _ (r, q) (rest ++ post) _ Hk'). cbn [bind].
    destruct (feed op tr r q y (SNode k)) as [(r', q')| |]; cbn [bind]; auto.
    rewrite (wr_app_mid _ (r, q) (r', q') (rest ++ post) _ Hk'). cbn [bind].
    fold (up_arcs (Datatypes.S k) (length rest)). rewrite (IH _ _ _ post _ Hk').
    destruct (chain_after tr (Datatypes.S k) r' rest) as [rest'| |]; cbn [bind]; auto.
    rewrite <- app_assoc. reflexivity.
Qed.

(** The layers before the loss, from the last to the first; [rl] is reversed. *)
Fixpoint chain_before (x : list T) (rl : list nd) (g : list T) : res (list nd) :=
  match rl with
  | [] => Ok []
  | (l, p) :: r =>
      last <- (match r with [] => Ok x | (q, _) :: _ => o_output op q end) ;;
      l' <- o_backward op l last g ;;
      r' <- chain_before x r (o_gradient op l') ;;
      Ok ((l', p) :: r')
  end.

(** Pointers set by the forward half of a step. *)
Fixpoint linked (rl : list nd) : Prop :=
  match rl with
  | [] => True
  | (_, p) :: r => p = (match r with [] => SInput | _ => SNode (length r - 1) end) /\ linked r
  end.

Lemma run_down x rl : forall s p post, linked rl ->
  foldM (back_arc op x) (down_arcs (length rl)) (rev rl ++ (s, p) :: post)
  = (rl' <- chain_before x rl (o_gradient op s) ;; Ok (rev rl' ++ (s, p) :: post)).
Proof.
  induction rl as [|(l, q) r IH]; intros s p post HL.
  - reflexivity.
  - cbn [linked] in HL. destruct HL as (Eq & HL).
    unfold down_arcs. cbn [length]. rewrite seq_S, rev_app_distr. cbn [rev app plus map foldM].
    unfold back_arc at 1.
    assert (L1 : length (rev r ++ [(l, q)]) = Datatypes.S (length r))
      by (rewrite app_length, rev_length; cbn; lia).
    rewrite (rd_app_mid (rev r ++ [(l, q)]) (s, p) post _ L1). cbn [bind].
    unfold back_node. rewrite <- app_assoc. cbn [app].
    rewrite (rd_app_mid (rev r) (l, q) ((s, p) :: post) _ (rev_length r)). cbn [bind chain_before].
    assert (D : deref op (rev r ++ (l, q) :: (s, p) :: post) x q =
      match r with [] => Ok x | (q0, _) :: _ => o_output op q0 end).
    { destruct r as [|(q0, q1) r0]; rewrite Eq; cbn [deref]; [reflexivity|].
      unfold node_output. cbn [length rev]. rewrite <- !app_assoc. cbn [app].
      rewrite (rd_app_mid (rev r0) (q0, q1)); [reflexivity|]. rewrite rev_length. lia. }
    rewrite D.
    destruct (match r with [] => Ok x | (q0, _) :: _ => o_output op q0 end) as [last| |]; cbn [bind]; auto.
    destruct (o_backward op l last (o_gradient op s)) as [l'| |]; cbn [bind]; auto.
    rewrite (wr_app_mid (rev r) (l, q) (l', q) ((s, p) :: post) _ (rev_length r)). cbn [bind].
    fold (down_arcs (length r)). rewrite IH by exact HL.
    destruct (chain_before x r (o_gradient op l')) as [r'| |]; cbn [bind]; auto.
    cbn [rev]. rewrite <- app_assoc. reflexivity.
Qed.

Lemma chain_after_length tr rest : forall k s rest', chain_after tr k s rest = Ok rest' ->
  length rest' = length rest.
Proof.
  induction rest as [|(r, p) rest IH]; intros k s rest' E; cbn in E.
  - injection E as <-. reflexivity.
  - destruct (o_output op s) as [y| |]; try discriminate. cbn [bind] in E.
    destruct (feed op tr r p y (SNode k)) as [(r', p')| |]; try discriminate. cbn [bind] in E.
    destruct (chain_after tr (Datatypes.S k) r' rest) as [x| |] eqn:E1; try discriminate.
    cbn in E. injection E as <-. cbn. f_equal. eapply IH; eauto.
Qed.

Lemma linked_snoc a p rl : linked rl -> p = (match rl with [] => SInput | _ => SNode (length rl - 1) end) ->
  linked ((a, p) :: rl).
Proof. cbn. auto. Qed.

Lemma chain_after_linked rest : forall k s rest' rl,
  chain_after true k s rest = Ok rest' ->
  linked rl -> length rl = Datatypes.S k ->
  linked (rev rest' ++ rl).
Proof.
  induction rest as [|(r, p) rest IH]; intros k s rest' rl E HL Hlen; cbn in E.
  - injection E as <-. exact HL.
  - destruct (o_output op s) as [y| |]; try discriminate. cbn [bind] in E.
    destruct (o_tforward op r y) as [r'| |]; try discriminate. cbn [bind] in E.
    destruct (chain_after true (Datatypes.S k) r' rest) as [x| |] eqn:E1; try discriminate.
    cbn in E. injection E as <-. cbn [rev]. rewrite <- app_assoc. cbn [app].
    eapply IH; [exact E1| |cbn; lia]. apply linked_snoc; [exact HL|].
    destruct rl; cbn in *; [lia|]. f_equal. lia.
Qed.
End Run.

(** *** Which graphs are chains *)
(** [c]: number of nodes when the roles were last computed. *)
Definition roles_upto (c : nat) (s : dlgraph) : Prop :=
  c <= nodes s /\
  (forall a b, In b (fgraph s a) -> a < c /\ b < c) /\
  NoDup (inputs s) /\ NoDup (outputs s) /\
  (forall i, In i (inputs s) <-> i < c /\ ~ In i (losses s) /\ forall a, ~ In i (fgraph s a)) /\
  (forall i, In i (outputs s) <-> i < c /\ ~ In i (losses s) /\ fgraph s i = []).

Lemma roles_upto_computed s : dwf s -> roles_upto (nodes s) (compute_roles s).
Proof.
  intros W. pose proof W as (A & _). unfold roles_upto, compute_roles. cbn [nodes inputs outputs losses fgraph].
  split; [lia|]. split.
  { intros a b Hb. destruct (A a) as (_ & B). auto. }
  split; [apply NoDup_filter_seq|]. split; [apply NoDup_filter_seq|]. split.
  - intros i. rewrite filter_In, in_seq, andb_true_iff, !negb_true_iff, mem_false.
    split.
    + intros (Hi & Hp & Hl). split; [lia|]. split; [exact Hl|]. intros a Ha.
      assert (Ht : has_predecessors (nodes s) (fgraph s) i = true).
      { unfold has_predecessors. apply existsb_exists. exists a. split.
        - apply in_seq. destruct (A a) as (_ & B). specialize (B i Ha). lia.
        - now apply mem_In. }
      congruence.
    + intros (Hi & Hl & Hn). split; [lia|]. split; [|exact Hl].
      destruct (has_predecessors (nodes s) (fgraph s) i) eqn:E; [|reflexivity].
      unfold has_predecessors in E. apply existsb_exists in E. destruct E as (a & _ & Ha).
      apply mem_In in Ha. now apply Hn in Ha.
  - intros i. rewrite filter_In, in_seq, andb_true_iff, !negb_true_iff, mem_false.
    unfold has_successors. destruct (fgraph s i); split; intros (Hi & Hl & Hn);
      try discriminate; (split; [lia|auto]).
Qed.

Lemma roles_upto_step s o s' c : dwf s -> roles_upto c s -> gstep s o = Ok s' -> exists c', roles_upto c' s'.
Proof.
  intros W R E.
  assert (B : forall s a b s' c, add_backward s a b = Ok s' -> roles_upto c s -> roles_upto c s').
  { clear. intros s a b s' c E R. unfold add_backward in E.
    destruct (add_arc (nodes s) (bgraph s) a b) as [t| |]; try discriminate. injection E as <-. exact R. }
  assert (L : forall s a b s' c, add_forward_loss s a b = Ok s' -> roles_upto c s -> roles_upto c s').
  { clear. intros s a b s' c E R. unfold add_forward_loss in E.
    destruct (add_arc (nodes s) (tgraph s) a b) as [t| |]; try discriminate. injection E as <-. exact R. }
  assert (F : forall s a b s', dwf s -> add_forward s a b = Ok s' -> exists c', roles_upto c' s').
  { clear. intros s2 a b s3 W2 E2. unfold add_forward in E2.
    destruct (add_arc (nodes s2) (fgraph s2) a b) as [f| |] eqn:Ea; try discriminate. cbn [bind] in E2.
    destruct (add_arc (nodes s2) (tgraph s2) a b) as [t| |] eqn:Eb; try discriminate. cbn [bind] in E2.
    injection E2 as <-. eexists. apply roles_upto_computed.
    destruct W2 as (A & B & C & D). apply add_arc_ok in Ea; [|exact A]. apply add_arc_ok in Eb; [|exact B].
    split; [apply Ea|]. split; [apply Eb|]. split; [exact C|exact D]. }
  destruct o; cbn [gstep] in E.
  - injection E as <-. exists c. destruct R as (R1 & R). split; [cbn; lia|]. exact R.
  - injection E as <-. exists c. destruct R as (R1 & R2 & R3 & R4 & R5 & R6).
    unfold add_loss, add_node, roles_upto. cbn [nodes inputs outputs losses fgraph].
    replace (S (nodes s) - 1) with (nodes s) by lia.
    split; [lia|]. split; [exact R2|]. split; [exact R3|]. split; [exact R4|]. split.
    + intros i. rewrite R5, in_app_iff. cbn [In].
      split; intros (H1 & H2 & H3); (split; [exact H1|]); (split; [|exact H3]).
      * intros [H|[<-|[]]]; [contradiction|lia].
      * tauto.
    + intros i. rewrite R6, in_app_iff. cbn [In].
      split; intros (H1 & H2 & H3); (split; [exact H1|]); (split; [|exact H3]).
      * intros [H|[<-|[]]]; [contradiction|lia].
      * tauto.
  - unfold create_edge in E. destruct (add_backward s b a) as [s3| |] eqn:E3; try discriminate.
    cbn [bind] in E. eapply F; [|exact E]. exact (gstep_dwf s (GBack a b) s3 W E3).
  - unfold create_loss_edge in E. destruct (add_backward s b a) as [s3| |] eqn:E3; try discriminate.
    cbn [bind] in E. exists c. exact (L _ _ _ _ _ E (B _ _ _ _ _ E3 R)).
  - exact (F _ _ _ _ W E).
  - exists c. exact (L _ _ _ _ _ E R).
  - exists c. exact (B _ _ _ _ _ E R).
Qed.

Lemma gbuild_roles os s : gbuild os = Ok s -> exists c, roles_upto c s.
Proof.
  intros E.
  assert (H : dwf s /\ exists c, roles_upto c s); [|apply H].
  unfold gbuild in E. revert E. apply (foldM_inv (fun s => dwf s /\ exists c, roles_upto c s)).
  - intros s0 o s1 (W & c & R) E. split; [now apply (gstep_dwf _ _ _ W E)|].
    now apply (roles_upto_step _ _ _ c W R E).
  - split.
    + apply (gbuild_dwf []). reflexivity.
    + exists 0. unfold roles_upto, graph_new. cbn. split; [lia|]. split; [intros a b []|].
      split; [constructor|]. split; [constructor|].
      split; intros i; (split; [intros []|intros (H & _); lia]).
Qed.

Lemma NoDup_single {A} (l : list A) a : NoDup l -> (forall x, In x l <-> x = a) -> l = [a].
Proof.
  intros ND H. destruct l as [|x [|y l]].
  - destruct (proj2 (H a) eq_refl).
  - f_equal. apply H. now left.
  - exfalso. assert (x = a) by (apply H; now left). assert (y = a) by (apply H; right; now left).
    subst. inversion ND as [|? ? N _]. apply N. now left.
Qed.
Lemma no_members {A} (l : list A) : (forall x, ~ In x l) -> l = [].
Proof. destruct l as [|x l]; [reflexivity|]. intros H. destruct (H x). now left. Qed.

Lemma is_chain_built os s (lossy : bool) n : gbuild os = Ok s -> 2 <= n ->
  nodes s = (if lossy then S n else n) ->
  losses s = (if lossy then [n] else []) ->
  (forall a b, In b (fgraph s a) <-> b = S a /\ b < n) ->
  (forall a b, In b (tgraph s a) <-> b = S a /\ b < nodes s) ->
  (forall a b, In b (bgraph s a) <-> a = S b /\ a < nodes s) ->
  is_chain lossy n s.
Proof.
  intros E Hn HN HL HF HT HB.
  destruct (gbuild_dwf os s E) as (A & B & C & _).
  pose proof (gwf_finite _ _ A) as FA. pose proof (gwf_finite _ _ B) as FB.
  pose proof (gwf_finite _ _ C) as FC.
  destruct (gbuild_roles os s E) as (c & R1 & R2 & R3 & R4 & R5 & R6).
  assert (Hc : n <= c).
  { destruct (R2 (n - 2) (n - 1)); [apply HF; lia|lia]. }
  assert (Lo : forall i, i < nodes s -> ~ In i (losses s) <-> i < n).
  { intros i Hi. rewrite HL. rewrite HN in Hi. destruct lossy; cbn; lia. }
  constructor.
  - exact HN.
  - intros i. destruct (Nat.ltb_spec (S i) n).
    + apply NoDup_single; [apply FA|]. intros x. rewrite HF. lia.
    + apply no_members. intros x Hx. apply HF in Hx. lia.
  - intros i. rewrite <- HN. destruct (Nat.ltb_spec (S i) (nodes s)).
    + apply NoDup_single; [apply FB|]. intros x. rewrite HT. lia.
    + apply no_members. intros x Hx. apply HT in Hx. lia.
  - intros i. rewrite <- HN. destruct i as [|j].
    + apply no_members. intros x Hx. apply HB in Hx. lia.
    + destruct (Nat.ltb_spec (S j) (nodes s)).
      * apply NoDup_single; [apply FC|]. intros x. rewrite HB. lia.
      * apply no_members. intros x Hx. apply HB in Hx. lia.
  - exact HL.
  - apply NoDup_single; [exact R3|]. intros x. rewrite R5. split.
    + intros (H1 & H2 & H3). rewrite Lo in H2 by lia. destruct x as [|y]; [reflexivity|].
      exfalso. apply (H3 y). apply HF. lia.
    + intros ->. split; [lia|]. split; [apply Lo; lia|]. intros a Ha. apply HF in Ha. lia.
  - apply NoDup_single; [exact R4|]. intros x. rewrite R6. split.
    + intros (H1 & H2 & H3). rewrite Lo in H2 by lia.
      destruct (Nat.eq_dec x (n - 1)) as [|Hne]; [auto|]. exfalso.
      assert (Hx : In (S x) (fgraph s x)) by (apply HF; lia). rewrite H3 in Hx. destruct Hx.
    + intros ->. split; [lia|]. split; [apply Lo; lia|]. apply no_members. intros y Hy. apply HF in Hy. lia.
Qed.
