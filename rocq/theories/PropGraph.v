(** C34, C35, C37: execution schedules and layer roles. *)
From Verif Require Import Base GraphModel GraphSpec GraphProofs.

(** *** C34 *)
(** For every finite directed graph (cycles and self loops included) and every starting list
    without repetition the loop ends, after at most n+2 rounds, and the schedule holds
    exactly the arcs whose source is reachable, each once. *)
Theorem c34_schedule : forall n g start,
  finite_graph n g -> NoDup start ->
  exists arcs,
    (forall fuel, n + 2 <= fuel -> schedule fuel g start = Some arcs) /\
    (forall fuel arcs', schedule fuel g start = Some arcs' -> arcs' = arcs) /\
    NoDup arcs /\
    (forall a b, In (a, b) arcs <-> reachable g start a /\ In b (g a)).
Proof.
  intros n g start Hf Hn.
  destruct (schedule_ok g start n Hf Hn (n + 2) (le_n _)) as (arcs & E & ND & IN & _).
  exists arcs. split; [|split; [|split; [exact ND|exact IN]]].
  - intros fuel Hle. now apply (run_loop_mono (n + 2)).
  - intros fuel arcs' E'. destruct (Nat.le_ge_cases fuel (n + 2)) as [Hle|Hle].
    + apply (run_loop_mono _ (n + 2)) in E'; [|exact Hle]. unfold schedule in E. congruence.
    + apply (run_loop_mono _ fuel) in E; [|exact Hle]. unfold schedule in E'. congruence.
Qed.
Print Assumptions c34_schedule.

(** The three schedules of every model built by the Model methods meet the hypotheses. *)
Theorem c34_built_models : forall os s, gbuild os = Ok s ->
  finite_graph (nodes s) (fgraph s) /\ finite_graph (nodes s) (tgraph s) /\
  finite_graph (nodes s) (bgraph s) /\ NoDup (inputs s) /\ NoDup (losses s) /\
  (forall x, In x (inputs s ++ losses s) -> x < nodes s).
Proof.
  intros os s E. destruct (gbuild_dwf os s E) as (A & B & C & D & E1 & F & G & _).
  split; [now apply gwf_finite|]. split; [now apply gwf_finite|]. split; [now apply gwf_finite|].
  split; [exact F|]. split; [exact D|].
  intros x Hx. apply in_app_or in Hx. destruct Hx; auto.
Qed.
Print Assumptions c34_built_models.

(** Reading a concrete build result. *)
Lemma built (os : list gop) (P : dlgraph -> Prop) :
  match gbuild os with Ok s => P s | _ => False end -> exists s, gbuild os = Ok s /\ P s.
Proof. destruct (gbuild os) as [s| |]; intros H; try contradiction. exists s. auto. Qed.

Lemma arcs_check os s (R : nat -> nat -> bool) : gbuild os = Ok s ->
  forallb (fun a => forallb (R a) (fgraph s a)) (seq 0 (nodes s)) = true ->
  forall a b, In b (fgraph s a) -> R a b = true.
Proof.
  intros E H a b Hb. rewrite forallb_forall in H.
  destruct (gbuild_dwf os s E) as (A & _). destruct (A a) as (_ & B). destruct (B b Hb) as (Ha & _).
  assert (Hs : In a (seq 0 (nodes s))) by (apply in_seq; lia).
  specialize (H a Hs). rewrite forallb_forall in H. auto.
Qed.

(** A graph with a cycle 1 -> 2 -> 1, a self loop and a branch. *)
Example c34_cyclic :
  exists s, gbuild [GLayer; GLayer; GLayer; GLayer; GEdge 0 1; GEdge 1 2; GEdge 2 1; GEdge 2 2; GEdge 0 3] = Ok s /\
    inputs s = [0] /\ schedule 10 (fgraph s) (inputs s) = Some [(0, 1); (0, 3); (1, 2); (2, 1); (2, 2)].
Proof. apply built. vm_compute. auto. Qed.

(** With a repeated start node arcs are repeated: the hypothesis is needed. *)
Example c34_repeated_start :
  schedule 10 (fun i => if i =? 0 then [1] else []) [0; 0] = Some [(0, 1); (0, 1)].
Proof. reflexivity. Qed.

(** *** C35 *)
(** What the code guarantees: arcs are executed in order of the shortest distance of their
    source from the starting layers. *)
Theorem c35_breadth_first : forall n g start fuel arcs,
  finite_graph n g -> NoDup start -> schedule fuel g start = Some arcs ->
  forall l1 a b l2 a' b', arcs = l1 ++ (a, b) :: l2 -> In (a', b') l1 ->
    exists j j', dist g start a' j' /\ dist g start a j /\ j' <= j.
Proof.
  intros n g start fuel arcs Hf Hn E.
  destruct (schedule_ok g start n Hf Hn (n + 2) (le_n _)) as (arcs0 & E0 & _ & _ & Hs).
  destruct (c34_schedule n g start Hf Hn) as (arcs1 & E1 & U & _).
  rewrite (U _ _ E). rewrite <- (U _ _ E0). exact Hs.
Qed.
Print Assumptions c35_breadth_first.

(** Part of C35 that holds: when all paths from the starting layers to a layer have the same
    length (chains, trees, layered networks), every arc into a layer precedes every arc out
    of it. Missing: acyclic graphs with skip connections. *)
Theorem c35_layered_partial : forall n g start fuel arcs (rank : nat -> nat),
  finite_graph n g -> NoDup start -> schedule fuel g start = Some arcs ->
  (forall x, In x start -> rank x = 0) -> (forall a b, In b (g a) -> rank b = S (rank a)) ->
  respects_dependencies arcs.
Proof.
  intros n g start fuel arcs rank Hf Hn E H0 HS.
  assert (HR : forall k x, walk g start k x -> rank x = k).
  { intros k x W. induction W as [x Hx|k a b W IH Hb]; [auto|]. rewrite (HS a b Hb). lia. }
  intros l1 v w l2 u El Hin.
  destruct (c34_schedule n g start Hf Hn) as (arcs1 & E1 & U & ND & IN).
  rewrite <- (U _ _ E) in ND, IN.
  rewrite El in Hin. apply in_app_or in Hin. destruct Hin as [Hin|Hin]; [exact Hin|exfalso].
  pose proof (proj1 (IN v w)) as Rv. rewrite El in Rv.
  destruct Rv as ((kv & Wv) & Hw); [apply in_or_app; right; now left|].
  destruct Hin as [Hin|Hin].
  - injection Hin as -> ->. specialize (HS u u Hw). lia.
  - apply in_split in Hin. destruct Hin as (l3 & l4 & E4).
    destruct (c35_breadth_first n g start fuel arcs Hf Hn E (l1 ++ (v, w) :: l3) u v l4 v w)
      as (j & j' & Dv & Du & Hle).
    { rewrite El, E4, <- app_assoc. reflexivity. }
    { apply in_or_app. right. now left. }
    destruct Dv as (W1 & _), Du as (W2 & _). apply HR in W1, W2.
    assert (Hb : In v (g u)).
    { apply (IN u v). rewrite El, E4. apply in_or_app. right. right. apply in_or_app. right. now left. }
    specialize (HS u v Hb). lia.
Qed.
Print Assumptions c35_layered_partial.

(** C35 as stated is false: with 0->1->2->3, 0->3 and 3->4 the arc (3,4) is executed before
    the arc (2,3). *)
Theorem c35_dependencies_refuted : exists os s arcs,
  gbuild os = Ok s /\ acyclic (fgraph s) /\ schedule 10 (fgraph s) (inputs s) = Some arcs /\
  ~ respects_dependencies arcs.
Proof.
  pose (os := [GLayer; GLayer; GLayer; GLayer; GLayer; GEdge 0 1; GEdge 1 2; GEdge 2 3; GEdge 0 3; GEdge 3 4]).
  destruct (built os (fun s => schedule 10 (fgraph s) (inputs s) = Some [(0, 1); (0, 3); (1, 2); (3, 4); (2, 3)] /\
    forallb (fun a => forallb (fun b => a <? b) (fgraph s a)) (seq 0 (nodes s)) = true)) as (s & E & Es & Ea).
  { vm_compute. auto. }
  exists os, s, [(0, 1); (0, 3); (1, 2); (3, 4); (2, 3)].
  split; [exact E|]. split; [|split; [exact Es|]].
  - exists (fun i => i). intros a b Hb. apply Nat.ltb_lt.
    apply (arcs_check os s (fun a b => a <? b) E Ea a b Hb).
  - clear. intros H. specialize (H [(0, 1); (0, 3); (1, 2)] 3 4 [(2, 3)] 2 eq_refl).
    destruct H as [H|[H|[H|[]]]]; try discriminate. cbn. auto 10.
Qed.
Print Assumptions c35_dependencies_refuted.

(** The layered theorem applies to a diamond. *)
Example c35_diamond :
  exists s, gbuild [GLayer; GLayer; GLayer; GLayer; GEdge 0 1; GEdge 0 2; GEdge 1 3; GEdge 2 3] = Ok s /\
    schedule 10 (fgraph s) (inputs s) = Some [(0, 1); (0, 2); (1, 3); (2, 3)] /\
    exists rank : nat -> nat, (forall x, In x (inputs s) -> rank x = 0) /\
      (forall a b, In b (fgraph s a) -> rank b = S (rank a)).
Proof.
  pose (os := [GLayer; GLayer; GLayer; GLayer; GEdge 0 1; GEdge 0 2; GEdge 1 3; GEdge 2 3]).
  pose (rank := fun i => match i with 0 => 0 | 1 | 2 => 1 | _ => 2 end).
  destruct (built os (fun s => schedule 10 (fgraph s) (inputs s) = Some [(0, 1); (0, 2); (1, 3); (2, 3)] /\
    inputs s = [0] /\
    forallb (fun a => forallb (fun b => rank b =? S (rank a)) (fgraph s a)) (seq 0 (nodes s)) = true))
    as (s & E & Es & Ei & Ea).
  { vm_compute. auto. }
  exists s. split; [exact E|]. split; [exact Es|]. exists rank. split.
  - rewrite Ei. intros x [<-|[]]. reflexivity.
  - intros a b Hb. apply Nat.eqb_eq.
    apply (arcs_check os s (fun a b => rank b =? S (rank a)) E Ea a b Hb).
Qed.

(** *** C37 *)
(** The required roles: inputs are the layers (losses excepted) no arc leads to, outputs
    those no arc leaves. *)
Definition roles_ok (s : dlgraph) : Prop :=
  (forall i, In i (inputs s) <->
     i < nodes s /\ ~ In i (losses s) /\ forall a, ~ In i (fgraph s a)) /\
  (forall i, In i (outputs s) <->
     i < nodes s /\ ~ In i (losses s) /\ fgraph s i = []).

Lemma roles_computed s : dwf s -> roles_ok (compute_roles s).
Proof.
  intros W. unfold compute_roles, roles_ok. cbn [nodes inputs outputs losses fgraph]. split.
  - intros i. rewrite filter_In, in_seq, andb_true_iff, !negb_true_iff, mem_false.
    split.
    + intros (Hi & Hp & Hl). split; [lia|]. split; [exact Hl|]. intros a Ha.
      assert (Ht : has_predecessors (nodes s) (fgraph s) i = true).
      { unfold has_predecessors. apply existsb_exists. exists a. split.
        - apply in_seq. destruct W as (A & _). destruct (A a) as (_ & B). specialize (B i Ha). lia.
        - now apply mem_In. }
      congruence.
    + intros (Hi & Hl & Hn). split; [lia|]. split; [|exact Hl].
      destruct (has_predecessors (nodes s) (fgraph s) i) eqn:E; [|reflexivity].
      unfold has_predecessors in E. apply existsb_exists in E. destruct E as (a & _ & Ha).
      apply mem_In in Ha. now apply Hn in Ha.
  - intros i. rewrite filter_In, in_seq, andb_true_iff, !negb_true_iff, mem_false.
    unfold has_successors. destruct (fgraph s i); split; intros (Hi & Hl & Hn).
    + split; [lia|auto].
    + split; [lia|auto].
    + discriminate.
    + discriminate.
Qed.

(** Part of C37 that holds: after an edge between two layers the roles are right, and they
    stay right as long as no further layer is added. *)
Definition adds_layer (o : gop) : bool := match o with GLayer => true | _ => false end.
Definition adds_edge (o : gop) : bool := match o with GEdge _ _ | GFront _ _ => true | _ => false end.

Theorem c37_roles_partial : forall pre o post s,
  gbuild (pre ++ o :: post) = Ok s -> adds_edge o = true ->
  forallb (fun o => negb (adds_layer o)) post = true -> roles_ok s.
Proof.
  intros pre o post s E Ho Hpost. unfold gbuild in E. rewrite foldM_app in E.
  destruct (foldM gstep pre graph_new) as [s0| |] eqn:E0; try discriminate. cbn [bind foldM] in E.
  destruct (gstep s0 o) as [s1| |] eqn:E1; try discriminate. cbn [bind] in E.
  pose proof (gbuild_dwf pre s0 E0) as W0.
  pose proof (gstep_dwf _ _ _ W0 E1) as W1.
  assert (R1 : roles_ok s1).
  { assert (F : forall s a b s', dwf s -> add_forward s a b = Ok s' -> roles_ok s').
    { intros s2 a b s3 W2 E2. pose proof (gstep_dwf s2 (GFront a b) s3 W2 E2) as W3.
      unfold add_forward in E2.
      destruct (add_arc (nodes s2) (fgraph s2) a b) as [f| |] eqn:Ea; try discriminate. cbn [bind] in E2.
      destruct (add_arc (nodes s2) (tgraph s2) a b) as [t| |] eqn:Eb; try discriminate. cbn [bind] in E2.
      injection E2 as <-. apply roles_computed.
      destruct W2 as (A & B & C & D). apply add_arc_ok in Ea; [|exact A]. apply add_arc_ok in Eb; [|exact B].
      split; [apply Ea|]. split; [apply Eb|]. split; [exact C|exact D]. }
    destruct o; try discriminate; cbn [gstep] in E1.
    - unfold create_edge in E1. destruct (add_backward s0 b a) as [s2| |] eqn:E2; try discriminate.
      cbn [bind] in E1. eapply F; [|exact E1].
      exact (gstep_dwf s0 (GBack a b) s2 W0 E2).
    - exact (F _ _ _ _ W0 E1). }
  clear E0 E1 W0 pre o Ho. revert s1 W1 R1 E. induction post as [|o post IH]; intros s1 W1 R1 E.
  - cbn in E. injection E as <-. exact R1.
  - cbn [foldM forallb] in *. apply andb_prop in Hpost. destruct Hpost as (Ho & Hpost).
    destruct (gstep s1 o) as [s2| |] eqn:E2; try discriminate. cbn [bind] in E.
    pose proof (gstep_dwf _ _ _ W1 E2) as W2.
    apply (IH Hpost s2 W2); [|exact E]. clear IH E Hpost.
    assert (B : forall s a b s', add_backward s a b = Ok s' -> roles_ok s -> roles_ok s').
    { clear. intros s a b s' E R. unfold add_backward in E.
      destruct (add_arc (nodes s) (bgraph s) a b) as [t| |]; try discriminate. injection E as <-. exact R. }
    assert (L : forall s a b s', add_forward_loss s a b = Ok s' -> roles_ok s -> roles_ok s').
    { clear. intros s a b s' E R. unfold add_forward_loss in E.
      destruct (add_arc (nodes s) (tgraph s) a b) as [t| |]; try discriminate. injection E as <-. exact R. }
    assert (F : forall s a b s', dwf s -> add_forward s a b = Ok s' -> roles_ok s').
    { clear. intros s2 a b s3 W2 E2. unfold add_forward in E2.
      destruct (add_arc (nodes s2) (fgraph s2) a b) as [f| |] eqn:Ea; try discriminate. cbn [bind] in E2.
      destruct (add_arc (nodes s2) (tgraph s2) a b) as [t| |] eqn:Eb; try discriminate. cbn [bind] in E2.
      injection E2 as <-. apply roles_computed.
      destruct W2 as (A & B & C & D). apply add_arc_ok in Ea; [|exact A]. apply add_arc_ok in Eb; [|exact B].
      split; [apply Ea|]. split; [apply Eb|]. split; [exact C|exact D]. }
    destruct o; try discriminate; cbn [gstep] in E2.
    + injection E2 as <-. destruct R1 as (R1 & R2), W1 as (A & _ & _ & _ & HL & _).
      unfold add_loss, add_node, roles_ok. cbn [nodes inputs outputs losses fgraph].
      replace (S (nodes s1) - 1) with (nodes s1) by lia. split.
      * intros i. rewrite R1, in_app_iff. cbn [In]. split.
        -- intros (H1 & H2 & H3). split; [lia|]. split; [|exact H3].
           intros [H|[<-|[]]]; [contradiction|lia].
        -- intros (H1 & H2 & H3). split; [|split; [tauto|exact H3]].
           destruct (Nat.eq_dec i (nodes s1)) as [->|]; [exfalso; apply H2; auto|lia].
      * intros i. rewrite R2, in_app_iff. cbn [In]. split.
        -- intros (H1 & H2 & H3). split; [lia|]. split; [|exact H3].
           intros [H|[<-|[]]]; [contradiction|lia].
        -- intros (H1 & H2 & H3). split; [|split; [tauto|exact H3]].
           destruct (Nat.eq_dec i (nodes s1)) as [->|]; [exfalso; apply H2; auto|lia].
    + unfold create_edge in E2. destruct (add_backward s1 b a) as [s3| |] eqn:E3; try discriminate.
      cbn [bind] in E2. eapply F; [|exact E2]. exact (gstep_dwf s1 (GBack a b) s3 W1 E3).
    + unfold create_loss_edge in E2. destruct (add_backward s1 b a) as [s3| |] eqn:E3; try discriminate.
      cbn [bind] in E2. exact (L _ _ _ _ E2 (B _ _ _ _ E3 R1)).
    + exact (F _ _ _ _ W1 E2).
    + exact (L _ _ _ _ E2 R1).
    + exact (B _ _ _ _ E2 R1).
Qed.
Print Assumptions c37_roles_partial.

(** A network with two inputs and one output, a loss added last. *)
Example c37_two_inputs :
  exists s, gbuild [GLayer; GLayer; GLayer; GEdge 0 2; GEdge 1 2; GLoss; GLossEdge 2 3] = Ok s /\
    inputs s = [0; 1] /\ outputs s = [2] /\ losses s = [3].
Proof. apply built. vm_compute. auto. Qed.

(** C37 as stated is false: a model with a single layer and its loss has no input and no
    output layer. *)
Theorem c37_single_layer_refuted : exists s,
  gbuild [GLayer; GLoss; GLossEdge 0 1] = Ok s /\
  inputs s = [] /\ outputs s = [] /\ schedule 10 (tgraph s) (inputs s) = Some [] /\ ~ roles_ok s.
Proof.
  destruct (built [GLayer; GLoss; GLossEdge 0 1] (fun s => inputs s = [] /\ outputs s = [] /\
    schedule 10 (tgraph s) (inputs s) = Some [] /\ nodes s = 2 /\ losses s = [1] /\ fgraph s = no_edges))
    as (s & E & Ei & Eo & Es & En & El & Ef).
  { vm_compute. auto 10. }
  exists s. split; [exact E|]. split; [exact Ei|]. split; [exact Eo|]. split; [exact Es|].
  intros (R & _). specialize (R 0). rewrite Ei, En, El, Ef in R. cbn in R.
  destruct R as (_ & R). apply R. split; [auto|]. split; [intros [H|[]]; discriminate H|]. intros a H. exact H.
Qed.
Print Assumptions c37_single_layer_refuted.
