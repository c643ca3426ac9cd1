(** C85: connecting several layers in one call. *)
From Verif Require Import Base GraphModel GraphProofs ConnectModel ConnectProofs PropGraph.
Local Open Scope nat_scope.

(** *** What a call asks for: arcs for running, for training and for the gradients *)
Definition into (froms : list nat) (to : nat) : list (nat * nat) := map (fun from => (from, to)) froms.
Definition out_of (from : nat) (tos : list nat) : list (nat * nat) := map (fun to => (from, to)) tos.

Definition run_arcs (c : ccall) : list (nat * nat) :=
  match c with
  | EdgeTo froms to | ForwardTo froms to => into froms to
  | EdgeFrom from tos | ForwardFrom from tos => out_of from tos
  | _ => []
  end.
Definition train_arcs (c : ccall) : list (nat * nat) :=
  match c with
  | EdgeToLoss froms to | ForwardToLoss froms to => into froms to
  | _ => run_arcs c
  end.
Definition back_arcs (c : ccall) : list (nat * nat) :=
  match c with
  | EdgeTo froms to | EdgeToLoss froms to => out_of to froms
  | EdgeFrom from tos => into tos from
  | BackwardTo froms to => into froms to
  | BackwardFrom from tos => out_of from tos
  | _ => []
  end.
(** Calls that connect layers for running; calls that only connect for the gradients. *)
Definition layer_call (c : ccall) : bool :=
  match c with EdgeTo _ _ | EdgeFrom _ _ | ForwardTo _ _ | ForwardFrom _ _ => true | _ => false end.
Definition back_call (c : ccall) : bool :=
  match c with BackwardTo _ _ | BackwardFrom _ _ => true | _ => false end.
(** The arcs in the order in which the call meets them. *)
Definition met (c : ccall) : list (nat * nat) := if back_call c then back_arcs c else train_arcs c.

Definition reached (s : dlgraph) : Prop := exists os, s = cbuild os.

Definition roles_current (s : dlgraph) : Prop :=
  inputs s = inputs (compute_roles s) /\ outputs s = outputs (compute_roles s).

Lemma into_known s froms to : arcs_known s (into froms to) <-> (forall x, In x froms -> x < nodes s /\ to < nodes s).
Proof.
  unfold into. split.
  - intros K x Hx. apply (K x to). apply in_map_iff. exists x. auto.
  - intros K a b Hab. apply in_map_iff in Hab. destruct Hab as (x & E & Hx).
    apply pair_equal_spec in E. destruct E as (<- & <-). auto.
Qed.
Lemma out_known s from tos : arcs_known s (out_of from tos) <-> (forall x, In x tos -> from < nodes s /\ x < nodes s).
Proof.
  unfold out_of. split.
  - intros K x Hx. apply (K from x). apply in_map_iff. exists x. auto.
  - intros K a b Hab. apply in_map_iff in Hab. destruct Hab as (x & E & Hx).
    apply pair_equal_spec in E. destruct E as (<- & <-). auto.
Qed.
Lemma flip_known s x ys : arcs_known s (into ys x) <-> arcs_known s (out_of x ys).
Proof. rewrite into_known, out_known. split; intros K y Hy; specialize (K y Hy); tauto. Qed.

Lemma split_map {A B} (f : A -> B) pre x post : map f (pre ++ x :: post) = map f pre ++ f x :: map f post.
Proof. now rewrite map_app. Qed.

(** The effect of every call. *)
Lemma connect_ok c s : cwf s ->
  (arcs_known s (met c) /\ exists s', connect c s = Done s' /\ cwf s' /\
     extends (run_arcs c) (train_arcs c) (back_arcs c) s s' /\
     (if layer_call c then roles_current s' else same_roles s s')) \/
  (exists pre a b post s', met c = pre ++ (a, b) :: post /\ arcs_known s pre /\ ~ (a < nodes s /\ b < nodes s) /\
     connect c s = Thrown s' /\ cwf s' /\ same_roles s s' /\
     extends (sel (layer_call c) pre) (sel (negb (back_call c)) pre) (sel (back_call c) pre) s s').
Proof.
  intros W.
  assert (Fwd : forall A xs,
    let body := fun s x => next (arc_f s (fst (A x)) (snd (A x))) (fun s => arc_t s (fst (A x)) (snd (A x))) in
    (arcs_known s (map A xs) /\ exists s', next (each body xs s) (fun s => Done (compute_roles s)) = Done s' /\ cwf s' /\
       extends (map A xs) (map A xs) [] s s' /\ roles_current s') \/
    (exists pre a b post s', map A xs = pre ++ (a, b) :: post /\ arcs_known s pre /\ ~ (a < nodes s /\ b < nodes s) /\
       next (each body xs s) (fun s => Done (compute_roles s)) = Thrown s' /\ cwf s' /\ same_roles s s' /\
       extends pre pre [] s s')).
  { intros A xs body. destruct (each_ok _ _ _ A body xs (step_ft A) s W)
      as [(K & s1 & E & W1 & _ & X)|(pre & x & post & s1 & -> & K & U & E & W1 & R & X)].
    - left. split; [exact K|]. rewrite E. cbn [next]. eexists. split; [reflexivity|].
      split; [exact W1|]. split; [exact (extends_roles _ _ _ _ _ X)|]. split; reflexivity.
    - right. rewrite E, split_map. exists (map A pre), (fst (A x)), (snd (A x)), (map A post), s1.
      rewrite <- surjective_pairing. repeat (split; [assumption || reflexivity|]). exact X. }
  assert (Trn : forall A xs, let body := fun s x => arc_t s (fst (A x)) (snd (A x)) in
    (arcs_known s (map A xs) /\ exists s', each body xs s = Done s' /\ cwf s' /\ extends [] (map A xs) [] s s' /\ same_roles s s') \/
    (exists pre a b post s', map A xs = pre ++ (a, b) :: post /\ arcs_known s pre /\ ~ (a < nodes s /\ b < nodes s) /\
       each body xs s = Thrown s' /\ cwf s' /\ same_roles s s' /\ extends [] pre [] s s')).
  { intros A xs body. destruct (each_ok _ _ _ A body xs (step_t A) s W)
      as [(K & s1 & E & W1 & R & X)|(pre & x & post & s1 & -> & K & U & E & W1 & R & X)].
    - left. split; [exact K|]. exists s1. repeat (split; [assumption|]). assumption.
    - right. rewrite split_map. exists (map A pre), (fst (A x)), (snd (A x)), (map A post), s1.
      rewrite <- surjective_pairing. repeat (split; [assumption || reflexivity|]). exact X. }
  assert (Bck : forall s A xs, cwf s -> let body := fun s x => arc_b s (fst (A x)) (snd (A x)) in
    (arcs_known s (map A xs) /\ exists s', each body xs s = Done s' /\ cwf s' /\ extends [] [] (map A xs) s s' /\ same_roles s s') \/
    (exists pre a b post s', map A xs = pre ++ (a, b) :: post /\ arcs_known s pre /\ ~ (a < nodes s /\ b < nodes s) /\
       each body xs s = Thrown s' /\ cwf s' /\ same_roles s s' /\ extends [] [] pre s s')).
  { clear. intros s A xs W body. destruct (each_ok _ _ _ A body xs (step_b A) s W)
      as [(K & s1 & E & W1 & R & X)|(pre & x & post & s1 & -> & K & U & E & W1 & R & X)].
    - left. split; [exact K|]. exists s1. repeat (split; [assumption|]). assumption.
    - right. rewrite split_map. exists (map A pre), (fst (A x)), (snd (A x)), (map A post), s1.
      rewrite <- surjective_pairing. repeat (split; [assumption || reflexivity|]). exact X. }
  (* gradients arcs after the others were added *)
  assert (Bk : forall s1 A xs, cwf s1 -> arcs_known s1 (map A xs) ->
    exists s2, each (fun s x => arc_b s (fst (A x)) (snd (A x))) xs s1 = Done s2 /\ cwf s2 /\ extends [] [] (map A xs) s1 s2 /\ same_roles s1 s2).
  { intros s1 A xs W1 K1. destruct (Bck s1 A xs W1) as [(_ & s2 & X)|(pre & a & b & post & s2 & E & _ & U & _)]; [now exists s2|].
    exfalso. apply U. apply K1. rewrite E. apply in_elt. }
  assert (cur : forall s1 s2, roles_current s1 -> same_roles s1 s2 -> extends [] [] [] s1 (mkGraph (nodes s2) (fgraph s2) (tgraph s2) (bgraph s1) (losses s2) (inputs s2) (outputs s2)) ->
    cwf s1 -> cwf s2 -> roles_current s2).
  { clear. intros s1 s2 (C1 & C2) (R1 & R2) X W1 W2.
    destruct (roles_ext s2 s1) as (E1 & E2).
    - exact (ext_nodes _ _ _ _ _ X).
    - exact (ext_losses _ _ _ _ _ X).
    - intros a. apply ssorted_same; [apply W2|apply W1|]. intros b.
      pose proof (ext_f _ _ _ _ _ X a b) as H. cbn in H. tauto.
    - split; congruence. }
  assert (bothd : forall F T B' s1 s2, cwf s1 -> extends F T [] s s1 -> roles_current s1 -> cwf s2 -> extends [] [] B' s1 s2 -> same_roles s1 s2 ->
    extends F T B' s s2 /\ roles_current s2).
  { intros F T B' s1 s2 W1 X1 C1 W2 X2 R2. split.
    - pose proof (extends_trans _ _ _ _ _ _ _ _ _ X1 X2) as X. rewrite !app_nil_r in X. exact X.
    - apply (cur s1); try assumption. destruct X2 as [N L HF HT HB]. split; try assumption. intros a b. cbn. tauto. }
  destruct c as [froms to|froms to|from tos|froms to|froms to|from tos|froms to|from tos];
    cbn [connect met back_call train_arcs run_arcs back_arcs layer_call negb sel].
  - (* EdgeTo *)
    destruct (Fwd (fun x => (x, to)) froms) as [(K & s1 & E & W1 & X & C)|(pre & a & b & post & s1 & El & K & U & E & W1 & R & X)].
    + left. split; [exact K|]. unfold forward_to. cbn [fst snd] in E. rewrite E. cbn [next].
      destruct (Bk s1 (fun x => (to, x)) froms W1) as (s2 & E2 & W2 & X2 & R2).
      { unfold arcs_known. rewrite (ext_nodes _ _ _ _ _ X). apply (flip_known s to froms). exact K. }
      exists s2. split; [exact E2|]. split; [exact W2|]. exact (bothd _ _ _ _ _ W1 X C W2 X2 R2).
    + right. exists pre, a, b, post, s1. unfold forward_to. cbn [fst snd] in E. rewrite E. cbn [next].
      repeat (split; [assumption || reflexivity|]). exact X.
  - (* EdgeToLoss *)
    destruct (Trn (fun x => (x, to)) froms) as [(K & s1 & E & W1 & X & C)|(pre & a & b & post & s1 & El & K & U & E & W1 & R & X)].
    + left. split; [exact K|]. unfold forward_to_loss. cbn [fst snd] in E. rewrite E. cbn [next].
      destruct (Bk s1 (fun x => (to, x)) froms W1) as (s2 & E2 & W2 & X2 & R2).
      { unfold arcs_known. rewrite (ext_nodes _ _ _ _ _ X). apply (flip_known s to froms). exact K. }
      exists s2. split; [exact E2|]. split; [exact W2|]. split.
      * pose proof (extends_trans _ _ _ _ _ _ _ _ _ X X2) as Y. rewrite (app_nil_r (map _ _)) in Y. exact Y.
      * destruct C, R2. split; congruence.
    + right. exists pre, a, b, post, s1. unfold forward_to_loss. cbn [fst snd] in E. rewrite E. cbn [next].
      repeat (split; [assumption || reflexivity|]). exact X.
  - (* EdgeFrom *)
    destruct (Fwd (fun x => (from, x)) tos) as [(K & s1 & E & W1 & X & C)|(pre & a & b & post & s1 & El & K & U & E & W1 & R & X)].
    + left. split; [exact K|]. unfold forward_from. cbn [fst snd] in E. rewrite E. cbn [next].
      destruct (Bk s1 (fun x => (x, from)) tos W1) as (s2 & E2 & W2 & X2 & R2).
      { unfold arcs_known. rewrite (ext_nodes _ _ _ _ _ X). apply (flip_known s from tos). exact K. }
      exists s2. split; [exact E2|]. split; [exact W2|]. exact (bothd _ _ _ _ _ W1 X C W2 X2 R2).
    + right. exists pre, a, b, post, s1. unfold forward_from. cbn [fst snd] in E. rewrite E. cbn [next].
      repeat (split; [assumption || reflexivity|]). exact X.
  - destruct (Fwd (fun x => (x, to)) froms) as [(K & Z)|(pre & a & b & post & s1 & Z)].
    + left. split; [exact K|exact Z].
    + right. exists pre, a, b, post, s1. exact Z.
  - destruct (Trn (fun x => (x, to)) froms) as [(K & Z)|(pre & a & b & post & s1 & Z)].
    + left. split; [exact K|exact Z].
    + right. exists pre, a, b, post, s1. exact Z.
  - destruct (Fwd (fun x => (from, x)) tos) as [(K & Z)|(pre & a & b & post & s1 & Z)].
    + left. split; [exact K|exact Z].
    + right. exists pre, a, b, post, s1. exact Z.
  - destruct (Bck s (fun x => (x, to)) froms W) as [(K & Z)|(pre & a & b & post & s1 & Z)].
    + left. split; [exact K|exact Z].
    + right. exists pre, a, b, post, s1. exact Z.
  - destruct (Bck s (fun x => (from, x)) tos W) as [(K & Z)|(pre & a & b & post & s1 & Z)].
    + left. split; [exact K|exact Z].
    + right. exists pre, a, b, post, s1. exact Z.
Qed.

Lemma reached_cwf s : reached s -> cwf s.
Proof.
  intros (os & ->). unfold cbuild.
  assert (I : forall os s, cwf s -> cwf (fold_left cstep os s)).
  { clear. intros os. induction os as [|o os IH]; intros s W; [exact W|]. cbn [fold_left]. apply IH.
    destruct W as (A & B & C). destruct o as [| | |c].
    - split; [|split]; (eapply gwf_mono; [|eassumption]); cbn; lia.
    - split; [|split]; (eapply gwf_mono; [|eassumption]); cbn; lia.
    - split; [|split]; assumption.
    - destruct (connect_ok c s (conj A (conj B C))) as [(_ & s' & E & W & _)|(pre & a & b & post & s' & _ & _ & _ & E & W & _)];
        cbn [cstep]; rewrite E; exact W. }
  apply I. split; [|split]; apply gwf_none.
Qed.

Lemma roles_current_ok s : cwf s -> roles_current s -> roles_ok s.
Proof.
  intros (W & _) (C1 & C2). unfold roles_ok. rewrite C1, C2. unfold compute_roles. cbn [inputs outputs]. split.
  - intros i. rewrite filter_In, in_seq, andb_true_iff, !negb_true_iff, mem_false. split.
    + intros (Hi & Hp & Hl). split; [lia|]. split; [exact Hl|]. intros a Ha.
      assert (Ht : has_predecessors (nodes s) (fgraph s) i = true).
      { unfold has_predecessors. apply existsb_exists. exists a. split.
        - apply in_seq. destruct (W a) as (_ & B). specialize (B i Ha). lia.
        - now apply mem_In. }
      congruence.
    + intros (Hi & Hl & Hn). split; [lia|]. split; [|exact Hl].
      destruct (has_predecessors (nodes s) (fgraph s) i) eqn:E; [|reflexivity].
      unfold has_predecessors in E. apply existsb_exists in E. destruct E as (a & _ & Ha).
      apply mem_In in Ha. now apply Hn in Ha.
  - intros i. rewrite filter_In, in_seq, andb_true_iff, !negb_true_iff, mem_false.
    unfold has_successors. destruct (fgraph s i); split; intros (Hi & Hl & Hn); repeat split; auto; try lia; discriminate.
Qed.

(** *** Theorems *)

(** A call returns exactly when it names layers of the graph only. *)
Theorem c85_returns : forall s c, reached s ->
  ((exists s', connect c s = Done s') <->
   forall a b, In (a, b) (train_arcs c ++ back_arcs c) -> a < nodes s /\ b < nodes s).
Proof.
  intros s c Hr. pose proof (reached_cwf s Hr) as W.
  assert (K : (forall a b, In (a, b) (train_arcs c ++ back_arcs c) -> a < nodes s /\ b < nodes s) <-> arcs_known s (met c)).
  { assert (app : forall l l', arcs_known s (l ++ l') <-> arcs_known s l /\ arcs_known s l').
    { intros l l'. unfold arcs_known. setoid_rewrite in_app_iff. firstorder. }
    change (arcs_known s (train_arcs c ++ back_arcs c) <-> arcs_known s (met c)). rewrite app.
    assert (nil : arcs_known s []) by (intros a b []).
    destruct c; cbn [met back_call train_arcs run_arcs back_arcs];
      try (rewrite <- flip_known); try (rewrite flip_known); tauto. }
  rewrite K. destruct (connect_ok c s W) as [(Ka & s' & E & _)|(pre & a & b & post & s' & Em & _ & U & E & _)].
  - split; [intros _; exact Ka|intros _; now exists s'].
  - split.
    + intros (s2 & E2). congruence.
    + intros Ka. exfalso. apply U, Ka. rewrite Em. apply in_elt.
Qed.
Print Assumptions c85_returns.

(** A call that returns adds the arcs it names and nothing else; the inputs and outputs are
    then those of the graph if it connects layers, and otherwise stay as they were. *)
Theorem c85_adds : forall s c s', reached s -> connect c s = Done s' ->
  nodes s' = nodes s /\ losses s' = losses s /\
  (forall a b, In b (fgraph s' a) <-> In b (fgraph s a) \/ In (a, b) (run_arcs c)) /\
  (forall a b, In b (tgraph s' a) <-> In b (tgraph s a) \/ In (a, b) (train_arcs c)) /\
  (forall a b, In b (bgraph s' a) <-> In b (bgraph s a) \/ In (a, b) (back_arcs c)) /\
  (if layer_call c then roles_ok s' else inputs s' = inputs s /\ outputs s' = outputs s).
Proof.
  intros s c s' Hr E. pose proof (reached_cwf s Hr) as W.
  destruct (connect_ok c s W) as [(_ & s1 & E1 & W1 & X & R)|(pre & a & b & post & s1 & _ & _ & _ & E1 & _)]; [|congruence].
  rewrite E in E1. injection E1 as <-. destruct X as [N L HF HT HB].
  repeat (split; [assumption|]). destruct (layer_call c); [now apply roles_current_ok|exact R].
Qed.
Print Assumptions c85_adds.

(** The same graph, whatever calls built it. *)
Record same_graph (s s' : dlgraph) : Prop := {
  sg_nodes : nodes s = nodes s';
  sg_f : forall a, fgraph s a = fgraph s' a;
  sg_t : forall a, tgraph s a = tgraph s' a;
  sg_b : forall a, bgraph s a = bgraph s' a;
  sg_losses : losses s = losses s';
  sg_inputs : inputs s = inputs s';
  sg_outputs : outputs s = outputs s' }.

Lemma connects_ok cs : forall s s', cwf s -> connects cs s = Done s' ->
  cwf s' /\ extends (flat_map run_arcs cs) (flat_map train_arcs cs) (flat_map back_arcs cs) s s' /\
  (if existsb layer_call cs then roles_current s' else same_roles s s') /\ (roles_current s -> roles_current s').
Proof.
  induction cs as [|c cs IH]; intros s s' W E.
  - injection E as <-. split; [exact W|]. split; [apply extends_refl|]. split; [split; reflexivity|auto].
  - cbn [connects] in E. destruct (connect_ok c s W) as [(_ & s1 & E1 & W1 & X1 & R1)|(pre & a & b & post & s1 & _ & _ & _ & E1 & _)];
      rewrite E1 in E; cbn [next] in E; [|discriminate].
    destruct (IH s1 s' W1 E) as (W2 & X2 & R2 & C2). split; [exact W2|].
    split; [exact (extends_trans _ _ _ _ _ _ _ _ _ X1 X2)|]. cbn [existsb].
    assert (C1 : roles_current s -> roles_current s1).
    { intros (Ci & Co). destruct (layer_call c) eqn:Lc; [exact R1|]. destruct R1 as (Ri & Ro).
      assert (Er : run_arcs c = []) by (destruct c; try discriminate Lc; reflexivity).
      destruct (roles_ext s1 s) as (E3 & E4).
      - exact (ext_nodes _ _ _ _ _ X1).
      - exact (ext_losses _ _ _ _ _ X1).
      - intros a. apply ssorted_same; [apply W1|apply W|]. intros b. rewrite (ext_f _ _ _ _ _ X1 a b), Er. cbn; tauto.
      - split; congruence. }
    split; [|auto]. destruct (layer_call c); cbn [orb].
    + destruct (existsb layer_call cs) eqn:Le; [exact R2|auto].
    + destruct (existsb layer_call cs); [exact R2|]. destruct R1, R2. split; congruence.
Qed.

Lemma same_result s s1 s2 F T B F' T' B' : cwf s -> cwf s1 -> cwf s2 ->
  extends F T B s s1 -> extends F' T' B' s s2 ->
  (forall x, In x F <-> In x F') -> (forall x, In x T <-> In x T') -> (forall x, In x B <-> In x B') ->
  roles_current s1 -> roles_current s2 -> same_graph s1 s2.
Proof.
  intros W W1 W2 [N1 L1 F1 T1 B1] [N2 L2 F2 T2 B2] HF HT HB (Ci & Co) (Ci' & Co').
  assert (EF : forall a, fgraph s1 a = fgraph s2 a).
  { intros a. apply ssorted_same; [apply W1|apply W2|]. intros b. rewrite F1, F2, HF. reflexivity. }
  destruct (roles_ext s1 s2) as (Ei & Eo); [congruence|congruence|exact EF|].
  split; [congruence|exact EF| | |congruence|congruence|congruence].
  - intros a. apply ssorted_same; [apply W1|apply W2|]. intros b. rewrite T1, T2, HT. reflexivity.
  - intros a. apply ssorted_same; [apply W1|apply W2|]. intros b. rewrite B1, B2, HB. reflexivity.
Qed.

(** The order, the grouping and the repetition of connecting calls do not matter: two sequences
    of calls that return and name the same arcs give the same graph. *)
Theorem c85_any_grouping : forall s cs cs' s1 s2, reached s ->
  connects cs s = Done s1 -> connects cs' s = Done s2 ->
  (forall x, In x (flat_map run_arcs cs) <-> In x (flat_map run_arcs cs')) ->
  (forall x, In x (flat_map train_arcs cs) <-> In x (flat_map train_arcs cs')) ->
  (forall x, In x (flat_map back_arcs cs) <-> In x (flat_map back_arcs cs')) ->
  existsb layer_call cs = true -> existsb layer_call cs' = true -> same_graph s1 s2.
Proof.
  intros s cs cs' s1 s2 Hr E1 E2 HF HT HB L1 L2. pose proof (reached_cwf s Hr) as W.
  destruct (connects_ok cs s s1 W E1) as (W1 & X1 & R1 & _), (connects_ok cs' s s2 W E2) as (W2 & X2 & R2 & _).
  rewrite L1 in R1. rewrite L2 in R2. exact (same_result s s1 s2 _ _ _ _ _ _ W W1 W2 X1 X2 HF HT HB R1 R2).
Qed.
Print Assumptions c85_any_grouping.

(** What a call that throws leaves behind: the arcs it met before the first unknown layer, in
    the graphs for running and training only; nothing for the gradients, and the inputs and
    outputs of before. A call for the gradients leaves those arcs in the graph for gradients. *)
Theorem c85_thrown : forall s c s', reached s -> connect c s = Thrown s' ->
  exists pre a b post, met c = pre ++ (a, b) :: post /\
    (forall x y, In (x, y) pre -> x < nodes s /\ y < nodes s) /\ ~ (a < nodes s /\ b < nodes s) /\
    nodes s' = nodes s /\ losses s' = losses s /\ inputs s' = inputs s /\ outputs s' = outputs s /\
    (forall x y, In y (fgraph s' x) <-> In y (fgraph s x) \/ layer_call c = true /\ In (x, y) pre) /\
    (forall x y, In y (tgraph s' x) <-> In y (tgraph s x) \/ back_call c = false /\ In (x, y) pre) /\
    (forall x y, In y (bgraph s' x) <-> In y (bgraph s x) \/ back_call c = true /\ In (x, y) pre).
Proof.
  intros s c s' Hr E. pose proof (reached_cwf s Hr) as W.
  destruct (connect_ok c s W) as [(_ & s1 & E1 & _)|(pre & a & b & post & s1 & Em & K & U & E1 & W1 & (Ri & Ro) & [N L HF HT HB])]; [congruence|].
  rewrite E in E1. injection E1 as <-. exists pre, a, b, post. repeat (split; [assumption|]).
  split; [|split]; intros x y.
  - rewrite HF. destruct (layer_call c); cbn [sel In]; intuition congruence.
  - rewrite HT. destruct (back_call c); cbn [sel negb In]; intuition congruence.
  - rewrite HB. destruct (back_call c); cbn [sel In]; intuition congruence.
Qed.
Print Assumptions c85_thrown.

(** A call with one layer on each side, or whose single layer is the unknown one, changes
    nothing when it throws. *)
Theorem c85_single_atomic : forall s c s', reached s -> connect c s = Thrown s' ->
  (match c with
   | EdgeTo l x | EdgeToLoss l x | EdgeFrom x l | ForwardTo l x | ForwardToLoss l x | ForwardFrom x l
   | BackwardTo l x | BackwardFrom x l => length l = 1 \/ nodes s <= x end) ->
  same_graph s s'.
Proof.
  intros s c s' Hr E Hc. pose proof (reached_cwf s Hr) as W.
  destruct (connect_ok c s W) as [(_ & s1 & E1 & _)|(pre & a & b & post & s1 & Em & K & U & E1 & W1 & (Ri & Ro) & [N L HF HT HB])]; [congruence|].
  rewrite E in E1. injection E1 as <-.
  assert (Hp : pre = []).
  { destruct pre as [|[u v] pre]; [reflexivity|]. exfalso.
    assert (Hone : forall (f : nat -> nat * nat) l, map f l = ((u, v) :: pre) ++ (a, b) :: post -> length l <> 1).
    { intros f l El Hl. apply (f_equal (@length _)) in El. rewrite map_length, app_length in El. cbn in El. lia. }
    assert (Hk : u < nodes s /\ v < nodes s) by (apply K; now left).
    assert (Hin : forall (f : nat -> nat * nat) l, map f l = ((u, v) :: pre) ++ (a, b) :: post -> exists x, f x = (u, v)).
    { intros f l El. destruct l as [|x l]; [discriminate|]. cbn [map app] in El. injection El as El _. now exists x. }
    destruct c as [l x|l x|x l|l x|l x|x l|l x|x l];
      cbn [met back_call train_arcs run_arcs back_arcs] in Em; unfold into, out_of in Em;
      (destruct Hc as [Hc|Hc]; [exact (Hone _ _ Em Hc)|]);
      destruct (Hin _ _ Em) as (y & Hy); apply pair_equal_spec in Hy; lia. }
  subst pre.
  assert (nil : forall w, sel w [] = []) by (intros []; reflexivity). rewrite !nil in *.
  split; try congruence; intros x; apply ssorted_same; try apply W; try apply W1; intros y.
  - rewrite HF. cbn; tauto.
  - rewrite HT. cbn; tauto.
  - rewrite HB. cbn; tauto.
Qed.
Print Assumptions c85_single_atomic.

(** Repairing a failed call: the call again, with the unknown layers left out, gives the graph
    that it would have given at once. *)
Definition keep_known (s : dlgraph) (l : list nat) : list nat := filter (fun x => x <? nodes s) l.
Theorem c85_retry : forall s froms to s', reached s -> to < nodes s ->
  connect (EdgeTo froms to) s = Thrown s' ->
  exists s1 s2, connect (EdgeTo (keep_known s froms) to) s' = Done s1 /\
    connect (EdgeTo (keep_known s froms) to) s = Done s2 /\ same_graph s1 s2.
Proof.
  intros s froms to s' Hr Ht E. pose proof (reached_cwf s Hr) as W.
  destruct (connect_ok (EdgeTo froms to) s W) as [(_ & s1 & E1 & _)|(pre & a & b & post & s1 & Em & K & U & E1 & W1 & R & X)]; [congruence|].
  rewrite E in E1. injection E1 as <-. cbn [met back_call train_arcs run_arcs] in Em.
  cbn [layer_call back_call negb sel] in X.
  set (c := EdgeTo (keep_known s froms) to).
  assert (Kc : forall s0, nodes s0 = nodes s -> cwf s0 -> exists s2, connect c s0 = Done s2 /\ cwf s2 /\
    extends (run_arcs c) (train_arcs c) (back_arcs c) s0 s2 /\ roles_current s2).
  { intros s0 N0 W0. destruct (connect_ok c s0 W0) as [(_ & s2 & Z)|(pre' & a' & b' & post' & s2 & Em' & _ & U' & _)]; [now exists s2|].
    exfalso. apply U'. assert (Hin : In (a', b') (into (keep_known s froms) to)) by (cbn in Em'; rewrite Em'; apply in_elt).
    apply in_map_iff in Hin. destruct Hin as (x & Ex & Hx). apply pair_equal_spec in Ex. destruct Ex as (<- & <-).
    apply filter_In in Hx. destruct Hx as (_ & Hx). apply Nat.ltb_lt in Hx. lia. }
  destruct (Kc s' (ext_nodes _ _ _ _ _ X) W1) as (s1 & E1 & W1' & X1 & R1).
  destruct (Kc s eq_refl W) as (s2 & E2 & W2 & X2 & R2).
  exists s1, s2. split; [exact E1|]. split; [exact E2|].
  assert (Hpre : forall x, In x pre -> In x (into (keep_known s froms) to)).
  { intros (x, y) Hx. assert (Hin : In (x, y) (into froms to)) by (rewrite Em; apply in_or_app; auto).
    apply in_map_iff in Hin. destruct Hin as (z & Ez & Hz). apply pair_equal_spec in Ez. destruct Ez as (<- & <-).
    apply in_map_iff. exists z. split; [reflexivity|]. apply filter_In. split; [exact Hz|].
    apply Nat.ltb_lt. exact (proj1 (K _ _ Hx)). }
  pose proof (extends_trans _ _ _ _ _ _ _ _ _ X X1) as X'.
  refine (same_result s s1 s2 _ _ _ _ _ _ W W1' W2 X' X2 _ _ _ R1 R2); cbn [run_arcs train_arcs back_arcs c]; intros x.
  - rewrite in_app_iff. split; [intros [H|H]; auto|auto].
  - rewrite in_app_iff. split; [intros [H|H]; auto|auto].
  - cbn [app]. reflexivity.
Qed.
Print Assumptions c85_retry.

(** *** What is not so *)
Definition three_layers : dlgraph := cbuild [CLayer; CLayer; CLayer].

(** "A call that throws changes nothing": layers 0 and 1 stay connected for running and
    training, without an arc for the gradients and without being an input or output. *)
Theorem c85_atomic_refuted : exists s c s', reached s /\ connect c s = Thrown s' /\
  fgraph s 0 = [] /\ fgraph s' 0 = [1] /\ tgraph s' 0 = [1] /\ bgraph s' 1 = [] /\
  inputs s' = [] /\ outputs s' = [].
Proof.
  exists three_layers, (EdgeTo [0; 7; 2] 1). eexists.
  split; [eexists; reflexivity|]. split; [vm_compute; reflexivity|]. vm_compute. auto 10.
Qed.
Print Assumptions c85_atomic_refuted.

(** After the exception is caught the program connects 1 to 2: predictions run through layer 0,
    gradients do not reach it. *)
Theorem c85_untrained_refuted : exists s, reached s /\
  inputs s = [0] /\ outputs s = [2] /\
  schedule 5 (fgraph s) (inputs s) = Some [(0, 1); (1, 2)] /\
  schedule 5 (bgraph s) (outputs s) = Some [(2, 1)].
Proof.
  exists (cbuild [CLayer; CLayer; CLayer; CConnect (EdgeTo [0; 7] 1); CConnect (EdgeTo [1] 2)]).
  split; [eexists; reflexivity|]. vm_compute. auto 10.
Qed.
Print Assumptions c85_untrained_refuted.

(** *** The hypotheses can be met *)
Example c85_returns_met : reached three_layers /\
  exists s', connect (EdgeTo [0; 1] 2) three_layers = Done s' /\ inputs s' = [0; 1] /\ outputs s' = [2] /\
    fgraph s' 0 = [2] /\ fgraph s' 1 = [2] /\ bgraph s' 2 = [0; 1].
Proof. split; [eexists; reflexivity|]. eexists. split; [vm_compute; reflexivity|]. vm_compute. auto 10. Qed.
Example c85_any_grouping_met :
  let cs := [EdgeTo [0; 1] 2] in
  let cs' := [ForwardFrom 1 [2]; BackwardTo [2; 2] 1; EdgeFrom 0 [2]; EdgeTo [0] 2] in
  (exists s1, connects cs three_layers = Done s1) /\ (exists s2, connects cs' three_layers = Done s2) /\
  (forall x, In x (flat_map run_arcs cs) <-> In x (flat_map run_arcs cs')) /\
  (forall x, In x (flat_map train_arcs cs) <-> In x (flat_map train_arcs cs')) /\
  (forall x, In x (flat_map back_arcs cs) <-> In x (flat_map back_arcs cs')) /\
  existsb layer_call cs = true /\ existsb layer_call cs' = true.
Proof.
  cbv zeta. split; [eexists; vm_compute; reflexivity|]. split; [eexists; vm_compute; reflexivity|].
  split; [|split; [|split; [|split; reflexivity]]]; intros x; cbn; tauto.
Qed.
Example c85_thrown_met : exists s', connect (EdgeTo [0; 7; 2] 1) three_layers = Thrown s'.
Proof. eexists. vm_compute. reflexivity. Qed.
Example c85_single_atomic_met :
  (exists s', connect (EdgeTo [7] 1) three_layers = Thrown s') /\ exists s', connect (EdgeTo [0; 2] 7) three_layers = Thrown s'.
Proof. split; eexists; vm_compute; reflexivity. Qed.
Example c85_retry_met : 1 < nodes three_layers /\ keep_known three_layers [0; 7; 2] = [0; 2].
Proof. split; [cbn; lia|reflexivity]. Qed.

(** *** C37: the inputs and outputs after any sequence of calls of Model *)
Lemma gstep_roles s o s' : gstep s o = Ok s' -> adds_edge o = false ->
  inputs s' = inputs s /\ outputs s' = outputs s /\ fgraph s' = fgraph s.
Proof.
  assert (B : forall s a b s', add_backward s a b = Ok s' -> inputs s' = inputs s /\ outputs s' = outputs s /\ fgraph s' = fgraph s).
  { clear. intros s a b s' E. unfold add_backward in E.
    destruct (add_arc (nodes s) (bgraph s) a b) as [t| |]; try discriminate. injection E as <-. auto. }
  assert (L : forall s a b s', add_forward_loss s a b = Ok s' -> inputs s' = inputs s /\ outputs s' = outputs s /\ fgraph s' = fgraph s).
  { clear. intros s a b s' E. unfold add_forward_loss in E.
    destruct (add_arc (nodes s) (tgraph s) a b) as [t| |]; try discriminate. injection E as <-. auto. }
  intros E Ho. destruct o; try discriminate Ho; cbn [gstep] in E.
  - injection E as <-. auto.
  - injection E as <-. auto.
  - unfold create_loss_edge in E. destruct (add_backward s b a) as [s1| |] eqn:E1; try discriminate. cbn [bind] in E.
    apply B in E1. apply L in E. destruct E1 as (-> & -> & ->) in E |- *. exact E.
  - now apply L in E.
  - now apply B in E.
Qed.

Lemma gsteps_roles os : forall s s', foldM gstep os s = Ok s' -> forallb (fun o => negb (adds_edge o)) os = true ->
  inputs s' = inputs s /\ outputs s' = outputs s /\ fgraph s' = fgraph s.
Proof.
  induction os as [|o os IH]; intros s s' E Ho.
  - injection E as <-. auto.
  - cbn [foldM forallb] in *. apply andb_prop in Ho. destruct Ho as (Ho & Hos). apply negb_true_iff in Ho.
    destruct (gstep s o) as [s1| |] eqn:E1; try discriminate. cbn [bind] in E.
    apply gstep_roles in E1; [|exact Ho]. destruct (IH s1 s' E Hos) as (-> & -> & ->). exact E1.
Qed.

(** They are those of the graph at the last call that connected two layers: layers added later
    are missing from them. Without such a call there are none. *)
Theorem c37_roles_actual : forall os s, gbuild os = Ok s ->
  (forallb (fun o => negb (adds_edge o)) os = true -> inputs s = [] /\ outputs s = []) /\
  (forall pre o post, os = pre ++ o :: post -> adds_edge o = true ->
     forallb (fun o => negb (adds_edge o)) post = true ->
     exists s0, gbuild (pre ++ [o]) = Ok s0 /\
       (forall i, In i (inputs s) <-> i < nodes s0 /\ ~ In i (losses s0) /\ forall a, ~ In i (fgraph s a)) /\
       (forall i, In i (outputs s) <-> i < nodes s0 /\ ~ In i (losses s0) /\ fgraph s i = [])).
Proof.
  intros os s E. split.
  - intros Ho. apply gsteps_roles in E; [|exact Ho]. destruct E as (-> & -> & _). split; reflexivity.
  - intros pre o post -> Ho Hp. unfold gbuild in E.
    replace (pre ++ o :: post) with ((pre ++ [o]) ++ post) in E by (rewrite <- app_assoc; reflexivity).
    rewrite foldM_app in E. destruct (foldM gstep (pre ++ [o]) graph_new) as [s0| |] eqn:E0; try discriminate. cbn [bind] in E.
    exists s0. split; [exact E0|].
    destruct (c37_roles_partial pre o [] s0 E0 Ho eq_refl) as (RI & RO).
    apply gsteps_roles in E; [|exact Hp]. destruct E as (-> & -> & ->). split; assumption.
Qed.
Print Assumptions c37_roles_actual.

(** Layer 3 is added after the last connection. *)
Example c37_roles_actual_met :
  let pre := [GLayer; GLayer; GLayer; GEdge 0 1] in let o := GEdge 1 2 in let post := [GLayer; GLoss; GLossEdge 2 4] in
  adds_edge o = true /\ forallb (fun o => negb (adds_edge o)) post = true /\
  exists s, gbuild (pre ++ o :: post) = Ok s /\ inputs s = [0] /\ outputs s = [2] /\ nodes s = 5.
Proof.
  cbv zeta. split; [reflexivity|]. split; [reflexivity|].
  apply built. vm_compute. auto.
Qed.
