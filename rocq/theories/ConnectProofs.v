(** Proofs about connecting calls: what they add to the graph. *)
From Verif Require Import Base GraphModel GraphProofs ConnectModel.
Local Open Scope nat_scope.

Definition cwf (s : dlgraph) : Prop :=
  gwf (nodes s) (fgraph s) /\ gwf (nodes s) (tgraph s) /\ gwf (nodes s) (bgraph s).

(** [s'] has the arcs of [s] and those of the three lists. *)
Record extends (F T B : list (nat * nat)) (s s' : dlgraph) : Prop := {
  ext_nodes : nodes s' = nodes s;
  ext_losses : losses s' = losses s;
  ext_f : forall a b, In b (fgraph s' a) <-> In b (fgraph s a) \/ In (a, b) F;
  ext_t : forall a b, In b (tgraph s' a) <-> In b (tgraph s a) \/ In (a, b) T;
  ext_b : forall a b, In b (bgraph s' a) <-> In b (bgraph s a) \/ In (a, b) B }.

Definition same_roles (s s' : dlgraph) : Prop := inputs s' = inputs s /\ outputs s' = outputs s.

Lemma extends_refl s : extends [] [] [] s s.
Proof. split; try reflexivity; intros a b; cbn; tauto. Qed.

Lemma extends_trans F T B F' T' B' s s1 s2 :
  extends F T B s s1 -> extends F' T' B' s1 s2 -> extends (F ++ F') (T ++ T') (B ++ B') s s2.
Proof.
  intros [N L EF ET EB] [N' L' EF' ET' EB']. split; try congruence; intros a b.
  - rewrite EF', EF, in_app_iff. tauto.
  - rewrite ET', ET, in_app_iff. tauto.
  - rewrite EB', EB, in_app_iff. tauto.
Qed.

Lemma extends_roles F T B s s' : extends F T B s s' -> extends F T B s (compute_roles s').
Proof. intros [N L EF ET EB]. split; assumption. Qed.

Lemma cwf_roles s : cwf s -> cwf (compute_roles s).
Proof. exact (fun H => H). Qed.

Lemma known_iff s a b : known s a b = true <-> a < nodes s /\ b < nodes s.
Proof. unfold known. rewrite andb_true_iff, !Nat.ltb_lt. reflexivity. Qed.

Lemma known_false s a b : known s a b = false <-> ~ (a < nodes s /\ b < nodes s).
Proof. rewrite <- known_iff. destruct (known s a b); split; congruence. Qed.

Lemma known_same s s' a b : nodes s' = nodes s -> known s' a b = known s a b.
Proof. intros E. unfold known. now rewrite E. Qed.

Lemma with_arc_ok s g a b : gwf (nodes s) g -> known s a b = true ->
  gwf (nodes s) (with_arc g a b) /\ forall i x, In x (with_arc g a b i) <-> In x (g i) \/ In (i, x) [(a, b)].
Proof.
  intros W K.
  assert (E : add_arc (nodes s) g a b = Ok (with_arc g a b)).
  { unfold add_arc. unfold known in K. now rewrite K. }
  apply (add_arc_ok _ _ _ _ _ W) in E. destruct E as (_ & _ & W' & I). split; [exact W'|].
  intros i x. rewrite I. cbn [In]. split.
  - intros [H|(-> & ->)]; auto.
  - intros [H|[H|[]]]; [auto|]. apply pair_equal_spec in H. destruct H as (-> & ->). auto.
Qed.

(** One step of a loop: adds an arc to some of the graphs, or throws and adds none. *)
Definition step_ok (wf wt wb : bool) (A : nat -> nat * nat) (body : dlgraph -> nat -> outcome) : Prop :=
  forall s x, cwf s ->
    if known s (fst (A x)) (snd (A x))
    then exists s', body s x = Done s' /\ cwf s' /\ same_roles s s' /\
           extends (if wf then [A x] else []) (if wt then [A x] else []) (if wb then [A x] else []) s s'
    else body s x = Thrown s.

Lemma step_ft (A : nat -> nat * nat) :
  step_ok true true false A (fun s x => next (arc_f s (fst (A x)) (snd (A x))) (fun s => arc_t s (fst (A x)) (snd (A x)))).
Proof.
  intros s x (WF & WT & WB). unfold arc_f. destruct (A x) as [a b]. cbn [fst snd].
  destruct (known s a b) eqn:K; [|reflexivity].
  cbn [next]. unfold arc_t.
  rewrite (known_same s) by reflexivity. rewrite K. eexists. split; [reflexivity|].
  destruct (with_arc_ok s _ a b WF K) as (WF' & IF), (with_arc_ok s _ a b WT K) as (WT' & IT).
  split; [split; [exact WF'|split; [exact WT'|exact WB]]|].
  split; [split; reflexivity|]. split; try reflexivity; cbn [fgraph tgraph bgraph].
  - exact IF.
  - exact IT.
  - intros i y. cbn; tauto.
Qed.

Lemma step_t (A : nat -> nat * nat) :
  step_ok false true false A (fun s x => arc_t s (fst (A x)) (snd (A x))).
Proof.
  intros s x (WF & WT & WB). unfold arc_t. destruct (A x) as [a b]. cbn [fst snd].
  destruct (known s a b) eqn:K; [|reflexivity].
  eexists. split; [reflexivity|].
  destruct (with_arc_ok s _ a b WT K) as (WT' & IT).
  split; [split; [exact WF|split; [exact WT'|exact WB]]|].
  split; [split; reflexivity|]. split; try reflexivity; cbn [fgraph tgraph bgraph].
  - intros i y. cbn; tauto.
  - exact IT.
  - intros i y. cbn; tauto.
Qed.

Lemma step_b (A : nat -> nat * nat) :
  step_ok false false true A (fun s x => arc_b s (fst (A x)) (snd (A x))).
Proof.
  intros s x (WF & WT & WB). unfold arc_b. destruct (A x) as [a b]. cbn [fst snd].
  destruct (known s a b) eqn:K; [|reflexivity].
  eexists. split; [reflexivity|].
  destruct (with_arc_ok s _ a b WB K) as (WB' & IB).
  split; [split; [exact WF|split; [exact WT|exact WB']]|].
  split; [split; reflexivity|]. split; try reflexivity; cbn [fgraph tgraph bgraph].
  - intros i y. cbn; tauto.
  - intros i y. cbn; tauto.
  - exact IB.
Qed.

Definition arcs_known (s : dlgraph) (l : list (nat * nat)) : Prop :=
  forall a b, In (a, b) l -> a < nodes s /\ b < nodes s.

Definition sel (w : bool) (l : list (nat * nat)) := if w then l else [].

(** A loop adds all its arcs or stops before the first one with an unknown layer. *)
Lemma each_ok wf wt wb A body xs : step_ok wf wt wb A body -> forall s, cwf s ->
  (arcs_known s (map A xs) /\ exists s', each body xs s = Done s' /\ cwf s' /\ same_roles s s' /\
     extends (sel wf (map A xs)) (sel wt (map A xs)) (sel wb (map A xs)) s s') \/
  (exists pre x post s', xs = pre ++ x :: post /\ arcs_known s (map A pre) /\
     ~ (fst (A x) < nodes s /\ snd (A x) < nodes s) /\ each body xs s = Thrown s' /\ cwf s' /\ same_roles s s' /\
     extends (sel wf (map A pre)) (sel wt (map A pre)) (sel wb (map A pre)) s s').
Proof.
  intros Hb. induction xs as [|x xs IH]; intros s W.
  - left. split; [intros a b []|]. exists s. split; [reflexivity|]. split; [exact W|].
    split; [split; reflexivity|]. destruct wf, wt, wb; apply extends_refl.
  - specialize (Hb s x W). destruct (known s (fst (A x)) (snd (A x))) eqn:K.
    + destruct Hb as (s1 & E1 & W1 & (RI & RO) & X1). cbn [each]. rewrite E1. cbn [next].
      pose proof (ext_nodes _ _ _ _ _ X1) as N1. apply known_iff in K.
      assert (HK : forall l, arcs_known s1 (map A l) -> arcs_known s (map A (x :: l))).
      { intros l Hl a b [H|H].
        - destruct (A x). injection H as <- <-. exact K.
        - rewrite <- N1. now apply Hl. }
      destruct (IH s1 W1) as [(Ka & s2 & E2 & W2 & (RI2 & RO2) & X2)|(pre & y & post & s2 & Exs & Ka & Ku & E2 & W2 & (RI2 & RO2) & X2)].
      * left. split; [now apply HK|]. exists s2. split; [exact E2|]. split; [exact W2|].
        split; [split; congruence|]. pose proof (extends_trans _ _ _ _ _ _ _ _ _ X1 X2) as X.
        destruct wf, wt, wb; exact X.
      * right. exists (x :: pre), y, post, s2. split; [now rewrite Exs|]. split; [now apply HK|].
        rewrite <- N1. split; [exact Ku|]. split; [exact E2|]. split; [exact W2|].
        split; [split; congruence|]. pose proof (extends_trans _ _ _ _ _ _ _ _ _ X1 X2) as X.
        destruct wf, wt, wb; exact X.
    + right. exists [], x, xs, s. split; [reflexivity|]. split; [intros a b []|].
      split; [now apply known_false|]. cbn [each]. rewrite Hb. split; [reflexivity|]. split; [exact W|].
      split; [split; reflexivity|]. destruct wf, wt, wb; apply extends_refl.
Qed.

(** Two sorted lists with the same elements are equal. *)
Lemma ssorted_same l : ssorted l -> forall l', ssorted l' -> (forall x, In x l <-> In x l') -> l = l'.
Proof.
  induction 1 as [|x l Hx Hl IH]; intros l' Hl' E.
  - destruct l' as [|y l']; [reflexivity|]. destruct (proj2 (E y)). now left.
  - destruct Hl' as [|y l' Hy Hl']; [destruct (proj1 (E x)); now left|].
    assert (x = y).
    { destruct (proj1 (E x) (or_introl eq_refl)) as [->|H1]; [reflexivity|].
      destruct (proj2 (E y) (or_introl eq_refl)) as [->|H2]; [reflexivity|].
      specialize (Hx _ H2). specialize (Hy _ H1). lia. }
    subst y. f_equal. apply IH; [exact Hl'|]. intros z. split; intros Hz.
    + destruct (proj1 (E z) (or_intror Hz)) as [->|H]; [|exact H]. specialize (Hx _ Hz). lia.
    + destruct (proj2 (E z) (or_intror Hz)) as [->|H]; [|exact H]. specialize (Hy _ Hz). lia.
Qed.

Lemma has_predecessors_ext n g g' i : (forall a, g a = g' a) -> has_predecessors n g i = has_predecessors n g' i.
Proof.
  intros E. unfold has_predecessors. generalize (seq 0 n). intros l.
  induction l as [|a l IH]; [reflexivity|]. cbn [existsb]. now rewrite E, IH.
Qed.

Lemma roles_ext s s' : nodes s = nodes s' -> losses s = losses s' -> (forall a, fgraph s a = fgraph s' a) ->
  inputs (compute_roles s) = inputs (compute_roles s') /\ outputs (compute_roles s) = outputs (compute_roles s').
Proof.
  intros N L E. unfold compute_roles. cbn [inputs outputs]. rewrite N, L. split; apply filter_ext; intros i.
  - now rewrite (has_predecessors_ext _ _ (fgraph s')).
  - unfold has_successors. now rewrite E.
Qed.
