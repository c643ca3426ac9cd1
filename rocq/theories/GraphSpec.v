(** Graph notions used to state the schedule properties. *)
From Verif Require Import Base.

(** [walk g start k x]: a path of [k] arcs leads from a starting node to [x]. *)
Inductive walk (g : nat -> list nat) (start : list nat) : nat -> nat -> Prop :=
| walk_0 : forall x, In x start -> walk g start 0 x
| walk_S : forall k a b, walk g start k a -> In b (g a) -> walk g start (S k) b.

Definition reachable g start x := exists k, walk g start k x.

(** Shortest distance from the starting nodes. *)
Definition dist g start x k := walk g start k x /\ forall j, walk g start j x -> k <= j.

(** A finite graph on the nodes below [n], successor sets without repetition. *)
Definition finite_graph (n : nat) (g : nat -> list nat) : Prop :=
  forall a, NoDup (g a) /\ forall b, In b (g a) -> a < n /\ b < n.

Definition acyclic (g : nat -> list nat) : Prop :=
  exists rank : nat -> nat, forall a b, In b (g a) -> rank a < rank b.

(** Every arc into [v] of the schedule comes before every arc out of [v]. *)
Definition respects_dependencies (arcs : list (nat * nat)) : Prop :=
  forall l1 v w l2 u, arcs = l1 ++ (v, w) :: l2 -> In (u, v) arcs -> In (u, v) l1.
