(** Networks whose first layer feeds several chains of layers. *)
From Verif Require Import Base GraphModel GraphSpec.

(** [b] follows [a] in the list [p]. *)
Definition hop (p : list nat) (a b : nat) : Prop := exists l1 l2, p = l1 ++ a :: b :: l2.

(** The layer [root] is the only input; every head [(ids, loss)] is a chain of layers after it
    that ends in the node of its loss; the heads share nothing but [root]. *)
Record star (g : dlgraph) (root : nat) (hs : list (list nat * nat)) : Prop := {
  st_in : inputs g = [root];
  st_loss : losses g = map snd hs;
  st_nd : NoDup (root :: flat_map (fun h => fst h ++ [snd h]) hs);
  st_tfin : finite_graph (nodes g) (tgraph g);
  st_bfin : finite_graph (nodes g) (bgraph g);
  st_t : forall a b, In b (tgraph g a) <-> exists h, In h hs /\ hop (root :: fst h ++ [snd h]) a b;
  st_b : forall a b, In b (bgraph g a) <-> exists h, In h hs /\ hop (root :: fst h ++ [snd h]) b a
}.
