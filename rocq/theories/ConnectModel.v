(** Connecting several layers in one call, and what a call that throws leaves behind
    (/repo/source/dnn/dlgraph.cpp 93-188). *)
From Verif Require Import Base GraphModel.

(** The graph after a call that returns or throws. *)
Inductive outcome := Done (s : dlgraph) | Thrown (s : dlgraph).
Definition after (o : outcome) : dlgraph := match o with Done s | Thrown s => s end.
Definition next (o : outcome) (k : dlgraph -> outcome) : outcome :=
  match o with Done s => k s | Thrown s => Thrown s end.

(** Graph::add_arc on one of the three graphs, dlgraph.hpp 66-77: throws before it changes
    anything. Layers are indices as in GraphModel.v; an index that is not below the number of
    nodes stands for a layer the graph does not have. *)
Definition known (s : dlgraph) (a b : nat) : bool := (a <? nodes s) && (b <? nodes s).
Definition with_arc (g : edges) (a b : nat) : edges := fun i => if i =? a then sinsert b (g a) else g i.
Definition arc_f (s : dlgraph) (a b : nat) : outcome :=
  if known s a b then Done (mkGraph (nodes s) (with_arc (fgraph s) a b) (tgraph s) (bgraph s) (losses s) (inputs s) (outputs s)) else Thrown s.
Definition arc_t (s : dlgraph) (a b : nat) : outcome :=
  if known s a b then Done (mkGraph (nodes s) (fgraph s) (with_arc (tgraph s) a b) (bgraph s) (losses s) (inputs s) (outputs s)) else Thrown s.
Definition arc_b (s : dlgraph) (a b : nat) : outcome :=
  if known s a b then Done (mkGraph (nodes s) (fgraph s) (tgraph s) (with_arc (bgraph s) a b) (losses s) (inputs s) (outputs s)) else Thrown s.

(** for (const auto& x: xs) body *)
Fixpoint each (body : dlgraph -> nat -> outcome) (xs : list nat) (s : dlgraph) : outcome :=
  match xs with [] => Done s | x :: xs => next (body s x) (each body xs) end.

(** add_arc_forward(vector, Layer), 132-142 *)
Definition forward_to (froms : list nat) (to : nat) (s : dlgraph) : outcome :=
  next (each (fun s from => next (arc_f s from to) (fun s => arc_t s from to)) froms s) (fun s => Done (compute_roles s)).
(** add_arc_forward(vector, LossLayer), 144-151 *)
Definition forward_to_loss (froms : list nat) (to : nat) (s : dlgraph) : outcome :=
  each (fun s from => arc_t s from to) froms s.
(** add_arc_backward(vector, Layer), 153-160 *)
Definition backward_to (froms : list nat) (to : nat) (s : dlgraph) : outcome :=
  each (fun s from => arc_b s from to) froms s.
(** add_arc_forward(Layer, vector), 169-179 *)
Definition forward_from (from : nat) (tos : list nat) (s : dlgraph) : outcome :=
  next (each (fun s to => next (arc_f s from to) (fun s => arc_t s from to)) tos s) (fun s => Done (compute_roles s)).
(** add_arc_backward(Layer, vector), 181-188 *)
Definition backward_from (from : nat) (tos : list nat) (s : dlgraph) : outcome :=
  each (fun s to => arc_b s from to) tos s.

(** The calls. The versions with one layer, 93-116, pass a vector of one layer. *)
Inductive ccall :=
| EdgeTo (froms : list nat) (to : nat)        (* add_edge(vector, Layer), 118-123 *)
| EdgeToLoss (froms : list nat) (to : nat)    (* add_edge(vector, LossLayer), 125-130 *)
| EdgeFrom (from : nat) (tos : list nat)      (* add_edge(Layer, vector), 162-167 *)
| ForwardTo (froms : list nat) (to : nat)
| ForwardToLoss (froms : list nat) (to : nat)
| ForwardFrom (from : nat) (tos : list nat)
| BackwardTo (froms : list nat) (to : nat)
| BackwardFrom (from : nat) (tos : list nat).
Definition connect (c : ccall) (s : dlgraph) : outcome :=
  match c with
  | EdgeTo froms to => next (forward_to froms to s) (backward_from to froms)
  | EdgeToLoss froms to => next (forward_to_loss froms to s) (backward_from to froms)
  | EdgeFrom from tos => next (forward_from from tos s) (backward_to tos from)
  | ForwardTo froms to => forward_to froms to s
  | ForwardToLoss froms to => forward_to_loss froms to s
  | ForwardFrom from tos => forward_from from tos s
  | BackwardTo froms to => backward_to froms to s
  | BackwardFrom from tos => backward_from from tos s
  end.
(** Several calls, given up at the first that throws. *)
Fixpoint connects (cs : list ccall) (s : dlgraph) : outcome :=
  match cs with [] => Done s | c :: cs => next (connect c s) (connects cs) end.

(** add_loss, 190-194, with a loss layer that is a node already: add_node (82-91) returns
    without adding it, the index of the last node is stored all the same. *)
Definition add_loss_again (s : dlgraph) : dlgraph :=
  mkGraph (nodes s) (fgraph s) (tgraph s) (bgraph s) (losses s ++ [nodes s - 1]) (inputs s) (outputs s).

(** A program that builds a graph and catches the exceptions of the connecting calls. *)
Inductive cop := CLayer | CLoss | CLossAgain | CConnect (c : ccall).
Definition cstep (s : dlgraph) (o : cop) : dlgraph :=
  match o with
  | CLayer => add_node s
  | CLoss => add_loss s
  | CLossAgain => add_loss_again s
  | CConnect c => after (connect c s)
  end.
Definition cbuild (os : list cop) : dlgraph := fold_left cstep os graph_new.
