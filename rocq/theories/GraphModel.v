(** Layer graphs and their execution schedules (/repo/source/dnn/dlgraph.hpp, dlgraph.cpp). *)
From Verif Require Import Base.

(** _edges, dlgraph.hpp 142: a map from node index to std::set of successors. Here: the
    successor list of every index, ascending and without repetition; an absent key and an
    empty set are both the empty list, as in successors (dlgraph.hpp 84-87).
    Layers are shared pointers in the code; add_node (dlgraph.cpp 82-91) keeps them distinct,
    so an index stands for a pointer. *)
Definition edges := nat -> list nat.
Definition no_edges : edges := fun _ => [].

(** std::set::insert *)
Fixpoint sinsert (x : nat) (l : list nat) : list nat :=
  match l with
  | [] => [x]
  | y :: t => if x <? y then x :: l else if x =? y then l else y :: sinsert x t
  end.

(** Graph::add_arc, dlgraph.hpp 66-77. [n]: number of nodes. *)
Definition add_arc (n : nat) (g : edges) (a b : nat) : res edges :=
  _ <- guard ((a <? n) && (b <? n)) ;;
  Ok (fun i => if i =? a then sinsert b (g a) else g i).

Definition mem (x : nat) (l : list nat) : bool := existsb (Nat.eqb x) l.

(** has_successors 79-82, has_predecessors 89-100; keys are indices of nodes. *)
Definition has_successors (g : edges) (i : nat) : bool :=
  match g i with [] => false | _ => true end.
Definition has_predecessors (n : nat) (g : edges) (i : nat) : bool :=
  existsb (fun a => mem i (g a)) (seq 0 n).

(** adjacent_matrix, dlgraph.hpp 122-137 *)
Definition adjacent_matrix (n : nat) (g : edges) : res (list Z) :=
  for_ n (fun a m => foldM (fun m b => wr m (a * n + b) 1%Z) (g a) m) (repeat 0%Z (n * n)).

(** *** Schedules: training_forward_run, forward_run, backward_run (dlgraph.cpp 381-472) *)
Definition arc := (nat * nat)%type.

(** Body of the inner loop, 392-406. State: ret, done_list, layers_idx. *)
Definition visit (curr : list nat) (from : nat) (st : list arc * list nat * list nat) (to : nat)
  : list arc * list nat * list nat :=
  let '(ret, done, next) := st in
  let done := done ++ [from] in
  (ret ++ [(from, to)], done,
   if mem to curr || mem to done || mem to next then next else next ++ [to]).

(** 390-407 *)
Definition expand (g : edges) (curr : list nat) (st : list arc * list nat * list nat) (from : nat) :=
  fold_left (visit curr from) (g from) st.
Definition level (g : edges) (curr : list nat) (ret : list arc) (done : list nat) :=
  fold_left (expand g curr) curr (ret, done, []).

(** The while loop; [None]: not finished within [fuel] rounds. *)
Fixpoint run_loop (fuel : nat) (g : edges) (curr : list nat) (ret : list arc) (done : list nat)
  : option (list arc) :=
  match curr with
  | [] => Some ret
  | _ =>
      match fuel with
      | O => None
      | S f => let '(ret', done', next) := level g curr ret done in run_loop f g next ret' done'
      end
  end.
Definition schedule (fuel : nat) (g : edges) (start : list nat) : option (list arc) :=
  run_loop fuel g start [] [].

(** *** DLGraph, dlgraph.hpp 218-226 *)
Record dlgraph := mkGraph {
  nodes : nat;                       (* _layers.size() *)
  fgraph : edges;                    (* _forward_graph *)
  tgraph : edges;                    (* _training_forward_graph *)
  bgraph : edges;                    (* _backward_graph *)
  losses : list nat;                 (* _loss_layers_idx *)
  inputs : list nat;                 (* _input_layers_idx *)
  outputs : list nat                 (* _output_layers_idx *)
}.
Definition graph_new : dlgraph := mkGraph 0 no_edges no_edges no_edges [] [] [].

(** _compute_input_layers, _compute_output_layers, dlgraph.cpp 499-525 *)
Definition compute_roles (s : dlgraph) : dlgraph :=
  mkGraph (nodes s) (fgraph s) (tgraph s) (bgraph s) (losses s)
    (filter (fun i => negb (has_predecessors (nodes s) (fgraph s) i) && negb (mem i (losses s))) (seq 0 (nodes s)))
    (filter (fun i => negb (has_successors (fgraph s) i) && negb (mem i (losses s))) (seq 0 (nodes s))).

(** add_node with a new layer, 82-91 (Model::add_layer, model.hpp 150-158). *)
Definition add_node (s : dlgraph) : dlgraph :=
  mkGraph (S (nodes s)) (fgraph s) (tgraph s) (bgraph s) (losses s) (inputs s) (outputs s).
(** add_loss with a new layer, 190-194 (Model::add_loss, model.hpp 170-178). *)
Definition add_loss (s : dlgraph) : dlgraph :=
  let s := add_node s in
  mkGraph (nodes s) (fgraph s) (tgraph s) (bgraph s) (losses s ++ [nodes s - 1]) (inputs s) (outputs s).
(** add_arc_forward(Layer, Layer), 103-106 and 132-142 *)
Definition add_forward (s : dlgraph) (a b : nat) : res dlgraph :=
  f <- add_arc (nodes s) (fgraph s) a b ;;
  t <- add_arc (nodes s) (tgraph s) a b ;;
  Ok (compute_roles (mkGraph (nodes s) f t (bgraph s) (losses s) (inputs s) (outputs s))).
(** add_arc_forward(Layer, LossLayer), 108-111 and 144-151 *)
Definition add_forward_loss (s : dlgraph) (a b : nat) : res dlgraph :=
  t <- add_arc (nodes s) (tgraph s) a b ;;
  Ok (mkGraph (nodes s) (fgraph s) t (bgraph s) (losses s) (inputs s) (outputs s)).
(** add_arc_backward, 113-116 and 153-160 *)
Definition add_backward (s : dlgraph) (a b : nat) : res dlgraph :=
  t <- add_arc (nodes s) (bgraph s) a b ;;
  Ok (mkGraph (nodes s) (fgraph s) (tgraph s) t (losses s) (inputs s) (outputs s)).

(** Model::create_edge, create_loss_edge, model.cpp 67-102. *)
Definition create_edge (s : dlgraph) (src dst : nat) : res dlgraph :=
  s <- add_backward s dst src ;; add_forward s src dst.
Definition create_loss_edge (s : dlgraph) (src dst : nat) : res dlgraph :=
  s <- add_backward s dst src ;; add_forward_loss s src dst.

(** DLGraph(const DLGraph&) and operator=, dlgraph.cpp 40-80; layers are cloned. *)
Definition graph_copy (s : dlgraph) : dlgraph :=
  compute_roles (mkGraph (nodes s) (fgraph s) (tgraph s) (bgraph s) (losses s) [] []).

(** Model building calls. *)
Inductive gop :=
| GLayer | GLoss | GEdge (a b : nat) | GLossEdge (a b : nat)
| GFront (a b : nat) | GFrontLoss (a b : nat) | GBack (src dst : nat).
Definition gstep (s : dlgraph) (o : gop) : res dlgraph :=
  match o with
  | GLayer => Ok (add_node s)
  | GLoss => Ok (add_loss s)
  | GEdge a b => create_edge s a b
  | GLossEdge a b => create_loss_edge s a b
  | GFront a b => add_forward s a b
  | GFrontLoss a b => add_forward_loss s a b
  | GBack a b => add_backward s b a
  end.
Definition gbuild (os : list gop) : res dlgraph := foldM gstep os graph_new.
