(** Layers as objects with an identity: the public interface of DLGraph
    (/repo/source/dnn/dlgraph.hpp, dlgraph.cpp) and the building, copying and assigning of
    Model objects (model.hpp, model.cpp). A shared pointer to a layer is a number. *)
From Verif Require Import Base GraphModel.

(** DLMath::index_of, dlmath.hpp 188-193; [None] for -1. *)
Fixpoint index_of (l : list nat) (x : nat) : option nat :=
  match l with
  | [] => None
  | y :: t => if y =? x then Some 0 else option_map S (index_of t x)
  end.

(** DLGraph, dlgraph.hpp 218-226: _layers, and the members of GraphModel.dlgraph, whose
    [nodes] is the size of _layers (each Graph keeps a reference to that vector). *)
Record pgraph := mkP { pl : list nat; px : dlgraph }.
Definition p_new : pgraph := mkP [] graph_new.

(** add_node, dlgraph.cpp 82-91 *)
Definition p_add_node (s : pgraph) (x : nat) : pgraph :=
  if mem x (pl s) then s else mkP (pl s ++ [x]) (add_node (px s)).
(** add_loss, dlgraph.cpp 190-194 *)
Definition p_add_loss (s : pgraph) (x : nat) : pgraph :=
  let s := p_add_node s x in
  let g := px s in
  mkP (pl s) (mkGraph (nodes g) (fgraph g) (tgraph g) (bgraph g) (losses g ++ [length (pl s) - 1])
                (inputs g) (outputs g)).

(** Graph::add_arc on pointers, dlgraph.hpp 66-77 *)
Definition p_arc (ls : list nat) (g : edges) (a b : nat) : res edges :=
  match index_of ls a, index_of ls b with
  | Some i, Some j => Ok (fun k => if k =? i then sinsert j (g i) else g k)
  | _, _ => Throw
  end.
Definition on_f (s : pgraph) (a b : nat) : res pgraph :=
  f <- p_arc (pl s) (fgraph (px s)) a b ;;
  let g := px s in Ok (mkP (pl s) (mkGraph (nodes g) f (tgraph g) (bgraph g) (losses g) (inputs g) (outputs g))).
Definition on_t (s : pgraph) (a b : nat) : res pgraph :=
  t <- p_arc (pl s) (tgraph (px s)) a b ;;
  let g := px s in Ok (mkP (pl s) (mkGraph (nodes g) (fgraph g) t (bgraph g) (losses g) (inputs g) (outputs g))).
Definition on_b (s : pgraph) (a b : nat) : res pgraph :=
  t <- p_arc (pl s) (bgraph (px s)) a b ;;
  let g := px s in Ok (mkP (pl s) (mkGraph (nodes g) (fgraph g) (tgraph g) t (losses g) (inputs g) (outputs g))).
Definition p_roles (s : pgraph) : pgraph := mkP (pl s) (compute_roles (px s)).

(** The overloads with one source and one destination (93-116) call these with a one-element
    vector. add_arc_forward 132-142, 144-151 and 169-179; add_arc_backward 153-160 and
    181-188; add_edge 118-130 and 162-167. *)
Definition front_from (s : pgraph) (froms : list nat) (to : nat) : res pgraph :=
  s <- foldM (fun s from => s <- on_f s from to ;; on_t s from to) froms s ;; Ok (p_roles s).
Definition front_from_loss (s : pgraph) (froms : list nat) (to : nat) : res pgraph :=
  foldM (fun s from => on_t s from to) froms s.
Definition front_to (s : pgraph) (from : nat) (tos : list nat) : res pgraph :=
  s <- foldM (fun s to => s <- on_f s from to ;; on_t s from to) tos s ;; Ok (p_roles s).
Definition back_from (s : pgraph) (froms : list nat) (to : nat) : res pgraph :=
  foldM (fun s from => on_b s from to) froms s.
Definition back_to (s : pgraph) (from : nat) (tos : list nat) : res pgraph :=
  foldM (fun s to => on_b s from to) tos s.
Definition edge_from (s : pgraph) (froms : list nat) (to : nat) : res pgraph :=
  s <- front_from s froms to ;; back_to s to froms.
Definition edge_from_loss (s : pgraph) (froms : list nat) (to : nat) : res pgraph :=
  s <- front_from_loss s froms to ;; back_to s to froms.
Definition edge_to (s : pgraph) (from : nat) (tos : list nat) : res pgraph :=
  s <- front_to s from tos ;; back_from s tos from.

(** Calls on a DLGraph. *)
Inductive pop :=
| PNode (x : nat) | PLoss (x : nat)
| PEdgeFrom (froms : list nat) (to : nat) | PEdgeFromLoss (froms : list nat) (to : nat)
| PEdgeTo (from : nat) (tos : list nat)
| PFrontFrom (froms : list nat) (to : nat) | PFrontFromLoss (froms : list nat) (to : nat)
| PFrontTo (from : nat) (tos : list nat)
| PBackFrom (froms : list nat) (to : nat) | PBackTo (from : nat) (tos : list nat).
Definition pstep (s : pgraph) (o : pop) : res pgraph :=
  match o with
  | PNode x => Ok (p_add_node s x)
  | PLoss x => Ok (p_add_loss s x)
  | PEdgeFrom froms to => edge_from s froms to
  | PEdgeFromLoss froms to => edge_from_loss s froms to
  | PEdgeTo from tos => edge_to s from tos
  | PFrontFrom froms to => front_from s froms to
  | PFrontFromLoss froms to => front_from_loss s froms to
  | PFrontTo from tos => front_to s from tos
  | PBackFrom froms to => back_from s froms to
  | PBackTo from tos => back_to s from tos
  end.
Definition pbuild (os : list pop) : res pgraph := foldM pstep os p_new.

(** successors and predecessors, dlgraph.hpp 84-87 and 102-116 (std::set, ascending);
    training_forward, forward, backward and their _predecessors, dlgraph.cpp 226-254, apply
    them to the three graphs. *)
Definition successors (g : edges) (i : nat) : list nat := g i.
Definition predecessors (n : nat) (g : edges) (i : nat) : list nat :=
  filter (fun a => mem i (g a)) (seq 0 n).

(** loss_layers, input_layers, output_layers (dlgraph.cpp 305-333, 361-370) as pointers;
    forward_layers_idx 346-359. *)
Definition p_at (s : pgraph) (is : list nat) : res (list nat) := mapM (rd (pl s)) is.
Definition forward_layers_idx (s : pgraph) : list nat :=
  filter (fun i => negb (mem i (losses (px s)))) (seq 0 (length (pl s))).

(** *** Model objects *)

(** Model::State, model.hpp 68-100: the graph and what update() took from it. *)
Record mstate := mkState {
  st_graph : pgraph;
  st_layers : list nat; st_inputs : list nat; st_outputs : list nat; st_losses : list nat;
  st_trun : list arc; st_frun : list arc; st_brun : list arc }.
Definition run_of (g : edges) (n : nat) (start : list nat) : res (list arc) :=
  match schedule (n + 2) g start with Some a => Ok a | None => UB end.
(** State::update, model.hpp 80-89 *)
Definition st_update (s : mstate) : res mstate :=
  let g := st_graph s in let x := px g in
  i <- p_at g (inputs x) ;;
  o <- p_at g (outputs x) ;;
  l <- p_at g (losses x) ;;
  t <- run_of (tgraph x) (nodes x) (inputs x) ;;
  f <- run_of (fgraph x) (nodes x) (inputs x) ;;
  b <- run_of (bgraph x) (nodes x) (losses x) ;;
  Ok (mkState g (pl g) i o l t f b).
(** State(), 69-78 *)
Definition st_new : mstate := mkState p_new [] [] [] [] [] [] [].

Section Objects.
(** Contents of a layer object; a copy of a layer (clone) has the same contents, the shared
    pointers to its parameters included. The heap is the list of the layer objects made so
    far (none of them is destroyed before the last pointer to it). *)
Variable C : Type.
Definition heap := list C.

(** The loops over l->clone(), dlgraph.cpp 49-52 and 66-69 *)
Fixpoint clones (h : heap) (ls : list nat) : res (heap * list nat) :=
  match ls with
  | [] => Ok (h, [])
  | l :: t => c <- rd h l ;; '(h', r) <- clones (h ++ [c]) t ;; Ok (h', length h :: r)
  end.
(** DLGraph(const DLGraph&) and operator=, dlgraph.cpp 40-80. In operator= the three Graph
    objects are given back the edges of [obj], like in the constructor. *)
Definition p_copy (h : heap) (g : pgraph) : res (heap * pgraph) :=
  '(h, ls) <- clones h (pl g) ;; Ok (h, mkP ls (graph_copy (px g))).

(** Model(const Model&), model.cpp 47-52: State is copied member by member (the graph is
    cloned), then updated. *)
Definition m_copy (h : heap) (s : mstate) : res (heap * mstate) :=
  '(h, g) <- p_copy h (st_graph s) ;;
  s' <- st_update (mkState g (st_layers s) (st_inputs s) (st_outputs s) (st_losses s)
                     (st_trun s) (st_frun s) (st_brun s)) ;;
  Ok (h, s').

(** Moving a State: DLGraph has no move operations, so its copy operations are used; the
    vectors are moved and those of the source left empty. *)
Definition st_move (h : heap) (s : mstate) : res (heap * mstate * mstate) :=
  '(h, g) <- p_copy h (st_graph s) ;;
  Ok (h, mkState g (st_layers s) (st_inputs s) (st_outputs s) (st_losses s) (st_trun s) (st_frun s) (st_brun s),
      mkState (st_graph s) [] [] [] [] [] [] []).
(** swap(lop._state, rop._state), model.cpp 60-65, is std::swap:
    State t(move(l)); l = move(r); r = move(t). *)
Definition st_swap (h : heap) (l r : mstate) : res (heap * mstate * mstate) :=
  '(h, t, _) <- st_move h l ;;
  '(h, l, _) <- st_move h r ;;
  '(h, r, _) <- st_move h t ;;
  Ok (h, l, r).
(** Model& operator=(Model obj), model.cpp 54-58; the parameter is copy-constructed and
    destroyed on return. *)
Definition m_assign (h : heap) (l obj : mstate) : res (heap * mstate) :=
  '(h, p) <- m_copy h obj ;; '(h, l, _) <- st_swap h l p ;; Ok (h, l).

(** A program with several models. *)
Record objects := mkObjects { ob_heap : heap; ob_models : list mstate }.
Inductive oop :=
| ONew                                          (* Model m; *)
| OCopy (m : nat)                               (* Model m'(m); *)
| OAssign (m m' : nat)                          (* m = m'; *)
| OLayer (m : nat) (c : C) | OLoss (m : nat) (c : C)
| OEdge (m a b : nat) | OLossEdge (m a b : nat)
| OFront (m a b : nat) | OFrontLoss (m a b : nat) | OBack (m a b : nat)
| OWrite (x : nat) (c : C).                     (* anything that changes the contents of a layer *)

Definition on_model (w : objects) (m : nat) (f : pgraph -> res pgraph) : res objects :=
  s <- rd (ob_models w) m ;;
  g <- f (st_graph s) ;;
  s' <- st_update (mkState g (st_layers s) (st_inputs s) (st_outputs s) (st_losses s)
                     (st_trun s) (st_frun s) (st_brun s)) ;;
  ms <- wr (ob_models w) m s' ;;
  Ok (mkObjects (ob_heap w) ms).
(** add_layer, add_loss: model.hpp 150-178; the arcs: model.cpp 67-102. *)
Definition ostep (w : objects) (o : oop) : res objects :=
  match o with
  | ONew => Ok (mkObjects (ob_heap w) (ob_models w ++ [st_new]))
  | OCopy m =>
      s <- rd (ob_models w) m ;;
      '(h, s') <- m_copy (ob_heap w) s ;;
      Ok (mkObjects h (ob_models w ++ [s']))
  | OAssign m m' =>
      l <- rd (ob_models w) m ;;
      obj <- rd (ob_models w) m' ;;
      '(h, s') <- m_assign (ob_heap w) l obj ;;
      ms <- wr (ob_models w) m s' ;;
      Ok (mkObjects h ms)
  | OLayer m c =>
      on_model (mkObjects (ob_heap w ++ [c]) (ob_models w)) m (fun g => Ok (p_add_node g (length (ob_heap w))))
  | OLoss m c =>
      on_model (mkObjects (ob_heap w ++ [c]) (ob_models w)) m (fun g => Ok (p_add_loss g (length (ob_heap w))))
  | OEdge m a b =>
      w <- on_model w m (fun g => back_from g [b] a) ;; on_model w m (fun g => front_from g [a] b)
  | OLossEdge m a b =>
      w <- on_model w m (fun g => back_from g [b] a) ;; on_model w m (fun g => front_from_loss g [a] b)
  | OFront m a b => on_model w m (fun g => front_from g [a] b)
  | OFrontLoss m a b => on_model w m (fun g => front_from_loss g [a] b)
  | OBack m a b => on_model w m (fun g => back_from g [b] a)
  | OWrite x c => h <- wr (ob_heap w) x c ;; Ok (mkObjects h (ob_models w))
  end.
Definition oexec (os : list oop) : res objects := foldM ostep os (mkObjects [] []).
End Objects.
