(** Copies of a model (Model(const Model&), model.cpp 47-52; DLGraph(const DLGraph&),
    dlgraph.cpp 40-59; the clone() functions of the layers, which copy-construct;
    SharedParams, type.hpp 59-102). *)
From Verif Require Import Base Num MathModel LayerModel LossModel OptModel GraphModel ModelModel NodeModel.

Section Copies.
Context {T : Type} `{NumOps T} `{TransOps T} `{LimOps T}.

(** _weights and _biases of a dense layer are shared pointers to vectors: copying a layer
    copies the pointers, so all copies of layer i use the same two vectors. *)
Definition shared_part (s : node T) : list T * list T :=
  match s with NL l => (wts l, bias l) | _ => ([], []) end.
Definition with_shared (s : node T) (p : list T * list T) : node T :=
  match s with
  | NL l => NL (mkLayer (knd l) (insz l) (fst p) (snd p) (wgrad l) (bgrad l) (out l) (ig l))
  | _ => s
  end.

(** A model and its copies. [w_shared]: the shared vectors of every layer; [w_models]: the
    copies, whose own [wts] and [bias] fields are not used. *)
Record world := mkWorld { w_shared : list (list T * list T); w_models : list (model (node T)) }.

Definition view (sh : list (list T * list T)) (m : model (node T)) : model (node T) :=
  mkModel (mgraph m)
    (map (fun sp : (node T * source) * (list T * list T) =>
            (with_shared (fst (fst sp)) (snd sp), snd (fst sp))) (combine (mnodes m) sh)).
Definition shared_of (m : model (node T)) : list (list T * list T) :=
  map (fun sp : node T * source => shared_part (fst sp)) (mnodes m).

(** A method called on copy [c] works on its own fields and on the shared vectors. *)
Definition on_copy {A} (w : world) (c : nat) (f : model (node T) -> res (model (node T) * A)) : res (world * A) :=
  m <- rd (w_models w) c ;;
  '(m', a) <- f (view (w_shared w) m) ;;
  ms <- wr (w_models w) c m' ;;
  Ok (mkWorld (shared_of m') ms, a).

(** The copy constructor. The pointers _last_input of the new layers still refer to buffers
    of the layers copied from; here they are SNull, so that reading through one counts as
    undefined. *)
Definition model_copy (m : model (node T)) : model (node T) :=
  mkModel (graph_copy (mgraph m)) (map (fun sp : node T * source => (fst sp, SNull)) (mnodes m)).

(** [None]: the call returns nothing. *)
Inductive wop :=
| WCopy (c : nat) | WPredict (c : nat) (x : list T) | WStep (c : nat) (x t : list T)
| WReset (c : nat) | WTrain (eta : T) (c : nat).
Definition wstep (draw : nat -> T) (w : world) (o : wop) : res (world * option (list T)) :=
  match o with
  | WCopy c =>
      m <- rd (w_models w) c ;;
      Ok (mkWorld (w_shared w) (w_models w ++ [model_copy m]), None)
  | WPredict c x => on_copy w c (fun m => '(m', y) <- m_predict (node_ops draw) m x ;; Ok (m', Some y))
  | WStep c x t => on_copy w c (fun m => m' <- m_step (node_ops draw) m x t ;; Ok (m', None))
  | WReset c => on_copy w c (fun m => m' <- m_reset_score m ;; Ok (m', None))
  (* Model::train(optimizer, model_from), model.cpp 166-185, [c] being model_from *)
  | WTrain eta c => on_copy w c (fun m => m' <- m_train eta m ;; Ok (m', None))
  end.
Definition wsteps (draw : nat -> T) (os : list wop) (w : world) : res world :=
  foldM (fun w o => '(w', _) <- wstep draw w o ;; Ok w') os w.

(** A program with one model. *)
Definition world_of (m : model (node T)) : world := mkWorld (shared_of m) [m].
End Copies.
Arguments world T : clear implicits.
Arguments wop T : clear implicits.
