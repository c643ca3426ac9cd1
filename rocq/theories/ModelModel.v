(** Models: layers run along the schedules of a layer graph
    (/repo/source/dnn/model.cpp, model.hpp). *)
From Verif Require Import Base Num GraphModel.

Section Model.
Context {T S : Type}.

(** The virtual functions of Layer a model calls (layer.hpp): forward, training_forward,
    backward (with the vector _last_input points to), last_output, last_input_gradient,
    and LossLayer::set_target. [S]: the state of a layer object. *)
Record nodeops := mkOps {
  o_forward : S -> list T -> res S;
  o_tforward : S -> list T -> res S;
  o_backward : S -> list T -> list T -> res S;
  o_output : S -> res (list T);
  o_gradient : S -> list T;
  o_target : S -> list T -> S
}.
Variable op : nodeops.

(** What _last_input points to (layer.cpp 117-122): nothing yet, the vector given to
    Model::step, or the output buffer of another layer. *)
Inductive source := SNull | SInput | SNode (i : nat).

(** _state: the graph and the layer objects; State::update (model.hpp 80-89) is called by
    every building method, so the cached schedules are those of the graph. *)
Record model := mkModel { mgraph : dlgraph; mnodes : list (S * source) }.

Definition sched (g : edges) (n : nat) (start : list nat) : res (list arc) :=
  match schedule (n + 2) g start with Some a => Ok a | None => UB end.

Definition node_output (ns : list (S * source)) (i : nat) : res (list T) :=
  '(s, _) <- rd ns i ;; o_output op s.

(** forward or training_forward; only the latter sets _last_input (DropoutLayer::forward,
    dropout.hpp 69-74, sets it too, but its backward does not read it). *)
Definition feed (training : bool) (s : S) (p : source) (x : list T) (from : source) : res (S * source) :=
  if training then s' <- o_tforward op s x ;; Ok (s', from)
  else s' <- o_forward op s x ;; Ok (s', p).
(** model.cpp 207-210, 233-236 *)
Definition feed_input (tr : bool) (x : list T) (ns : list (S * source)) (i : nat)
  : res (list (S * source)) :=
  '(s, p) <- rd ns i ;; n <- feed tr s p x SInput ;; wr ns i n.
(** model.cpp 211-214, 237-240 *)
Definition run_arc (tr : bool) (ns : list (S * source)) (ab : arc) : res (list (S * source)) :=
  let '(a, b) := ab in
  y <- node_output ns a ;;
  '(s, p) <- rd ns b ;; n <- feed tr s p y (SNode a) ;; wr ns b n.

(** Reading through _last_input; [x] is the vector given to step. Loss and layer backward
    functions use it; nothing changes an output buffer between the forward and the backward
    half of a step. *)
Definition deref (ns : list (S * source)) (x : list T) (p : source) : res (list T) :=
  match p with SNull => UB | SInput => Ok x | SNode i => node_output ns i end.
Definition back_node (x : list T) (ns : list (S * source)) (b : nat) (g : list T)
  : res (list (S * source)) :=
  '(s, p) <- rd ns b ;; last <- deref ns x p ;; s' <- o_backward op s last g ;; wr ns b (s', p).
Definition back_arc (x : list T) (ns : list (S * source)) (ab : arc) : res (list (S * source)) :=
  let '(a, b) := ab in
  '(s, _) <- rd ns a ;; back_node x ns b (o_gradient op s).

Definition set_targets (t : list T) (ns : list (S * source)) (i : nat) : res (list (S * source)) :=
  '(s, p) <- rd ns i ;; wr ns i (o_target op s t, p).

(** Model::step, model.cpp 195-225 *)
Definition m_step (m : model) (x t : list T) : res model :=
  let g := mgraph m in
  trun <- sched (tgraph g) (nodes g) (inputs g) ;;
  brun <- sched (bgraph g) (nodes g) (losses g) ;;
  ns <- foldM (set_targets t) (losses g) (mnodes m) ;;
  ns <- foldM (feed_input true x) (inputs g) ns ;;
  ns <- foldM (run_arc true) trun ns ;;
  ns <- foldM (fun ns i => back_node x ns i []) (losses g) ns ;;
  ns <- foldM (back_arc x) brun ns ;;
  Ok (mkModel g ns).

(** Model::predict, model.cpp 227-242 *)
Definition m_predict (m : model) (x : list T) : res (model * list T) :=
  let g := mgraph m in
  match outputs g with
  | [] => Throw
  | o :: _ =>
      frun <- sched (fgraph g) (nodes g) (inputs g) ;;
      ns <- foldM (feed_input false x) (inputs g) (mnodes m) ;;
      ns <- foldM (run_arc false) frun ns ;;
      y <- node_output ns o ;;
      Ok (mkModel g ns, y)
  end.
End Model.
Arguments nodeops T S : clear implicits.
Arguments model S : clear implicits.
