(** The layer-list builder of the high-level network (/repo/source/middleware/fnn.hpp 166-195,
    209-220, 275-385; middleware/layer_descriptor.cpp 30-186): which layers are created, with
    which shapes, and which edges. *)
From Verif Require Import Base Num MathModel ConvModel LayerModel LossModel GraphModel ModelModel NodeModel.

(** DLMath::Shape3d: height, width, channels (dlmath.hpp); size() is the product.
    Simplifications: products do not wrap around, allocating the buffers of a layer never
    fails. *)
Definition shape := (nat * nat * nat)%type.
Definition ssize (s : shape) : nat := let '(h, w, c) := s in h * w * c.
(** LayerShape(SizeType), layer.cpp 42-44; Shape3d's width and channels default to 1. *)
Definition flat (n : nat) : shape := (n, 1, 1).

Section Builder.
Context {T : Type}.

(** LayerDescriptor: type and setting (layer_descriptor.cpp 132-186), LayerType definitions.hpp
    61-69. An Input descriptor has one shape. *)
Inductive desc :=
| DInput (s : shape) | DDense (units : shape)
| DConv (filters : nat) (kernel stride padding : nat * nat)
| DMaxPool (kernel stride : nat * nat) | DAvgPool (kernel stride : nat * nat)
| DDropout (p : T).
(** ActivationType, definitions.hpp 71-80 *)
Inductive actt := AReLU | AELU | ASoftmax | ATanH | ASigmoid | ALinear | ANone.

(** The class of a created layer with its own settings. *)
Inductive bkind :=
| BDense | BConv (filters : nat) (kernel stride padding : nat * nat)
| BMaxPool (kernel stride : nat * nat) | BAvgPool (kernel stride : nat * nat)
| BDropout (p : T) | BRelu | BElu | BSoftmax | BTanh | BSigmoid | BLinear | BLoss.
(** A created layer: class, input_shape(), output_shape(). *)
Record blayer := mkB { b_kind : bkind; b_in : shape; b_out : shape }.

(** _add_layer, fnn.hpp 275-330, with the constructors' shapes: convolutional.cpp 41-60,
    pooling.cpp 38-60, dropout.cpp 36-45, dense.cpp (sizes). *)
Definition new_layer (d : desc) (s : shape) : res blayer :=
  let '(h, w, c) := s in
  match d with
  | DInput _ => Throw
  | DConv f k st p =>
      h' <- conv_output_side h (fst k) (fst st) (fst p) ;;
      w' <- conv_output_side w (snd k) (snd st) (snd p) ;;
      Ok (mkB (BConv f k st p) s (h', w', f))
  | DMaxPool k st =>
      h' <- pool_output_side h (fst k) (fst st) ;; w' <- pool_output_side w (snd k) (snd st) ;;
      Ok (mkB (BMaxPool k st) s (h', w', c))
  | DAvgPool k st =>
      h' <- pool_output_side h (fst k) (fst st) ;; w' <- pool_output_side w (snd k) (snd st) ;;
      Ok (mkB (BAvgPool k st) s (h', w', c))
  | DDropout p => Ok (mkB (BDropout p) (flat (ssize s)) (flat (ssize s)))
  | DDense u => Ok (mkB BDense (flat (ssize s)) (flat (ssize u)))
  end.
(** _add_activation_layer, fnn.hpp 332-381 *)
Definition new_activation (a : actt) (s : shape) : blayer :=
  let k := match a with
    | AReLU => BRelu | AELU => BElu | ASoftmax => BSoftmax | ATanH => BTanh
    | ASigmoid => BSigmoid | ALinear | ANone => BLinear
    end in
  mkB k (flat (ssize s)) (flat (ssize s)).

(** EdgeFeedforwardNeuralNetwork: the graph and the layers of _m, _output_shape,
    _is_first_add (fnn.hpp 383-385). layers() lists all nodes, loss layers included
    (dlgraph.cpp). *)
Record fnn := mkFnn { f_graph : dlgraph; f_layers : list blayer; f_shape : shape; f_first : bool }.
Definition fnn_new : fnn := mkFnn graph_new [] (flat 0) true.

(** Lines 184-194 of add: everything after the Input test. *)
Definition fnn_add_layer (f : fnn) (d : desc) (a : actt) : res fnn :=
  b <- new_layer d (f_shape f) ;;
  let g := add_node (f_graph f) in
  let me := length (f_layers f) in
  g <- (if 1 <? S me then create_edge g (S me - 2) me else Ok g) ;;
  let ab := new_activation a (b_out b) in
  let g := add_node g in
  g <- create_edge g me (S me) ;;
  Ok (mkFnn g (f_layers f ++ [b; ab]) (b_out b) false).
(** add, fnn.hpp 173-195 *)
Definition fnn_add (f : fnn) (da : desc * actt) : res fnn :=
  let '(d, a) := da in
  match f_first f, d with
  | true, DInput s => Ok (mkFnn (f_graph f) (f_layers f) s false)
  | _, _ => fnn_add_layer f d a
  end.
(** FeedforwardNeuralNetwork's constructor, fnn.hpp 405-413 *)
Definition fnn_build (ds : list (desc * actt)) : res fnn := foldM fnn_add ds fnn_new.

(** The loss layers added by the first fit, fnn.hpp 204-220. The loop runs over
    _m.output_layers(), which its body reassigns: modelled for at most one output. *)
Definition fnn_add_loss (f : fnn) : res fnn :=
  _ <- guard (negb (length (f_layers f) =? 0)) ;;
  match losses (f_graph f), outputs (f_graph f) with
  | [], [o] =>
      b <- rd (f_layers f) o ;;
      let n := length (f_layers f) in
      g <- create_loss_edge (GraphModel.add_loss (f_graph f)) o n ;;
      Ok (mkFnn g (f_layers f ++ [mkB BLoss (flat (ssize (b_out b))) (flat 0)]) (f_shape f) (f_first f))
  | [], [] => Ok f
  | [], _ => UB
  | _, _ => Ok f
  end.
End Builder.
Arguments desc T : clear implicits.
Arguments bkind T : clear implicits.
Arguments blayer T : clear implicits.
Arguments fnn T : clear implicits.

(** *** The layer objects *)
Section Objects.
Context {T : Type} `{NumOps T} `{TransOps T} `{LimOps T}.

(** Fresh layer objects: buffers zero, feedforward.cpp 30-41; DenseLayer's constructor,
    dense.cpp 36-52; EluLayer's alpha defaults to 1 (activation.hpp 136-137). Convolution and
    pooling layers have no object in this model. *)
Definition dense_new (n k : nat) : layer T :=
  mkLayer KDense n (repeat n0 (k * n)) (repeat n0 k) (repeat n0 (k * n)) (repeat n0 k)
    (repeat n0 k) (repeat n0 n).
Definition act_new (a : act T) (n : nat) : layer T :=
  mkLayer (KAct a) n [] [] [] [] (repeat n0 n) (repeat n0 n).
Definition object_of (kd : losskind T) (batch : nat) (b : blayer T) : option (node T) :=
  let n := ssize (b_in b) in
  match b_kind b with
  | BDense => Some (NL (dense_new n (ssize (b_out b))))
  | BDropout p => Some (ND (drop_new n p))
  | BRelu => Some (NL (act_new Relu n))
  | BElu => Some (NL (act_new (Elu n1) n))
  | BSoftmax => Some (NL (act_new Softmax n))
  | BTanh => Some (NL (act_new Tanh n))
  | BSigmoid => Some (NL (act_new Sigmoid n))
  | BLinear => Some (NL (act_new Linear n))
  | BLoss => Some (NO kd (loss_new n batch))
  | _ => None
  end.
End Objects.
