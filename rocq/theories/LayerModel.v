(** Model of the dense layer, the activation layers and chains of them
    (/repo/source/dnn/dense.cpp, activation.cpp, feedforward.hpp, layer.cpp). *)
From Verif Require Import Base Num MathModel.
From Coq Require Import Reals.

Section Layers.
Context {T : Type} `{NumOps T} `{TransOps T} `{LimOps T}.

Inductive act := Relu | Elu (alpha : T) | Softmax | Tanh | Sigmoid | Linear.
Inductive kind := KDense | KAct (a : act).

(** Fields of DenseLayer / ActivationLayer. [wts], [bias]: _weights, _biases; [wgrad],
    [bgrad]: _weight_gradients, _bias_gradients (empty for activations); [osz]: the length of
    _output_activations is [length out]; [insz]: input_size(); [ig]: _input_gradients.
    feedforward.hpp 84-96, dense.hpp 125-138. The pointer _last_input is not a field: the
    caller of [layer_backward] passes the vector it points to. *)
Record layer := mkLayer {
  knd : kind;
  insz : nat;
  wts : list T;
  bias : list T;
  wgrad : list T;
  bgrad : list T;
  out : list T;
  ig : list T
}.

Definition set_out (l : layer) (o : list T) : layer :=
  mkLayer (knd l) (insz l) (wts l) (bias l) (wgrad l) (bgrad l) o (ig l).
Definition set_ig (l : layer) (g : list T) : layer :=
  mkLayer (knd l) (insz l) (wts l) (bias l) (wgrad l) (bgrad l) (out l) g.

(** Activation forward: activation.cpp 64-71 (Relu), 103-110 (Elu), 142-149 (Softmax),
    175-182 (Tanh), 206-213 (Sigmoid), 237-242 (Linear: the vector is assigned). [o] is
    _output_activations. *)
Definition act_forward (a : act) (o x : list T) : res (list T) :=
  let n := length o in
  match a with
  | Relu => map_into relu o x n
  | Elu alpha => map_into (elu alpha) o x n
  | Softmax => stable_softmax o x n
  | Tanh => map_into ntanh o x n
  | Sigmoid => map_into sigmoid o x n
  | Linear => Ok x
  end.

(** Activation backward: activation.cpp 73-92, 112-132, 151-165, 184-196, 215-227, 244-254.
    [o] is _output_activations, [i] is _input_gradients. The derivative is written to [i] and
    multiplied in place by the gradients. Linear: std::copy of the first [size] gradients. *)
Definition act_backward (a : act) (o i g : list T) : res (list T) :=
  let n := length i in
  match a with
  | Relu => i <- map_into relu_1 i o n ;; map2_inplace nmul i g n
  | Elu alpha => i <- map_into (elu_1_opt alpha) i o n ;; map2_inplace nmul i g n
  | Softmax => softmax_1_opt i o g n
  | Tanh => i <- map_into tanh_1_opt i o n ;; map2_inplace nmul i g n
  | Sigmoid => i <- map_into sigmoid_1_opt i o n ;; map2_inplace nmul i g n
  | Linear => map_into (fun v => v) i g n
  end.

(** forward: dense.cpp 83-100 (input size taken from the argument, output size from the
    buffer); activation.cpp. The returned reference is _output_activations
    (layer.cpp 111-115). *)
Definition layer_forward (l : layer) (x : list T) : res layer :=
  match knd l with
  | KDense => o <- dense (out l) x (wts l) (bias l) (length x) (length (out l)) ;; Ok (set_out l o)
  | KAct a => o <- act_forward a (out l) x ;; Ok (set_out l o)
  end.

(** backward: dense.cpp 102-115 (output size taken from the argument); activation.cpp.
    [last] is what _last_input points to (layer.cpp 117-122). The returned reference is
    _input_gradients. *)
Definition layer_backward (l : layer) (last g : list T) : res layer :=
  match knd l with
  | KDense =>
      '(i, wg, bg) <- dense_1 (ig l) (wgrad l) (bgrad l) g last (wts l) (insz l) (length g) ;;
      Ok (mkLayer (knd l) (insz l) (wts l) (bias l) wg bg (out l) i)
  | KAct a => i <- act_backward a (out l) (ig l) g ;; Ok (set_ig l i)
  end.

(** A chain of layers run in order (Model::step / Model::predict on a chain graph, see
    ModelModel.v): each layer's training_forward receives the previous layer's output buffer,
    and _last_input keeps pointing to that buffer. *)
Fixpoint chain_forward (ls : list layer) (x : list T) : res (list layer * list T) :=
  match ls with
  | [] => Ok ([], x)
  | l :: ls' =>
      l' <- layer_forward l x ;;
      '(ls'', y) <- chain_forward ls' (out l') ;;
      Ok (l' :: ls'', y)
  end.

(** The reverse run: gradients flow from the last layer to the first; [x] is the input the
    chain was run on. *)
Fixpoint chain_backward (ls : list layer) (x g : list T) : res (list layer * list T) :=
  match ls with
  | [] => Ok ([], g)
  | l :: ls' =>
      '(ls'', g') <- chain_backward ls' (out l) g ;;
      l' <- layer_backward l x g' ;;
      Ok (l' :: ls'', ig l')
  end.

End Layers.
Arguments act T : clear implicits.
Arguments kind T : clear implicits.
Arguments layer T : clear implicits.
