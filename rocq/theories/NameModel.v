(** Names of layers and models: source/dnn/dlmath.hpp 456-460, layer.cpp 99-109 and 226, model.cpp
    37-45, 47-52 and 334, middleware/fnn.hpp 173-195. *)
From Coq Require Import Ascii String ZArith.
From Verif Require Import Base TypeModel.
Local Open Scope list_scope.

(** The default prefixes of the constructors: activation.cpp 37, 61, 99, 139, 172, 203, 234;
    avg_pooling.cpp 38; cce_loss.cpp 45; concatenate.cpp 93; convolutional.cpp 63; dense.cpp 39;
    dropout.cpp 38; feedforward.cpp 34; layer.cpp 106; loss.cpp 38; max_pooling.cpp 37; model.cpp 43;
    mse_loss.cpp 36; pooling.cpp 58; recurrent.cpp 42. [NUser p]: a class derived by the user that
    passes the prefix [p], which is not empty. *)
Inductive ncls := NRelu | NElu | NSoftmax | NTanh | NSigmoid | NLinear | NAvg | NMax | NCce | NMse | NConcat | NConv
  | NDense | NDropout | NRec | NModel | NUser (p : text).
Definition prefix (c : ncls) : text :=
  match c with
  | NRelu => txt "relu_layer_" | NElu => txt "elu_layer_" | NSoftmax => txt "softmax_layer_" | NTanh => txt "tanh_layer_"
  | NSigmoid => txt "sigmoid_layer_" | NLinear => txt "linear_layer_" | NAvg => txt "avg_pooling_layer_"
  | NMax => txt "max_pooling_layer_" | NCce => txt "cce_loss_layer_" | NMse => txt "mse_loss_layer_"
  | NConcat => txt "concatenate_layer_" | NConv => txt "convolutional_layer_" | NDense => txt "dense_layer_"
  | NDropout => txt "dropout_layer_" | NRec => txt "recurrent_layer_" | NModel => txt "model_" | NUser p => p
  end.

(** The static counter of unique (a 64-bit SizeType), the names in the _shared_fields blocks, and
    for every layer or model object the number of its block. *)
Record names := mkNames { nm_id : Z; nm_cells : list text; nm_objs : list nat }.
Definition nm_start : names := mkNames 0 [] [].
(** unique, dlmath.hpp 456-460: return id++ *)
Definition nm_unique (s : names) : Z * names := (nm_id s, mkNames ((nm_id s + 1) mod 2 ^ 64) (nm_cells s) (nm_objs s)).
(** Layer::Layer, layer.cpp 99-109, and Model::Model, model.cpp 37-45 *)
Definition nm_new (c : ncls) (given : text) (s : names) : names :=
  let (name, s) := match given with
    | [] => let (k, s) := nm_unique s in (prefix c ++ print_int k, s)
    | _ => (given, s)
    end in
  mkNames (nm_id s) (nm_cells s ++ [name]) (nm_objs s ++ [length (nm_cells s)]).
(** Copy constructors (the implicit ones of the layers, model.cpp 47-52) share the block. *)
Definition nm_copy (i : nat) (s : names) : res names :=
  r <- rd (nm_objs s) i ;; Ok (mkNames (nm_id s) (nm_cells s) (nm_objs s ++ [r])).
(** Layer::load, layer.cpp 226, and Model::load, model.cpp 334: the name in the file *)
Definition nm_load (i : nat) (t : text) (s : names) : res names :=
  r <- rd (nm_objs s) i ;; cs <- wr (nm_cells s) r t ;; Ok (mkNames (nm_id s) cs (nm_objs s)).
(** name(), layer.hpp 267-268, model.cpp 284-287 *)
Definition nm_name (s : names) (i : nat) : res text := r <- rd (nm_objs s) i ;; rd (nm_cells s) r.

Inductive nop := ONew (c : ncls) (given : text) | OCopy (i : nat) | OLoad (i : nat) (t : text).
Definition nm_step (s : names) (o : nop) : res names :=
  match o with ONew c g => Ok (nm_new c g s) | OCopy i => nm_copy i s | OLoad i t => nm_load i t s end.
Definition nm_run (os : list nop) : res names := foldM nm_step os nm_start.

(** EdgeFeedforwardNeuralNetwork::add, fnn.hpp 173-195: the layer and then its activation layer get
    the descriptor's name (_add_layer 273-326, _add_activation_layer 328-375). The first descriptor
    may be an input, which makes no layer. *)
Record ndesc := mkND { nd_input : bool; nd_name : text; nd_layer : ncls; nd_act : ncls }.
Definition nd_ops (d : ndesc) : list nop := [ONew (nd_layer d) (nd_name d); ONew (nd_act d) (nd_name d)].
Definition fnn_ops (ds : list ndesc) : list nop :=
  match ds with [] => [] | d :: r => (if nd_input d then [] else nd_ops d) ++ flat_map nd_ops r end.

(** unique() called by several threads: [id++] reads and then writes. Each thread makes [k] calls;
    a schedule is a list of thread numbers, each of which makes the thread's next access. *)
Record nthread := mkNT { nt_read : option Z; nt_got : list Z }.
Definition nt_access (st : Z * list nthread) (t : nat) : res (Z * list nthread) :=
  let (id, ts) := st in th <- rd ts t ;;
  match nt_read th with
  | None => ts <- wr ts t (mkNT (Some id) (nt_got th)) ;; Ok (id, ts)
  | Some v => ts <- wr ts t (mkNT None (nt_got th ++ [v])) ;; Ok ((v + 1) mod 2 ^ 64, ts)%Z
  end.
Definition nt_run (threads : nat) (sched : list nat) : res (Z * list nthread) :=
  foldM nt_access sched (0%Z, repeat (mkNT None []) threads).
