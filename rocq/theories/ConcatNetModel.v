(** Models with concatenate layers among layers of other classes
    (/repo/source/dnn/concatenate.cpp, concatenate.hpp, feedforward.hpp, layer.cpp, model.cpp). *)
From Verif Require Import Base Num ArrayModel ConcatModel GraphModel ModelModel.

Section ConcatNet.
Context {T S : Type} `{NumOps T}.
(** A layer of another class, or a concatenate layer with its _input_gradients *)
Inductive jnode := JO (s : S) | JC (c : concl T) (g : list T).
(** Constructor, concatenate.cpp 88-99; the buffer has the size of the input shape,
    feedforward.cpp 30-41 *)
Definition jc_new (shs : list (list nat)) (axis : nat) : res jnode :=
  c <- concl_new shs axis ;; i <- rd (c_ins c) 0 ;; Ok (JC c (repeat n0 (shape_size i))).

Variable op : nodeops T S.
(** training_forward is Layer::training_forward (layer.cpp 117-122): forward *)
Definition j_forward (s : jnode) (x : list T) : res jnode :=
  match s with JO s => s' <- o_forward op s x ;; Ok (JO s') | JC c g => c' <- concl_forward c x ;; Ok (JC c' g) end.
Definition j_tforward (s : jnode) (x : list T) : res jnode :=
  match s with JO s => s' <- o_tforward op s x ;; Ok (JO s') | JC c g => c' <- concl_forward c x ;; Ok (JC c' g) end.
(** backward, concatenate.cpp 129-135: nothing is computed *)
Definition j_backward (s : jnode) (last g : list T) : res jnode :=
  match s with JO s => s' <- o_backward op s last g ;; Ok (JO s') | JC c z => Ok (JC c z) end.
Definition j_output (s : jnode) : res (list T) :=
  match s with JO s => o_output op s | JC c _ => Ok (c_buf c) end.
Definition j_gradient (s : jnode) : list T :=
  match s with JO s => o_gradient op s | JC _ g => g end.
Definition j_target (s : jnode) (t : list T) : jnode :=
  match s with JO s => JO (o_target op s t) | JC _ _ => s end.
Definition j_ops : nodeops T jnode := mkOps j_forward j_tforward j_backward j_output j_gradient j_target.

(** The calls of a program that uses a model *)
Inductive jcall := JPredict (x : list T) | JStep (x t : list T).
Definition j_call (m : model jnode) (c : jcall) : res (model jnode) :=
  match c with JPredict x => '(m, _) <- m_predict j_ops m x ;; Ok m | JStep x t => m_step j_ops m x t end.
End ConcatNet.
Arguments jnode T S : clear implicits.
