(** Convolutional networks: models whose layers may also be convolutions and poolings
    (/repo/source/dnn/convolutional.cpp, pooling.cpp, max_pooling.cpp, avg_pooling.cpp; the
    kernels are those of ConvModel). *)
From Verif Require Import Base Num DatasetModel MathModel ConvModel LayerModel LossModel OptModel GraphModel ModelModel NodeModel
  CopyModel FitModel.

Section Cnn.
Context {T : Type} `{NumOps T} `{TransOps T} `{LimOps T}.

(** Fields of ConvolutionalLayer (convolutional.hpp): input shape, kernel shape, number of
    filters, stride, padding, output shape (height and width; the channels are the filters),
    _weights, _biases, their gradients, _output_activations, _input_gradients. *)
Record convl := mkConv {
  cv_H : nat; cv_W : nat; cv_C : nat; cv_kh : nat; cv_kw : nat; cv_nf : nat;
  cv_sh : nat; cv_sw : nat; cv_ph : nat; cv_pw : nat; cv_oh : nat; cv_ow : nat;
  cv_w : list T; cv_b : list T; cv_wg : list T; cv_bg : list T; cv_out : list T; cv_ig : list T
}.

(** Constructor, convolutional.cpp 57-78; buffers from feedforward.cpp 30-41. *)
Definition conv_new (H W C kh kw nf sh sw ph pw : nat) : res convl :=
  oh <- conv_output_side H kh sh ph ;;
  ow <- conv_output_side W kw sw pw ;;
  Ok (mkConv H W C kh kw nf sh sw ph pw oh ow
    (repeat n0 (kh * kw * C * nf)) (repeat n0 nf) (repeat n0 (kh * kw * C * nf)) (repeat n0 nf)
    (repeat n0 (oh * ow * nf)) (repeat n0 (H * W * C))).

Definition conv_with (c : convl) (w b wg bg out ig : list T) : convl :=
  mkConv (cv_H c) (cv_W c) (cv_C c) (cv_kh c) (cv_kw c) (cv_nf c) (cv_sh c) (cv_sw c) (cv_ph c)
    (cv_pw c) (cv_oh c) (cv_ow c) w b wg bg out ig.

(** forward, convolutional.cpp 97-110 *)
Definition convl_forward (c : convl) (x : list T) : res convl :=
  o <- conv_forward (cv_out c) x (cv_w c) (cv_b c) (cv_H c) (cv_W c) (cv_C c) (cv_kh c) (cv_kw c)
         (cv_nf c) (cv_sh c) (cv_sw c) (cv_ph c) (cv_pw c) ;;
  Ok (conv_with c (cv_w c) (cv_b c) (cv_wg c) (cv_bg c) o (cv_ig c)).

(** backward, convolutional.cpp 112-190 *)
Definition convl_backward (c : convl) (last g : list T) : res convl :=
  '(ig, wg, bg) <- conv_backward (cv_ig c) (cv_wg c) (cv_bg c) last (cv_w c) g (cv_H c) (cv_W c)
      (cv_C c) (cv_oh c) (cv_ow c) (cv_kh c) (cv_kw c) (cv_nf c) (cv_sh c) (cv_sw c) (cv_ph c) (cv_pw c) ;;
  Ok (conv_with c (cv_w c) (cv_b c) wg bg (cv_out c) ig).

(** Fields of MaxPoolingLayer ([pl_max] true) and AveragePoolingLayer. *)
Record pooll := mkPool {
  pl_max : bool; pl_H : nat; pl_W : nat; pl_C : nat; pl_kh : nat; pl_kw : nat; pl_sh : nat; pl_sw : nat;
  pl_out : list T; pl_ig : list T
}.

(** Constructor, pooling.cpp 52-61 (output shape 38-50). *)
Definition pool_new (mx : bool) (H W C kh kw sh sw : nat) : res pooll :=
  oh <- pool_output_side H kh sh ;;
  ow <- pool_output_side W kw sw ;;
  Ok (mkPool mx H W C kh kw sh sw (repeat n0 (oh * ow * C)) (repeat n0 (H * W * C))).

Definition pool_with (p : pooll) (out ig : list T) : pooll :=
  mkPool (pl_max p) (pl_H p) (pl_W p) (pl_C p) (pl_kh p) (pl_kw p) (pl_sh p) (pl_sw p) out ig.

(** forward, max_pooling.cpp 40-48 and avg_pooling.cpp 41-49 *)
Definition pooll_forward (p : pooll) (x : list T) : res pooll :=
  o <- (if pl_max p
        then max_pool (pl_out p) x (pl_H p) (pl_W p) (pl_C p) (pl_kh p) (pl_kw p) (pl_sh p) (pl_sw p)
        else avg_pool (pl_out p) x (pl_H p) (pl_W p) (pl_C p) (pl_kh p) (pl_kw p) (pl_sh p) (pl_sw p)) ;;
  Ok (pool_with p o (pl_ig p)).

(** backward, max_pooling.cpp 50-104 and avg_pooling.cpp 51-94 *)
Definition pooll_backward (p : pooll) (last g : list T) : res pooll :=
  ig <- (if pl_max p
         then max_pool_backward (pl_ig p) last g (pl_H p) (pl_W p) (pl_C p) (pl_kh p) (pl_kw p) (pl_sh p) (pl_sw p)
         else avg_pool_backward (pl_ig p) g (pl_H p) (pl_W p) (pl_C p) (pl_kh p) (pl_kw p) (pl_sh p) (pl_sw p)) ;;
  Ok (pool_with p (pl_out p) ig).

(** *** Layers of a convolutional network *)
Inductive cnode := CL (l : layer T) | CV (c : convl) | CP (p : pooll) | CO (k : losskind T) (l : lossl T).

Definition c_forward (s : cnode) (x : list T) : res cnode :=
  match s with
  | CL l => l' <- layer_forward l x ;; Ok (CL l')
  | CV c => c' <- convl_forward c x ;; Ok (CV c')
  | CP p => p' <- pooll_forward p x ;; Ok (CP p')
  | CO k l => let '(l', r) := loss_forward k l x in _ <- r ;; Ok (CO k l')
  end.
Definition c_backward (s : cnode) (last g : list T) : res cnode :=
  match s with
  | CL l => l' <- layer_backward l last g ;; Ok (CL l')
  | CV c => c' <- convl_backward c last g ;; Ok (CV c')
  | CP p => p' <- pooll_backward p last g ;; Ok (CP p')
  | CO k l => g' <- loss_backward k l last ;; Ok (CO k (set_grad l g'))
  end.
(** last_output: feedforward.hpp 63-66, loss.hpp 151-154 *)
Definition c_output (s : cnode) : res (list T) :=
  match s with CL l => Ok (out l) | CV c => Ok (cv_out c) | CP p => Ok (pl_out p) | CO _ _ => Throw end.
(** last_input_gradient: feedforward.hpp 53-56, loss.hpp 142-145 *)
Definition c_gradient (s : cnode) : list T :=
  match s with CL l => ig l | CV c => cv_ig c | CP p => pl_ig p | CO _ l => ls_grad l end.
Definition c_target (s : cnode) (t : list T) : cnode :=
  match s with CO k l => CO k (set_target l t) | _ => s end.

(** None of these layers overrides training_forward (layer.cpp 117-122). *)
Definition cnn_ops : nodeops T cnode := mkOps c_forward c_forward c_backward c_output c_gradient c_target.

(** *** Training *)
(** A convolution's parameters as the optimizer sees them (convolutional.cpp 192-216). *)
Definition conv_player (c : convl) : player T :=
  mkPlayer (PConv (cv_kh c * cv_kw c) (cv_C c) (cv_nf c)) [cv_w c; cv_b c] [cv_wg c; cv_bg c].
Definition c_train (eta : T) (s : cnode) : res cnode :=
  match s with
  | CL l => p <- gd_train eta (layer_player l) ;; Ok (CL (with_player l p))
  | CV c => p <- gd_train eta (conv_player c) ;;
      Ok (CV (conv_with c (nth 0 (pblocks p) []) (nth 1 (pblocks p) []) (nth 0 (gblocks p) [])
                (nth 1 (gblocks p) []) (cv_out c) (cv_ig c)))
  | s => Ok s
  end.
(** Model::train(o) with gradient descent, model.cpp 161-185 *)
Definition cnn_train (eta : T) (m : model cnode) : res (model cnode) :=
  ns <- mapM (fun sp : cnode * source => s' <- c_train eta (fst sp) ;; Ok (s', snd sp)) (mnodes m) ;;
  Ok (mkModel (mgraph m) ns).
(** Model::reset_score, model.cpp 187-193 *)
Definition cnn_reset_score (m : model cnode) : res (model cnode) :=
  ns <- foldM (fun ns i =>
      '(s, p) <- rd ns i ;;
      wr ns i (match s with CO k l => CO k (reset_score l) | s => s end, p))
    (losses (mgraph m)) (mnodes m) ;;
  Ok (mkModel (mgraph m) ns).
(** Training<SEQUENTIAL>::run, middleware/fnn.hpp 54-76 *)
Definition cnn_row_step (d : dataset T) (m : model cnode) (i : nat) : res (model cnode) :=
  x <- ds_input n0 d i ;; t <- ds_label n0 d i ;; m_step cnn_ops m x t.
Definition cnn_fit_sequential (eta : T) (d : dataset T) (fuel epochs bs : nat) (m : model cnode) :=
  fit_run (cnn_row_step d) cnn_reset_score (cnn_train eta) fuel epochs (ds_size d) bs m.
End Cnn.
Arguments convl T : clear implicits.
Arguments pooll T : clear implicits.
Arguments cnode T : clear implicits.
