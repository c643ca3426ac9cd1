(** The layer objects a model is made of: dense and activation layers (LayerModel), dropout
    (dropout.hpp, dropout.cpp) and losses (LossModel). *)
From Verif Require Import Base Num MathModel LayerModel LossModel OptModel GraphModel ModelModel.

Section Nodes.
Context {T : Type} `{NumOps T} `{TransOps T} `{LimOps T}.

(** *** DropoutLayer *)
(** Fields: _drop_probability, _scale, output_size(), _output_activations, _input_gradients,
    _zero_mask_idxs, and how many values were drawn from _random_generator so far. *)
Record dropl := mkDrop {
  d_p : T; d_scale : T; d_size : nat; d_out : list T; d_ig : list T; d_mask : list nat; d_pos : nat
}.

(** Constructor, dropout.cpp 36-45; buffers from feedforward.cpp 30-41. *)
Definition drop_new (size : nat) (p : T) : dropl :=
  mkDrop p (if neqb p n1 then n1 else ndiv n1 (nsub n1 p)) size
    (repeat n0 size) (repeat n0 size) [] 0.

(** training_forward, dropout.cpp 47-72. [draw k]: the value of the distribution
    uniform_pdf(0.5, 1.0) for the k-th number of the generator. *)
Definition drop_tforward (draw : nat -> T) (d : dropl) (x : list T) : res dropl :=
  '(o, mask) <- for_ (d_size d) (fun i st =>
      let '(o, mask) := st in
      if nltb (d_p d) (draw (d_pos d + i)) then
        v <- rd x i ;; o <- wr o i (nmul v (d_scale d)) ;; Ok (o, mask)
      else o <- wr o i n0 ;; Ok (o, mask ++ [i])) (d_out d, []) ;;
  Ok (mkDrop (d_p d) (d_scale d) (d_size d) o (d_ig d) mask (d_pos d + d_size d)).

(** forward, dropout.hpp 69-74: the argument is returned, _output_activations is not
    written. *)
Definition drop_forward (d : dropl) (x : list T) : dropl * list T := (d, x).

(** backward, dropout.cpp 74-87 *)
Definition drop_backward (d : dropl) (g : list T) : res dropl :=
  ig <- arr_mul_val (d_ig d) g (d_scale d) (d_size d) ;;
  ig <- foldM (fun ig i => wr ig i n0) (d_mask d) ig ;;
  Ok (mkDrop (d_p d) (d_scale d) (d_size d) (d_out d) ig (d_mask d) (d_pos d)).

(** *** Layers of a model *)
Inductive losskind := CCE | MSE (tol : T).
Inductive node := NL (l : layer T) | ND (d : dropl) | NO (k : losskind) (l : lossl T).

Definition loss_forward (k : losskind) (l : lossl T) (x : list T) : lossl T * res unit :=
  match k with CCE => cce_forward l x | MSE tol => mse_forward tol l x end.
Definition loss_backward (k : losskind) (l : lossl T) (last : list T) : res (list T) :=
  match k with CCE => cce_backward l last | MSE _ => mse_backward l last end.
Definition set_grad (l : lossl T) (g : list T) : lossl T :=
  mkLoss (ls_in l) (ls_target l) g (ls_inv l) (ls_loss l) (ls_cum l) (ls_cor l) (ls_inc l).

(** The state reached by a call that throws is not kept: no theorem about models speaks
    about the state after an exception. *)
Definition n_forward (s : node) (x : list T) : res node :=
  match s with
  | NL l => l' <- layer_forward l x ;; Ok (NL l')
  | ND d => Ok (ND (fst (drop_forward d x)))
  | NO k l => let '(l', r) := loss_forward k l x in _ <- r ;; Ok (NO k l')
  end.
(** layer.cpp 117-122: forward after storing the input pointer *)
Definition n_tforward (draw : nat -> T) (s : node) (x : list T) : res node :=
  match s with
  | ND d => d' <- drop_tforward draw d x ;; Ok (ND d')
  | _ => n_forward s x
  end.
Definition n_backward (s : node) (last g : list T) : res node :=
  match s with
  | NL l => l' <- layer_backward l last g ;; Ok (NL l')
  | ND d => d' <- drop_backward d g ;; Ok (ND d')
  | NO k l => g' <- loss_backward k l last ;; Ok (NO k (set_grad l g'))
  end.
(** last_output: feedforward.hpp 63-66, loss.hpp 151-154 *)
Definition n_output (s : node) : res (list T) :=
  match s with NL l => Ok (out l) | ND d => Ok (d_out d) | NO _ _ => Throw end.
(** last_input_gradient: feedforward.hpp 53-56, loss.hpp 142-145 *)
Definition n_gradient (s : node) : list T :=
  match s with NL l => ig l | ND d => d_ig d | NO _ l => ls_grad l end.
Definition n_target (s : node) (t : list T) : node :=
  match s with NO k l => NO k (set_target l t) | _ => s end.

Definition node_ops (draw : nat -> T) : nodeops T node :=
  mkOps n_forward (n_tforward draw) n_backward n_output n_gradient n_target.

(** *** Training *)
(** A dense layer's parameters as the optimizer sees them (dense.cpp 117-141). *)
Definition layer_player (l : layer T) : player T :=
  match knd l with
  | KDense => mkPlayer (PDense (insz l) (length (bias l))) [wts l; bias l] [wgrad l; bgrad l]
  | KAct _ => mkPlayer PNone [] []
  end.
Definition with_player (l : layer T) (p : player T) : layer T :=
  match knd l with
  | KDense =>
      mkLayer (knd l) (insz l) (nth 0 (pblocks p) []) (nth 1 (pblocks p) [])
        (nth 0 (gblocks p) []) (nth 1 (gblocks p) []) (out l) (ig l)
  | KAct _ => l
  end.
Definition n_train (eta : T) (s : node) : res node :=
  match s with
  | NL l => p <- gd_train eta (layer_player l) ;; Ok (NL (with_player l p))
  | _ => Ok s
  end.
(** Model::train(o) with gradient descent, model.cpp 161-185 *)
Definition m_train (eta : T) (m : model node) : res (model node) :=
  ns <- mapM (fun sp : node * source => s' <- n_train eta (fst sp) ;; Ok (s', snd sp)) (mnodes m) ;;
  Ok (mkModel (mgraph m) ns).
(** Model::reset_score, model.cpp 187-193 *)
Definition m_reset_score (m : model node) : res (model node) :=
  ns <- foldM (fun ns i =>
      '(s, p) <- rd ns i ;;
      wr ns i (match s with NO k l => NO k (reset_score l) | s => s end, p))
    (losses (mgraph m)) (mnodes m) ;;
  Ok (mkModel (mgraph m) ns).
End Nodes.
Arguments dropl T : clear implicits.
Arguments losskind T : clear implicits.
Arguments node T : clear implicits.
