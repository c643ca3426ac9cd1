(** The high-level network: prediction and evaluation of data sets
    (/repo/source/middleware/fnn.hpp 229-242, nn.hpp 138-153). *)
From Verif Require Import Base Num DatasetModel MathModel LayerModel LossModel GraphModel ModelModel NodeModel.

Section Fnn.
Context {T : Type} `{NumOps T} `{TransOps T} `{LimOps T}.

(** output_size() of a layer: layer.hpp; loss.cpp 34-38 (0 for losses). *)
Definition n_output_size (s : node T) : nat :=
  match s with NL l => length (out l) | ND d => d_size d | NO _ _ => 0 end.
(** Model::output_size(0), model.cpp 254-262 *)
Definition m_output_size (m : model (node T)) : nat :=
  match outputs (mgraph m) with
  | [] => 0
  | o :: _ => match nth_error (mnodes m) o with Some (s, _) => n_output_size s | None => 0 end
  end.

(** EdgeFeedforwardNeuralNetwork::predict, fnn.hpp 229-242. The model is part of the result:
    predictions overwrite the layers' buffers. *)
Definition fnn_predict (draw : nat -> T) (m : model (node T)) (d : dataset T)
  : res (model (node T) * dataset T) :=
  let os := m_output_size m in
  '(m, ret) <- for_ (ds_size d) (fun i st =>
      let '(m, ret) := st in
      x <- ds_entry d i ;;
      '(m, y) <- m_predict (node_ops draw) m x ;;
      ret <- for_ (length y) (fun j ret => v <- rd y j ;; wr ret (i * os + j) v) ret ;;
      Ok (m, ret)) (m, repeat n0 (ds_size d * os)) ;;
  Ok (m, ds_vec n0 ret os 1 []).

(** NeuralNetwork::evaluate_static, nn.hpp 138-153; the loss layer that holds the result.
    The returned figures are [avg_loss] and [accuracy] of it. *)
Definition fnn_evaluate (draw : nat -> T) (kd : losskind T) (m : model (node T)) (d : dataset T)
  : res (model (node T) * lossl T) :=
  let l := loss_new (m_output_size m) 1 in
  di <- ds_inputs n0 d ;;
  '(m, r) <- fnn_predict draw m di ;;
  l <- for_ (ds_size r) (fun i l =>
      t <- ds_label n0 d i ;;
      y <- ds_entry r i ;;
      let '(l', e) := loss_forward kd (set_target l t) y in
      _ <- e ;; Ok l') l ;;
  Ok (m, l).
(** EvaluationResult, nn.hpp 66-71: accuracy_perc, error_rate, error_rate_perc *)
Definition evaluation (l : lossl T) : list T :=
  let a := accuracy l in
  [avg_loss l; a; nmul a (nofZ 100); nsub n1 a; nmul (nsub n1 a) (nofZ 100)].
End Fnn.
