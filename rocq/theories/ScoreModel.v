(** The score of a model: Model::accuracy and Model::avg_loss (/repo/source/dnn/model.cpp). *)
From Verif Require Import Base Num MathModel LossModel GraphModel ModelModel NodeModel.

Section Score.
Context {T : Type} `{NumOps T}.

(** An element of _state.loss_layers; the container holds pointers to LossLayer (model.hpp). *)
Definition loss_at (m : model (node T)) (i : nat) : res (lossl T) :=
  '(s, _) <- rd (mnodes m) i ;; match s with NO _ l => Ok l | _ => UB end.
(** model.cpp 297-304 and 306-313: the sum over the loss layers, divided by their number *)
Definition m_mean (f : lossl T -> T) (m : model (node T)) : res T :=
  sum <- foldM (fun a i => l <- loss_at m i ;; Ok (nadd a (f l))) (losses (mgraph m)) n0 ;;
  Ok (ndiv sum (nofnat (length (losses (mgraph m))))).
Definition m_accuracy : model (node T) -> res T := m_mean accuracy.
Definition m_avg_loss : model (node T) -> res T := m_mean avg_loss.
End Score.
