(** Models with recurrent layers (/repo/source/dnn/recurrent.cpp, recurrent.hpp; the functions are
    those of RecurrentModel) next to dense and activation layers and losses. *)
From Verif Require Import Base Num MathModel LayerModel LossModel OptModel GraphModel ModelModel NodeModel RecurrentModel.

Section Rnn.
Context {T : Type} `{NumOps T} `{TransOps T} `{LimOps T}.

Inductive rnode := RL (l : layer T) | RR (r : recl T) | RO (k : losskind T) (l : lossl T).

Definition r_forward (s : rnode) (x : list T) : res rnode :=
  match s with
  | RL l => l' <- layer_forward l x ;; Ok (RL l')
  | RR r => r' <- rec_forward r x ;; Ok (RR r')
  | RO k l => let '(l', r) := loss_forward k l x in _ <- r ;; Ok (RO k l')
  end.
Definition r_backward (s : rnode) (last g : list T) : res rnode :=
  match s with
  | RL l => l' <- layer_backward l last g ;; Ok (RL l')
  | RR r => r' <- rec_backward r last g ;; Ok (RR r')
  | RO k l => g' <- loss_backward k l last ;; Ok (RO k (set_grad l g'))
  end.
(** last_output: feedforward.hpp 63-66, recurrent.cpp 364-367, loss.hpp 151-154 *)
Definition r_output (s : rnode) : res (list T) :=
  match s with RL l => Ok (out l) | RR r => Ok (r_act r) | RO _ _ => Throw end.
(** last_input_gradient: feedforward.hpp 53-56, recurrent.cpp 359-362, loss.hpp 142-145 *)
Definition r_gradient (s : rnode) : list T :=
  match s with RL l => ig l | RR r => r_ig r | RO _ l => ls_grad l end.
Definition r_target (s : rnode) (t : list T) : rnode :=
  match s with RO k l => RO k (set_target l t) | _ => s end.
(** None of these layers overrides training_forward (layer.cpp 117-122). *)
Definition rnn_ops : nodeops T rnode := mkOps r_forward r_forward r_backward r_output r_gradient r_target.

(** time_steps(n) and reset_hidden_state() (recurrent.hpp 118-125, 132-138) called on every
    recurrent layer of a model; the layers are held by the caller as well. *)
Definition on_rec (f : recl T -> recl T) (m : model rnode) : model rnode :=
  mkModel (mgraph m) (map (fun sp => (match fst sp with RR r => RR (f r) | s => s end, snd sp)) (mnodes m)).
Definition set_steps (n : nat) : model rnode -> model rnode := on_rec (fun r => rec_time_steps r n).
Definition reset_states : model rnode -> model rnode := on_rec rec_reset.

(** Predictions one after the other *)
Fixpoint predict_all (m : model rnode) (xs : list (list T)) : res (model rnode * list (list T)) :=
  match xs with
  | [] => Ok (m, [])
  | x :: xs => '(m, y) <- m_predict rnn_ops m x ;; '(m, ys) <- predict_all m xs ;; Ok (m, y :: ys)
  end.
End Rnn.
Arguments rnode T : clear implicits.
