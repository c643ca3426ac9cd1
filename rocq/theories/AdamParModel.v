(** Parallel training with Adam: Training<THREAD_PARALLELISM_ON_DATA_ENTRY>::run and
    Training<THREAD_PARALLELISM_ON_DATA_BATCH>::run (fnn.hpp 78-159) with an AdamOptimizer. *)
From Verif Require Import Base Num DatasetModel MathModel LayerModel LossModel OptModel GraphModel ModelModel NodeModel CopyModel FitModel InitModel DynModel.

Section AdamPar.
Context {T : Type} `{NumOps T} `{TransOps T} `{LimOps T}.

(** Model::train(o, m), model.cpp 166-185: copy [c] supplies the gradients; the parameters are
    shared; the optimizer is the one object of the main thread. *)
Definition train_copy_adam (a : adam T) (w : world T) (c : nat) : res (adam T * world T) :=
  '(w, a) <- on_copy w c (fun m => '(a, m') <- m_train_adam a m ;; Ok (m', a)) ;; Ok (a, w).
(** As [par_step] of FitModel (fnn.hpp 89-109, 126-153): tasks run in one piece. *)
Definition apar_step (draw : nat -> T) (tasks : list (list (list T * list T)))
    (st : adam T * world T * list (nat * nat)) (e : pev) : res (adam T * world T * list (nat * nat)) :=
  let '(a, w, fin) := st in
  match e with
  | PRun j =>
      rows <- rd tasks j ;;
      '(w, c) <- run_task draw w rows ;;
      Ok (a, w, (j, c) :: fin)
  | PTrain j =>
      match find (fun jc => fst jc =? j) fin with
      | Some (_, c) => '(a, w) <- train_copy_adam a w c ;; Ok (a, w, fin)
      | None => UB
      end
  end.
Definition apar_batch (draw : nat -> T) (tasks : list (list (list T * list T)))
    (evs : list pev) (aw : adam T * world T) : res (adam T * world T) :=
  '(a, w, _) <- foldM (apar_step draw tasks) evs (aw, []) ;; Ok (a, w).
(** All rounds of all epochs: row numbers of the tasks and the order of events of every round,
    fnn.hpp 82-114, 121-157; the optimizer is made once, 259-270. *)
Definition apar_fit (draw : nat -> T) (eta : T) (d : dataset T) (rounds : list (list (list nat) * list pev))
    (w : world T) : res (adam T * world T) :=
  foldM (fun aw r =>
    let '(a, w) := aw in
    '(w, _) <- wstep draw w (WReset 0) ;;
    tasks <- mapM (task_rows d) (fst r) ;;
    apar_batch draw tasks (snd r) (a, w)) rounds (adam_default eta, w).
End AdamPar.
