(** Training loops (/repo/source/middleware/fnn.hpp 49-157). *)
From Verif Require Import Base Num DatasetModel MathModel LayerModel LossModel OptModel GraphModel ModelModel NodeModel CopyModel.

(** *** Training<SEQUENTIAL>::run, 54-76 *)
Section Sequential.
Context {M : Type}.
(** model.step(data.input(i), data.label(i)), model.reset_score(), model.train(o) *)
Variables (step : M -> nat -> res M) (reset train : M -> res M).

(** The inner for loop, 65-70; [b] rounds left. *)
Fixpoint batch_steps (b size i : nat) (m : M) : res (M * nat) :=
  match b with
  | O => Ok (m, i)
  | S b' => if i <? size then m' <- step m i ;; batch_steps b' size (S i) m' else Ok (m, i)
  end.

(** The loop over i, 62-74. [None]: not finished within [fuel] rounds. *)
Fixpoint epoch (fuel size bs i : nat) (m : M) : option (res M) :=
  if i <? size then
    match fuel with
    | O => None
    | S f =>
        match (m1 <- reset m ;;
               '(m2, j) <- batch_steps bs size i m1 ;;
               m3 <- train m2 ;; Ok (m3, j)) with
        | Ok (m3, j) => epoch f size bs j m3
        | Throw => Some Throw
        | UB => Some UB
        end
    end
  else Some (Ok m).

(** The loop over epochs, 60-75; [fuel] rounds for each. *)
Fixpoint fit_run (fuel epochs size bs : nat) (m : M) : option (res M) :=
  match epochs with
  | O => Some (Ok m)
  | S e =>
      match epoch fuel size bs 0 m with
      | Some (Ok m') => fit_run fuel e size bs m'
      | r => r
      end
  end.
End Sequential.

Section Networks.
Context {T : Type} `{NumOps T} `{TransOps T} `{LimOps T}.

Definition row_step (draw : nat -> T) (d : dataset T) (m : model (node T)) (i : nat) : res (model (node T)) :=
  x <- ds_input n0 d i ;; t <- ds_label n0 d i ;; m_step (node_ops draw) m x t.
Definition fit_sequential (draw : nat -> T) (eta : T) (d : dataset T) (fuel epochs bs : nat) (m : model (node T)) :=
  fit_run (row_step draw d) m_reset_score (m_train eta) fuel epochs (ds_size d) bs m.

(** *** One batch of Training<THREAD_PARALLELISM_ON_DATA_ENTRY>::run (89-109) and of
    Training<THREAD_PARALLELISM_ON_DATA_BATCH>::run (126-153) *)
(** Model 0 of the world is [model]. Task j copies it and steps through its rows (one row
    for each task in the first function). The main thread takes the results in order and
    trains with each. [PRun j]: task j runs; [PTrain j]: the j-th round of the last loop.
    A task is executed in one piece here; in the code its accesses can also interleave with
    those of the main thread. The copies made when a model is returned through the future
    are left out. *)
Inductive pev := PRun (j : nat) | PTrain (j : nat).

Definition run_task (draw : nat -> T) (w : world T) (rows : list (list T * list T)) : res (world T * nat) :=
  '(w, _) <- wstep draw w (WCopy 0) ;;
  let c := length (w_models w) - 1 in
  w <- wsteps draw (map (fun xt => WStep c (fst xt) (snd xt)) rows) w ;;
  Ok (w, c).

(** State: the world, and for every finished task the number of its model. *)
Definition par_step (draw : nat -> T) (eta : T) (tasks : list (list (list T * list T)))
    (st : world T * list (nat * nat)) (e : pev) : res (world T * list (nat * nat)) :=
  let '(w, fin) := st in
  match e with
  | PRun j =>
      rows <- rd tasks j ;;
      '(w, c) <- run_task draw w rows ;;
      Ok (w, (j, c) :: fin)
  | PTrain j =>
      match find (fun jc => fst jc =? j) fin with
      | Some (_, c) => '(w, _) <- wstep draw w (WTrain eta c) ;; Ok (w, fin)
      | None => UB
      end
  end.
Definition par_batch (draw : nat -> T) (eta : T) (tasks : list (list (list T * list T)))
    (evs : list pev) (w : world T) : res (world T) :=
  '(w, _) <- foldM (par_step draw eta tasks) evs (w, []) ;; Ok w.

(** The tasks of each round of the loop over i, as row numbers; [None]: not finished within
    [fuel] rounds. On data entries (88-110): one row for every task, up to batch_size tasks.
    On data batches (125-154): [conc] = tm.concurrency() tasks of up to batch_size rows; i
    grows by batch_size for every task. *)
Fixpoint entry_rounds (fuel size bs i : nat) : option (list (list (list nat))) :=
  if i <? size then
    match fuel with
    | O => None
    | S f =>
        let c := min bs (size - i) in
        match entry_rounds f size bs (i + c) with
        | Some r => Some (map (fun j => [j]) (seq i c) :: r)
        | None => None
        end
    end
  else Some [].
Fixpoint batch_rounds (fuel conc size bs i : nat) : option (list (list (list nat))) :=
  if i <? size then
    match fuel with
    | O => None
    | S f =>
        match batch_rounds f conc size bs (i + conc * bs) with
        | Some r => Some (map (fun t => seq (i + t * bs) (min bs (size - (i + t * bs)))) (seq 0 conc) :: r)
        | None => None
        end
    end
  else Some [].

(** data.input(idx), data.label(idx) for the rows of a task *)
Definition task_rows (d : dataset T) (is : list nat) : res (list (list T * list T)) :=
  mapM (fun i => x <- ds_input n0 d i ;; t <- ds_label n0 d i ;; Ok (x, t)) is.

(** The rounds of all epochs, each with the order in which its tasks and trainings happen. *)
Definition par_fit (draw : nat -> T) (eta : T) (d : dataset T) (rounds : list (list (list nat) * list pev))
    (w : world T) : res (world T) :=
  foldM (fun w r =>
    '(w, _) <- wstep draw w (WReset 0) ;;
    tasks <- mapM (task_rows d) (fst r) ;;
    par_batch draw eta tasks (snd r) w) rounds w.

(** Orders in which all tasks finish before the first training. *)
Definition barrier (p : list nat) : list pev := map PRun p ++ map PTrain (seq 0 (length p)).
End Networks.
