(** Single accesses of the parallel training loops to the shared parameters
    (fnn.hpp 77-155), and data races. *)
From Verif Require Import Base Num DatasetModel MathModel LayerModel LossModel OptModel GraphModel ModelModel NodeModel CopyModel FitModel Conc ThreadModel.

(** *** Tasks that only read shared memory *)
(** A shared parameter: layer, weights ([false]) or biases ([true]), index. All copies of a
    model use the same vectors (SharedParams, type.hpp 59-102). *)
Definition ploc := (nat * bool * nat)%type.

Section Shared.
Context {T : Type}.
Definition pmem := list (list T * list T).

Definition get (mem : pmem) (l : ploc) : res T :=
  let '(i, b, j) := l in p <- rd mem i ;; rd (if b then snd p else fst p) j.
Definition put (mem : pmem) (l : ploc) (v : T) : res pmem :=
  let '(i, b, j) := l in
  p <- rd mem i ;;
  if b then (q <- wr (snd p) j v ;; wr mem i (fst p, q)) else (q <- wr (fst p) j v ;; wr mem i (q, snd p)).

(** A task: reads shared parameters one at a time; everything else it does is on its own
    data and is part of the continuation. *)
Inductive rprog (A : Type) : Type :=
| RRet (a : A) | RLoad (l : ploc) (k : T -> rprog A) | RThrow | RUB.
Arguments RRet {A}. Arguments RLoad {A}. Arguments RThrow {A}. Arguments RUB {A}.

Fixpoint rbind {A B} (p : rprog A) (f : A -> rprog B) : rprog B :=
  match p with
  | RRet a => f a | RLoad l k => RLoad l (fun v => rbind (k v) f) | RThrow => RThrow | RUB => RUB
  end.
Definition own {A} (r : res A) : rprog A := match r with Ok a => RRet a | Throw => RThrow | UB => RUB end.
Definition load (l : ploc) : rprog T := RLoad l RRet.
Fixpoint rfor_from {S} (i n : nat) (body : nat -> S -> rprog S) (s : S) : rprog S :=
  match n with O => RRet s | Datatypes.S m => rbind (body i s) (rfor_from (Datatypes.S i) m body) end.
Definition rfor {S} (n : nat) (body : nat -> S -> rprog S) (s : S) : rprog S := rfor_from 0 n body s.
Fixpoint rfold {A S} (f : S -> A -> rprog S) (l : list A) (s : S) : rprog S :=
  match l with [] => RRet s | a :: l => rbind (f s a) (rfold f l) end.

(** The task alone, on memory nobody writes. *)
Fixpoint alone {A} (mem : pmem) (p : rprog A) : res A :=
  match p with
  | RRet a => Ok a | RLoad l k => v <- get mem l ;; alone mem (k v) | RThrow => Throw | RUB => UB
  end.
End Shared.
Arguments pmem T : clear implicits.
Arguments rprog T A : clear implicits.
Arguments RRet {T A}. Arguments RLoad {T A}. Arguments RThrow {T A}. Arguments RUB {T A}.

Section Tasks.
Context {T : Type} `{NumOps T} `{TransOps T} `{LimOps T}.

(** dense, dlmath.hpp 1784-1798, on the parameters of layer [c]. *)
Definition r_dense_row (c : nat) (dst src : list T) (inp i : nat) : rprog T (list T) :=
  rbind (load (c, true, i)) (fun b =>
  rbind (own (wr dst i b)) (fun dst =>
  rfor inp (fun j dst =>
    rbind (load (c, false, i * inp + j)) (fun m =>
    own (x <- rd src j ;; v <- rd dst i ;; wr dst i (nadd v (nmul m x))))) dst)).
Definition r_dense (c : nat) (dst src : list T) (inp out : nat) : rprog T (list T) :=
  rfor out (fun i dst => r_dense_row c dst src inp i) dst.

(** dense_1, dlmath.hpp 1852-1871, on the weights of layer [c]. *)
Definition r_dense_1_row (c : nat) (g last : list T) (inp i : nat) (st : list T * list T * list T)
  : rprog T (list T * list T * list T) :=
  let '(ig, wg, bg) := st in
  rbind (own (gi <- rd g i ;; b <- rd bg i ;; wr bg i (nadd b gi))) (fun bg =>
  rfor inp (fun j '(ig, wg, bg) =>
    rbind (own (gi <- rd g i ;; x <- rd last j ;;
                v <- rd wg (i * inp + j) ;; wg <- wr wg (i * inp + j) (nadd v (nmul gi x)) ;; Ok (gi, wg)))
      (fun '(gi, wg) =>
    rbind (load (c, false, i * inp + j)) (fun m =>
    own (v <- rd ig j ;; ig <- wr ig j (nadd v (nmul gi m)) ;; Ok (ig, wg, bg))))) (ig, wg, bg)).
Definition r_dense_1 (c : nat) (ig wg bg g last : list T) (inp out : nat)
  : rprog T (list T * list T * list T) :=
  rbind (own (fill0 ig inp)) (fun ig => rfor out (fun i st => r_dense_1_row c g last inp i st) (ig, wg, bg)).

(** dense.cpp 83-115 and activation.cpp, as [layer_forward] and [layer_backward], layer [c]
    of a copy. The copy's fields [wts] and [bias] are not used. *)
Definition r_layer_forward (c : nat) (l : layer T) (x : list T) : rprog T (layer T) :=
  match knd l with
  | KDense => rbind (r_dense c (out l) x (length x) (length (out l))) (fun o => RRet (set_out l o))
  | KAct a => own (layer_forward l x)
  end.
Definition r_layer_backward (c : nat) (l : layer T) (last g : list T) : rprog T (layer T) :=
  match knd l with
  | KDense =>
      rbind (r_dense_1 c (ig l) (wgrad l) (bgrad l) g last (insz l) (length g)) (fun '(i, wg, bg) =>
      RRet (mkLayer (knd l) (insz l) (wts l) (bias l) wg bg (out l) i))
  | KAct a => own (layer_backward l last g)
  end.

(** Model::step of a copy (model.cpp 195-242) on a chain of layers and a loss: as
    [chain_forward], [chain_backward] and the loss. *)
Fixpoint r_chain_forward (c : nat) (ls : list (layer T)) (x : list T) : rprog T (list (layer T) * list T) :=
  match ls with
  | [] => RRet ([], x)
  | l :: ls' =>
      rbind (r_layer_forward c l x) (fun l' =>
      rbind (r_chain_forward (S c) ls' (out l')) (fun '(ls'', y) => RRet (l' :: ls'', y)))
  end.
Fixpoint r_chain_backward (c : nat) (ls : list (layer T)) (x g : list T) : rprog T (list (layer T) * list T) :=
  match ls with
  | [] => RRet ([], g)
  | l :: ls' =>
      rbind (r_chain_backward (S c) ls' (out l) g) (fun '(ls'', g') =>
      rbind (r_layer_backward c l x g') (fun l' => RRet (l' :: ls'', ig l')))
  end.
Definition r_step (kd : losskind T) (st : list (layer T) * lossl T) (xt : list T * list T)
  : rprog T (list (layer T) * lossl T) :=
  let '(ls, lo) := st in
  rbind (r_chain_forward 0 ls (fst xt)) (fun '(ls1, y) =>
  rbind (own (let '(lo1, r) := loss_forward kd (set_target lo (snd xt)) y in
              _ <- r ;; g <- loss_backward kd lo1 y ;; Ok (lo1, g))) (fun '(lo1, g) =>
  rbind (r_chain_backward 0 ls1 (fst xt) g) (fun '(ls2, _) => RRet (ls2, set_grad lo1 g)))).

(** A task, fnn.hpp 95-100 and 134-145: copy the model (its layers [ls] and loss [lo]), step
    through the rows. *)
Definition r_task (kd : losskind T) (ls : list (layer T)) (lo : lossl T) (rows : list (list T * list T))
  : rprog T (list (layer T) * lossl T) := rfold (r_step kd) rows (ls, lo).

(** *** The main thread *)
(** model.train(o, m) (model.cpp 166-185) with gradient descent (gd_optimizer.cpp 38-56) reads
    and writes the parameters in the order of Layer::param (dense.cpp 117-143). Gradients of
    the copy are its own. *)
Definition updates_of (c : nat) (l : layer T) : list (ploc * T) :=
  match knd l with
  | KDense => map (fun jg : nat * T => ((c, false, fst jg), snd jg)) (combine (seq 0 (length (wgrad l))) (wgrad l)) ++
              map (fun jg : nat * T => ((c, true, fst jg), snd jg)) (combine (seq 0 (length (bgrad l))) (bgrad l))
  | KAct _ => []
  end.
Fixpoint updates (c : nat) (ls : list (layer T)) : list (ploc * T) :=
  match ls with [] => [] | l :: ls => updates_of c l ++ updates (S c) ls end.

(** fnn.hpp 105-108, 149-152. [MWait j]: about to wait for task j. [MTrain j us]: training
    with the result of task j, the updates [us] to do. [MStore j l v us]: has read
    parameter [l] and is about to write [v]. *)
Inductive mainst := MWait (j : nat) | MTrain (j : nat) (us : list (ploc * T)) | MStore (j : nat) (l : ploc) (v : T) (us : list (ploc * T)).

Definition task := rprog T (list (layer T) * lossl T).
Record rstate := mkRS { r_tasks : list task; r_main : mainst; r_mem : pmem T }.
Inductive rev_ := ETask (i : nat) | EGet | ELoad | EStore | ENext.

(** One access (or one step of the main thread without an access). *)
Inductive rstep (eta : T) : rstate -> rev_ -> rstate -> Prop :=
| rs_task : forall ts mn mem i l k v, nth_error ts i = Some (RLoad l k) -> get mem l = Ok v ->
    rstep eta (mkRS ts mn mem) (ETask i) (mkRS (upd ts i (k v)) mn mem)
| rs_get : forall ts mem j ls lo, nth_error ts j = Some (RRet (ls, lo)) ->
    rstep eta (mkRS ts (MWait j) mem) EGet (mkRS ts (MTrain j (updates 0 ls)) mem)
| rs_load : forall ts mem j l g us v, get mem l = Ok v ->
    rstep eta (mkRS ts (MTrain j ((l, g) :: us)) mem) ELoad (mkRS ts (MStore j l (nsub v (nmul eta g)) us) mem)
| rs_store : forall ts mem mem' j l v us, put mem l v = Ok mem' ->
    rstep eta (mkRS ts (MStore j l v us) mem) EStore (mkRS ts (MTrain j us) mem')
| rs_next : forall ts mem j, rstep eta (mkRS ts (MTrain j []) mem) ENext (mkRS ts (MWait (S j)) mem).

Inductive rsteps (eta : T) : rstate -> list rev_ -> rstate -> Prop :=
| rss_refl : forall s, rsteps eta s [] s
| rss_step : forall s1 es s2 e s3, rsteps eta s1 es s2 -> rstep eta s2 e s3 -> rsteps eta s1 (es ++ [e]) s3.

Definition round_start (kd : losskind T) (ls : list (layer T)) (lo : lossl T)
    (tasks : list (list (list T * list T))) (mem : pmem T) : rstate :=
  mkRS (map (r_task kd ls lo) tasks) (MWait 0) mem.
Definition round_over (s : rstate) : Prop := r_main s = MWait (length (r_tasks s)).

(** All rounds of a fit: the accesses of every round, one after the other. The main thread
    calls reset_score before each. *)
Inductive fine_fit (eta : T) (d : dataset T) (kd : losskind T) (ls : list (layer T)) (lo : lossl T)
  : list (list (list nat) * list rev_) -> pmem T -> pmem T -> Prop :=
| ff_nil : forall mem, fine_fit eta d kd ls lo [] mem mem
| ff_round : forall b es rounds mem tasks s mem',
    mapM (task_rows d) b = Ok tasks ->
    rsteps eta (round_start kd ls (reset_score lo) tasks mem) es s -> round_over s ->
    fine_fit eta d kd ls lo rounds (r_mem s) mem' ->
    fine_fit eta d kd ls lo ((b, es) :: rounds) mem mem'.
End Tasks.
Arguments mainst T : clear implicits.
Arguments rstate T : clear implicits.
Arguments task T : clear implicits.
