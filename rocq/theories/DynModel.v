(** Networks chosen at run time: DynamicNeuralNetwork and the calls users make on it
    (/repo/source/middleware/nn.hpp 159-349), the compile-time FeedforwardNeuralNetwork
    (middleware/fnn.hpp 400-439), and the network of this library behind both (fnn.hpp 159-385). *)
From Verif Require Import Base Num DatasetModel MathModel LayerModel LossModel OptModel GraphModel ModelModel NodeModel
  BuilderModel CopyModel FnnModel FitModel InitModel.

(** LossType, OptimizerType: definitions.hpp 82-92. InitType (94-99) is mapped one to one to
    Model's InitializationFunction (199-215): [minit]. *)
Inductive losst := LtCCE | LtMSE.
Inductive optt := OGd | OAdam.

(** How a call ends. [RStuck]: undefined behaviour, or no end, or outside of the model. *)
Inductive result (A : Type) := RVal (a : A) | RThrow | RStuck.
Arguments RVal {A}. Arguments RThrow {A}. Arguments RStuck {A}.

Section Dynamic.
(** Layer descriptors, network objects, data sets, the other arguments of fit (epochs,
    batch_size, learning_rate, seed), predictions, evaluation results. *)
Context {L SN D P Y V : Type}.

(** StaticNeuralNetwork and NeuralNetwork, nn.hpp 51-189: the class
    MM<F, loss, init, PL, T>::type, a template parameter of DynamicNeuralNetwork. The object is
    part of every result, also of calls that throw. *)
Record static := mkStatic {
  s_new : losst -> minit -> SN;
  s_add : SN -> L -> SN * result unit;
  s_predict : SN -> D -> SN * result Y;
  s_fit : SN -> optt -> D -> P -> SN * result unit;
  s_evaluate : losst -> SN -> D -> SN * result V;
  s_input_size : SN -> nat;
  s_output_size : SN -> nat
}.
Variable st : static.

(** for (const auto& l: layers) model.add(l): nn.hpp 286-289, fnn.hpp 409-412 *)
Fixpoint add_all (s : SN) (ls : list L) : SN * result unit :=
  match ls with
  | [] => (s, RVal tt)
  | l :: ls' =>
      match s_add st s l with
      | (s', RVal _) => add_all s' ls'
      | r => r
      end
  end.

(** The members _model_ptr, _layers, _optimizer, _loss; constructor, nn.hpp 231-237. *)
Record dnet := mkDnet { d_model : option SN; d_layers : list L; d_opt : optt; d_loss : losst }.
Definition dnew (ls : list L) : dnet := mkDnet None ls OGd LtCCE.

(** compile, nn.hpp 239-290. The last else branch is for values outside the enumerations. *)
Definition d_compile (d : dnet) (l : losst) (o : optt) (i : minit) : dnet * result unit :=
  let '(s, r) := add_all (s_new st l i) (d_layers d) in
  (mkDnet (Some s) (d_layers d) o l, r).

(** compile(): the default arguments, nn.hpp 239-241 *)
Definition d_default (d : dnet) : dnet * result unit := d_compile d LtMSE OAdam MAuto.

Inductive call :=
| Compile (l : losst) (o : optt) (i : minit)
| Predict (x : D) | Fit (x : D) (p : P) | Evaluate (x : D) | InputSize | OutputSize.
Inductive outcome := OThrow | OStuck | OUnit | OPredict (y : Y) | OEvaluate (v : V) | OSize (n : nat).
Definition ends {A} (f : A -> outcome) (r : result A) : outcome :=
  match r with RVal a => f a | RThrow => OThrow | RStuck => OStuck end.
Definition nothing (_ : unit) : outcome := OUnit.

Definition with_model (d : dnet) (s : SN) : dnet := mkDnet (Some s) (d_layers d) (d_opt d) (d_loss d).
(** if (!_model_ptr) compile(): nn.hpp 294-297, 318-321, 327-330 *)
Definition compiled (d : dnet) (k : dnet -> SN -> dnet * outcome) : dnet * outcome :=
  match d_model d with
  | Some s => k d s
  | None =>
      match d_default d with
      | (d', RVal _) => match d_model d' with Some s => k d' s | None => (d', OStuck) end
      | (d', r) => (d', ends nothing r)
      end
  end.

(** One call, nn.hpp 239-342 *)
Definition dstep (d : dnet) (c : call) : dnet * outcome :=
  match c with
  | Compile l o i => let '(d', r) := d_compile d l o i in (d', ends nothing r)
  | Predict x => compiled d (fun d s => let '(s', r) := s_predict st s x in (with_model d s', ends OPredict r))
  | InputSize => compiled d (fun d s => (d, OSize (s_input_size st s)))
  | OutputSize => compiled d (fun d s => (d, OSize (s_output_size st s)))
  | Fit x p =>
      match d_model d with
      | None => (d, OThrow)
      | Some s => let '(s', r) := s_fit st s (d_opt d) x p in (with_model d s', ends nothing r)
      end
  | Evaluate x =>
      match d_model d with
      | None => (d, OThrow)
      | Some s => let '(s', r) := s_evaluate st (d_loss d) s x in (with_model d s', ends OEvaluate r)
      end
  end.
Fixpoint drun (d : dnet) (cs : list call) : dnet * list outcome :=
  match cs with
  | [] => (d, [])
  | c :: cs' =>
      let '(d1, o) := dstep d c in
      let '(d2, os) := drun d1 cs' in (d2, o :: os)
  end.

(** *** FeedforwardNeuralNetwork<F, l, i>, fnn.hpp 400-439 *)
(** Constructor, 405-413: an exception leaves no object. *)
Definition construct (l : losst) (i : minit) (ls : list L) : result SN :=
  match add_all (s_new st l i) ls with
  | (s, RVal _) => RVal s
  | (_, RThrow) => RThrow
  | (_, RStuck) => RStuck
  end.
(** predict, fit and evaluate, 415-434, with the optimizer [o] given to every fit. The sizes
    are those of SubModelType. There is no compile. *)
Definition sstep (l : losst) (o : optt) (s : SN) (c : call) : SN * outcome :=
  match c with
  | Compile _ _ _ => (s, OStuck)
  | Predict x => let '(s', r) := s_predict st s x in (s', ends OPredict r)
  | InputSize => (s, OSize (s_input_size st s))
  | OutputSize => (s, OSize (s_output_size st s))
  | Fit x p => let '(s', r) := s_fit st s o x p in (s', ends nothing r)
  | Evaluate x => let '(s', r) := s_evaluate st l s x in (s', ends OEvaluate r)
  end.
Fixpoint srun (l : losst) (o : optt) (s : SN) (cs : list call) : SN * list outcome :=
  match cs with
  | [] => (s, [])
  | c :: cs' =>
      let '(s1, r) := sstep l o s c in
      let '(s2, os) := srun l o s1 cs' in (s2, r :: os)
  end.
End Dynamic.
Arguments static L SN D P Y V : clear implicits.
Arguments dnet L SN : clear implicits.
Arguments call D P : clear implicits.
Arguments outcome Y V : clear implicits.

(** *** The network of this library, EdgeFeedforwardNeuralNetwork<l, i, SEQUENTIAL, T> *)
Section Edge.
Context {T : Type} `{NumOps T} `{TransOps T} `{LimOps T}.
Context {E : Type}.
Variable start : Z -> E.
Variable next : E -> Z * E.
Variable normal : T -> T -> option T -> E -> (T * option T) * E.
Variable draw : nat -> T.

(** Model::train(o) with Adam: the layers one after the other, model.cpp 161-185 *)
Definition n_train_adam (a : adam T) (s : node T) : res (adam T * node T) :=
  match s with
  | NL l => '(a, p) <- adam_train a (layer_player l) ;; Ok (a, NL (with_player l p))
  | _ => Ok (a, s)
  end.
Definition m_train_adam (a : adam T) (m : model (node T)) : res (adam T * model (node T)) :=
  '(a, ns) <- foldM (fun st (sp : node T * source) =>
      let '(a, ns) := st in
      '(a, s) <- n_train_adam a (fst sp) ;; Ok (a, ns ++ [(s, snd sp)])) (mnodes m) (a, []) ;;
  Ok (a, mkModel (mgraph m) ns).
(** AdamOptimizer(learning_rate): adam_optimizer.hpp 62-65 *)
Definition adam_default (eta : T) : adam T :=
  adam_new eta (ndiv (nofZ 9) (nofZ 10)) (ndiv (nofZ 999) (nofZ 1000)) (ndiv n1 (nofZ 100000000)).
(** Training<SEQUENTIAL>::run with one optimizer object for all batches, fnn.hpp 54-76,
    259-270. *)
Definition fit_adam (eta : T) (d : dataset T) (fuel epochs bs : nat) (m : model (node T)) : option (res (model (node T))) :=
  match fit_run (fun am i => m' <- row_step draw d (snd am) i ;; Ok (fst am, m'))
          (fun am => m' <- m_reset_score (snd am) ;; Ok (fst am, m'))
          (fun am => m_train_adam (fst am) (snd am)) fuel epochs (ds_size d) bs (adam_default eta, m) with
  | Some (Ok am) => Some (Ok (snd am))
  | Some Throw => Some Throw
  | Some UB => Some UB
  | None => None
  end.
(** fit and _fit, fnn.hpp 197-227, 247-273 *)
Definition fnn_fit_with (o : optt) (kd : losskind T) (mi : minit) (eta : T) (d : dataset T)
    (fuel epochs batch : nat) (seed device : Z) (m : model (node T)) : option (res (model (node T))) :=
  match (_ <- guard (negb (length (mnodes m) =? 0)) ;;
         m <- fit_losses kd batch m ;;
         m_init start next normal mi Normal seed device m) with
  | Ok (m, _) =>
      match o with
      | OGd => fit_sequential draw eta d fuel epochs batch m
      | OAdam => fit_adam eta d fuel epochs batch m
      end
  | Throw => Some Throw
  | UB => Some UB
  end.

(** MapLoss with the default constructor arguments (loss_tolerance 0.1, mse_loss.hpp 43-46) *)
Definition loss_of (l : losst) : losskind T := match l with LtCCE => CCE | LtMSE => MSE (ndiv n1 (nofZ 10)) end.

(** An object: its class's LT and IT, the layers and graph of _m with _output_shape and
    _is_first_add, and the layer objects. *)
Record edge := mkEdge { e_loss : losst; e_init : minit; e_fnn : fnn T; e_nodes : list (node T * source) }.
Definition e_model (e : edge) : model (node T) := mkModel (f_graph (e_fnn e)) (e_nodes e).
(** Constructor, fnn.hpp 166-171 *)
Definition e_new (l : losst) (i : minit) : edge := mkEdge l i fnn_new [].

Fixpoint objects_of (bs : list (blayer T)) : option (list (node T)) :=
  match bs with
  | [] => Some []
  | b :: bs' =>
      match object_of CCE 1 b, objects_of bs' with Some s, Some ss => Some (s :: ss) | _, _ => None end
  end.
(** add, fnn.hpp 173-195. Exceptions come from _add_layer, before the model is changed; only
    _is_first_add has been written. Convolution and pooling layers have no object in this
    model. *)
Definition e_add (e : edge) (da : desc T * actt) : edge * result unit :=
  let f := e_fnn e in
  match fnn_add f da with
  | Ok f' =>
      match objects_of (skipn (length (f_layers f)) (f_layers f')) with
      | Some os => (mkEdge (e_loss e) (e_init e) f' (e_nodes e ++ map (fun s => (s, SNull)) os), RVal tt)
      | None => (e, RStuck)
      end
  | Throw => (mkEdge (e_loss e) (e_init e) (mkFnn (f_graph f) (f_layers f) (f_shape f) false) (e_nodes e), RThrow)
  | UB => (e, RStuck)
  end.

(** The object a throwing predict or fit leaves behind is not modelled: any function of the
    object and the arguments. *)
Record fargs := mkFargs { fa_epochs : nat; fa_batch : nat; fa_eta : T; fa_seed : Z; fa_device : Z; fa_fuel : nat }.
Variable left_predict : edge -> dataset T -> edge.
Variable left_fit : edge -> optt -> dataset T -> fargs -> edge.

Definition e_with (e : edge) (ls : list (blayer T)) (m : model (node T)) : edge :=
  mkEdge (e_loss e) (e_init e) (mkFnn (mgraph m) ls (f_shape (e_fnn e)) (f_first (e_fnn e))) (mnodes m).
Definition e_predict (e : edge) (x : dataset T) : edge * result (dataset T) :=
  match fnn_predict draw (e_model e) x with
  | Ok (m, y) => (e_with e (f_layers (e_fnn e)) m, RVal y)
  | Throw => (left_predict e x, RThrow)
  | UB => (e, RStuck)
  end.
(** [fa_device]: what std::random_device returns if the call asks it. *)
Definition e_fit (e : edge) (o : optt) (x : dataset T) (p : fargs) : edge * result unit :=
  match fnn_fit_with o (loss_of (e_loss e)) (e_init e) (fa_eta p) x (fa_fuel p) (fa_epochs p) (fa_batch p)
          (fa_seed p) (fa_device p) (e_model e), fnn_add_loss (e_fnn e) with
  | Some (Ok m), Ok f => (e_with e (f_layers f) m, RVal tt)
  | Some Throw, _ => (left_fit e o x p, RThrow)
  | _, _ => (e, RStuck)
  end.
Definition e_evaluate (l : losst) (e : edge) (x : dataset T) : edge * result (list T) :=
  match fnn_evaluate draw (loss_of l) (e_model e) x with
  | Ok (m, lo) => (e_with e (f_layers (e_fnn e)) m, RVal (evaluation lo))
  | Throw => (left_predict e x, RThrow)
  | UB => (e, RStuck)
  end.
(** Model::input_size(0), model.cpp 244-252 *)
Definition e_input_size (e : edge) : nat :=
  match inputs (f_graph (e_fnn e)) with
  | [] => 0
  | i :: _ => match nth_error (f_layers (e_fnn e)) i with Some b => ssize (b_in b) | None => 0 end
  end.
Definition edge_net : static (desc T * actt) edge (dataset T) fargs (dataset T) (list T) :=
  mkStatic e_new e_add e_predict e_fit e_evaluate e_input_size (fun e => m_output_size (e_model e)).
End Edge.
Arguments edge T : clear implicits.
Arguments fargs T : clear implicits.
