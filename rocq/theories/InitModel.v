(** Random initialisation of layers and models, and the fit function of the high-level network
    (/repo/source/dnn/dlmath.hpp 195-415, dense.cpp 54-81, convolutional.cpp 80-95,
    recurrent.cpp 81-116, model.cpp 104-159, middleware/fnn.hpp 197-227, 247-273). *)
From Verif Require Import Base Num DatasetModel MathModel LayerModel LossModel OptModel GraphModel ModelModel NodeModel
  RecurrentModel CopyModel FnnModel FitModel.
From Coq Require Import Reals.

(** Largest value of std::mt19937_64 (type.hpp 46), dlmath.hpp 57-58 *)
Definition max_rand : Z := (2 ^ 64 - 1)%Z.

(** ProbabilityDensityFunction and InitializationFunction, dlmath.hpp; Model's
    InitializationFunction, model.hpp. Values outside the enumerations are not modelled. *)
Inductive pdf := Normal | Uniform.
Inductive initf := Xavier | Kaiming.
Inductive minit := MKaiming | MXavier | MAuto.

Section Init.
Context {T : Type} `{NumOps T} `{TransOps T} `{LimOps T}.

(** [E]: the states of the generator RneType; [start]: RneType{seed}; [next]: operator(). *)
Context {E : Type}.
Variable start : Z -> E.
Variable next : E -> Z * E.
(** operator() of std::normal_distribution{mean, dev}: its state is the value it may have
    saved from the previous call. *)
Variable normal : T -> T -> option T -> E -> (T * option T) * E.

(** The function object of uniform_pdf, dlmath.hpp 217-230, without the final cast; [r] is the
    number drawn. *)
Definition uniform_of (center delta : T) (r : Z) : T :=
  let delta := ndiv delta (nofZ 2) in
  let u := nsub (nmul (ndiv (nofZ r) (nofZ max_rand)) (nofZ 2)) n1 in
  nadd (nmul u delta) center.

(** A std::function made by pdf, dlmath.hpp 270-283 (with 204-207 and 217-230). *)
Record distr := mkDist { dt_pdf : pdf; dt_center : T; dt_delta : T; dt_saved : option T }.
Definition draw_from (d : distr) (e : E) : (T * distr) * E :=
  match dt_pdf d with
  | Uniform => let '(r, e') := next e in ((uniform_of (dt_center d) (dt_delta d) r, d), e')
  | Normal =>
      let '((v, s), e') := normal (dt_center d) (dt_delta d) (dt_saved d) e in
      ((v, mkDist Normal (dt_center d) (dt_delta d) s), e')
  end.

(** initialization and initialization_pdf, dlmath.hpp 294-415: centre 0 and
    sqrt(2/n) or sqrt(1/n). *)
Definition init_dev (f : initf) (n : nat) : T :=
  nsqrt (ndiv (nofZ match f with Kaiming => 2 | Xavier => 1 end) (nofnat n)).
Definition initialization_pdf (f : initf) (p : pdf) (n : nat) : distr :=
  mkDist p n0 (init_dev f n) None.

(** for (NumType& w: weights) w = dist(rne) *)
Fixpoint fill (d : distr) (e : E) (w : list T) : (list T * distr) * E :=
  match w with
  | [] => (([], d), e)
  | _ :: w' =>
      let '((v, d1), e1) := draw_from d e in
      let '((vs, d2), e2) := fill d1 e1 w' in
      ((v :: vs, d2), e2)
  end.
(** 0.01 *)
Definition bias_init (b : list T) : list T := map (fun _ => ndiv n1 (nofZ 100)) b.

(** DenseLayer::init, dense.cpp 54-81; ConvolutionalLayer::init, convolutional.cpp 80-95, is
    the same on its own weights and biases. The generator is a value parameter: the caller's
    generator does not advance. *)
Definition params_init (f : initf) (p : pdf) (e : E) (n : nat) (w b : list T) : list T * list T :=
  (fst (fst (fill (initialization_pdf f p n) e w)), bias_init b).
Definition dense_init (f : initf) (p : pdf) (e : E) (l : layer T) : layer T :=
  let '(w, b) := params_init f p e (insz l) (wts l) (bias l) in
  mkLayer (knd l) (insz l) w b (wgrad l) (bgrad l) (out l) (ig l).

(** RecurrentLayer::init, recurrent.cpp 81-116 *)
Definition rec_init (f : initf) (p : pdf) (e : E) (l : recl T) : recl T :=
  let '((wih, _), e) := fill (initialization_pdf f p (r_in l)) e (r_wih l) in
  let '((whh, dh), e) := fill (initialization_pdf f p (r_hid l)) e (r_whh l) in
  let '((who, _), e) := fill dh e (r_who l) in
  mkRec (r_in l) (r_out l) (r_hid l) (r_steps l) wih whh who (bias_init (r_bh l)) (bias_init (r_bo l))
    (r_gwih l) (r_gwhh l) (r_gwho l) (r_gbh l) (r_gbo l)
    (map (fun _ => n0) (r_hs l)) (r_act l) (r_ig l).

(** init of a layer of a model; it does nothing for activations (activation.hpp 53-61),
    dropout (dropout.hpp 58-67) and losses (loss.hpp 71-80). *)
Definition n_init (f : initf) (p : pdf) (e : E) (s : node T) : node T :=
  match s with
  | NL l => match knd l with KDense => NL (dense_init f p e l) | KAct _ => s end
  | _ => s
  end.

(** is_type<ReluLayer>() *)
Definition is_relu (s : node T) : bool :=
  match s with NL l => match knd l with KAct Relu => true | _ => false end | _ => false end.
(** forward_layers_idx, dlgraph.cpp 351-364 *)
Definition forward_layers (g : dlgraph) : list nat :=
  filter (fun i => negb (mem i (losses g))) (seq 0 (nodes g)).
(** model.cpp 135-145: is there a ReLU among the successors? *)
Fixpoint any_relu (ns : list (node T * source)) (succ : list nat) : res bool :=
  match succ with
  | [] => Ok false
  | j :: t => '(s, _) <- rd ns j ;; if is_relu s then Ok true else any_relu ns t
  end.
(** One turn of the loop of Model::init, model.cpp 117-156 *)
Definition init_one (mi : minit) (p : pdf) (e : E) (g : dlgraph) (ns : list (node T * source)) (i : nat)
  : res (list (node T * source)) :=
  '(s, src) <- rd ns i ;;
  f <- match mi with
       | MKaiming => Ok Kaiming
       | MXavier => Ok Xavier
       | MAuto => b <- any_relu ns (fgraph g i) ;; Ok (if b then Kaiming else Xavier)
       end ;;
  wr ns i (n_init f p e s, src).
(** Model::init, model.cpp 104-159. [device]: what std::random_device returns. The seed used is
    part of the result. *)
Definition m_init (mi : minit) (p : pdf) (seed device : Z) (m : model (node T)) : res (model (node T) * Z) :=
  let seed := if (seed =? 0)%Z then device else seed in
  let e := start seed in
  ns <- foldM (init_one mi p e (mgraph m)) (forward_layers (mgraph m)) (mnodes m) ;;
  Ok (mkModel (mgraph m) ns, seed).

(** *** EdgeFeedforwardNeuralNetwork::fit, fnn.hpp 197-227 *)
(** Lines 209-220. The loop runs over _m.output_layers(), which its body reassigns: modelled
    for at most one output. *)
Definition fit_losses (kd : losskind T) (batch : nat) (m : model (node T)) : res (model (node T)) :=
  match losses (mgraph m), outputs (mgraph m) with
  | [], [o] =>
      '(s, _) <- rd (mnodes m) o ;;
      g <- create_loss_edge (GraphModel.add_loss (mgraph m)) o (nodes (mgraph m)) ;;
      Ok (mkModel g (mnodes m ++ [(NO kd (loss_new (n_output_size s) batch), SNull)]))
  | [], [] => Ok m
  | [], _ => UB
  | _, _ => Ok m
  end.
(** fit with OptimizerType::GRADIENT_DESCENT and the sequential Training (_fit, 247-258).
    [None]: the training loop has not ended within [fuel] rounds for an epoch. *)
Definition fnn_fit (draw : nat -> T) (kd : losskind T) (mi : minit) (eta : T) (d : dataset T)
    (fuel epochs batch : nat) (seed device : Z) (m : model (node T)) : option (res (model (node T))) :=
  match (_ <- guard (negb (length (mnodes m) =? 0)) ;;
         m <- fit_losses kd batch m ;;
         m_init mi Normal seed device m) with
  | Ok (m, _) => fit_sequential draw eta d fuel epochs batch m
  | Throw => Some Throw
  | UB => Some UB
  end.
End Init.
Arguments distr T : clear implicits.

(** *** DLMath::rand<T>(from, to, seed), dlmath.hpp 241-244 *)
(** For NumType. *)
Definition rand_num {T} `{NumOps T} (from to : T) (r : Z) : T :=
  uniform_of (ndiv (nadd to from) (nofZ 2)) (nsub to from) r.
(** For an integer type: the centre is computed with integer division, the result is cast
    back, towards zero. Numbers of the type are not bounded. *)
Definition rtrunc (x : R) : Z := if Rle_dec 0 x then Int_part x else (- Int_part (- x))%Z.
Definition rand_int (from to : Z) (r : Z) : Z :=
  rtrunc (@uniform_of R NumR (IZR (Z.quot (to + from) 2)) (IZR (to - from)) r).
