(** Convolutional networks from their layer list: the high-level network
    (/repo/source/middleware/fnn.hpp 159-385, nn.hpp 138-153) over the layers of CnnModel.
    Dropout layers have no object here. *)
From Verif Require Import Base Num DatasetModel MathModel ConvModel LayerModel LossModel OptModel GraphModel ModelModel NodeModel
  BuilderModel CopyModel FnnModel FitModel InitModel DynModel CnnModel.

Section CnnNet.
Context {T : Type} `{NumOps T} `{TransOps T} `{LimOps T}.
Context {E : Type}.
Variable start : Z -> E.
Variable next : E -> Z * E.
Variable normal : T -> T -> option T -> E -> (T * option T) * E.

(** *** Objects *)
Definition value_of {A} (r : res A) : option A := match r with Ok a => Some a | _ => None end.
(** The layer objects, as [object_of]; convolutional.cpp 57-78, pooling.cpp 52-61. *)
Definition cobject_of (b : blayer T) : option (cnode T) :=
  let '(h, w, c) := b_in b in
  let n := ssize (b_in b) in
  match b_kind b with
  | BDense => Some (CL (dense_new n (ssize (b_out b))))
  | BConv f k st p =>
      option_map CV (value_of (conv_new h w c (fst k) (snd k) f (fst st) (snd st) (fst p) (snd p)))
  | BMaxPool k st => option_map CP (value_of (pool_new true h w c (fst k) (snd k) (fst st) (snd st)))
  | BAvgPool k st => option_map CP (value_of (pool_new false h w c (fst k) (snd k) (fst st) (snd st)))
  | BRelu => Some (CL (act_new Relu n))
  | BElu => Some (CL (act_new (Elu n1) n))
  | BSoftmax => Some (CL (act_new Softmax n))
  | BTanh => Some (CL (act_new Tanh n))
  | BSigmoid => Some (CL (act_new Sigmoid n))
  | BLinear => Some (CL (act_new Linear n))
  | BDropout _ | BLoss => None
  end.
Fixpoint cobjects_of (bs : list (blayer T)) : option (list (cnode T)) :=
  match bs with
  | [] => Some []
  | b :: bs' => match cobject_of b, cobjects_of bs' with Some s, Some ss => Some (s :: ss) | _, _ => None end
  end.

(** *** Initialisation *)
(** init of a layer: convolutional.cpp 80-95 with input_size(), dense.cpp 54-81; nothing for
    pooling layers (pooling.hpp), activations and losses. *)
Definition c_init (f : initf) (p : pdf) (e : E) (s : cnode T) : cnode T :=
  match s with
  | CL l => match knd l with KDense => CL (dense_init next normal f p e l) | KAct _ => s end
  | CV c =>
      let '(w, b) := params_init next normal f p e (cv_H c * cv_W c * cv_C c) (cv_w c) (cv_b c) in
      CV (conv_with c w b (cv_wg c) (cv_bg c) (cv_out c) (cv_ig c))
  | _ => s
  end.
Definition c_is_relu (s : cnode T) : bool :=
  match s with CL l => match knd l with KAct Relu => true | _ => false end | _ => false end.
Fixpoint c_any_relu (ns : list (cnode T * source)) (succ : list nat) : res bool :=
  match succ with
  | [] => Ok false
  | j :: t => '(s, _) <- rd ns j ;; if c_is_relu s then Ok true else c_any_relu ns t
  end.
(** Model::init, model.cpp 104-159, as [init_one] and [m_init]. *)
Definition c_init_one (mi : minit) (p : pdf) (e : E) (g : dlgraph) (ns : list (cnode T * source)) (i : nat)
  : res (list (cnode T * source)) :=
  '(s, src) <- rd ns i ;;
  f <- match mi with
       | MKaiming => Ok Kaiming
       | MXavier => Ok Xavier
       | MAuto => b <- c_any_relu ns (fgraph g i) ;; Ok (if b then Kaiming else Xavier)
       end ;;
  wr ns i (c_init f p e s, src).
Definition cnn_init (mi : minit) (p : pdf) (seed device : Z) (m : model (cnode T)) : res (model (cnode T) * Z) :=
  let seed := if (seed =? 0)%Z then device else seed in
  let e := start seed in
  ns <- foldM (c_init_one mi p e (mgraph m)) (forward_layers (mgraph m)) (mnodes m) ;;
  Ok (mkModel (mgraph m) ns, seed).

(** *** Fitting *)
(** output_size() of a layer: the size of its output shape. *)
Definition c_output_size (s : cnode T) : nat :=
  match s with CL l => length (out l) | CV c => length (cv_out c) | CP p => length (pl_out p) | CO _ _ => 0 end.
(** fnn.hpp 209-220, as [fit_losses]. *)
Definition cnn_fit_losses (kd : losskind T) (batch : nat) (m : model (cnode T)) : res (model (cnode T)) :=
  match losses (mgraph m), outputs (mgraph m) with
  | [], [o] =>
      '(s, _) <- rd (mnodes m) o ;;
      g <- create_loss_edge (GraphModel.add_loss (mgraph m)) o (nodes (mgraph m)) ;;
      Ok (mkModel g (mnodes m ++ [(CO kd (loss_new (c_output_size s) batch), SNull)]))
  | [], [] => Ok m
  | [], _ => UB
  | _, _ => Ok m
  end.
(** Model::train(o) with Adam, as [m_train_adam]. *)
Definition c_train_adam (a : adam T) (s : cnode T) : res (adam T * cnode T) :=
  match s with
  | CL l => '(a, p) <- adam_train a (layer_player l) ;; Ok (a, CL (with_player l p))
  | CV c => '(a, p) <- adam_train a (conv_player c) ;;
      Ok (a, CV (conv_with c (nth 0 (pblocks p) []) (nth 1 (pblocks p) []) (nth 0 (gblocks p) [])
                   (nth 1 (gblocks p) []) (cv_out c) (cv_ig c)))
  | _ => Ok (a, s)
  end.
Definition cnn_train_adam (a : adam T) (m : model (cnode T)) : res (adam T * model (cnode T)) :=
  '(a, ns) <- foldM (fun st (sp : cnode T * source) =>
      let '(a, ns) := st in
      '(a, s) <- c_train_adam a (fst sp) ;; Ok (a, ns ++ [(s, snd sp)])) (mnodes m) (a, []) ;;
  Ok (a, mkModel (mgraph m) ns).
Definition cnn_fit_adam (eta : T) (d : dataset T) (fuel epochs bs : nat) (m : model (cnode T)) : option (res (model (cnode T))) :=
  match fit_run (fun am i => m' <- cnn_row_step d (snd am) i ;; Ok (fst am, m'))
          (fun am => m' <- cnn_reset_score (snd am) ;; Ok (fst am, m'))
          (fun am => cnn_train_adam (fst am) (snd am)) fuel epochs (ds_size d) bs (adam_default eta, m) with
  | Some (Ok am) => Some (Ok (snd am))
  | Some Throw => Some Throw
  | Some UB => Some UB
  | None => None
  end.
(** fit and _fit, fnn.hpp 197-227, 247-273 *)
Definition cnn_fit_with (o : optt) (kd : losskind T) (mi : minit) (eta : T) (d : dataset T)
    (fuel epochs batch : nat) (seed device : Z) (m : model (cnode T)) : option (res (model (cnode T))) :=
  match (_ <- guard (negb (length (mnodes m) =? 0)) ;;
         m <- cnn_fit_losses kd batch m ;;
         cnn_init mi Normal seed device m) with
  | Ok (m, _) =>
      match o with
      | OGd => cnn_fit_sequential eta d fuel epochs batch m
      | OAdam => cnn_fit_adam eta d fuel epochs batch m
      end
  | Throw => Some Throw
  | UB => Some UB
  end.

(** *** Predicting *)
(** Model::output_size(0), model.cpp 254-262 *)
Definition cnn_output_size (m : model (cnode T)) : nat :=
  match outputs (mgraph m) with
  | [] => 0
  | o :: _ => match nth_error (mnodes m) o with Some (s, _) => c_output_size s | None => 0 end
  end.
(** predict, fnn.hpp 229-242 *)
Definition cnn_predict (m : model (cnode T)) (d : dataset T) : res (model (cnode T) * dataset T) :=
  let os := cnn_output_size m in
  '(m, ret) <- for_ (ds_size d) (fun i st =>
      let '(m, ret) := st in
      x <- ds_entry d i ;;
      '(m, y) <- m_predict cnn_ops m x ;;
      ret <- for_ (length y) (fun j ret => v <- rd y j ;; wr ret (i * os + j) v) ret ;;
      Ok (m, ret)) (m, repeat n0 (ds_size d * os)) ;;
  Ok (m, ds_vec n0 ret os 1 []).
(** evaluate_static, nn.hpp 138-153 *)
Definition cnn_evaluate (kd : losskind T) (m : model (cnode T)) (d : dataset T) : res (model (cnode T) * lossl T) :=
  let l := loss_new (cnn_output_size m) 1 in
  di <- ds_inputs n0 d ;;
  '(m, r) <- cnn_predict m di ;;
  l <- for_ (ds_size r) (fun i l =>
      t <- ds_label n0 d i ;;
      y <- ds_entry r i ;;
      let '(l', e) := loss_forward kd (set_target l t) y in
      _ <- e ;; Ok l') l ;;
  Ok (m, l).

(** *** The network object, as [edge] *)
Record cedge := mkCedge { ce_loss : losst; ce_init : minit; ce_fnn : fnn T; ce_nodes : list (cnode T * source) }.
Definition ce_model (e : cedge) : model (cnode T) := mkModel (f_graph (ce_fnn e)) (ce_nodes e).
Definition ce_new (l : losst) (i : minit) : cedge := mkCedge l i fnn_new [].
(** add, fnn.hpp 173-195 *)
Definition ce_add (e : cedge) (da : desc T * actt) : cedge * result unit :=
  let f := ce_fnn e in
  match fnn_add f da with
  | Ok f' =>
      match cobjects_of (skipn (length (f_layers f)) (f_layers f')) with
      | Some os => (mkCedge (ce_loss e) (ce_init e) f' (ce_nodes e ++ map (fun s => (s, SNull)) os), RVal tt)
      | None => (e, RStuck)
      end
  | Throw => (mkCedge (ce_loss e) (ce_init e) (mkFnn (f_graph f) (f_layers f) (f_shape f) false) (ce_nodes e), RThrow)
  | UB => (e, RStuck)
  end.
(** What a throwing predict or fit leaves behind: any function. *)
Variable left_predict : cedge -> dataset T -> cedge.
Variable left_fit : cedge -> optt -> dataset T -> fargs T -> cedge.
Definition ce_with (e : cedge) (ls : list (blayer T)) (m : model (cnode T)) : cedge :=
  mkCedge (ce_loss e) (ce_init e) (mkFnn (mgraph m) ls (f_shape (ce_fnn e)) (f_first (ce_fnn e))) (mnodes m).
Definition ce_predict (e : cedge) (x : dataset T) : cedge * result (dataset T) :=
  match cnn_predict (ce_model e) x with
  | Ok (m, y) => (ce_with e (f_layers (ce_fnn e)) m, RVal y)
  | Throw => (left_predict e x, RThrow)
  | UB => (e, RStuck)
  end.
Definition ce_fit (e : cedge) (o : optt) (x : dataset T) (p : fargs T) : cedge * result unit :=
  match cnn_fit_with o (loss_of (ce_loss e)) (ce_init e) (fa_eta p) x (fa_fuel p) (fa_epochs p) (fa_batch p)
          (fa_seed p) (fa_device p) (ce_model e), fnn_add_loss (ce_fnn e) with
  | Some (Ok m), Ok f => (ce_with e (f_layers f) m, RVal tt)
  | Some Throw, _ => (left_fit e o x p, RThrow)
  | _, _ => (e, RStuck)
  end.
Definition ce_evaluate (l : losst) (e : cedge) (x : dataset T) : cedge * result (list T) :=
  match cnn_evaluate (loss_of l) (ce_model e) x with
  | Ok (m, lo) => (ce_with e (f_layers (ce_fnn e)) m, RVal (evaluation lo))
  | Throw => (left_predict e x, RThrow)
  | UB => (e, RStuck)
  end.
(** Model::input_size(0), model.cpp 244-252 *)
Definition ce_input_size (e : cedge) : nat :=
  match inputs (f_graph (ce_fnn e)) with
  | [] => 0
  | i :: _ => match nth_error (f_layers (ce_fnn e)) i with Some b => ssize (b_in b) | None => 0 end
  end.
Definition cnn_net : static (desc T * actt) cedge (dataset T) (fargs T) (dataset T) (list T) :=
  mkStatic ce_new ce_add ce_predict ce_fit ce_evaluate ce_input_size (fun e => cnn_output_size (ce_model e)).
End CnnNet.
Arguments cedge T : clear implicits.
