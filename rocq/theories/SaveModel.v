(** A network as an object that can be saved and loaded: the parameters of [layer] and [lossl]
    are the vectors that dump and load of [DumpModel] use. *)
From Coq Require Import Ascii String Reals.
From Verif Require Import Base Num MathModel LayerModel LossModel GraphModel ModelModel NodeModel TypeModel JsonModel DumpModel FloatModel.

(** The TYPE constants: activation.cpp 58, 96, 136, 169, 200, 231 *)
Definition act_type (f : act R) : text :=
  match f with
  | Relu => txt "Relu" | Elu _ => txt "Elu" | Softmax => txt "Softmax"
  | Tanh => txt "Tanh" | Sigmoid => txt "Sigmoid" | Linear => txt "Linear"
  end.
(** [d] is the layer [s] as dump sees it: class, sizes and numbers (finite doubles as reals). The
    names are in [d] only; cce_loss.cpp 36 and mse_loss.cpp 31 for the types of the losses. *)
Definition shows (d : dlayer) (s : node R) : Prop :=
  match d, s with
  | DDense f w b, NL l => knd l = KDense /\ size0 (f_in f) = Ok (insz l) /\ size0 (f_out f) = Ok (length (bias l)) /\ wts l = map dval w /\ bias l = map dval b
  | DElu f x, NL l => knd l = KAct (Elu (dval x))
  | DPlain t f, NL l => exists a, knd l = KAct a /\ (forall alpha, a <> Elu alpha) /\ t = act_type a
  | DPlain t f, NO CCE _ => t = txt "CCELoss"
  | DMse f x, NO (MSE tol) _ => tol = dval x
  | _, _ => False
  end.
(** What load (dense.cpp 194-216, mse_loss.cpp 89-95) writes into the object; gradients and
    buffers stay. The shapes are written too, here they are those of the object already. *)
Definition put (d : dlayer) (s : node R) : node R :=
  match d, s with
  | DDense _ w b, NL l => NL (mkLayer (knd l) (insz l) (map dval w) (map dval b) (wgrad l) (bgrad l) (out l) (ig l))
  | DMse _ x, NO (MSE _) lo => NO (MSE (dval x)) lo
  | _, _ => s
  end.
(** Model::load, model.cpp 329-340: layer by layer *)
Fixpoint put_all (ds : list dlayer) (ss : list (node R * source)) : list (node R * source) :=
  match ds, ss with
  | d :: ds, (s, p) :: ss => (put d s, p) :: put_all ds ss
  | _, _ => ss
  end.
Definition loaded (dm : dmodel) (m : model (node R)) : model (node R) := mkModel (mgraph m) (put_all (m_layers dm) (mnodes m)).
