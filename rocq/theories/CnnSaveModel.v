(** A convolutional network as an object that can be saved and loaded, with its sizes: the
    parameters and sizes of [cnode] are those that dump and load of [DumpModel] use. *)
From Coq Require Import Ascii String Reals.
From Verif Require Import Base Num MathModel LayerModel LossModel GraphModel ModelModel NodeModel TypeModel JsonModel DumpModel FloatModel SaveModel CnnModel.

(** Shape and size of the first input or output (layer.cpp 57-80) *)
Definition first3 (l : list shape3) : shape3 := hd (0, 0, 0) l.
Definition first_size (l : list shape3) : nat := size3 (first3 l).
(** The TYPE constants: max_pooling.cpp 31, avg_pooling.cpp 31 *)
Definition pool_type (mx : bool) : text := if mx then txt "MaxPool" else txt "AveragePool".
(** [d] is the layer [s] as dump sees it: class, sizes and numbers (finite doubles as reals).
    Convolutions: convolutional.cpp 261-316; poolings: pooling.cpp 70-84; the rest as [shows]. *)
Definition cshows (d : dlayer) (s : cnode R) : Prop :=
  match s with
  | CL l => shows d (NL l) /\ first_size (f_in (fields_of d)) = insz l /\ first_size (f_out (fields_of d)) = List.length (out l)
  | CO kd lo => shows d (NO kd lo) /\ first_size (f_in (fields_of d)) = List.length (ls_grad lo)
  | CV c => exists f w b, d = DConv f (cv_kh c, cv_kw c) (cv_sh c, cv_sw c) (cv_ph c, cv_pw c) (cv_nf c) w b /\
      first3 (f_in f) = (cv_H c, cv_W c, cv_C c) /\ first3 (f_out f) = (cv_oh c, cv_ow c, cv_nf c) /\ cv_w c = map dval w /\ cv_b c = map dval b
  | CP p => exists f, d = DPool (pool_type (pl_max p)) f (pl_kh p, pl_kw p) (pl_sh p, pl_sw p) /\
      first3 (f_in f) = (pl_H p, pl_W p, pl_C p) /\ first_size (f_out f) = List.length (pl_out p)
  end.
Definition sized (f : fields) (l : layer R) (w b wg bg : list R) : layer R :=
  mkLayer (knd l) (first_size (f_in f)) w b wg bg (resize 0%R (first_size (f_out f)) (out l)) (resize 0%R (first_size (f_in f)) (ig l)).
Definition lsized (f : fields) (lo : lossl R) : lossl R :=
  mkLoss (first_size (f_in f)) (ls_target lo) (resize 0%R (first_size (f_in f)) (ls_grad lo)) (ls_inv lo) (ls_loss lo) (ls_cum lo) (ls_cor lo) (ls_inc lo).
(** What load writes into the object: sizes, parameters, and the buffers resized to the sizes in
    the file. feedforward.cpp 47-52, dense.cpp 194-216, convolutional.cpp 318-370, pooling.cpp
    86-96, loss.cpp 84-88, mse_loss.cpp 89-95. *)
Definition c_load (d : dlayer) (s : cnode R) : cnode R :=
  match s with
  | CL l => match d with
            | DDense f w b => let n := first_size (f_in f) in let k := first_size (f_out f) in
                CL (sized f l (map dval w) (map dval b) (resize 0%R (k * n) (wgrad l)) (resize 0%R k (bgrad l)))
            | _ => CL (sized (fields_of d) l (wts l) (bias l) (wgrad l) (bgrad l))
            end
  | CV c => match d with
            | DConv f (kh, kw) (sh, sw) (ph, pw) nf w b =>
                let '(H, W, C) := first3 (f_in f) in let '(oh, ow, _) := first3 (f_out f) in
                CV (mkConv H W C kh kw nf sh sw ph pw oh ow (map dval w) (map dval b)
                  (resize 0%R (kh * kw * C * nf) (cv_wg c)) (resize 0%R nf (cv_bg c))
                  (resize 0%R (first_size (f_out f)) (cv_out c)) (resize 0%R (first_size (f_in f)) (cv_ig c)))
            | _ => s
            end
  | CP p => match d with
            | DPool _ f (kh, kw) (sh, sw) =>
                let '(H, W, C) := first3 (f_in f) in
                CP (mkPool (pl_max p) H W C kh kw sh sw (resize 0%R (first_size (f_out f)) (pl_out p)) (resize 0%R (first_size (f_in f)) (pl_ig p)))
            | _ => s
            end
  | CO kd lo => CO (match d, kd with DMse _ x, MSE _ => MSE (dval x) | _, _ => kd end) (lsized (fields_of d) lo)
  end.
(** Model::load, model.cpp 329-340: layer by layer *)
Fixpoint c_load_all (ds : list dlayer) (ss : list (cnode R * source)) : list (cnode R * source) :=
  match ds, ss with
  | d :: ds, (s, p) :: ss => (c_load d s, p) :: c_load_all ds ss
  | _, _ => ss
  end.
Definition c_loaded (dm : dmodel) (m : model (cnode R)) : model (cnode R) := mkModel (mgraph m) (c_load_all (m_layers dm) (mnodes m)).
