(** A network with recurrent layers as an object that can be saved and loaded, with its sizes and
    the hidden states: the parameters and sizes of [rnode] are those that dump and load of
    [DumpModel] use. *)
From Coq Require Import Ascii String Reals.
From Verif Require Import Base Num MathModel LayerModel LossModel GraphModel ModelModel NodeModel TypeModel JsonModel DumpModel FloatModel SaveModel CnnModel CnnSaveModel RecurrentModel RnnModel.

(** [d] is the layer [s] as dump sees it (recurrent.cpp 480-548): the hidden state, the buffers and
    the gradients are not part of it. The other layers as in [cshows]. *)
Definition rshows (d : dlayer) (s : rnode R) : Prop :=
  match s with
  | RL l => cshows d (CL l)
  | RO kd lo => cshows d (CO kd lo)
  | RR r => exists f a wih whh who bh bo, d = DRec f a (r_hid r) (r_steps r) wih whh who bh bo /\
      first_size (f_in f) = r_in r /\ first_size (f_out f) = r_out r /\
      r_wih r = map dval wih /\ r_whh r = map dval whh /\ r_who r = map dval who /\ r_bh r = map dval bh /\ r_bo r = map dval bo
  end.
(** What load writes into a recurrent layer, recurrent.cpp 550-620: sizes and parameters, and the
    other vectors resized, so that they keep their old entries. *)
Definition rec_load (f : fields) (h t : nat) (wih whh who bh bo : list dbl) (r : recl R) : recl R :=
  let n := first_size (f_in f) in let k := first_size (f_out f) in
  mkRec n k h t (map dval wih) (map dval whh) (map dval who) (map dval bh) (map dval bo)
    (resize 0%R (n * h) (r_gwih r)) (resize 0%R (h * h) (r_gwhh r)) (resize 0%R (h * k) (r_gwho r)) (resize 0%R h (r_gbh r)) (resize 0%R k (r_gbo r))
    (resize 0%R (h * Nat.max t 1) (r_hs r)) (resize 0%R (k * t) (r_act r)) (resize 0%R (n * t) (r_ig r)).
Definition r_load (d : dlayer) (s : rnode R) : rnode R :=
  match s with
  | RL l => match c_load d (CL l) with CL l' => RL l' | _ => s end
  | RO kd lo => match c_load d (CO kd lo) with CO kd' lo' => RO kd' lo' | _ => s end
  | RR r => match d with DRec f _ h t wih whh who bh bo => RR (rec_load f h t wih whh who bh bo r) | _ => s end
  end.
(** Model::load, model.cpp 329-340: layer by layer *)
Fixpoint r_load_all (ds : list dlayer) (ss : list (rnode R * source)) : list (rnode R * source) :=
  match ds, ss with
  | d :: ds, (s, p) :: ss => (r_load d s, p) :: r_load_all ds ss
  | _, _ => ss
  end.
Definition r_loaded (dm : dmodel) (m : model (rnode R)) : model (rnode R) := mkModel (mgraph m) (r_load_all (m_layers dm) (mnodes m)).
