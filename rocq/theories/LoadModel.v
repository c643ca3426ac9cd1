(** What is left behind by a load that throws: the loading of DumpModel.v with the layer and the
    model as state (/repo/source/dnn/layer.cpp, dense.cpp, convolutional.cpp, pooling.cpp,
    dropout.cpp, mse_loss.cpp, recurrent.cpp, model.cpp). *)
From Coq Require Import Ascii String Reals.
From Verif Require Import Base TypeModel StreamModel JsonModel DumpModel.
Local Open Scope list_scope.
Local Open Scope nat_scope.
Local Notation length := List.length.

(** The object after a call and how the call ended *)
Definition after (A : Type) : Type := (A * res Datatypes.unit)%type.
(** Statements one after the other: a throw ends the call and keeps what was assigned *)
Definition andthen {A} (p : after A) (k : A -> after A) : after A :=
  match snd p with Ok _ => k (fst p) | Throw => (fst p, Throw) | UB => (fst p, UB) end.
(** An expression that assigns nothing *)
Definition reading {A B} (s : A) (m : res B) (k : B -> after A) : after A :=
  match m with Ok x => k x | Throw => (s, Throw) | UB => (s, UB) end.
Definition done {A} (s : A) : after A := (s, Ok tt).
(** Statements that assign one member of the object *)
Definition inside {A B} (put : B -> A) (p : after B) : after A := (put (fst p), snd p).
Fixpoint fors_from {A} (i n : nat) (body : nat -> A -> after A) (s : A) : after A :=
  match n with O => done s | S n => andthen (body i s) (fors_from (S i) n body) end.
Definition fors {A} (n : nat) (body : nat -> A -> after A) (s : A) : after A := fors_from 0 n body s.

(** Layer::load, layer.cpp 211-247. The sizes kept beside the shapes are not modelled: the lookup
    [size0] is the one of LayerShape::size. *)
Definition fields_st (t : text) (d : json) (f : fields) : after fields :=
  reading f (guard (match d with JNull => false | _ => true end)) (fun _ =>
  reading f (at_key d (txt "type")) (fun jt => reading f (as_text jt) (fun ty => reading f (guard (text_eqb ty t)) (fun _ =>
  reading f (at_key d (txt "name")) (fun jn =>
  let f := mkF (item_text jn) (f_in f) (f_out f) in
  reading f (at_key d (txt "input_shape")) (fun ji => reading f (load_shapes ji) (fun ins =>
  let f := mkF (f_name f) ins (f_out f) in
  reading f (size0 ins) (fun _ =>
  reading f (at_key d (txt "output_shape")) (fun jo => reading f (load_shapes jo) (fun outs =>
  let f := mkF (f_name f) (f_in f) outs in
  reading f (size0 outs) (fun _ => done f))))))))))).
Section Load.
  Variable fl : R -> R.
  Notation zero := (DFin false 0%R).
  (** x\[i * cols + j\] = in.at(..).at(i).at(j) *)
  Definition matrix_st (src : res json) (rows cols : nat) (w : list dbl) : after (list dbl) :=
    fors rows (fun i => fors cols (fun j w =>
      reading w (d <- src ;; r <- at_idx d i ;; e <- at_idx r j ;; x <- as_double fl e ;; wr w (i * cols + j) x) done)) w.
  Definition vector_st (src : res json) (n : nat) (b : list dbl) : after (list dbl) :=
    fors n (fun i b => reading b (d <- src ;; e <- at_idx d i ;; x <- as_double fl e ;; wr b i x) done) b.
  (** DenseLayer::load, dense.cpp 194-216 *)
  Definition dense_st (d : json) (f : fields) (w b : list dbl) : after dlayer :=
    andthen (inside (fun f => DDense f w b) (fields_st (txt "Dense") d f)) (fun l =>
    let f := fields_of l in
    reading l (size0 (f_out f)) (fun n_out => reading l (size0 (f_in f)) (fun n_in =>
    let w := resize zero (n_out * n_in) w in let b := resize zero n_out b in
    andthen (inside (fun w => DDense f w b) (matrix_st (at_key d (txt "weights")) n_out n_in w)) (fun l =>
    inside (fun b => match l with DDense f w _ => DDense f w b | _ => l end) (vector_st (at_key d (txt "biases")) n_out b))))).
  (** ConvolutionalLayer::load, convolutional.cpp 318-370 *)
  Definition conv_st (d : json) (f : fields) (k0 s0 p0 : nat * nat) (nf0 : nat) (w b : list dbl) : after dlayer :=
    andthen (inside (fun f => DConv f k0 s0 p0 nf0 w b) (fields_st (txt "Conv") d f)) (fun l =>
    let f := fields_of l in
    reading l (pair_of d (txt "kernel_size")) (fun kernel => let l := DConv f kernel s0 p0 nf0 w b in
    reading l (o <- other d (txt "n_filters") ;; as_size o) (fun nf => let l := DConv f kernel s0 p0 nf w b in
    reading l (pair_of d (txt "stride")) (fun stride => let l := DConv f kernel stride p0 nf w b in
    reading l (pair_of d (txt "padding")) (fun padding => let l := DConv f kernel stride padding nf w b in
    reading l (channels0 (f_in f)) (fun ch =>
    let w := resize zero (fst kernel * snd kernel * ch * nf) w in let b := resize zero nf b in
    andthen (inside (fun w => DConv f kernel stride padding nf w b)
      (fors (fst kernel) (fun r => fors (snd kernel) (fun c => fors ch (fun k => fors nf (fun i w =>
        reading w (d <- at_key d (txt "weights") ;; d <- at_idx d r ;; d <- at_idx d c ;; d <- at_idx d k ;; e <- at_idx d i ;;
          x <- as_double fl e ;; wr w (r * snd kernel * ch * nf + c * ch * nf + k * nf + i) x) done)))) w)) (fun l =>
    inside (fun b => match l with DConv f k s p n w _ => DConv f k s p n w b | _ => l end) (vector_st (at_key d (txt "biases")) nf b)))))))).
  (** PoolingLayer::load, pooling.cpp 86-96 *)
  Definition pool_st (t : text) (d : json) (f : fields) (k0 s0 : nat * nat) : after dlayer :=
    andthen (inside (fun f => DPool t f k0 s0) (fields_st t d f)) (fun l =>
    let f := fields_of l in
    reading l (pair_of d (txt "kernel_size")) (fun kernel => let l := DPool t f kernel s0 in
    reading l (pair_of d (txt "stride")) (fun stride => done (DPool t f kernel stride)))).
  (** RecurrentLayer::load, recurrent.cpp 552-620 *)
  Definition rec_st (d : json) (f : fields) (a0 : Z) (h0 t0 : nat) (wih whh who bh bo : list dbl) : after dlayer :=
    andthen (inside (fun f => DRec f a0 h0 t0 wih whh who bh bo) (fields_st (txt "Recurrent") d f)) (fun l =>
    let f := fields_of l in
    reading l (o <- other d (txt "hidden_activation") ;; as_int o) (fun act => let l := DRec f act h0 t0 wih whh who bh bo in
    reading l (o <- other d (txt "hidden_size") ;; as_size o) (fun hidden => let l := DRec f act hidden t0 wih whh who bh bo in
    reading l (o <- other d (txt "time_steps") ;; as_size o) (fun steps => let l := DRec f act hidden steps wih whh who bh bo in
    reading l (size0 (f_in f)) (fun n_in => reading l (size0 (f_out f)) (fun n_out =>
    let ws i := (d <- at_key d (txt "weights") ;; at_idx d i) in
    let bs i := (d <- at_key d (txt "biases") ;; at_idx d i) in
    let wih := resize zero (hidden * n_in) wih in let whh := resize zero (hidden * hidden) whh in let who := resize zero (n_out * hidden) who in
    let bh := resize zero hidden bh in let bo := resize zero n_out bo in
    andthen (inside (fun x => DRec f act hidden steps x whh who bh bo) (matrix_st (ws 0) hidden n_in wih)) (fun l =>
    andthen (inside (fun x => match l with DRec f a h s w1 _ w3 b1 b2 => DRec f a h s w1 x w3 b1 b2 | _ => l end) (matrix_st (ws 1) hidden hidden whh)) (fun l =>
    andthen (inside (fun x => match l with DRec f a h s w1 w2 _ b1 b2 => DRec f a h s w1 w2 x b1 b2 | _ => l end) (matrix_st (ws 2) n_out hidden who)) (fun l =>
    andthen (inside (fun x => match l with DRec f a h s w1 w2 w3 _ b2 => DRec f a h s w1 w2 w3 x b2 | _ => l end) (vector_st (bs 0) hidden bh)) (fun l =>
    inside (fun x => match l with DRec f a h s w1 w2 w3 b1 _ => DRec f a h s w1 w2 w3 b1 x | _ => l end) (vector_st (bs 1) n_out bo))))))))))).
  (** load of the class of the layer *)
  Definition load_st (l : dlayer) (d : json) : after dlayer :=
    match l with
    | DPlain t f => inside (DPlain t) (fields_st t d f)
    | DElu f alpha => inside (fun f => DElu f alpha) (fields_st (txt "Elu") d f)
    | DDense f w b => dense_st d f w b
    | DConv f k s p n w b => conv_st d f k s p n w b
    | DPool t f k s => pool_st t d f k s
    (** dropout.cpp 103-110 *)
    | DDrop f p => andthen (inside (fun f => DDrop f p) (fields_st (txt "Dropout") d f)) (fun l =>
        reading l (o <- other d (txt "drop_probability") ;; as_double fl o) (fun p => done (DDrop (fields_of l) p)))
    (** mse_loss.cpp 89-95 *)
    | DMse f x => andthen (inside (fun f => DMse f x) (fields_st (txt "MSELoss") d f)) (fun l =>
        reading l (o <- other d (txt "loss_tolerance") ;; as_double fl o) (fun x => done (DMse (fields_of l) x)))
    | DRec f a h s w1 w2 w3 b1 b2 => rec_st d f a h s w1 w2 w3 b1 b2
    end.
  (** Model::load, model.cpp 329-340, after the document was read *)
  Definition load_model_st (m : dmodel) (d : json) : after dmodel :=
    reading m (jn <- get_key d (txt "name") ;; as_text jn) (fun name =>
    inside (fun ls => mkDM name ls) (fors (length (m_layers m)) (fun i ls =>
      reading ls (js <- get_key d (txt "layers") ;; sub_idx js i) (fun j =>
      reading ls (rd ls i) (fun l => inside (fun l' => upd ls i l') (load_st l j)))) (m_layers m))).
End Load.
