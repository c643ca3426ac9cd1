(** Changing the input shape of an existing layer: Layer::input_shape(LayerShape) and the
    overrides of _set_input_shape (/repo/source/dnn). Copies and clones of a layer share the
    fields object and the parameters, so a layer here is an object with its own buffers next
    to a cell it may share with others. *)
From Verif Require Import Base Num MathModel ConvModel LayerModel NodeModel CnnModel RecurrentModel.

Section Shape.
Context {T : Type} `{NumOps T} `{TransOps T} `{LimOps T}.

(** Shape3d, dlmath.hpp 127-150: height, width, channels; [Shape3d(n)] is (n, 1, 1). *)
Record shape3 := mkS { sh_h : nat; sh_w : nat; sh_c : nat }.
Definition s3size (s : shape3) : nat := sh_h s * sh_w s * sh_c s.
Definition flat (n : nat) : shape3 := mkS n 1 1.

(** The classes and the fields no call changes: DenseLayer; the ActivationLayers; DropoutLayer
    (probability); ConvolutionalLayer (_kernel_shape, _n_filters, _stride, _padding, 57-66);
    Max/AveragePoolingLayer (_kernel_shape, _stride, pooling.cpp 52-61); LossLayer;
    RecurrentLayer (_hidden_size, _time_steps, recurrent.cpp 37-47); ConcatenateLayer. *)
Inductive skind :=
| SDense | SAct (a : act T) | SDrop (p : T)
| SConv (kh kw nf sh sw ph pw : nat)
| SPool (mx : bool) (kh kw sh sw : nat)
| SLoss | SRec (hid steps : nat) | SConcat (axis : nat).

(** What copies and clones share: Layer::Fields (layer.hpp 95-127: input shape, input size,
    output shape, output size; a LayerShape is a vector of Shape3d, layer.cpp 35-84) and the
    parameter vectors (SharedParams), in the order of OptModel. *)
Record scell := mkCell {
  c_in : list shape3; c_insz : nat; c_out : list shape3; c_outsz : nat; c_par : list (list T)
}.

(** What each object owns: _output_activations, _input_gradients (LossLayer: _gradients), the
    parameter gradients in the order of [c_par], _zero_mask_idxs, _hidden_state. *)
Record lobj := mkObj {
  o_kind : skind; o_act : list T; o_ig : list T; o_grads : list (list T); o_mask : list nat; o_hs : list T
}.

Inductive outcome := Done | Thrown | Undefined | Unfinished.
Definition lstate : Type := scell * lobj.
Definition cmd : Type := lstate -> lstate * outcome.
Definition then_ (m k : cmd) : cmd := fun s =>
  let '(s', o) := m s in match o with Done => k s' | _ => (s', o) end.
Definition on_cell (f : scell -> scell) : cmd := fun s => ((f (fst s), snd s), Done).
Definition on_obj (f : lobj -> lobj) : cmd := fun s => ((fst s, f (snd s)), Done).
(** A value that may throw or be undefined, used by the rest of the command. *)
Definition use {A} (r : lstate -> res A) (k : A -> cmd) : cmd := fun s =>
  match r s with Ok a => k a s | Throw => (s, Thrown) | UB => (s, Undefined) end.

Definition put_in (ls : list shape3) (c : scell) : scell := mkCell ls (c_insz c) (c_out c) (c_outsz c) (c_par c).
Definition put_insz (n : nat) (c : scell) : scell := mkCell (c_in c) n (c_out c) (c_outsz c) (c_par c).
Definition put_outsh (ls : list shape3) (c : scell) : scell := mkCell (c_in c) (c_insz c) ls (c_outsz c) (c_par c).
(** resize of the first parameter vector *)
Definition first_sized (n : nat) (l : list (list T)) : list (list T) :=
  match l with [] => [] | w :: rest => resize n0 n w :: rest end.
Definition put_par (n : nat) (c : scell) : scell :=
  mkCell (c_in c) (c_insz c) (c_out c) (c_outsz c) (first_sized n (c_par c)).
Definition put_act (n : nat) (o : lobj) : lobj :=
  mkObj (o_kind o) (resize n0 n (o_act o)) (o_ig o) (o_grads o) (o_mask o) (o_hs o).
Definition put_ig (n : nat) (o : lobj) : lobj :=
  mkObj (o_kind o) (o_act o) (resize n0 n (o_ig o)) (o_grads o) (o_mask o) (o_hs o).
Definition put_grads (n : nat) (o : lobj) : lobj :=
  mkObj (o_kind o) (o_act o) (o_ig o) (first_sized n (o_grads o)) (o_mask o) (o_hs o).

(** LayerShape::shape(), layer.cpp 56-59: std::vector::at(0) throws on an empty vector. *)
Definition front (ls : list shape3) : res shape3 := match ls with [] => Throw | s :: _ => Ok s end.

(** output_size(), layer.cpp 168-171; the field _shared_fields->output_size() is [c_outsz]. *)
Definition out_size (s : lstate) : res nat := sh <- front (c_out (fst s)) ;; Ok (s3size sh).

(** Layer::_set_input_shape, layer.cpp 249-253: the shape is assigned before its size is taken. *)
Definition set_layer (ls : list shape3) : cmd :=
  then_ (on_cell (put_in ls))
      (use (fun _ => front ls) (fun s => on_cell (put_insz (s3size s)))).
(** FeedforwardLayer::_set_input_shape, feedforward.cpp 54-58 *)
Definition set_ff (ls : list shape3) : cmd :=
  then_ (set_layer ls) (use (fun _ => front ls) (fun s => on_obj (put_ig (s3size s)))).

(** DenseLayer, dense.cpp 218-223 *)
Definition set_dense (ls : list shape3) : cmd :=
  then_ (set_ff ls)
  (use (fun st => k <- out_size st ;; s <- front ls ;; Ok (k * s3size s)) (fun n =>
   then_ (on_cell (put_par n)) (on_obj (put_grads n)))).
(** ActivationLayer, activation.cpp 47-54: the output shape becomes Shape3d(size). *)
Definition set_act (ls : list shape3) : cmd :=
  then_ (set_ff ls)
  (use (fun _ => front ls) (fun s =>
   then_ (on_cell (put_outsh [flat (s3size s)])) (on_obj (put_act (s3size s))))).
(** DropoutLayer, dropout.cpp 112-117: the output shape becomes the whole argument;
    _zero_mask_idxs is not touched. *)
Definition set_drop (ls : list shape3) : cmd :=
  then_ (set_ff ls) (then_ (on_cell (put_outsh ls)) (use out_size (fun n => on_obj (put_act n)))).
(** convolutional_output_shape, convolutional.cpp 42-53 *)
Definition conv_out_shape (s : shape3) (kh kw nf sh sw ph pw : nat) : res shape3 :=
  oh <- conv_output_side (sh_h s) kh sh ph ;; ow <- conv_output_side (sh_w s) kw sw pw ;; Ok (mkS oh ow nf).
(** ConvolutionalLayer, convolutional.cpp 381-395 *)
Definition set_conv (kh kw nf sh sw ph pw : nat) (ls : list shape3) : cmd :=
  then_ (set_ff ls)
  (use (fun _ => s <- front ls ;; Ok (kh * kw * sh_c s * nf)) (fun n =>
   then_ (on_cell (put_par n)) (then_ (on_obj (put_grads n)) (then_ (on_cell (put_in ls))
  (use (fun _ => s <- front ls ;; conv_out_shape s kh kw nf sh sw ph pw) (fun o =>
   then_ (on_cell (put_outsh [o])) (use out_size (fun n => on_obj (put_act n))))))))).
(** pooling_output_shape, pooling.cpp 38-50 *)
Definition pool_out_shape (s : shape3) (kh kw sh sw : nat) : res shape3 :=
  oh <- pool_output_side (sh_h s) kh sh ;; ow <- pool_output_side (sh_w s) kw sw ;; Ok (mkS oh ow (sh_c s)).
(** PoolingLayer, pooling.cpp 105-116 *)
Definition set_pool (kh kw sh sw : nat) (ls : list shape3) : cmd :=
  then_ (set_ff ls) (then_ (on_cell (put_in ls))
  (use (fun _ => s <- front ls ;; pool_out_shape s kh kw sh sw) (fun o =>
   then_ (on_cell (put_outsh [o])) (use out_size (fun n => on_obj (put_act n)))))).
(** LossLayer, loss.cpp 92-95 *)
Definition set_loss (ls : list shape3) : cmd :=
  then_ (set_layer ls) (use (fun _ => front ls) (fun s => on_obj (put_ig (s3size s)))).
(** RecurrentLayer, recurrent.cpp 622-628: the size is the field _shared_fields->input_size(). *)
Definition set_rec (hid steps : nat) (ls : list shape3) : cmd :=
  then_ (set_layer ls) (fun s =>
    let n := c_insz (fst s) in
    then_ (on_cell (put_par (n * hid))) (then_ (on_obj (put_grads (n * hid))) (on_obj (put_ig (n * steps)))) s).

(** Layer::input_shape, layer.cpp 143-146: the virtual _set_input_shape. The override of
    ConcatenateLayer (concatenate.cpp 154-157) calls FeedforwardLayer::input_shape, which is
    Layer::input_shape, so it dispatches to itself again; [fuel] counts these nested calls. *)
Fixpoint input_shape (fuel : nat) (ls : list shape3) (s : lstate) : lstate * outcome :=
  match fuel with
  | O => (s, Unfinished)
  | S f =>
      match o_kind (snd s) with
      | SDense => set_dense ls s
      | SAct _ => set_act ls s
      | SDrop _ => set_drop ls s
      | SConv kh kw nf sh sw ph pw => set_conv kh kw nf sh sw ph pw ls s
      | SPool _ kh kw sh sw => set_pool kh kw sh sw ls s
      | SLoss => set_loss ls s
      | SRec hid steps => set_rec hid steps ls s
      | SConcat _ => input_shape f ls s
      end
  end.

(** Constructors: dense.cpp 37-53, activation.cpp 34-38, dropout.cpp 36-45, convolutional.cpp
    57-80, pooling.cpp 52-61, loss.cpp 34-49 (output size 0), recurrent.cpp 37-77; the buffers
    of the feedforward layers from feedforward.cpp 30-41. [k]: the output size given to a dense
    or recurrent layer. A concatenate layer of one input is built for its shape. *)
Definition zs (n : nat) : list T := repeat n0 n.
Definition scell_new (i o : shape3) (par : list (list T)) : scell := mkCell [i] (s3size i) [o] (s3size o) par.
Definition layer_new (kd : skind) (s : shape3) (k : nat) : res lstate :=
  let n := s3size s in
  match kd with
  | SDense => Ok (scell_new (flat n) (flat k) [zs (k * n); zs k], mkObj kd (zs k) (zs n) [zs (k * n); zs k] [] [])
  | SAct _ | SDrop _ => Ok (scell_new (flat n) (flat n) [], mkObj kd (zs n) (zs n) [] [] [])
  | SConv kh kw nf sh sw ph pw =>
      o <- conv_out_shape s kh kw nf sh sw ph pw ;;
      let p := [zs (kh * kw * sh_c s * nf); zs nf] in
      Ok (scell_new s o p, mkObj kd (zs (s3size o)) (zs n) p [] [])
  | SPool _ kh kw sh sw =>
      o <- pool_out_shape s kh kw sh sw ;;
      Ok (scell_new s o [], mkObj kd (zs (s3size o)) (zs n) [] [] [])
  | SLoss => Ok (scell_new (flat n) (flat 0) [], mkObj kd [] (zs n) [] [] [])
  | SRec hid steps =>
      let p := [zs (n * hid); zs (hid * hid); zs hid; zs (hid * k); zs k] in
      Ok (scell_new (flat n) (flat k) p,
          mkObj kd (zs (k * steps)) (zs (n * steps)) p [] (zs (hid * Nat.max steps 1)))
  | SConcat _ => Ok (scell_new s s [], mkObj kd (zs n) (zs n) [] [] [])
  end.

(** The same objects as seen by the models of forward and backward. [input_size()] is the size
    of the first input shape. *)
Definition in_size (c : scell) : nat := match c_in c with [] => 0 | s :: _ => s3size s end.
Definition par (l : list (list T)) (i : nat) : list T := nth i l [].
Definition as_layer (kd : kind T) (s : lstate) : layer T :=
  let '(c, o) := s in
  mkLayer kd (in_size c) (par (c_par c) 0) (par (c_par c) 1) (par (o_grads o) 0) (par (o_grads o) 1) (o_act o) (o_ig o).
Definition as_drop (p scale : T) (pos : nat) (s : lstate) : dropl T :=
  let '(c, o) := s in mkDrop p scale (in_size c) (o_act o) (o_ig o) (o_mask o) pos.
Definition as_conv (kh kw nf sh sw ph pw : nat) (s : lstate) : convl T :=
  let '(c, o) := s in
  let i := hd (flat 0) (c_in c) in let r := hd (flat 0) (c_out c) in
  mkConv (sh_h i) (sh_w i) (sh_c i) kh kw nf sh sw ph pw (sh_h r) (sh_w r)
    (par (c_par c) 0) (par (c_par c) 1) (par (o_grads o) 0) (par (o_grads o) 1) (o_act o) (o_ig o).
Definition as_pool (mx : bool) (kh kw sh sw : nat) (s : lstate) : pooll T :=
  let '(c, o) := s in let i := hd (flat 0) (c_in c) in
  mkPool mx (sh_h i) (sh_w i) (sh_c i) kh kw sh sw (o_act o) (o_ig o).
Definition as_rec (hid steps : nat) (s : lstate) : recl T :=
  let '(c, o) := s in
  mkRec (c_insz c) (c_outsz c) hid steps
    (par (c_par c) 0) (par (c_par c) 1) (par (c_par c) 3) (par (c_par c) 2) (par (c_par c) 4)
    (par (o_grads o) 0) (par (o_grads o) 1) (par (o_grads o) 3) (par (o_grads o) 2) (par (o_grads o) 4)
    (o_hs o) (o_act o) (o_ig o).

(** A copy or clone (copy constructors; dense.cpp and the others through clone()): the cell is
    shared, the buffers are copied. Objects of a family share one cell. *)
Definition family : Type := scell * list lobj.
Definition clone_of (f : family) (i : nat) : res family :=
  o <- rd (snd f) i ;; Ok (fst f, snd f ++ [o]).
(** input_shape called on object [i] *)
Definition family_shape (fuel : nat) (f : family) (i : nat) (ls : list shape3) : res (family * outcome) :=
  o <- rd (snd f) i ;;
  let '((c, o'), r) := input_shape fuel ls (fst f, o) in
  os <- wr (snd f) i o' ;; Ok ((c, os), r).

End Shape.
Arguments skind T : clear implicits.
Arguments scell T : clear implicits.
Arguments lobj T : clear implicits.
Arguments lstate T : clear implicits.
Arguments family T : clear implicits.
