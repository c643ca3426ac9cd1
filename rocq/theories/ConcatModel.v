(** The concatenate layer (/repo/source/dnn/concatenate.cpp, concatenate.hpp). A shape is the
    list [height; width; channels] (Shape3d, dlmath.hpp 127-150). *)
From Verif Require Import Base Num ArrayModel.

Section Concat.
Context {T : Type} `{NumOps T}.

(** concatenate_check_shape, concatenate.cpp 36-59 *)
Definition concat_check (shs : list (list nat)) (axis : nat) : res unit :=
  match shs with
  | [] => Throw
  | _ =>
      _ <- guard (axis <? 3) ;;
      for_from 1 (length shs - 1) (fun k _ =>
        for_ 3 (fun i _ =>
          a <- rd shs (k - 1) ;; b <- rd shs k ;;
          x <- rd a i ;; y <- rd b i ;;
          guard (negb (negb (i =? axis) && negb (x =? y)))) tt) tt
  end.
(** concatenate_input_shape, 61-74: the largest extent along the axis *)
Definition concat_input_shape (shs : list (list nat)) (axis : nat) : res (list nat) :=
  _ <- concat_check shs axis ;;
  s0 <- rd shs 0 ;;
  foldM (fun s sh => a <- rd s axis ;; b <- rd sh axis ;; if a <? b then wr s axis b else Ok s)
    (tl shs) s0.
(** concatenate_output_shape, 76-86: the sum of the extents *)
Definition concat_output_shape (shs : list (list nat)) (axis : nat) : res (list nat) :=
  _ <- concat_check shs axis ;;
  s0 <- rd shs 0 ;;
  foldM (fun s sh => a <- rd s axis ;; b <- rd sh axis ;; wr s axis (a + b)) (tl shs) s0.

(** Fields: _axis, input_shapes() (the base class is given one shape), output_shape(),
    _current_input_layer, _current_output_shape, _output_activations. *)
Record concl := mkConcl {
  c_axis : nat; c_ins : list (list nat); c_outsh : list nat; c_cur : nat; c_cursh : list nat; c_buf : list T
}.
(** Constructor, 88-99; feedforward.cpp 30-41 *)
Definition concl_new (shs : list (list nat)) (axis : nat) : res concl :=
  i <- concat_input_shape shs axis ;;
  o <- concat_output_shape shs axis ;;
  Ok (mkConcl axis [i] o 0 [0; 0; 0] (repeat n0 (shape_size o))).

(** std::vector::at *)
Definition at_chk {A} (l : list A) (i : nat) : res A :=
  match nth_error l i with Some x => Ok x | None => Throw end.

(** forward, 101-127. FeedforwardLayer::forward returns its argument. *)
Definition concl_forward (l : concl) (x : list T) : res concl :=
  cs <- (if c_cur l =? 0 then rd (c_ins l) 0 else Ok (c_cursh l)) ;;
  sh <- at_chk (c_ins l) (c_cur l) ;;
  ax <- at_chk sh (c_axis l) ;;
  off <- rd cs (c_axis l) ;;
  b <- append (c_buf l) (c_outsh l) x ax (c_axis l) off ;;
  cs <- (if 0 <? c_cur l then
           sh <- rd (c_ins l) (c_cur l) ;; a <- at_chk sh (c_axis l) ;; o <- rd cs (c_axis l) ;;
           wr cs (c_axis l) (o + a)
         else Ok cs) ;;
  Ok (mkConcl (c_axis l) (c_ins l) (c_outsh l)
        (if c_cur l <? length (c_ins l) then S (c_cur l) else 0) cs b).
End Concat.
Arguments concl T : clear implicits.
