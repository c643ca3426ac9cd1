(** The recurrent layer (/repo/source/dnn/recurrent.cpp, recurrent.hpp). *)
From Verif Require Import Base Num MathModel.

Section Recurrent.
Context {T : Type} `{NumOps T} `{TransOps T}.

(** Fields, recurrent.hpp 168-224: input_size(), output_size(), _hidden_size, _time_steps, the
    parameters, their gradients, _hidden_state, _output_activations, _input_gradients. The
    only hidden activation is tanh (every case of the switch ends there). *)
Record recl := mkRec {
  r_in : nat; r_out : nat; r_hid : nat; r_steps : nat;
  r_wih : list T; r_whh : list T; r_who : list T; r_bh : list T; r_bo : list T;
  r_gwih : list T; r_gwhh : list T; r_gwho : list T; r_gbh : list T; r_gbo : list T;
  r_hs : list T; r_act : list T; r_ig : list T
}.

(** Constructor, recurrent.cpp 36-79 *)
Definition rec_new (n k h steps : nat) : recl :=
  mkRec n k h steps
    (repeat n0 (n * h)) (repeat n0 (h * h)) (repeat n0 (h * k)) (repeat n0 h) (repeat n0 k)
    (repeat n0 (n * h)) (repeat n0 (h * h)) (repeat n0 (h * k)) (repeat n0 h) (repeat n0 k)
    (repeat n0 (h * Nat.max steps 1)) (repeat n0 (k * steps)) (repeat n0 (n * steps)).

(** A kernel called with the pointer [buf.data() + off]. *)
Definition at_off (off : nat) (f : list T -> res (list T)) (buf : list T) : res (list T) :=
  _ <- require (off <=? length buf) ;;
  d <- f (skipn off buf) ;; Ok (firstn off buf ++ d).

(** One turn of the loop of forward, 130-209. State: _hidden_state, _output_activations,
    tmp_mul. *)
Definition rec_step (l : recl) (x : list T) (t : nat) (st : list T * list T * list T)
  : res (list T * list T * list T) :=
  let '(hs, act, tmp) := st in
  let h := r_hid l in
  let curr := t in
  let next := if t =? r_steps l - 1 then 0 else t + 1 in
  hs <- at_off (next * h) (fun d => matarr_mul false d (r_wih l) (skipn (t * r_in l) x) h (r_in l)) hs ;;
  tmp <- matarr_mul false tmp (r_whh l) (skipn (curr * h) hs) h h ;;
  hs <- at_off (next * h) (fun d => map2_inplace nadd d tmp h) hs ;;
  hs <- at_off (next * h) (fun d => map2_inplace nadd d (r_bh l) h) hs ;;
  hs <- at_off (next * h) (fun d => map_inplace ntanh d h) hs ;;
  act <- at_off (t * r_out l) (fun d => matarr_mul false d (r_who l) (skipn (next * h) hs) (r_out l) h) act ;;
  act <- at_off (t * r_out l) (fun d => map2_inplace nadd d (r_bo l) (r_out l)) act ;;
  Ok (hs, act, tmp).

(** forward, 118-215. tmp_mul is written before it is read; its initial content is
    modelled by zeros. *)
Definition rec_forward (l : recl) (x : list T) : res recl :=
  '(hs, act, _) <- for_ (r_steps l) (rec_step l x) (r_hs l, r_act l, repeat n0 (r_hid l)) ;;
  Ok (mkRec (r_in l) (r_out l) (r_hid l) (r_steps l) (r_wih l) (r_whh l) (r_who l) (r_bh l) (r_bo l)
        (r_gwih l) (r_gwhh l) (r_gwho l) (r_gbh l) (r_gbo l) hs act (r_ig l)).

(** [g\[i*cols+j\] += a\[i\] * b\[j\]]: loops at 242-251, 304-313, 315-324 *)
Definition outer_acc (g a b : list T) (rows cols : nat) : res (list T) :=
  for_ rows (fun i g => for_ cols (fun j g =>
    x <- rd a i ;; y <- rd b j ;; c <- rd g (i * cols + j) ;; wr g (i * cols + j) (nadd c (nmul x y))) g) g.
(** [d\[j\] = sum of w\[i*cols+j\] * a\[i\]]: loops at 253-262, 340-349 *)
Definition mat_t_arr (d w a : list T) (rows cols : nat) : res (list T) :=
  for_ cols (fun j d =>
    d <- wr d j n0 ;;
    for_ rows (fun i d =>
      x <- rd w (i * cols + j) ;; y <- rd a i ;; c <- rd d j ;; wr d j (nadd c (nmul x y))) d) d.
(** Input gradient, 326-338: zeroed, then [ig\[j\] += a\[i\] * w\[i*cols+j\]] *)
Definition in_grad (d w a : list T) (rows cols : nat) : res (list T) :=
  d <- fill0 d cols ;;
  for_ rows (fun i d => for_ cols (fun j d =>
    y <- rd a i ;; x <- rd w (i * cols + j) ;; c <- rd d j ;; wr d j (nadd c (nmul y x))) d) d.

(** The gradients backward accumulates: gwih, gwhh, gwho, gbh, gbo, ig, next_hidden_state. *)
Record racc := mkAcc {
  a_wih : list T; a_whh : list T; a_who : list T; a_bh : list T; a_bo : list T; a_ig : list T; a_next : list T
}.
(** One turn of the loop of backward, 229-349, for t = _time_steps - k. [last] is what
    _last_input points to. next_hidden_state and tmp_mul have _hidden_size entries. *)
Definition rec_back_step (l : recl) (last g : list T) (k : nat) (s : racc) : res racc :=
  let h := r_hid l in
  let t := r_steps l - k in
  let ti := t - 1 in
  let curr := if r_steps l <=? t then 0 else t in
  let prev := ti in
  let cg := skipn (ti * r_out l) g in
  gbo <- map2_inplace nadd (a_bo s) cg (r_out l) ;;
  gwho <- outer_acc (a_who s) cg (skipn (curr * h) (r_hs l)) (r_out l) h ;;
  tmp <- mat_t_arr (repeat n0 h) (r_who l) cg (r_out l) h ;;
  tmp <- map2_inplace nadd tmp (a_next s) h ;;
  nx <- map_into tanh_1 (a_next s) (skipn (curr * h) (r_hs l)) h ;;
  nx <- map2_inplace nmul nx tmp h ;;
  gbh <- map2_inplace nadd (a_bh s) nx h ;;
  gwih <- outer_acc (a_wih s) nx (skipn (ti * r_in l) last) h (r_in l) ;;
  gwhh <- outer_acc (a_whh s) nx (skipn (prev * h) (r_hs l)) h h ;;
  ig <- at_off (ti * r_in l) (fun d => in_grad d (r_wih l) nx h (r_in l)) (a_ig s) ;;
  tmp <- mat_t_arr tmp (r_whh l) nx h h ;;
  Ok (mkAcc gwih gwhh gwho gbh gbo ig tmp).

(** backward, 217-357 *)
Definition rec_backward (l : recl) (last g : list T) : res recl :=
  s <- for_ (r_steps l) (rec_back_step l last g)
         (mkAcc (r_gwih l) (r_gwhh l) (r_gwho l) (r_gbh l) (r_gbo l) (r_ig l) (repeat n0 (r_hid l))) ;;
  Ok (mkRec (r_in l) (r_out l) (r_hid l) (r_steps l) (r_wih l) (r_whh l) (r_who l) (r_bh l) (r_bo l)
        (a_wih s) (a_whh s) (a_who s) (a_bh s) (a_bo s) (r_hs l) (r_act l) (a_ig s)).

(** hidden_state(v), recurrent.hpp 108-116; time_steps(n), 118-125; reset_hidden_state
    132-138 *)
Definition rec_hidden_state (l : recl) (v : list T) : res recl :=
  _ <- guard (length v <=? r_hid l) ;;
  _ <- require (length v <=? length (r_hs l)) ;;
  Ok (mkRec (r_in l) (r_out l) (r_hid l) (r_steps l) (r_wih l) (r_whh l) (r_who l) (r_bh l) (r_bo l)
        (r_gwih l) (r_gwhh l) (r_gwho l) (r_gbh l) (r_gbo l) (v ++ skipn (length v) (r_hs l)) (r_act l) (r_ig l)).
Definition rec_time_steps (l : recl) (n : nat) : recl :=
  mkRec (r_in l) (r_out l) (r_hid l) n (r_wih l) (r_whh l) (r_who l) (r_bh l) (r_bo l)
    (r_gwih l) (r_gwhh l) (r_gwho l) (r_gbh l) (r_gbo l)
    (resize n0 (r_hid l * Nat.max n 1) (r_hs l)) (resize n0 (r_out l * n) (r_act l)) (resize n0 (r_in l * n) (r_ig l)).
Definition rec_reset (l : recl) : recl :=
  mkRec (r_in l) (r_out l) (r_hid l) (r_steps l) (r_wih l) (r_whh l) (r_who l) (r_bh l) (r_bo l)
    (r_gwih l) (r_gwhh l) (r_gwho l) (r_gbh l) (r_gbo l) (repeat n0 (length (r_hs l))) (r_act l) (r_ig l).
End Recurrent.
Arguments recl T : clear implicits.
Arguments racc T : clear implicits.
