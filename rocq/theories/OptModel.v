(** Flat parameter access of the trainable layers and the optimizers.

    A layer is seen through its parameter buffers only: [pblocks] are the parameter vectors
    and [gblocks] the gradient vectors, in the order the flat index walks over them. *)
From Verif Require Import Base Num.

Section Opt.
Context {T : Type} `{NumOps T} `{TransOps T}.

(** Sizes a layer was built with. Dense: input, output. Conv: kernel cells, channels,
    filters. Recurrent: input, hidden, output. The other layers (activation.hpp 67,
    pooling.hpp 83, dropout.hpp 104, concatenate.hpp 90, loss.hpp 86) have no parameters. *)
Inductive pkind := PDense (inp out : nat) | PConv (ks ch nf : nat) | PRec (inp hid out : nat)
                 | PNone.

(** param_count: dense.hpp 100-104, convolutional.hpp 99-104, recurrent.hpp 92-96. *)
Definition pcount (k : pkind) : nat :=
  match k with
  | PDense inp out => (inp + 1) * out
  | PConv ks ch nf => ks * ch * nf + nf
  | PRec inp hid out => (inp + hid + 1) * hid + (hid + 1) * out
  | PNone => 0
  end.

(** Buffer sizes set by the constructors: dense.cpp 43-52, convolutional.cpp 67-76,
    recurrent.cpp 51-78. Order: the order of the flat index. *)
Definition block_sizes (k : pkind) : list nat :=
  match k with
  | PDense inp out => [out * inp; out]
  | PConv ks ch nf => [ks * ch * nf; nf]
  | PRec inp hid out => [inp * hid; hid * hid; hid; hid * out; out]
  | PNone => []
  end.

Record player := mkPlayer { pk : pkind; pblocks : list (list T); gblocks : list (list T) }.

(** Constructors (value-initialised vectors). *)
Definition player_new (k : pkind) : player :=
  mkPlayer k (map (fun n => repeat n0 n) (block_sizes k)) (map (fun n => repeat n0 n) (block_sizes k)).

(** _set_input_shape: dense.cpp 218-223, convolutional.cpp 381-395 ([n] = channels),
    recurrent.cpp 622-628. Only the first parameter vector and its gradient are resized. *)
Definition resize_first (n : nat) (B : list (list T)) : list (list T) :=
  match B with b :: B' => resize n0 n b :: B' | [] => [] end.
Definition set_input (n : nat) (l : player) : player :=
  match pk l with
  | PDense _ out => mkPlayer (PDense n out) (resize_first (out * n) (pblocks l))
                                            (resize_first (out * n) (gblocks l))
  | PConv ks _ nf => mkPlayer (PConv ks n nf) (resize_first (ks * n * nf) (pblocks l))
                                              (resize_first (ks * n * nf) (gblocks l))
  | PRec _ hid out => mkPlayer (PRec n hid out) (resize_first (n * hid) (pblocks l))
                                                (resize_first (n * hid) (gblocks l))
  | PNone => l
  end.

(** Which vector and position [param(index)] refers to, given the sizes of the vectors:
    dense.cpp 117-128 and 130-141 (gradient), convolutional.cpp 192-203 and 205-216. *)
Definition loc2 (count : nat) (s : list nat) (index : nat) : res (nat * nat) :=
  _ <- guard (index <? count) ;;
  Ok (if index <? nth 0 s 0 then (0, index) else (1, index - nth 0 s 0)).

(** recurrent.cpp 369-397 and 399-427. *)
Definition loc5 (count : nat) (s : list nat) (index : nat) : res (nat * nat) :=
  _ <- guard (index <? count) ;;
  let acc := 0 in
  if index <? nth 0 s 0 then Ok (0, index) else
  let acc := acc + nth 0 s 0 in
  if index <? acc + nth 1 s 0 then Ok (1, index - acc) else
  let acc := acc + nth 1 s 0 in
  if index <? acc + nth 2 s 0 then Ok (2, index - acc) else
  let acc := acc + nth 2 s 0 in
  if index <? acc + nth 3 s 0 then Ok (3, index - acc) else
  let acc := acc + nth 3 s 0 in
  Ok (4, index - acc).

Definition loc (k : pkind) (B : list (list T)) (index : nat) : res (nat * nat) :=
  match k with
  | PDense _ _ | PConv _ _ _ => loc2 (pcount k) (map (@length T) B) index
  | PRec _ _ _ => loc5 (pcount k) (map (@length T) B) index
  | PNone => Throw
  end.

Definition param_loc (l : player) := loc (pk l) (pblocks l).
Definition grad_loc (l : player) := loc (pk l) (gblocks l).

(** Reading and writing through the reference. *)
Definition bget (B : list (list T)) (r : nat * nat) : res T :=
  b <- rd B (fst r) ;; rd b (snd r).
Definition bset (B : list (list T)) (r : nat * nat) (x : T) : res (list (list T)) :=
  b <- rd B (fst r) ;; b' <- wr b (snd r) x ;; wr B (fst r) b'.

(** GradientDescentOptimizer::_train, gd_optimizer.cpp 34-47: parameters [P] of a layer of
    kind [kt], gradients [G] of a layer of kind [kf]. The two layers may be the same object:
    parameter and gradient vectors are disjoint. *)
Definition gd_body (eta : T) (kt kf : pkind) (i : nat) (st : list (list T) * list (list T)) :=
  let '(P, G) := st in
  rp <- loc kt P i ;;
  rg <- loc kf G i ;;
  p <- bget P rp ;; g <- bget G rg ;;
  P <- bset P rp (nsub p (nmul eta g)) ;;
  G <- bset G rg n0 ;;
  Ok (P, G).
Definition gd_train2 (eta : T) (kt kf : pkind) (P G : list (list T)) :=
  for_ (pcount kt) (gd_body eta kt kf) (P, G).

(** Optimizer::train(layer), optimizer.cpp 36-39 *)
Definition gd_train (eta : T) (l : player) : res player :=
  '(P, G) <- gd_train2 eta (pk l) (pk l) (pblocks l) (gblocks l) ;;
  Ok (mkPlayer (pk l) P G).

(** Model::train(o), model.cpp 166-172: every layer in turn. *)
Definition gd_train_all (eta : T) (ls : list player) : res (list player) := mapM (gd_train eta) ls.

(** AdamOptimizer, adam_optimizer.cpp 43-75; members _m, _v, _t. *)
Record adam := mkAdam { a_eta : T; a_b1 : T; a_b2 : T; a_eps : T; a_m : T; a_v : T; a_t : nat }.
Definition adam_new (eta b1 b2 eps : T) : adam := mkAdam eta b1 b2 eps n0 n0 1.

Definition adam_body (kt kf : pkind) (i : nat) (st : adam * list (list T) * list (list T)) :=
  let '(a, P, G) := st in
  rp <- loc kt P i ;;
  rg <- loc kf G i ;;
  p <- bget P rp ;; g <- bget G rg ;;
  let m := nadd (nmul (a_b1 a) (a_m a)) (nmul (nsub n1 (a_b1 a)) g) in
  let v := nadd (nmul (a_b2 a) (a_v a)) (nmul (nsub n1 (a_b2 a)) (nmul g g)) in
  let mc := ndiv m (nsub n1 (npow (a_b1 a) (a_t a))) in
  let vc := ndiv v (nsub n1 (npow (a_b2 a) (a_t a))) in
  P <- bset P rp (nsub p (nmul (a_eta a) (ndiv mc (nadd (nsqrt vc) (a_eps a))))) ;;
  G <- bset G rg n0 ;;
  Ok (mkAdam (a_eta a) (a_b1 a) (a_b2 a) (a_eps a) m v (S (a_t a)), P, G).
Definition adam_train2 (a : adam) (kt kf : pkind) (P G : list (list T)) :=
  for_ (pcount kt) (adam_body kt kf) (a, P, G).
Definition adam_train (a : adam) (l : player) : res (adam * player) :=
  '(a, P, G) <- adam_train2 a (pk l) (pk l) (pblocks l) (gblocks l) ;;
  Ok (a, mkPlayer (pk l) P G).
Definition adam_train_all (a : adam) (ls : list player) : res (adam * list player) :=
  foldM (fun st l =>
    let '(a, acc) := st in
    '(a, l) <- adam_train a l ;; Ok (a, acc ++ [l])) ls (a, []).
Definition adam_reset (a : adam) : adam :=
  mkAdam (a_eta a) (a_b1 a) (a_b2 a) (a_eps a) n0 n0 1.
End Opt.
Arguments player T : clear implicits.
Arguments adam T : clear implicits.
