(** Label encodings of a dataset parser (/repo/source/parser/parser.hpp). *)
From Verif Require Import Base Num.

Section Encoding.
Context {T : Type} `{NumOps T}.

(** What the virtual functions of DatasetParser return, parser.hpp 96-119: entry(i) for
    i < entries_amount(), feature_size(), labels_idx() (a std::set: increasing). *)
Record dparser := mkDParser { dp_rows : list (list T); dp_features : nat; dp_labels : list nat }.

(** Insertion in a std::set ordered by <: elements equivalent to a present one are dropped.
    The tree is modelled by its in-order sequence. *)
Fixpoint set_insert (x : T) (s : list T) : list T :=
  match s with
  | [] => [x]
  | y :: s' => if nltb y x then y :: set_insert x s' else if nltb x y then x :: s else s
  end.
(** std::map: m\[k\] = v, and at (throws std::out_of_range) *)
Fixpoint map_put (k : T) (v : nat) (m : list (T * nat)) : list (T * nat) :=
  match m with
  | [] => [(k, v)]
  | (k', v') :: m' => if nltb k' k then (k', v') :: map_put k v m' else if nltb k k' then (k, v) :: m else (k', v) :: m'
  end.
Fixpoint map_at (m : list (T * nat)) (k : T) : res nat :=
  match m with
  | [] => Throw
  | (k', v) :: m' => if nltb k' k || nltb k k' then map_at m' k else Ok v
  end.

(** unique, 127-137 *)
Definition unique (p : dparser) (idx : nat) : res (list T) :=
  vals <- for_ (length (dp_rows p)) (fun i ret => row <- rd (dp_rows p) i ;; v <- rd row idx ;; Ok (ret ++ [v])) [] ;;
  Ok (fold_left (fun s v => set_insert v s) vals []).
(** unique_map, 146-158 *)
Definition unique_map (p : dparser) (idx : nat) : res (list (T * nat)) :=
  u <- unique p idx ;;
  Ok (fst (fold_left (fun '(m, i) l => (map_put l i m, i + 1)) u ([], 0))).
(** encoding_feature_size(ONE_HOT_ENCODING), 165-186. feature_size() - labels_idx().size()
    is a truncated subtraction here (size_t in the code): labels are columns, so no wrap. *)
Definition one_hot_feature_size (p : dparser) : res nat :=
  foldM (fun sz l => u <- unique p l ;; Ok (sz + length u)) (dp_labels p) (dp_features p - length (dp_labels p)).
(** encoding_labels_idx(ONE_HOT_ENCODING), 193-215; consecutive insertions in increasing
    order give an increasing sequence. *)
Definition one_hot_labels (p : dparser) : res (list nat) :=
  es <- one_hot_feature_size p ;;
  Ok (seq (dp_features p - length (dp_labels p)) (es - (dp_features p - length (dp_labels p)))).

Definition is_label (p : dparser) (c : nat) : bool := existsb (Nat.eqb c) (dp_labels p).

(** data_to_encoding(ONE_HOT_ENCODING), 222-282: the part for one row, 240-279 *)
Definition one_hot_row (p : dparser) (maps : list (list (T * nat))) (es r : nat) (ret : list T) : res (list T) :=
  row <- rd (dp_rows p) r ;;
  ret <- for_ (dp_features p) (fun c ret =>
    if is_label p c then Ok ret else x <- rd row c ;; wr ret (r * es + c) x) ret ;;
  '(ret, _) <- for_ (length (dp_labels p)) (fun i st =>
    let '(ret, off) := st in
    m <- rd maps i ;; li <- rd (dp_labels p) i ;; v <- rd row li ;;
    hot <- map_at m v ;;
    ret <- for_ (length m) (fun c ret => wr ret (r * es + off + c) (if c =? hot then n1 else n0)) ret ;;
    Ok (ret, off + length m)) (ret, dp_features p - length (dp_labels p)) ;;
  Ok ret.
Definition data_one_hot (p : dparser) : res (list T) :=
  '(maps, es) <- foldM (fun st l => let '(maps, es) := st in
      m <- unique_map p l ;; Ok (maps ++ [m], es + length m)) (dp_labels p) ([], dp_features p - length (dp_labels p)) ;;
  for_ (length (dp_rows p)) (one_hot_row p maps es) (repeat n0 (es * length (dp_rows p))).
(** data_to_encoding(DEFAULT_ENCODING), 283-298 *)
Definition data_default (p : dparser) : res (list T) :=
  for_ (length (dp_rows p)) (fun r ret =>
    row <- rd (dp_rows p) r ;;
    for_ (dp_features p) (fun c ret => x <- rd row c ;; wr ret (r * dp_features p + c) x) ret)
    (repeat n0 (dp_features p * length (dp_rows p))).
End Encoding.
Arguments dparser T : clear implicits.
