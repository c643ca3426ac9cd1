(** Model of /repo/source/data/dataset.hpp (class Dataset<T>). The Armadillo
    conversions (lines 263-325, MLPACK only) are not modelled. *)
From Verif Require Import Base Num ArrayModel.
From Coq Require Import QArith Qround.
Close Scope Q_scope.

Section Dataset.
Context {T : Type} (dflt : T). (* value-initialised element [T()] *)

(** Fields of the class, dataset.hpp:790-850. The two std::set members are strictly
    increasing lists. *)
Record dataset := DS {
  data : list T;
  fsize : nat;       (* _feature_size *)
  ssize : nat;       (* _sequence_size *)
  dsize : nat;       (* _dataset_size *)
  famount : nat;     (* _feature_amount *)
  samount : nat;     (* _sequence_amount *)
  labels_i : list nat;  (* _labels_idx *)
  input_i : list nat    (* _input_idx *)
}.

(** Vector built from two iterators [begin + a], [begin + b]. *)
Definition range_copy (l : list T) (a b : nat) : res (list T) :=
  _ <- require ((a <=? b) && (b <=? length l)) ;; Ok (firstn (b - a) (skipn a l)).

(** dataset.hpp:126-129 (178-181, 242-245, 471-474): erase the labels [>= fs]. *)
Fixpoint erase_ge (fs : nat) (l : list nat) : list nat :=
  match l with
  | [] => []
  | x :: t => if fs <=? x then erase_ge fs t else x :: erase_ge fs t
  end.

Definition mem (x : nat) (l : list nat) : bool := existsb (Nat.eqb x) l.

(** dataset.hpp:130-136: the columns that are not labels, inserted in increasing
    order into a std::set. *)
Definition other_cols (fs : nat) (l : list nat) : list nat :=
  filter (fun i => negb (mem i l)) (seq 0 fs).

(** dataset.hpp:82-93 default constructor. *)
Definition ds_empty : dataset := DS [] 0 0 0 0 0 [] [].

(** dataset.hpp:105-137 constructor from a vector. *)
Definition ds_vec (v : list T) (feature_size sequence_size : nat) (labels : list nat)
  : dataset :=
  let n := length v in
  let fs := Nat.min feature_size n in
  let ss := Nat.min sequence_size (n / Nat.max fs 1) in
  let dsz := n / Nat.max (fs * ss) 1 * (fs * ss) in
  let fa := dsz / Nat.max fs 1 in
  let sa := dsz / Nat.max (fs * ss) 1 in
  let lab := erase_ge fs labels in
  DS (resize dflt dsz v) fs ss dsz fa sa lab (other_cols fs lab).

(** dataset.hpp:157-176: feature size and stored values of a matrix. *)
Definition mat_rows (m : list (list T)) : res (nat * list T) :=
  match m with
  | [] => Ok (0, [])
  | r0 :: _ =>
    let fs := fold_left (fun a v => Nat.min (length v) a) m (length r0) in
    if fs =? 0 then Ok (0, [])
    else rows <- mapM (fun v => range_copy v 0 fs) m ;; Ok (fs, concat rows)
  end.

(** dataset.hpp:147-192 constructor from a matrix. *)
Definition ds_mat (m : list (list T)) (sequence_size : nat) (labels : list nat)
  : res dataset :=
  let fa := length m in
  let ss := Nat.min sequence_size fa in
  '(fs, dat) <- mat_rows m ;;
  let sa := fa / Nat.max ss 1 in
  let dsz := sa * ss * fs in
  let lab := erase_ge fs labels in
  Ok (DS (resize dflt dsz dat) fs ss dsz fa sa lab (other_cols fs lab)).

(** dataset.hpp:223-232: minimum row length over all rows of all sequences. *)
Definition cub_min_row (c : list (list (list T))) (fs0 : nat) : nat :=
  fold_left (fun a m => fold_left (fun a v => Nat.min (length v) a) m a) c fs0.

(** dataset.hpp:206-237: sequence size, feature size and stored values of a cube. *)
Definition cub_rows (c : list (list (list T))) : res (nat * nat * list T) :=
  match c with
  | [] => Ok (0, 0, [])
  | [] :: _ => Ok (length c, 0, [])
  | ((r0 :: _) as m0) :: _ =>
    let ss := fold_left (fun a m => Nat.min (length m) a) c (length m0) in
    let fs := cub_min_row c (length r0) in
    if negb (ss =? 0) && negb (fs =? 0) then
      blocks <- mapM (fun m =>
        rows <- mapM (fun i => v <- rd m i ;; range_copy v 0 fs) (seq 0 ss) ;;
        Ok (concat rows)) c ;;
      Ok (ss, fs, concat blocks)
    else Ok (ss, fs, [])
  end.

(** dataset.hpp:200-256 constructor from a cube. *)
Definition ds_cub (c : list (list (list T))) (labels : list nat) : res dataset :=
  let sa := length c in
  '(ss, fs, dat) <- cub_rows c ;;
  let fa := sa * ss in
  let dsz := fa * fs in
  let lab := erase_ge fs labels in
  Ok (DS dat fs ss dsz fa sa lab (other_cols fs lab)).

(** dataset.hpp:340-347 sequence_size setter; integer division by zero is undefined. *)
Definition ds_set_sequence_size (d : dataset) (s : nat) : res dataset :=
  let ss := Nat.min s (famount d) in
  _ <- require (negb (ss =? 0)) ;;
  let sa := famount d / ss in
  let dsz := ss * sa * fsize d in
  _ <- require (negb (fsize d =? 0)) ;;
  let fa := dsz / fsize d in
  Ok (DS (resize dflt dsz (data d)) (fsize d) ss dsz fa sa (labels_i d) (input_i d)).

(** dataset.hpp:354 size, 360 empty. *)
Definition ds_size (d : dataset) : nat := famount d.
Definition ds_is_empty (d : dataset) : bool := length (data d) =? 0.

(** dataset.hpp:379-385 entry. *)
Definition ds_entry (d : dataset) (row : nat) : res (list T) :=
  if famount d <=? row then Ok []
  else range_copy (data d) (row * fsize d) (row * fsize d + fsize d).

(** dataset.hpp:392-398 entry_seq. *)
Definition ds_entry_seq (d : dataset) (seq : nat) : res (list T) :=
  if samount d <=? seq then Ok []
  else range_copy (data d) (seq * ssize d * fsize d)
         (seq * ssize d * fsize d + ssize d * fsize d).

(** dataset.hpp:745-757 _field_from_row_idx. *)
Definition field_from_row (d : dataset) (row : nat) (set : list nat) : res (list T) :=
  for_ (length set) (fun i dst =>
    c <- rd set i ;;
    v <- rd (data d) (row * fsize d + c) ;;
    wr dst i v) (repeat dflt (length set)).

(** dataset.hpp:769-785 _field_from_seq_idx; the running index [i++] is
    [t * |set| + k] and [data_entry_idx] grows by the feature size. *)
Definition field_from_seq (d : dataset) (sq : nat) (set : list nat) : res (list T) :=
  for_ (ssize d) (fun t dst =>
    for_ (length set) (fun k dst =>
      c <- rd set k ;;
      v <- rd (data d) (sq * ssize d * fsize d + t * fsize d + c) ;;
      wr dst (t * length set + k) v) dst) (repeat dflt (ssize d * length set)).

(** dataset.hpp:415-420 input. *)
Definition ds_input (d : dataset) (row : nat) : res (list T) :=
  if famount d <=? row then Ok []
  else if length (input_i d) =? fsize d then ds_entry d row
  else field_from_row d row (input_i d).

(** dataset.hpp:491-495 label. *)
Definition ds_label (d : dataset) (row : nat) : res (list T) :=
  if (famount d <=? row) || (length (labels_i d) =? 0) then Ok []
  else field_from_row d row (labels_i d).

(** dataset.hpp:448-453 inputs_seq, 523-527 labels_seq. *)
Definition ds_inputs_seq (d : dataset) (sq : nat) : res (list T) :=
  if samount d <=? sq then Ok []
  else if length (input_i d) =? fsize d then ds_entry_seq d sq
  else field_from_seq d sq (input_i d).
Definition ds_labels_seq (d : dataset) (sq : nat) : res (list T) :=
  if (samount d <=? sq) || (length (labels_i d) =? 0) then Ok []
  else field_from_seq d sq (labels_i d).

(** dataset.hpp:426-439 inputs, 501-514 labels: the same loop on two index sets. *)
Definition columns (d : dataset) (set : list nat) : res dataset :=
  ret <- for_ (famount d) (fun row ret =>
    for_ (length set) (fun k ret =>
      c <- rd set k ;;
      v <- rd (data d) (row * fsize d + c) ;;
      wr ret (row * length set + k) v) ret)
    (repeat dflt (length set * famount d)) ;;
  Ok (ds_vec ret (length set) (ssize d) []).
Definition ds_inputs (d : dataset) := columns d (input_i d).
Definition ds_labels (d : dataset) := columns d (labels_i d).

(** dataset.hpp:468-483 label_idx setter. *)
Definition ds_set_labels (d : dataset) (l : list nat) : dataset :=
  let lab := erase_ge (fsize d) l in
  DS (data d) (fsize d) (ssize d) (dsize d) (famount d) (samount d) lab
     (other_cols (fsize d) lab).

(** dataset.hpp:535-553 subdata(from, to). *)
Definition ds_subdata (d : dataset) (from to : nat) : res dataset :=
  let to := if famount d <? to then famount d else to in
  _ <- guard (from <=? to) ;;
  sub <- range_copy (data d) (from * fsize d) (to * fsize d) ;;
  Ok (ds_vec sub (fsize d) (ssize d) (labels_i d)).

(** Clamp of dataset.hpp:562-563 and 577-578. *)
Definition clamp01 (p : Q) : Q :=
  let p := if Qlt_le_dec 1 p then 1%Q else p in
  if Qlt_le_dec p 0 then 0%Q else p.

Definition qnat (n : nat) : Q := inject_Z (Z.of_nat n).

(** dataset.hpp:560-567 subdata(perc), exact rational arithmetic. *)
Definition ds_subdata_perc (d : dataset) (perc : Q) : res dataset :=
  ds_subdata d 0 (Z.to_nat (Qfloor (clamp01 perc * qnat (famount d)))).

(** dataset.hpp:581-582, after the number [k] of training sequences is known. *)
Definition ds_split_at (d : dataset) (k : nat) : res (dataset * dataset) :=
  let to := k * ssize d in
  tr <- ds_subdata d 0 to ;;
  te <- ds_subdata d to (famount d) ;;
  Ok (tr, te).

(** dataset.hpp:575-583 split, exact rational arithmetic; with a zero sequence size
    the cast of NaN/inf is undefined. *)
Definition ds_split (d : dataset) (perc : Q) : res (dataset * dataset) :=
  _ <- require (negb (ssize d =? 0)) ;;
  ds_split_at d
    (Z.to_nat (Qfloor (clamp01 perc * qnat (famount d) / qnat (ssize d)))).

(** dataset.hpp:590-608 shuffle; [perm] is the vector drawn at line 592. *)
Definition ds_shuffle (d : dataset) (perm : list nat) : res dataset :=
  nd <- for_ (famount d) (fun cur nd =>
    new_idx <- rd perm cur ;;
    for_ (fsize d) (fun i nd =>
      v <- rd (data d) (cur * fsize d + i) ;;
      wr nd (new_idx * fsize d + i) v) nd)
    (repeat dflt (length (data d))) ;;
  Ok (DS nd (fsize d) (ssize d) (dsize d) (famount d) (samount d)
         (labels_i d) (input_i d)).

Definition with_data (d : dataset) (l : list T) : dataset :=
  DS l (fsize d) (ssize d) (dsize d) (famount d) (samount d) (labels_i d) (input_i d).

Fixpoint eqb_list (a b : list nat) : bool :=
  match a, b with
  | [], [] => true
  | x :: a', y :: b' => (x =? y) && eqb_list a' b'
  | _, _ => false
  end.

(** dataset.hpp:702-732 concatenate. *)
Definition ds_concatenate (d1 d2 : dataset) (axis : nat) : res dataset :=
  if ds_is_empty d1 then Ok d2
  else if ds_is_empty d2 then Ok d1
  else
    _ <- guard (axis <=? 2) ;;
    _ <- guard ((axis =? 2) || eqb_list (labels_i d1) (labels_i d2)) ;;
    let sh1 := [samount d1; ssize d1; fsize d1] in
    let sh2 := [samount d2; ssize d2; fsize d2] in
    let rs := grow sh1 axis (nth axis sh2 0) in
    r <- concatenate2 (repeat dflt (shape_size rs)) (data d1) sh1 (data d2) sh2 axis ;;
    Ok (ds_vec r (nth 2 rs 0) (nth 1 rs 0) (if axis =? 2 then [] else labels_i d1)).

End Dataset.
Arguments dataset : clear implicits.

Section Normalisation.
Context {T : Type} {NT : NumOps T}.

(** dataset.hpp:610-633 min_max_normalization(min, max, idx_vec). *)
Definition ds_min_max (d : dataset T) (mn mx : T) (idx : list nat) : res (dataset T) :=
  _ <- guard (negb (neqb mn mx)) ;;
  let idx := match idx with [] => seq 0 (fsize d) | _ => idx end in
  l <- for_ (famount d) (fun row l =>
    foldM (fun l col =>
      v <- rd l (row * fsize d + col) ;;
      wr l (row * fsize d + col) (ndiv (nsub v mn) (nsub mx mn))) idx l) (data d) ;;
  Ok (with_data d l).

(** dataset.hpp:635-669 min_max_normalization(). The loop at 648 starts at row 1. *)
Definition ds_min_max_auto (d : dataset T) : res (dataset T) :=
  '(mn, mx) <- for_ (fsize d) (fun col '(mn, mx) =>
      v <- rd (data d) col ;;
      mn <- wr mn col v ;;
      mx <- wr mx col v ;;
      Ok (mn, mx)) (repeat n0 (fsize d), repeat n0 (fsize d)) ;;
  '(mn, mx) <- for_from 1 (famount d - 1) (fun row s =>
      for_ (fsize d) (fun col '(mn, mx) =>
        v <- rd (data d) (row * fsize d + col) ;;
        M <- rd mx col ;;
        mx <- (if nltb M v then wr mx col v else Ok mx) ;;
        m <- rd mn col ;;
        mn <- (if nltb v m then wr mn col v else Ok mn) ;;
        Ok (mn, mx)) s) (mn, mx) ;;
  l <- for_ (famount d) (fun row l =>
    for_ (fsize d) (fun col l =>
      v <- rd l (row * fsize d + col) ;;
      m <- rd mn col ;;
      M <- rd mx col ;;
      wr l (row * fsize d + col) (ndiv (nsub v m) (nsub M m))) l) (data d) ;;
  Ok (with_data d l).

End Normalisation.
