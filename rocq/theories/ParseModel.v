(** From files to training examples: Dataset::parse (/repo/source/data/dataset.hpp 679-689) with
    the encodings of DatasetParser (/repo/source/parser/parser.hpp) as they run on a parser
    object that changes while it is read: streams move and fail, rows are cached. The functions
    here follow EncodingModel.v, with the object threaded through every call of entry(). *)
From Verif Require Import Base Num StreamModel CsvModel ImageModel EncodingModel DatasetModel.

(** LabelEncoding, parser.hpp 76-79 *)
Inductive encoding := DefaultEncoding | OneHotEncoding.

Section Parse.
Context {T : Type} `{NumOps T} {S : Type}.
(** The virtual functions of DatasetParser, 96-119, on an object in state [S]; only entry is not
    const. *)
Record sparser := mkSParser {
  sp_entry : S -> nat -> res (list T * S);
  sp_amount : S -> nat;
  sp_features : S -> nat;
  sp_labels : S -> list nat
}.
Variable P : sparser.

(** unique, 127-137 *)
Definition s_unique (idx : nat) (s : S) : res (list T * S) :=
  '(vals, s) <- for_ (sp_amount P s) (fun i st =>
    let '(ret, s) := st in
    '(row, s) <- sp_entry P s i ;; v <- rd row idx ;; Ok (ret ++ [v], s)) ([], s) ;;
  Ok (fold_left (fun u v => set_insert v u) vals [], s).
(** unique_map, 146-158 *)
Definition s_unique_map (idx : nat) (s : S) : res (list (T * nat) * S) :=
  '(u, s) <- s_unique idx s ;;
  Ok (fst (fold_left (fun '(m, i) l => (map_put l i m, i + 1)) u ([], 0)), s).
(** encoding_feature_size, 165-186 *)
Definition s_feature_size (e : encoding) (s : S) : res (nat * S) :=
  match e with
  | OneHotEncoding =>
      foldM (fun st l => let '(sz, s) := st in '(u, s) <- s_unique l s ;; Ok (sz + length u, s))
        (sp_labels P s) (sp_features P s - length (sp_labels P s), s)
  | DefaultEncoding => Ok (sp_features P s, s)
  end.
(** encoding_labels_idx, 193-215 *)
Definition s_labels_idx (e : encoding) (s : S) : res (list nat * S) :=
  match e with
  | OneHotEncoding =>
      '(es, s) <- s_feature_size e s ;;
      let off := sp_features P s - length (sp_labels P s) in
      Ok (seq off (es - off), s)
  | DefaultEncoding => Ok (sp_labels P s, s)
  end.
(** One row of the one-hot encoding, 245-279 *)
Definition encode_row (f : nat) (ls : list nat) (maps : list (list (T * nat))) (es r : nat) (row ret : list T) : res (list T) :=
  ret <- for_ f (fun c ret =>
    if existsb (Nat.eqb c) ls then Ok ret else x <- rd row c ;; wr ret (r * es + c) x) ret ;;
  '(ret, _) <- for_ (length ls) (fun i st =>
    let '(ret, off) := st in
    m <- rd maps i ;; li <- rd ls i ;; v <- rd row li ;;
    hot <- map_at m v ;;
    ret <- for_ (length m) (fun c ret => wr ret (r * es + off + c) (if c =? hot then n1 else n0)) ret ;;
    Ok (ret, off + length m)) (ret, f - length ls) ;;
  Ok ret.
(** data_to_encoding, 222-298 *)
Definition s_data_to (e : encoding) (s : S) : res (list T * S) :=
  match e with
  | OneHotEncoding =>
      let ls := sp_labels P s in
      '((maps, es), s) <- foldM (fun st l => let '((maps, es), s) := st in
        '(m, s) <- s_unique_map l s ;; Ok ((maps ++ [m], es + length m), s)) ls (([], sp_features P s - length ls), s) ;;
      for_ (sp_amount P s) (fun r st => let '(ret, s) := st in
        '(row, s) <- sp_entry P s r ;;
        ret <- encode_row (sp_features P s) ls maps es r row ret ;; Ok (ret, s))
        (repeat n0 (es * sp_amount P s), s)
  | DefaultEncoding =>
      for_ (sp_amount P s) (fun r st => let '(ret, s) := st in
        '(row, s) <- sp_entry P s r ;;
        ret <- for_ (sp_features P s) (fun c ret => x <- rd row c ;; wr ret (r * sp_features P s + c) x) ret ;; Ok (ret, s))
        (repeat n0 (sp_features P s * sp_amount P s), s)
  end.

(** Dataset::parse, dataset.hpp 679-689. The three calls on the parser are arguments of a
    constructor: the compiler chooses their order, [order] lists it. *)
Inductive arg := AData | AFeatures | ALabels.
Record args := mkArgs { a_data : option (list T); a_features : option nat; a_labels : option (list nat) }.
Definition eval_arg (e : encoding) (st : args * S) (a : arg) : res (args * S) :=
  let '(v, s) := st in
  match a with
  | AData => '(d, s) <- s_data_to e s ;; Ok (mkArgs (Some d) (a_features v) (a_labels v), s)
  | AFeatures => '(f, s) <- s_feature_size e s ;; Ok (mkArgs (a_data v) (Some f) (a_labels v), s)
  | ALabels => '(l, s) <- s_labels_idx e s ;; Ok (mkArgs (a_data v) (a_features v) (Some l), s)
  end.
Definition parse (e : encoding) (sequence_size : nat) (order : list arg) (s : S) : res (dataset T * S) :=
  '(v, s) <- foldM (eval_arg e) order (mkArgs None None None, s) ;;
  match v with
  | mkArgs (Some d) (Some f) (Some l) => Ok (ds_vec n0 d f sequence_size l, s)
  | _ => Throw (* not reached: an order names every argument *)
  end.
End Parse.
Arguments sparser T S : clear implicits.

(** *** The parsers of the library *)
Section Parsers.
Context {T : Type} (num : Z -> T) (conv : chars -> res T).
(** Mnist, mnist.hpp 402-424; [num]: the conversion of a byte to NumType *)
Definition mnist_parser : sparser T mnist :=
  mkSParser (fun m i => '(d, m) <- mnist_entry m (Z.of_nat i) ;; Ok (map num d, m))
    (fun m => Z.to_nat (m_size m)) (fun _ => mnist_feature_size) (fun _ => mnist_labels_idx).
(** Cifar, cifar.hpp 519-560 *)
Definition cifar_parser : sparser T cifar :=
  mkSParser (fun c i => '(d, c) <- cifar_entry c (Z.of_nat i) ;; Ok (map num d, c))
    (fun _ => Z.to_nat cifar_size) (fun _ => cifar_feature_size) (fun _ => cifar_labels_idx).
(** CSV, csv.hpp 885-903; operator std::vector<T> of a row, 374-388: [conv] is what convert
    (type_checker.hpp 68-76) leaves in the uninitialised variable, undefined for a blank field. *)
Definition csv_parser (labels : list nat) : sparser T csv :=
  mkSParser (fun v i => '(fs, v) <- csv_entry v i ;; row <- mapM conv fs ;; Ok (row, v))
    (fun v => Z.to_nat (csv_entries v)) v_cols (fun _ => labels).
End Parsers.
