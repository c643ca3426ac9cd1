(** CSV files, rows and fields as objects (/repo/source/parser/csv.hpp). A CSVRow and a CSVField
    hold references: the row to the vector of column types of a CSV object (439), the field to
    one element of it (142). Copying binds the new reference to the same vector; assigning
    writes through it. *)
From Verif Require Import Base StreamModel TypeModel CsvModel.
From Coq Require Import Ascii.

(** The vectors _types of the CSV objects, by the number of the object; [None]: destroyed.
    Reading or writing a destroyed vector is undefined. *)
Definition tmem := list (option (list ftype)).
Definition tread (m : tmem) (a : nat) : res (list ftype) :=
  c <- rd m a ;; match c with Some t => Ok t | None => UB end.
Definition twrite (m : tmem) (a : nat) (t : list ftype) : res tmem :=
  _ <- tread m a ;; wr m a (Some t).

(** CSVRow, 434-440: its own members and what _types refers to *)
Record orow := mkORow { r_own : crow; r_ref : nat }.
(** CSVField, 140-144: text, the element _type refers to (vector and position), column index.
    Element references are taken to survive an assignment of a vector of the same length
    (std::vector reuses its storage then). *)
Record ofield := mkOField { f_text : chars; f_vec : nat; f_pos : nat; f_col : nat }.
(** CSV, 905-913; its vector of types has the number of the object. *)
Record ocsv := mkOCsv { o_file : chars; o_header : orow; o_cache : orow; o_cols : nat; o_rows : nat; o_sep : ascii }.

(** CSVRow constructor, 169-191: may replace the referenced types. *)
Definition row_make (m : tmem) (a : nat) (line : chars) (idx cols : nat) (sep : ascii) : res (orow * tmem) :=
  t <- tread m a ;;
  let '(r, t') := row_new line idx cols t sep in
  m <- (if bad_types t cols then twrite m a t' else Ok m) ;;
  Ok (mkORow r a, m).
(** CSVRow::operator=, 301-309 *)
Definition row_assign (m : tmem) (r r' : orow) : res (orow * tmem) :=
  t <- tread m (r_ref r') ;;
  m <- twrite m (r_ref r) t ;;
  Ok (mkORow (r_own r') (r_ref r), m).
(** CSVRow::operator\[\], 272-294, and the constructor of CSVField, 63-73, which replaces AUTO *)
Definition row_field (m : tmem) (r : orow) (i : nat) : res (ofield * tmem) :=
  _ <- guard (i <? c_cols (r_own r)) ;;
  f <- row_find (S (S (length (c_line (r_own r))))) 0 i (c_sep (r_own r)) (s_open (c_line (r_own r))) [] ;;
  t <- tread m (r_ref r) ;;
  _ <- guard (i <? length t) ;;
  x <- rd t i ;;
  m <- match x with TAuto => twrite m (r_ref r) (upd t i (parse_type f)) | _ => Ok m end ;;
  Ok (mkOField f (r_ref r) i i, m).
(** CSVField::type, 132 *)
Definition field_type (m : tmem) (f : ofield) : res ftype := t <- tread m (f_vec f) ;; rd t (f_pos f).
(** CSVField::operator=, 91-97 *)
Definition field_assign (m : tmem) (f g : ofield) : res (ofield * tmem) :=
  x <- field_type m g ;;
  t <- tread m (f_vec f) ;;
  t <- wr t (f_pos f) x ;;
  m <- twrite m (f_vec f) t ;;
  Ok (mkOField (f_text g) (f_vec f) (f_pos f) (f_col g), m).

(** CSV constructor, 642-695; the new object has number [length m]. *)
Definition ocsv_new (m : tmem) (file : chars) (types : list ftype) (sep : ascii) : res (ocsv * tmem) :=
  let a := length m in
  let m := m ++ [Some types] in
  '(h, m) <- row_make m a [] 0 0 "," ;;
  '(c, m) <- row_make m a [] 0 0 "," ;;
  let rows := count nl file in
  let '(header, st) := sgetline nl (s_open file) [] in
  let '(first_line, _) := sgetline nl st [] in
  let cols := count sep header + 1 in
  m <- (if bad_types types cols
        then t <- tread m a ;; twrite m a (t ++ map parse_type (fields first_line sep cols))
        else twrite m a types) ;;
  '(h', m) <- row_make m a header 0 cols sep ;;
  '(h, m) <- row_assign m h h' ;;
  '(c', m) <- row_make m a first_line 1 cols sep ;;
  '(c, m) <- row_assign m c c' ;;
  Ok (mkOCsv file h c cols rows sep, m).
(** The implicit copy constructor of CSV: members are copied one by one. *)
Definition ocsv_copy (m : tmem) (a : nat) (v : ocsv) : res (ocsv * tmem) :=
  t <- tread m a ;; Ok (v, m ++ [Some t]).
(** The implicit assignment of CSV, [a] := [b] with objects [v] and [w]: _types, _row_header and
    _row_cache in this order among the others. *)
Definition ocsv_assign (m : tmem) (a : nat) (v : ocsv) (b : nat) (w : ocsv) : res (ocsv * tmem) :=
  t <- tread m b ;; m <- twrite m a t ;;
  '(h, m) <- row_assign m (o_header v) (o_header w) ;;
  '(c, m) <- row_assign m (o_cache v) (o_cache w) ;;
  Ok (mkOCsv (o_file w) h c (o_cols w) (o_rows w) (o_sep w), m).
(** operator\[\], 731-750 *)
Definition ocsv_at (m : tmem) (a : nat) (v : ocsv) (idx : nat) : res (orow * ocsv * tmem) :=
  if c_idx (r_own (o_cache v)) =? idx then Ok (o_cache v, v, m)
  else
    _ <- require (0 <? o_rows v) ;;
    let idx := idx mod o_rows v in
    let st := Nat.iter idx (signore nl) (s_open (o_file v)) in
    let '(line, _) := sgetline nl st [] in
    '(c', m) <- row_make m a line idx (o_cols v) (o_sep v) ;;
    '(c, m) <- row_assign m (o_cache v) c' ;;
    Ok (c, mkOCsv (o_file v) (o_header v) c (o_cols v) (o_rows v) (o_sep v), m).
(** operator std::vector<CSVRow>, 796-810: the lines that could be read *)
Definition read_lines (file : chars) (rows : nat) : list (nat * chars) :=
  let '(ret, _, _) := fold_left (fun '(ret, st, stop) i =>
      if (stop : bool) then (ret, st, stop)
      else let '(line, st) := sgetline nl st [] in
           if s_fail st then (ret, st, true) else (ret ++ [(i, line)], st, false))
    (seq 0 rows) ([], s_open file, false) in ret.
Definition ocsv_all (m : tmem) (a : nat) (v : ocsv) : res (list orow * tmem) :=
  foldM (fun st il => let '(ret, m) := st in
    '(r, m) <- row_make m a (snd il) (fst il) (o_cols v) (o_sep v) ;; Ok (ret ++ [r], m))
    (read_lines (o_file v) (o_rows v)) ([], m).

(** *** Programs *)
(** Variables of the three classes are numbered in the order in which they are made; a CSV
    variable can be destroyed. *)
Record world := mkWorld { w_mem : tmem; w_csvs : list (option ocsv); w_rows : list orow; w_fields : list ofield }.
Definition world_new : world := mkWorld [] [] [] [].
Inductive vop :=
| COpen (file : chars) (types : list ftype) (sep : ascii)
| CCopy (v : nat) | CAssign (v w : nat) | CDrop (v : nat)
| CAt (v i : nat) | CHeader (v : nat) | CAll (v : nat)     (* new row variables *)
| RCopy (r : nat) | RAssign (r r' : nat) | RAt (r i : nat) (* RAt: a new field variable *)
| FCopy (f : nat) | FAssign (f g : nat)
| CTypes (v : nat) | RText (r : nat) | RTypes (r : nat) | FShow (f : nat). (* what can be read *)
Inductive shown :=
| SNone | STypes (t : list ftype) | SRow (idx cols : nat) (line : chars) (fs : list chars)
| SField (text : chars) (t : ftype) (col : nat).
Definition live {A} (l : list (option A)) (i : nat) : res A :=
  c <- rd l i ;; match c with Some x => Ok x | None => UB end.

Definition vexec (s : world) (o : vop) : res (world * shown) :=
  let 'mkWorld m cs rs fs := s in
  match o with
  | COpen file types sep =>
      '(c, m) <- ocsv_new m file types sep ;; Ok (mkWorld m (cs ++ [Some c]) rs fs, SNone)
  | CCopy v => x <- live cs v ;; '(c, m) <- ocsv_copy m v x ;; Ok (mkWorld m (cs ++ [Some c]) rs fs, SNone)
  | CAssign v w =>
      x <- live cs v ;; y <- live cs w ;; '(c, m) <- ocsv_assign m v x w y ;;
      cs <- wr cs v (Some c) ;; Ok (mkWorld m cs rs fs, SNone)
  | CDrop v => _ <- live cs v ;; cs <- wr cs v None ;; m <- wr m v None ;; Ok (mkWorld m cs rs fs, SNone)
  | CAt v i =>
      x <- live cs v ;; '(r, c, m) <- ocsv_at m v x i ;;
      cs <- wr cs v (Some c) ;; Ok (mkWorld m cs (rs ++ [r]) fs, SNone)
  | CHeader v => x <- live cs v ;; Ok (mkWorld m cs (rs ++ [o_header x]) fs, SNone)
  | CAll v => x <- live cs v ;; '(l, m) <- ocsv_all m v x ;; Ok (mkWorld m cs (rs ++ l) fs, SNone)
  | RCopy r => x <- rd rs r ;; Ok (mkWorld m cs (rs ++ [x]) fs, SNone)
  | RAssign r r' =>
      x <- rd rs r ;; y <- rd rs r' ;; '(x, m) <- row_assign m x y ;;
      rs <- wr rs r x ;; Ok (mkWorld m cs rs fs, SNone)
  | RAt r i => x <- rd rs r ;; '(f, m) <- row_field m x i ;; Ok (mkWorld m cs rs (fs ++ [f]), SNone)
  | FCopy f => x <- rd fs f ;; Ok (mkWorld m cs rs (fs ++ [x]), SNone)
  | FAssign f g =>
      x <- rd fs f ;; y <- rd fs g ;; '(x, m) <- field_assign m x y ;;
      fs <- wr fs f x ;; Ok (mkWorld m cs rs fs, SNone)
  | CTypes v => _ <- live cs v ;; t <- tread m v ;; Ok (s, STypes t)
  | RText r => x <- rd rs r ;;
      Ok (s, SRow (c_idx (r_own x)) (c_cols (r_own x)) (c_line (r_own x)) (row_fields (r_own x)))
  | RTypes r => x <- rd rs r ;; t <- tread m (r_ref x) ;; Ok (s, STypes t)
  | FShow f => x <- rd fs f ;; t <- field_type m x ;; Ok (s, SField (f_text x) t (f_col x))
  end.
Definition vrun (os : list vop) : res (world * list shown) :=
  foldM (fun st o => let '(s, out) := st in '(s, x) <- vexec s o ;; Ok (s, out ++ [x])) os (world_new, []).
