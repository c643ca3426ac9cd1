(** CSV files (/repo/source/parser/csv.hpp). Opening a file gives a fresh stream over its
    contents; the file does not change and can be opened. *)
From Verif Require Import Base StreamModel TypeModel.
From Coq Require Import Ascii.

Notation chars := (list ascii).
Definition nl : ascii := "010".
Definition sgetline := getline Ascii.eqb.
Definition signore := ignore Ascii.eqb.

(** std::count of a character *)
Definition count (c : ascii) (s : chars) : nat := length (filter (Ascii.eqb c) s).

(** CSVRow, csv.hpp 434-440. _types is a reference to a vector of the owner; it is passed
    beside the row. *)
Record crow := mkRow { c_line : chars; c_idx : nat; c_cols : nat; c_sep : ascii }.

(** [cols] calls of getline, each into a fresh string: loops of the constructor 181-187, of
    the conversions 327-339, 345-356, 374-388, of CSV 672-681 *)
Definition fields (line : chars) (sep : ascii) (cols : nat) : list chars :=
  fst (fold_left (fun '(ret, st) _ => let '(s, st) := sgetline sep st [] in (ret ++ [s], st))
         (seq 0 cols) ([], s_open line)).

Definition has_auto (types : list ftype) : bool :=
  existsb (fun t => match t with TAuto => true | _ => false end) types.
Definition bad_types (types : list ftype) (cols : nat) : bool :=
  has_auto types || (length types =? 0) || negb (length types =? cols).
(** Constructor, 169-191: the row and what the referenced vector of types becomes. *)
Definition row_new (line : chars) (idx cols : nat) (types : list ftype) (sep : ascii) : crow * list ftype :=
  (mkRow line idx cols sep,
   if bad_types types cols then map parse_type (fields line sep cols) else types).
(** Constructor without the number of columns, 201-210 *)
Definition row_new_auto (line : chars) (idx : nat) (types : list ftype) (sep : ascii) : crow * list ftype :=
  row_new line idx (count sep line + 1) types sep.

(** operator std::vector<std::string>, 327-339 *)
Definition row_fields (r : crow) : list chars := fields (c_line r) (c_sep r) (c_cols r).
(** operator\[\], 272-294, with the types vector; the field and its type. The while loop ends
    after at most one turn per character plus one: [n] turns. *)
Fixpoint row_find (n i idx : nat) (sep : ascii) (st : stream ascii) (field : chars) : res chars :=
  match n with
  | O => Throw
  | S n =>
      let '(field, st) := sgetline sep st field in
      if s_fail st then Throw
      else if i =? idx then Ok field else row_find n (S i) idx sep st field
  end.
Definition row_at (r : crow) (types : list ftype) (idx : nat) : res (chars * ftype) :=
  _ <- guard (idx <? c_cols r) ;;
  f <- row_find (S (S (length (c_line r)))) 0 idx (c_sep r) (s_open (c_line r)) [] ;;
  _ <- guard (idx <? length types) ;;
  t <- rd types idx ;;
  Ok (f, match t with TAuto => parse_type f | t => t end).

(** *** CSVIterator, 445-626: file contents, row (line and index), requested index (size_t) *)
Record citer := mkIter { i_file : chars; i_line : chars; i_idx : nat; i_req : Z; i_stream : stream ascii }.
Definition wrap (z : Z) : Z := z mod 2 ^ 64.
(** Constructor 462-470; the copy constructor 476-484 opens the file again. *)
Definition iter_new (file : chars) (idx : Z) : citer :=
  let '(line, st) := sgetline nl (s_open file) [] in mkIter file line 0 idx st.
Definition iter_copy (it : citer) : citer := iter_new (i_file it) (i_req it).
(** ++ and --, 543-579 (the postfix forms return a copy of the old iterator) *)
Definition iter_inc (it : citer) : citer := mkIter (i_file it) (i_line it) (i_idx it) (wrap (i_req it + 1)) (i_stream it).
Definition iter_dec (it : citer) : citer := mkIter (i_file it) (i_line it) (i_idx it) (wrap (i_req it - 1)) (i_stream it).
Definition iter_post_inc (it : citer) : citer * citer := (iter_copy it, iter_inc it).
Definition iter_post_dec (it : citer) : citer * citer := (iter_copy it, iter_dec it).
(** update_row, 585-605 *)
Definition update_row (it : citer) : citer :=
  let it := if (i_req it <? Z.of_nat (i_idx it))%Z then
      let '(line, st) := sgetline nl (seekg 0 (i_stream it)) (i_line it) in
      mkIter (i_file it) line 0 (i_req it) st
    else it in
  let st := Nat.iter (Z.to_nat (i_req it - Z.of_nat (i_idx it + 1))) (signore nl) (i_stream it) in
  if (Z.of_nat (i_idx it) =? i_req it)%Z then mkIter (i_file it) (i_line it) (i_idx it) (i_req it) st
  else
    let '(line, st) := sgetline nl st (i_line it) in
    mkIter (i_file it) line (Z.to_nat (i_req it)) (i_req it) st.
(** operator* and operator->, 499-513: the row line *)
Definition iter_deref (it : citer) : chars * citer := let it := update_row it in (i_line it, it).

(** *** CSV, 629-913 *)
Record csv := mkCsv { v_file : chars; v_types : list ftype; v_header : crow; v_cache : crow; v_cols : nat; v_rows : nat; v_sep : ascii }.
(** Constructor, 642-695. The two empty rows built in the initialiser list clear the member
    _types (no column): inferred types are pushed on an empty vector. Rows get the types
    of the file; with these the row constructor changes nothing. *)
Definition csv_new (file : chars) (types : list ftype) (sep : ascii) : csv :=
  let rows := count nl file in
  let '(header, st) := sgetline nl (s_open file) [] in
  let '(first_line, _) := sgetline nl st [] in
  let cols := count sep header + 1 in
  let ty := if bad_types types cols then map parse_type (fields first_line sep cols) else types in
  let '(h, ty) := row_new header 0 cols ty sep in
  let '(c, ty) := row_new first_line 1 cols ty sep in
  mkCsv file ty h c cols rows sep.
(** operator\[\], 731-750; a remainder by zero is undefined. *)
Definition csv_at (v : csv) (idx : nat) : res (crow * csv) :=
  if c_idx (v_cache v) =? idx then Ok (v_cache v, v)
  else
    _ <- require (0 <? v_rows v) ;;
    let idx := idx mod v_rows v in
    let st := Nat.iter idx (signore nl) (s_open (v_file v)) in
    let '(line, _) := sgetline nl st [] in
    let '(c, ty) := row_new line idx (v_cols v) (v_types v) (v_sep v) in
    Ok (c, mkCsv (v_file v) ty (v_header v) c (v_cols v) (v_rows v) (v_sep v)).
(** begin, end, 757-770 *)
Definition csv_begin (v : csv) : citer := iter_new (v_file v) 1.
Definition csv_end (v : csv) : citer := iter_new (v_file v) (wrap (Z.of_nat (v_rows v) - 1)).
(** operator std::vector<std::string>, 776-790; the loops of the other conversions 796-859 are
    the same with a conversion of each line. *)
Definition csv_lines (v : csv) : list chars :=
  let '(ret, _, _) := fold_left (fun '(ret, st, stop) i =>
      if (stop : bool) then (ret, st, stop)
      else let '(line, st) := sgetline nl st [] in
           if s_fail st then (ret, st, true) else (upd ret i line, st, false))
    (seq 0 (v_rows v)) (repeat [] (v_rows v), s_open (v_file v), false) in ret.
(** entry, 885-888 (before the conversion of the fields to numbers); entries_amount, 890-893 *)
Definition csv_entry (v : csv) (i : nat) : res (list chars * csv) :=
  '(r, v) <- csv_at v (i + 1) ;; Ok (row_fields r, v).
Definition csv_entries (v : csv) : Z := wrap (Z.of_nat (v_rows v) - 1).
