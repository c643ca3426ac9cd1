(** JSON documents, their printing and reading (/repo/source/parser/json.hpp). *)
From Verif Require Import Base StreamModel TypeModel.
From Coq Require Import Ascii String.
Local Open Scope list_scope.
Local Notation length := List.length.

(** JsonItem, JsonLeaf, JsonList, JsonDict. An item without value (null pointer) is [JNull].
    A std::map is the list of its pairs in the order of the keys. *)
Inductive json :=
| JNull
| JLeaf (v : text) (t : ftype)
| JList (l : list json)
| JDict (m : list (text * json)).

(** std::map<std::string, ..>: operator< of strings compares bytes *)
Fixpoint text_cmp (a b : text) : comparison :=
  match a, b with
  | [], [] => Eq
  | [], _ => Lt
  | _, [] => Gt
  | x :: a, y :: b => match N.compare (N_of_ascii x) (N_of_ascii y) with Eq => text_cmp a b | r => r end
  end.
(** m\[k\] = x *)
Fixpoint map_set (k : text) (x : json) (m : list (text * json)) : list (text * json) :=
  match m with
  | [] => [(k, x)]
  | (k', x') :: m' => match text_cmp k k' with Lt => (k, x) :: m | Eq => (k, x) :: m' | Gt => (k', x') :: map_set k x m' end
  end.
Fixpoint map_find (k : text) (m : list (text * json)) : option json :=
  match m with [] => None | (k', x) :: m => if text_eqb k k' then Some x else map_find k m end.

(** Leaf constructors, 489-549 *)
Definition leaf_text (v : text) : json := JLeaf v (parse_type v).
Definition leaf_int (n : Z) : json := JLeaf (print_int n) TInt.
Definition leaf_bool (b : bool) : json := JLeaf (print_bool b) TBool.

(** *** Printing: leaf 1476-1487, list 1522-1536, dictionary 1570-1584, item 1624-1628 *)
Fixpoint commas (l : list text) : text :=
  match l with [] => [] | [x] => x | x :: l => x ++ ","%char :: commas l end.
Fixpoint print (d : json) : text :=
  match d with
  | JNull => []
  | JLeaf v TString => quote :: v ++ [quote]
  | JLeaf v _ => v
  | JList l => "["%char :: commas (map print l) ++ ["]"%char]
  | JDict m => "{"%char :: commas (map (fun p => quote :: fst p ++ quote :: ":"%char :: print (snd p)) m) ++ ["}"%char]
  end.

(** *** Reading *)
(** os.read(&c, 1): an uninitialised [c] is [None]; a failed read leaves it. *)
Definition rd1 (st : stream ascii) (c : option ascii) : option ascii * stream ascii :=
  let '(got, st) := sread 1 st in (match got with [x] => Some x | _ => c end, st).
(** os.seekg(-n, os.cur): clears eofbit; fails (failbit) before the start. *)
Definition back (n : nat) (st : stream ascii) : stream ascii :=
  if s_fail st then mkS (s_data st) (s_pos st) false true
  else if n <=? s_pos st then mkS (s_data st) (s_pos st - n) false false
  else mkS (s_data st) (s_pos st) false true.
Notation sget d st str := (getline Ascii.eqb d st str).

(** The text before the first closing bracket of either kind, and whether there is one:
    find(']'), find('}'), std::min, substr; 1511-1516 *)
Fixpoint upto_close (v : text) : text * bool :=
  match v with
  | [] => ([], false)
  | c :: v => if Ascii.eqb c "]" || Ascii.eqb c "}" then ([], true) else let '(a, f) := upto_close v in (c :: a, f)
  end.
(** operator>>(JsonLeaf), 1489-1520; [obj] is a new leaf *)
Definition read_leaf (st : stream ascii) : res (json * stream ascii) :=
  let '(c, st) := rd1 st None in
  match c with
  | None => UB
  | Some c =>
      if Ascii.eqb c quote then
        let '(v, st) := sget quote st [] in
        if s_eof st then Ok (JLeaf v TString, st)
        else
          let '(c, st) := rd1 st (Some c) in
          Ok (JLeaf v TString, match c with Some c => if Ascii.eqb c "," then st else back 1 st | None => st end)
      else
        let st := back 1 st in
        let '(v, st) := sget ","%char st [] in
        let '(v', found) := upto_close v in
        let st := if found then
            let st := if s_eof st then st else back 1 st in
            back (length v - length v') st
          else st in
        Ok (JLeaf v' (parse_type v'), st)
  end.
(** End of a list or dictionary: a comma that follows is taken; 1562-1566, 1616-1620 *)
Definition after_close (c : ascii) (st : stream ascii) : stream ascii :=
  if s_eof st then st
  else
    let '(c, st) := rd1 st (Some c) in
    match c with Some c => if Ascii.eqb c "," then st else back 1 st | None => st end.

(** operator>> of JsonItem 1630-1663, JsonList 1538-1568, JsonDict 1586-1622. Each call and each
    turn of a loop takes one unit of the first argument; [None]: not finished within it.
    [c], [more] keep their values when a read or getline fails. *)
Fixpoint read_item (n : nat) (st : stream ascii) {struct n} : option (res (json * stream ascii)) :=
  match n with
  | O => None
  | S n =>
      let '(c, st) := rd1 st None in
      let st := back 1 st in
      match c with
      | None => Some UB
      | Some c =>
          if Ascii.eqb c "[" then
            let '(c, st) := rd1 st None in read_list n st c [] []
          else if Ascii.eqb c "{" then
            let '(c, st) := rd1 st None in read_dict n st c [] []
          else Some (read_leaf st)
      end
  end
with read_list (n : nat) (st : stream ascii) (c : option ascii) (acc : list json) (more : text) {struct n} : option (res (json * stream ascii)) :=
  match n with
  | O => None
  | S n =>
      let '(more, st) := sget "]"%char st more in
      let st := back (length more + 1) st in
      match read_item n st with
      | Some (Ok (ji, st)) =>
          let acc := acc ++ [ji] in
          let '(c, st) := rd1 st c in
          match c with
          | None => Some UB
          | Some c =>
              if Ascii.eqb c "]" then Some (Ok (JList acc, after_close c st))
              else read_list n (back 1 st) (Some c) acc more
          end
      | r => r
      end
  end
with read_dict (n : nat) (st : stream ascii) (c : option ascii) (m : list (text * json)) (more : text) {struct n} : option (res (json * stream ascii)) :=
  match n with
  | O => None
  | S n =>
      let '(more, st) := sget "}"%char st more in
      let st := back (length more + 1) st in
      let '(c, st) := rd1 st c in
      let '(key, st) := sget quote st [] in
      let '(c, st) := rd1 st c in
      match read_item n st with
      | Some (Ok (ji, st)) =>
          let m := map_set key ji m in
          let '(c, st) := rd1 st c in
          match c with
          | None => Some UB
          | Some c =>
              if Ascii.eqb c "}" then Some (Ok (JDict m, after_close c st))
              else read_dict n (back 1 st) (Some c) m more
          end
      | r => r
      end
  end.

(** *** Equality, 1665-1734. Comparing an item without value dereferences a null pointer. *)
Fixpoint json_eq (a b : json) {struct a} : res bool :=
  match a, b with
  | JNull, _ | _, JNull => UB
  | JLeaf v _, JLeaf w _ => Ok (text_eqb v w)
  | JList l, JList l' =>
      if negb (length l =? length l') then Ok false
      else (fix go l l' := match l, l' with
              | x :: l, y :: l' => e <- json_eq x y ;; if e then go l l' else Ok false
              | _, _ => Ok true
              end) l l'
  | JDict m, JDict m' =>
      if negb (length m =? length m') then Ok false
      else if negb (forallb (fun p => existsb (fun q => text_eqb (fst q) (fst p)) m) m') then Ok false
      else (fix go m := match m with
              | [] => Ok true
              | (k, x) :: m => match map_find k m' with
                               | None => Throw
                               | Some y => e <- json_eq x y ;; if e then go m else Ok false
                               end
              end) m
  | _, _ => Ok false
  end.

(** *** Access. at(idx) 1287-1312, at(key) 1314-1339 *)
Definition at_idx (d : json) (i : nat) : res json :=
  match d with JList l => match nth_error l i with Some x => Ok x | None => Throw end | _ => Throw end.
Definition at_key (d : json) (k : text) : res json :=
  match d with JDict m => match map_find k m with Some x => Ok x | None => Throw end | _ => Throw end.
(** append, 1341-1366: an item without value becomes a list *)
Definition append (d x : json) : res json :=
  match d with JNull => Ok (JList [x]) | JList l => Ok (JList (l ++ [x])) | _ => Throw end.
(** d\[key\] = x, 1260-1285: an item without value becomes a dictionary *)
Definition set_key (d : json) (k : text) (x : json) : res json :=
  match d with JNull => Ok (JDict [(k, x)]) | JDict m => Ok (JDict (map_set k x m)) | _ => Throw end.
(** size, 1368-1394 *)
Definition jsize (d : json) : nat := match d with JList l => length l | JDict m => length m | _ => 0 end.
