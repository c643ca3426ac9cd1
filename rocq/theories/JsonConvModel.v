(** Building documents from values and converting them back
    (/repo/source/parser/json.hpp, /repo/source/parser/type_checker.hpp). *)
From Coq Require Import Ascii String.
From Verif Require Import Base TypeModel StreamModel JsonModel DumpModel.
Local Open Scope list_scope.
Local Notation length := List.length.

(** *** Integer types: int, unsigned int, long, unsigned long, long long, unsigned long long *)
Record ity := mkIty { it_signed : bool; it_bits : Z }.
Definition it_min (ty : ity) : Z := if it_signed ty then (- 2 ^ (it_bits ty - 1))%Z else 0%Z.
Definition it_max (ty : ity) : Z := if it_signed ty then (2 ^ (it_bits ty - 1) - 1)%Z else (2 ^ it_bits ty - 1)%Z.

(** std::num_get for an integer in base 10: digits are added to [r] as long as that stays below
    [lim]; all digits are taken. [r] is irrelevant once the overflow flag is set. *)
Fixpoint take_number (lim : Z) (s : text) (r : Z) (ovf : bool) : Z * bool * text :=
  match s with
  | c :: w =>
      if range "0" "9" c then
        let d := (Z.of_nat (nat_of_ascii c) - 48)%Z in
        if (lim / 10 <? r)%Z then take_number lim w r true
        else take_number lim w (r * 10 + d)%Z (ovf || (lim - d <? r * 10)%Z)
      else (r, ovf, s)
  | [] => (r, ovf, [])
  end.
(** convert(s, ref), type_checker.hpp 70-76, for an integer type: what is put into [ref] ([None]:
    nothing) and the returned flag. Blank texts leave [ref] alone; no digits give 0; a number
    that does not fit gives the nearest limit; a minus sign before an unsigned number negates
    modulo the size of the type. *)
Definition convert_int (ty : ity) (s : text) : option Z * bool :=
  match skip_space s with
  | [] => (None, false)
  | s =>
      let '(neg, s) := take_sign s in
      let lim := if neg && it_signed ty then (- it_min ty)%Z else it_max ty in
      let '(r, ovf, w) := take_number lim s 0%Z false in
      let none := match fst (take_digits s) with [] => true | _ => false end in
      let v := if none then 0%Z
               else if ovf then if neg && it_signed ty then it_min ty else it_max ty
               else if neg then if it_signed ty then (- r)%Z else ((- r) mod 2 ^ it_bits ty)%Z
               else r in
      (Some v, negb none && negb ovf && match w with [] => true | _ => false end)
  end.
(** convert(s, bool&), 98-110: [read_bool]; convert(s, std::string&), 86-91: the text. *)

(** *** JsonLeaf *)
(** JsonLeaf::as, json.hpp 573-596: the flag is dropped, the variable starts uninitialised. The
    conversions to integers, 637-644, and to bool, 659, are as. JsonItem::as, 1397-1401, 1417-1421,
    convert_json_object 1811-1835: [as_leaf]. *)
Definition as_num (ty : ity) (d : json) : res Z :=
  as_leaf (fun s => match fst (convert_int ty s) with Some z => Ok z | None => UB end) d.
Definition as_flag (d : json) : res bool := as_leaf (fun s => Ok (read_bool s)) d.
(** JsonLeaf::value(val), 561-566: the text of the value; its type is inferred. *)
Definition leaf_value (s : text) : json := JLeaf s (parse_type s).
Definition set_int (n : Z) : json := leaf_value (print_int n).
Definition set_bool (b : bool) : json := leaf_value (print_bool b).

(** *** JsonList and JsonDict *)
Section Conv.
  Context {A : Type}.
  (** JsonList(std::vector<T>), 698-748, _convert_vec 1787-1796; JsonItem(JsonList), 1174-1177 *)
  Definition of_vec (item : A -> json) (l : list A) : res json :=
    items <- for_ (length l) (fun i tmp => x <- rd l i ;; wr tmp i (item x)) (repeat JNull (length l)) ;;
    Ok (JList items).
  (** JsonList::operator std::vector<T>, 872-881, after convert_json_object<JsonList>, 1836-1861;
      JsonItem::as_vec, 1403-1408, 1423-1428. [def] is the default of T. *)
  Definition as_vec (def : A) (conv : json -> res A) (d : json) : res (list A) :=
    match d with
    | JList l => for_ (length l) (fun i ret => x <- rd l i ;; a <- conv x ;; wr ret i a) (repeat def (length l))
    | _ => Throw
    end.
  (** m\[k\] = x for a std::map<std::string, A> *)
  Fixpoint vset (k : text) (x : A) (m : list (text * A)) : list (text * A) :=
    match m with
    | [] => [(k, x)]
    | (k', x') :: m' => match text_cmp k k' with Lt => (k, x) :: m | Eq => (k, x) :: m' | Gt => (k', x') :: vset k x m' end
    end.
  (** JsonDict(std::map<std::string, T>), 931-981, _convert_map 1798-1808; JsonItem(JsonDict), 1183-1186 *)
  Definition of_map (item : A -> json) (m : list (text * A)) : json :=
    JDict (fold_left (fun tmp e => map_set (fst e) (item (snd e)) tmp) m []).
  (** JsonDict::operator std::map<std::string, T>, 1097-1106, after convert_json_object<JsonDict>,
      1863-1888; JsonItem::as_map, 1410-1415, 1430-1435 *)
  Definition as_map (conv : json -> res A) (d : json) : res (list (text * A)) :=
    match d with
    | JDict m => foldM (fun ret e => a <- conv (snd e) ;; Ok (vset (fst e) a ret)) m []
    | _ => Throw
    end.
End Conv.
