(** Type inference of text fields (/repo/source/parser/type_checker.hpp). *)
From Verif Require Import Base.
From Coq Require Import Ascii String.
Local Open Scope list_scope.

(** Text is a list of characters. *)
Notation text := (list ascii).
Definition txt (s : string) : text := list_ascii_of_string s.

(** *** Regular expressions (std::regex, ECMAScript grammar, the constructs used here).
    std::regex_match asks whether the whole text is in the language of the pattern, so the
    anchors ^ and $ around the patterns add nothing and are left out. The backtracking
    search of std::regex is modelled by derivatives: both decide the language. Its recursion
    depth (stack use on very long texts) is not modelled. *)
Inductive regex :=
| RNone | REps
| RSet (f : ascii -> bool)
| RCat (r s : regex) | RAlt (r s : regex) | RStar (r : regex).

Fixpoint nullable (r : regex) : bool :=
  match r with
  | RNone | RSet _ => false
  | REps | RStar _ => true
  | RCat r s => nullable r && nullable s
  | RAlt r s => nullable r || nullable s
  end.
Fixpoint deriv (c : ascii) (r : regex) : regex :=
  match r with
  | RNone | REps => RNone
  | RSet f => if f c then REps else RNone
  | RCat r s => if nullable r then RAlt (RCat (deriv c r) s) (deriv c s) else RCat (deriv c r) s
  | RAlt r s => RAlt (deriv c r) (deriv c s)
  | RStar r => RCat (deriv c r) (RStar r)
  end.
Fixpoint regex_match (r : regex) (s : text) : bool :=
  match s with [] => nullable r | c :: s => regex_match (deriv c r) s end.

Definition ropt (r : regex) : regex := RAlt r REps.
Definition rplus (r : regex) : regex := RCat r (RStar r).
Definition rchar (c : ascii) : regex := RSet (Ascii.eqb c).
Fixpoint rword (s : text) : regex := match s with [] => REps | c :: s => RCat (rchar c) (rword s) end.
Definition range (a b : ascii) (c : ascii) : bool :=
  (nat_of_ascii a <=? nat_of_ascii c) && (nat_of_ascii c <=? nat_of_ascii b).
Definition oneof (s : string) (c : ascii) : bool := existsb (Ascii.eqb c) (txt s).

Definition quote : ascii := "034".
(** [.] in ECMAScript: every character except line terminators. *)
Definition any_char (c : ascii) : bool := negb (Ascii.eqb c "010" || Ascii.eqb c "013").

(** type_checker.hpp 42, 47, 52, 57 *)
Definition float_regex : regex :=
  RCat (ropt (RSet (oneof "-+"))) (RCat (RStar (RSet (range "0" "9"))) (RCat (ropt (rchar "."))
    (RCat (rplus (RSet (range "0" "9")))
      (ropt (RCat (RSet (oneof "eE")) (RCat (ropt (RSet (oneof "-+"))) (rplus (RSet (range "0" "9"))))))))).
Definition integer_regex : regex :=
  RCat (ropt (RSet (oneof "-+"))) (RAlt (rchar "0") (RCat (RSet (range "1" "9")) (RStar (RSet (range "0" "9"))))).
Definition boolean_regex : regex := RAlt (rword (txt "true")) (rword (txt "false")).
Definition string_regex : regex := RCat (rchar quote) (RCat (RStar (RSet any_char)) (rchar quote)).

(** TypeChecker::Type, 146-155 (AUTO and OBJECT are never inferred) *)
Inductive ftype := TNone | TAuto | TFloat | TInt | TBool | TString | TObject.
(** TypeChecker::parse, 269-296 *)
Definition parse_type (field : text) : ftype :=
  match field with
  | [] => TNone
  | _ =>
      if regex_match string_regex field then TString
      else if regex_match boolean_regex field then TBool
      else if regex_match integer_regex field then TInt
      else if regex_match float_regex field then TFloat
      else TString
  end.
(** parse over a vector of fields, 303-313: resize, then one assignment per index. *)
Definition parse_types (fields : list text) : res (list ftype) :=
  for_ (List.length fields) (fun i ret => f <- rd fields i ;; wr ret i (parse_type f)) (repeat TAuto (List.length fields)).

(** *** Values to text: convert(v), 119-134. std::to_string of an integer prints its decimal
    digits after a minus sign if negative. *)
Definition digit (d : nat) : ascii := ascii_of_nat (48 + d).
Fixpoint digits_rev (fuel : nat) (n : Z) : text :=
  match fuel with
  | O => []
  | S f => digit (Z.to_nat (n mod 10)) :: (if (n <? 10)%Z then [] else digits_rev f (n / 10))
  end.
Definition print_nonneg (n : Z) : text := rev (digits_rev (Z.to_nat (Z.log2_up (n + 2))) n).
Definition print_int (n : Z) : text := if (n <? 0)%Z then "-"%char :: print_nonneg (- n) else print_nonneg n.
Definition print_bool (b : bool) : text := if b then txt "true" else txt "false".

(** convert(s, bool&), 98-110: every text converts. *)
Definition text_eqb (a b : text) : bool := if list_eq_dec ascii_dec a b then true else false.
Definition read_bool (s : text) : bool := text_eqb s (txt "true") || text_eqb s (txt "1").
