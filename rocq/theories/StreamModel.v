(** Input streams of the C++ library as used by the parsers: std::ifstream and
    std::stringstream over given contents. Not code of the repository: the behaviour is that
    of the C++17 standard (libstdc++ where it leaves a choice). *)
From Verif Require Import Base.

Section Stream.
Context {A : Type} (eqA : A -> A -> bool).

(** Contents, get position, eofbit, failbit. badbit is never set: reading a regular file or
    a string does not fail at a lower level. *)
Record stream := mkS { s_data : list A; s_pos : nat; s_eof : bool; s_fail : bool }.
Definition s_open (d : list A) : stream := mkS d 0 false false.
Definition good (s : stream) : bool := negb (s_eof s) && negb (s_fail s).
Definition rest (s : stream) : list A := skipn (s_pos s) (s_data s).
Definition set_fail (s : stream) : stream := mkS (s_data s) (s_pos s) (s_eof s) true.

(** The text before the first [d], and whether there is one. *)
Fixpoint cut (d : A) (l : list A) : list A * bool :=
  match l with
  | [] => ([], false)
  | c :: l' => if eqA c d then ([], true) else let '(a, f) := cut d l' in (c :: a, f)
  end.

(** std::getline(is, str, delim): on a stream that is not good it only sets failbit and leaves
    [str]. Otherwise [str] is replaced by the text up to the delimiter (extracted, not
    stored) or the end (eofbit); failbit if nothing was extracted. *)
Definition getline (d : A) (s : stream) (str : list A) : list A * stream :=
  if good s then
    let '(a, found) := cut d (rest s) in
    let used := length a + (if found then 1 else 0) in
    (a, mkS (s_data s) (s_pos s + used) (negb found) (used =? 0))
  else (str, set_fail s).
(** is.ignore(max, delim): drops up to and including the delimiter; eofbit at the end. *)
Definition ignore (d : A) (s : stream) : stream :=
  if good s then
    let '(a, found) := cut d (rest s) in
    mkS (s_data s) (s_pos s + length a + (if found then 1 else 0)) (negb found) false
  else set_fail s.
(** is.seekg(p): clears eofbit first; does nothing more if failbit is set. [p] within the
    contents or, for a file, beyond them. *)
Definition seekg (p : nat) (s : stream) : stream :=
  if s_fail s then mkS (s_data s) (s_pos s) false true
  else mkS (s_data s) p false false.
(** is.read(buf, n): the bytes stored (fewer than [n] set eofbit and failbit). *)
Definition sread (n : nat) (s : stream) : list A * stream :=
  if good s then
    let got := firstn n (rest s) in
    let short := negb (length got =? n) in
    (got, mkS (s_data s) (s_pos s + length got) short short)
  else ([], set_fail s).
End Stream.
Arguments stream A : clear implicits.
