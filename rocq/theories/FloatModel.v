(** double with infinities, NaN, signed zeros, rounding, overflow and underflow
    (type.hpp 40: NumType is double), as an instance of the number operations the model is
    generic in. *)
From Coq Require Import Reals.
From Verif Require Import Base Num MathModel DumpModel.

(** The unit: rounding of real numbers with unlimited exponent, the largest finite number, and
    the results of the functions of <cmath>. *)
Record fpu := mkFpu { fl : R -> R; big : R; fexp : R -> R; fln : R -> R; ftanh : R -> R; fpow : R -> nat -> R }.

Definition dval (x : dbl) : R := match x with DFin s m => if s then (- m)%R else m | _ => 0%R end.
Definition dnan : dbl := DNan false.
Definition dopp (x : dbl) : dbl :=
  match x with DFin s m => DFin (negb s) m | DInf s => DInf (negb s) | DNan s => DNan (negb s) end.

Section Ops.
  Variable a : fpu.
  (** The double for the exact result [r]; [s] is the sign of a result that is exactly zero. *)
  Definition dround (s : bool) (r : R) : dbl :=
    if Rltb (big a) (Rabs (fl a r)) then DInf (Rltb r 0)
    else DFin (if Reqb r 0 then s else Rltb r 0) (Rabs (fl a r)).
  Definition dadd (x y : dbl) : dbl :=
    match x, y with
    | DNan _, _ | _, DNan _ => dnan
    | DInf s, DInf t => if Bool.eqb s t then DInf s else dnan
    | DInf s, DFin _ _ => DInf s
    | DFin _ _, DInf t => DInf t
    | DFin s _, DFin t _ => dround (s && t) (dval x + dval y)
    end.
  Definition dsub (x y : dbl) : dbl := dadd x (dopp y).
  Definition dmul (x y : dbl) : dbl :=
    match x, y with
    | DNan _, _ | _, DNan _ => dnan
    | DInf s, DInf t => DInf (xorb s t)
    | DInf s, DFin t m | DFin t m, DInf s => if Reqb m 0 then dnan else DInf (xorb s t)
    | DFin s _, DFin t _ => dround (xorb s t) (dval x * dval y)
    end.
  Definition ddiv (x y : dbl) : dbl :=
    match x, y with
    | DNan _, _ | _, DNan _ => dnan
    | DInf _, DInf _ => dnan
    | DInf s, DFin t _ => DInf (xorb s t)
    | DFin s _, DInf t => DFin (xorb s t) 0
    | DFin s m, DFin t k =>
        if Reqb k 0 then if Reqb m 0 then dnan else DInf (xorb s t) else dround (xorb s t) (dval x / dval y)
    end.
  Definition dltb (x y : dbl) : bool :=
    match x, y with
    | DNan _, _ | _, DNan _ => false
    | DInf s, DInf t => s && negb t
    | DInf s, DFin _ _ => s
    | DFin _ _, DInf t => negb t
    | DFin _ _, DFin _ _ => Rltb (dval x) (dval y)
    end.
  Definition deqb (x y : dbl) : bool :=
    match x, y with
    | DFin _ _, DFin _ _ => Reqb (dval x) (dval y)
    | DInf s, DInf t => Bool.eqb s t
    | _, _ => false
    end.
  Definition dexp (x : dbl) : dbl :=
    match x with DNan _ => dnan | DInf true => DFin false 0 | DInf false => DInf false | DFin _ _ => dround false (fexp a (dval x)) end.
  Definition dln (x : dbl) : dbl :=
    match x with
    | DNan _ | DInf true => dnan
    | DInf false => DInf false
    | DFin s m => if Reqb m 0 then DInf true else if s then dnan else dround false (fln a m)
    end.
  Definition dtanh (x : dbl) : dbl :=
    match x with DNan _ => dnan | DInf s => DFin s 1 | DFin s _ => dround s (ftanh a (dval x)) end.
  Definition dsqrt (x : dbl) : dbl :=
    match x with
    | DNan _ | DInf true => dnan
    | DInf false => DInf false
    | DFin s m => if Reqb m 0 then DFin s 0 else if s then dnan else dround false (sqrt m)
    end.
  (** std::pow with a whole exponent *)
  Definition dpow (x : dbl) (n : nat) : dbl :=
    match n with
    | O => DFin false 1
    | S _ => match x with
             | DNan _ => dnan
             | DInf s => DInf (s && Nat.odd n)
             | DFin s _ => dround (s && Nat.odd n) (fpow a (dval x) n)
             end
    end.
  Definition dofZ (z : Z) : dbl := dround false (IZR z).

  Definition NumD : NumOps dbl := {|
    n0 := DFin false 0; n1 := DFin false 1; nadd := dadd; nsub := dsub; nmul := dmul; ndiv := ddiv;
    nopp := dopp; nltb := dltb; neqb := deqb; nofZ := dofZ |}.
  Definition TransD : TransOps dbl := {| nexp := dexp; nln := dln; ntanh := dtanh; nsqrt := dsqrt; npow := dpow |}.
End Ops.
(** std::numeric_limits<double>::epsilon() and min(), dlmath.hpp 1068, 1103 *)
Definition LimD : LimOps dbl := {| neps := DFin false (/ 2 ^ 52)%R; nmin := DFin false (/ 2 ^ 1022)%R |}.
