(** Arithmetic of the library's [NumType] with rounding. /repo/source/type.hpp makes [NumType]
    a [double]; every [+ - * /] of the templates in dnn/dlmath.hpp, and every conversion of an
    integer, gives the exact result rounded to a representable number ([rnd]). Comparisons,
    negation and the constants 0 and 1 are exact. Simplifications: no overflow (a result too
    large is not turned into an infinity), no NaN, no signed zero. *)
From Verif Require Import Base Num.
From Coq Require Import Reals.
Local Open Scope R_scope.

Definition NumF (rnd : R -> R) : NumOps R := {|
  n0 := 0; n1 := 1;
  nadd := fun a b => rnd (a + b);
  nsub := fun a b => rnd (a - b);
  nmul := fun a b => rnd (a * b);
  ndiv := fun a b => rnd (a / b);
  nopp := Ropp; nltb := Rltb; neqb := Reqb;
  nofZ := fun z => rnd (IZR z) |}.

(** Truncation to [p] binary digits, the rounding mode "toward zero" with an unbounded exponent
    range: a concrete rounding. [expo x] is the exponent of the largest power of two that is at
    most [x]. *)
Definition expo (x : R) : Z := Int_part (ln x / ln 2).
Definition trunc_pos (p : nat) (x : R) : R :=
  let e := (Z.of_nat p - expo x)%Z in
  IZR (Int_part (x * powerRZ 2 e)) * powerRZ 2 (- e).
Definition trunc (p : nat) (x : R) : R :=
  if Rltb 0 x then trunc_pos p x else if Rltb x 0 then - trunc_pos p (- x) else 0.
