(** Number operations used by the numeric templates of /repo/source/dnn/dlmath.hpp
    (template parameter [T], instantiated with [NumType = double] by the library).
    No law is attached to the records: structural theorems hold for any instance. *)
From Verif Require Import Base.
From Coq Require Import Reals Lra.

(** Ring and order operations. *)
Class NumOps (T : Type) := {
  n0 : T;
  n1 : T;
  nadd : T -> T -> T;
  nsub : T -> T -> T;
  nmul : T -> T -> T;
  ndiv : T -> T -> T;
  nopp : T -> T;
  nltb : T -> T -> bool;
  neqb : T -> T -> bool;
  nofZ : Z -> T
}.

(** [<cmath>] functions. *)
Class TransOps (T : Type) := {
  nexp : T -> T;
  nln : T -> T;
  ntanh : T -> T;
  nsqrt : T -> T;
  npow : T -> nat -> T
}.

Definition nofnat {T} `{NumOps T} (n : nat) : T := nofZ (Z.of_nat n).

(** Sum in the order a loop [acc += f(i)] starting from [acc] evaluates it. *)
Definition nsum_from {T} `{NumOps T} (acc : T) (n : nat) (f : nat -> T) : T :=
  fold_left (fun a i => nadd a (f i)) (seq 0 n) acc.
Definition nsum {T} `{NumOps T} (n : nat) (f : nat -> T) : T := nsum_from n0 n f.

Definition Rltb (a b : R) : bool := if Rlt_dec a b then true else false.
Definition Reqb (a b : R) : bool := if Req_EM_T a b then true else false.

#[global] Instance NumR : NumOps R := {|
  n0 := 0%R; n1 := 1%R; nadd := Rplus; nsub := Rminus; nmul := Rmult; ndiv := Rdiv;
  nopp := Ropp; nltb := Rltb; neqb := Reqb; nofZ := IZR |}.

#[global] Instance TransR : TransOps R := {|
  nexp := exp; nln := ln; ntanh := tanh; nsqrt := sqrt; npow := pow |}.

(** Integer instance, used only for examples and refutation witnesses that do not
    divide. *)
#[global] Instance NumZ : NumOps Z := {|
  n0 := 0%Z; n1 := 1%Z; nadd := Z.add; nsub := Z.sub; nmul := Z.mul; ndiv := Z.div;
  nopp := Z.opp; nltb := Z.ltb; neqb := Z.eqb; nofZ := fun z => z |}.

Lemma nsum_from_S {T} `{NumOps T} acc n f :
  nsum_from acc (S n) f = nadd (nsum_from acc n f) (f n).
Proof. unfold nsum_from. rewrite seq_S, fold_left_app. reflexivity. Qed.

Lemma nsum_from_ext {T} `{NumOps T} acc n f g :
  (forall i, i < n -> f i = g i) -> nsum_from acc n f = nsum_from acc n g.
Proof.
  induction n as [|n IH]; intros E; [reflexivity|].
  rewrite !nsum_from_S, IH, E; auto.
Qed.

Lemma Rltb_true a b : Rltb a b = true <-> (a < b)%R.
Proof. unfold Rltb. destruct (Rlt_dec a b); split; auto; discriminate. Qed.
Lemma Rltb_false a b : Rltb a b = false <-> (b <= a)%R.
Proof.
  unfold Rltb. destruct (Rlt_dec a b); split; try discriminate; intros; auto; lra.
Qed.
Lemma Reqb_true a b : Reqb a b = true <-> a = b.
Proof. unfold Reqb. destruct (Req_EM_T a b); split; auto; discriminate. Qed.
Lemma Reqb_false a b : Reqb a b = false <-> a <> b.
Proof. unfold Reqb. destruct (Req_EM_T a b); split; auto; try discriminate; congruence. Qed.
