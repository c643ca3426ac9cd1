(** C11, C15, C16: dense forward kernel, softmax, argmax. *)
From Verif Require Import Base Num RSum MathModel MathProofs MathProofsR.
From Coq Require Import Reals Lra.
Local Open Scope R_scope.

(** *** C11 *)
(** Any number type: value [i] is [((b_i + W_i0 x_0) + W_i1 x_1) + ...], in that order;
    cells behind the outputs are untouched and every access is in bounds. *)
Theorem c11_dense_any_number_type :
  forall (T : Type) (NT : NumOps T) (d0 : T) (dst src w bias : list T) (inp out : nat),
    (out <= length dst)%nat -> (out * inp <= length w)%nat -> (inp <= length src)%nat ->
    (out <= length bias)%nat ->
    dense dst src w bias inp out =
    Ok (tab out (fun i => fold_left (fun acc j => nadd acc (nmul (nth (i * inp + j) w d0) (nth j src d0)))
                            (seq 0 inp) (nth i bias d0)) ++ skipn out dst).
Proof. intros T NT. exact (@dense_spec T NT). Qed.
Print Assumptions c11_dense_any_number_type.

(** Over the reals: W x + b. *)
Theorem c11_dense_forward :
  forall (dst src w bias : list R) (inp out : nat),
    (out <= length dst)%nat -> (out * inp <= length w)%nat -> (inp <= length src)%nat ->
    (out <= length bias)%nat ->
    exists dst', dense dst src w bias inp out = Ok dst' /\ length dst' = length dst /\
      (forall i, (i < out)%nat ->
         nth i dst' 0 = Rsum inp (fun j => nth (i * inp + j) w 0 * nth j src 0) + nth i bias 0) /\
      (forall i, (out <= i)%nat -> nth i dst' 0 = nth i dst 0).
Proof.
  intros dst src w bias inp out Hd Hw Hs Hb.
  eexists. split; [apply (dense_spec 0); auto|].
  split; [rewrite app_length, tab_length, skipn_length; lia|]. split; intros i Hi.
  - rewrite app_nth1, nth_tab by (rewrite ?tab_length; auto).
    rewrite nsum_from_Rsum. cbn [nmul NumR]. lra.
  - rewrite app_nth2, tab_length, nth_skipn_add by (rewrite tab_length; auto). f_equal. lia.
Qed.
Print Assumptions c11_dense_forward.

(** Buffers that are too small for the declared sizes are reported as undefined behaviour by
    the model, so the hypotheses are not hiding a default value. *)
Example c11_example :
  dense [0; 0; 7]%Z [1; 2]%Z [10; 20; 30; 40]%Z [5; 6]%Z 2 2 = Ok [55; 116; 7]%Z /\
  dense [0]%Z [1; 2]%Z [10; 20; 30; 40]%Z [5; 6]%Z 2 2 = UB.
Proof. split; reflexivity. Qed.

(** *** C15 *)
Theorem c15_softmax_distribution :
  forall (dst src : list R) n,
    (0 < n)%nat -> (n <= length dst)%nat -> (n <= length src)%nat ->
    exists p, stable_softmax dst src n = Ok (p ++ skipn n dst) /\
      softmax dst src n = Ok (p ++ skipn n dst) /\
      length p = n /\
      (forall i, (i < n)%nat -> 0 < nth i p 0 <= 1) /\
      Rsum n (fun i => nth i p 0) = 1 /\
      (forall i, (i < n)%nat ->
         nth i p 0 * Rsum n (fun j => exp (nth j src 0)) = exp (nth i src 0)) /\
      (forall i j, (i < n)%nat -> (j < n)%nat ->
         (nth i src 0 < nth j src 0 <-> nth i p 0 < nth j p 0)).
Proof. exact stable_softmax_dist. Qed.
Print Assumptions c15_softmax_distribution.

Theorem c15_softmax_shift_invariant :
  forall (dst src : list R) n c,
    (n <= length dst)%nat -> (n <= length src)%nat ->
    stable_softmax dst (map (fun x => x + c) src) n = stable_softmax dst src n.
Proof. exact stable_softmax_shift. Qed.
Print Assumptions c15_softmax_shift_invariant.

(** The empty vector is dereferenced past its end. *)
Theorem c15_empty_vector : forall dst src : list R, stable_softmax dst src 0 = UB.
Proof. exact stable_softmax_nil. Qed.

Example c15_example :
  stable_softmax [9; 9; 9] [0; ln 3] 2 = Ok [1 / 4; 3 / 4; 9].
Proof.
  rewrite stable_softmax_R by (simpl; lia). f_equal. unfold tab. simpl.
  rewrite exp_0, exp_ln by lra. f_equal; [lra|]. f_equal. lra.
Qed.

(** *** C16 *)
(** Any number type whose [<] is a strict weak order (NaN excluded). *)
Theorem c16_argmax :
  forall (T : Type) (NT : NumOps T) (d0 : T) (src : list T) n,
    (forall a : T, nltb a a = false) ->
    (forall a b c : T, nltb a b = true -> nltb b c = true -> nltb a c = true) ->
    (forall a b c : T, nltb b a = false -> nltb c b = false -> nltb c a = false) ->
    (0 < n)%nat -> (n <= length src)%nat ->
    exists m, argmax src n = Ok m /\ max_ src n = Ok (nth m src d0) /\
      max_and_argmax src n = Ok (nth m src d0, m) /\ (m < n)%nat /\
      (forall i, (i < n)%nat -> nltb (nth m src d0) (nth i src d0) = false) /\
      (forall i, (i < m)%nat -> nltb (nth i src d0) (nth m src d0) = true).
Proof.
  intros T NT d0 src n Hi Ht Hn. apply max_spec. unfold strict_weak. auto.
Qed.
Print Assumptions c16_argmax.

(** Over the reals. *)
Theorem c16_argmax_R :
  forall (src : list R) n, (0 < n)%nat -> (n <= length src)%nat ->
    exists m, argmax src n = Ok m /\ max_ src n = Ok (nth m src 0) /\ (m < n)%nat /\
      (forall i, (i < n)%nat -> nth i src 0 <= nth m src 0) /\
      (forall i, (i < m)%nat -> nth i src 0 < nth m src 0).
Proof.
  intros src n Hn Hs.
  destruct (max_spec 0 src n strict_weak_R Hn Hs) as (m & E1 & E2 & _ & Hm & I1 & I2).
  exists m. split; [auto|]. split; [auto|]. split; [auto|]. split; intros i Hi.
  - apply Rltb_false. apply I1. exact Hi.
  - apply Rltb_true. apply I2. exact Hi.
Qed.
Print Assumptions c16_argmax_R.

Example c16_example :
  argmax [3; 8; -2; 8; 5]%Z 5 = Ok 1%nat /\ max_ [3; 8; -2; 8; 5]%Z 5 = Ok 8%Z /\
  argmax ([] : list Z) 0 = Ok 0%nat /\ max_ ([] : list Z) 0 = UB.
Proof. repeat split; reflexivity. Qed.
