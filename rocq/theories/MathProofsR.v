(** Real-number facts about the kernels: softmax, argmax, dense. *)
From Verif Require Import Base Num RSum MathModel MathProofs.
From Coq Require Import Reals Lra.
Local Open Scope R_scope.

Lemma softmax_R (dst src : list R) n :
  (n <= length dst)%nat -> (n <= length src)%nat ->
  softmax dst src n =
  Ok (tab n (fun i => exp (nth i src 0) / Rsum n (fun j => exp (nth j src 0))) ++ skipn n dst).
Proof.
  intros Hd Hs. unfold softmax. rewrite (softmax_with_spec 0) by auto. f_equal. f_equal.
  apply tab_ext. intros i Hi. rewrite nsum_Rsum. cbn. unfold Rdiv. ring.
Qed.

Lemma Rsum_exp_pos n (f : nat -> R) : (0 < n)%nat -> 0 < Rsum n (fun j => exp (f j)).
Proof. intros Hn. apply Rsum_pos; auto. intros. apply exp_pos. Qed.

Lemma stable_softmax_R (dst src : list R) n :
  (0 < n)%nat -> (n <= length dst)%nat -> (n <= length src)%nat ->
  stable_softmax dst src n =
  Ok (tab n (fun i => exp (nth i src 0) / Rsum n (fun j => exp (nth j src 0))) ++ skipn n dst).
Proof.
  intros Hn Hd Hs. unfold stable_softmax.
  destruct (max_spec 0 src n strict_weak_R Hn Hs) as (m & _ & E & _).
  rewrite E. cbn [bind]. set (d := nth m src 0).
  rewrite (softmax_with_spec 0) by auto. f_equal. f_equal.
  apply tab_ext. intros i Hi. rewrite nsum_Rsum. cbn.
  assert (Es : Rsum n (fun j => exp (nth j src 0 - d)) = exp (- d) * Rsum n (fun j => exp (nth j src 0))).
  { rewrite <- Rsum_scal_l. apply Rsum_ext. intros j Hj. rewrite <- exp_plus. f_equal. ring. }
  rewrite Es. replace (nth i src 0 - d) with (nth i src 0 + - d) by ring. rewrite exp_plus.
  pose proof (exp_pos (- d)). pose proof (Rsum_exp_pos n (fun j => nth j src 0) Hn).
  field. split; apply Rgt_not_eq; assumption.
Qed.

Lemma stable_softmax_nil (dst src : list R) : stable_softmax dst src 0 = UB.
Proof. reflexivity. Qed.

Lemma nth_map_shift (src : list R) c i : (i < length src)%nat ->
  nth i (map (fun x => x + c) src) 0 = nth i src 0 + c.
Proof.
  intros Hi. rewrite (nth_indep _ 0 (0 + c)) by now rewrite map_length.
  now rewrite (map_nth (fun x => x + c)).
Qed.

Lemma stable_softmax_shift (dst src : list R) n c :
  (n <= length dst)%nat -> (n <= length src)%nat ->
  stable_softmax dst (map (fun x => x + c) src) n = stable_softmax dst src n.
Proof.
  intros Hd Hs. destruct n as [|n].
  - reflexivity.
  - rewrite !stable_softmax_R by (rewrite ?map_length; auto; lia). f_equal. f_equal.
    apply tab_ext. intros i Hi. rewrite nth_map_shift by lia.
    assert (Es : Rsum (S n) (fun j => exp (nth j (map (fun x => x + c) src) 0))
                 = exp c * Rsum (S n) (fun j => exp (nth j src 0))).
    { rewrite <- Rsum_scal_l. apply Rsum_ext. intros j Hj.
      rewrite nth_map_shift by lia. rewrite exp_plus. ring. }
    rewrite Es, exp_plus.
    pose proof (exp_pos c). pose proof (Rsum_exp_pos (S n) (fun j => nth j src 0) ltac:(lia)).
    field. split; apply Rgt_not_eq; assumption.
Qed.

Lemma stable_softmax_dist (dst src : list R) n :
  (0 < n)%nat -> (n <= length dst)%nat -> (n <= length src)%nat ->
  exists p, stable_softmax dst src n = Ok (p ++ skipn n dst) /\ softmax dst src n = Ok (p ++ skipn n dst) /\
    length p = n /\
    (forall i, (i < n)%nat -> 0 < nth i p 0 <= 1) /\
    Rsum n (fun i => nth i p 0) = 1 /\
    (forall i, (i < n)%nat -> nth i p 0 * Rsum n (fun j => exp (nth j src 0)) = exp (nth i src 0)) /\
    (forall i j, (i < n)%nat -> (j < n)%nat ->
       (nth i src 0 < nth j src 0 <-> nth i p 0 < nth j p 0)).
Proof.
  intros Hn Hd Hs.
  set (S := Rsum n (fun j => exp (nth j src 0))).
  assert (HS : 0 < S) by (apply Rsum_exp_pos; auto).
  set (p := tab n (fun i => exp (nth i src 0) / S)).
  assert (Hp : forall i, (i < n)%nat -> nth i p 0 = exp (nth i src 0) / S).
  { intros i Hi. unfold p. now rewrite nth_tab. }
  assert (Hinv : 0 < / S) by now apply Rinv_0_lt_compat.
  assert (Hpos : forall i, (i < n)%nat -> 0 < nth i p 0).
  { intros i Hi. rewrite Hp by auto. apply Rmult_lt_0_compat; auto. apply exp_pos. }
  assert (Hsum : Rsum n (fun i => nth i p 0) = 1).
  { rewrite (Rsum_ext n _ (fun i => exp (nth i src 0) * / S)) by (intros; now apply Hp).
    rewrite Rsum_scal_r. fold S. field. lra. }
  exists p. split; [|split; [|split; [apply tab_length|split; [|split; [exact Hsum|split]]]]].
  - now rewrite stable_softmax_R.
  - now rewrite softmax_R.
  - intros i Hi. split; [auto|]. rewrite <- Hsum.
    assert (E : Rsum n (fun k => if Nat.eqb k i then nth k p 0 else 0) = nth i p 0).
    { rewrite (Rsum_single n i); auto.
      - now rewrite Nat.eqb_refl.
      - intros k Hk Hne. destruct (Nat.eqb_spec k i); [contradiction|reflexivity]. }
    rewrite <- E. apply Rsum_le. intros k Hk. destruct (Nat.eqb_spec k i); [lra|].
    left. auto.
  - intros i Hi. rewrite Hp by auto. field. lra.
  - intros i j Hi Hj. rewrite !Hp by auto. unfold Rdiv. split; intros Hlt.
    + apply Rmult_lt_compat_r; auto. now apply exp_increasing.
    + apply Rmult_lt_reg_r in Hlt; auto. now apply exp_lt_inv.
Qed.
