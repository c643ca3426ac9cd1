(** Finite sums of reals, used by specifications. *)
From Verif Require Import Base Num.
From Coq Require Import Reals Lra.
Local Open Scope R_scope.

(** f 0 + f 1 + ... + f (n-1) *)
Fixpoint Rsum (n : nat) (f : nat -> R) : R :=
  match n with O => 0 | S m => Rsum m f + f m end.

Lemma nsum_from_Rsum acc n f : nsum_from acc n f = acc + Rsum n f.
Proof.
  induction n as [|n IH].
  - unfold nsum_from; simpl; lra.
  - rewrite nsum_from_S, IH. simpl. lra.
Qed.
Lemma nsum_Rsum n f : nsum n f = Rsum n f.
Proof. unfold nsum. rewrite nsum_from_Rsum. simpl. lra. Qed.

Lemma Rsum_ext n f g : (forall i, (i < n)%nat -> f i = g i) -> Rsum n f = Rsum n g.
Proof.
  induction n as [|n IH]; intros E; simpl; [reflexivity|].
  rewrite IH, E; auto.
Qed.
Lemma Rsum_0 n f : (forall i, (i < n)%nat -> f i = 0) -> Rsum n f = 0.
Proof.
  intros E. rewrite (Rsum_ext n f (fun _ => 0)) by auto.
  clear. induction n as [|n IH]; simpl; [reflexivity|]. rewrite IH. lra.
Qed.
Lemma Rsum_plus n f g : Rsum n (fun i => f i + g i) = Rsum n f + Rsum n g.
Proof. induction n as [|n IH]; simpl; [lra|]. rewrite IH. lra. Qed.
Lemma Rsum_minus n f g : Rsum n (fun i => f i - g i) = Rsum n f - Rsum n g.
Proof. induction n as [|n IH]; simpl; [lra|]. rewrite IH. lra. Qed.
Lemma Rsum_scal_l n c f : Rsum n (fun i => c * f i) = c * Rsum n f.
Proof. induction n as [|n IH]; simpl; [lra|]. rewrite IH. lra. Qed.
Lemma Rsum_scal_r n c f : Rsum n (fun i => f i * c) = Rsum n f * c.
Proof. induction n as [|n IH]; simpl; [lra|]. rewrite IH. lra. Qed.
Lemma Rsum_const n c : Rsum n (fun _ => c) = INR n * c.
Proof. induction n as [|n IH]; [simpl; lra|]. rewrite S_INR. simpl Rsum. rewrite IH. lra. Qed.
Lemma Rsum_swap n m f :
  Rsum n (fun i => Rsum m (fun j => f i j)) = Rsum m (fun j => Rsum n (fun i => f i j)).
Proof.
  induction n as [|n IH]; simpl.
  - symmetry. apply Rsum_0. auto.
  - rewrite IH. now rewrite <- Rsum_plus.
Qed.
Lemma Rsum_app n m f : Rsum (n + m) f = Rsum n f + Rsum m (fun i => f (n + i)%nat).
Proof.
  induction m as [|m IH]; simpl.
  - rewrite Nat.add_0_r. lra.
  - rewrite Nat.add_succ_r. simpl. rewrite IH. lra.
Qed.
Lemma Rsum_mul n m f :
  Rsum (n * m) f = Rsum n (fun i => Rsum m (fun j => f (i * m + j)%nat)).
Proof.
  induction n as [|n IH]; simpl; [reflexivity|].
  rewrite Nat.add_comm, Rsum_app, IH. reflexivity.
Qed.
Lemma Rsum_shift n f : Rsum (S n) f = f O + Rsum n (fun i => f (S i)).
Proof.
  change (S n) with (1 + n)%nat. rewrite Rsum_app. simpl. lra.
Qed.
Lemma Rsum_single n k f : (k < n)%nat -> (forall i, (i < n)%nat -> i <> k -> f i = 0) ->
  Rsum n f = f k.
Proof.
  intros Hk H. replace n with (k + S (n - k - 1))%nat by lia.
  rewrite Rsum_app, Rsum_shift, Nat.add_0_r.
  rewrite (Rsum_0 k), (Rsum_0 (n - k - 1)); try lra;
    intros i Hi; apply H; lia.
Qed.
Lemma Rsum_pos n f : (0 < n)%nat -> (forall i, (i < n)%nat -> 0 < f i) -> 0 < Rsum n f.
Proof.
  intros Hn Hf. destruct n as [|n]; [lia|]. clear Hn.
  induction n as [|n IH].
  - simpl. specialize (Hf O). assert (0 < f O) by (apply Hf; lia). lra.
  - change (Rsum (S (S n)) f) with (Rsum (S n) f + f (S n)).
    assert (0 < Rsum (S n) f) by (apply IH; intros; apply Hf; lia).
    assert (0 < f (S n)) by (apply Hf; lia). lra.
Qed.
Lemma Rsum_nonneg n f : (forall i, (i < n)%nat -> 0 <= f i) -> 0 <= Rsum n f.
Proof.
  induction n as [|n IH]; intros Hf; simpl; [lra|].
  assert (0 <= Rsum n f) by auto. assert (0 <= f n) by auto. lra.
Qed.
Lemma Rsum_le n f g : (forall i, (i < n)%nat -> f i <= g i) -> Rsum n f <= Rsum n g.
Proof.
  induction n as [|n IH]; intros Hf; simpl; [lra|].
  assert (f n <= g n) by auto. assert (Rsum n f <= Rsum n g) by auto. lra.
Qed.

(** Dot product of the first [n] entries. *)
Definition dot (n : nat) (a b : nat -> R) : R := Rsum n (fun i => a i * b i).
