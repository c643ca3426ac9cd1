(** Gradient descent on a sum of squares: one step, many steps. No model here: plain facts on
    real functions, used by PropRegression.v. *)
From Coq Require Import Reals Lra Lia List Arith.
From Verif Require Import RSum.
Import ListNotations.
Local Open Scope R_scope.

Section LS.
Context {A : Type}.
Variable D : nat.
Variable rows : list A.
Variable a : A -> nat -> R.
Variable t : A -> R.
Variable c : R.
Hypothesis c_pos : 0 <= c.

Definition lsum (f : A -> R) : R := fold_right Rplus 0 (map f rows).
Definition dot (u v : nat -> R) : R := Rsum D (fun j => u j * v j).
Definition obj (p : nat -> R) : R := c * lsum (fun r => (dot (a r) p - t r) ^ 2).
Definition grd (p : nat -> R) (j : nat) : R := c * lsum (fun r => 2 * (dot (a r) p - t r) * a r j).
Definition lips : R := 2 * c * lsum (fun r => dot (a r) (a r)).

Lemma lsum_ext f g : (forall r, In r rows -> f r = g r) -> lsum f = lsum g.
Proof. intros E. unfold lsum. f_equal. apply map_ext_in. exact E. Qed.
Lemma lsum_plus f g : lsum (fun r => f r + g r) = lsum f + lsum g.
Proof. unfold lsum. induction rows; cbn [map fold_right]; [ring|]. rewrite IHl. ring. Qed.
Lemma lsum_scal k f : lsum (fun r => k * f r) = k * lsum f.
Proof. unfold lsum. induction rows; cbn [map fold_right]; [ring|]. rewrite IHl. ring. Qed.
Lemma lsum_le f g : (forall r, f r <= g r) -> lsum f <= lsum g.
Proof. intros E. unfold lsum. induction rows; cbn [map fold_right]; [lra|]. specialize (E a0). lra. Qed.
Lemma lsum_nonneg f : (forall r, 0 <= f r) -> 0 <= lsum f.
Proof. intros E. unfold lsum. induction rows; cbn [map fold_right]; [lra|]. specialize (E a0). lra. Qed.
Lemma lsum_zero f : (forall r, 0 <= f r) -> lsum f <= 0 -> forall r, In r rows -> f r = 0.
Proof.
  intros E. unfold lsum. induction rows as [|b l IH]; intros Hs r Hr; [destruct Hr|]. cbn [map fold_right] in Hs.
  assert (0 <= fold_right Rplus 0 (map f l)). { clear - E. induction l; cbn [map fold_right]; [lra|]. specialize (E a). lra. }
  destruct Hr as [<-|Hr]; [specialize (E b); lra|]. apply IH; [specialize (E b); lra|exact Hr].
Qed.
Lemma lsum_Rsum n (F : A -> nat -> R) : lsum (fun r => Rsum n (F r)) = Rsum n (fun j => lsum (fun r => F r j)).
Proof.
  unfold lsum. induction rows as [|b l IH]; cbn [map fold_right]; [symmetry; now apply Rsum_0|]. rewrite IH, <- Rsum_plus. reflexivity.
Qed.

Lemma dot_self u : 0 <= dot u u.
Proof. apply Rsum_nonneg. intros j _. apply Rle_0_sqr. Qed.
Lemma dot_move u v w s : dot u (fun j => v j + s * w j) = dot u v + s * dot u w.
Proof. unfold dot. rewrite <- Rsum_scal_l, <- Rsum_plus. apply Rsum_ext. intros; ring. Qed.
Lemma dot_diff u v w : dot u (fun j => v j - w j) = dot u v - dot u w.
Proof. unfold dot. rewrite <- Rsum_minus. apply Rsum_ext. intros; ring. Qed.
Lemma dot_ext u v u' v' : (forall j, (j < D)%nat -> u j = u' j) -> (forall j, (j < D)%nat -> v j = v' j) -> dot u v = dot u' v'.
Proof. intros E F. apply Rsum_ext. intros j Hj. now rewrite E, F. Qed.
Lemma dot_comm u v : dot u v = dot v u.
Proof. apply Rsum_ext. intros; ring. Qed.

Lemma dot_square u v s : dot (fun j => u j + s * v j) (fun j => u j + s * v j) = dot u u + 2 * s * dot u v + s * s * dot v v.
Proof. unfold dot. rewrite <- !Rsum_scal_l, <- !Rsum_plus. apply Rsum_ext. intros; ring. Qed.
Lemma cauchy u v : (dot u v) ^ 2 <= dot u u * dot v v.
Proof.
  destruct (Rle_lt_or_eq_dec _ _ (dot_self v)) as [P|Z].
  - pose proof (dot_self (fun j => u j + - (dot u v / dot v v) * v j)) as Q. rewrite dot_square in Q.
    replace (dot u u + 2 * - (dot u v / dot v v) * dot u v + - (dot u v / dot v v) * - (dot u v / dot v v) * dot v v)
      with (dot u u - dot u v ^ 2 / dot v v) in Q by (field; lra).
    assert (B : dot u v ^ 2 / dot v v <= dot u u) by lra.
    apply (Rmult_le_compat_r (dot v v)) in B; [|lra]. replace (dot u v ^ 2 / dot v v * dot v v) with (dot u v ^ 2) in B by (field; lra). exact B.
  - destruct (Req_dec (dot u v) 0) as [E|E]; [rewrite E, <- Z; lra|]. exfalso.
    pose proof (dot_self (fun j => u j + (- (dot u u + 1) / (2 * dot u v)) * v j)) as Q. rewrite dot_square, <- Z in Q.
    replace (dot u u + 2 * (- (dot u u + 1) / (2 * dot u v)) * dot u v + - (dot u u + 1) / (2 * dot u v) * (- (dot u u + 1) / (2 * dot u v)) * 0)
      with (-1) in Q by (field; exact E). lra.
Qed.

(** The objective is a quadratic: exact expansion around any point. *)
Lemma expand p q : obj q = obj p + dot (grd p) (fun j => q j - p j) + c * lsum (fun r => (dot (a r) (fun j => q j - p j)) ^ 2).
Proof.
  assert (E : dot (grd p) (fun j => q j - p j) = c * lsum (fun r => 2 * (dot (a r) p - t r) * dot (a r) (fun j => q j - p j))).
  { unfold dot at 1, grd. transitivity (Rsum D (fun j => c * lsum (fun r => 2 * (dot (a r) p - t r) * a r j * (q j - p j)))).
    - apply Rsum_ext. intros j _. rewrite Rmult_assoc. f_equal. rewrite Rmult_comm, <- lsum_scal. apply lsum_ext. intros; ring.
    - rewrite Rsum_scal_l, <- lsum_Rsum. f_equal. apply lsum_ext. intros r _. unfold dot. rewrite <- Rsum_scal_l. apply Rsum_ext. intros; ring. }
  rewrite E. unfold obj. rewrite <- !Rmult_plus_distr_l, <- !lsum_plus. f_equal. apply lsum_ext. intros r _.
  rewrite dot_diff. ring.
Qed.
Lemma obj_ext p q : (forall j, (j < D)%nat -> p j = q j) -> obj p = obj q.
Proof. intros E. unfold obj. f_equal. apply lsum_ext. intros r _. rewrite (dot_ext (a r) p (a r) q); auto. Qed.

Lemma below p q : obj p + dot (grd p) (fun j => q j - p j) <= obj q.
Proof.
  rewrite (expand p q). enough (0 <= c * lsum (fun r => (dot (a r) (fun j => q j - p j)) ^ 2)) by lra.
  apply Rmult_le_pos; [exact c_pos|]. apply lsum_nonneg. intros r. apply pow2_ge_0.
Qed.

Lemma lips_nonneg : 0 <= lips.
Proof. unfold lips. apply Rmult_le_pos; [lra|]. apply lsum_nonneg. intros r. apply dot_self. Qed.

(** One step. *)
Lemma step_descends eta p p' : 0 <= eta -> eta * lips <= 1 -> (forall j, (j < D)%nat -> p' j = p j - eta * grd p j) ->
  obj p' <= obj p - eta / 2 * dot (grd p) (grd p).
Proof.
  intros He HL Hs. rewrite (expand p p').
  assert (E1 : dot (grd p) (fun j => p' j - p j) = - eta * dot (grd p) (grd p)).
  { unfold dot. rewrite <- Rsum_scal_l. apply Rsum_ext. intros j Hj. rewrite Hs by exact Hj. ring. }
  assert (E2 : c * lsum (fun r => (dot (a r) (fun j => p' j - p j)) ^ 2) <= eta * eta / 2 * lips * dot (grd p) (grd p)).
  { replace (eta * eta / 2 * lips * dot (grd p) (grd p)) with (c * (eta * eta * dot (grd p) (grd p) * lsum (fun r => dot (a r) (a r)))) by (unfold lips; field).
    apply Rmult_le_compat_l; [exact c_pos|]. rewrite <- lsum_scal. apply lsum_le. intros r.
    assert (E3 : dot (a r) (fun j => p' j - p j) = - eta * dot (a r) (grd p)).
    { unfold dot. rewrite <- Rsum_scal_l. apply Rsum_ext. intros j Hj. rewrite Hs by exact Hj. ring. }
    rewrite E3. pose proof (cauchy (a r) (grd p)) as Q. replace ((- eta * dot (a r) (grd p)) ^ 2) with (eta * eta * dot (a r) (grd p) ^ 2) by ring.
    rewrite (Rmult_assoc (eta * eta)). apply Rmult_le_compat_l; [nra|]. lra. }
  rewrite E1. pose proof (dot_self (grd p)) as Q.
  assert (eta * eta / 2 * lips * dot (grd p) (grd p) <= eta / 2 * dot (grd p) (grd p)).
  { replace (eta * eta / 2 * lips * dot (grd p) (grd p)) with ((eta * lips) * (eta / 2 * dot (grd p) (grd p))) by field.
    assert (0 <= eta / 2 * dot (grd p) (grd p)) by (apply Rmult_le_pos; lra). nra. }
  lra.
Qed.
Lemma step_closer eta p p' q : 0 <= eta -> eta * lips <= 1 -> (forall j, (j < D)%nat -> p' j = p j - eta * grd p j) ->
  2 * eta * (obj p' - obj q) <= dot (fun j => p j - q j) (fun j => p j - q j) - dot (fun j => p' j - q j) (fun j => p' j - q j).
Proof.
  intros He HL Hs. pose proof (step_descends eta p p' He HL Hs) as D1. pose proof (below p q) as B.
  assert (E : dot (fun j => p' j - q j) (fun j => p' j - q j) =
    dot (fun j => p j - q j) (fun j => p j - q j) + 2 * eta * dot (grd p) (fun j => q j - p j) + eta * eta * dot (grd p) (grd p)).
  { unfold dot. rewrite <- !Rsum_scal_l, <- !Rsum_plus. apply Rsum_ext. intros j Hj. rewrite Hs by exact Hj. ring. }
  rewrite E. apply (Rmult_le_compat_l (2 * eta)) in D1; [|lra]. apply (Rmult_le_compat_l (2 * eta)) in B; [|lra]. lra.
Qed.

(** A point whose step does not improve the objective has gradient zero, and the objective
    elsewhere is larger by the squared distance of the values. *)
Lemma at_minimum q : (forall j, (j < D)%nat -> grd q j = 0) ->
  forall p, obj p = obj q + c * lsum (fun r => (dot (a r) p - dot (a r) q) ^ 2).
Proof.
  intros Z p. rewrite (expand q p).
  assert (E : dot (grd q) (fun j => p j - q j) = 0) by (apply Rsum_0; intros j Hj; rewrite Z by exact Hj; ring).
  rewrite E, Rplus_0_r. f_equal. f_equal. apply lsum_ext. intros r _. now rewrite dot_diff.
Qed.
End LS.

(** A best choice exists: eliminate the last coordinate, project the others. *)
Lemma lsum_minus {A} (rows : list A) f g : lsum rows (fun r => f r - g r) = lsum rows f - lsum rows g.
Proof. unfold lsum. induction rows; cbn [map fold_right]; [ring|]. rewrite IHrows. ring. Qed.
Lemma best_exists {A} (rows : list A) : forall D (a : A -> nat -> R) (t : A -> R),
  exists q, forall p, lsum rows (fun r => (dot D (a r) q - t r) ^ 2) <= lsum rows (fun r => (dot D (a r) p - t r) ^ 2).
Proof.
  induction D as [|D IH]; intros a t.
  - exists (fun _ => 0). intros p. apply Req_le. apply lsum_ext. intros r _. reflexivity.
  - set (z := fun r => a r D). set (al := lsum rows (fun r => z r ^ 2)).
    destruct (Req_dec al 0) as [Z|NZ].
    + destruct (IH a t) as (q & Hq). exists q. intros p.
      assert (E : forall u, lsum rows (fun r => (dot (S D) (a r) u - t r) ^ 2) = lsum rows (fun r => (dot D (a r) u - t r) ^ 2)).
      { intros u. apply lsum_ext. intros r Hr.
        assert (Er : z r ^ 2 = 0) by (apply (lsum_zero rows (fun r => z r ^ 2) (fun r => pow2_ge_0 _)); [fold al; lra|exact Hr]).
        assert (z r = 0) by nra. unfold dot. cbn [Rsum]. fold (z r). rewrite H. f_equal. f_equal. ring. }
      rewrite !E. apply Hq.
    + set (mj := fun j => lsum rows (fun r => a r j * z r) / al). set (tau := lsum rows (fun r => t r * z r) / al).
      set (a' := fun r j => a r j - mj j * z r). set (t' := fun r => t r - tau * z r).
      destruct (IH a' t') as (q & Hq).
      assert (RES : forall p r, dot (S D) (a r) p - t r = (dot D (a' r) p - t' r) + z r * (p D + Rsum D (fun j => mj j * p j) - tau)).
      { intros p r. unfold dot. cbn [Rsum]. fold (z r). unfold a', t'.
        assert (E : Rsum D (fun j => (a r j - mj j * z r) * p j) = Rsum D (fun j => a r j * p j) - z r * Rsum D (fun j => mj j * p j)).
        { rewrite <- Rsum_scal_l, <- Rsum_minus. apply Rsum_ext. intros; ring. }
        rewrite E. ring. }
      assert (ORT : forall p, lsum rows (fun r => (dot D (a' r) p - t' r) * z r) = 0).
      { intros p. transitivity (lsum rows (fun r => Rsum D (fun j => a' r j * z r * p j)) - lsum rows (fun r => t' r * z r)).
        { rewrite <- lsum_minus. apply lsum_ext. intros r _. unfold dot. rewrite Rmult_minus_distr_r. f_equal.
          rewrite <- Rsum_scal_r. apply Rsum_ext. intros; ring. }
        rewrite lsum_Rsum.
        assert (E1 : forall j, lsum rows (fun r => a' r j * z r) = 0).
        { intros j. unfold a'. transitivity (lsum rows (fun r => a r j * z r) - mj j * al).
          - unfold al. rewrite <- lsum_scal, <- lsum_minus. apply lsum_ext. intros; ring.
          - unfold mj. field. exact NZ. }
        assert (E2 : lsum rows (fun r => t' r * z r) = 0).
        { unfold t'. transitivity (lsum rows (fun r => t r * z r) - tau * al).
          - unfold al. rewrite <- lsum_scal, <- lsum_minus. apply lsum_ext. intros; ring.
          - unfold tau. field. exact NZ. }
        rewrite E2, Rminus_0_r. apply Rsum_0. intros j _.
        transitivity (p j * lsum rows (fun r => a' r j * z r)); [rewrite <- lsum_scal; apply lsum_ext; intros; ring|rewrite E1; ring]. }
      assert (PYT : forall p, lsum rows (fun r => (dot (S D) (a r) p - t r) ^ 2) =
         lsum rows (fun r => (dot D (a' r) p - t' r) ^ 2) + (p D + Rsum D (fun j => mj j * p j) - tau) ^ 2 * al).
      { intros p. set (s := p D + Rsum D (fun j => mj j * p j) - tau).
        transitivity (lsum rows (fun r => (dot D (a' r) p - t' r) ^ 2) + 2 * s * lsum rows (fun r => (dot D (a' r) p - t' r) * z r) + s ^ 2 * al).
        - unfold al. rewrite <- !lsum_scal, <- !lsum_plus. apply lsum_ext. intros r _. rewrite RES. fold s. ring.
        - rewrite ORT. ring. }
      set (q1 := fun j => if (j =? D)%nat then tau - Rsum D (fun j => mj j * q j) else q j).
      exists q1. intros p. rewrite !PYT.
      assert (Q1 : forall f, Rsum D (fun j => f j * q1 j) = Rsum D (fun j => f j * q j)).
      { intros f. apply Rsum_ext. intros j Hj. unfold q1. destruct (Nat.eqb_spec j D); [lia|reflexivity]. }
      assert (E : q1 D + Rsum D (fun j => mj j * q1 j) - tau = 0) by (rewrite Q1; unfold q1; rewrite Nat.eqb_refl; ring).
      rewrite E. replace (lsum rows (fun r => (dot D (a' r) q1 - t' r) ^ 2)) with (lsum rows (fun r => (dot D (a' r) q - t' r) ^ 2)).
      2:{ apply lsum_ext. intros r _. unfold dot. now rewrite Q1. }
      specialize (Hq p). assert (0 <= al) by (apply lsum_nonneg; intros; apply pow2_ge_0).
      pose proof (pow2_ge_0 (p D + Rsum D (fun j => mj j * p j) - tau)). nra.
Qed.
