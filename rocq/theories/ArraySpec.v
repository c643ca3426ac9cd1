(** Row-major multi-index arithmetic: the specification language for n-dimensional
    arrays, independent of the copy loops of the model. *)
From Verif Require Import Base.

Definition prod (sh : list nat) : nat := fold_right Nat.mul 1 sh.
Definition sumn (l : list nat) : nat := fold_right Nat.add 0 l.

(** Row-major position of the multi-index [idx] in an array of shape [sh]. *)
Fixpoint flat (sh idx : list nat) : nat :=
  match sh, idx with
  | _ :: sh', i :: idx' => i * prod sh' + flat sh' idx'
  | _, _ => 0
  end.

(** [idx] is a valid multi-index for [sh]. *)
Definition inb (sh idx : list nat) : Prop := Forall2 lt idx sh.

(** Element of [l], read as an array of shape [sh], at [idx]. *)
Definition at_ {T} (d : T) (sh : list nat) (l : list T) (idx : list nat) : T :=
  nth (flat sh idx) l d.

Lemma prod_app l1 l2 : prod (l1 ++ l2) = prod l1 * prod l2.
Proof. induction l1 as [|h t IH]; simpl; [lia|]. rewrite IH. lia. Qed.

Lemma sumn_app l1 l2 : sumn (l1 ++ l2) = sumn l1 + sumn l2.
Proof. induction l1 as [|h t IH]; simpl; [lia|]. rewrite IH. lia. Qed.

Lemma inb_length sh idx : inb sh idx -> length idx = length sh.
Proof. unfold inb. intros H. induction H; simpl; auto. Qed.

Lemma flat_lt sh idx : inb sh idx -> flat sh idx < prod sh.
Proof.
  unfold inb. revert idx; induction sh as [|s sh IH]; intros idx H; inversion H; subst.
  - simpl. lia.
  - simpl. match goal with Hi : _ < s, Hf : Forall2 lt _ sh |- _ => specialize (IH _ Hf) end.
    nia.
Qed.

Lemma flat_app sh1 sh2 i1 i2 :
  length i1 = length sh1 ->
  flat (sh1 ++ sh2) (i1 ++ i2) = flat sh1 i1 * prod sh2 + flat sh2 i2.
Proof.
  revert i1; induction sh1 as [|s sh1 IH]; intros i1 Hl; destruct i1; simpl in *; try lia.
  rewrite IH by lia. rewrite prod_app. lia.
Qed.

Lemma inb_app sh1 sh2 i1 i2 :
  inb sh1 i1 -> inb sh2 i2 -> inb (sh1 ++ sh2) (i1 ++ i2).
Proof. apply Forall2_app. Qed.

Lemma inb_app_inv sh1 sh2 idx :
  inb (sh1 ++ sh2) idx ->
  exists i1 i2, idx = i1 ++ i2 /\ inb sh1 i1 /\ inb sh2 i2.
Proof.
  intros H. apply Forall2_app_inv_r in H as (i1 & i2 & H1 & H2 & ->). eauto.
Qed.

Lemma flat_inj sh i1 i2 : inb sh i1 -> inb sh i2 -> flat sh i1 = flat sh i2 -> i1 = i2.
Proof.
  unfold inb. revert i1 i2; induction sh as [|s sh IH]; intros i1 i2 H1 H2 E.
  - inversion H1; inversion H2; reflexivity.
  - inversion H1 as [|a ? l ? Ha Hl]; inversion H2 as [|b ? m ? Hb Hm]; subst.
    simpl in E. pose proof (flat_lt _ _ Hl). pose proof (flat_lt _ _ Hm).
    assert (a = b) by nia. subst b. f_equal. apply IH; auto. lia.
Qed.

Lemma flat_surj sh p : p < prod sh -> exists idx, inb sh idx /\ flat sh idx = p.
Proof.
  revert p; induction sh as [|s sh IH]; intros p H; simpl in H.
  - exists []. split; [constructor|simpl; lia].
  - assert (prod sh <> 0) by (intros E; rewrite E in H; lia).
    destruct (IH (p mod prod sh)) as (idx & Hi & E); [apply Nat.mod_upper_bound; auto|].
    exists (p / prod sh :: idx). split.
    + constructor; auto. apply Nat.div_lt_upper_bound; auto. lia.
    + simpl. rewrite E. pose proof (Nat.div_mod p (prod sh)). lia.
Qed.

(** Two arrays of one shape with the same elements are equal. *)
Lemma at_ext {T} (d : T) sh l1 l2 :
  length l1 = prod sh -> length l2 = prod sh ->
  (forall idx, inb sh idx -> at_ d sh l1 idx = at_ d sh l2 idx) -> l1 = l2.
Proof.
  intros H1 H2 H. apply (list_ext_nth d); [congruence|]. intros p Hp.
  destruct (flat_surj sh p) as (idx & Hi & <-); [congruence|]. apply H; auto.
Qed.
