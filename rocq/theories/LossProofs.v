(** Loss layers: statistics over histories and gradients. *)
From Verif Require Import Base Num RSum MathModel MathProofs LossModel LossSpec.
From Coq Require Import Reals Lra.
Local Open Scope R_scope.

Lemma loss_run_snoc {T} `{NumOps T} (fwd : lossl T -> list T -> lossl T * res unit) os : forall l o,
  loss_run fwd l (os ++ [o]) =
  (fst (loss_step fwd (fst (loss_run fwd l os)) o),
   snd (loss_run fwd l os) ++ [snd (loss_step fwd (fst (loss_run fwd l os)) o)]).
Proof.
  induction os as [|o' os IH]; intros l o; simpl.
  - destruct (loss_step fwd l o). reflexivity.
  - destruct (loss_step fwd l o') as [l1 r]. rewrite IH.
    destruct (loss_run fwd l1 os) as [l2 rs]. reflexivity.
Qed.

Definition not_ub (r : res unit) : Prop := r <> UB.

(** What a forward function has to do. *)
Definition fwd_ok (n : nat) (fwd : lossl R -> list R -> lossl R * res unit)
  (valid : list R -> Prop) (v : list R -> list R -> R) (hit : list R -> list R -> Prop) : Prop :=
  forall l x, ls_in l = n -> (ls_target l = [] \/ length (ls_target l) = n) -> length x = n ->
    (valid (ls_target l) -> exists b, (b = true <-> hit (ls_target l) x) /\
       fwd l x = (count (add_loss l (v (ls_target l) x)) b, Ok tt)) /\
    (~ valid (ls_target l) -> exists l', fwd l x = (l', Throw) /\ ls_in l' = ls_in l /\
       ls_target l' = ls_target l /\ ls_grad l' = ls_grad l /\ ls_inv l' = ls_inv l /\
       ls_cum l' = ls_cum l /\ ls_cor l' = ls_cor l /\ ls_inc l' = ls_inc l).

Lemma stats_of_history n batch fwd valid v hit : fwd_ok n fwd valid v hit ->
  forall os t h, evaluated valid os t h -> Forall (sized n) os ->
  let '(l, rs) := loss_run fwd (loss_new n batch) os in
  Forall not_ub rs /\ ls_in l = n /\ ls_target l = t /\ (t = [] \/ length t = n) /\
  ls_cum l = total v h /\ count_of hit h (ls_cor l) /\ (ls_cor l + ls_inc l)%nat = length h /\
  ls_grad l = repeat 0 n /\ ls_inv l = / INR (Nat.max batch 1).
Proof.
  intros Hf os t h Hev. induction Hev as [|os t h t' Hev IH|os t h Hev IH|os t h x Hev IH Hv|os t h x Hev IH Hv];
    intros Hs.
  - simpl. repeat split; auto; try constructor.
    unfold nofnat. cbn [ndiv NumR n1 nofZ]. rewrite <- INR_IZR_INZ. unfold Rdiv. ring.
  - apply Forall_app in Hs. destruct Hs as (Hs & Ho). inversion Ho as [|? ? So _]; subst.
    rewrite loss_run_snoc. specialize (IH Hs). revert IH.
    destruct (loss_run fwd (loss_new n batch) os) as [l rs]. cbn [fst snd loss_step].
    intros IH. destruct IH as (A & B & C & D & E & F & G & K & L).
    split; [apply Forall_app; split; auto; constructor; [discriminate|constructor]|].
    cbn [set_target ls_in ls_target ls_cum ls_cor ls_inc ls_grad ls_inv]. auto 10.
  - apply Forall_app in Hs. destruct Hs as (Hs & Ho).
    rewrite loss_run_snoc. specialize (IH Hs). revert IH.
    destruct (loss_run fwd (loss_new n batch) os) as [l rs]. cbn [fst snd loss_step].
    intros IH. destruct IH as (A & B & C & D & E & F & G & K & L).
    split; [apply Forall_app; split; auto; constructor; [discriminate|constructor]|].
    cbn [reset_score ls_in ls_target ls_cum ls_cor ls_inc ls_grad ls_inv].
    repeat split; auto; try constructor.
  - apply Forall_app in Hs. destruct Hs as (Hs & Ho). inversion Ho as [|? ? So _]; subst.
    rewrite loss_run_snoc. specialize (IH Hs). revert IH.
    destruct (loss_run fwd (loss_new n batch) os) as [l rs]. cbn [fst snd loss_step].
    intros IH. destruct IH as (A & B & C & D & E & F & G & K & L). cbn [sized] in So.
    rewrite <- C in D. destruct (Hf l x B D So) as (H1 & _).
    rewrite C in H1. destruct (H1 Hv) as (b & Hb & Ef). rewrite Ef. cbn [fst snd].
    split; [apply Forall_app; split; auto; constructor; [discriminate|constructor]|].
    cbn [count add_loss ls_in ls_target ls_cum ls_cor ls_inc ls_grad ls_inv total fold_right fst snd length].
    split; [exact B|]. split; [exact C|]. split; [now rewrite <- C|].
    split; [|split; [|split]].
    + rewrite E. cbn [nadd NumR]. unfold total. ring.
    + destruct b.
      * apply co_yes; [now apply Hb|exact F].
      * apply co_no; [|exact F]. cbn [fst snd]. intros X. apply Hb in X. discriminate.
    + destruct b; lia.
    + auto.
  - apply Forall_app in Hs. destruct Hs as (Hs & Ho). inversion Ho as [|? ? So _]; subst.
    rewrite loss_run_snoc. specialize (IH Hs). revert IH.
    destruct (loss_run fwd (loss_new n batch) os) as [l rs]. cbn [fst snd loss_step].
    intros IH. destruct IH as (A & B & C & D & E & F & G & K & L). cbn [sized] in So.
    rewrite <- C in D. destruct (Hf l x B D So) as (_ & H2).
    rewrite C in H2. destruct (H2 Hv) as (l' & Ef & E1 & E2 & E3 & E4 & E5 & E6 & E7).
    rewrite Ef. cbn [fst snd].
    split; [apply Forall_app; split; auto; constructor; [discriminate|constructor]|].
    rewrite E1, E2, E3, E4, E5, E6, E7. rewrite C in *. auto 10.
Qed.

Lemma count_of_le P h n : count_of P h n -> (n <= length h)%nat.
Proof. induction 1; simpl; lia. Qed.

Lemma evaluated_total (valid : list R -> Prop) : (forall t, valid t \/ ~ valid t) ->
  forall os, exists t h, evaluated valid os t h.
Proof.
  intros dec os. induction os as [|o os (t & h & IH)] using rev_ind.
  - exists [], []. constructor.
  - destruct o as [t'|x|].
    + exists t', h. econstructor; eauto.
    + destruct (dec t) as [Hv|Hv].
      * exists t, ((t, x) :: h). now constructor.
      * exists t, h. now constructor.
    + exists t, []. econstructor; eauto.
Qed.

Lemma ce_valid_dec t : ce_valid t \/ ~ ce_valid t.
Proof.
  unfold ce_valid. induction t as [|a t IH].
  - right. intros (i & Hi & _). simpl in Hi. lia.
  - destruct (Req_EM_T a 0) as [->|Ha].
    + destruct IH as [(i & Hi & Hn)|Hn].
      * left. exists (S i). simpl. split; [lia|exact Hn].
      * right. intros (i & Hi & Hne). destruct i; simpl in *; [lra|].
        apply Hn. exists i. split; [lia|exact Hne].
    + left. exists 0%nat. simpl. split; [lia|exact Ha].
Qed.

Lemma mse_valid_dec t : mse_valid t \/ ~ mse_valid t.
Proof. unfold mse_valid. destruct t; [right|left]; congruence. Qed.

(** *** Instances *)
Lemma argactive_spec (t : list R) : forall n i, (i + n <= length t)%nat ->
  (exists k, argactive t i n = Ok k /\ (i <= k < i + n)%nat /\ nth k t 0 <> 0 /\
     forall j, (i <= j < k)%nat -> nth j t 0 = 0) \/
  (argactive t i n = Throw /\ forall j, (i <= j < i + n)%nat -> nth j t 0 = 0).
Proof.
  induction n as [|n IH]; intros i Hi; simpl.
  - right. split; [reflexivity|]. intros; lia.
  - rewrite (rd_nth t i 0) by lia. cbn [bind]. cbn [neqb NumR n0].
    destruct (Reqb (nth i t 0) 0) eqn:E; cbn [negb].
    + apply Reqb_true in E. destruct (IH (S i) ltac:(lia)) as [(k & E1 & Hk & Hn & Hz)|(E1 & Hz)].
      * left. exists k. split; [exact E1|]. split; [lia|]. split; [exact Hn|].
        intros j Hj. destruct (Nat.eq_dec j i) as [->|]; [exact E|]. apply Hz. lia.
      * right. split; [exact E1|]. intros j Hj.
        destruct (Nat.eq_dec j i) as [->|]; [exact E|]. apply Hz. lia.
    + apply Reqb_false in E. left. exists i. split; [reflexivity|]. split; [lia|].
      split; [exact E|]. intros; lia.
Qed.

Lemma nmax_Rmax a b : nmax a b = Rmax a b.
Proof.
  unfold nmax, Rmax. cbn [nltb NumR].
  destruct (Rltb a b) eqn:E; destruct (Rle_dec a b); auto.
  - apply Rltb_true in E. lra.
  - apply Rltb_false in E. lra.
Qed.

Lemma cross_entropy_R (t x : list R) n : length t = n -> length x = n ->
  cross_entropy t x n = Ok (ce_value neps t x).
Proof.
  intros Ht Hx. rewrite (cross_entropy_spec 0) by lia. f_equal. rewrite nsum_Rsum.
  unfold ce_value. rewrite Hx. apply Rsum_ext. intros i Hi.
  unfold cross_entropy1. rewrite nmax_Rmax. reflexivity.
Qed.

Lemma mse_R (t x : list R) n : length t = n -> length x = n ->
  mean_squared_error t x n = Ok (mse_value t x).
Proof.
  intros Ht Hx. rewrite (mean_squared_error_spec 0) by lia. f_equal. rewrite nsum_Rsum.
  unfold mse_value. rewrite Hx. cbn [ndiv NumR]. unfold nofnat. cbn [nofZ NumR].
  rewrite <- INR_IZR_INZ. f_equal. apply Rsum_ext. intros i Hi.
  unfold squared_error. cbn [nmul nsub NumR]. ring.
Qed.

Lemma cce_ok n : (0 < n)%nat -> fwd_ok n cce_forward ce_valid (ce_value neps) ce_hit.
Proof.
  intros Hn l x Hin Ht Hx.
  destruct Ht as [Ht|Ht].
  { split.
    - intros (i & Hi & _). rewrite Ht in Hi. simpl in Hi. lia.
    - intros _. unfold cce_forward. rewrite Ht. exists l. auto 10. }
  destruct (ls_target l) as [|a0 t0] eqn:Et; [simpl in Ht; lia|].
  rewrite <- Et in *.
  assert (X : cce_forward l x =
      match argactive (ls_target l) 0 n with
      | Ok act => let '(_, mi) := match max_and_argmax x n with Ok p => p | _ => (0, 0%nat) end in
          (count (add_loss l (ce_value neps (ls_target l) x)) (mi =? act)%nat, Ok tt)
      | Throw => (add_loss l (ce_value neps (ls_target l) x), Throw)
      | UB => (add_loss l (ce_value neps (ls_target l) x), UB)
      end).
  { unfold cce_forward. rewrite Et at 1.
    rewrite Hx, (cross_entropy_R (ls_target l) x n Ht Hx).
    destruct (max_spec 0 x n strict_weak_R Hn ltac:(lia)) as (m & _ & _ & E & _).
    rewrite E. cbn [add_loss ls_target ls_in]. rewrite Hin. reflexivity. }
  destruct (max_spec 0 x n strict_weak_R Hn ltac:(lia)) as (m & _ & _ & E & Hm & M1 & M2).
  rewrite E in X. cbn [nltb NumR] in M1, M2.
  destruct (argactive_spec (ls_target l) n 0 ltac:(lia)) as [(k & Ek & Hk & Hkn & Hkz)|(Ek & Hz)];
    rewrite Ek in X.
  - split.
    + intros _. exists (m =? k)%nat. split; [|exact X].
      rewrite Nat.eqb_eq. split.
      * intros ->. exists k. split; [lia|]. split; [exact Hkn|]. split; [intros; apply Hkz; lia|].
        split.
        -- intros j Hj. specialize (M1 j ltac:(lia)). now apply Rltb_false in M1.
        -- intros j Hj. specialize (M2 j ltac:(lia)). now apply Rltb_true in M2.
      * intros (k' & Hk' & N1 & N2 & N3 & N4).
        assert (k' = k).
        { destruct (Nat.lt_trichotomy k k') as [Hlt|[|Hlt]]; auto.
          - exfalso. apply Hkn. now apply N2.
          - exfalso. apply N1. apply Hkz. lia. }
        subst k'. destruct (Nat.lt_trichotomy m k) as [Hlt|[|Hlt]]; auto.
        -- specialize (M1 k ltac:(lia)). apply Rltb_false in M1. specialize (N4 m Hlt). lra.
        -- specialize (M2 k Hlt). apply Rltb_true in M2. specialize (N3 m ltac:(lia)). lra.
    + intros Hnv. exfalso. apply Hnv. exists k. split; [lia|exact Hkn].
  - split.
    + intros (i & Hi & Hne). exfalso. apply Hne. apply Hz. lia.
    + intros _. exists (add_loss l (ce_value neps (ls_target l) x)). split; [exact X|].
      cbn [add_loss ls_in ls_target ls_grad ls_inv ls_cum ls_cor ls_inc].
      repeat split; auto.
      assert (Z0 : ce_value neps (ls_target l) x = 0).
      { unfold ce_value. apply Rsum_0. intros i Hi. rewrite Hz by lia. ring. }
      rewrite Z0. cbn [nadd NumR]. ring.
Qed.

Lemma mse_ok tol n : (0 < n)%nat ->
  fwd_ok n (mse_forward tol) mse_valid mse_value (mse_hit tol).
Proof.
  intros Hn l x Hin Ht Hx. unfold mse_valid.
  destruct Ht as [Ht|Ht].
  { split; [intros X; contradiction|]. intros _. unfold mse_forward. rewrite Ht. exists l. auto 10. }
  destruct (ls_target l) as [|a0 t0] eqn:Et; [simpl in Ht; lia|].
  rewrite <- Et in *. split; [|intros X; exfalso; apply X; rewrite Et; discriminate].
  intros _. eexists. split; [|unfold mse_forward; rewrite Et at 1;
    rewrite Hx, (mse_R (ls_target l) x n Ht Hx); cbn [add_loss]; reflexivity].
  unfold mse_hit, nle. cbn [nltb neqb nopp NumR]. rewrite andb_true_iff, !orb_true_iff.
  rewrite !Rltb_true, !Reqb_true. lra.
Qed.
