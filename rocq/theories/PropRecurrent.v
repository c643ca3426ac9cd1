(** C26: the recurrent layer. *)
From Verif Require Import Base Num RSum MathModel LayerModel GradSpec GradProofs MathProofs RecurrentModel RecurrentProofs.
From Coq Require Import Reals Lra.
Local Open Scope nat_scope.

(** *** Specification *)
Section Spec.
Context {T : Type} `{NumOps T} `{TransOps T}.

(** [H'] is the hidden state after [H] and input [t] of the sequence [x]:
    tanh(W_ih x_t + W_hh H + b_h). *)
Definition next_hidden (l : recl T) (x : list T) (t : nat) (H H' : list T) : Prop :=
  length H' = r_hid l /\ forall i, i < r_hid l ->
  nth i H' n0 = ntanh (nadd (nadd
    (nsum (r_in l) (fun j => nmul (nth (i * r_in l + j) (r_wih l) n0) (nth (t * r_in l + j) x n0)))
    (nsum (r_hid l) (fun j => nmul (nth (i * r_hid l + j) (r_whh l) n0) (nth j H n0)))) (nth i (r_bh l) n0)).
(** Output [t] of [l'] is W_ho H + b_o. *)
Definition output_is (l l' : recl T) (t : nat) (H : list T) : Prop :=
  forall i, i < r_out l -> nth (t * r_out l + i) (r_act l') n0 =
    nadd (nsum (r_hid l) (fun j => nmul (nth (i * r_hid l + j) (r_who l) n0) (nth j H n0))) (nth i (r_bo l) n0).
(** The state kept between calls: the first slot of _hidden_state. *)
Definition state (l : recl T) : list T := firstn (r_hid l) (r_hs l).

Lemma firstn_tab (v : list T) n : n <= length v -> firstn n v = tab n (fun j => nth j v n0).
Proof.
  intros L. apply (list_ext_nth n0).
  - rewrite firstn_length, tab_length. lia.
  - intros i Hi. rewrite firstn_length in Hi. rewrite nth_tab by lia. now rewrite nth_firstn_lt by lia.
Qed.

(** With at least two time steps forward computes the recurrence, starting from the state
    left by the previous call and leaving the last state for the next one. *)
Theorem c26_forward_partial : forall l x,
  rec_wf l -> r_in l * r_steps l <= length x -> 2 <= r_steps l ->
  exists l' H, rec_forward l x = Ok l' /\ rec_wf l' /\
    H 0 = state l /\
    (forall t, t < r_steps l -> next_hidden l x t (H t) (H (S t)) /\ output_is l l' t (H (S t))) /\
    state l' = H (r_steps l).
Proof.
  intros l x W Hx HS. destruct (rec_forward_spec l x W Hx HS) as (hs & act & E & Lh & La & P1 & P2 & P3).
  exists (set_forward l hs act), (hidden l x). split; [exact E|].
  assert (Lb : r_hid l <= length (r_hs l)) by (rewrite (rw_hs l W); clear - HS; nia).
  split; [|split; [|split]].
  - destruct W. constructor; cbn [set_forward r_in r_out r_hid r_steps r_wih r_whh r_who r_bh r_bo r_gwih r_gwhh r_gwho r_gbh r_gbo r_hs r_act r_ig]; auto.
    rewrite Lh. f_equal. lia.
  - cbn [hidden]. unfold state. symmetry. now apply firstn_tab.
  - intros t Ht. split.
    + split; [apply hidden_length|]. intros i Hi. cbn [hidden]. unfold hid_of. rewrite nth_tab by exact Hi. reflexivity.
    + intros i Hi. cbn [set_forward r_act]. rewrite P3 by assumption. unfold out_of. now rewrite nth_tab by exact Hi.
  - unfold state. cbn [set_forward r_hid r_hs]. rewrite firstn_tab by (rewrite Lh; clear - HS; nia).
    apply (list_ext_nth n0); [rewrite tab_length; symmetry; apply hidden_length|].
    intros j Hj. rewrite tab_length in Hj. rewrite nth_tab by exact Hj. now apply P2.
Qed.

(** With one time step the product W_ih x overwrites the old state before W_hh reads it:
    W_hh is applied to W_ih x. *)
Definition set_hs (l : recl T) (hs : list T) : recl T := set_forward l hs (r_act l).
Lemma single_forward l x : rec_wf l -> r_in l <= length x -> r_steps l = 1 ->
  exists l', rec_forward l x = Ok l' /\ l' = set_forward l (hid_of l x 0 (drive l x 0)) (out_of l (hid_of l x 0 (drive l x 0))).
Proof.
  intros W Hx HS. unfold rec_forward. rewrite HS. unfold for_. cbn [for_from].
  pose proof (rw_hs l W) as Lh. pose proof (rw_act l W) as La. rewrite HS in Lh, La. cbn [Nat.max] in Lh.
  destruct (rec_step_spec l x 0 (r_hs l) (r_act l) (repeat n0 (r_hid l)) W) as (tmp & E & Lt);
    try (rewrite HS; lia); [apply repeat_length|].
  rewrite E. cbn [bind]. unfold next_slot. rewrite HS. cbn [Nat.sub Nat.eqb Nat.mul].
  assert (G : forall v w : list T, length v = length w -> put 0 v w = v).
  { intros v w Q. unfold put. cbn [firstn app]. rewrite skipn_all2 by lia. apply app_nil_r. }
  assert (Q : hid_of l x 0 (fun j => nth (0 + j) (put 0 (tab (r_hid l) (drive l x 0)) (r_hs l)) n0) = hid_of l x 0 (drive l x 0)).
  { apply hid_of_ext. intros j Hj. rewrite G by (rewrite tab_length; lia). cbn. now rewrite nth_tab. }
  rewrite Q. rewrite !G.
  - eexists. split; [reflexivity|]. unfold set_forward. now rewrite HS.
  - unfold out_of. rewrite tab_length. lia.
  - unfold hid_of. rewrite tab_length. lia.
Qed.
Theorem c26_single_step_actual : forall l x,
  rec_wf l -> r_in l <= length x -> r_steps l = 1 ->
  exists l' U, rec_forward l x = Ok l' /\
    U = tab (r_hid l) (fun i => nsum (r_in l) (fun j => nmul (nth (i * r_in l + j) (r_wih l) n0) (nth j x n0))) /\
    next_hidden l x 0 U (state l') /\ output_is l l' 0 (state l').
Proof.
  intros l x W Hx HS. destruct (single_forward l x W Hx HS) as (l' & E & ->).
  eexists. exists (tab (r_hid l) (drive l x 0)). split; [exact E|]. split; [reflexivity|].
  set (hv := hid_of l x 0 (drive l x 0)).
  assert (L : length hv = r_hid l) by apply tab_length.
  assert (ES : state (set_forward l hv (out_of l hv)) = hv).
  { unfold state. cbn [set_forward r_hid r_hs]. rewrite <- L. apply firstn_all. }
  rewrite ES. split.
  - split; [exact L|]. intros i Hi. unfold hv, hid_of. rewrite nth_tab by exact Hi. unfold drive at 1. do 3 f_equal.
    apply nsum_from_ext. intros j Hj. now rewrite nth_tab.
  - intros i Hi. cbn [set_forward r_act Nat.mul Nat.add]. unfold out_of. now rewrite nth_tab.
Qed.
(** Hence the previous state has no influence on anything forward leaves. *)
Theorem c26_single_step_forgets : forall l x hs,
  rec_wf l -> r_in l <= length x -> r_steps l = 1 -> length hs = length (r_hs l) ->
  rec_forward (set_hs l hs) x = rec_forward l x.
Proof.
  intros l x hs W Hx HS L. assert (W2 : rec_wf (set_hs l hs)) by (destruct W; constructor; auto; cbn in *; congruence).
  destruct (single_forward l x W Hx HS) as (l1 & -> & ->).
  destruct (single_forward (set_hs l hs) x W2 Hx HS) as (l2 & -> & ->). reflexivity.
Qed.

(** What backward computes. D_t (t = steps..1) is the factor tanh_1(h_t) times what arrives
    from the output and from D_(t+1); h_t is read from the place of the state after input
    t-1, the state before input t-1 from slot t-1. *)
Definition factor_place (l : recl T) (t : nat) : nat := if t =? r_steps l then 0 else t.
Definition propagated (l : recl T) (g : list T) (D : nat -> list T) : Prop :=
  forall t, 1 <= t <= r_steps l -> length (D t) = r_hid l /\ forall j, j < r_hid l ->
    nth j (D t) n0 = nmul (tanh_1 (nth (factor_place l t * r_hid l + j) (r_hs l) n0))
      (nadd (nsum (r_out l) (fun i => nmul (nth (i * r_hid l + j) (r_who l) n0) (nth ((t - 1) * r_out l + i) g n0)))
            (if t =? r_steps l then n0
             else nsum (r_hid l) (fun i => nmul (nth (i * r_hid l + j) (r_whh l) n0) (nth i (D (S t)) n0)))).
Theorem c26_backward_actual : forall l last g,
  rec_wf l -> r_in l * r_steps l <= length last -> r_out l * r_steps l <= length g ->
  exists l' D, rec_backward l last g = Ok l' /\ rec_wf l' /\ propagated l g D /\
    (forall i, i < r_out l -> nth i (r_gbo l') n0 =
       nsum_from (nth i (r_gbo l) n0) (r_steps l) (fun k => nth ((r_steps l - 1 - k) * r_out l + i) g n0)) /\
    (forall i j, i < r_out l -> j < r_hid l -> nth (i * r_hid l + j) (r_gwho l') n0 =
       nsum_from (nth (i * r_hid l + j) (r_gwho l) n0) (r_steps l) (fun k =>
         nmul (nth ((r_steps l - 1 - k) * r_out l + i) g n0) (nth (factor_place l (r_steps l - k) * r_hid l + j) (r_hs l) n0))) /\
    (forall i, i < r_hid l -> nth i (r_gbh l') n0 =
       nsum_from (nth i (r_gbh l) n0) (r_steps l) (fun k => nth i (D (r_steps l - k)) n0)) /\
    (forall i j, i < r_hid l -> j < r_in l -> nth (i * r_in l + j) (r_gwih l') n0 =
       nsum_from (nth (i * r_in l + j) (r_gwih l) n0) (r_steps l) (fun k =>
         nmul (nth i (D (r_steps l - k)) n0) (nth ((r_steps l - 1 - k) * r_in l + j) last n0))) /\
    (forall i j, i < r_hid l -> j < r_hid l -> nth (i * r_hid l + j) (r_gwhh l') n0 =
       nsum_from (nth (i * r_hid l + j) (r_gwhh l) n0) (r_steps l) (fun k =>
         nmul (nth i (D (r_steps l - k)) n0) (nth ((r_steps l - 1 - k) * r_hid l + j) (r_hs l) n0))) /\
    (forall t j, t < r_steps l -> j < r_in l -> nth (t * r_in l + j) (r_ig l') n0 =
       nsum (r_hid l) (fun i => nmul (nth i (D (S t)) n0) (nth (i * r_in l + j) (r_wih l) n0))).
Proof.
  intros l last g W Hx Hg. destruct (rec_backward_spec l last g W Hx Hg) as (s & E & A1 & A2 & A3 & A4 & A5 & A6 & A7 & A8).
  eexists. exists (fun t => del l g (r_steps l - t)). split; [exact E|].
  assert (FP : forall k, k < r_steps l -> slot l k = factor_place l (r_steps l - k)).
  { intros k Hk. unfold slot, factor_place. destruct (Nat.eqb_spec k 0), (Nat.eqb_spec (r_steps l - k) (r_steps l)); lia. }
  assert (DK : forall k, k < r_steps l -> del l g (r_steps l - (r_steps l - k)) = del l g k) by (intros k Hk; f_equal; lia).
  assert (DM : forall i j c, j < c -> (i * c + j) / c = i /\ (i * c + j) mod c = j) by (intros; now apply divmod_unique).
  split; [|split; [|split; [|split; [|split; [|split; [|split]]]]]];
    cbn [r_in r_out r_hid r_steps r_wih r_whh r_who r_bh r_bo r_gwih r_gwhh r_gwho r_gbh r_gbo r_hs r_act r_ig].
  - destruct W. constructor; cbn [r_in r_out r_hid r_steps r_wih r_whh r_who r_bh r_bo r_gwih r_gwhh r_gwho r_gbh r_gbo r_hs r_act r_ig]; auto.
    + rewrite A4, tab_length. lia.
    + rewrite A5, tab_length. lia.
    + rewrite A2, tab_length. lia.
    + rewrite A3, tab_length. lia.
    + rewrite A1, tab_length. lia.
    + congruence.
  - intros t Ht. split; [apply tab_length|]. intros j Hj. unfold del at 1, delta. rewrite nth_tab by exact Hj.
    rewrite FP by lia. replace (r_steps l - (r_steps l - t)) with t by lia.
    replace (r_steps l - 1 - (r_steps l - t)) with (t - 1) by lia. f_equal. f_equal.
    destruct (Nat.eqb_spec t (r_steps l)) as [->|Hne].
    + rewrite Nat.sub_diag. cbn [carry]. apply nth_repeat.
    + replace (r_steps l - t) with (S (r_steps l - S t)) by lia. cbn [carry]. rewrite nth_tab by exact Hj. reflexivity.
  - intros i Hi. rewrite A1, nth_tab by exact Hi. reflexivity.
  - intros i j Hi Hj. rewrite A2, nth_tab by (apply mul_add_le; assumption).
    destruct (DM i j (r_hid l) Hj) as (-> & ->). apply nsum_from_ext. intros k Hk. now rewrite FP.
  - intros i Hi. rewrite A3, nth_tab by exact Hi. apply nsum_from_ext. intros k Hk. now rewrite DK.
  - intros i j Hi Hj. rewrite A4, nth_tab by (apply mul_add_le; assumption).
    destruct (DM i j (r_in l) Hj) as (-> & ->). apply nsum_from_ext. intros k Hk. now rewrite DK.
  - intros i j Hi Hj. rewrite A5, nth_tab by (apply mul_add_le; assumption).
    destruct (DM i j (r_hid l) Hj) as (-> & ->). apply nsum_from_ext. intros k Hk. now rewrite DK.
  - intros t j Ht Hj. replace t with (r_steps l - 1 - (r_steps l - S t)) at 1 by lia. rewrite A7 by (lia || assumption).
    reflexivity.
Qed.

(** The two calls that set the state. *)
Theorem c26_reset : forall l, rec_wf l -> rec_wf (rec_reset l) /\ state (rec_reset l) = repeat n0 (r_hid l).
Proof.
  intros l W. split.
  - destruct W. constructor; auto. cbn [rec_reset r_hs r_hid r_steps]. now rewrite repeat_length.
  - unfold state. cbn [rec_reset r_hs r_hid]. assert (r_hid l <= length (r_hs l)) by (rewrite (rw_hs l W); nia).
    apply (list_ext_nth n0).
    + rewrite firstn_length, !repeat_length. lia.
    + intros i Hi. rewrite firstn_length, repeat_length in Hi. rewrite nth_firstn_lt by lia. now rewrite !nth_repeat.
Qed.
Theorem c26_hidden_state : forall l v, rec_wf l ->
  (length v = r_hid l -> exists l', rec_hidden_state l v = Ok l' /\ state l' = v /\ rec_wf l') /\
  (r_hid l < length v -> rec_hidden_state l v = Throw).
Proof.
  intros l v W. unfold rec_hidden_state. split; intros L.
  - assert (r_hid l <= length (r_hs l)) by (rewrite (rw_hs l W); nia).
    replace (length v <=? r_hid l) with true by (symmetry; apply Nat.leb_le; lia).
    replace (length v <=? length (r_hs l)) with true by (symmetry; apply Nat.leb_le; lia). cbn [guard require bind].
    eexists. split; [reflexivity|]. split.
    + unfold state. cbn [r_hs r_hid]. rewrite <- L, firstn_app, Nat.sub_diag, firstn_all. cbn. apply app_nil_r.
    + destruct W. constructor; auto. cbn [r_hs r_hid r_steps]. rewrite app_length, skipn_length. lia.
  - now replace (length v <=? r_hid l) with false by (symmetry; apply Nat.leb_gt; lia).
Qed.
End Spec.

(** *** Gradients (over R) *)
Local Open Scope R_scope.
Lemma Rsum_rev n f : Rsum n f = Rsum n (fun k => f (n - 1 - k)%nat).
Proof.
  revert f. induction n as [|n IH]; intros f; [reflexivity|].
  rewrite Rsum_shift, (IH (fun i => f (S i))). cbn [Rsum].
  replace (S n - 1 - n)%nat with 0%nat by lia. rewrite Rplus_comm. f_equal.
  apply Rsum_ext. intros i Hi. f_equal. lia.
Qed.

(** The layer with other output parameters. *)
Definition set_out (l : recl R) (who bo : list R) : recl R :=
  mkRec (r_in l) (r_out l) (r_hid l) (r_steps l) (r_wih l) (r_whh l) who (r_bh l) bo
    (r_gwih l) (r_gwhh l) (r_gwho l) (r_gbh l) (r_gbo l) (r_hs l) (r_act l) (r_ig l).

Lemma set_out_wf l who bo : rec_wf l -> length who = (r_hid l * r_out l)%nat -> length bo = r_out l -> rec_wf (set_out l who bo).
Proof. intros W L1 L2. destruct W. constructor; cbn; auto. Qed.

Lemma hidden_set_out l who bo x t : hidden (set_out l who bo) x t = hidden l x t.
Proof. induction t as [|t IH]; [reflexivity|]. cbn [hidden]. rewrite IH. reflexivity. Qed.

(** Shape of a forward pass as a function of the output parameters alone. *)
Lemma forward_out l x : rec_wf l -> (r_in l * r_steps l <= length x)%nat -> (1 <= r_steps l)%nat ->
  exists Hs : nat -> list R, forall who bo, length who = (r_hid l * r_out l)%nat -> length bo = r_out l ->
  exists hs act, rec_forward (set_out l who bo) x = Ok (set_forward (set_out l who bo) hs act) /\
    length hs = length (r_hs l) /\ length act = (r_out l * r_steps l)%nat /\
    (forall t i, (t < r_steps l)%nat -> (i < r_out l)%nat ->
      nth (t * r_out l + i) act 0 = Rsum (r_hid l) (fun j => nth (i * r_hid l + j) who 0 * nth j (Hs t) 0) + nth i bo 0) /\
    (forall t j, (t < r_steps l)%nat -> (j < r_hid l)%nat -> nth (factor_place l (S t) * r_hid l + j) hs 0 = nth j (Hs t) 0).
Proof.
  intros W Hx HS. destruct (Nat.eq_dec (r_steps l) 1) as [H1|H1].
  - exists (fun _ => hid_of l x 0 (drive l x 0)). intros who bo Lw Lb.
    pose proof (set_out_wf l who bo W Lw Lb) as W2.
    destruct (single_forward (set_out l who bo) x W2) as (l' & E & ->); [cbn; nia|exact H1|].
    eexists. eexists. split; [exact E|]. split; [|split; [|split]].
    + unfold hid_of. rewrite tab_length. cbn. rewrite (rw_hs l W), H1. cbn. lia.
    + unfold out_of. rewrite tab_length. cbn. lia.
    + intros t i Ht Hi. replace t with 0%nat by lia. cbn [Nat.mul Nat.add]. unfold out_of. rewrite nth_tab by exact Hi.
      rewrite nsum_Rsum. reflexivity.
    + intros t j Ht Hj. unfold factor_place. rewrite H1. replace t with 0%nat by lia. reflexivity.
  - exists (fun t => hidden l x (S t)). intros who bo Lw Lb.
    pose proof (set_out_wf l who bo W Lw Lb) as W2.
    destruct (rec_forward_spec (set_out l who bo) x W2) as (hs & act & E & Lh & La & P1 & P2 & P3); [exact Hx|cbn; lia|].
    cbn [set_out r_in r_out r_hid r_steps] in *.
    exists hs, act. split; [exact E|]. split; [rewrite Lh, (rw_hs l W); f_equal; lia|]. split; [exact La|]. split.
    + intros t i Ht Hi. rewrite P3 by assumption. unfold out_of. cbn [set_out r_in r_out r_hid r_who r_bo]. rewrite nth_tab by exact Hi.
      rewrite nsum_Rsum, hidden_set_out. reflexivity.
    + intros t j Ht Hj. unfold factor_place. destruct (Nat.eqb_spec (S t) (r_steps l)) as [Hl|Hl].
      * cbn [Nat.mul Nat.add]. rewrite <- (hidden_set_out l who bo), Hl. now apply P2.
      * rewrite <- (hidden_set_out l who bo). apply P1; [lia|exact Hj].
Qed.

(** The gradients of the output weights and biases are exact: when they move with velocity
    [dwho], [dbo] the outputs of forward move with velocity [v], and the inner product of
    [v] with the gradient passed to backward is that of the velocities with what backward
    adds to the two accumulators. *)
Theorem c26_output_gradients_partial : forall l x g cwho dwho cbo dbo,
  rec_wf l -> (r_in l * r_steps l <= length x)%nat -> (r_out l * r_steps l <= length g)%nat -> (1 <= r_steps l)%nat ->
  vec_deriv (r_hid l * r_out l) cwho dwho -> vec_deriv (r_out l) cbo dbo ->
  exists f l1 v, (forall t, rec_forward (set_out l (cwho t) (cbo t)) x = Ok (f t)) /\
    vec_deriv (r_out l * r_steps l) (fun t => r_act (f t)) v /\
    rec_backward (f 0) x g = Ok l1 /\
    dotl (r_out l * r_steps l) g v =
      ddot (r_hid l * r_out l) (r_gwho l1) (r_gwho l) dwho + ddot (r_out l) (r_gbo l1) (r_gbo l) dbo.
Proof.
  intros l x g cwho dwho cbo dbo W Hx Hg HS (Lw & Ldw & Dw) (Lb & Ldb & Db).
  destruct (forward_out l x W Hx HS) as (Hs & F).
  set (f := fun t => match rec_forward (set_out l (cwho t) (cbo t)) x with Ok r => r | _ => l end).
  assert (EF : forall t, exists hs act, rec_forward (set_out l (cwho t) (cbo t)) x = Ok (f t) /\
    f t = set_forward (set_out l (cwho t) (cbo t)) hs act /\
    length hs = length (r_hs l) /\ length act = (r_out l * r_steps l)%nat /\
    (forall s i, (s < r_steps l)%nat -> (i < r_out l)%nat ->
      nth (s * r_out l + i) act 0 = Rsum (r_hid l) (fun j => nth (i * r_hid l + j) (cwho t) 0 * nth j (Hs s) 0) + nth i (cbo t) 0) /\
    (forall s j, (s < r_steps l)%nat -> (j < r_hid l)%nat -> nth (factor_place l (S s) * r_hid l + j) hs 0 = nth j (Hs s) 0)).
  { intros t. destruct (F (cwho t) (cbo t) (Lw t) (Lb t)) as (hs & act & E & Q). exists hs, act.
    unfold f. rewrite E. split; [reflexivity|]. split; [reflexivity|exact Q]. }
  set (v := tab (r_steps l * r_out l) (fun k => Rsum (r_hid l) (fun j => nth ((k mod r_out l) * r_hid l + j) dwho 0 * nth j (Hs (k / r_out l)%nat) 0)
                                                + nth (k mod r_out l) dbo 0)).
  destruct (EF 0) as (hs & act & E0 & F0 & Lh & La & P3 & P4).
  assert (W0 : rec_wf (f 0)).
  { rewrite F0. pose proof (set_out_wf l (cwho 0) (cbo 0) W (Lw 0) (Lb 0)) as W2. destruct W2.
    constructor; cbn [set_forward r_in r_out r_hid r_steps r_wih r_whh r_who r_bh r_bo r_gwih r_gwhh r_gwho r_gbh r_gbo r_hs r_act r_ig set_out] in *; auto; try lia; try congruence. }
  destruct (c26_backward_actual (f 0) x g W0) as (l1 & D & EB & W1 & _ & GB & GW & _);
    [rewrite F0; exact Hx|rewrite F0; exact Hg|].
  exists f, l1, v. split; [|split; [|split]].
  - intros t. destruct (EF t) as (? & ? & Q & _). exact Q.
  - split; [|split].
    + intros t. destruct (EF t) as (? & act' & _ & -> & _ & La' & _). exact La'.
    + unfold v. rewrite tab_length. lia.
    + intros k Hk. assert (Ho : (0 < r_out l)%nat) by (clear - Hk; nia).
      set (s := (k / r_out l)%nat) in *. set (i := (k mod r_out l)%nat) in *.
      assert (Ek : k = (s * r_out l + i)%nat) by (unfold s, i; rewrite (Nat.div_mod k (r_out l)) at 1; lia).
      assert (Hi : (i < r_out l)%nat) by (apply Nat.mod_upper_bound; lia).
      assert (Hs' : (s < r_steps l)%nat) by (apply Nat.div_lt_upper_bound; lia).
      unfold v. rewrite nth_tab by lia. fold s i.
      apply derivable_pt_lim_ext with (f := fun t => Rsum (r_hid l) (fun j => nth (i * r_hid l + j) (cwho t) 0 * nth j (Hs s) 0) + nth i (cbo t) 0).
      { intros t. destruct (EF t) as (? & act' & _ & -> & _ & _ & Q & _). cbn [set_forward r_act]. rewrite Ek. symmetry. now apply Q. }
      apply dlim_plus; [|now apply Db].
      apply (dlim_Rsum (r_hid l) (fun j t => nth (i * r_hid l + j) (cwho t) 0 * nth j (Hs s) 0)).
      intros j Hj. eapply dlim_eq.
      * apply (dlim_mult (fun t => nth (i * r_hid l + j) (cwho t) 0) (fun _ => nth j (Hs s) 0)); [apply Dw|apply dlim_const].
        clear - Hi Hj. nia.
      * cbn. ring.
  - exact EB.
  - rewrite F0 in GB, GW. cbn [set_forward set_out r_in r_out r_hid r_steps r_gwho r_gbo r_hs] in GB, GW.
    change (@n0 R NumR) with 0 in GB, GW.
    set (GW' := r_gwho l1) in *. set (GB' := r_gbo l1) in *.
    unfold dotl, ddot. rewrite (Nat.mul_comm (r_out l) (r_steps l)), (Nat.mul_comm (r_hid l) (r_out l)).
    rewrite !Rsum_mul.
    rewrite (Rsum_ext (r_steps l) _ (fun s => Rsum (r_out l) (fun i => nth (s * r_out l + i) g 0 *
        Rsum (r_hid l) (fun j => nth (i * r_hid l + j) dwho 0 * nth j (Hs s) 0))
      + Rsum (r_out l) (fun i => nth (s * r_out l + i) g 0 * nth i dbo 0))).
    2:{ intros s Hs'. rewrite <- Rsum_plus. apply Rsum_ext. intros i Hi. unfold v.
        rewrite nth_tab by (apply mul_add_le; assumption). destruct (divmod_unique (r_out l) s i Hi) as (-> & ->). ring. }
    rewrite Rsum_plus. f_equal.
    + rewrite Rsum_swap. apply Rsum_ext. intros i Hi.
      rewrite (Rsum_ext (r_hid l) _ (fun j => Rsum (r_steps l) (fun s => nth (s * r_out l + i) g 0 * nth j (Hs s) 0 * nth (i * r_hid l + j) dwho 0))).
      2:{ intros j Hj. rewrite (GW i j Hi Hj), nsum_from_Rsum. rewrite Rsum_scal_r. f_equal.
          match goal with |- ?a + ?b - ?a = _ => replace (a + b - a) with b by ring end.
          rewrite Rsum_rev. apply Rsum_ext. intros s Hs'. cbn [nmul NumR].
          replace (r_steps l - 1 - (r_steps l - 1 - s))%nat with s by lia.
          replace (r_steps l - (r_steps l - 1 - s))%nat with (S s) by lia.
          f_equal. rewrite <- (P4 s j Hs' Hj). unfold factor_place. cbn [set_forward set_out r_steps]. reflexivity. }
      rewrite Rsum_swap. apply Rsum_ext. intros s Hs'. rewrite <- Rsum_scal_l. apply Rsum_ext. intros j Hj. ring.
    + rewrite Rsum_swap. apply Rsum_ext. intros i Hi. rewrite (GB i Hi), nsum_from_Rsum, Rsum_scal_r. f_equal.
      match goal with |- _ = ?a + ?b - ?a => replace (a + b - a) with b by ring end.
      rewrite Rsum_rev. apply Rsum_ext. intros s Hs'. repeat f_equal; lia.
Qed.

(** *** What is not computed correctly *)
(** The factor used for the hidden units is tanh_1 applied to the stored activation;
    the derivative of tanh at a point where its value is h is 1 - h*h. They differ at every
    nonzero activation. *)
Lemma tanh_0 : tanh 0 = 0.
Proof. unfold tanh. rewrite sinh_0. unfold Rdiv. ring. Qed.
Lemma tanh_slope x : exists c, tanh x = (1 - tanh c * tanh c) * x /\ (0 < x -> 0 < c < x) /\ (x < 0 -> x < c < 0).
Proof.
  destruct (Rtotal_order x 0) as [Hx|[->|Hx]].
  - destruct (MVT_cor2 tanh (fun c => tanh_1_opt (tanh c)) x 0 Hx) as (c & E & Hc); [intros; apply dlim_tanh|].
    exists c. rewrite tanh_0 in E. unfold tanh_1_opt in E. cbn [nsub nmul n1 NumR] in E. split; [lra|]. split; intros; lra.
  - exists 0. rewrite tanh_0. split; [ring|]. split; intros; lra.
  - destruct (MVT_cor2 tanh (fun c => tanh_1_opt (tanh c)) 0 x Hx) as (c & E & Hc); [intros; apply dlim_tanh|].
    exists c. rewrite tanh_0 in E. unfold tanh_1_opt in E. cbn [nsub nmul n1 NumR] in E. split; [lra|]. split; intros; lra.
Qed.
Lemma tanh_sq x : tanh x * tanh x < 1.
Proof.
  pose proof (cosh_pos x) as Hc. pose proof (cosh_sinh x) as Hs.
  assert (E : 1 - tanh x * tanh x = / (cosh x * cosh x)) by (unfold tanh; field_simplify_eq; [lra|lra]).
  assert (0 < / (cosh x * cosh x)) by (apply Rinv_0_lt_compat; nra). lra.
Qed.
Lemma tanh_nonzero x : x <> 0 -> tanh x <> 0.
Proof.
  intros Hx E. destruct (tanh_slope x) as (c & Q & _). pose proof (tanh_sq c). rewrite E in Q.
  symmetry in Q. apply Rmult_integral in Q. lra.
Qed.
Lemma tanh_below x : x <> 0 -> tanh x * tanh x < x * x.
Proof.
  intros Hx. destruct (tanh_slope x) as (c & Q & P & N). pose proof (tanh_sq c) as L.
  assert (Hc : c <> 0) by (destruct (Rtotal_order x 0) as [?|[?|?]]; [specialize (N H)|lra|specialize (P H)]; lra).
  pose proof (tanh_nonzero c Hc) as Nz. assert (0 < tanh c * tanh c) by nra.
  rewrite Q. assert (0 < x * x) by nra. set (s := 1 - tanh c * tanh c) in *. assert (0 < s < 1) by (unfold s; lra).
  assert (s * s < 1) by nra. nra.
Qed.
Theorem c26_factor_refuted : forall h : R, h <> 0 -> tanh_1 h <> 1 - h * h.
Proof.
  intros h Hh E. pose proof (tanh_below h Hh) as L. unfold tanh_1, tanh_1_opt in E. cbn [nsub nmul n1 ntanh NumR TransR] in E. lra.
Qed.

(** A layer with one input, one hidden unit, one output, two time steps: input weight [a],
    hidden weight [b], output weight 1, all biases 0, state 0, gradients 0. *)
Definition one_unit (a b : R) : recl R :=
  mkRec 1 1 1 2 [a] [b] [1] [0] [0] [0] [0] [0] [0] [0] [0; 0] [0; 0] [0; 0].
Lemma one_unit_wf a b : rec_wf (one_unit a b).
Proof. constructor; reflexivity. Qed.

Lemma one_unit_forward a b x0 x1 :
  let h1 := tanh (a * x0) in let h2 := tanh (a * x1 + b * h1) in
  rec_forward (one_unit a b) [x0; x1] = Ok (set_forward (one_unit a b) [h2; h1] [h1; h2]).
Proof.
  intros h1 h2. unfold rec_forward, one_unit. cbv -[Rplus Rmult tanh IZR h1 h2].
  replace (0 + a * x0 + (0 + b * 0) + 0) with (a * x0) by ring.
  fold h1. replace (0 + a * x1 + (0 + b * h1) + 0) with (a * x1 + b * h1) by ring. fold h2.
  replace (0 + 1 * h1 + 0) with h1 by ring. replace (0 + 1 * h2 + 0) with h2 by ring. reflexivity.
Qed.
Lemma one_unit_backward a b h1 h2 x0 x1 act :
  exists l2, rec_backward (set_forward (one_unit a b) [h2; h1] act) [x0; x1] [1; 0] = Ok l2 /\
    r_gwih l2 = [tanh_1 h1 * x0] /\ r_gwhh l2 = [tanh_1 h1 * h2] /\ r_ig l2 = [tanh_1 h1 * a; 0].
Proof.
  eexists. split; [cbv -[Rplus Rmult tanh_1 IZR]; reflexivity|].
  cbv -[Rplus Rmult tanh_1 IZR]. split; [|split]; repeat (apply f_equal2; [ring|]); reflexivity.
Qed.

Lemma tanh_1_positive h : 0 < tanh_1 h.
Proof. unfold tanh_1, tanh_1_opt. cbn [nsub nmul n1 ntanh NumR TransR]. pose proof (tanh_sq h). lra. Qed.

(** When W_ih moves with velocity 1 the inner product of the outputs with [g] moves with
    velocity [d], but backward adds another number to the accumulator of W_ih. The same for
    the gradient of the input: here the first input moves. *)
Theorem c26_input_weight_gradient_refuted : exists (l : recl R) x g (f : R -> recl R) l2 d,
  rec_wf l /\ r_steps l = 2%nat /\ length x = (r_in l * r_steps l)%nat /\ length g = (r_out l * r_steps l)%nat /\
  (forall t, rec_forward (one_unit (1 + t) 0) x = Ok (f t)) /\ one_unit (1 + 0) 0 = l /\
  derivable_pt_lim (fun t => dotl (r_out l * r_steps l) g (r_act (f t))) 0 d /\
  rec_backward (f 0) x g = Ok l2 /\ nth 0 (r_gwih l2) 0 - nth 0 (r_gwih l) 0 <> d.
Proof.
  destruct (one_unit_backward (1 + 0) 0 (tanh ((1 + 0) * 1)) (tanh ((1 + 0) * 0 + 0 * tanh ((1 + 0) * 1))) 1 0
              [tanh ((1 + 0) * 1); tanh ((1 + 0) * 0 + 0 * tanh ((1 + 0) * 1))]) as (l2 & E & G & _).
  exists (one_unit (1 + 0) 0), [1; 0], [1; 0],
    (fun t => set_forward (one_unit (1 + t) 0) [tanh ((1 + t) * 0 + 0 * tanh ((1 + t) * 1)); tanh ((1 + t) * 1)]
       [tanh ((1 + t) * 1); tanh ((1 + t) * 0 + 0 * tanh ((1 + t) * 1))]), l2, (1 - tanh 1 * tanh 1).
  split; [apply one_unit_wf|]. split; [reflexivity|]. split; [reflexivity|]. split; [reflexivity|].
  split; [intros t; apply one_unit_forward|]. split; [reflexivity|]. split; [|split; [exact E|]].
  - apply (derivable_pt_lim_ext (fun t => tanh (1 + t))).
    { intros t. unfold dotl. cbn [r_out r_steps one_unit Nat.mul Nat.add Rsum nth set_forward r_act]. rewrite (Rmult_1_r (1 + t)). ring. }
    eapply dlim_eq; [apply (dlim_comp (fun t => 1 + t) tanh 0 (0 + 1))|].
    + apply dlim_plus; [apply dlim_const|apply dlim_id].
    + apply dlim_tanh.
    + unfold tanh_1_opt. cbn [nsub nmul n1 NumR]. rewrite Rplus_0_r. ring.
  - rewrite G. cbn [nth one_unit r_gwih]. rewrite Rplus_0_r, !Rmult_1_l, Rmult_1_r, Rminus_0_r.
    apply c26_factor_refuted. apply tanh_nonzero. lra.
Qed.
Theorem c26_input_gradient_refuted : exists (l : recl R) x0 x1 g (f : R -> recl R) l2 d,
  rec_wf l /\ r_steps l = 2%nat /\ r_in l = 1%nat /\ length g = (r_out l * r_steps l)%nat /\
  (forall t, rec_forward l [x0 + t; x1] = Ok (f t)) /\
  derivable_pt_lim (fun t => dotl (r_out l * r_steps l) g (r_act (f t))) 0 d /\
  rec_backward (f 0) [x0; x1] g = Ok l2 /\ nth 0 (r_ig l2) 0 <> d.
Proof.
  destruct (one_unit_backward 1 0 (tanh (1 * (1 + 0))) (tanh (1 * 0 + 0 * tanh (1 * (1 + 0)))) 1 0
              [tanh (1 * (1 + 0)); tanh (1 * 0 + 0 * tanh (1 * (1 + 0)))]) as (l2 & E & _ & _ & G).
  exists (one_unit 1 0), 1, 0, [1; 0],
    (fun t => set_forward (one_unit 1 0) [tanh (1 * 0 + 0 * tanh (1 * (1 + t))); tanh (1 * (1 + t))]
       [tanh (1 * (1 + t)); tanh (1 * 0 + 0 * tanh (1 * (1 + t)))]), l2, (1 - tanh 1 * tanh 1).
  split; [apply one_unit_wf|]. split; [reflexivity|]. split; [reflexivity|]. split; [reflexivity|].
  split; [intros t; apply one_unit_forward|]. split; [|split; [exact E|]].
  - apply (derivable_pt_lim_ext (fun t => tanh (1 + t))).
    { intros t. unfold dotl. cbn [r_out r_steps one_unit Nat.mul Nat.add Rsum nth set_forward r_act]. rewrite (Rmult_1_l (1 + t)). ring. }
    eapply dlim_eq; [apply (dlim_comp (fun t => 1 + t) tanh 0 (0 + 1))|].
    + apply dlim_plus; [apply dlim_const|apply dlim_id].
    + apply dlim_tanh.
    + unfold tanh_1_opt. cbn [nsub nmul n1 NumR]. rewrite Rplus_0_r. ring.
  - rewrite G. cbn [nth]. rewrite Rplus_0_r, !Rmult_1_l, Rmult_1_r.
    apply c26_factor_refuted. apply tanh_nonzero. lra.
Qed.
(** The gradient of W_hh for the first input uses the state after the last input (it took
    the place of the initial state): here the outputs weighted by [g] do not depend on W_hh at
    all, yet backward adds a positive number. *)
Theorem c26_hidden_weight_gradient_refuted : exists (l : recl R) x g (f : R -> recl R) l2,
  rec_wf l /\ r_steps l = 2%nat /\ length x = (r_in l * r_steps l)%nat /\ length g = (r_out l * r_steps l)%nat /\
  (forall t, rec_forward (one_unit 1 t) x = Ok (f t)) /\ one_unit 1 0 = l /\
  (forall t, dotl (r_out l * r_steps l) g (r_act (f t)) = dotl (r_out l * r_steps l) g (r_act (f 0))) /\
  rec_backward (f 0) x g = Ok l2 /\ 0 < nth 0 (r_gwhh l2) 0 - nth 0 (r_gwhh l) 0.
Proof.
  destruct (one_unit_backward 1 0 (tanh (1 * 1)) (tanh (1 * 1 + 0 * tanh (1 * 1))) 1 1
              [tanh (1 * 1); tanh (1 * 1 + 0 * tanh (1 * 1))]) as (l2 & E & _ & G & _).
  exists (one_unit 1 0), [1; 1], [1; 0],
    (fun t => set_forward (one_unit 1 t) [tanh (1 * 1 + t * tanh (1 * 1)); tanh (1 * 1)]
       [tanh (1 * 1); tanh (1 * 1 + t * tanh (1 * 1))]), l2.
  split; [apply one_unit_wf|]. split; [reflexivity|]. split; [reflexivity|]. split; [reflexivity|].
  split; [intros t; apply one_unit_forward|]. split; [reflexivity|]. split; [|split; [exact E|]].
  - intros t. unfold dotl. cbn [r_out r_steps one_unit Nat.mul Nat.add Rsum nth set_forward r_act]. ring.
  - rewrite G. cbn [nth one_unit r_gwhh]. rewrite Rminus_0_r.
    replace (1 * 1 + 0 * tanh (1 * 1)) with 1 by ring. apply Rmult_lt_0_compat; [apply tanh_1_positive|].
    destruct (tanh_slope 1) as (c & Q & _). rewrite Q. pose proof (tanh_sq c). lra.
Qed.
(** With one time step the previous state should enter the new one; it does not. *)
Theorem c26_single_step_refuted : exists (l l' : recl R) x,
  rec_wf l /\ r_steps l = 1%nat /\ length x = r_in l /\ rec_forward l x = Ok l' /\
  ~ next_hidden l x 0 (state l) (state l').
Proof.
  pose (l := mkRec 1 1 1 1 [0] [1] [1] [0] [0] [0] [0] [0] [0] [0] [1] [0] [0]).
  assert (E : exists l', rec_forward l [0] = Ok l' /\ r_hid l' = 1%nat /\ nth 0 (r_hs l') 0 = tanh (0 + 0 * 0 + (0 + 1 * (0 + 0 * 0)) + 0)).
  { eexists. split; [unfold rec_forward; cbv -[Rplus Rmult tanh IZR]; reflexivity|]. split; reflexivity. }
  destruct E as (l' & E & Eh & Es). exists l, l', [0].
  split; [constructor; reflexivity|]. split; [reflexivity|]. split; [reflexivity|]. split; [exact E|].
  intros (_ & Q). specialize (Q 0%nat ltac:(cbn; lia)). unfold state in Q. rewrite Eh in Q.
  change (@n0 R NumR) with 0 in Q. rewrite nth_firstn_lt in Q by lia. rewrite Es in Q.
  cbv -[Rplus Rmult tanh IZR] in Q. replace (0 + 0 * 0 + (0 + 1 * (0 + 0 * 0)) + 0) with 0 in Q by ring.
  replace (0 + 0 * 0 + (0 + 1 * 1) + 0) with 1 in Q by ring. rewrite tanh_0 in Q. apply (tanh_nonzero 1); lra.
Qed.

(** *** The hypotheses can be met *)
Example c26_hypotheses_met : exists l : recl R, rec_wf l /\ r_in l = 2%nat /\ r_hid l = 3%nat /\ r_out l = 2%nat /\ (2 <= r_steps l)%nat /\
  (r_in l * r_steps l <= length (repeat 1%R 8))%nat.
Proof. exists (rec_new 2 2 3 4). split; [apply rec_new_wf|]. cbn. lia. Qed.
Example c26_single_hypotheses_met : exists l : recl R, rec_wf l /\ r_steps l = 1%nat /\ length (r_hs l) = r_hid l /\ r_hid l = 3%nat.
Proof. exists (rec_new 2 2 3 1). split; [apply rec_new_wf|]. cbn. lia. Qed.
Example c26_gradient_hypotheses_met :
  vec_deriv 6 (fun t => [t; 0; 0; 2 * t; 0; 0]) [1; 0; 0; 2; 0; 0] /\ vec_deriv 2 (fun t => [1; t]) [0; 1].
Proof.
  assert (D2 : derivable_pt_lim (fun t => 2 * t) 0 2).
  { eapply dlim_eq; [apply (dlim_mult (fun _ => 2) (fun t => t)); [apply dlim_const|apply dlim_id]|ring]. }
  split; (split; [reflexivity|split; [reflexivity|]]); intros i Hi.
  - do 6 (destruct i as [|i]; [cbn; try apply dlim_const; try apply dlim_id; exact D2|]). lia.
  - do 2 (destruct i as [|i]; [cbn; try apply dlim_const; apply dlim_id|]). lia.
Qed.

Print Assumptions c26_forward_partial.
Print Assumptions c26_single_step_actual.
Print Assumptions c26_single_step_forgets.
Print Assumptions c26_backward_actual.
Print Assumptions c26_reset.
Print Assumptions c26_hidden_state.
Print Assumptions c26_output_gradients_partial.
Print Assumptions c26_factor_refuted.
Print Assumptions c26_input_weight_gradient_refuted.
Print Assumptions c26_input_gradient_refuted.
Print Assumptions c26_hidden_weight_gradient_refuted.
Print Assumptions c26_single_step_refuted.
