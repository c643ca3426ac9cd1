(** How far apart two convolutional networks with close parameters predict. *)
From Coq Require Import Reals Lra Lia.
From Verif Require Import Base Num RSum MathModel LayerModel LossModel GradSpec GradProofs GradChain ModelProofs ConvSpec CnnModel CnnSpec PropCnn DriftProofs.
Local Open Scope R_scope.

(** *** Specification *)
(** As [drift1], for all layers: a convolution sums [kh * kw * C] products (its biases are not
    used, see C25), a pooling takes a largest value or a mean. *)
Definition cdrift1 (eps : R) (s : cnode R) (X e : R) : R * R :=
  match s with
  | CL l => drift1 eps l X e
  | CV c => let N := INR (cv_kh c) * (INR (cv_kw c) * INR (cv_C c)) in let A := largest (cv_w c) in
      (N * (A * X), N * (A * e + eps * (X + e)))
  | CP _ | CO _ _ => (X, e)
  end.
Fixpoint cdrift (eps : R) (ss : list (cnode R)) (X e : R) : R * R :=
  match ss with [] => (X, e) | s :: ss => let (X, e) := cdrift1 eps s X e in cdrift eps ss X e end.
(** The same layer up to its buffers and to [eps] in the parameters *)
Definition cnear (eps : R) (s s' : cnode R) : Prop :=
  match s, s' with
  | CL l, CL l' => near eps l l'
  | CV c, CV c' => apart eps (cv_w c) (cv_w c') /\
      c' = mkConv (cv_H c) (cv_W c) (cv_C c) (cv_kh c) (cv_kw c) (cv_nf c) (cv_sh c) (cv_sw c) (cv_ph c) (cv_pw c) (cv_oh c) (cv_ow c)
             (cv_w c') (cv_b c') (cv_wg c') (cv_bg c') (cv_out c') (cv_ig c')
  | CP p, CP p' => p' = pool_with p (pl_out p') (pl_ig p')
  | _, _ => False
  end.

(** *** Convolution *)
Lemma pix_within x X H W C y z c : 0 <= X -> within_ X x -> Rabs (pix 0 x H W C y z c) <= X.
Proof. intros P B. unfold pix. destruct (_ && _)%bool; [apply B|now rewrite Rabs_R0]. Qed.
Lemma pix_apart x x' e H W C y z c : 0 <= e -> apart e x x' -> Rabs (pix 0 x H W C y z c - pix 0 x' H W C y z c) <= e.
Proof. intros P B. unfold pix. destruct (_ && _)%bool; [apply B|now rewrite Rminus_0_r, Rabs_R0]. Qed.
Lemma prod_apart a b a' b' A X e eps : Rabs a <= X -> Rabs b <= A -> Rabs (a - a') <= e -> Rabs (b - b') <= eps -> Rabs (a * b - a' * b') <= A * e + eps * (X + e).
Proof.
  intros Ha Hb Da Db. replace (a * b - a' * b') with (b * (a - a') + (b - b') * a') by ring. eapply Rle_trans; [apply Rabs_triang|]. rewrite !Rabs_mult.
  assert (Rabs a' <= X + e) by (split_Rabs; lra). apply Rplus_le_compat; apply Rmult_le_compat; try apply Rabs_pos; assumption.
Qed.
Lemma sum3_bound kh kw C (f : nat -> nat -> nat -> R) c : (forall i j l, Rabs (f i j l) <= c) ->
  Rabs (Rsum kh (fun i => Rsum kw (fun j => Rsum C (fun l => f i j l)))) <= INR kh * (INR kw * INR C) * c.
Proof.
  intros B. rewrite !Rmult_assoc. apply Rsum_bound. intros i _. apply Rsum_bound. intros j _. apply Rsum_bound. intros l _. apply B.
Qed.
Lemma sum3_minus kh kw C (f g : nat -> nat -> nat -> R) :
  Rsum kh (fun i => Rsum kw (fun j => Rsum C (fun l => f i j l))) - Rsum kh (fun i => Rsum kw (fun j => Rsum C (fun l => g i j l))) =
  Rsum kh (fun i => Rsum kw (fun j => Rsum C (fun l => f i j l - g i j l))).
Proof. rewrite <- Rsum_minus. apply Rsum_ext. intros i _. rewrite <- Rsum_minus. apply Rsum_ext. intros j _. now rewrite <- Rsum_minus. Qed.

(** *** Pooling *)
Lemma Rmaxs_within n f X : (forall i, (i <= n)%nat -> Rabs (f i) <= X) -> Rabs (Rmaxs n f) <= X.
Proof.
  induction n as [|n IH]; intros B; cbn [Rmaxs]; [apply B; lia|]. assert (I : Rabs (Rmaxs n f) <= X) by (apply IH; intros; apply B; lia). specialize (B (S n) ltac:(lia)). unfold Rmax. destruct (Rle_dec _ _); assumption.
Qed.
Lemma Rmaxs_apart n f g e : (forall i, (i <= n)%nat -> Rabs (f i - g i) <= e) -> Rabs (Rmaxs n f - Rmaxs n g) <= e.
Proof.
  induction n as [|n IH]; intros B; cbn [Rmaxs]; [apply B; lia|]. assert (I : Rabs (Rmaxs n f - Rmaxs n g) <= e) by (apply IH; intros; apply B; lia). specialize (B (S n) ltac:(lia)).
  unfold Rmax. destruct (Rle_dec (Rmaxs n f) _), (Rle_dec (Rmaxs n g) _); split_Rabs; lra.
Qed.
Lemma mean_bound a f c : (0 < a)%nat -> (forall i, (i < a)%nat -> Rabs (f i) <= c) -> Rabs (Rsum a f / INR a) <= c.
Proof.
  intros P B. pose proof (lt_0_INR a P) as Q. unfold Rdiv. rewrite Rabs_mult, (Rabs_right (/ INR a)) by (left; now apply Rinv_0_lt_compat).
  apply (Rmult_le_reg_r (INR a)); [exact Q|]. rewrite Rmult_assoc, Rinv_l, Rmult_1_r by lra. rewrite Rmult_comm. now apply Rsum_bound.
Qed.

(** *** Layers *)
Lemma cdrift1_0 eps s X e : 0 <= eps -> 0 <= X -> 0 <= e -> 0 <= fst (cdrift1 eps s X e) /\ 0 <= snd (cdrift1 eps s X e).
Proof.
  intros P PX Pe. destruct s as [l|c|p|kd lo]; cbn [cdrift1 fst snd]; auto; [now apply drift1_0|].
  pose proof (largest_0 (cv_w c)). pose proof (pos_INR (cv_kh c)). pose proof (pos_INR (cv_kw c)). pose proof (pos_INR (cv_C c)).
  assert (0 <= INR (cv_kh c) * (INR (cv_kw c) * INR (cv_C c))) by (apply Rmult_le_pos; [assumption|apply Rmult_le_pos; assumption]).
  split; apply Rmult_le_pos; try assumption; [apply Rmult_le_pos; assumption|]. apply Rplus_le_le_0_compat; apply Rmult_le_pos; lra.
Qed.
Lemma node_value_length s n k x : cnode_shape s n k -> length x = n -> length (node_value s x) = k.
Proof. intros Sh Lx. destruct (cnode_forward s n k x Sh Lx) as (? & _ & _ & L & _). exact L. Qed.
Lemma cnode_drift eps s s' X e x x' n k : 0 <= eps -> 0 <= X -> 0 <= e -> cnode_shape s n k -> cnear eps s s' -> length x = n -> length x' = n ->
  within_ X x -> apart e x x' -> within_ (fst (cdrift1 eps s X e)) (node_value s x) /\ apart (snd (cdrift1 eps s X e)) (node_value s x) (node_value s' x').
Proof.
  intros P PX Pe Sh N Lx Lx' W A. pose proof (cdrift1_0 eps s X e P PX Pe) as (D1 & D2). destruct s as [l|c|p|kd lo], s' as [l'|c'|p'|kd' lo']; cbn [cnear cnode_shape] in *; try easy.
  - now apply (layer_drift eps l l' X e x x' n k).
  - destruct N as (Aw & ->). cbn [cdrift1 node_value fst snd] in *. unfold conv_value. cbn [cv_H cv_W cv_C cv_kh cv_kw cv_nf cv_sh cv_sw cv_ph cv_pw cv_oh cv_ow cv_w]. split.
    + apply tab_within; [exact D1|]. intros q _. unfold xcorr. apply (sum3_bound _ _ _ (fun a b ch => _)). intros a b ch. rewrite Rabs_mult, Rmult_comm. apply Rmult_le_compat; try apply Rabs_pos; [apply largest_nth|now apply pix_within].
    + apply tab_apart; [exact D2|]. intros q _. unfold xcorr. rewrite (sum3_minus _ _ _ (fun a b ch => _) (fun a b ch => _)). apply (sum3_bound _ _ _ (fun a b ch => _)). intros a b ch.
      apply prod_apart; [now apply pix_within|apply largest_nth|now apply pix_apart|apply Aw].
  - rewrite N. cbn [cdrift1 node_value fst snd] in *. destruct Sh as (_ & (K1 & K2) & _). unfold pool_value, pl_oh, pl_ow, window, pool_with. cbn [pl_max pl_H pl_W pl_C pl_kh pl_kw pl_sh pl_sw].
    assert (0 < pl_kh p * pl_kw p)%nat by (apply Nat.mul_pos_pos; lia). split.
    + apply tab_within; [exact PX|]. intros q _. destruct (pl_max p); [apply Rmaxs_within|apply mean_bound; [assumption|]]; intros i _; apply W.
    + apply tab_apart; [exact Pe|]. intros q _. destruct (pl_max p); [apply Rmaxs_apart; intros i _; apply A|].
      unfold Rdiv. rewrite <- Rmult_minus_distr_r, <- Rsum_minus. apply mean_bound; [assumption|]. intros i _. apply A.
Qed.
Lemma cnn_drift eps ss ss' : 0 <= eps -> Forall2 (cnear eps) ss ss' -> forall n k X e x x', 0 <= X -> 0 <= e -> cshape ss n k -> cshape ss' n k -> length x = n -> length x' = n ->
  within_ X x -> apart e x x' -> length (cnn_value ss x) = k /\ apart (snd (cdrift eps ss X e)) (cnn_value ss x) (cnn_value ss' x').
Proof.
  intros P. induction 1 as [|s s' ss ss' N F IH]; intros n k X e x x' PX Pe Sh Sh' Lx Lx' W A; cbn [cshape cdrift cnn_value fold_left] in *; [subst; auto|].
  destruct Sh as (j & S1 & S2), Sh' as (j' & S1' & S2'). destruct (cnode_drift eps s s' X e x x' n j P PX Pe S1 N Lx Lx' W A) as (W' & A'). destruct (cdrift1_0 eps s X e P PX Pe) as (D1 & D2).
  assert (j' = j).
  { destruct s as [l|c|p|? ?], s' as [l'|c'|p'|? ?]; cbn [cnear cnode_shape] in *; try easy.
    - destruct S1 as (_ & _ & O & _), S1' as (_ & _ & O' & _). rewrite (nr_out _ _ _ N) in O'. congruence.
    - destruct N as (_ & N). destruct S1 as (_ & _ & _ & _ & _ & (_ & O) & _), S1' as (_ & _ & _ & _ & _ & (_ & O') & _). rewrite N in O'. cbn in O'. congruence.
    - destruct S1 as (_ & _ & _ & _ & (_ & O) & _), S1' as (_ & _ & _ & _ & (_ & O') & _). rewrite N in O'. unfold pl_oh, pl_ow, pool_with in *. cbn in O'. congruence. }
  subst j'. destruct (cdrift1 eps s X e) as (X1, e1). cbn [fst snd] in *. apply (IH j k X1 e1); auto; eapply node_value_length; eauto.
Qed.
Lemma cdrift_exact ss : forall X, snd (cdrift 0 ss X 0) = 0.
Proof.
  induction ss as [|s ss IH]; intros X; cbn [cdrift]; [reflexivity|]. assert (E : snd (cdrift1 0 s X 0) = 0) by (destruct s as [l|c|p|? ?]; cbn [cdrift1 snd]; try reflexivity; [apply drift1_exact|ring]).
  destruct (cdrift1 0 s X 0) as (X1, e1). cbn [snd] in E. subst. apply IH.
Qed.
