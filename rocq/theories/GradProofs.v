(** Derivatives of the layers and of chains of layers. *)
From Verif Require Import Base Num RSum MathModel MathProofs MathProofsR LayerModel GradSpec.
From Coq Require Import Reals Lra.
Local Open Scope R_scope.

(** *** Tools *)
Lemma dlim_eq f x l l' : derivable_pt_lim f x l -> l = l' -> derivable_pt_lim f x l'.
Proof. intros H <-. exact H. Qed.

Lemma dlim_const c x : derivable_pt_lim (fun _ => c) x 0.
Proof. apply (derivable_pt_lim_const c x). Qed.

Lemma dlim_id x : derivable_pt_lim (fun t => t) x 1.
Proof. apply (derivable_pt_lim_id x). Qed.

Lemma dlim_plus f g x a b : derivable_pt_lim f x a -> derivable_pt_lim g x b ->
  derivable_pt_lim (fun t => f t + g t) x (a + b).
Proof. intros A B. exact (derivable_pt_lim_plus f g x a b A B). Qed.

Lemma dlim_minus f g x a b : derivable_pt_lim f x a -> derivable_pt_lim g x b ->
  derivable_pt_lim (fun t => f t - g t) x (a - b).
Proof. intros A B. exact (derivable_pt_lim_minus f g x a b A B). Qed.

Lemma dlim_opp f x a : derivable_pt_lim f x a -> derivable_pt_lim (fun t => - f t) x (- a).
Proof. intros A. exact (derivable_pt_lim_opp f x a A). Qed.

Lemma dlim_mult f g x a b : derivable_pt_lim f x a -> derivable_pt_lim g x b ->
  derivable_pt_lim (fun t => f t * g t) x (a * g x + f x * b).
Proof. intros A B. exact (derivable_pt_lim_mult f g x a b A B). Qed.

Lemma dlim_div f g x a b : derivable_pt_lim f x a -> derivable_pt_lim g x b -> g x <> 0 ->
  derivable_pt_lim (fun t => f t / g t) x ((a * g x - b * f x) / (g x * g x)).
Proof. intros A B C. exact (derivable_pt_lim_div f g x a b A B C). Qed.

Lemma dlim_comp f g x a b : derivable_pt_lim f x a -> derivable_pt_lim g (f x) b ->
  derivable_pt_lim (fun t => g (f t)) x (b * a).
Proof. intros A B. exact (derivable_pt_lim_comp f g x a b A B). Qed.

Lemma dlim_Rsum n (f : nat -> R -> R) d x :
  (forall i, (i < n)%nat -> derivable_pt_lim (f i) x (d i)) ->
  derivable_pt_lim (fun t => Rsum n (fun i => f i t)) x (Rsum n d).
Proof.
  induction n as [|n IH]; intros Hd; simpl.
  - apply dlim_const.
  - apply (dlim_plus (fun t => Rsum n (fun i => f i t)) (f n)); auto.
Qed.

(** Two one-sided pieces with the same derivative. *)
Lemma dlim_glue f f1 f2 x l :
  (forall z, x < z -> f z = f1 z) -> (forall z, z <= x -> f z = f2 z) -> f1 x = f2 x ->
  derivable_pt_lim f1 x l -> derivable_pt_lim f2 x l -> derivable_pt_lim f x l.
Proof.
  intros H1 H2 E D1 D2 eps He.
  destruct (D1 eps He) as (d1 & P1). destruct (D2 eps He) as (d2 & P2).
  assert (Hm : 0 < Rmin d1 d2) by (apply Rmin_pos; [apply d1|apply d2]).
  exists (mkposreal _ Hm). intros h Hh Hlt. simpl in Hlt.
  assert (Rabs h < d1) by (eapply Rlt_le_trans; [exact Hlt|apply Rmin_l]).
  assert (Rabs h < d2) by (eapply Rlt_le_trans; [exact Hlt|apply Rmin_r]).
  rewrite (H2 x) by lra.
  destruct (Rle_or_lt h 0).
  - rewrite (H2 (x + h)) by lra. now apply P2.
  - rewrite (H1 (x + h)) by lra. rewrite <- E. now apply P1.
Qed.

(** *** Scalar activations *)
Lemma dlim_relu x : x <> 0 -> derivable_pt_lim relu x (relu_1 (relu x)).
Proof.
  intros Hx. unfold relu_1, relu, nmax. cbn [nltb NumR n0 n1].
  destruct (Rltb x 0) eqn:E.
  - apply Rltb_true in E.
    apply (dlim_eq _ _ 0).
    + apply (derivable_pt_lim_locally_ext (fun _ => 0) _ x (x - 1) 0); [lra| |apply dlim_const].
      intros z Hz. destruct (Rltb z 0) eqn:Ez; [reflexivity|]. apply Rltb_false in Ez. lra.
    + destruct (Rltb 0 0) eqn:E0; [apply Rltb_true in E0; lra|reflexivity].
  - apply Rltb_false in E.
    apply (dlim_eq _ _ 1).
    + apply (derivable_pt_lim_locally_ext (fun t => t) _ x 0 (x + 1)); [lra| |apply dlim_id].
      intros z Hz. destruct (Rltb z 0) eqn:Ez; [apply Rltb_true in Ez; lra|reflexivity].
    + destruct (Rltb 0 x) eqn:E0; [reflexivity|]. apply Rltb_false in E0. lra.
Qed.

Lemma dlim_elu_neg alpha x : derivable_pt_lim (fun t => alpha * (exp t - 1)) x (alpha * exp x).
Proof.
  eapply dlim_eq.
  - apply (dlim_mult (fun _ => alpha) (fun t => exp t - 1)); [apply dlim_const|].
    apply (dlim_minus exp (fun _ => 1)); [apply derivable_pt_lim_exp|apply dlim_const].
  - ring.
Qed.

Lemma dlim_elu alpha x : 0 <= alpha -> (alpha = 1 \/ x <> 0) ->
  derivable_pt_lim (elu alpha) x (elu_1_opt alpha (elu alpha x)).
Proof.
  intros Ha Hx. unfold elu_1_opt, elu. cbn [nltb NumR TransR n0 n1 nmul nsub nadd nexp].
  destruct (Rltb 0 x) eqn:E.
  - rewrite E. apply Rltb_true in E.
    apply (derivable_pt_lim_locally_ext (fun t => t) _ x 0 (x + 1)); [lra| |apply dlim_id].
    intros z Hz. destruct (Rltb 0 z) eqn:Ez; [reflexivity|]. apply Rltb_false in Ez. lra.
  - apply Rltb_false in E.
    assert (Hy : alpha * (exp x - 1) <= 0).
    { assert (exp x <= 1).
      { rewrite <- exp_0. destruct E as [E|E]; [left; now apply exp_increasing|rewrite E; lra]. }
      assert (alpha * (exp x - 1) <= alpha * 0) by (apply Rmult_le_compat_l; lra). lra. }
    destruct (Rltb 0 (alpha * (exp x - 1))) eqn:E2; [apply Rltb_true in E2; lra|].
    apply (dlim_eq _ _ (alpha * exp x)); [|ring].
    destruct (Req_dec x 0) as [->|Hne].
    + destruct Hx as [->|Hx]; [|lra].
      apply (dlim_glue _ (fun t => t) (fun t => 1 * (exp t - 1))).
      * intros z Hz. destruct (Rltb 0 z) eqn:Ez; [reflexivity|]. apply Rltb_false in Ez. lra.
      * intros z Hz. destruct (Rltb 0 z) eqn:Ez; [apply Rltb_true in Ez; lra|reflexivity].
      * rewrite exp_0. ring.
      * eapply dlim_eq; [apply dlim_id|]. rewrite exp_0. ring.
      * apply dlim_elu_neg.
    + apply (derivable_pt_lim_locally_ext (fun t => alpha * (exp t - 1)) _ x (x - 1) 0);
        [lra| |apply dlim_elu_neg].
      intros z Hz. destruct (Rltb 0 z) eqn:Ez; [apply Rltb_true in Ez; lra|reflexivity].
Qed.

Lemma cosh_pos x : 0 < cosh x.
Proof. unfold cosh. pose proof (exp_pos x). pose proof (exp_pos (- x)). lra. Qed.

Lemma cosh_sinh x : cosh x * cosh x - sinh x * sinh x = 1.
Proof.
  unfold cosh, sinh.
  assert (E : exp x * exp (- x) = 1) by (rewrite <- exp_plus, Rplus_opp_r; apply exp_0).
  replace ((exp x + exp (- x)) / 2 * ((exp x + exp (- x)) / 2) -
    (exp x - exp (- x)) / 2 * ((exp x - exp (- x)) / 2)) with (exp x * exp (- x)) by field.
  exact E.
Qed.

Lemma dlim_tanh x : derivable_pt_lim tanh x (tanh_1_opt (tanh x)).
Proof.
  unfold tanh_1_opt. cbn [nsub nmul n1 NumR].
  pose proof (cosh_pos x) as Hc. pose proof (cosh_sinh x) as Hs.
  eapply dlim_eq.
  - apply (dlim_div sinh cosh); [apply derivable_pt_lim_sinh|apply derivable_pt_lim_cosh|lra].
  - unfold tanh. field. lra.
Qed.

Lemma dlim_sigmoid x : derivable_pt_lim sigmoid x (sigmoid_1_opt (sigmoid x)).
Proof.
  unfold sigmoid_1_opt, sigmoid. cbn [nsub nmul n1 NumR ndiv nadd nopp nexp TransR].
  pose proof (exp_pos (- x)) as Hp.
  eapply dlim_eq.
  - apply (dlim_div (fun _ => 1) (fun t => 1 + exp (- t))); [apply dlim_const| |lra].
    apply (dlim_plus (fun _ => 1) (fun t => exp (- t))); [apply dlim_const|].
    apply (dlim_comp (fun t => - t) exp); [apply dlim_opp, dlim_id|apply derivable_pt_lim_exp].
  - field. lra.
Qed.

(** *** Elementwise activation layers *)
Lemma tab_vec_deriv n (f : nat -> R -> R) d :
  (forall i, (i < n)%nat -> derivable_pt_lim (f i) 0 (d i)) ->
  vec_deriv n (fun t => tab n (fun i => f i t)) (tab n d).
Proof.
  intros Hd. split; [intros; apply tab_length|]. split; [apply tab_length|].
  intros i Hi. rewrite nth_tab by auto.
  apply (derivable_pt_lim_ext (f i)); auto. intros z. now rewrite nth_tab.
Qed.

Lemma map_into_tab (f : R -> R) (o x : list R) n : length o = n -> length x = n ->
  map_into f o x n = Ok (tab n (fun k => f (nth k x 0))).
Proof.
  intros Ho Hx. rewrite (map_into_spec 0) by lia.
  rewrite skipn_all2 by lia. now rewrite app_nil_r.
Qed.

Definition pointwise_backward (f1 : R -> R) (o i g : list R) (n : nat) : res (list R) :=
  j <- map_into f1 i o n ;; map2_inplace nmul j g n.

Lemma pointwise_backward_spec f1 (o i g : list R) n :
  length o = n -> length i = n -> length g = n ->
  pointwise_backward f1 o i g n = Ok (tab n (fun k => f1 (nth k o 0) * nth k g 0)).
Proof.
  intros Ho Hi Hg. unfold pointwise_backward.
  rewrite map_into_tab by lia. cbn [bind].
  rewrite (map2_inplace_spec 0) by (rewrite ?tab_length; lia).
  rewrite skipn_all2 by (rewrite tab_length; lia).
  rewrite app_nil_r. f_equal. apply tab_ext. intros k Hk. now rewrite nth_tab.
Qed.

(** What a layer computes, as a pure function (used inside the proofs only). *)
Definition act_sem (a : act R) (x : list R) : list R :=
  let n := length x in
  match a with
  | Relu => tab n (fun k => relu (nth k x 0))
  | Elu alpha => tab n (fun k => elu alpha (nth k x 0))
  | Softmax => tab n (fun k => exp (nth k x 0) / Rsum n (fun j => exp (nth j x 0)))
  | Tanh => tab n (fun k => tanh (nth k x 0))
  | Sigmoid => tab n (fun k => sigmoid (nth k x 0))
  | Linear => x
  end.

Lemma act_sem_length a x : length (act_sem a x) = length x.
Proof. destruct a; simpl; auto; apply tab_length. Qed.

Definition act_needs (a : act R) (n : nat) : Prop :=
  match a with Softmax => (0 < n)%nat | _ => True end.

Lemma act_forward_sem a (o x : list R) :
  length o = length x -> act_needs a (length x) -> act_forward a o x = Ok (act_sem a x).
Proof.
  intros Ho Hn. unfold act_forward, act_sem. rewrite Ho.
  destruct a; try (now apply map_into_tab); [|reflexivity].
  rewrite stable_softmax_R by (auto; lia). rewrite skipn_all2 by lia. now rewrite app_nil_r.
Qed.

Lemma act_vjp a n (c : R -> list R) v (i0 g : list R) :
  vec_deriv n c v -> act_smooth a (c 0) -> length i0 = n -> length g = n ->
  exists w i', vec_deriv n (fun t => act_sem a (c t)) w /\
    act_backward a (act_sem a (c 0)) i0 g = Ok i' /\ length i' = n /\
    dotl n g w = dotl n i' v.
Proof.
  intros (Lc & Lv & Hv) Hs Hi Hg.
  assert (Lg : forall t, length (act_sem a (c t)) = n).
  { intros t. rewrite act_sem_length. apply Lc. }
  (* pointwise case *)
  assert (PW : forall f f1,
    (forall t, act_sem a (c t) = tab n (fun k => f (nth k (c t) 0))) ->
    (forall k, (k < n)%nat -> derivable_pt_lim f (nth k (c 0) 0) (f1 (f (nth k (c 0) 0)))) ->
    (forall o i g, length i = n -> act_backward a o i g = pointwise_backward f1 o i g n) ->
    exists w i', vec_deriv n (fun t => act_sem a (c t)) w /\
      act_backward a (act_sem a (c 0)) i0 g = Ok i' /\ length i' = n /\
      dotl n g w = dotl n i' v).
  { intros f f1 Es Hd Eb.
    exists (tab n (fun k => f1 (f (nth k (c 0) 0)) * nth k v 0)).
    exists (tab n (fun k => f1 (f (nth k (c 0) 0)) * nth k g 0)).
    split; [|split; [|split; [apply tab_length|]]].
    - destruct (tab_vec_deriv n (fun k t => f (nth k (c t) 0))
        (fun k => f1 (f (nth k (c 0) 0)) * nth k v 0)) as (A & B & D).
      { intros k Hk. apply (dlim_comp (fun t => nth k (c t) 0) f); [now apply Hv|now apply Hd]. }
      split; [exact Lg|]. split; [exact B|]. intros k Hk.
      eapply derivable_pt_lim_ext; [|apply D; exact Hk]. intros z. cbv beta. now rewrite Es.
    - rewrite Eb by auto. rewrite pointwise_backward_spec by auto. f_equal.
      apply tab_ext. intros k Hk. rewrite Es, nth_tab by auto. reflexivity.
    - unfold dotl. apply Rsum_ext. intros k Hk. rewrite !nth_tab by auto. ring. }
  destruct a as [|alpha| | | |]; cbn [act_smooth] in Hs.
  - apply (PW relu relu_1).
    + intros t. unfold act_sem. now rewrite Lc.
    + intros k Hk. apply dlim_relu. apply Hs. now rewrite Lc.
    + intros o i gg E. unfold act_backward. now rewrite E.
  - destruct Hs as (Ha & Hs). apply (PW (elu alpha) (elu_1_opt alpha)).
    + intros t. unfold act_sem. now rewrite Lc.
    + intros k Hk. apply dlim_elu; auto. destruct Hs as [->|Hs]; [now left|].
      right. apply Hs. now rewrite Lc.
    + intros o i gg E. unfold act_backward. now rewrite E.
  - (* softmax *)
    rewrite Lc in Hs. clear PW.
    set (S := fun t => Rsum n (fun j => exp (nth j (c t) 0))).
    assert (HS : forall t, 0 < S t) by (intros; apply Rsum_exp_pos; auto).
    assert (dE : forall k, (k < n)%nat ->
      derivable_pt_lim (fun t => exp (nth k (c t) 0)) 0 (exp (nth k (c 0) 0) * nth k v 0)).
    { intros k Hk. apply (dlim_comp (fun t => nth k (c t) 0) exp); [now apply Hv|].
      apply derivable_pt_lim_exp. }
    assert (dS : derivable_pt_lim S 0 (Rsum n (fun j => exp (nth j (c 0) 0) * nth j v 0))).
    { apply (dlim_Rsum n (fun j t => exp (nth j (c t) 0))). exact dE. }
    set (p := fun k => exp (nth k (c 0) 0) / S 0).
    set (q := Rsum n (fun j => p j * nth j v 0)).
    assert (Eq : Rsum n (fun j => exp (nth j (c 0) 0) * nth j v 0) = S 0 * q).
    { unfold q. rewrite <- Rsum_scal_l. apply Rsum_ext. intros j Hj. unfold p.
      field. pose proof (HS 0). lra. }
    exists (tab n (fun k => p k * (nth k v 0 - q))).
    exists (tab n (fun i => Rsum n (fun j => p i * ((if (i =? j)%nat then 1 else 0) - p j) * nth j g 0))).
    assert (Es : forall t, act_sem Softmax (c t) = tab n (fun k => exp (nth k (c t) 0) / S t)).
    { intros t. unfold act_sem. now rewrite Lc. }
    split; [|split; [|split; [apply tab_length|]]].
    + destruct (tab_vec_deriv n (fun k t => exp (nth k (c t) 0) / S t)
        (fun k => p k * (nth k v 0 - q))) as (A & B & D).
      { intros k Hk. eapply dlim_eq.
        - apply (dlim_div (fun t => exp (nth k (c t) 0)) S); [now apply dE|exact dS|].
          pose proof (HS 0). lra.
        - rewrite Eq. unfold p. field. pose proof (HS 0). lra. }
      split; [exact Lg|]. split; [exact B|]. intros k Hk.
      eapply derivable_pt_lim_ext; [|apply D; exact Hk]. intros z. cbv beta. now rewrite Es.
    + unfold act_backward. rewrite Hi.
      rewrite (softmax_1_opt_spec 0) by (rewrite ?act_sem_length, ?Lc; lia).
      rewrite skipn_all2 by lia. rewrite app_nil_r. f_equal. apply tab_ext. intros i Hi'.
      rewrite nsum_Rsum. apply Rsum_ext. intros j Hj. rewrite Es, !nth_tab by auto. reflexivity.
    + unfold dotl.
      rewrite (Rsum_ext n (fun i => nth i g 0 * nth i (tab n (fun k => p k * (nth k v 0 - q))) 0)
        (fun i => p i * nth i g 0 * nth i v 0 - p i * nth i g 0 * q)).
      2:{ intros i Hi'. rewrite nth_tab by auto. ring. }
      rewrite Rsum_minus, Rsum_scal_r.
      rewrite (Rsum_ext n (fun i => nth i (tab n (fun i => Rsum n (fun j =>
          p i * ((if (i =? j)%nat then 1 else 0) - p j) * nth j g 0))) 0 * nth i v 0)
        (fun i => p i * nth i g 0 * nth i v 0 - (p i * nth i v 0) * Rsum n (fun j => p j * nth j g 0))).
      * rewrite Rsum_minus, Rsum_scal_r. fold q. ring.
      * intros i Hi'. rewrite nth_tab by auto.
        rewrite (Rsum_ext n _ (fun j => p i * ((if (j =? i)%nat then nth j g 0 else 0) - p j * nth j g 0))).
        2:{ intros j Hj. rewrite (Nat.eqb_sym i j). destruct (j =? i)%nat; ring. }
        rewrite Rsum_scal_l, Rsum_minus.
        rewrite (Rsum_single n i (fun j => if (j =? i)%nat then nth j g 0 else 0)); auto.
        -- rewrite Nat.eqb_refl. ring.
        -- intros k Hk Hne. destruct (Nat.eqb_spec k i); [contradiction|reflexivity].
  - apply (PW tanh tanh_1_opt).
    + intros t. unfold act_sem. now rewrite Lc.
    + intros k Hk. apply dlim_tanh.
    + intros o i gg E. unfold act_backward. now rewrite E.
  - apply (PW sigmoid sigmoid_1_opt).
    + intros t. unfold act_sem. now rewrite Lc.
    + intros k Hk. apply dlim_sigmoid.
    + intros o i gg E. unfold act_backward. now rewrite E.
  - clear PW. exists v, g. split; [split; auto|]. split; [|split; [exact Hg|]].
    + unfold act_backward. rewrite Hi, map_into_tab by auto. f_equal.
      rewrite <- Hg. apply tab_nth.
    + reflexivity.
Qed.

(** *** Dense *)
Definition dense_sem (inp outn : nat) (w b x : list R) : list R :=
  tab outn (fun i => nth i b 0 + Rsum inp (fun j => nth (i * inp + j) w 0 * nth j x 0)).

Lemma dense_forward_sem (o x w b : list R) inp outn :
  length o = outn -> length x = inp -> length w = (outn * inp)%nat -> length b = outn ->
  dense o x w b inp outn = Ok (dense_sem inp outn w b x).
Proof.
  intros Ho Hx Hw Hb. rewrite (dense_spec 0) by lia. rewrite skipn_all2 by lia.
  rewrite app_nil_r. f_equal. apply tab_ext. intros i Hi. now rewrite nsum_from_Rsum.
Qed.

Lemma dense_vjp inp outn (c cw cb : R -> list R) v dw db (i0 wg bg g : list R) :
  vec_deriv inp c v -> vec_deriv (outn * inp) cw dw -> vec_deriv outn cb db ->
  length i0 = inp -> length wg = (outn * inp)%nat -> length bg = outn -> length g = outn ->
  exists w i' wg' bg', vec_deriv outn (fun t => dense_sem inp outn (cw t) (cb t) (c t)) w /\
    dense_1 i0 wg bg g (c 0) (cw 0) inp outn = Ok (i', wg', bg') /\
    length i' = inp /\ length wg' = length wg /\ length bg' = length bg /\
    (forall j, (j < inp)%nat ->
       nth j i' 0 = Rsum outn (fun i => nth i g 0 * nth (i * inp + j) (cw 0) 0)) /\
    (forall i j, (i < outn)%nat -> (j < inp)%nat ->
       nth (i * inp + j) wg' 0 = nth (i * inp + j) wg 0 + nth i g 0 * nth j (c 0) 0) /\
    (forall i, (i < outn)%nat -> nth i bg' 0 = nth i bg 0 + nth i g 0) /\
    dotl outn g w = dotl inp i' v + ddot (outn * inp) wg' wg dw + ddot outn bg' bg db.
Proof.
  intros (Lc & Lv & Hv) (Lw & Ldw & Hw) (Lb & Ldb & Hb) Hi Hwg Hbg Hg.
  destruct (dense_1_spec 0 i0 wg bg g (c 0) (cw 0) inp outn)
    as (i' & wg' & bg' & E & L1 & L2 & L3 & I1 & I2 & _ & I3);
    rewrite ?Lc, ?Lw; try lia.
  exists (tab outn (fun i => nth i db 0 + Rsum inp (fun j =>
     nth (i * inp + j) dw 0 * nth j (c 0) 0 + nth (i * inp + j) (cw 0) 0 * nth j v 0))).
  exists i', wg', bg'. split; [|split; [exact E|split; [lia|split; [exact L2|split; [exact L3|]]]]].
  - unfold dense_sem. apply (tab_vec_deriv outn (fun i t => nth i (cb t) 0 +
      Rsum inp (fun j => nth (i * inp + j) (cw t) 0 * nth j (c t) 0))).
    intros i Hi'. apply (dlim_plus (fun t => nth i (cb t) 0)); [now apply Hb|].
    apply (dlim_Rsum inp (fun j t => nth (i * inp + j) (cw t) 0 * nth j (c t) 0)).
    intros j Hj. apply (dlim_mult (fun t => nth (i * inp + j) (cw t) 0) (fun t => nth j (c t) 0)).
    + apply Hw. now apply mul_add_le.
    + now apply Hv.
  - assert (J1 : forall j, (j < inp)%nat ->
       nth j i' 0 = Rsum outn (fun i => nth i g 0 * nth (i * inp + j) (cw 0) 0)).
    { intros j Hj. rewrite I1. destruct (Nat.ltb_spec j inp); [|lia].
      rewrite nsum_Rsum. reflexivity. }
    assert (J3 : forall i, (i < outn)%nat -> nth i bg' 0 = nth i bg 0 + nth i g 0).
    { intros i Hi'. rewrite I3. destruct (Nat.ltb_spec i outn); [reflexivity|lia]. }
    split; [exact J1|]. split; [exact I2|]. split; [exact J3|].
    unfold dotl, ddot.
    rewrite (Rsum_ext outn (fun i => (nth i bg' 0 - nth i bg 0) * nth i db 0)
              (fun i => nth i g 0 * nth i db 0)) by (intros i Hi'; rewrite J3 by auto; ring).
    rewrite Rsum_mul.
    rewrite (Rsum_ext outn (fun i => Rsum inp (fun j =>
        (nth (i * inp + j) wg' 0 - nth (i * inp + j) wg 0) * nth (i * inp + j) dw 0))
      (fun i => nth i g 0 * Rsum inp (fun j => nth (i * inp + j) dw 0 * nth j (c 0) 0))).
    2:{ intros i Hi'. rewrite <- Rsum_scal_l. apply Rsum_ext. intros j Hj.
        rewrite I2 by auto. cbn [nadd nmul NumR]. ring. }
    rewrite (Rsum_ext inp (fun j => nth j i' 0 * nth j v 0)
      (fun j => Rsum outn (fun i => nth i g 0 * (nth (i * inp + j) (cw 0) 0 * nth j v 0)))).
    2:{ intros j Hj. rewrite J1 by auto. rewrite <- Rsum_scal_r. apply Rsum_ext. intros; ring. }
    rewrite Rsum_swap.
    rewrite <- !Rsum_plus. apply Rsum_ext. intros i Hi'. rewrite nth_tab by auto.
    rewrite Rsum_plus, Rsum_scal_l. ring.
Qed.
