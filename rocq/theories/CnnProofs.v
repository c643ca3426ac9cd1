(** Convolutions and poolings as layers: values, and backward as the adjoint of the derivative. *)
From Verif Require Import Base Num RSum MathModel MathProofs MathProofsR ConvModel ConvSpec ConvProofs ConvBwd PropConv
  LayerModel LossModel GraphModel ModelModel NodeModel ModelProofs GradSpec GradProofs GradChain CnnModel CnnSpec StepProofs.
From Coq Require Import Reals Lra.
Local Open Scope R_scope.

(** *** Positions *)
Lemma cell_of (hd wd C q : nat) : (q < hd * wd * C)%nat ->
  (row_of wd C q < hd)%nat /\ (col_of wd C q < wd)%nat /\ (chan_of C q < C)%nat /\
  cell wd C (row_of wd C q) (col_of wd C q) (chan_of C q) = q.
Proof.
  intros Hq. unfold row_of, col_of, chan_of, cell.
  assert (HC : (0 < C)%nat) by (destruct C; [rewrite Nat.mul_0_r in Hq; lia|lia]).
  assert (HW : (0 < wd)%nat) by (destruct wd; [rewrite Nat.mul_0_r in Hq; lia|lia]).
  split; [apply Nat.div_lt_upper_bound; [nia|]; rewrite (Nat.mul_comm (wd * C)), Nat.mul_assoc; exact Hq|].
  split; [apply Nat.mod_upper_bound; lia|]. split; [apply Nat.mod_upper_bound; lia|].
  rewrite (Nat.mul_comm wd C), <- Nat.div_div by lia.
  pose proof (Nat.div_mod q C ltac:(lia)) as A. pose proof (Nat.div_mod (q / C) wd ltac:(lia)) as B. nia.
Qed.
Lemma of_cell (wd C r c f : nat) : (c < wd)%nat -> (f < C)%nat ->
  row_of wd C (cell wd C r c f) = r /\ col_of wd C (cell wd C r c f) = c /\ chan_of C (cell wd C r c f) = f.
Proof.
  intros Hc Hf. unfold row_of, col_of, chan_of, cell.
  destruct (divmod_unique C (r * wd + c) f Hf) as (A & B).
  rewrite (Nat.mul_comm wd C), <- Nat.div_div, A, B by lia.
  destruct (divmod_unique wd r c Hc) as (D & E). auto.
Qed.
Lemma cell_bound (hd wd C r c f : nat) : (r < hd)%nat -> (c < wd)%nat -> (f < C)%nat -> (cell wd C r c f < hd * wd * C)%nat.
Proof. unfold cell. intros Hr Hc Hf. assert (r * wd + c < hd * wd)%nat by nia. nia. Qed.
Lemma list_by_cells hd wd C (a b : list R) : length a = (hd * wd * C)%nat -> length b = (hd * wd * C)%nat ->
  (forall r c f, (r < hd)%nat -> (c < wd)%nat -> (f < C)%nat -> nth (cell wd C r c f) a 0 = nth (cell wd C r c f) b 0) -> a = b.
Proof.
  intros La Lb HE. apply (list_ext_nth 0); [congruence|]. intros q Hq. rewrite La in Hq.
  destruct (cell_of hd wd C q Hq) as (A & B & D & E). rewrite <- E. now apply HE.
Qed.

(** *** Forward *)
Lemma conv_value_cell c x r k f : (r < cv_oh c)%nat -> (k < cv_ow c)%nat -> (f < cv_nf c)%nat ->
  nth (cell (cv_ow c) (cv_nf c) r k f) (conv_value c x) 0
  = xcorr x (cv_w c) (cv_H c) (cv_W c) (cv_C c) (cv_kh c) (cv_kw c) (cv_nf c) (cv_sh c) (cv_sw c) (cv_ph c) (cv_pw c) r k f.
Proof.
  intros Hr Hk Hf. unfold conv_value. rewrite nth_tab by now apply cell_bound.
  destruct (of_cell (cv_ow c) (cv_nf c) r k f Hk Hf) as (-> & -> & ->). reflexivity.
Qed.
Lemma conv_value_length c x : length (conv_value c x) = (cv_oh c * cv_ow c * cv_nf c)%nat.
Proof. apply tab_length. Qed.

Lemma conv_kernel_value c n k (dst x w b : list R) : conv_shape c n k -> length dst = k -> length x = n ->
  length w = length (cv_w c) ->
  conv_forward dst x w b (cv_H c) (cv_W c) (cv_C c) (cv_kh c) (cv_kw c) (cv_nf c) (cv_sh c) (cv_sw c) (cv_ph c) (cv_pw c)
  = Ok (conv_value (conv_with c w b (cv_wg c) (cv_bg c) (cv_out c) (cv_ig c)) x).
Proof.
  intros ((H1 & H2) & (H3 & H4) & (H5 & H6) & (H7 & H8) & (H9 & H10) & (H11 & H12) & (H13 & H14) & (H15 & H16) & (H17 & H18)) Hd Hx Hw.
  destruct (c18_convolution_forward dst x w b (cv_H c) (cv_W c) (cv_C c) (cv_kh c) (cv_kw c) (cv_nf c) (cv_sh c) (cv_sw c)
    (cv_ph c) (cv_pw c)) as (o & E & L & I & _); try assumption; try (rewrite <- ?H9, <- ?H10; lia).
  rewrite E. f_equal. rewrite <- H9, <- H10 in I.
  apply (list_by_cells (cv_oh c) (cv_ow c) (cv_nf c)); [lia|apply tab_length|].
  intros r cc f Hr Hc Hf. rewrite I by assumption.
  rewrite (conv_value_cell (conv_with c w b (cv_wg c) (cv_bg c) (cv_out c) (cv_ig c))) by assumption. reflexivity.
Qed.

Lemma convl_forward_value c n k x : conv_shape c n k -> length x = n ->
  convl_forward c x = Ok (conv_with c (cv_w c) (cv_b c) (cv_wg c) (cv_bg c) (conv_value c x) (cv_ig c)) /\
  length (conv_value c x) = k.
Proof.
  intros HS Hx. unfold convl_forward.
  rewrite (conv_kernel_value c n k) by (try assumption; try reflexivity; apply HS). cbn [bind].
  split; [reflexivity|]. rewrite conv_value_length. symmetry. apply HS.
Qed.

Lemma Rmaxs_spec n f v : (exists m, (m <= n)%nat /\ v = f m) -> (forall m, (m <= n)%nat -> f m <= v) -> v = Rmaxs n f.
Proof.
  intros (m & Hm & Em) Hle.
  assert (A : forall k, exists j, (j <= k)%nat /\ Rmaxs k f = f j).
  { induction k as [|k (j & Hj & Ej)]; cbn; [exists 0%nat; auto|].
    unfold Rmax. destruct (Rle_dec (Rmaxs k f) (f (S k))); [exists (S k); auto|exists j; auto]. }
  assert (B : forall k j, (j <= k)%nat -> f j <= Rmaxs k f).
  { induction k as [|k IH]; intros j Hj; cbn.
    - replace j with 0%nat by lia. lra.
    - destruct (Nat.eq_dec j (S k)) as [->|Hn]; [apply Rmax_r|].
      eapply Rle_trans; [apply (IH j); lia|apply Rmax_l]. }
  destruct (A n) as (j & Hj & Ej). apply Rle_antisym.
  - rewrite Em. now apply B.
  - rewrite Ej. now apply Hle.
Qed.

Lemma pool_value_cell p x r c f : (r < pl_oh p)%nat -> (c < pl_ow p)%nat -> (f < pl_C p)%nat ->
  nth (cell (pl_ow p) (pl_C p) r c f) (pool_value p x) 0
  = if pl_max p then Rmaxs (pl_kh p * pl_kw p - 1) (window p x r c f)
    else Rsum (pl_kh p * pl_kw p) (window p x r c f) / INR (pl_kh p * pl_kw p).
Proof.
  intros Hr Hk Hf. unfold pool_value. rewrite nth_tab by now apply cell_bound. cbv zeta.
  destruct (of_cell (pl_ow p) (pl_C p) r c f Hk Hf) as (-> & -> & ->). reflexivity.
Qed.
Lemma pool_value_length p x : length (pool_value p x) = (pl_oh p * pl_ow p * pl_C p)%nat.
Proof. apply tab_length. Qed.

Lemma pooll_forward_value p n k x : pool_shape p n k -> length x = n ->
  pooll_forward p x = Ok (pool_with p (pool_value p x) (pl_ig p)) /\ length (pool_value p x) = k.
Proof.
  intros ((H1 & H2) & (H3 & H4) & (H5 & H6) & (H7 & H8) & (H11 & H12) & (H17 & H18)) Hx.
  split; [|rewrite pool_value_length; auto].
  unfold pooll_forward. unfold pl_oh, pl_ow in H12. destruct (pl_max p) eqn:EM.
  - destruct (c19_max_pooling_forward (pl_out p) x (pl_H p) (pl_W p) (pl_C p) (pl_kh p) (pl_kw p) (pl_sh p) (pl_sw p))
      as (o & E & L & I & _); try assumption; try lia.
    rewrite E. cbn [bind]. do 2 f_equal.
    apply (list_by_cells (pl_oh p) (pl_ow p) (pl_C p)); [unfold pl_oh, pl_ow; lia|apply tab_length|].
    intros r c ch Hr Hc Hch. rewrite (pool_value_cell p x r c ch Hr Hc Hch), EM.
    destruct (I r c ch Hr Hc Hch) as ((a & b & Ha & Hb & Ev) & Hle). unfold pl_ow at 1.
    assert (HK : (0 < pl_kh p * pl_kw p)%nat) by nia.
    apply Rmaxs_spec.
    + exists (a * pl_kw p + b)%nat. split; [nia|]. rewrite Ev. unfold window, wcell.
      destruct (divmod_unique (pl_kw p) a b Hb) as (-> & ->). reflexivity.
    + intros m Hm. unfold window, wcell. apply Hle.
      * apply Nat.div_lt_upper_bound; nia.
      * apply Nat.mod_upper_bound. lia.
  - destruct (c19_average_pooling_forward (pl_out p) x (pl_H p) (pl_W p) (pl_C p) (pl_kh p) (pl_kw p) (pl_sh p) (pl_sw p))
      as (o & E & L & I & _); try assumption; try lia.
    rewrite E. cbn [bind]. do 2 f_equal.
    apply (list_by_cells (pl_oh p) (pl_ow p) (pl_C p)); [unfold pl_oh, pl_ow; lia|apply tab_length|].
    intros r c ch Hr Hc Hch. rewrite (pool_value_cell p x r c ch Hr Hc Hch), EM.
    unfold pl_ow at 1. rewrite I by assumption. f_equal. rewrite Rsum_mul. apply Rsum_ext. intros a Ha. apply Rsum_ext. intros b Hb.
    unfold window, wcell. destruct (divmod_unique (pl_kw p) a b Hb) as (-> & ->). reflexivity.
Qed.

(** *** Backward of a convolution *)
Lemma pix_deriv H W C (x : R -> list R) v (y z : Z) ch : vec_deriv (H * W * C) x v -> (ch < C)%nat ->
  derivable_pt_lim (fun t => pix 0 (x t) H W C y z ch) 0 (pix 0 v H W C y z ch).
Proof.
  intros (_ & _ & D) Hch. unfold pix.
  destruct ((0 <=? y) && (y <? Z.of_nat H) && (0 <=? z) && (z <? Z.of_nat W))%Z eqn:EB; [|apply dlim_const].
  apply andb_prop in EB. destruct EB as (EB & B4). apply andb_prop in EB. destruct EB as (EB & B3).
  apply andb_prop in EB. destruct EB as (B1 & B2). apply D.
  apply (cell_bound H W C); [lia|lia|exact Hch].
Qed.

Lemma xcorr_deriv (x w : R -> list R) v dw H W C kh kw nf sh sw ph pw r c f :
  vec_deriv (H * W * C) x v -> vec_deriv (kh * kw * C * nf) w dw -> (f < nf)%nat ->
  derivable_pt_lim (fun t => xcorr (x t) (w t) H W C kh kw nf sh sw ph pw r c f) 0
    (xcorr v (w 0) H W C kh kw nf sh sw ph pw r c f + xcorr (x 0) dw H W C kh kw nf sh sw ph pw r c f).
Proof.
  intros Dx Dw Hf. unfold xcorr.
  eapply dlim_eq.
  - apply (dlim_Rsum kh). intros a Ha. apply (dlim_Rsum kw). intros b Hb. apply (dlim_Rsum C). intros ch Hch.
    apply dlim_mult.
    + apply (pix_deriv H W C x v _ _ ch Dx Hch).
    + apply Dw. pose proof (cell_bound kh kw C a b ch Ha Hb Hch) as Hq. revert Hq.
      generalize (cell kw C a b ch) (kh * kw * C)%nat. intros q X Hq. nia.
  - rewrite <- Rsum_plus. apply Rsum_ext. intros a Ha. rewrite <- Rsum_plus. apply Rsum_ext. intros b Hb.
    rewrite <- Rsum_plus. apply Rsum_ext. intros ch Hch. ring.
Qed.

(** A convolution moving along curves of weights and biases. *)
Definition conv_at (c : convl R) (w b : list R) : convl R :=
  conv_with c w b (cv_wg c) (cv_bg c) (cv_out c) (cv_ig c).

Lemma conv_vjp c n k (x : R -> list R) v (w b : R -> list R) dw :
  conv_shape c n k -> vec_deriv n x v -> vec_deriv (length (cv_w c)) w dw -> w 0 = cv_w c ->
  exists y d, (forall t, convl_forward (conv_at c (w t) (b t)) (x t)
                 = Ok (conv_with c (w t) (b t) (cv_wg c) (cv_bg c) (y t) (cv_ig c))) /\
    (forall t, y t = conv_value (conv_at c (w t) (b t)) (x t)) /\
    vec_deriv k y d /\
    forall g, length g = k -> exists c',
      convl_backward (conv_with c (w 0) (b 0) (cv_wg c) (cv_bg c) (y 0) (cv_ig c)) (x 0) g = Ok c' /\
      length (cv_ig c') = n /\ dotl k g d = dotl n (cv_ig c') v + ddot (length dw) (cv_wg c') (cv_wg c) dw /\
      (exists wg bg o ig, c' = conv_with c (w 0) (b 0) wg bg o ig) /\
      length (cv_wg c') = length (cv_wg c) /\ length (cv_bg c') = length (cv_bg c) /\ length (cv_out c') = k /\
      (forall f, (f < cv_nf c)%nat -> nth f (cv_bg c') 0 =
         Rsum (cv_oh c) (fun r => Rsum (cv_ow c) (fun q => nth (cell (cv_ow c) (cv_nf c) r q f) g 0))).
Proof.
  intros HS Dx Dw W0. pose proof HS as ((H1 & H2) & (H3 & H4) & (H5 & H6) & (H7 & H8) & (H9 & H10) & (H11 & H12) & (H13 & H14) & (H15 & H16) & (H17 & H18)).
  pose proof Dx as (Lx & Lv & _). pose proof Dw as (Lw & Ldw & _).
  set (D := fun r cc f => xcorr v (w 0) (cv_H c) (cv_W c) (cv_C c) (cv_kh c) (cv_kw c) (cv_nf c) (cv_sh c) (cv_sw c) (cv_ph c) (cv_pw c) r cc f
    + xcorr (x 0) dw (cv_H c) (cv_W c) (cv_C c) (cv_kh c) (cv_kw c) (cv_nf c) (cv_sh c) (cv_sw c) (cv_ph c) (cv_pw c) r cc f).
  exists (fun t => conv_value (conv_at c (w t) (b t)) (x t)),
    (tab k (fun q => D (row_of (cv_ow c) (cv_nf c) q) (col_of (cv_ow c) (cv_nf c) q) (chan_of (cv_nf c) q))).
  split; [|split; [reflexivity|split]].
  - intros t. unfold convl_forward, conv_at at 1 2 3 4 5 6 7 8 9 10 11 12 13. cbn [conv_with cv_out cv_w cv_b cv_H cv_W cv_C cv_kh cv_kw cv_nf cv_sh cv_sw cv_ph cv_pw].
    rewrite (conv_kernel_value c n k) by auto. cbn [bind]. reflexivity.
  - split; [intros t; rewrite conv_value_length; symmetry; exact H12|]. split; [apply tab_length|].
    intros q Hq. rewrite nth_tab by exact Hq. rewrite H12 in Hq.
    destruct (cell_of _ _ _ _ Hq) as (A & B & F & E). unfold D.
    eapply derivable_pt_lim_ext; [|apply (xcorr_deriv x w v dw)].
    + intros t. cbv beta. rewrite <- E at 4.
      rewrite (conv_value_cell (conv_at c (w t) (b t))) by assumption. reflexivity.
    + rewrite <- H11. exact Dx.
    + rewrite <- H13. exact Dw.
    + exact F.
  - intros g Hg.
    destruct (c25_conv_backward_partial (cv_ig c) (cv_wg c) (cv_bg c) (x 0) (w 0) (b 0) g
      (cv_H c) (cv_W c) (cv_C c) (cv_kh c) (cv_kw c) (cv_nf c) (cv_sh c) (cv_sw c) (cv_ph c) (cv_pw c))
      as (ig' & wg' & bg' & E & L1 & L2 & L3 & A1 & A2 & A3); try assumption; try congruence;
      try (rewrite <- ?H9, <- ?H10, ?Lx, ?Lw; lia).
    rewrite <- H9, <- H10 in E, A1, A2, A3.
    exists (conv_with c (w 0) (b 0) wg' bg' (conv_value (conv_at c (w 0) (b 0)) (x 0)) ig').
    split. { unfold convl_backward. cbn [conv_with cv_ig cv_wg cv_bg cv_w cv_H cv_W cv_C cv_oh cv_ow cv_kh cv_kw cv_nf cv_sh cv_sw cv_ph cv_pw cv_out].
      rewrite E. reflexivity. }
    cbn [conv_with cv_ig cv_wg cv_bg cv_out]. split; [congruence|]. split.
    2:{ split; [exists wg', bg', (conv_value (conv_at c (w 0) (b 0)) (x 0)), ig'; reflexivity|].
        split; [exact L2|]. split; [congruence|]. split; [rewrite conv_value_length; symmetry; exact H12|exact A3]. }
    pose proof (conv_kernel_value c n k (cv_out c) v (w 0) (b 0) HS H17 Lv (Lw 0)) as EV.
    pose proof (conv_kernel_value c n k (cv_out c) (x 0) dw (b 0) HS H17 (Lx 0) Ldw) as EW.
    assert (Q1 : dotl k g (conv_value (conv_with c (w 0) (b 0) (cv_wg c) (cv_bg c) (cv_out c) (cv_ig c)) v) = dotl n ig' v).
    { unfold dotl. rewrite H12, H11. apply (A1 v (cv_out c)); [rewrite Lv; lia|lia|exact EV]. }
    assert (Q2 : dotl k g (conv_value (conv_with c dw (b 0) (cv_wg c) (cv_bg c) (cv_out c) (cv_ig c)) (x 0)) = ddot (length dw) wg' (cv_wg c) dw).
    { unfold dotl, ddot. rewrite H12, Ldw, H13. apply (A2 dw (cv_out c)); [lia|lia|exact EW]. }
    rewrite <- Q1, <- Q2. unfold dotl. rewrite <- Rsum_plus. apply Rsum_ext. intros q Hq.
    rewrite nth_tab by exact Hq. rewrite H12 in Hq.
    destruct (cell_of _ _ _ _ Hq) as (A & B & F & EQ).
    pose proof (conv_value_cell (conv_with c (w 0) (b 0) (cv_wg c) (cv_bg c) (cv_out c) (cv_ig c)) v _ _ _ A B F) as Z1.
    pose proof (conv_value_cell (conv_with c dw (b 0) (cv_wg c) (cv_bg c) (cv_out c) (cv_ig c)) (x 0) _ _ _ A B F) as Z2.
    cbn [conv_with cv_w cv_H cv_W cv_C cv_kh cv_kw cv_nf cv_sh cv_sw cv_ph cv_pw cv_oh cv_ow] in Z1, Z2.
    rewrite EQ in Z1, Z2. rewrite Z1, Z2. unfold D. ring.
Qed.

(** *** Backward of a max pooling *)
Lemma pool_cell_bound (p : pooll R) n k r c m ch : pool_shape p n k -> (r < pl_oh p)%nat -> (c < pl_ow p)%nat ->
  (m < pl_kh p * pl_kw p)%nat -> (ch < pl_C p)%nat ->
  (wcell (pl_W p) (pl_C p) (pl_kw p) (pl_sh p) (pl_sw p) r c m ch < n)%nat.
Proof.
  intros ((H1 & H2) & (H3 & H4) & (H5 & H6) & (H7 & H8) & (H11 & H12) & (H17 & H18)) Hr Hc Hm Hch.
  rewrite H11. unfold wcell. apply cell_bound; [| |exact Hch].
  - assert (m / pl_kw p < pl_kh p)%nat by (apply Nat.div_lt_upper_bound; nia).
    unfold pl_oh, side in Hr. pose proof (Nat.mul_div_le (pl_H p + 2 * 0 - pl_kh p) (pl_sh p) ltac:(lia)).
    assert (r * pl_sh p <= pl_sh p * ((pl_H p + 2 * 0 - pl_kh p) / pl_sh p))%nat by nia. lia.
  - assert (m mod pl_kw p < pl_kw p)%nat by (apply Nat.mod_upper_bound; lia).
    unfold pl_ow, side in Hc. pose proof (Nat.mul_div_le (pl_W p + 2 * 0 - pl_kw p) (pl_sw p) ltac:(lia)).
    assert (c * pl_sw p <= pl_sw p * ((pl_W p + 2 * 0 - pl_kw p) / pl_sw p))%nat by nia. lia.
Qed.

(** A finite family of strict inequalities at 0 between continuous functions holds nearby. *)
Lemma lt_nearby (n : nat) (f : nat -> R -> R) (g : R -> R) (P : nat -> Prop) :
  (forall i, P i \/ ~ P i) ->
  (forall i, (i < n)%nat -> P i -> continuity_pt (f i) 0 /\ f i 0 < g 0) -> continuity_pt g 0 ->
  exists e, 0 < e /\ forall t, Rabs t < e -> forall i, (i < n)%nat -> P i -> f i t < g t.
Proof.
  intros HP HF HG. induction n as [|n IH].
  - exists 1. split; [lra|]. intros t _ i Hi. lia.
  - destruct IH as (e & He & Hlt). { intros i Hi. apply HF. lia. }
    destruct (HP n) as [Pn|Pn].
    2:{ exists e. split; [exact He|]. intros t Ht i Hi Pi. destruct (Nat.eq_dec i n) as [->|Hne]; [contradiction|].
        apply Hlt; auto. lia. }
    destruct (HF n ltac:(lia) Pn) as (Cf & L0).
    assert (CD : continuity_pt (fun t => g t - f n t) 0) by (apply continuity_pt_minus; assumption).
    assert (Hpos : 0 < (g 0 - f n 0) / 2) by lra.
    destruct (CD _ Hpos) as (a & Ha & HA).
    exists (Rmin e a). split; [apply Rmin_pos; auto|]. intros t Ht i Hi Pi.
    destruct (Nat.eq_dec i n) as [->|Hne].
    + destruct (Req_dec t 0) as [->|Hnz]; [exact L0|].
      specialize (HA t). cbn in HA. unfold R_dist in HA.
      assert (X : Rabs (g t - f n t - (g 0 - f n 0)) < (g 0 - f n 0) / 2).
      { apply HA. split; [split; [exact I|auto]|]. rewrite Rminus_0_r. eapply Rlt_le_trans; [exact Ht|apply Rmin_r]. }
      apply Rabs_def2 in X. lra.
    + apply Hlt; auto; [|lia]. eapply Rlt_le_trans; [exact Ht|apply Rmin_l].
Qed.

Lemma window_max_deriv p n k (x : R -> list R) v r c ch m : pool_shape p n k -> vec_deriv n x v ->
  (r < pl_oh p)%nat -> (c < pl_ow p)%nat -> (ch < pl_C p)%nat -> (m < pl_kh p * pl_kw p)%nat ->
  (forall i, (i < pl_kh p * pl_kw p)%nat -> i <> m -> window p (x 0) r c ch i < window p (x 0) r c ch m) ->
  derivable_pt_lim (fun t => Rmaxs (pl_kh p * pl_kw p - 1) (window p (x t) r c ch)) 0 (window p v r c ch m).
Proof.
  intros HS (Lx & Lv & D) Hr Hc Hch Hm Hmax.
  assert (DW : forall i, (i < pl_kh p * pl_kw p)%nat ->
    derivable_pt_lim (fun t => window p (x t) r c ch i) 0 (window p v r c ch i)).
  { intros i Hi. apply D. eapply pool_cell_bound; eauto. }
  destruct (lt_nearby (pl_kh p * pl_kw p) (fun i t => window p (x t) r c ch i) (fun t => window p (x t) r c ch m)
    (fun i => i <> m)) as (e & He & Hlt).
  - intros i. destruct (Nat.eq_dec i m); [right|left]; lia.
  - intros i Hi Hne. split; [|now apply Hmax]. apply derivable_continuous_pt. eexists. apply DW. exact Hi.
  - apply derivable_continuous_pt. eexists. apply DW. exact Hm.
  - apply (derivable_pt_lim_locally_ext (fun t => window p (x t) r c ch m) _ 0 (- e) e); [lra| |now apply DW].
    intros t Ht. cbv beta. apply Rmaxs_spec.
    + exists m. split; [lia|reflexivity].
    + intros i Hi. destruct (Nat.eq_dec i m) as [->|Hne]; [lra|]. left. apply Hlt; [apply Rabs_def1; lra|lia|exact Hne].
Qed.

Lemma max_pool_adjoint hd wd C n (g v : list R) (cellm : nat -> nat -> nat -> nat) :
  (forall r c ch, (r < hd)%nat -> (c < wd)%nat -> (ch < C)%nat -> (cellm r c ch < n)%nat) ->
  Rsum n (fun q => Rsum3 hd wd C (fun r c ch => if (q =? cellm r c ch)%nat then nth (cell wd C r c ch) g 0 else 0) * nth q v 0)
  = Rsum3 hd wd C (fun r c ch => nth (cell wd C r c ch) g 0 * nth (cellm r c ch) v 0).
Proof.
  intros HB. unfold Rsum3.
  rewrite (Rsum_ext n _ (fun q => Rsum hd (fun r => Rsum wd (fun c => Rsum C (fun ch =>
    (if (q =? cellm r c ch)%nat then nth (cell wd C r c ch) g 0 else 0) * nth q v 0))))).
  2:{ intros q Hq. rewrite <- Rsum_scal_r. apply Rsum_ext. intros r Hr. rewrite <- Rsum_scal_r. apply Rsum_ext. intros c Hc.
      now rewrite <- Rsum_scal_r. }
  rewrite Rsum_swap. apply Rsum_ext. intros r Hr. rewrite Rsum_swap. apply Rsum_ext. intros c Hc.
  rewrite Rsum_swap. apply Rsum_ext. intros ch Hch.
  apply (Rsum_indicator n (cellm r c ch) (nth (cell wd C r c ch) g 0) (fun q => nth q v 0)). now apply HB.
Qed.

Lemma maxpool_vjp p n k (x : R -> list R) v : pool_shape p n k -> vec_deriv n x v -> cnode_smooth (CP p) (x 0) ->
  exists y d, (forall t, pooll_forward p (x t) = Ok (pool_with p (y t) (pl_ig p))) /\
    (forall t, y t = pool_value p (x t)) /\ vec_deriv k y d /\
    forall g, length g = k -> exists p', pooll_backward (pool_with p (y 0) (pl_ig p)) (x 0) g = Ok p' /\
      length (pl_ig p') = n /\ dotl k g d = dotl n (pl_ig p') v /\
      exists o ig, p' = pool_with p o ig /\ length o = k.
Proof.
  intros HS Dx (HM & Hsm). pose proof HS as ((H1 & H2) & (H3 & H4) & (H5 & H6) & (H7 & H8) & (H11 & H12) & (H17 & H18)).
  pose proof Dx as (Lx & Lv & _). unfold pl_oh, pl_ow in H12.
  destruct (c24_max_pool_backward_actual (pl_ig p) (x 0) (repeat 0 k) (pl_H p) (pl_W p) (pl_C p) (pl_kh p) (pl_kw p) (pl_sh p) (pl_sw p))
    as (best & _ & HB & _); try assumption; try congruence; try (rewrite ?Lx, ?repeat_length; lia).
  assert (HB' : forall r c ch, (r < pl_oh p)%nat -> (c < pl_ow p)%nat -> (ch < pl_C p)%nat ->
    (best r c ch < pl_kh p * pl_kw p)%nat /\
    (forall i, (i < pl_kh p * pl_kw p)%nat -> i <> best r c ch -> window p (x 0) r c ch i < window p (x 0) r c ch (best r c ch)) /\
    (best r c ch = 0%nat -> r = 0%nat /\ c = 0%nat /\ ch = 0%nat)).
  { intros r c ch Hr Hc Hch. destruct (Hsm r c ch Hr Hc Hch) as (m & Hm & Hlt & Hz).
    assert (E : best r c ch = m).
    { apply (fmax_unique (pl_W p) (pl_C p) (pl_kh p) (pl_kw p) (pl_sh p) (pl_sw p) (x 0) r c ch); [now apply HB|].
      split; [exact Hm|]. split.
      - intros i Hi. destruct (Nat.eq_dec i m) as [->|Hne]; [lra|]. left. now apply Hlt.
      - intros i Hi. apply Hlt; lia. }
    rewrite E. auto. }
  exists (fun t => pool_value p (x t)),
    (tab k (fun q => let r := row_of (pl_ow p) (pl_C p) q in let c := col_of (pl_ow p) (pl_C p) q in
                     let ch := chan_of (pl_C p) q in window p v r c ch (best r c ch))).
  split; [intros t; eapply pooll_forward_value; eauto|]. split; [reflexivity|]. split.
  - split; [intros t; rewrite pool_value_length; symmetry; exact H12|]. split; [apply tab_length|].
    intros q Hq. rewrite nth_tab by exact Hq. cbv zeta. rewrite H12 in Hq.
    destruct (cell_of _ _ _ _ Hq) as (A & B & F & E).
    destruct (HB' _ _ _ A B F) as (Hm & Hlt & _).
    eapply derivable_pt_lim_ext; [|apply (window_max_deriv p n k x v _ _ _ _ HS Dx A B F Hm Hlt)].
    intros t. cbv beta. pose proof (pool_value_cell p (x t) _ _ _ A B F) as Z. rewrite HM in Z.
    unfold pl_ow in Z at 1. rewrite E in Z. symmetry. exact Z.
  - intros g Hg.
    destruct (c24_max_pool_backward_partial (pl_ig p) (x 0) g (pl_H p) (pl_W p) (pl_C p) (pl_kh p) (pl_kw p) (pl_sh p) (pl_sw p) best)
      as (ig' & E & L & I); try assumption; try congruence; try (rewrite ?Lx; lia).
    { intros r c ch Hr Hc Hch. split; [now apply HB|]. now apply HB'. }
    exists (pool_with p (pool_value p (x 0)) ig'). split.
    { unfold pooll_backward. cbn [pool_with pl_max pl_ig pl_H pl_W pl_C pl_kh pl_kw pl_sh pl_sw pl_out].
      rewrite HM, E. reflexivity. }
    cbn [pool_with pl_ig]. split; [congruence|]. split.
    2:{ exists (pool_value p (x 0)), ig'. split; [reflexivity|]. rewrite pool_value_length. symmetry. exact H12. }
    unfold dotl at 2. rewrite (Rsum_ext n _ _ (fun q Hq => f_equal (fun z => z * nth q v 0) (I q))).
    unfold max_pool_gradient. fold (pl_oh p) (pl_ow p).
    rewrite (max_pool_adjoint (pl_oh p) (pl_ow p) (pl_C p) n g v
      (fun r c ch => wcell (pl_W p) (pl_C p) (pl_kw p) (pl_sh p) (pl_sw p) r c (best r c ch) ch)).
    2:{ intros r c ch Hr Hc Hch. eapply pool_cell_bound; eauto. now apply HB'. }
    unfold dotl, Rsum3. rewrite H12. fold (pl_oh p) (pl_ow p). rewrite !Rsum_mul.
    apply Rsum_ext. intros r Hr. apply Rsum_ext. intros c Hc. apply Rsum_ext. intros ch Hch.
    change ((r * pl_ow p + c) * pl_C p + ch)%nat with (cell (pl_ow p) (pl_C p) r c ch).
    rewrite nth_tab by now apply cell_bound. cbv zeta.
    destruct (of_cell (pl_ow p) (pl_C p) r c ch Hc Hch) as (-> & -> & ->). reflexivity.
Qed.
