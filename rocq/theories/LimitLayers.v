(** Layers, chains and training steps in arithmetics of growing precision. *)
From Coq Require Import Reals Lra Lia.
From Verif Require Import Base Num RSum MathModel MathProofs LayerModel LossModel GraphModel ModelModel NodeModel GradSpec GradProofs
  ChainProofs ModelProofs PropModel TrainProofs RoundModel RoundSpec RoundProofs LimitSpec LimitProofs.
Local Open Scope R_scope.

Lemma tends_1 : tends (fun a => @n1 R (a_num a)) 1.
Proof. exact (tends_const 1). Qed.
Lemma tends_0 : tends (fun a => @n0 R (a_num a)) 0.
Proof. exact (tends_const 0). Qed.

(** *** Activations *)
Lemma relu_lim f x : tends f x -> tends (fun a => @relu R (a_num a) (f a)) (@relu R NumR x).
Proof. intros Hf. apply (tends_nmax f (fun _ => 0) x 0 Hf). apply tends_const. Qed.
Lemma elu_lim alpha f x : tends f x -> tends (fun a => @elu R (a_num a) (a_fun a) alpha (f a)) (@elu R NumR TransR alpha x).
Proof.
  intros Hf. unfold elu.
  apply (tends_cmp (fun _ => 0) f 0 x f _ x (alpha * (exp x - 1))); auto using tends_const.
  - apply tends_nmul; [apply tends_const|]. apply tends_nsub; [now apply tends_nexp|apply tends_1].
  - intros <-. rewrite exp_0. ring.
Qed.
Lemma sigmoid_lim f x : tends f x -> tends (fun a => @sigmoid R (a_num a) (a_fun a) (f a)) (@sigmoid R NumR TransR x).
Proof.
  intros Hf. unfold sigmoid. apply tends_ndiv.
  - cbn [nadd nexp nopp n1 NumR TransR]. pose proof (exp_pos (- x)). lra.
  - apply tends_1.
  - apply tends_nadd; [apply tends_1|]. apply tends_nexp. now apply tends_opp.
Qed.

(** The largest entry. *)
Definition maxof (a : arith) (x : list R) (n : nat) : R :=
  match @max_ R (a_num a) x n with Ok d => d | _ => 0 end.
Lemma strict_weak_a a : @strict_weak R (a_num a).
Proof. exact strict_weak_R. Qed.
Lemma max_lim (X : arith -> list R) x n : (0 < n)%nat -> length x = n -> vtends X x ->
  exists d, @max_ R NumR x n = Ok d /\ tends (fun a => maxof a (X a) n) d /\
    forall a, @max_ R (a_num a) (X a) n = Ok (maxof a (X a) n).
Proof.
  intros Hn Lx (LX & HX).
  destruct (@max_spec R NumR 0 x n strict_weak_R Hn ltac:(lia)) as (m & _ & Em & _ & Hm & M1 & _).
  assert (MA : forall a, exists j, @max_ R (a_num a) (X a) n = Ok (nth j (X a) 0) /\ (j < n)%nat /\
    forall i, (i < n)%nat -> Rltb (nth j (X a) 0) (nth i (X a) 0) = false).
  { intros a. destruct (@max_spec R (a_num a) 0 (X a) n (strict_weak_a a) Hn) as (j & _ & Ej & _ & Hj & J1 & _).
    - rewrite LX. lia.
    - exists j. auto. }
  exists (nth m x 0). split; [exact Em|]. split.
  - intros eps He. apply (ev_mono (fun a => forall i, (i < n)%nat -> Rabs (nth i (X a) 0 - nth i x 0) <= eps)).
    + intros a HA. destruct (MA a) as (j & Ej & Hj & J1). unfold maxof. rewrite Ej.
      specialize (J1 m Hm). apply Rltb_false in J1. specialize (M1 j Hj). cbn [nltb NumR] in M1. apply Rltb_false in M1.
      pose proof (Rabs_between _ _ (HA m Hm)). pose proof (Rabs_between _ _ (HA j Hj)). apply Rabs_le. lra.
    + apply (ev_all (fun i a => Rabs (nth i (X a) 0 - nth i x 0) <= eps)). intros i _. now apply HX.
  - intros a. destruct (MA a) as (j & Ej & _). unfold maxof. now rewrite Ej.
Qed.

Lemma softmax_lim (X : arith -> list R) x n : (0 < n)%nat -> length x = n -> vtends X x ->
  exists Y y, length y = n /\ vtends Y y /\
    (forall o, length o = n -> @stable_softmax R NumR TransR o x n = Ok y) /\
    forall a o, length o = n -> @stable_softmax R (a_num a) (a_fun a) o (X a) n = Ok (Y a).
Proof.
  intros Hn Lx HX. destruct (max_lim X x n Hn Lx HX) as (d & Ed & Hd & EA). destruct HX as (LX & HX).
  set (E := fun a v => @nexp R (a_fun a) (@nsub R (a_num a) v (maxof a (X a) n))).
  exists (fun a => tab n (fun i => @nmul R (a_num a) (E a (nth i (X a) 0))
            (@ndiv R (a_num a) 1 (@nsum R (a_num a) n (fun j => E a (nth j (X a) 0)))))).
  exists (tab n (fun i => exp (nth i x 0 - d) * (1 / @nsum R NumR n (fun j => exp (nth j x 0 - d))))).
  split; [apply tab_length|].
  assert (HE : forall i, tends (fun a => E a (nth i (X a) 0)) (exp (nth i x 0 - d))).
  { intros i. apply tends_nexp. apply tends_nsub; auto. }
  assert (HP : @nsum R NumR n (fun j => exp (nth j x 0 - d)) <> 0).
  { rewrite nsum_Rsum. apply Rgt_not_eq. destruct n as [|n']; [lia|]. cbn [Rsum].
    pose proof (exp_pos (nth n' x 0 - d)).
    assert (0 <= Rsum n' (fun j => exp (nth j x 0 - d))) by (apply Rsum_nonneg; intros; left; apply exp_pos). lra. }
  split; [|split].
  - apply vtends_tab. intros i Hi. apply tends_nmul; [apply HE|]. apply tends_ndiv; [exact HP|apply tends_const|].
    apply (tends_nsum (fun a j => E a (nth j (X a) 0)) (fun j => exp (nth j x 0 - d))). intros j _. apply HE.
  - intros o Lo. unfold stable_softmax. rewrite Ed. cbn [bind].
    rewrite (@softmax_with_spec R NumR 0) by lia. rewrite skipn_all2, app_nil_r by lia. reflexivity.
  - intros a o Lo. unfold stable_softmax. rewrite EA. cbn [bind].
    rewrite (@softmax_with_spec R (a_num a) 0); [|lia|rewrite LX; lia]. rewrite skipn_all2, app_nil_r by lia. reflexivity.
Qed.

(** Functions entry by entry. *)
Lemma map_lim (F : arith -> R -> R) (f : R -> R) (X : arith -> list R) x n : length x = n -> vtends X x ->
  (forall g v, tends g v -> tends (fun a => F a (g a)) (f v)) ->
  exists Y y, length y = n /\ vtends Y y /\ y = tab n (fun i => f (nth i x 0)) /\
    (forall a, Y a = tab n (fun i => F a (nth i (X a) 0))) /\
    (forall o, length o = n -> map_into f o x n = Ok y) /\
    forall a o, length o = n -> map_into (F a) o (X a) n = Ok (Y a).
Proof.
  intros Lx (LX & HX) HF.
  exists (fun a => tab n (fun i => F a (nth i (X a) 0))), (tab n (fun i => f (nth i x 0))).
  split; [apply tab_length|]. split; [|split; [reflexivity|split; [reflexivity|split]]].
  - apply vtends_tab. intros i _. now apply HF.
  - intros o Lo. rewrite (map_into_spec 0) by lia. now rewrite skipn_all2, app_nil_r by lia.
  - intros a o Lo. rewrite (map_into_spec 0); [|lia|rewrite LX; lia]. now rewrite skipn_all2, app_nil_r by lia.
Qed.

(** *** Layers *)
(** Layers of the same kind and shape whose parameters, accumulated gradients and outputs
    approach those of [l]. *)
Record llim (L : arith -> layer R) (l : layer R) (n k : nat) : Prop := {
  ll_shape : lshape l n k;
  ll_shapes : forall a, lshape (L a) n k;
  ll_kind : forall a, knd (L a) = knd l;
  ll_w : vtends (fun a => wts (L a)) (wts l);
  ll_b : vtends (fun a => bias (L a)) (bias l);
  ll_wg : vtends (fun a => wgrad (L a)) (wgrad l);
  ll_bg : vtends (fun a => bgrad (L a)) (bgrad l);
  ll_out : vtends (fun a => out (L a)) (out l)
}.
(** The derivative an activation layer computes from one of its outputs. *)
Definition d1 (NT : NumOps R) (f : act R) (o : R) : R :=
  match f with
  | Relu => relu_1 o
  | Elu alpha => elu_1_opt alpha o
  | Tanh => tanh_1_opt o
  | Sigmoid => sigmoid_1_opt o
  | Softmax | Linear => n1
  end.
Definition ready (L : arith -> layer R) (l : layer R) : Prop :=
  forall f, knd l = KAct f -> forall i, (i < length (out l))%nat ->
    tends (fun a => d1 (a_num a) f (nth i (out (L a)) 0)) (d1 NumR f (nth i (out l) 0)).

Lemma elu_1_lim alpha f x : (x <> 0 \/ alpha = 1) -> tends f x ->
  tends (fun a => @elu_1_opt R (a_num a) alpha (f a)) (@elu_1_opt R NumR alpha x).
Proof.
  intros Hx Hf. unfold elu_1_opt.
  apply (tends_cmp (fun _ => 0) f 0 x (fun _ => 1) _ 1 (x + alpha)); auto using tends_const.
  - apply tends_nadd; [exact Hf|apply tends_const].
  - intros <-. destruct Hx as [Hx| ->]; [congruence|ring].
Qed.
Lemma relu_1_lim f x : x <> 0 -> tends f x -> tends (fun a => @relu_1 R (a_num a) (f a)) (@relu_1 R NumR x).
Proof.
  intros Hx Hf. unfold relu_1.
  apply (tends_cmp (fun _ => 0) f 0 x (fun _ => 1) (fun _ => 0) 1 0); auto using tends_const. congruence.
Qed.
Lemma tanh_1_lim f x : tends f x -> tends (fun a => @tanh_1_opt R (a_num a) (f a)) (@tanh_1_opt R NumR x).
Proof. intros Hf. unfold tanh_1_opt. apply tends_nsub; [apply tends_1|]. now apply tends_nmul. Qed.
Lemma sigmoid_1_lim f x : tends f x -> tends (fun a => @sigmoid_1_opt R (a_num a) (f a)) (@sigmoid_1_opt R NumR x).
Proof. intros Hf. unfold sigmoid_1_opt. apply tends_nmul; [exact Hf|]. apply tends_nsub; [apply tends_1|exact Hf]. Qed.

Lemma relu_ready f x : x <> 0 -> tends f x ->
  tends (fun a => @relu_1 R (a_num a) (@relu R (a_num a) (f a))) (@relu_1 R NumR (@relu R NumR x)).
Proof.
  intros Hx Hf. destruct (Rtotal_order x 0) as [Hlt|[He|Hgt]]; [|congruence|].
  - assert (E : @relu R NumR x = 0).
    { unfold relu, nmax. cbn [nltb n0 NumR]. now replace (Rltb x 0) with true by (symmetry; now apply Rltb_true). }
    apply (tends_ev (fun _ => @relu_1 R NumR (@relu R NumR x))); [|apply tends_const].
    apply (ev_mono (fun a => Rltb (f a) 0 = true)).
    + intros a Ha. unfold relu at 1, nmax. cbn [nltb n0 a_num NumF]. unfold a_num. cbn [nltb n0 NumF]. rewrite Ha, E.
      reflexivity.
    + apply (ev_lt f (fun _ => 0) x 0); auto using tends_const.
  - apply relu_1_lim; [|now apply relu_lim]. unfold relu, nmax. cbn [nltb n0 NumR].
    replace (Rltb x 0) with false by (symmetry; apply Rltb_false; lra). exact Hx.
Qed.
Lemma elu_ready alpha f x : 0 <= alpha -> (alpha = 1 \/ x <> 0) -> tends f x ->
  tends (fun a => @elu_1_opt R (a_num a) alpha (@elu R (a_num a) (a_fun a) alpha (f a)))
        (@elu_1_opt R NumR alpha (@elu R NumR TransR alpha x)).
Proof.
  intros Ha Hx Hf. destruct Hx as [Hx|Hx]; [apply elu_1_lim; [now right|now apply elu_lim]|].
  destruct (Rtotal_order x 0) as [Hlt|[He|Hgt]]; [|congruence|].
  - assert (E : @elu R NumR TransR alpha x = alpha * (exp x - 1)).
    { unfold elu. cbn [nltb n0 n1 nmul nsub nexp NumR TransR].
      now replace (Rltb 0 x) with false by (symmetry; apply Rltb_false; lra). }
    destruct (Req_dec alpha 0) as [A0|A0].
    + apply (tends_ev (fun _ => @elu_1_opt R NumR alpha (@elu R NumR TransR alpha x))); [|apply tends_const].
      apply (ev_mono (fun a => Rltb 0 (f a) = false)).
      * intros a Hf0. rewrite E. subst alpha. rewrite Rmult_0_l.
        assert (EA : @elu R (a_num a) (a_fun a) 0 (f a) = 0).
        { unfold elu, a_num. cbn [nltb n0 n1 nmul nsub NumF]. rewrite Hf0, Rmult_0_l. apply (rd_zero _ (pr_rounding _ _ (a_precise a))). }
        rewrite EA. unfold elu_1_opt, a_num. cbn [nltb n0 n1 nadd NumF NumR].
        replace (Rltb 0 0) with false by (symmetry; apply Rltb_false; lra). rewrite Rplus_0_r.
        apply (rd_zero _ (pr_rounding _ _ (a_precise a))).
      * apply (ev_gt (fun _ => 0) f 0 x); auto using tends_const.
    + apply elu_1_lim; [|now apply elu_lim]. left. rewrite E.
      assert (exp x < 1) by (rewrite <- exp_0; now apply exp_increasing). nra.
  - apply elu_1_lim; [|now apply elu_lim]. left. unfold elu. cbn [nltb n0 NumR].
    replace (Rltb 0 x) with true by (symmetry; now apply Rltb_true). exact Hx.
Qed.

Lemma layer_forward_lim L l n k X x : llim L l n k -> length x = n -> vtends X x ->
  exists Y y, length y = k /\ vtends Y y /\
    @layer_forward R NumR TransR l x = Ok (set_out l y) /\
    (forall a, @layer_forward R (a_num a) (a_fun a) (L a) (X a) = Ok (set_out (L a) (Y a))) /\
    (layer_smooth l x -> ready (fun a => set_out (L a) (Y a)) (set_out l y)).
Proof.
  intros W Lx HX. destruct (ll_shape _ _ _ _ W) as (S1 & S2 & S3 & S4).
  assert (LX : forall a, length (X a) = n) by (intros a; rewrite (proj1 HX); exact Lx).
  assert (LO : forall a, length (out (L a)) = k) by (intros a; apply (ll_shapes _ _ _ _ W a)).
  unfold layer_forward. destruct (knd l) as [|f] eqn:K.
  - destruct S4 as (A1 & A2 & A3 & A4).
    exists (fun a => tab k (fun i => @nsum_from R (a_num a) (nth i (bias (L a)) 0) n
              (fun j => @nmul R (a_num a) (nth (i * n + j) (wts (L a)) 0) (nth j (X a) 0)))).
    exists (tab k (fun i => @nsum_from R NumR (nth i (bias l) 0) n (fun j => nth (i * n + j) (wts l) 0 * nth j x 0))).
    split; [apply tab_length|]. split; [|split; [|split]].
    + apply vtends_tab. intros i Hi.
      apply (tends_nsum_from _ _ (fun a j => @nmul R (a_num a) (nth (i * n + j) (wts (L a)) 0) (nth j (X a) 0))
               (fun j => nth (i * n + j) (wts l) 0 * nth j x 0)); [apply (ll_b _ _ _ _ W)|].
      intros j Hj. apply tends_nmul; [apply (ll_w _ _ _ _ W)|apply HX].
    + rewrite (@dense_spec R NumR 0) by (rewrite ?S3; lia). rewrite S3, Lx, skipn_all2, app_nil_r by lia. reflexivity.
    + intros a. rewrite (ll_kind _ _ _ _ W), K.
      destruct (ll_shapes _ _ _ _ W a) as (T1 & T2 & T3 & T4). rewrite (ll_kind _ _ _ _ W), K in T4.
      destruct T4 as (B1 & B2 & B3 & B4).
      rewrite (@dense_spec R (a_num a) 0) by (rewrite ?T3, ?LX; lia). rewrite T3, LX, skipn_all2, app_nil_r by lia. reflexivity.
    + intros _ f Hf. cbn [set_out knd] in Hf. congruence.
  - destruct S4 as (-> & HS).
    assert (PW : forall (F : arith -> R -> R) (h : R -> R) (D : arith -> R -> R) (d : R -> R),
      (forall g v, tends g v -> tends (fun a => F a (g a)) (h v)) ->
      @act_forward R NumR TransR f (out l) x = map_into h (out l) x n ->
      (forall a, @act_forward R (a_num a) (a_fun a) f (out (L a)) (X a) = map_into (F a) (out (L a)) (X a) n) ->
      (forall a o, d1 (a_num a) f o = D a o) -> (forall o, d1 NumR f o = d o) ->
      (act_smooth f x -> forall i, (i < n)%nat -> tends (fun a => D a (F a (nth i (X a) 0))) (d (h (nth i x 0)))) ->
      exists Y y, length y = n /\ vtends Y y /\
        (o <- @act_forward R NumR TransR f (out l) x ;; Ok (set_out l o)) = Ok (set_out l y) /\
        (forall a, match knd (L a) with
           | KDense => o <- @dense R (a_num a) (out (L a)) (X a) (wts (L a)) (bias (L a)) (length (X a)) (length (out (L a))) ;; Ok (set_out (L a) o)
           | KAct a0 => o <- @act_forward R (a_num a) (a_fun a) a0 (out (L a)) (X a) ;; Ok (set_out (L a) o)
           end = Ok (set_out (L a) (Y a))) /\
        (layer_smooth l x -> ready (fun a => set_out (L a) (Y a)) (set_out l y))).
    { intros F h D d HF E EA HD Hd HR.
      destruct (map_lim F h X x n Lx HX HF) as (Y & y & Ly & HY & EY & EYa & Q & QA). exists Y, y.
      split; [exact Ly|]. split; [exact HY|]. split; [rewrite E, Q by exact S3; reflexivity|]. split.
      - intros a. rewrite (ll_kind _ _ _ _ W), K, EA, QA by apply LO. reflexivity.
      - unfold layer_smooth. rewrite K. intros HSm f' Hf' i Hi. cbn [set_out knd out] in *. rewrite K in Hf'. injection Hf' as <-.
        rewrite Ly in Hi. rewrite EY, Hd, nth_tab by exact Hi.
        apply (tends_ext (fun a => D a (F a (nth i (X a) 0)))); [|now apply HR].
        intros a. now rewrite EYa, nth_tab, HD by exact Hi. }
    destruct f as [|alpha| | | |].
    + apply (PW (fun a => @relu R (a_num a)) (@relu R NumR) (fun a => @relu_1 R (a_num a)) (@relu_1 R NumR)); auto using relu_lim.
      * cbn [act_forward]. now rewrite S3.
      * intros a. cbn [act_forward]. now rewrite LO.
      * cbn [act_smooth]. intros HSm i Hi. apply relu_ready; [apply HSm; lia|apply HX].
    + apply (PW (fun a => @elu R (a_num a) (a_fun a) alpha) (@elu R NumR TransR alpha) (fun a => @elu_1_opt R (a_num a) alpha) (@elu_1_opt R NumR alpha)); auto using elu_lim.
      * cbn [act_forward]. now rewrite S3.
      * intros a. cbn [act_forward]. now rewrite LO.
      * cbn [act_smooth]. intros (HSa & HSm) i Hi. apply elu_ready; [exact HSa| |apply HX].
        destruct HSm as [HSm|HSm]; [now left|right; apply HSm; lia].
    + destruct (softmax_lim X x n (HS eq_refl) Lx HX) as (Y & y & Ly & HY & Q & QA). exists Y, y.
      split; [exact Ly|]. split; [exact HY|]. split; [cbn [act_forward]; rewrite S3, Q by exact S3; reflexivity|]. split.
      * intros a. rewrite (ll_kind _ _ _ _ W), K. cbn [act_forward]. rewrite LO, QA by apply LO. reflexivity.
      * intros _ f' Hf' i Hi. cbn [set_out knd] in Hf'. rewrite K in Hf'. injection Hf' as <-. exact tends_1.
    + apply (PW (fun a => @ntanh R (a_fun a)) (@ntanh R TransR) (fun a => @tanh_1_opt R (a_num a)) (@tanh_1_opt R NumR)); auto using tends_ntanh.
      * cbn [act_forward]. now rewrite S3.
      * intros a. cbn [act_forward]. now rewrite LO.
      * intros _ i Hi. apply tanh_1_lim. apply (tends_ntanh (fun a => nth i (X a) 0)). apply HX.
    + apply (PW (fun a => @sigmoid R (a_num a) (a_fun a)) (@sigmoid R NumR TransR) (fun a => @sigmoid_1_opt R (a_num a)) (@sigmoid_1_opt R NumR)); auto using sigmoid_lim.
      * cbn [act_forward]. now rewrite S3.
      * intros a. cbn [act_forward]. now rewrite LO.
      * intros _ i Hi. apply sigmoid_1_lim. apply sigmoid_lim. apply HX.
    + exists X, x. split; [exact Lx|]. split; [exact HX|]. split; [reflexivity|]. split.
      * intros a. rewrite (ll_kind _ _ _ _ W), K. reflexivity.
      * intros _ f' Hf' i Hi. cbn [set_out knd] in Hf'. rewrite K in Hf'. injection Hf' as <-. exact tends_1.
Qed.

Lemma llim_set_out L l n k Y y : llim L l n k -> length y = k -> vtends Y y -> llim (fun a => set_out (L a) (Y a)) (set_out l y) n k.
Proof.
  intros [S SS K W B WG BG O] Ly HY. constructor; cbn [set_out knd wts bias wgrad bgrad out]; auto.
  - now apply lshape_set_out.
  - intros a. apply lshape_set_out; [apply SS|]. rewrite (proj1 HY). exact Ly.
Qed.

(** *** Backward *)
Definition run_or {A} (r : res A) (d : A) : A := match r with Ok x => x | _ => d end.

Lemma act_backward_lim f (O I G : arith -> list R) o i0 g n : length o = n -> length i0 = n -> length g = n ->
  (forall a, length (I a) = n) -> vtends O o -> vtends G g ->
  (forall i, (i < n)%nat -> tends (fun a => d1 (a_num a) f (nth i (O a) 0)) (d1 NumR f (nth i o 0))) ->
  exists J j, length j = n /\ vtends J j /\ @act_backward R NumR f o i0 g = Ok j /\
    forall a, @act_backward R (a_num a) f (O a) (I a) (G a) = Ok (J a).
Proof.
  intros Lo Li Lg LI HO HG HD.
  assert (LO : forall a, length (O a) = n) by (intros a; rewrite (proj1 HO); exact Lo).
  assert (LG : forall a, length (G a) = n) by (intros a; rewrite (proj1 HG); exact Lg).
  assert (PB : forall (NT : NumOps R) (h : R -> R) (o i g : list R), length o = n -> length i = n -> length g = n ->
    (i <- map_into h i o n ;; map2_inplace nmul i g n) = Ok (tab n (fun p => nmul (h (nth p o 0)) (nth p g 0)))).
  { intros NT h o' i' g' L1 L2 L3. rewrite (map_into_spec 0) by lia. cbn [bind]. rewrite skipn_all2, app_nil_r by lia.
    rewrite (map2_inplace_spec 0) by (rewrite ?tab_length; lia). rewrite skipn_all2, app_nil_r by (rewrite tab_length; lia).
    f_equal. apply tab_ext. intros p Hp. now rewrite nth_tab by exact Hp. }
  assert (PW : exists J j, length j = n /\ vtends J j /\
     (i <- map_into (d1 NumR f) i0 o n ;; map2_inplace (@nmul R NumR) i g n) = Ok j /\
     forall a, (i <- map_into (d1 (a_num a) f) (I a) (O a) n ;; map2_inplace (@nmul R (a_num a)) i (G a) n) = Ok (J a)).
  { exists (fun a => tab n (fun p => @nmul R (a_num a) (d1 (a_num a) f (nth p (O a) 0)) (nth p (G a) 0))).
    exists (tab n (fun p => d1 NumR f (nth p o 0) * nth p g 0)).
    split; [apply tab_length|]. split; [|split].
    - apply vtends_tab. intros p Hp. apply tends_nmul; [now apply HD|apply HG].
    - now rewrite PB.
    - intros a. now rewrite PB by auto. }
  unfold act_backward. rewrite Li.
  assert (X : forall P : arith -> Prop, (forall a, P a) <-> (forall a, length (I a) = n -> P a)) by (intros P; split; auto).
  destruct f as [|alpha| | | |].
  - destruct PW as (J & j & A & B & C & D). exists J, j. repeat split; auto; try apply B. intros a. rewrite LI. apply D.
  - destruct PW as (J & j & A & B & C & D). exists J, j. repeat split; auto; try apply B. intros a. rewrite LI. apply D.
  - exists (fun a => tab n (fun p => @nsum R (a_num a) n (fun q => @nmul R (a_num a) (@nmul R (a_num a) (nth p (O a) 0)
        (@nsub R (a_num a) (if (p =? q)%nat then 1 else 0) (nth q (O a) 0))) (nth q (G a) 0)))).
    exists (tab n (fun p => @nsum R NumR n (fun q => nth p o 0 * ((if (p =? q)%nat then 1 else 0) - nth q o 0) * nth q g 0))).
    split; [apply tab_length|]. split; [|split].
    + apply vtends_tab. intros p Hp.
      apply (tends_nsum (fun a q => @nmul R (a_num a) (@nmul R (a_num a) (nth p (O a) 0)
        (@nsub R (a_num a) (if (p =? q)%nat then 1 else 0) (nth q (O a) 0))) (nth q (G a) 0))
        (fun q => nth p o 0 * ((if (p =? q)%nat then 1 else 0) - nth q o 0) * nth q g 0)).
      intros q Hq. apply tends_nmul; [apply tends_nmul; [apply HO|]|apply HG].
      apply tends_nsub; [apply tends_const|apply HO].
    + rewrite (@softmax_1_opt_spec R NumR 0) by lia. rewrite skipn_all2, app_nil_r by lia. reflexivity.
    + intros a. rewrite LI. rewrite (@softmax_1_opt_spec R (a_num a) 0) by (rewrite ?LI, ?LO, ?LG; lia).
      rewrite skipn_all2, app_nil_r by (rewrite LI; lia). reflexivity.
  - destruct PW as (J & j & A & B & C & D). exists J, j. repeat split; auto; try apply B. intros a. rewrite LI. apply D.
  - destruct PW as (J & j & A & B & C & D). exists J, j. repeat split; auto; try apply B. intros a. rewrite LI. apply D.
  - destruct (map_lim (fun _ v => v) (fun v => v) G g n Lg HG) as (J & j & A & B & _ & _ & C & D); [auto|].
    exists J, j. split; [exact A|]. split; [exact B|]. split; [now apply C|]. intros a. rewrite LI. now apply D.
Qed.

Lemma layer_backward_lim L l n k X x G g : llim L l n k -> ready L l -> length x = n -> vtends X x -> length g = k -> vtends G g ->
  exists L' l', @layer_backward R NumR l x g = Ok l' /\
    (forall a, @layer_backward R (a_num a) (L a) (X a) (G a) = Ok (L' a)) /\
    llim L' l' n k /\ vtends (fun a => ig (L' a)) (ig l').
Proof.
  intros W HD Lx HX Lg HG.
  assert (LX : forall a, length (X a) = n) by (intros a; rewrite (proj1 HX); exact Lx).
  assert (LG : forall a, length (G a) = k) by (intros a; rewrite (proj1 HG); exact Lg).
  destruct (layer_backward_shape l n k x g (ll_shape _ _ _ _ W) Lx Lg) as (l' & E & P & S' & O').
  set (L' := fun a => run_or (@layer_backward R (a_num a) (L a) (X a) (G a)) (L a)).
  assert (EA : forall a, @layer_backward R (a_num a) (L a) (X a) (G a) = Ok (L' a) /\ same_params (L a) (L' a) /\
            lshape (L' a) n k /\ out (L' a) = out (L a)).
  { intros a. destruct (@layer_backward_shape R (a_num a) (L a) n k (X a) (G a) (ll_shapes _ _ _ _ W a) (LX a) (LG a))
      as (q & Q1 & Q2 & Q3 & Q4). unfold L'. rewrite Q1. cbn [run_or]. auto. }
  exists L', l'. split; [exact E|]. split; [intros a; apply EA|].
  cut (vtends (fun a => wgrad (L' a)) (wgrad l') /\ vtends (fun a => bgrad (L' a)) (bgrad l') /\ vtends (fun a => ig (L' a)) (ig l')).
  { intros (C1 & C2 & C3). split; [|exact C3]. destruct P as (P1 & P2 & P3 & P4). constructor; auto.
    - intros a. apply EA.
    - intros a. destruct (EA a) as (_ & (Q1 & _) & _). rewrite Q1, P1. apply (ll_kind _ _ _ _ W).
    - rewrite P3. eapply vtends_ext; [|apply (ll_w _ _ _ _ W)]. intros a. destruct (EA a) as (_ & (_ & _ & Q & _) & _). now rewrite Q.
    - rewrite P4. eapply vtends_ext; [|apply (ll_b _ _ _ _ W)]. intros a. destruct (EA a) as (_ & (_ & _ & _ & Q) & _). now rewrite Q.
    - rewrite O'. eapply vtends_ext; [|apply (ll_out _ _ _ _ W)]. intros a. destruct (EA a) as (_ & _ & _ & Q). now rewrite Q. }
  assert (EA1 : forall a, @layer_backward R (a_num a) (L a) (X a) (G a) = Ok (L' a)) by (intros a; apply EA). clear EA P S' O'.
  destruct (ll_shape _ _ _ _ W) as (S1 & S2 & S3 & S4).
  unfold layer_backward in E. destruct (knd l) as [|f] eqn:K.
  - destruct S4 as (A1 & A2 & A3 & A4). rewrite S1, Lg in E.
    destruct (@dense_1_spec R NumR 0 (ig l) (wgrad l) (bgrad l) g x (wts l) n k) as (i' & wg' & bg' & F & L1 & L2 & L3 & Q1 & Q2 & Q3 & Q4); try lia.
    rewrite F in E. cbn [bind] in E. injection E as <-. cbn [ig wgrad bgrad].
    assert (FA : forall a, length (wgrad (L' a)) = (k * n)%nat /\ length (bgrad (L' a)) = k /\ length (ig (L' a)) = n /\
      (forall p, (p < n)%nat -> nth p (ig (L' a)) 0 = @nsum R (a_num a) k (fun i => @nmul R (a_num a) (nth i (G a) 0) (nth (i * n + p) (wts (L a)) 0))) /\
      (forall i j, (i < k)%nat -> (j < n)%nat -> nth (i * n + j) (wgrad (L' a)) 0 =
         @nadd R (a_num a) (nth (i * n + j) (wgrad (L a)) 0) (@nmul R (a_num a) (nth i (G a) 0) (nth j (X a) 0))) /\
      (forall p, (p < k)%nat -> nth p (bgrad (L' a)) 0 = @nadd R (a_num a) (nth p (bgrad (L a)) 0) (nth p (G a) 0))).
    { intros a. specialize (EA1 a). destruct (ll_shapes _ _ _ _ W a) as (T1 & T2 & T3 & T4).
      unfold layer_backward in EA1. rewrite (ll_kind _ _ _ _ W), K in EA1, T4. destruct T4 as (B1 & B2 & B3 & B4).
      rewrite T1, LG in EA1.
      destruct (@dense_1_spec R (a_num a) 0 (ig (L a)) (wgrad (L a)) (bgrad (L a)) (G a) (X a) (wts (L a)) n k)
        as (i2 & wg2 & bg2 & F2 & M1 & M2 & M3 & R1 & R2 & R3 & R4); rewrite ?LX, ?LG; try lia.
      rewrite F2 in EA1. cbn [bind] in EA1. injection EA1 as EA1. rewrite <- EA1. cbn [ig wgrad bgrad].
      split; [congruence|]. split; [congruence|]. split; [congruence|]. split; [|split].
      - intros p Hp. rewrite R1. destruct (Nat.ltb_spec p n); [reflexivity|lia].
      - exact R2.
      - intros p Hp. rewrite R4. destruct (Nat.ltb_spec p k); [reflexivity|lia]. }
    split; [|split].
    + apply (vtends_intro _ _ (k * n)%nat); [congruence|intros a; apply FA|]. intros p Hp.
      assert (0 < n)%nat by nia.
      pose proof (Nat.div_mod p n ltac:(lia)) as DM. pose proof (Nat.mod_upper_bound p n ltac:(lia)) as MB.
      assert (p / n < k)%nat by (apply Nat.div_lt_upper_bound; lia).
      replace p with (p / n * n + p mod n)%nat by lia. rewrite Q2 by auto.
      apply (tends_ext (fun a => @nadd R (a_num a) (nth (p / n * n + p mod n) (wgrad (L a)) 0)
               (@nmul R (a_num a) (nth (p / n) (G a) 0) (nth (p mod n) (X a) 0)))).
      { intros a. symmetry. now apply FA. }
      apply tends_nadd; [apply (ll_wg _ _ _ _ W)|]. apply tends_nmul; [apply HG|apply HX].
    + apply (vtends_intro _ _ k); [congruence|intros a; apply FA|]. intros p Hp. rewrite Q4.
      destruct (Nat.ltb_spec p k); [|lia].
      apply (tends_ext (fun a => @nadd R (a_num a) (nth p (bgrad (L a)) 0) (nth p (G a) 0))).
      { intros a. symmetry. now apply FA. }
      apply tends_nadd; [apply (ll_bg _ _ _ _ W)|apply HG].
    + apply (vtends_intro _ _ n); [congruence|intros a; apply FA|]. intros p Hp. rewrite Q1.
      destruct (Nat.ltb_spec p n); [|lia].
      apply (tends_ext (fun a => @nsum R (a_num a) k (fun i => @nmul R (a_num a) (nth i (G a) 0) (nth (i * n + p) (wts (L a)) 0)))).
      { intros a. symmetry. now apply FA. }
      apply (tends_nsum (fun a i => @nmul R (a_num a) (nth i (G a) 0) (nth (i * n + p) (wts (L a)) 0)) (fun i => nth i g 0 * nth (i * n + p) (wts l) 0)).
      intros i Hi. apply tends_nmul; [apply HG|apply (ll_w _ _ _ _ W)].
  - destruct S4 as (-> & HS).
    destruct (act_backward_lim f (fun a => out (L a)) (fun a => ig (L a)) G (out l) (ig l) g n) as (J & j & Lj & HJ & EJ & EJA); auto.
    + intros a. apply (ll_shapes _ _ _ _ W a).
    + apply (ll_out _ _ _ _ W).
    + intros i Hi. apply (HD f K). lia.
    + rewrite EJ in E. cbn [bind] in E. injection E as <-. cbn [set_ig ig wgrad bgrad].
      assert (FA : forall a, L' a = set_ig (L a) (J a)).
      { intros a. specialize (EA1 a). unfold layer_backward in EA1. rewrite (ll_kind _ _ _ _ W), K, EJA in EA1. cbn [bind] in EA1. congruence. }
      split; [|split].
      * eapply vtends_ext; [|apply (ll_wg _ _ _ _ W)]. intros a. now rewrite FA.
      * eapply vtends_ext; [|apply (ll_bg _ _ _ _ W)]. intros a. now rewrite FA.
      * eapply vtends_ext; [|exact HJ]. intros a. now rewrite FA.
Qed.

(** *** Chains *)
Definition at_ (a : arith) (Ls : list (arith -> layer R)) : list (layer R) := map (fun L => L a) Ls.
Inductive clim : list (arith -> layer R) -> list (layer R) -> nat -> nat -> Prop :=
| clim_nil n : clim [] [] n n
| clim_cons L l Ls ls n j k : llim L l n j -> clim Ls ls j k -> clim (L :: Ls) (l :: ls) n k.

Lemma clim_shape Ls ls n k : clim Ls ls n k -> nshape ls n k /\ length Ls = length ls /\ forall a, nshape (at_ a Ls) n k.
Proof.
  induction 1 as [|L l Ls ls n j k W _ (IH1 & IH2 & IH3)].
  - split; [reflexivity|]. split; [reflexivity|]. intros a. reflexivity.
  - split; [exists j; split; [apply W|exact IH1]|]. split; [cbn; congruence|]. intros a. exists j. split; [apply W|apply IH3].
Qed.

Lemma chain_forward_lim Ls ls n k : clim Ls ls n k -> forall X x, length x = n -> vtends X x ->
  exists Ls' ls' Y y, @chain_forward R NumR TransR ls x = Ok (ls', y) /\
    (forall a, @chain_forward R (a_num a) (a_fun a) (at_ a Ls) (X a) = Ok (at_ a Ls', Y a)) /\
    clim Ls' ls' n k /\ length y = k /\ vtends Y y /\ Forall2 same_params ls ls' /\
    (chain_smooth ls x -> Forall2 ready Ls' ls').
Proof.
  induction 1 as [|L l Ls ls n j k W _ IH]; intros X x Lx HX.
  - exists [], [], X, x. cbn. split; [reflexivity|]. split; [reflexivity|]. split; [constructor|]. auto 10.
  - destruct (layer_forward_lim L l n j X x W Lx HX) as (Y1 & y1 & Ly1 & HY1 & E & EA & RD).
    destruct (IH Y1 y1 Ly1 HY1) as (Ls' & ls' & Y & y & F & FA & CL & Ly & HY & SP & RDS).
    exists ((fun a => set_out (L a) (Y1 a)) :: Ls'), (set_out l y1 :: ls'), Y, y.
    split; [cbn [chain_forward]; rewrite E; cbn [bind set_out out]; rewrite F; reflexivity|].
    split; [intros a; cbn [at_ map chain_forward]; rewrite EA; cbn [bind set_out out];
      fold (at_ a Ls); rewrite FA; reflexivity|].
    split; [econstructor; [apply llim_set_out; eauto|exact CL]|].
    split; [exact Ly|]. split; [exact HY|]. split; [constructor; [repeat split|exact SP]|].
    intros (H1 & H2). constructor; [now apply RD|]. apply RDS. exact (H2 _ E).
Qed.

Lemma chain_backward_lim Ls ls n k : clim Ls ls n k -> Forall2 ready Ls ls -> forall X x G g,
  length x = n -> vtends X x -> length g = k -> vtends G g ->
  exists Ls' ls' GX gx, @chain_backward R NumR ls x g = Ok (ls', gx) /\
    (forall a, @chain_backward R (a_num a) (at_ a Ls) (X a) (G a) = Ok (at_ a Ls', GX a)) /\
    clim Ls' ls' n k /\ length gx = n /\ vtends GX gx.
Proof.
  induction 1 as [|L l Ls ls n j k W _ IH]; intros RD X x G g Lx HX Lg HG.
  - exists [], [], G, g. cbn. split; [reflexivity|]. split; [reflexivity|]. split; [constructor|]. auto.
  - inversion RD as [|? ? ? ? R1 R2]; subst.
    destruct (IH R2 (fun a => out (L a)) (out l) G g) as (Ls' & ls' & G1 & g1 & E & EA & CL & Lg1 & HG1); auto.
    { apply (ll_shape _ _ _ _ W). } { apply (ll_out _ _ _ _ W). }
    destruct (layer_backward_lim L l (length x) j X x G1 g1 W R1 eq_refl HX Lg1 HG1) as (L' & l' & F & FA & W' & HI).
    exists (L' :: Ls'), (l' :: ls'), (fun a => ig (L' a)), (ig l').
    split; [cbn [chain_backward]; rewrite E; cbn [bind]; rewrite F; reflexivity|].
    split; [intros a; cbn [at_ map chain_backward]; fold (at_ a Ls); rewrite EA; cbn [bind]; rewrite FA; reflexivity|].
    split; [econstructor; eauto|]. split; [apply (ll_shape _ _ _ _ W')|exact HI].
Qed.

(** *** Losses *)
Section Runs.
Context {T : Type} `{NumOps T} `{TransOps T} `{LimOps T}.
Lemma argactive_runs (t : list T) : forall m i, (i + m <= length t)%nat ->
  (exists j, (i <= j < i + m)%nat /\ neqb (nth j t n0) n0 = false) -> exists r, argactive t i m = Ok r.
Proof.
  induction m as [|m IH]; intros i Hl (j & Hj & Ej); [lia|]. cbn [argactive].
  rewrite (rd_nth t i n0) by lia. cbn [bind]. destruct (neqb (nth i t n0) n0) eqn:E; cbn [negb]; [|eauto].
  apply IH; [lia|]. exists j. split; [|exact Ej]. destruct (Nat.eq_dec i j) as [->|]; [congruence|lia].
Qed.
Lemma loss_forward_runs kd (lo : lossl T) t y k : strict_weak -> ls_in lo = k -> length t = k -> length y = k -> (0 < k)%nat ->
  (kd = CCE -> exists i, (i < k)%nat /\ neqb (nth i t n0) n0 = false) ->
  exists lo1, loss_forward kd (set_target lo t) y = (lo1, Ok tt) /\ ls_in lo1 = k /\ ls_inv lo1 = ls_inv lo /\
    ls_grad lo1 = ls_grad lo /\ ls_target lo1 = t.
Proof.
  intros SW Hin Lt Ly Hk Hc. destruct kd as [|tol]; cbn [loss_forward].
  - unfold cce_forward. cbn [set_target ls_target ls_in].
    destruct t as [|t0 t']; [cbn in Lt; lia|]. set (t := t0 :: t') in *. clearbody t.
    rewrite (cross_entropy_spec n0) by lia.
    destruct (max_spec n0 y (length y) SW) as (m & _ & _ & Em & _); [lia|lia|]. rewrite Em.
    cbn [LossModel.add_loss set_target ls_target ls_in].
    destruct (Hc eq_refl) as (i & Hi & Ei).
    destruct (argactive_runs t (ls_in lo) 0) as (r & Er); [lia|exists i; split; [lia|exact Ei]|].
    rewrite Er. eexists. split; [reflexivity|]. cbn. auto.
  - unfold mse_forward. cbn [set_target ls_target].
    destruct t as [|t0 t']; [cbn in Lt; lia|]. set (t := t0 :: t') in *. clearbody t.
    rewrite (mean_squared_error_spec n0) by lia. eexists. split; [reflexivity|]. cbn. auto.
Qed.
End Runs.

Lemma nmin_pos : 0 < @nmin R LimR.
Proof. cbn [nmin LimR]. apply Rinv_0_lt_compat. apply pow_lt. lra. Qed.
Lemma loss_backward_lim kd (Lo : arith -> lossl R) lo Y y t k : (forall a, ls_target (Lo a) = t) -> ls_target lo = t ->
  length t = k -> length y = k -> vtends Y y -> length (ls_grad lo) = k -> (forall a, length (ls_grad (Lo a)) = k) ->
  tends (fun a => ls_inv (Lo a)) (ls_inv lo) ->
  exists G g, length g = k /\ vtends G g /\ @loss_backward R NumR LimR kd lo y = Ok g /\
    forall a, @loss_backward R (a_num a) LimR kd (Lo a) (Y a) = Ok (G a).
Proof.
  intros TA Te Lt Ly HY Lg LG HI.
  assert (LY : forall a, length (Y a) = k) by (intros a; rewrite (proj1 HY); exact Ly).
  destruct kd as [|tol]; cbn [loss_backward].
  - exists (fun a => tab k (fun i => @cross_entropy_1 R (a_num a) LimR (ls_inv (Lo a)) (nth i t 0) (nth i (Y a) 0))).
    exists (tab k (fun i => @cross_entropy_1 R NumR LimR (ls_inv lo) (nth i t 0) (nth i y 0))).
    split; [apply tab_length|]. split; [|split].
    + apply vtends_tab. intros i Hi. unfold cross_entropy_1. apply tends_nmul; [exact HI|]. apply tends_ndiv.
      * apply Rgt_not_eq. unfold nmax. cbn [nltb NumR]. pose proof nmin_pos.
        destruct (Rltb (nth i y 0) nmin) eqn:E; [lra|]. apply Rltb_false in E. lra.
      * exact (tends_const (- nth i t 0)).
      * apply tends_nmax; [apply HY|apply tends_const].
    + unfold cce_backward, cross_entropy_1_arr. rewrite Lg, Te, (map2_into_spec 0) by lia. rewrite skipn_all2, app_nil_r by lia. reflexivity.
    + intros a. unfold cce_backward, cross_entropy_1_arr. rewrite LG, TA, (map2_into_spec 0) by (rewrite ?LG, ?LY; lia).
      rewrite skipn_all2, app_nil_r by (rewrite LG; lia). reflexivity.
  - exists (fun a => tab k (fun i => @squared_error_1 R (a_num a) (ls_inv (Lo a)) (nth i t 0) (nth i (Y a) 0))).
    exists (tab k (fun i => @squared_error_1 R NumR (ls_inv lo) (nth i t 0) (nth i y 0))).
    split; [apply tab_length|]. split; [|split].
    + apply vtends_tab. intros i Hi. unfold squared_error_1. apply tends_nmul.
      * apply tends_nmul; [|exact HI]. apply tends_opp. apply (tends_nofZ 2).
      * apply tends_nsub; [apply tends_const|apply HY].
    + unfold mse_backward, mean_squared_error_1. rewrite Lg, Te, (map2_into_spec 0) by lia. rewrite skipn_all2, app_nil_r by lia. reflexivity.
    + intros a. unfold mse_backward, mean_squared_error_1. rewrite LG, TA, (map2_into_spec 0) by (rewrite ?LG, ?LY; lia).
      rewrite skipn_all2, app_nil_r by (rewrite LG; lia). reflexivity.
Qed.

(** *** Models *)
Record mlim (kd : losskind R) (n k : nat) (M : arith -> model (node R)) (m : model (node R)) (Ls : list (arith -> layer R)) (ls : list (layer R)) : Prop := {
  ml_chain : clim Ls ls n k;
  ml_net : exists lo Lo, network m ls kd lo n k /\ (forall a, network (M a) (at_ a Ls) kd (Lo a) n k) /\
    ls_in lo = k /\ (forall a, ls_in (Lo a) = k) /\ tends (fun a => ls_inv (Lo a)) (ls_inv lo)
}.
(** A row the loss accepts. *)
Definition row_fits (kd : losskind R) (n k : nat) (xt : list R * list R) : Prop :=
  length (fst xt) = n /\ length (snd xt) = k /\ (kd = CCE -> exists i, (i < k)%nat /\ nth i (snd xt) 0 <> 0).

Definition predictF (a : arith) (draw : nat -> R) := m_predict (@node_ops R (a_num a) (a_fun a) LimR draw).
Definition stepF (a : arith) (draw : nat -> R) := m_step (@node_ops R (a_num a) (a_fun a) LimR draw).
Definition trainF (a : arith) := @m_train R (a_num a).
Definition resetF (a : arith) := @m_reset_score R (a_num a).

Lemma predict_lim draw kd n k M m Ls ls x : mlim kd n k M m Ls ls -> length x = n ->
  exists y m' Y M', m_predict (node_ops draw) m x = Ok (m', y) /\ (forall a, predictF a draw (M a) x = Ok (M' a, Y a)) /\
    length y = k /\ vtends Y y.
Proof.
  intros [C (lo & Lo & W & WA & _)] Lx. destruct (clim_shape _ _ _ _ C) as (_ & LL & _).
  destruct (chain_forward_lim Ls ls n k C (fun _ => x) x Lx (vtends_const x)) as (Ls' & ls' & Y & y & E & EA & _ & Ly & HY & _).
  destruct (predict_network draw true (length ls) m ls [NO kd lo] x ls' y (nw_graph _ _ _ _ _ _ W) (nw_some _ _ _ _ _ _ W)
              (network_length _ _ _ _ _ _ W) (nw_nodes _ _ _ _ _ _ W) eq_refl E) as (m' & P & _).
  exists y, m', Y, (fun a => fst (run_or (predictF a draw (M a) x) (m, []))).
  split; [exact P|]. split; [|auto]. intros a.
  destruct (@predict_network R (a_num a) (a_fun a) LimR draw true (length (at_ a Ls)) (M a) (at_ a Ls) [NO kd (Lo a)] x (at_ a Ls') (Y a)
     (nw_graph _ _ _ _ _ _ (WA a)) (nw_some _ _ _ _ _ _ (WA a)) (network_length _ _ _ _ _ _ (WA a)) (nw_nodes _ _ _ _ _ _ (WA a)) eq_refl (EA a)) as (q & Q & _).
  unfold predictF in *. rewrite Q. reflexivity.
Qed.

Lemma Reqb_false_iff x y : x <> y -> Reqb x y = false.
Proof. intros Hn. unfold Reqb. destruct (Req_EM_T x y); [contradiction|reflexivity]. Qed.

Lemma step_net kd n k (m : model (node R)) ls lo ls' lo' : network m ls kd lo n k -> length ls' = length ls -> nshape ls' n k ->
  length (ls_grad lo') = k -> network (mkModel (mgraph m) (place 0 (map NL ls' ++ [NO kd lo']))) ls' kd lo' n k.
Proof.
  intros W LL S' G. constructor; cbn [mgraph mnodes]; rewrite ?LL; try apply W; auto. apply place_fst.
Qed.

Lemma step_lim draw kd n k M m Ls ls x t : (0 < k)%nat -> mlim kd n k M m Ls ls -> row_fits kd n k (x, t) -> chain_smooth ls x ->
  exists M' m' Ls' ls', m_step (node_ops draw) m x t = Ok m' /\ (forall a, stepF a draw (M a) x t = Ok (M' a)) /\
    mlim kd n k M' m' Ls' ls' /\ Forall2 same_params ls ls'.
Proof.
  intros Hk [C (lo & Lo & W & WA & Hin & HinA & HI)] (Lx & Lt & HC) SM. cbn [fst snd] in *.
  destruct (clim_shape _ _ _ _ C) as (NS & LL & NSA).
  destruct (chain_forward_lim Ls ls n k C (fun _ => x) x Lx (vtends_const x)) as (Ls1 & ls1 & Y & y & E & EA & C1 & Ly & HY & SP & RD).
  specialize (RD SM).
  assert (LY : forall a, length (Y a) = k) by (intros a; rewrite (proj1 HY); exact Ly).
  destruct (@loss_forward_runs R NumR TransR LimR kd lo t y k strict_weak_R Hin Lt Ly Hk) as (lo1 & F & F1 & F2 & F3 & F4).
  { intros K. destruct (HC K) as (i & Hi & Ei). exists i. split; [exact Hi|]. now apply Reqb_false_iff. }
  set (Lo1 := fun a => fst (@loss_forward R (a_num a) (a_fun a) LimR kd (set_target (Lo a) t) (Y a))).
  assert (FA : forall a, @loss_forward R (a_num a) (a_fun a) LimR kd (set_target (Lo a) t) (Y a) = (Lo1 a, Ok tt) /\
     ls_in (Lo1 a) = k /\ ls_inv (Lo1 a) = ls_inv (Lo a) /\ ls_grad (Lo1 a) = ls_grad (Lo a) /\ ls_target (Lo1 a) = t).
  { intros a. destruct (@loss_forward_runs R (a_num a) (a_fun a) LimR kd (Lo a) t (Y a) k (strict_weak_a a) (HinA a) Lt (LY a) Hk) as (q & Q & Q').
    { intros K. destruct (HC K) as (i & Hi & Ei). exists i. split; [exact Hi|]. now apply Reqb_false_iff. }
    unfold Lo1. rewrite Q. auto. }
  destruct (loss_backward_lim kd Lo1 lo1 Y y t k) as (G & g & Lg & HG & B & BA); auto.
  { intros a. apply FA. } { rewrite F3. apply W. } { intros a. destruct (FA a) as (_ & _ & _ & -> & _). apply WA. }
  { rewrite F2. eapply tends_ext; [|exact HI]. intros a. destruct (FA a) as (_ & _ & -> & _). reflexivity. }
  destruct (chain_backward_lim Ls1 ls1 n k C1 RD (fun _ => x) x G g Lx (vtends_const x) Lg HG) as (Ls2 & ls2 & GX & gx & D & DA & C2 & Lgx & _).
  destruct (clim_shape _ _ _ _ C1) as (NS1 & LL1 & NSA1). destruct (clim_shape _ _ _ _ C2) as (NS2 & LL2 & NSA2).
  destruct (@chain_backward_shape R NumR ls1 n k x g NS1 Lx Lg) as (b & gb & DB & _ & SP2 & _).
  rewrite D in DB. injection DB as <- <-.
  pose proof (all_same_trans _ _ _ SP SP2) as SP3.
  assert (LL3 : length ls2 = length ls) by (clear - SP3; induction SP3; cbn; congruence).
  exists (fun a => mkModel (mgraph (M a)) (place 0 (map NL (at_ a Ls2) ++ [NO kd (set_grad (Lo1 a) (G a))]))).
  exists (mkModel (mgraph m) (place 0 (map NL ls2 ++ [NO kd (set_grad lo1 g)]))), Ls2, ls2.
  split; [|split; [|split]].
  - rewrite (c36_step _ _ _ _ draw m ls kd lo n k x t W), E. cbn [bind]. rewrite F. cbn [bind]. rewrite B. cbn [bind]. rewrite D. reflexivity.
  - intros a. unfold stepF. rewrite (c36_step _ (a_num a) (a_fun a) LimR draw (M a) (at_ a Ls) kd (Lo a) n k x t (WA a)), EA. cbn [bind].
    rewrite (proj1 (FA a)). cbn [bind]. rewrite BA. cbn [bind]. rewrite DA. reflexivity.
  - constructor; [exact C2|]. exists (set_grad lo1 g), (fun a => set_grad (Lo1 a) (G a)).
    split; [apply (step_net kd n k m ls lo); auto|]. split; [|split; [|split]].
    + intros a. apply (step_net kd n k (M a) (at_ a Ls) (Lo a)); auto.
      * unfold at_. rewrite !map_length. congruence.
      * cbn [set_grad ls_grad]. rewrite (proj1 HG). exact Lg.
    + exact F1.
    + intros a. cbn [set_grad ls_in]. apply FA.
    + cbn [set_grad ls_inv]. rewrite F2. eapply tends_ext; [|exact HI]. intros a. destruct (FA a) as (_ & _ & -> & _). reflexivity.
  - exact SP3.
Qed.

(** *** Training *)
Lemma trained_lim eta L l n k : llim L l n k -> llim (fun a => @trained R (a_num a) eta (L a)) (@trained R NumR eta l) n k.
Proof.
  intros W.
  assert (MV : forall (P G : arith -> list R) p g, vtends P p -> vtends G g ->
    vtends (fun a => @moved R (a_num a) eta (P a) (G a)) (@moved R NumR eta p g)).
  { intros P G p g HP HG. unfold moved.
    apply (vtends_ext (fun a => tab (length p) (fun i => @nsub R (a_num a) (nth i (P a) 0) (@nmul R (a_num a) eta (nth i (G a) 0))))).
    - intros a. now rewrite (proj1 HP).
    - apply vtends_tab. intros i Hi. apply tends_nsub; [apply HP|]. apply tends_nmul; [apply tends_const|apply HG]. }
  assert (ZR : forall (G : arith -> list R) g, vtends G g ->
    vtends (fun a => repeat (@n0 R (a_num a)) (length (G a))) (repeat (@n0 R NumR) (length g))).
  { intros G g HG. apply (vtends_ext (fun _ => repeat 0 (length g))).
    - intros a. rewrite (proj1 HG). reflexivity.
    - apply vtends_const. }
  constructor.
  - apply trained_shape, W.
  - intros a. apply (@trained_shape R (a_num a)), W.
  - intros a. unfold trained. rewrite (ll_kind _ _ _ _ W). destruct (knd l) eqn:K; cbn [knd]; [reflexivity|]. now rewrite (ll_kind _ _ _ _ W).
  - apply (vtends_ext (fun a => wts (match knd l with KDense => mkLayer KDense (insz (L a)) (@moved R (a_num a) eta (wts (L a)) (wgrad (L a))) [] [] [] [] [] | KAct _ => L a end))).
    + intros a. unfold trained. rewrite (ll_kind _ _ _ _ W). destruct (knd l); reflexivity.
    + unfold trained. destruct (knd l); cbn [wts]; [apply MV; apply W|apply W].
  - apply (vtends_ext (fun a => wts (match knd l with KDense => mkLayer KDense (insz (L a)) (@moved R (a_num a) eta (bias (L a)) (bgrad (L a))) [] [] [] [] [] | KAct _ => mkLayer KDense 0 (bias (L a)) [] [] [] [] [] end))).
    + intros a. unfold trained. rewrite (ll_kind _ _ _ _ W). destruct (knd l); reflexivity.
    + unfold trained. destruct (knd l); cbn [wts bias]; [apply MV; apply W|apply W].
  - apply (vtends_ext (fun a => match knd l with KDense => repeat (@n0 R (a_num a)) (length (wgrad (L a))) | KAct _ => wgrad (L a) end)).
    + intros a. unfold trained. rewrite (ll_kind _ _ _ _ W). destruct (knd l); reflexivity.
    + unfold trained. destruct (knd l); cbn [wgrad]; [apply (ZR (fun a => wgrad (L a))); apply W|apply W].
  - apply (vtends_ext (fun a => match knd l with KDense => repeat (@n0 R (a_num a)) (length (bgrad (L a))) | KAct _ => bgrad (L a) end)).
    + intros a. unfold trained. rewrite (ll_kind _ _ _ _ W). destruct (knd l); reflexivity.
    + unfold trained. destruct (knd l); cbn [bgrad]; [apply (ZR (fun a => bgrad (L a))); apply W|apply W].
  - apply (vtends_ext (fun a => out (L a))).
    + intros a. unfold trained. destruct (knd (L a)); reflexivity.
    + unfold trained. destruct (knd l); cbn [out]; apply W.
Qed.
Lemma ctrained_lim eta Ls ls n k : clim Ls ls n k ->
  clim (map (fun L a => @trained R (a_num a) eta (L a)) Ls) (map (@trained R NumR eta) ls) n k.
Proof. induction 1; cbn [map]; [constructor|]. econstructor; [eapply trained_lim; eassumption|eassumption]. Qed.

Lemma train_lim eta kd n k M m Ls ls : mlim kd n k M m Ls ls ->
  exists M' m', m_train eta m = Ok m' /\ (forall a, trainF a eta (M a) = Ok (M' a)) /\
    mlim kd n k M' m' (map (fun L a => @trained R (a_num a) eta (L a)) Ls) (map (@trained R NumR eta) ls).
Proof.
  intros [C (lo & Lo & W & WA & HR)].
  destruct (network_train eta m ls kd lo n k W) as (m' & E & _ & W').
  exists (fun a => run_or (trainF a eta (M a)) m), m'.
  assert (EA : forall a, exists q, trainF a eta (M a) = Ok q /\ network q (map (@trained R (a_num a) eta) (at_ a Ls)) kd (Lo a) n k).
  { intros a. destruct (@network_train R (a_num a) eta (M a) (at_ a Ls) kd (Lo a) n k (WA a)) as (q & Q & _ & Q'). eauto. }
  split; [exact E|]. split.
  - intros a. destruct (EA a) as (q & -> & _). reflexivity.
  - constructor; [now apply ctrained_lim|]. exists lo, Lo. split; [exact W'|]. split; [|exact HR].
    intros a. destruct (EA a) as (q & -> & Q). cbn [run_or]. unfold at_ in *. rewrite map_map in *. exact Q.
Qed.
