(** C89: doubles with infinities and NaN: activations, losses and their gradients. *)
From Coq Require Import Reals Lra Lia.
From Verif Require Import Base Num MathModel MathProofs DumpModel LayerModel LossModel RoundProofs FloatModel FloatProofs FloatIeee.
Local Open Scope R_scope.

Notation softmaxD a := (@stable_softmax dbl (NumD a) (TransD a)).
(** *** Largest element without NaN *)
Definition number (x : dbl) : Prop := ~ isnan x.
Lemma number_inv x : number x -> (exists s m, x = DFin s m) \/ exists s, x = DInf s.
Proof. intros N. destruct x as [s m|s|s]; [eauto|eauto|]. exfalso. apply N. now exists s. Qed.
Ltac cmp := repeat match goal with
  | H : Rltb _ _ = true |- _ => apply Rltb_true in H
  | H : Rltb _ _ = false |- _ => apply Rltb_false in H
  | |- Rltb _ _ = true => apply Rltb_true
  | |- Rltb _ _ = false => apply Rltb_false
  end.
Lemma dltb_irr x : dltb x x = false.
Proof. destruct x as [s m|s|s]; cbn; [apply Rltb_false; lra|now destruct s|reflexivity]. Qed.
Lemma dltb_trans x y z : dltb x y = true -> dltb y z = true -> dltb x z = true.
Proof. destruct x as [[] m|[]|s], y as [[] k|[]|t], z as [[] q|[]|u]; cbn; try discriminate; try reflexivity; intros; cmp; lra. Qed.
Lemma dltb_neg x y z : number x -> number y -> number z -> dltb y x = false -> dltb z y = false -> dltb z x = false.
Proof.
  intros Nx Ny Nz. destruct x as [[] m|[]|s], y as [[] k|[]|t], z as [[] q|[]|u]; cbn; try discriminate; try reflexivity; intros; cmp; try lra;
    exfalso; (apply Nx; eexists; reflexivity) || (apply Ny; eexists; reflexivity) || (apply Nz; eexists; reflexivity).
Qed.
Section Max.
  Variable a : fpu.
  Variable d : dbl.
  Lemma max_any (src : list dbl) n : (0 < n)%nat -> (n <= length src)%nat ->
    exists m, (m < n)%nat /\ @max_element dbl (NumD a) src n = Ok m /\ @max_ dbl (NumD a) src n = Ok (nth m src d) /\
      @max_and_argmax dbl (NumD a) src n = Ok (nth m src d, m).
  Proof.
    intros Hn Hs. assert (X : exists m, (m < n)%nat /\ @max_element dbl (NumD a) src n = Ok m).
    { unfold max_element. destruct (Nat.eqb_spec n 0); [lia|].
      match goal with |- context [for_from 1 (n - 1) ?b ?s] => destruct (for_from_inv (fun k m => (m < k)%nat) 1 (n - 1) b s) as (m & E & Hm) end.
      - lia.
      - intros k m Hk Hm. rewrite (rd_nth src m d), (rd_nth src k d) by lia. cbn [bind]. eexists. split; [reflexivity|]. destruct (nltb _ _); lia.
      - exists m. split; [lia|exact E]. }
    destruct X as (m & Hm & E). exists m. split; [exact Hm|]. split; [exact E|]. unfold max_, max_and_argmax. rewrite E. cbn [bind].
    unfold require. rewrite (proj2 (Nat.ltb_lt _ _) Hm). cbn [bind]. rewrite (rd_nth src m d) by lia. now split.
  Qed.
  Lemma max_numbers (src : list dbl) n : (0 < n)%nat -> (n <= length src)%nat -> (forall i, (i < n)%nat -> number (nth i src d)) ->
    exists m, (m < n)%nat /\ @max_ dbl (NumD a) src n = Ok (nth m src d) /\ forall i, (i < n)%nat -> dltb (nth m src d) (nth i src d) = false.
  Proof.
    intros Hn Hs N. destruct (max_any src n Hn Hs) as (m & Hm & E & E2 & _). exists m. split; [exact Hm|]. split; [exact E2|]. clear E2.
    unfold max_element in E. destruct (Nat.eqb_spec n 0); [lia|]. revert E.
    match goal with |- for_from 1 (n - 1) ?b ?s = _ -> _ => destruct (for_from_inv (fun k m => (m < k)%nat /\ forall i, (i < k)%nat -> dltb (nth m src d) (nth i src d) = false) 1 (n - 1) b s) as (m' & E & Hm' & X) end.
    - split; [lia|]. intros i Hi. assert (i = 0)%nat by lia. subst i. apply dltb_irr.
    - intros k p Hk (Hp & I). rewrite (rd_nth src p d), (rd_nth src k d) by lia. cbn [bind]. eexists. split; [reflexivity|].
      change (@nltb dbl (NumD a)) with dltb. destruct (dltb (nth p src d) (nth k src d)) eqn:E; (split; [lia|]); intros i Hi.
      + destruct (Nat.eq_dec i k) as [->|]; [apply dltb_irr|]. destruct (dltb (nth k src d) (nth i src d)) eqn:E2; [|reflexivity].
        pose proof (dltb_trans _ _ _ E E2) as E3. rewrite I in E3 by lia. discriminate.
      + destruct (Nat.eq_dec i k) as [->|]; [exact E|]. apply I. lia.
    - rewrite E. intros [= <-]. intros i Hi. apply X. lia.
  Qed.
End Max.

Lemma classic_nan (src : list dbl) : (exists x, In x src /\ isnan x) \/ (forall x, In x src -> number x).
Proof.
  induction src as [|x src [(y & I & N)|H]]; [right; intros x []|left; exists y; split; [now right|exact N]|].
  destruct x as [s m|s|s]; [| |left; exists (DNan s); split; [now left|now exists s]]; right; intros y [<-|I]; try (now apply H); intros (t & E); discriminate.
Qed.
(** *** Softmax *)
Definition no_softmax (src : list dbl) : Prop :=
  (exists x, In x src /\ (isnan x \/ x = DInf false)) \/ (forall x, In x src -> x = DInf true).
Lemma sub_exp_nan a x y : isnan (dsub a x y) -> isnan (dexp a (dsub a x y)).
Proof. intros (s & ->). now exists false. Qed.
Lemma tab_forall {A} (P : A -> Prop) n f : (forall i, (i < n)%nat -> P (f i)) -> Forall P (tab n f).
Proof. intros H. unfold tab. apply Forall_forall. intros x I. apply in_map_iff in I as (i & <- & I). apply in_seq in I. apply H. lia. Qed.
Lemma softmax_form a dst src n d : (0 < n)%nat -> length dst = n -> length src = n -> (exists m, (m < n)%nat /\ @max_ dbl (NumD a) src n = Ok (nth m src d)) ->
  exists m, (m < n)%nat /\ @max_ dbl (NumD a) src n = Ok (nth m src d) /\
    let e i := dexp a (dsub a (nth i src d) (nth m src d)) in
    softmaxD a dst src n = Ok (tab n (fun i => dmul a (e i) (ddiv a (DFin false 1) (@nsum_from dbl (NumD a) (DFin false 0) n e)))).
Proof.
  intros Hn Ld Ls (m & Hm & E). exists m. split; [exact Hm|]. split; [exact E|]. unfold stable_softmax. rewrite E. cbn [bind].
  rewrite (@softmax_with_spec dbl (NumD a) d) by lia. rewrite skipn_all2, app_nil_r by lia. reflexivity.
Qed.
(** Sums of numbers of [0, 1], one of which is 1 *)
Lemma sum_ge_1 a (IE : ieee a) n : forall f, (Z.of_nat n <= 2 ^ 53)%Z -> (forall i, (i < n)%nat -> within a 0 1 (f i)) ->
  (exists i, (i < n)%nat /\ f i = DFin false 1) -> within a 1 (IZR (Z.of_nat n)) (@nsum_from dbl (NumD a) (DFin false 0) n f).
Proof.
  induction n as [|n IH]; intros f B W (i & Hi & E); [lia|].
  assert (B' : (Z.of_nat n * Z.max (- 0) 1 <= 2 ^ 53)%Z) by lia.
  assert (W' : forall j, (j < n)%nat -> within a (IZR 0) (IZR 1) (f j)) by (intros j Hj; apply W; lia).
  pose proof (sum_within a IE 0 1 n f ltac:(lia) ltac:(lia) B' W') as (F1 & V1). rewrite Z.mul_0_r, Z.mul_1_r in V1.
  rewrite nsum_from_S. change (within a 1 (IZR (Z.of_nat (S n))) (dadd a (@nsum_from dbl (NumD a) (DFin false 0) n f) (f n))).
  destruct (W n ltac:(lia)) as (F2 & V2). destruct (add_fin a _ _ F1 F2) as (s & ->).
  assert (A : (Z.abs (Z.of_nat (S n)) <= 2 ^ 53)%Z) by lia. pose proof (big_Z a IE _ A) as BZ. pose proof (big_1 a IE) as B1.
  apply (round_within a IE).
  - rewrite Nat2Z.inj_succ. unfold Z.succ. rewrite plus_IZR. split; [|lra].
    destruct (Nat.eq_dec i n) as [->|Ne]; [rewrite E; cbn; lra|].
    destruct (IH f ltac:(lia) (fun j Hj => W j ltac:(lia)) ltac:(exists i; split; [lia|exact E])) as (_ & V3). lra.
  - apply (fl_1 a IE).
  - now apply (ie_int a IE).
  - lra.
  - split_Rabs; lra.
Qed.

Theorem c89_softmax : forall a dst src n d, ieee a -> (0 < n)%nat -> (Z.of_nat n <= 2 ^ 53)%Z -> length dst = n -> length src = n -> Forall (isd a) src ->
  (no_softmax src -> exists out, softmaxD a dst src n = Ok out /\ length out = n /\ Forall isnan out) /\
  (~ no_softmax src -> exists out top, softmaxD a dst src n = Ok out /\ length out = n /\ Forall (within a 0 1) out /\
     fl a (/ INR n) <= top <= 1 /\
     (forall i, (i < n)%nat -> dval (nth i out d) <= top) /\
     (forall i, (i < n)%nat -> (forall j, (j < n)%nat -> dltb (nth i src d) (nth j src d) = false) -> dval (nth i out d) = top)).
Proof.
  intros a dst src n d IE Hn Bn Ld Ls Is.
  assert (All : forall s0, isnan s0 -> forall m, isnan (@nsum_from dbl (NumD a) (DFin false 0) n (fun i => dexp a (dsub a (nth i src d) m))) ->
    Forall isnan (tab n (fun i => dmul a (dexp a (dsub a (nth i src d) m)) (ddiv a (DFin false 1) (@nsum_from dbl (NumD a) (DFin false 0) n (fun i => dexp a (dsub a (nth i src d) m))))))).
  { intros _ _ m Hs. apply tab_forall. intros i Hi. apply nan_mul. right. apply nan_div. now right. }
  specialize (All dnan ltac:(now exists false)).
  destruct (classic_nan src) as [(x & Ix & Nx)|NN].
  - split; [|intros N; exfalso; apply N; left; eauto]. intros _.
    destruct (max_any a d src n Hn ltac:(lia)) as (m0 & Hm0 & _ & E0 & _).
    destruct (softmax_form a dst src n d Hn Ld Ls ltac:(eauto)) as (m & Hm & Em & E). eexists. split; [exact E|]. split; [apply tab_length|]. apply All.
    apply sum_nan. right. destruct (In_nth _ _ d Ix) as (i & Hi & Ei). exists i. split; [lia|]. apply sub_exp_nan. apply nan_sub. left. now rewrite Ei.
  - assert (NN' : forall i, (i < n)%nat -> number (nth i src d)) by (intros i Hi; apply NN, nth_In; lia).
    destruct (max_numbers a d src n Hn ltac:(lia) NN') as (m & Hm & Em & Mx).
    destruct (softmax_form a dst src n d Hn Ld Ls ltac:(eauto)) as (m' & Hm' & Em' & E). rewrite Em in Em'. injection Em' as Em'. cbv zeta in E. rewrite <- Em' in E.
    assert (Dm : number (nth m src d)) by auto. destruct (number_inv _ Dm) as [(sm & vm & EM)|(sm & EM)].
    + (* the largest number is finite *)
      assert (NB : ~ no_softmax src).
      { intros [(x & Ix & [Nx| ->])|Al]; [now apply (NN x)| |].
        - destruct (In_nth _ _ d Ix) as (i & Hi & Ei). specialize (Mx i ltac:(lia)). rewrite Ei, EM in Mx. discriminate.
        - specialize (Al (nth m src d) ltac:(apply nth_In; lia)). congruence. }
      split; [contradiction|]. intros _.
      assert (FM : fin a (DFin sm vm)). { split; [|eauto]. rewrite <- EM. rewrite Forall_forall in Is. apply Is, nth_In. lia. }
      set (e := fun i => dexp a (dsub a (nth i src d) (nth m src d))) in *.
      assert (We : forall i, (i < n)%nat -> within a 0 1 (e i)).
      { intros i Hi. unfold e. rewrite EM. specialize (Mx i Hi). rewrite EM in Mx. pose proof (big_1 a IE) as B1.
        assert (Z0 : within a 0 1 (dexp a (DInf true))) by (split; [apply (fin_0 a IE)|cbn; lra]).
        assert (Zx : forall x, fin a x -> dval x <= 0 -> within a 0 1 (dexp a x)).
        { intros x (_ & s & k & ->) Hx. cbn [dexp]. apply (round_within a IE); [apply (ie_exp_neg a IE), Hx|apply (fl_0 a IE)|apply (fl_1 a IE)|lra|lra]. }
        assert (Di : isd a (nth i src d)) by (rewrite Forall_forall in Is; apply Is, nth_In; lia).
        destruct (number_inv _ (NN' i Hi)) as [(s & k & Ei)|(s & Ei)]; rewrite Ei in *.
        - assert (Fi : fin a (DFin s k)) by (split; [exact Di|eauto]). destruct (sub_fin a _ _ Fi FM) as (t & ->).
          cbn [dltb] in Mx. apply Rltb_false in Mx.
          unfold dround. destruct (Rltb (big a) (Rabs (fl a (dval (DFin s k) - dval (DFin sm vm))))) eqn:Eo.
          + destruct (Rltb _ 0) eqn:Es; [exact Z0|]. exfalso. apply Rltb_false in Es. assert (Ez : dval (DFin s k) - dval (DFin sm vm) = 0) by lra.
            rewrite Ez, (fl_0 a IE), Rabs_R0 in Eo. apply Rltb_true in Eo. lra.
          + apply Rltb_false in Eo. destruct (round_small a IE t _ Eo) as (Fr & Vr). unfold dround in Fr, Vr. rewrite (proj2 (Rltb_false _ _) Eo) in Fr, Vr.
            apply Zx; [exact Fr|]. rewrite Vr. apply (fl_neg a IE). lra.
        - destruct s; [exact Z0|discriminate]. }
      assert (Top : forall i, (i < n)%nat -> dval (nth i src d) = dval (DFin sm vm) -> (exists s k, nth i src d = DFin s k) -> e i = DFin false 1).
      { intros i Hi Ev (s & k & Ei). unfold e. rewrite EM.
        assert (Fi : fin a (nth i src d)) by (split; [rewrite Forall_forall in Is; apply Is, nth_In; lia|eauto]).
        destruct (sub_fin a _ _ Fi FM) as (t & ->). rewrite Ev. replace (dval (DFin sm vm) - dval (DFin sm vm)) with 0 by lra.
        destruct (round_0 a IE t 0 (fl_0 a IE)) as (t' & ->). cbn [dexp dval]. replace (if t' then - 0 else 0) with 0 by (destruct t'; lra).
        rewrite (ie_exp0 a IE). rewrite (round_pos a IE); [now rewrite (fl_1 a IE)|lra|rewrite (fl_1 a IE); apply (big_1 a IE)]. }
      assert (Em1 : e m = DFin false 1) by (apply Top; [exact Hm|now rewrite EM|eauto]).
      pose proof (sum_ge_1 a IE n e Bn We ltac:(eauto)) as (Fs & Vs). set (sum := @nsum_from dbl (NumD a) (DFin false 0) n e) in *.
      destruct (div_fin a _ sum (fin_1 a IE) Fs ltac:(lra)) as (t & Einv).
      assert (Hn1 : 1 <= IZR (Z.of_nat n)) by (apply IZR_le; lia). rewrite <- INR_IZR_INZ in Hn1, Vs.
      assert (Hinv : / INR n <= dval (DFin false 1) / dval sum <= 1).
      { cbn [dval]. unfold Rdiv. rewrite Rmult_1_l. split; [apply Rinv_le_contravar; lra|]. rewrite <- Rinv_1. apply Rinv_le_contravar; lra. }
      assert (H0n : 0 < / INR n) by (apply Rinv_0_lt_compat; lra). pose proof (big_1 a IE) as B1.
      assert (Winv : within a (fl a (/ INR n)) 1 (ddiv a (DFin false 1) sum)).
      { rewrite Einv. set (q := dval (DFin false 1) / dval sum) in *. destruct (round_small a IE t q) as (Fr & Vr).
        - assert (0 <= fl a q <= 1); [|split_Rabs; lra].
          split; [apply (fl_pos a IE); lra|]. rewrite <- (fl_1 a IE). apply (ie_mono a IE). lra.
        - split; [exact Fr|]. rewrite Vr. split; [apply (ie_mono a IE); lra|]. rewrite <- (fl_1 a IE). apply (ie_mono a IE). lra. }
      set (inv := ddiv a (DFin false 1) sum) in *. pose proof (fl_pos a IE (/ INR n) ltac:(lra)) as P0.
      exists (tab n (fun i => dmul a (e i) inv)), (dval inv). split; [exact E|]. split; [apply tab_length|].
      destruct Winv as (Fi & Vi). destruct (fin_val a IE inv Fi) as (_ & Ri).
      assert (Wo : forall i, (i < n)%nat -> within a 0 (dval inv) (dmul a (e i) inv)).
      { intros i Hi. destruct (We i Hi) as (F1 & V1). destruct (mul_fin a _ _ F1 Fi) as (s & ->). apply (round_within a IE); [|apply (fl_0 a IE)|exact Ri|lra|lra].
        split; [apply Rmult_le_pos; lra|]. rewrite <- (Rmult_1_l (dval inv)) at 2. apply Rmult_le_compat_r; lra. }
      split; [apply tab_forall; intros i Hi; eapply within_weaken; [apply Wo, Hi|lra|lra]|]. split; [exact Vi|]. split.
      * intros i Hi. rewrite nth_tab by exact Hi. now apply Wo.
      * intros i Hi Mi. rewrite nth_tab by exact Hi.
        assert (E1 : e i = DFin false 1).
        { specialize (Mi m Hm). specialize (Mx i Hi). rewrite EM in Mi, Mx. destruct (number_inv _ (NN' i Hi)) as [(s & k & Ei)|(s & Ei)].
          - apply Top; [exact Hi| |eauto]. rewrite Ei in Mi, Mx |- *. cbn [dltb] in Mi, Mx. apply Rltb_false in Mi, Mx. lra.
          - rewrite Ei in Mi, Mx. destruct s; discriminate. }
        rewrite E1. destruct (mul_fin a _ _ (fin_1 a IE) Fi) as (s & ->). change (dval (DFin false 1)) with 1. rewrite Rmult_1_l.
        destruct (round_small a IE s (dval inv)) as (_ & V); [rewrite Ri; split_Rabs; lra|]. now rewrite V, Ri.
    + (* the largest number is infinite *)
      assert (BD : no_softmax src).
      { destruct sm; [|left; exists (nth m src d); split; [apply nth_In; lia|now right]].
        right. intros x Ix. destruct (In_nth _ _ d Ix) as (i & Hi & Ei). specialize (Mx i ltac:(lia)). rewrite Ei, EM in Mx.
        destruct (number_inv x (NN x Ix)) as [(s & k & ->)|([] & ->)]; [discriminate|reflexivity|discriminate]. }
      split; [|contradiction]. intros _. eexists. split; [exact E|]. split; [apply tab_length|]. apply All.
      apply sum_nan. right. exists m. split; [exact Hm|]. apply sub_exp_nan. rewrite EM. exists false. now destruct sm.
Qed.

(** *** The other activations *)
Notation sigmoidD a := (@sigmoid dbl (NumD a) (TransD a)).
(** Any number, also an infinite one, gives a number of [0, 1], for tanh of [-1, 1]; only NaN
    gives NaN. *)
Theorem c89_sigmoid_tanh : forall a x, ieee a -> isd a x ->
  (isnan x -> isnan (sigmoidD a x) /\ isnan (dtanh a x)) /\
  (number x -> within a 0 1 (sigmoidD a x) /\ within a (-1) 1 (dtanh a x)).
Proof.
  intros a x IE D. pose proof (big_1 a IE) as B1. unfold sigmoid. cbn [nopp nexp nadd ndiv n1 NumD TransD]. split.
  - intros (s & ->). split; [apply nan_div; right; apply nan_add; right; now exists false|now exists false].
  - intros N. split.
    + assert (X : forall e, (e = DInf false \/ within a 0 (big a) e) -> within a 0 1 (ddiv a (DFin false 1) (dadd a (DFin false 1) e))).
      { assert (Y : forall y, (y = DInf false \/ within a 1 (big a) y) -> within a 0 1 (ddiv a (DFin false 1) y)).
        { intros y [->|(Fy & Vy)]; [split; [apply (fin_0 a IE)|cbn; lra]|].
          destruct (div_fin a _ y (fin_1 a IE) Fy ltac:(lra)) as (s & ->). apply (round_within a IE); [|apply (fl_0 a IE)|apply (fl_1 a IE)|lra|lra].
          change (dval (DFin false 1)) with 1. unfold Rdiv. rewrite Rmult_1_l. split; [left; apply Rinv_0_lt_compat; lra|]. apply Rle_trans with (/ 1); [apply Rinv_le_contravar; lra|lra]. }
        intros e [->|(Fe & Ve)]; apply Y; [now left|]. destruct (add_fin a _ e (fin_1 a IE) Fe) as (s & ->). change (dval (DFin false 1)) with 1.
        assert (G : 1 <= fl a (1 + dval e)) by (rewrite <- (fl_1 a IE) at 1; apply (ie_mono a IE); lra).
        destruct (Rle_dec (fl a (1 + dval e)) (big a)) as [L|L].
        - right. destruct (round_small a IE s (1 + dval e)) as (Fr & Vr); [split_Rabs; lra|]. split; [exact Fr|rewrite Vr; lra].
        - left. apply (round_over a); lra. }
      apply X. destruct (number_inv x N) as [(s & m & ->)|([] & ->)]; [|now left|right; split; [apply (fin_0 a IE)|cbn; lra]].
      cbn [dopp dexp]. set (v := dval (DFin (negb s) m)).
      assert (G : 0 <= fexp a v). { destruct (Rle_dec v 0); [now apply (ie_exp_neg a IE)|]. pose proof (ie_exp_pos a IE v). lra. }
      destruct (Rle_dec (fl a (fexp a v)) (big a)) as [L|L].
      * right. pose proof (fl_pos a IE _ G). destruct (round_small a IE false (fexp a v)) as (Fr & Vr); [split_Rabs; lra|]. split; [exact Fr|rewrite Vr; lra].
      * left. apply (round_over a); [|lra]. destruct (Req_dec (fexp a v) 0) as [E|]; [|lra]. rewrite E, (fl_0 a IE) in L. lra.
    + destruct (number_inv x N) as [(s & m & ->)|(s & ->)].
      * cbn [dtanh]. apply (round_within a IE); [apply (ie_tanh a IE)|apply (ie_int a IE (-1)); lia|apply (fl_1 a IE)|lra|lra].
      * cbn [dtanh]. split; [apply (fin_mk a); [lra|apply (fl_1 a IE)]|destruct s; cbn; lra].
Qed.
(** Backward through relu, tanh and sigmoid does not enlarge a gradient. *)
Definition out_range (a : fpu) (f : @act dbl) (y : dbl) : Prop :=
  match f with Relu => fin a y | Tanh => within a (-1) 1 y | Sigmoid => within a 0 1 y | _ => False end.
Theorem c89_backward : forall a f (o i g : list dbl) n d, ieee a -> length o = n -> length i = n -> length g = n ->
  Forall (out_range a f) o -> Forall (fin a) g -> (0 < n)%nat ->
  exists r, @act_backward dbl (NumD a) f o i g = Ok r /\ length r = n /\
    forall k, (k < n)%nat -> fin a (nth k r d) /\ Rabs (dval (nth k r d)) <= Rabs (dval (nth k g d)).
Proof.
  intros a f o i g n d IE Lo Li Lg Ro Fg Hn. pose proof (big_1 a IE) as B1.
  assert (X : forall h, (forall y, out_range a f y -> within a (-1) 1 (h y)) -> exists r, (i' <- map_into h i o n ;; map2_inplace (dmul a) i' g n) = Ok r /\ length r = n /\
    forall k, (k < n)%nat -> fin a (nth k r d) /\ Rabs (dval (nth k r d)) <= Rabs (dval (nth k g d))).
  { intros h Hh. rewrite (@map_into_spec dbl d) by lia. cbn [bind]. rewrite skipn_all2, app_nil_r by lia.
    rewrite (@map2_inplace_spec dbl d) by (rewrite ?tab_length; lia). rewrite skipn_all2, app_nil_r by (rewrite tab_length; lia).
    eexists. split; [reflexivity|]. split; [apply tab_length|]. intros k Hk. rewrite !nth_tab by exact Hk.
    assert (Fk : fin a (nth k g d)) by (rewrite Forall_forall in Fg; apply Fg, nth_In; lia).
    destruct (fin_val a IE _ Fk) as (Bk & Rk).
    destruct (mul_shrinks a IE (h (nth k o d)) (nth k g d) (Rabs (dval (nth k g d)))) as (F & V); [|exact Fk|lra|rewrite <- (fl_abs a IE), Rk; reflexivity|exact Bk|apply Rabs_pos|].
    - apply Hh. rewrite Forall_forall in Ro. apply Ro, nth_In. lia.
    - split; [exact F|]. apply Rabs_le. lra. }
  assert (One : within a (-1) 1 (DFin false 1)) by (split; [apply (fin_1 a IE)|cbn; lra]).
  assert (Zero : within a (-1) 1 (DFin false 0)) by (split; [apply (fin_0 a IE)|cbn; lra]).
  assert (Sub : forall y, within a 0 1 y -> within a 0 1 (dsub a (DFin false 1) y)).
  { intros y (Fy & Vy). destruct (sub_fin a _ y (fin_1 a IE) Fy) as (s & ->). change (dval (DFin false 1)) with 1.
    apply (round_within a IE); [lra|apply (fl_0 a IE)|apply (fl_1 a IE)|lra|lra]. }
  unfold act_backward. rewrite Li. destruct f; try (exfalso; rewrite Forall_forall in Ro; apply (Ro (nth 0 o d)), nth_In; lia); apply X; intros y Hy.
  - unfold relu_1. now destruct (nltb n0 y).
  - unfold tanh_1_opt. cbn [nsub nmul n1 NumD out_range] in *. eapply within_weaken; [apply Sub|lra|lra].
    destruct Hy as (Fy & Vy). destruct (mul_fin a y y Fy Fy) as (s & ->). apply (round_within a IE); [nra|apply (fl_0 a IE)|apply (fl_1 a IE)|lra|lra].
  - unfold sigmoid_1_opt. cbn [nsub nmul n1 NumD out_range] in *. destruct (Sub y Hy) as (F1 & V1). destruct Hy as (Fy & Vy).
    destruct (mul_fin a y _ Fy F1) as (s & ->). eapply within_weaken; [apply (round_within a IE _ _ 0 1)|lra|lra]; [nra|apply (fl_0 a IE)|apply (fl_1 a IE)|lra|lra].
Qed.

(** *** Cross entropy *)
Definition units (a : fpu) (l : list dbl) : Prop := Forall (within a 0 1) l.
Lemma units_nth a l d i : units a l -> (i < length l)%nat -> within a 0 1 (nth i l d).
Proof. unfold units. rewrite Forall_forall. intros U Hi. apply U, nth_In, Hi. Qed.
Lemma max_low a (IE : ieee a) x c : within a 0 1 x -> 0 < c <= 1 -> fl a c = c ->
  let y := @nmax dbl (NumD a) x (DFin false c) in exists m, y = DFin false m /\ c <= m <= 1 /\ dval x <= m /\ (m = c \/ m = dval x) /\ fl a m = m.
Proof.
  intros ((D & s & m & ->) & V) C Fc. unfold nmax. cbn [nltb NumD dltb]. change (dval (DFin false c)) with c. destruct (Rltb (dval (DFin s m)) c) eqn:E; cmp.
  - exists c. repeat split; auto; lra.
  - cbn in D, V. destruct s; [exfalso; cbn in E; lra|]. cbn in E. exists m. destruct D as (D1 & D2). cbn [dval]. repeat split; auto; lra.
Qed.
(** The loss of a row is finite, at most 37 for each class. *)
Theorem c89_loss : forall a y p n, ieee a -> length y = n -> length p = n -> units a y -> units a p -> (Z.of_nat n * 37 <= 2 ^ 53)%Z ->
  exists v, @cross_entropy dbl (NumD a) (TransD a) LimD y p n = Ok v /\ within a 0 (37 * INR n) v.
Proof.
  intros a y p n IE Ly Lp Uy Up B. rewrite (@cross_entropy_spec dbl (NumD a) (TransD a) LimD (DFin false 0)) by lia. eexists. split; [reflexivity|].
  pose proof (sum_within a IE 0 37 n (fun i => @cross_entropy1 dbl (NumD a) (TransD a) LimD (nth i y (DFin false 0)) (nth i p (DFin false 0))) ltac:(lia) ltac:(lia) ltac:(lia)) as S0.
  rewrite Z.mul_0_r, mult_IZR, <- INR_IZR_INZ, Rmult_comm in S0. apply S0. clear S0. intros i Hi. pose proof (units_nth a y (DFin false 0) i Uy ltac:(lia)) as Wy. pose proof (units_nth a p (DFin false 0) i Up ltac:(lia)) as Wp.
  unfold cross_entropy1. destruct (max_low a IE _ eps Wp (conj eps_pos eps_1) (ie_eps a IE)) as (m & Em & Bm & _ & _ & Fm).
  change (@neps dbl LimD) with (DFin false eps). rewrite Em. cbn [nmul nopp nln NumD TransD dln]. rewrite (proj2 (Reqb_false m 0)) by (pose proof eps_pos; lra).
  assert (B37 : 37 <= big a) by (pose proof (big_Z a IE 37 ltac:(lia)) as H; rewrite Rabs_right in H; lra).
  assert (F37 : fl a 37 = 37) by (apply (ie_int a IE); lia).
  destruct (round_within a IE false (fln a m) (- 37) 0) as (F1 & V1); [apply (ie_ln a IE); lra|apply (ie_int a IE (-37)); lia|apply (fl_0 a IE)|lra|lra|].
  destruct Wy as (Fy & Vy). destruct (opp_fin a _ Fy) as (Fo & Vo). destruct (mul_fin a _ _ Fo F1) as (s & ->).
  apply (round_within a IE); [rewrite Vo; nra|apply (fl_0 a IE)|exact F37|lra|lra].
Qed.
(** The gradient of a row below a softmax is finite, at most twice the number of classes,
    although the gradients above it reach 2^1022. *)
Lemma gradient_bound a (IE : ieee a) y s c : within a 0 1 y -> within a 0 1 s -> within a 0 1 c ->
  exists q, 0 <= q /\ dval s * q <= 2 /\ fin a (@cross_entropy_1 dbl (NumD a) LimD c y s) /\ Rabs (dval (@cross_entropy_1 dbl (NumD a) LimD c y s)) <= q.
Proof.
  intros Wy Ws Wc. unfold cross_entropy_1. change (@nmin dbl LimD) with (DFin false tiny).
  destruct (max_low a IE s tiny Ws (conj tiny_pos tiny_1) (ie_tiny a IE)) as (m & Em & Bm & Lm & _ & Fm). rewrite Em. cbn [nmul ndiv nopp NumD].
  pose proof tiny_pos as T0. pose proof tiny_1 as T1. destruct Wy as (Fy & Vy). destruct (opp_fin a y Fy) as (Fo & Vo).
  assert (Fd : fin a (DFin false m)) by (apply (fin_mk a); [pose proof (big_1 a IE); lra|exact Fm]).
  destruct (div_fin a _ _ Fo Fd ltac:(cbn; lra)) as (t & ->). change (dval (DFin false m)) with m. rewrite Vo.
  assert (Q1 : 1 <= / m) by (rewrite <- Rinv_1 at 1; apply Rinv_le_contravar; lra).
  assert (Q2 : / m <= big a). { eapply Rle_trans; [apply (Rinv_le_contravar tiny m); lra|]. unfold tiny. rewrite Rinv_inv. apply (big_ge a IE). }
  assert (Q3 : fl a (/ m) <= big a) by (rewrite <- (ie_big a IE); now apply (ie_mono a IE)).
  assert (Q4 : fl a (/ m) <= 2 * / m).
  { pose proof (ie_rel a IE (/ m) ltac:(lra)) as H. assert (/ 2 ^ 53 <= 1) by (rewrite <- Rinv_1; apply Rinv_le_contravar; [lra|apply pow_le1]). split_Rabs; nra. }
  assert (Q5 : 1 <= fl a (/ m)) by (rewrite <- (fl_1 a IE) at 1; now apply (ie_mono a IE)).
  set (q := fl a (/ m)) in *. assert (Qr : fl a q = q) by apply (ie_idem a IE). exists q. split; [lra|]. split.
  - apply Rle_trans with (m * (2 * / m)); [apply Rmult_le_compat; destruct Ws; lra|]. right. field. lra.
  - assert (W1 : within a (- q) q (dround a t (- dval y / m))).
    { assert (N : 0 <= dval y / m <= / m).
      { unfold Rdiv. split; [apply Rmult_le_pos; lra|]. rewrite <- (Rmult_1_l (/ m)) at 2. apply Rmult_le_compat_r; lra. }
      replace (- dval y / m) with (- (dval y / m)) by (unfold Rdiv; lra).
      destruct (round_small a IE t (- (dval y / m))) as (Fr & Vr).
      - rewrite (ie_opp a IE), Rabs_Ropp. rewrite Rabs_right by (apply Rle_ge, (fl_pos a IE); lra). eapply Rle_trans; [apply (ie_mono a IE); apply N|exact Q3].
      - split; [exact Fr|]. rewrite Vr, (ie_opp a IE). pose proof (fl_pos a IE (dval y / m) ltac:(lra)). pose proof (ie_mono a IE (dval y / m) (/ m) ltac:(lra)). fold q in H0. lra. }
    destruct W1 as (F1 & V1). destruct (mul_shrinks a IE c _ q ltac:(eapply within_weaken; [exact Wc|lra|lra]) F1 ltac:(apply Rabs_le; lra) Qr Q3 ltac:(lra)) as (F2 & V2).
    split; [exact F2|apply Rabs_le; lra].
Qed.
Lemma mul_shrinks_r a (IE : ieee a) x y c : fin a x -> within a (-1) 1 y -> Rabs (dval x) <= c -> fl a c = c -> c <= big a -> 0 <= c -> within a (- c) c (dmul a x y).
Proof.
  intros Fx (Fy & Hy) Hx Fc Bc C0. destruct (mul_fin a x y Fx Fy) as (s & ->).
  assert (Q : Rabs (dval x * dval y) <= c).
  { rewrite Rabs_mult. rewrite <- (Rmult_1_r c). apply Rmult_le_compat; try apply Rabs_pos; [exact Hx|apply Rabs_le; lra]. }
  apply (round_within a IE); [split_Rabs; lra|now rewrite (ie_opp a IE), Fc|exact Fc|lra|exact Bc].
Qed.
Lemma softmax_factor a (IE : ieee a) si sj (same : bool) : within a 0 1 si -> within a 0 1 sj -> (same = true -> si = sj) ->
  within a (- dval sj) (dval sj) (dmul a si (dsub a (if same then DFin false 1 else DFin false 0) sj)).
Proof.
  intros Wi Wj E. pose proof (big_1 a IE) as B1. destruct (fin_val a IE sj (proj1 Wj)) as (_ & Rj).
  destruct same.
  - destruct (sub_fin a _ sj (fin_1 a IE) (proj1 Wj)) as (s & ->). rewrite (E eq_refl) in *. apply (mul_shrinks_r a IE); destruct Wj as (Fj & Vj); [exact Fj| |rewrite Rabs_right; lra|exact Rj|lra|lra].
    eapply within_weaken; [apply (round_within a IE _ _ 0 1)|lra|lra]; [change (dval (DFin false 1)) with 1; lra|apply (fl_0 a IE)|apply (fl_1 a IE)|lra|lra].
  - destruct (sub_fin a _ sj (fin_0 a IE false) (proj1 Wj)) as (s & ->). change (dval (DFin false 0)) with 0. destruct Wj as (Fj & Vj).
    destruct (round_within a IE s (0 - dval sj) (- dval sj) 0) as (F1 & V1); [lra|now rewrite (ie_opp a IE), Rj|apply (fl_0 a IE)|lra|lra|].
    apply (mul_shrinks a IE); [eapply within_weaken; [exact Wi|lra|lra]|exact F1|apply Rabs_le; lra|exact Rj|lra|lra].
Qed.
Theorem c89_gradient : forall a (l : lossl dbl) s i n, ieee a -> (Z.of_nat n * 2 <= 2 ^ 53)%Z ->
  length (ls_target l) = n -> length s = n -> length (ls_grad l) = n -> length i = n ->
  units a (ls_target l) -> units a s -> within a 0 1 (ls_inv l) ->
  exists g r, @cce_backward dbl (NumD a) LimD l s = Ok g /\ Forall (fin a) g /\
    @act_backward dbl (NumD a) Softmax s i g = Ok r /\ length r = n /\ Forall (within a (- (2 * INR n)) (2 * INR n)) r.
Proof.
  intros a l s i n IE B Lt Ls Lg Li Ut Us Wc. set (z := DFin false 0).
  set (g := tab n (fun j => @cross_entropy_1 dbl (NumD a) LimD (ls_inv l) (nth j (ls_target l) z) (nth j s z))).
  assert (Gb : forall j, (j < n)%nat -> exists q, 0 <= q /\ dval (nth j s z) * q <= 2 /\ fin a (nth j g z) /\ Rabs (dval (nth j g z)) <= q).
  { intros j Hj. unfold g. rewrite nth_tab by exact Hj. apply (gradient_bound a IE); [apply units_nth; [exact Ut|lia]|apply units_nth; [exact Us|lia]|exact Wc]. }
  exists g. eexists. split; [|split; [|split]].
  - unfold cce_backward, cross_entropy_1_arr. rewrite Lg. rewrite (@map2_into_spec dbl z) by lia. rewrite skipn_all2, app_nil_r by lia. reflexivity.
  - apply Forall_forall. intros x Hx. destruct (In_nth _ _ z Hx) as (j & Hj & <-). unfold g in Hj. rewrite tab_length in Hj. destruct (Gb j Hj) as (q & _ & _ & F & _). exact F.
  - unfold act_backward. rewrite Li. rewrite (@softmax_1_opt_spec dbl (NumD a) z) by (unfold g; rewrite ?tab_length; lia). rewrite skipn_all2, app_nil_r by lia. reflexivity.
  - split; [apply tab_length|]. apply tab_forall. intros k Hk.
    pose proof (sum_within a IE (-2) 2 n (fun j => dmul a (dmul a (nth k s z) (dsub a (if (k =? j)%nat then DFin false 1 else DFin false 0) (nth j s z))) (nth j g z)) ltac:(lia) ltac:(lia) ltac:(lia)) as S0.
    rewrite !mult_IZR, <- !INR_IZR_INZ in S0. replace (INR n * -2) with (- (2 * INR n)) in S0 by lra. replace (INR n * 2) with (2 * INR n) in S0 by lra. apply S0. clear S0.
    intros j Hj. destruct (Gb j Hj) as (q & Q0 & Qs & Fg & Vg).
    assert (Wk : within a 0 1 (nth k s z)) by (apply units_nth; [exact Us|lia]). assert (Wj : within a 0 1 (nth j s z)) by (apply units_nth; [exact Us|lia]).
    destruct (softmax_factor a IE _ _ (k =? j)%nat Wk Wj) as (Ft & Vt); [intros E; apply Nat.eqb_eq in E; now subst|].
    destruct (mul_fin a _ _ Ft Fg) as (sg & ->). set (t := dval (dmul a _ _)) in *. pose proof (proj2 Wj) as V0.
    assert (Q : Rabs (t * dval (nth j g z)) <= 2).
    { rewrite Rabs_mult. eapply Rle_trans; [|exact Qs]. apply Rmult_le_compat; try apply Rabs_pos; [apply Rabs_le; lra|exact Vg]. }
    assert (F2 : fl a 2 = 2) by (apply (ie_int a IE); lia). assert (B2 : 2 <= big a) by (pose proof (big_Z a IE 2 ltac:(lia)) as H; rewrite Rabs_right in H; lra).
    apply (round_within a IE); [split_Rabs; lra|apply (ie_int a IE (-2)); lia|exact F2|lra|lra].
Qed.
(** *** A class whose probability underflows to zero *)
Definition zero (x : dbl) : Prop := exists s, x = DFin s 0.
Lemma zero_val a (IE : ieee a) x : fin a x -> dval x = 0 -> zero x.
Proof. intros (_ & s & m & ->) E. exists s. f_equal. destruct s; cbn in E; lra. Qed.
(** Then nothing comes back below the softmax: training cannot change this output. *)
Theorem c89_stuck : forall a (l : lossl dbl) s i n k d, ieee a ->
  length (ls_target l) = n -> length s = n -> length (ls_grad l) = n -> length i = n -> (k < n)%nat ->
  (forall j, (j < n)%nat -> j <> k -> zero (nth j (ls_target l) d)) -> units a (ls_target l) -> units a s -> within a 0 1 (ls_inv l) ->
  dval (nth k s d) = 0 ->
  exists g r, @cce_backward dbl (NumD a) LimD l s = Ok g /\ @act_backward dbl (NumD a) Softmax s i g = Ok r /\ length r = n /\ Forall zero r.
Proof.
  intros a l s i n k d IE Lt Ls Lg Li Hk Zt Ut Us Wc Zk.
  set (g := tab n (fun j => @cross_entropy_1 dbl (NumD a) LimD (ls_inv l) (nth j (ls_target l) d) (nth j s d))).
  exists g. eexists. split; [|split].
  - unfold cce_backward, cross_entropy_1_arr. rewrite Lg. rewrite (@map2_into_spec dbl d) by lia. rewrite skipn_all2, app_nil_r by lia. reflexivity.
  - unfold act_backward. rewrite Li. rewrite (@softmax_1_opt_spec dbl (NumD a) d) by (unfold g; rewrite ?tab_length; lia). rewrite skipn_all2, app_nil_r by lia. reflexivity.
  - split; [apply tab_length|]. apply tab_forall. intros h Hh. apply (sum_zero a IE). intros j Hj. cbn [nmul nsub n1 n0 NumD].
    assert (Wh : within a 0 1 (nth h s d)) by (apply units_nth; [exact Us|lia]). assert (Wj : within a 0 1 (nth j s d)) by (apply units_nth; [exact Us|lia]).
    assert (Ft : fin a (dmul a (nth h s d) (dsub a (if (h =? j)%nat then DFin false 1 else DFin false 0) (nth j s d)))).
    { apply (softmax_factor a IE _ _ (h =? j)%nat Wh Wj). intros E. apply Nat.eqb_eq in E. now subst. }
    unfold g. rewrite nth_tab by exact Hj.
    assert (Wy : within a 0 1 (nth j (ls_target l) d)) by (apply units_nth; [exact Ut|lia]).
    destruct (Nat.eq_dec j k) as [->|Ne].
    + destruct (gradient_bound a IE _ _ _ Wy Wj Wc) as (_ & _ & _ & Fg & _).
      destruct (zero_val a IE _ (proj1 Wj) Zk) as (t & Et). rewrite Et.
      assert (Zs : zero (dmul a (nth h s d) (dsub a (if (h =? k)%nat then DFin false 1 else DFin false 0) (DFin t 0)))).
      { destruct (Nat.eqb_spec h k) as [->|Nh].
        - rewrite Et. apply (zero_mul a IE). change (fin a (dsub a (DFin false 1) (DFin t 0))). destruct (sub_fin a _ _ (fin_1 a IE) (fin_0 a IE t)) as (u & ->).
          apply (round_within a IE u _ 0 1); [cbn; destruct t; lra|apply (fl_0 a IE)|apply (fl_1 a IE)|pose proof (big_1 a IE); lra|apply (big_1 a IE)].
        - destruct (sub_fin a _ _ (fin_0 a IE false) (fin_0 a IE t)) as (u & ->).
          destruct (round_0 a IE u (dval (DFin false 0) - dval (DFin t 0))) as (v & ->); [|apply (mul_zero a IE), Wh].
          replace (dval (DFin false 0) - dval (DFin t 0)) with 0 by (cbn; destruct t; lra). apply (fl_0 a IE). }
      destruct Zs as (u & ->). apply (zero_mul a IE). rewrite <- Et. exact Fg.
    + destruct (Zt j Hj Ne) as (t & Et). rewrite Et. unfold cross_entropy_1. change (@nmin dbl LimD) with (DFin false tiny).
      destruct (max_low a IE _ tiny Wj (conj tiny_pos tiny_1) (ie_tiny a IE)) as (m & Em & Bm & _ & _ & Fm). rewrite Em. cbn [nmul ndiv nopp NumD dopp].
      pose proof tiny_pos as T0. assert (Fd : fin a (DFin false m)) by (apply (fin_mk a); [pose proof (big_1 a IE); lra|exact Fm]).
      destruct (div_fin a (DFin (negb t) 0) (DFin false m) (fin_0 a IE _) Fd ltac:(cbn; lra)) as (u & ->).
      destruct (round_0 a IE u (dval (DFin (negb t) 0) / dval (DFin false m))) as (v & ->).
      { replace (dval (DFin (negb t) 0) / dval (DFin false m)) with 0; [apply (fl_0 a IE)|]. destruct t; cbn; unfold Rdiv; lra. }
      destruct (mul_zero a IE (ls_inv l) v (proj1 Wc)) as (w & ->). apply (mul_zero a IE), Ft.
Qed.
Lemma exp_pow2 n : 2 ^ n <= exp (INR n).
Proof.
  induction n as [|n IH]; [cbn; rewrite exp_0; lra|]. rewrite S_INR, exp_plus. cbn [pow]. pose proof (exp_ineq1 1 ltac:(lra)). pose proof (pow_le1 n). nra.
Qed.
Lemma exp_2000 : 2 ^ 2000 <= exp 2000.
Proof. pose proof (exp_pow2 2000) as H. rewrite INR_IZR_INZ in H. change (Z.of_nat 2000) with 2000%Z in H. exact H. Qed.
Lemma exp_m2000 : 0 <= 2 * exp (-2000) < / 2 ^ 1075.
Proof.
  split; [pose proof (exp_pos (-2000)); lra|]. change (-2000) with (- (2000)) at 1. replace (IZR (-2000)) with (- (2000)) by lra. rewrite exp_Ropp.
  assert (A : 0 < 2 ^ 1999) by (apply pow_lt; lra). assert (E : 2 ^ 2000 = 2 * 2 ^ 1999) by reflexivity.
  apply Rle_lt_trans with (/ 2 ^ 1999).
  - replace (/ 2 ^ 1999) with (2 * / (2 * 2 ^ 1999)) by (field; lra). apply Rmult_le_compat_l; [lra|]. apply Rinv_le_contravar; [lra|]. rewrite <- E. apply exp_2000.
  - apply Rinv_lt_contravar; [apply Rmult_lt_0_compat; [apply pow_lt; lra|exact A]|]. apply Rlt_pow; [lra|lia].
Qed.
(** The gradient below the softmax is not softmax - target up to rounding: inputs 0 and 2000 with
    class 0 expected give outputs 0 and 1, and zero gradients where -1 and 1 are due. *)
Theorem c89_gradient_refuted : forall a (l : lossl dbl) dst i, ieee a ->
  ls_target l = [DFin false 1; DFin false 0] -> length (ls_grad l) = 2%nat -> length i = 2%nat -> length dst = 2%nat -> ls_inv l = DFin false 1 ->
  exists s0 s1 g r, @act_forward dbl (NumD a) (TransD a) Softmax dst [DFin false 0; DFin false 2000] = Ok [s0; s1] /\ dval s0 = 0 /\ dval s1 = 1 /\
    @cce_backward dbl (NumD a) LimD l [s0; s1] = Ok g /\ @act_backward dbl (NumD a) Softmax [s0; s1] i g = Ok r /\ length r = 2%nat /\ Forall zero r.
Proof.
  intros a l dst i IE Et Lg Li Ld Ei. pose proof (big_1 a IE) as B1. assert (F2k : fl a 2000 = 2000) by (apply (ie_int a IE); lia).
  assert (B2k : 2000 <= big a) by (pose proof (big_Z a IE 2000 ltac:(lia)) as H; rewrite Rabs_right in H; lra).
  assert (D2k : fin a (DFin false 2000)) by (apply (fin_mk a); [lra|exact F2k]).
  destruct (max_any a (DFin false 0) [DFin false 0; DFin false 2000] 2 ltac:(lia) ltac:(cbn; lia)) as (m0 & Hm0 & _ & Em0 & _).
  destruct (softmax_form a dst [DFin false 0; DFin false 2000] 2 (DFin false 0) ltac:(lia) Ld eq_refl ltac:(eauto)) as (m & Hm & Em & Es).
  assert (M1 : m = 1%nat).
  { destruct (max_numbers a (DFin false 0) [DFin false 0; DFin false 2000] 2 ltac:(lia) ltac:(cbn; lia)) as (m' & Hm' & Em' & Mx).
    - intros [|[|j]] Hj (t & X); [discriminate|discriminate|lia].
    - specialize (Mx 1%nat ltac:(lia)). rewrite Em in Em'. injection Em' as X. destruct m' as [|[|m']]; [cbn in Mx; cmp; lra| |lia]. destruct m as [|[|m]]; [|reflexivity|lia]. cbn in X. injection X as X. lra. }
  subst m. cbv zeta in Es. change (nth 1 [DFin false 0; DFin false 2000] (DFin false 0)) with (DFin false 2000) in Es.
  assert (E0 : dexp a (dsub a (DFin false 0) (DFin false 2000)) = DFin false 0).
  { destruct (sub_fin a _ _ (fin_0 a IE false) D2k) as (t & ->). cbn [dval]. destruct (round_small a IE t (0 - 2000)) as ((_ & u & v & E) & V).
    - replace (0 - 2000) with (- (2000)) by lra. rewrite (ie_opp a IE), F2k. rewrite Rabs_Ropp, Rabs_right; lra.
    - rewrite E in V |- *. cbn [dexp]. rewrite V. replace (0 - 2000) with (- (2000)) by lra. rewrite (ie_opp a IE), F2k. replace (- (2000)) with (-2000) by lra.
      pose proof exp_m2000 as (X0 & X). pose proof (ie_exp_near a IE (-2000)) as N. pose proof (ie_exp_neg a IE (-2000) ltac:(lra)) as N2.
      assert (Z : fl a (fexp a (-2000)) = 0) by (apply (ie_under a IE); lra).
      unfold dround. rewrite Z, Rabs_R0. rewrite (proj2 (Rltb_false _ _)) by lra. rewrite (proj2 (Rltb_false _ _)) by lra. now destruct (Reqb _ _). }
  assert (E1 : dexp a (dsub a (DFin false 2000) (DFin false 2000)) = DFin false 1).
  { destruct (sub_fin a _ _ D2k D2k) as (t & ->). cbn [dval]. replace (2000 - 2000) with 0 by lra. destruct (round_0 a IE t 0 (fl_0 a IE)) as (u & ->). cbn [dexp dval].
    replace (if u then - 0 else 0) with 0 by (destruct u; lra). rewrite (ie_exp0 a IE). rewrite (round_pos a IE); [now rewrite (fl_1 a IE)|lra|rewrite (fl_1 a IE); exact B1]. }
  assert (One : forall t x, x = 1 -> dval (dround a t x) = 1 /\ dround a t x = DFin false 1).
  { intros t x ->. assert (X : dround a t 1 = DFin false 1).
    { unfold dround. rewrite (fl_1 a IE), Rabs_R1. rewrite (proj2 (Rltb_false _ _)) by lra. rewrite (proj2 (Reqb_false 1 0)) by lra. now rewrite (proj2 (Rltb_false 1 0)) by lra. }
    now rewrite X. }
  unfold act_forward. rewrite Ld.
  assert (Q : softmaxD a dst [DFin false 0; DFin false 2000] 2 = Ok [DFin false 0; DFin false 1]).
  { rewrite Es.
    assert (S1 : @nsum_from dbl (NumD a) (DFin false 0) 2 (fun i0 => dexp a (dsub a (nth i0 [DFin false 0; DFin false 2000] (DFin false 0)) (DFin false 2000))) = DFin false 1).
    { rewrite !nsum_from_S. cbn [nsum_from nth]. rewrite E0, E1. change (dadd a (dadd a (DFin false 0) (DFin false 0)) (DFin false 1) = DFin false 1).
      destruct (add_fin a _ _ (fin_0 a IE false) (fin_0 a IE false)) as (t & ->). destruct (round_0 a IE t (dval (DFin false 0) + dval (DFin false 0))) as (u & ->).
      { cbn. rewrite Rplus_0_l. apply (fl_0 a IE). }
      cbn [dadd]. apply One. cbn. destruct u; lra. }
    rewrite S1. unfold tab. cbn [seq map nth]. rewrite E0, E1. cbn [ddiv]. rewrite (proj2 (Reqb_false 1 0)) by lra. destruct (One (xorb false false) (dval (DFin false 1) / dval (DFin false 1))) as (_ & ->); [cbn; lra|].
    cbn [dmul]. destruct (One (xorb false false) (dval (DFin false 1) * dval (DFin false 1))) as (_ & ->); [cbn; lra|].
    f_equal. f_equal. cbn [dval xorb]. rewrite Rmult_0_l. unfold dround. rewrite (fl_0 a IE), Rabs_R0. rewrite (proj2 (Rltb_false _ _)) by lra. now rewrite (proj2 (Reqb_true 0 0)) by reflexivity. }
  exists (DFin false 0), (DFin false 1).
  assert (W0 : within a 0 1 (DFin false 0)) by (split; [apply (fin_0 a IE)|cbn; lra]). assert (W1 : within a 0 1 (DFin false 1)) by (split; [apply (fin_1 a IE)|cbn; lra]).
  destruct (c89_stuck a l [DFin false 0; DFin false 1] i 2 0 (DFin false 0) IE) as (g & r & Eg & Er & Lr & Zr); rewrite ?Et; auto.
  - intros [|[|j]] Hj Ne; [lia|now exists false|lia].
  - constructor; [exact W1 || exact W0|]. constructor; [exact W1 || exact W0|constructor].
  - constructor; [exact W1 || exact W0|]. constructor; [exact W1 || exact W0|constructor].
  - now rewrite Ei.
  - exists g, r. repeat split; auto.
Qed.
(** The softmax that does not subtract the largest input, DLMath::softmax, gives NaN for a finite
    input. *)
Theorem c89_plain_refuted : forall a, ieee a -> fin a (DFin false 2000) /\
  @softmax dbl (NumD a) (TransD a) [DFin false 0] [DFin false 2000] 1 = Ok [dnan].
Proof.
  intros a IE. assert (F2k : fl a 2000 = 2000) by (apply (ie_int a IE); lia).
  assert (B2k : 2000 <= big a) by (pose proof (big_Z a IE 2000 ltac:(lia)) as H; rewrite Rabs_right in H; lra).
  split; [apply (fin_mk a); [lra|exact F2k]|]. unfold softmax. rewrite (@softmax_with_spec dbl (NumD a) (DFin false 0)) by (cbn; lia).
  unfold tab. cbn [seq map nth skipn app]. unfold nsum. cbn [nsum_from seq fold_left nth]. cbn [nexp TransD dexp dval].
  assert (Ov : dround a false (fexp a 2000) = DInf false).
  { apply (round_over a). 
    - pose proof (ie_exp_pos a IE 2000). lra.
    - pose proof (ie_exp_near a IE 2000) as N. pose proof exp_2000 as X. assert (E : 2 ^ 2000 = 2 * 2 ^ 1999) by reflexivity. assert (E' : 2 ^ 1999 = 2 * 2 ^ 1998) by reflexivity.
      assert (L : 2 ^ 1024 <= 2 ^ 1998) by (apply Rle_pow; [lra|lia]). pose proof (proj2 (ie_range a IE)) as R1. pose proof (pow_le1 1998) as P.
      apply Rlt_le_trans with (fl a (2 ^ 1999)); [|apply (ie_mono a IE); lra].
      pose proof (ie_rel a IE (2 ^ 1999) ltac:(pose proof tiny_1; lra)) as Q. assert (I : / 2 ^ 53 <= / 2). { apply Rinv_le_contravar; [lra|]. rewrite <- (pow_1 2) at 1. apply Rle_pow; [lra|lia]. }
      assert (0 < / 2 ^ 53) by (apply Rinv_0_lt_compat, pow_lt; lra). split_Rabs; nra. }
  rewrite Ov. cbn [nsum_from nadd ndiv nmul n0 n1 NumD fold_left seq dadd ddiv dmul xorb]. now rewrite (proj2 (Reqb_true 0 0)) by reflexivity.
Qed.

(** *** The assumptions and hypotheses are met *)
(** Rounding to nearest, ties to even, with 53 binary digits and exponents down to -1074, satisfies
    everything that is assumed about rounding. *)
Theorem c89_binary64 : ieee binary64.
Proof. exact ieee_binary64. Qed.
Lemma b64 m e : (0 <= m <= 2 ^ 53)%Z -> (- 1074 <= e <= 971)%Z -> IZR m * powerRZ 2 e <= big binary64 -> forall s, fin binary64 (DFin s (IZR m * powerRZ 2 e)).
Proof.
  intros Hm He B s. apply fin_mk; [|apply round64_repr; lia]. split; [|exact B]. apply Rmult_le_pos; [apply IZR_le; lia|left; apply p2_pos].
Qed.
Lemma b64_int z s : (0 <= z <= 2 ^ 53)%Z -> fin binary64 (DFin s (IZR z)).
Proof.
  intros Hz. apply fin_mk; [|apply (ie_int _ ieee_binary64); lia]. split; [apply IZR_le; lia|].
  pose proof (big_Z _ ieee_binary64 z ltac:(lia)) as B. rewrite Rabs_right in B; [exact B|]. apply Rle_ge, IZR_le. lia.
Qed.
Example c89_softmax_met : Forall (isd binary64) [DFin false 1; DFin true 2; DInf true] /\ ~ no_softmax [DFin false 1; DFin true 2; DInf true] /\
  Forall (isd binary64) [DFin false 1; DInf false] /\ no_softmax [DFin false 1; DInf false].
Proof.
  assert (I : forall s z, (0 <= z <= 2 ^ 53)%Z -> isd binary64 (DFin s (IZR z))) by (intros s z Hz; apply (b64_int z s Hz)).
  split; [|split; [|split]].
  - apply Forall_cons; [apply (I false 1%Z); lia|]. apply Forall_cons; [apply (I true 2%Z); lia|]. now apply Forall_cons.
  - intros [(x & [<-|[<-|[<-|[]]]] & [(s & E)|E])|A]; try discriminate. specialize (A (DFin false 1) (or_introl eq_refl)). discriminate.
  - apply Forall_cons; [apply (I false 1%Z); lia|]. now apply Forall_cons.
  - left. exists (DInf false). split; [right; now left|now right].
Qed.
Lemma half_fin s : within binary64 0 1 (DFin false (/ 2)) /\ fin binary64 (DFin s (/ 2)).
Proof.
  assert (F : forall s, fin binary64 (DFin s (/ 2))).
  { intros t. pose proof (b64 1 (-1) ltac:(lia) ltac:(lia)) as H. replace (1 * powerRZ 2 (-1)) with (/ 2) in H by (change (/ 2 = 1 * / (2 * 1)); field).
    apply H. pose proof (big_1 _ ieee_binary64). lra. }
  split; [split; [apply F|cbn; lra]|apply F].
Qed.
Definition half_loss : lossl dbl := mkLoss 2 [DFin false 1; DFin false 0] [DFin false 0; DFin false 0] (DFin false (/ 2)) (DFin false 0) (DFin false 0) 0 0.
Example c89_met : let one := DFin false 1 in let z := DFin false 0 in let h := DFin false (/ 2) in
  ieee binary64 /\ units binary64 (ls_target half_loss) /\ units binary64 [h; h] /\ units binary64 [z; one] /\ within binary64 0 1 (ls_inv half_loss) /\
  Forall (out_range binary64 Sigmoid) [h; one] /\ Forall (fin binary64) [DFin true (/ 2); DFin false 3].
Proof.
  assert (W0 : within binary64 0 1 (DFin false 0)) by (split; [apply (b64_int 0 false); lia|cbn; lra]).
  assert (W1 : within binary64 0 1 (DFin false 1)) by (split; [apply (b64_int 1 false); lia|cbn; lra]).
  pose proof (half_fin true) as (Wh & Fh). unfold units. cbn [half_loss ls_target ls_inv].
  split; [exact ieee_binary64|]. repeat split; repeat (apply Forall_cons || apply Forall_nil); try exact W0; try exact W1; try exact Wh; try apply Wh; try exact Fh. apply (b64_int 3 false). lia.
Qed.
Example c89_stuck_met : exists s0 s1 g r, @act_forward dbl (NumD binary64) (TransD binary64) Softmax [dnan; dnan] [DFin false 0; DFin false 2000] = Ok [s0; s1] /\ dval s0 = 0 /\ dval s1 = 1 /\
    @cce_backward dbl (NumD binary64) LimD (mkLoss 2 [DFin false 1; DFin false 0] [dnan; dnan] (DFin false 1) dnan dnan 0 0) [s0; s1] = Ok g /\
    @act_backward dbl (NumD binary64) Softmax [s0; s1] [dnan; dnan] g = Ok r /\ length r = 2%nat /\ Forall zero r.
Proof. apply c89_gradient_refuted; try reflexivity. exact ieee_binary64. Qed.

Print Assumptions c89_softmax.
Print Assumptions c89_sigmoid_tanh.
Print Assumptions c89_backward.
Print Assumptions c89_loss.
Print Assumptions c89_gradient.
Print Assumptions c89_stuck.
Print Assumptions c89_gradient_refuted.
Print Assumptions c89_plain_refuted.
Print Assumptions c89_binary64.
