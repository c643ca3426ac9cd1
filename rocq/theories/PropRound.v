(** C75: ranges survive rounding. *)
From Verif Require Import Base Num RSum DatasetModel DatasetSpec DatasetProofs2 MathModel MathProofs LayerModel
  LossModel LossSpec LossProofs OptModel OptProofs PropOpt RoundModel RoundSpec RoundProofs.
From Coq Require Import Reals Lra.
Local Open Scope R_scope.

Section Rounded.
Variable rnd : R -> R.
Hypothesis Hr : rounding rnd.

Lemma rnd_nonneg x : 0 <= x -> 0 <= rnd x.
Proof. intros Hx. rewrite <- (rd_zero rnd Hr). now apply (rd_mono rnd Hr). Qed.
Lemma rnd_nonpos x : x <= 0 -> rnd x <= 0.
Proof. intros Hx. rewrite <- (rd_zero rnd Hr). now apply (rd_mono rnd Hr). Qed.
Lemma rnd_le1 x : x <= 1 -> rnd x <= 1.
Proof. intros Hx. rewrite <- (rd_one rnd Hr). now apply (rd_mono rnd Hr). Qed.
Lemma rnd_ge1 x : 1 <= x -> 1 <= rnd x.
Proof. intros Hx. rewrite <- (rd_one rnd Hr). now apply (rd_mono rnd Hr). Qed.
Lemma rnd_gem1 x : -1 <= x -> -1 <= rnd x.
Proof. intros Hx. rewrite <- (rd_mone rnd Hr). now apply (rd_mono rnd Hr). Qed.

(** Sums of terms that are not negative. *)
Lemma sumF_fixed (f : nat -> R) n : rnd (@nsum R (NumF rnd) n f) = @nsum R (NumF rnd) n f.
Proof.
  destruct n as [|n]; [apply (rd_zero rnd Hr)|]. unfold nsum. rewrite nsum_from_S. cbn [nadd NumF].
  apply (rd_idem rnd Hr).
Qed.
Lemma sumF_nonneg (f : nat -> R) n : (forall i, (i < n)%nat -> 0 <= f i) -> 0 <= @nsum R (NumF rnd) n f.
Proof.
  induction n as [|n IH]; intros Hf; [cbn; lra|]. unfold nsum. rewrite nsum_from_S. cbn [nadd NumF].
  apply rnd_nonneg. specialize (IH ltac:(intros; apply Hf; lia)). unfold nsum in IH.
  pose proof (Hf n ltac:(lia)). lra.
Qed.
Lemma sumF_ge (f : nat -> R) n i : (forall j, (j < n)%nat -> 0 <= f j) -> (i < n)%nat ->
  rnd (f i) <= @nsum R (NumF rnd) n f.
Proof.
  induction n as [|n IH]; intros Hf Hi; [lia|]. unfold nsum. rewrite nsum_from_S. cbn [nadd NumF].
  fold (@nsum R (NumF rnd) n f).
  destruct (Nat.eq_dec i n) as [->|Hne].
  - apply (rd_mono rnd Hr). pose proof (sumF_nonneg f n ltac:(intros; apply Hf; lia)). lra.
  - eapply Rle_trans; [apply IH; [intros; apply Hf; lia|lia]|].
    rewrite <- sumF_fixed at 1. apply (rd_mono rnd Hr). pose proof (Hf n ltac:(lia)). lra.
Qed.

Lemma strict_weak_F : @strict_weak R (NumF rnd).
Proof. exact strict_weak_R. Qed.

Lemma nofnat_ge1 n : (0 < n)%nat -> 1 <= @nofnat R (NumF rnd) n.
Proof. intros Hn. unfold nofnat. cbn [nofZ NumF]. apply rnd_ge1. apply IZR_le. lia. Qed.
Lemma div_range a b : 0 <= a -> a <= b -> 0 < b -> 0 <= a / b <= 1.
Proof.
  intros A B C. split.
  - apply Rmult_le_pos; [exact A|]. left. now apply Rinv_0_lt_compat.
  - apply (Rmult_le_reg_r b); [exact C|]. unfold Rdiv. rewrite Rmult_assoc, Rinv_l by lra. lra.
Qed.

(** *** Softmax *)
Lemma softmax_F (t : TransOps R) (dst src : list R) n : cmath t ->
  (0 < n)%nat -> (n <= length dst)%nat -> (n <= length src)%nat ->
  exists p, @stable_softmax R (NumF rnd) t dst src n = Ok (p ++ skipn n dst) /\ length p = n /\
    (forall i, (i < n)%nat -> 0 <= nth i p 0 <= 1) /\
    (forall i j, (i < n)%nat -> (j < n)%nat -> nth i src 0 <= nth j src 0 -> nth i p 0 <= nth j p 0).
Proof.
  intros Ht Hn Hd Hs.
  destruct (@max_spec R (NumF rnd) 0 src n strict_weak_F Hn Hs) as (m & _ & Em & _ & Hm & M1 & _).
  unfold stable_softmax. rewrite Em. cbn [bind].
  rewrite (@softmax_with_spec R (NumF rnd) 0) by assumption.
  set (e := fun x => @nexp R t (@nsub R (NumF rnd) x (nth m src 0))).
  set (s := @nsum R (NumF rnd) n (fun j => e (nth j src 0))).
  assert (E0 : forall x, 0 <= e x) by (intros x; apply (cm_exp_pos t Ht)).
  assert (E1 : forall i, (i < n)%nat -> e (nth i src 0) <= 1).
  { intros i Hi. unfold e. rewrite <- (cm_exp_0 t Ht). apply (cm_exp_mono t Ht). cbn [nsub NumF].
    apply rnd_nonpos. specialize (M1 i Hi). cbn [nltb NumF] in M1. apply Rltb_false in M1. lra. }
  assert (S1 : 1 <= s).
  { unfold s. assert (EM : e (nth m src 0) = 1).
    { unfold e. cbn [nsub NumF]. unfold Rminus. rewrite Rplus_opp_r, (rd_zero rnd Hr). apply (cm_exp_0 t Ht). }
    rewrite <- (rd_one rnd Hr), <- EM at 1.
    exact (sumF_ge (fun j => e (nth j src 0)) n m (fun j _ => E0 _) Hm). }
  assert (I1 : 0 <= rnd (1 / s) <= 1).
  { clearbody s. assert (Hs0 : 0 < s) by lra. destruct (div_range 1 s Rle_0_1 S1 Hs0). split; [now apply rnd_nonneg|now apply rnd_le1]. }
  eexists. split; [reflexivity|]. split; [apply tab_length|]. split.
  - intros i Hi. rewrite nth_tab by exact Hi. change (0 <= rnd (e (nth i src 0) * rnd (1 / s)) <= 1).
    pose proof (E0 (nth i src 0)). pose proof (E1 i Hi). split.
    + apply rnd_nonneg. apply Rmult_le_pos; lra.
    + apply rnd_le1. apply (Rle_trans _ (1 * 1)); [apply Rmult_le_compat|]; lra.
  - intros i j Hi Hj Hij. rewrite !nth_tab by assumption.
    change (rnd (e (nth i src 0) * rnd (1 / s)) <= rnd (e (nth j src 0) * rnd (1 / s))).
    apply (rd_mono rnd Hr). apply Rmult_le_compat_r; [lra|].
    unfold e. apply (cm_exp_mono t Ht). cbn [nsub NumF]. apply (rd_mono rnd Hr). lra.
Qed.

(** *** Activations *)
Lemma sigmoid_F (t : TransOps R) x : cmath t -> 0 <= @sigmoid R (NumF rnd) t x <= 1.
Proof.
  intros Ht. unfold sigmoid. cbn [ndiv nadd nopp n1 NumF].
  pose proof (cm_exp_pos t Ht (- x)).
  assert (D : 1 <= rnd (1 + nexp (- x))) by (apply rnd_ge1; lra).
  destruct (div_range 1 (rnd (1 + nexp (- x))) ltac:(lra) D ltac:(lra)).
  split; [now apply rnd_nonneg|now apply rnd_le1].
Qed.
Lemma relu_F x : 0 <= @relu R (NumF rnd) x.
Proof.
  unfold relu, nmax. cbn [nltb n0 NumF]. destruct (Rltb x 0) eqn:E; [lra|]. now apply Rltb_false in E.
Qed.
Lemma elu_F (t : TransOps R) alpha x : cmath t -> 0 <= alpha -> rnd (- alpha) = - alpha ->
  - alpha <= @elu R (NumF rnd) t alpha x.
Proof.
  intros Ht Ha Hra. unfold elu. cbn [nltb n0 n1 nmul nsub NumF]. destruct (Rltb 0 x) eqn:E.
  - apply Rltb_true in E. lra.
  - rewrite <- Hra. apply (rd_mono rnd Hr). pose proof (cm_exp_pos t Ht x).
    assert (B : -1 <= rnd (nexp x - 1)) by (apply rnd_gem1; lra).
    apply (Rmult_le_compat_l alpha) in B; lra.
Qed.

(** *** Losses *)
Lemma mse_F tol (l : lossl R) x n : (0 < n)%nat -> length (ls_target l) = n -> length x = n ->
  exists v b, @mse_forward R (NumF rnd) tol l x = (@count R (@add_loss R (NumF rnd) l v) b, Ok tt) /\ 0 <= v.
Proof.
  intros Hn Lt Lx. unfold mse_forward. destruct (ls_target l) as [|t0 ts] eqn:Et; [simpl in Lt; lia|].
  rewrite <- Et in *. rewrite Lx, (@mean_squared_error_spec R (NumF rnd) 0) by lia.
  eexists _, _. split; [reflexivity|]. cbn [ndiv NumF]. apply rnd_nonneg.
  apply Rmult_le_pos.
  - apply sumF_nonneg. intros i _. unfold squared_error. cbn [nmul NumF]. apply rnd_nonneg, Rle_0_sqr.
  - left. apply Rinv_0_lt_compat. pose proof (nofnat_ge1 n Hn). lra.
Qed.
End Rounded.

(** Softmax: every output between 0 and 1, and the order of the inputs is never reversed. *)
Theorem c75_softmax :
  forall rnd (t : TransOps R) (dst src : list R) n, rounding rnd -> cmath t ->
    (0 < n)%nat -> (n <= length dst)%nat -> (n <= length src)%nat ->
    exists p, @stable_softmax R (NumF rnd) t dst src n = Ok (p ++ skipn n dst) /\ length p = n /\
      (forall i, (i < n)%nat -> 0 <= nth i p 0 <= 1) /\
      (forall i j, (i < n)%nat -> (j < n)%nat -> nth i src 0 <= nth j src 0 -> nth i p 0 <= nth j p 0).
Proof. intros rnd t dst src n Hr Ht. now apply softmax_F. Qed.
Print Assumptions c75_softmax.

(** Outputs of the activation layers. *)
Definition in_range (a : act R) (y : R) : Prop :=
  match a with
  | Relu => 0 <= y
  | Elu alpha => - alpha <= y
  | Softmax | Sigmoid => 0 <= y <= 1
  | Tanh => -1 <= y <= 1
  | Linear => True
  end.
Theorem c75_activations :
  forall rnd (t : TransOps R) (a : act R) (o x : list R), rounding rnd -> cmath t ->
    length o = length x -> x <> [] ->
    (forall alpha, a = Elu alpha -> 0 <= alpha /\ rnd (- alpha) = - alpha) ->
    exists y, @act_forward R (NumF rnd) t a o x = Ok y /\ length y = length x /\
      forall i, (i < length x)%nat -> in_range a (nth i y 0).
Proof.
  intros rnd t a o x Hr Ht L Hx Ha.
  assert (HX : (0 < length x)%nat) by (destruct x; [congruence|simpl; lia]).
  destruct a as [|alpha| | | |]; cbn [act_forward in_range]; rewrite ?L.
  - rewrite (map_into_spec 0) by lia. eexists. split; [reflexivity|].
    rewrite skipn_all2, app_nil_r by lia. split; [apply tab_length|].
    intros i Hi. rewrite nth_tab by exact Hi. apply relu_F.
  - destruct (Ha alpha eq_refl) as (A & B).
    rewrite (map_into_spec 0) by lia. eexists. split; [reflexivity|].
    rewrite skipn_all2, app_nil_r by lia. split; [apply tab_length|].
    intros i Hi. rewrite nth_tab by exact Hi. now apply elu_F.
  - destruct (softmax_F rnd Hr t o x (length x) Ht HX ltac:(lia) ltac:(lia)) as (p & E & Lp & B & _).
    exists p. rewrite skipn_all2, app_nil_r in E by lia. auto.
  - rewrite (map_into_spec 0) by lia. eexists. split; [reflexivity|].
    rewrite skipn_all2, app_nil_r by lia. split; [apply tab_length|].
    intros i Hi. rewrite nth_tab by exact Hi. apply (cm_tanh t Ht).
  - rewrite (map_into_spec 0) by lia. eexists. split; [reflexivity|].
    rewrite skipn_all2, app_nil_r by lia. split; [apply tab_length|].
    intros i Hi. rewrite nth_tab by exact Hi. now apply sigmoid_F.
  - exists x. auto.
Qed.
Print Assumptions c75_activations.

(** Min-max normalisation of a dataset of representable numbers: a column with two different
    values ends between 0 and 1, its smallest value becomes exactly 0, its largest exactly 1,
    and no two cells change their order. *)
Theorem c75_normalisation :
  forall rnd (d : dataset R), rounding rnd -> wf d -> (0 < ds_size d)%nat ->
    Forall (fun v => rnd v = v) (data d) ->
    exists e, @ds_min_max_auto R (NumF rnd) d = Ok e /\ wf e /\ ds_size e = ds_size d /\
      fsize e = fsize d /\ ssize e = ssize d /\ labels_i e = labels_i d /\
      forall c, (c < fsize d)%nat ->
        (exists r1 r2, (r1 < ds_size d)%nat /\ (r2 < ds_size d)%nat /\ cell d r1 c <> cell d r2 c) ->
        (forall r, (r < ds_size d)%nat -> 0 <= cell e r c <= 1) /\
        (forall r, (r < ds_size d)%nat ->
           (forall r', (r' < ds_size d)%nat -> cell d r c <= cell d r' c) -> cell e r c = 0) /\
        (forall r, (r < ds_size d)%nat ->
           (forall r', (r' < ds_size d)%nat -> cell d r' c <= cell d r c) -> cell e r c = 1) /\
        (forall r1 r2, (r1 < ds_size d)%nat -> (r2 < ds_size d)%nat ->
           cell d r1 c <= cell d r2 c -> cell e r1 c <= cell e r2 c).
Proof.
  intros rnd d Hr W Hn Hrep.
  destruct (@min_max_auto_spec_g (NumF rnd) (fun _ _ => eq_refl) d W Hn)
    as (mn & mx & e & E & We & A & B & C & L & D & F).
  exists e. repeat (split; [assumption|]).
  intros c Hc (s1 & s2 & Hs1 & Hs2 & Hne).
  destruct (D c Hc) as ((r1 & Hr1 & E1) & (r2 & Hr2 & E2) & Hb).
  assert (Rep : forall r, (r < ds_size d)%nat -> rnd (cell d r c) = cell d r c).
  { intros r Hrr. unfold ds_size in Hrr. rewrite cell_data by auto.
    assert (Hp : (r * fsize d + c < length (data d))%nat).
    { pose proof (DatasetSpec.wf_data d W) as HD. rewrite HD. nia. }
    rewrite Forall_forall in Hrep. apply Hrep. now apply nth_In. }
  assert (Hlt : mn c < mx c).
  { pose proof (Hb s1 Hs1). pose proof (Hb s2 Hs2). lra. }
  assert (G : 0 < rnd (mx c - mn c)).
  { apply (rd_gap rnd Hr); [rewrite E1; now apply Rep|rewrite E2; now apply Rep|exact Hlt]. }
  assert (N : forall r, (r < ds_size d)%nat -> 0 <= rnd (cell d r c - mn c) <= rnd (mx c - mn c)).
  { intros r Hrr. pose proof (Hb r Hrr). split; [apply rnd_nonneg; auto; lra|]. apply (rd_mono rnd Hr). lra. }
  assert (V : forall r, (r < ds_size d)%nat ->
     cell e r c = rnd (rnd (cell d r c - mn c) / rnd (mx c - mn c))).
  { intros r Hrr. rewrite F by auto. reflexivity. }
  split; [|split; [|split]].
  - intros r Hrr. rewrite V by auto. destruct (N r Hrr) as (N1 & N2).
    destruct (div_range _ _ N1 N2 G). split; [apply rnd_nonneg; auto|apply rnd_le1; auto].
  - intros r Hrr Hmin. rewrite V by auto.
    assert (X : cell d r c = mn c).
    { specialize (Hmin r1 Hr1). rewrite <- E1 in Hmin. pose proof (Hb r Hrr). lra. }
    rewrite X. unfold Rminus at 1. rewrite Rplus_opp_r, (rd_zero rnd Hr). unfold Rdiv.
    rewrite Rmult_0_l. apply (rd_zero rnd Hr).
  - intros r Hrr Hmax. rewrite V by auto.
    assert (X : cell d r c = mx c).
    { specialize (Hmax r2 Hr2). rewrite <- E2 in Hmax. pose proof (Hb r Hrr). lra. }
    rewrite X. unfold Rdiv. rewrite Rinv_r by lra. apply (rd_one rnd Hr).
  - intros q1 q2 Hq1 Hq2 Hle. rewrite !V by auto. apply (rd_mono rnd Hr).
    apply Rmult_le_compat_r; [left; now apply Rinv_0_lt_compat|]. apply (rd_mono rnd Hr). lra.
Qed.
Print Assumptions c75_normalisation.

(** Loss statistics after any history of calls with vectors of the layer's size. For cross
    entropy: targets that are not negative, predictions at most 1. *)
Definition probabilistic (o : lop R) : Prop :=
  match o with
  | OTarget t => Forall (fun v => 0 <= v) t
  | OForward x => Forall (fun v => v <= 1) x
  | OReset => True
  end.
Definition sound_stats (rnd : R -> R) (l : lossl R) : Prop :=
  0 <= ls_cum l /\
  ((0 < ls_cor l + ls_inc l)%nat ->
     0 <= @accuracy R (NumF rnd) l <= 1 /\ 0 <= @avg_loss R (NumF rnd) l).

Section Stats.
Variable rnd : R -> R.
Hypothesis Hr : rounding rnd.
Variable n : nat.
Variable ok : lop R -> Prop.
Variable fwd : lossl R -> list R -> lossl R * res unit.
Definition good_target (t : list R) : Prop := t = [] \/ (ok (OTarget t) /\ length t = n).
(** What one forward call may do to the totals. *)
Definition steps_up : Prop := forall l x, ls_in l = n -> good_target (ls_target l) -> ok (OForward x) -> length x = n ->
  let l' := fst (fwd l x) in
  ls_in l' = n /\ ls_target l' = ls_target l /\
  (ls_cum l' = ls_cum l \/ exists v, 0 <= v /\ ls_cum l' = rnd (ls_cum l + v)).
Hypothesis Hup : steps_up.

Lemma run_sound batch os : Forall ok os -> Forall (sized n) os ->
  let l := fst (@loss_run R (NumF rnd) fwd (@loss_new R (NumF rnd) n batch) os) in
  ls_in l = n /\ good_target (ls_target l) /\ rnd (ls_cum l) = ls_cum l /\ 0 <= ls_cum l.
Proof.
  intros Ho Hs.
  assert (G : forall l, ls_in l = n -> good_target (ls_target l) -> rnd (ls_cum l) = ls_cum l -> 0 <= ls_cum l ->
    let l' := fst (@loss_run R (NumF rnd) fwd l os) in
    ls_in l' = n /\ good_target (ls_target l') /\ rnd (ls_cum l') = ls_cum l' /\ 0 <= ls_cum l').
  { induction os as [|o os IH]; intros l A B C D; [cbn; auto|].
    inversion Ho; inversion Hs; subst. cbn [loss_run].
    destruct (@loss_step R (NumF rnd) fwd l o) as [l1 r] eqn:E1.
    destruct (@loss_run R (NumF rnd) fwd l1 os) as [l2 rs] eqn:E2. cbn [fst].
    specialize (IH ltac:(assumption) ltac:(assumption) l1). rewrite E2 in IH. cbn [fst] in IH.
    destruct o as [t|x|]; cbn [loss_step] in E1.
    - injection E1 as <- <-. apply IH; cbn [set_target ls_in ls_target ls_cum]; auto.
      match goal with Hz : sized n (OTarget t) |- _ => destruct Hz as [Hz|Hz] end; [now left|right; now split].
    - assert (E3 : l1 = fst (fwd l x)) by now rewrite E1. subst l1.
      destruct (Hup l x ltac:(assumption) B ltac:(assumption) ltac:(assumption)) as (U1 & U2 & U3).
      apply IH; [assumption|now rewrite U2| |].
      + destruct U3 as [->|(v & _ & ->)]; [assumption|apply (rd_idem rnd Hr)].
      + destruct U3 as [->|(v & Hv & ->)]; [assumption|]. apply (rnd_nonneg rnd Hr). lra.
    - injection E1 as <- <-. apply IH; cbn; auto; [apply (rd_zero rnd Hr)|lra]. }
  apply G; cbn; auto; [now left|apply (rd_zero rnd Hr)|lra].
Qed.

Lemma stats_sound l : 0 <= ls_cum l -> sound_stats rnd l.
Proof.
  intros Hc. split; [exact Hc|]. intros Hn.
  pose proof (nofnat_ge1 rnd Hr _ Hn) as D. unfold accuracy, avg_loss. cbn [ndiv NumF].
  assert (A : 0 <= @nofnat R (NumF rnd) (ls_cor l) <= @nofnat R (NumF rnd) (ls_cor l + ls_inc l)).
  { unfold nofnat. cbn [nofZ NumF]. split.
    - apply (rnd_nonneg rnd Hr). apply IZR_le. lia.
    - apply (rd_mono rnd Hr). apply IZR_le. lia. }
  destruct A as (A1 & A2). destruct (div_range _ _ A1 A2 ltac:(lra)) as (B1 & B2).
  split; [split; [now apply (rnd_nonneg rnd Hr)|now apply (rnd_le1 rnd Hr)]|].
  apply (rnd_nonneg rnd Hr). apply Rmult_le_pos; [exact Hc|]. left. apply Rinv_0_lt_compat. lra.
Qed.

Lemma history_sound batch os x : Forall ok (os ++ [OForward x]) -> Forall (sized n) (os ++ [OForward x]) ->
  let l := fst (@loss_run R (NumF rnd) fwd (@loss_new R (NumF rnd) n batch) os) in
  sound_stats rnd l /\ ls_cum l <= ls_cum (fst (fwd l x)).
Proof.
  intros Ho Hs. apply Forall_app in Ho, Hs. destruct Ho as (Ho & Ho1), Hs as (Hs & Hs1).
  inversion Ho1; inversion Hs1; subst.
  destruct (run_sound batch os Ho Hs) as (A & B & C & D).
  set (l := fst (@loss_run R (NumF rnd) fwd (@loss_new R (NumF rnd) n batch) os)) in *. cbv zeta.
  split; [now apply stats_sound|].
  destruct (Hup l x A B ltac:(assumption) ltac:(assumption)) as (_ & _ & [->|(v & Hv & ->)]); [lra|].
  rewrite <- C at 1. apply (rd_mono rnd Hr). lra.
Qed.
End Stats.

Lemma mse_steps_up rnd tol n : rounding rnd -> (0 < n)%nat ->
  steps_up rnd n (fun _ => True) (@mse_forward R (NumF rnd) tol).
Proof.
  intros Hr Hn l x Hi Ht _ Lx. cbv zeta.
  destruct Ht as [Ht|(_ & Ht)].
  - unfold mse_forward. rewrite Ht. cbn [fst]. auto.
  - destruct (mse_F rnd Hr tol l x n Hn Ht Lx) as (v & b & E & Hv). rewrite E.
    cbn [fst count add_loss ls_in ls_target ls_cum nadd NumF]. split; [exact Hi|]. split; [reflexivity|].
    right. exists v. auto.
Qed.

Lemma cce_steps_up rnd (t : TransOps R) (lim : LimOps R) n : rounding rnd -> cmath t -> 0 < neps <= 1 ->
  (0 < n)%nat -> steps_up rnd n probabilistic (@cce_forward R (NumF rnd) t lim).
Proof.
  intros Hr Hc He Hn l x Hi Ht Hx Lx. cbv zeta.
  destruct Ht as [Ht|(Hp & Ht)].
  { unfold cce_forward. rewrite Ht. cbn [fst]. auto. }
  unfold cce_forward. destruct (ls_target l) as [|t0 ts] eqn:Et; [simpl in Ht; lia|]. rewrite <- Et in *.
  rewrite Lx, (@cross_entropy_spec R (NumF rnd) t lim 0) by lia.
  set (v := @nsum R (NumF rnd) n _).
  assert (V : 0 <= v).
  { apply (sumF_nonneg rnd Hr). intros i Hin. unfold cross_entropy1. cbn [nmul nopp NumF].
    apply (rnd_nonneg rnd Hr).
    cbn [probabilistic] in Hp, Hx. rewrite Forall_forall in Hp, Hx.
    assert (P1 : 0 <= nth i (ls_target l) 0) by (apply Hp, nth_In; lia).
    assert (P2 : nth i x 0 <= 1) by (apply Hx, nth_In; lia).
    assert (P3 : nln (@nmax R (NumF rnd) (nth i x 0) neps) <= 0).
    { apply (cm_ln t Hc). unfold nmax. cbn [nltb NumF]. destruct (Rltb (nth i x 0) neps) eqn:Q; [lra|].
      apply Rltb_false in Q. lra. }
    rewrite <- (Rmult_opp_opp (- nth i (ls_target l) 0)), Ropp_involutive. apply Rmult_le_pos; lra. }
  assert (X : ls_in (@add_loss R (NumF rnd) l v) = n /\ ls_target (@add_loss R (NumF rnd) l v) = ls_target l /\
    (ls_cum (@add_loss R (NumF rnd) l v) = ls_cum l \/
     exists v0, 0 <= v0 /\ ls_cum (@add_loss R (NumF rnd) l v) = rnd (ls_cum l + v0))).
  { cbn [add_loss ls_in ls_target ls_cum nadd NumF]. split; [exact Hi|]. split; [reflexivity|]. right. now exists v. }
  cbv zeta.
  destruct (@max_and_argmax R (NumF rnd) x n) as [[mv mi]| |]; [|exact X|exact X].
  destruct (@argactive R (NumF rnd) (ls_target (@add_loss R (NumF rnd) l v)) 0
     (ls_in (@add_loss R (NumF rnd) l v))); [|exact X|exact X].
  exact X.
Qed.

Theorem c75_mean_squared_statistics :
  forall rnd tol n batch os x, rounding rnd -> (0 < n)%nat -> Forall (sized n) (os ++ [OForward x]) ->
    let fwd := @mse_forward R (NumF rnd) tol in
    let l := fst (@loss_run R (NumF rnd) fwd (@loss_new R (NumF rnd) n batch) os) in
    sound_stats rnd l /\ ls_cum l <= ls_cum (fst (fwd l x)).
Proof.
  intros rnd tol n batch os x Hr Hn Hs.
  apply (history_sound rnd Hr n (fun _ => True) _ (mse_steps_up rnd tol n Hr Hn)); [|exact Hs].
  apply Forall_forall. auto.
Qed.
Print Assumptions c75_mean_squared_statistics.
Theorem c75_cross_entropy_statistics :
  forall rnd (t : TransOps R) (lim : LimOps R) n batch os x, rounding rnd -> cmath t -> 0 < neps <= 1 ->
    (0 < n)%nat -> Forall (sized n) (os ++ [OForward x]) -> Forall probabilistic (os ++ [OForward x]) ->
    let fwd := @cce_forward R (NumF rnd) t lim in
    let l := fst (@loss_run R (NumF rnd) fwd (@loss_new R (NumF rnd) n batch) os) in
    sound_stats rnd l /\ ls_cum l <= ls_cum (fst (fwd l x)).
Proof.
  intros rnd t lim n batch os x Hr Hc He Hn Hs Hp.
  exact (history_sound rnd Hr n probabilistic _ (cce_steps_up rnd t lim n Hr Hc He Hn) batch os x Hp Hs).
Qed.
Print Assumptions c75_cross_entropy_statistics.

(** A gradient descent step never moves a representable parameter along its gradient, and
    leaves it where it is when the gradient is zero. *)
Theorem c75_descent_direction :
  forall rnd eta (l : player R), rounding rnd -> 0 <= eta -> wf_player l ->
    exists l', @gd_train R (NumF rnd) eta l = Ok l' /\ wf_player l' /\
    forall b o, has l b o ->
      let p := nth o (nth b (pblocks l) []) 0 in
      let g := nth o (nth b (gblocks l) []) 0 in
      let p' := nth o (nth b (pblocks l') []) 0 in
      rnd p = p ->
      (0 <= g -> p' <= p) /\ (g <= 0 -> p <= p') /\ rnd p' = p' /\ nth o (nth b (gblocks l') []) 0 = 0.
Proof.
  intros rnd eta l Hr He W.
  destruct (@c30_train_layer R (NumF rnd) eta l W) as (l' & E & W' & _ & X).
  exists l'. split; [exact E|]. split; [exact W'|]. intros b o Hbo p g p' Hp.
  destruct (X b o Hbo) as (X1 & X2).
  change (p' = rnd (p - rnd (eta * g))) in X1. rewrite X1.
  split; [|split; [|split]].
  - intros Hg. rewrite <- Hp at 2. apply (rd_mono rnd Hr).
    pose proof (rnd_nonneg rnd Hr (eta * g) ltac:(now apply Rmult_le_pos)). lra.
  - intros Hg. rewrite <- Hp at 1. apply (rd_mono rnd Hr).
    assert (G : eta * g <= 0).
    { pose proof (Rmult_le_compat_l eta g 0 He Hg). lra. }
    pose proof (rnd_nonpos rnd Hr _ G). lra.
  - apply (rd_idem rnd Hr).
  - exact X2.
Qed.
Print Assumptions c75_descent_direction.

(** Truncation to 53 binary digits is such a rounding, it does round (with one digit, 3 becomes
    2), and all the hypotheses are met by non-trivial data. *)
Example c75_hypotheses_met :
  rounding (trunc 52) /\ cmath (TransF (trunc 52)) /\ (0 < (neps : R) <= 1) /\ trunc 0 3 = 2 /\
  (let d := ds_vec 0 [-1; 0; 1; 1; 0; 0] 2 1 [] in
   wf d /\ ds_size d = 3%nat /\ Forall (fun v => trunc 52 v = v) (data d) /\
   cell d 0 0 <> cell d 1 0) /\
  (let os := [OTarget [0; 1]; OForward [1/4; 3/4]; OForward [1; 0]] in
   Forall (sized 2) os /\ Forall probabilistic os) /\
  (let l := mkPlayer (PDense 1 1) [[1]; [0]] [[-1]; [1/3]] in
   wf_player l /\ has l 0 0 /\ trunc 52 1 = 1).
Proof.
  pose proof (pr_rounding _ _ (trunc_rounding 52)) as Hr.
  split; [exact Hr|]. split; [now apply cmath_rounded|]. split.
  { change (neps : R) with (/ 2 ^ 52). assert (1 <= 2 ^ 52) by (apply pow_R1_Rle; lra). split.
    - apply Rinv_0_lt_compat. lra.
    - apply (Rle_trans _ (/ 1)); [apply Rinv_le_contravar; lra|]. rewrite Rinv_1. lra. }
  split.
  { rewrite trunc_of_pos by lra.
    assert (E : expo 3 = 1%Z).
    { apply expo_unique. rewrite p2_S. change (powerRZ 2 1) with (2 * 1). lra. }
    assert (P : powerRZ 2 1 = 2) by (change (2 * 1 = 2); ring).
    assert (Q : powerRZ 2 (-1) = / 2) by (change (/ (2 * 1) = / 2); f_equal; ring).
    unfold trunc_pos. rewrite E. change (Z.of_nat 0 - 1)%Z with (-1)%Z. change (- -1)%Z with 1%Z. rewrite P, Q.
    replace (Int_part (3 * / 2)) with 1%Z; [lra|].
    unfold Int_part. rewrite <- (tech_up (3 * / 2) 2); [reflexivity| |]; lra. }
  split.
  { cbv zeta. split; [apply DatasetProofs.ds_vec_wf; repeat constructor|]. split; [reflexivity|].
    split; [|cbn; lra]. cbn [ds_vec data].
    repeat constructor; first [apply (rd_mone _ Hr)|apply (rd_zero _ Hr)|apply (rd_one _ Hr)]. }
  split.
  { cbv zeta. split.
    - repeat (apply Forall_cons || apply Forall_nil); simpl; auto.
    - repeat constructor; simpl; lra. }
  cbv zeta. split; [split; reflexivity|]. split; [split; cbn; lia|]. apply (rd_one _ Hr).
Qed.
