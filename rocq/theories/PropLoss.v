(** C32, C33: loss statistics and loss gradients. *)
From Verif Require Import Base Num RSum MathModel MathProofs LossModel LossSpec LossProofs
  GradSpec GradProofs GradChain.
From Coq Require Import Reals Lra.
Local Open Scope R_scope.

(** *** C32 *)
(** Statistics after any history of target settings, resets and forward calls (successful or
    throwing) with vectors of the layer's size. [h] lists the pairs evaluated successfully
    since the last reset; it is a function of the history alone. *)
Definition stats_are (v : list R -> list R -> R) (hit : list R -> list R -> Prop)
  (l : lossl R) (h : list (list R * list R)) : Prop :=
  ls_cum l = total v h /\ count_of hit h (ls_cor l) /\ (ls_cor l + ls_inc l)%nat = length h /\
  (h <> [] -> avg_loss l = total v h / INR (length h) /\
              accuracy l = INR (ls_cor l) / INR (length h) /\ 0 <= accuracy l <= 1).

Lemma stats_final v hit l (h : list (list R * list R)) :
  ls_cum l = total v h -> count_of hit h (ls_cor l) -> (ls_cor l + ls_inc l)%nat = length h ->
  stats_are v hit l h.
Proof.
  intros E C L. split; [exact E|]. split; [exact C|]. split; [exact L|]. intros Hh.
  assert (Hp : 0 < INR (length h)).
  { apply lt_0_INR. destruct h; [congruence|simpl; lia]. }
  assert (A : accuracy l = INR (ls_cor l) / INR (length h)).
  { unfold accuracy, nofnat. cbn [ndiv nofZ NumR]. rewrite L, <- !INR_IZR_INZ. reflexivity. }
  split; [|split; [exact A|]].
  - unfold avg_loss, nofnat. cbn [ndiv nofZ NumR]. rewrite L, <- INR_IZR_INZ, E. reflexivity.
  - rewrite A. pose proof (count_of_le _ _ _ C) as Hle.
    apply le_INR in Hle. pose proof (pos_INR (ls_cor l)). split.
    + apply Rmult_le_pos; [lra|]. left. now apply Rinv_0_lt_compat.
    + apply (Rmult_le_reg_r (INR (length h))); [exact Hp|].
      unfold Rdiv. rewrite Rmult_assoc, Rinv_l by lra. lra.
Qed.

Theorem c32_cross_entropy_statistics : forall n batch os, (0 < n)%nat -> Forall (sized n) os ->
  (exists t h, evaluated ce_valid os t h) /\
  forall t h, evaluated ce_valid os t h ->
    let '(l, rs) := loss_run cce_forward (loss_new n batch) os in
    Forall not_ub rs /\ ls_target l = t /\ stats_are (ce_value (/ 2 ^ 52)) ce_hit l h.
Proof.
  intros n batch os Hn Hs. split; [apply evaluated_total, ce_valid_dec|].
  intros t h Hev.
  pose proof (stats_of_history n batch cce_forward ce_valid _ ce_hit (cce_ok n Hn) os t h Hev Hs) as X.
  destruct (loss_run cce_forward (loss_new n batch) os) as [l rs].
  destruct X as (A & _ & B & _ & C & D & E & _). split; [exact A|]. split; [exact B|].
  now apply stats_final.
Qed.
Print Assumptions c32_cross_entropy_statistics.

Theorem c32_mean_squared_statistics : forall tol n batch os, (0 < n)%nat -> Forall (sized n) os ->
  (exists t h, evaluated mse_valid os t h) /\
  forall t h, evaluated mse_valid os t h ->
    let '(l, rs) := loss_run (mse_forward tol) (loss_new n batch) os in
    Forall not_ub rs /\ ls_target l = t /\ stats_are mse_value (mse_hit tol) l h.
Proof.
  intros tol n batch os Hn Hs. split; [apply evaluated_total, mse_valid_dec|].
  intros t h Hev.
  pose proof (stats_of_history n batch (mse_forward tol) mse_valid _ (mse_hit tol) (mse_ok tol n Hn)
    os t h Hev Hs) as X.
  destruct (loss_run (mse_forward tol) (loss_new n batch) os) as [l rs].
  destruct X as (A & _ & B & _ & C & D & E & _). split; [exact A|]. split; [exact B|].
  now apply stats_final.
Qed.
Print Assumptions c32_mean_squared_statistics.

(** A call that throws leaves the statistics as they were: any single call, in any state. *)
Theorem c32_throw_keeps_statistics : forall n (l : lossl R) x, (0 < n)%nat ->
  ls_in l = n -> (ls_target l = [] \/ length (ls_target l) = n) -> length x = n ->
  let '(l', r) := cce_forward l x in
  r = Throw -> ls_cum l' = ls_cum l /\ ls_cor l' = ls_cor l /\ ls_inc l' = ls_inc l.
Proof.
  intros n l x Hn H1 H2 H3. destruct (cce_ok n Hn l x H1 H2 H3) as (A & B).
  destruct (ce_valid_dec (ls_target l)) as [Hv|Hv].
  - destruct (A Hv) as (b & _ & E). rewrite E. discriminate.
  - destruct (B Hv) as (l' & E & _ & _ & _ & _ & Q1 & Q2 & Q3). rewrite E. auto.
Qed.
Print Assumptions c32_throw_keeps_statistics.

(** With vectors longer than the layer's input size (nothing checks it, no access is out of
    range) a throwing call changes the cumulative loss but not the counts. *)
Theorem c32_throw_keeps_statistics_refuted : exists (l l' : lossl R) x,
  ls_in l = 1%nat /\ length (ls_target l) = 2%nat /\ length x = 2%nat /\
  cce_forward l x = (l', Throw) /\ ls_cum l' <> ls_cum l.
Proof.
  exists (set_target (loss_new 1 1) [0; 1]). eexists. exists [/2; /2].
  split; [reflexivity|]. split; [reflexivity|]. split; [reflexivity|].
  unfold cce_forward. cbn [set_target ls_target length].
  rewrite (cross_entropy_R [0; 1] [/2; /2] 2 eq_refl eq_refl).
  destruct (max_spec 0 [/2; /2] 2 strict_weak_R ltac:(lia) ltac:(simpl; lia)) as (m & _ & _ & E & _).
  cbn [length]. rewrite E. cbn [add_loss ls_target ls_in loss_new set_target].
  destruct (argactive_spec [0; 1] 1 0 ltac:(simpl; lia)) as [(k & _ & Hk & Hn & _)|(E2 & _)].
  { assert (k = 0%nat) by lia. subst k. simpl in Hn. lra. }
  rewrite E2. split; [reflexivity|].
  cbn [ls_cum]. cbn [nadd n0 NumR].
  unfold ce_value. cbn [length Rsum nth].
  assert (Hm : Rmax (/2) (neps : R) = /2).
  { apply Rmax_left. change (neps : R) with (/ 2 ^ 52). apply Rinv_le_contravar; [lra|].
    assert (1 <= 2 ^ 51) by (apply pow_R1_Rle; lra).
    change (2 ^ 52) with (2 * 2 ^ 51). lra. }
  rewrite Hm. rewrite ln_Rinv by lra. pose proof (ln_lt_2). intros X. cbn [ls_cum add_loss set_target loss_new nadd n0 NumR] in X. lra.
Qed.
Print Assumptions c32_throw_keeps_statistics_refuted.

(** Non-vacuity: a history with a hit, a miss, a throw and a reset. *)
Definition ex_history : list (lop R) :=
  [OForward [1; 2]; OTarget [0; 1]; OForward [1/4; 3/4]; OReset; OForward [3/4; 1/4]; OTarget [0; 0];
   OForward [1; 0]].
Example c32_hypotheses_met : Forall (sized 2) ex_history /\
  evaluated ce_valid ex_history [0; 0] [([0; 1], [3/4; 1/4])].
Proof.
  split.
  - unfold ex_history. repeat (apply Forall_cons || apply Forall_nil); simpl; auto.
  - unfold ex_history.
    assert (V : ce_valid [0; 1]) by (exists 1%nat; simpl; split; [lia|lra]).
    assert (NV : ~ ce_valid [0; 0]).
    { intros (i & Hi & Hn). destruct i as [|[|i]]; simpl in *; try lra; lia. }
    assert (N0 : ~ ce_valid []) by (intros (i & Hi & _); simpl in Hi; lia).
    apply (ev_throw _ [OForward [1; 2]; OTarget [0; 1]; OForward [1/4; 3/4]; OReset;
                       OForward [3/4; 1/4]; OTarget [0; 0]]); [|exact NV].
    apply (ev_target _ [OForward [1; 2]; OTarget [0; 1]; OForward [1/4; 3/4]; OReset;
                        OForward [3/4; 1/4]] [0; 1]).
    apply (ev_ok _ [OForward [1; 2]; OTarget [0; 1]; OForward [1/4; 3/4]; OReset]); [|exact V].
    apply (ev_reset _ [OForward [1; 2]; OTarget [0; 1]; OForward [1/4; 3/4]] [0; 1] [([0; 1], [1/4; 3/4])]).
    apply (ev_ok _ [OForward [1; 2]; OTarget [0; 1]]); [|exact V].
    apply (ev_target _ [OForward [1; 2]] []).
    apply (ev_throw _ []); [constructor|exact N0].
Qed.

(** *** C33 *)
(** What a forward call adds to the cumulative loss. *)
Definition reported (fwd : lossl R -> list R -> lossl R * res unit) (l : lossl R) (x : list R) : R :=
  ls_cum (fst (fwd l x)) - ls_cum l.

Lemma cce_reported l x n : (0 < n)%nat -> length (ls_target l) = n -> length x = n ->
  reported cce_forward l x = ce_value neps (ls_target l) x.
Proof.
  intros Hn Ht Hx. unfold reported, cce_forward.
  destruct (ls_target l) as [|a t] eqn:Et; [simpl in Ht; lia|]. rewrite <- Et in *.
  rewrite Hx, (cross_entropy_R (ls_target l) x n Ht Hx).
  assert (A : ls_cum (add_loss l (ce_value neps (ls_target l) x)) - ls_cum l = ce_value neps (ls_target l) x).
  { cbn [add_loss ls_cum nadd NumR]. ring. }
  destruct (max_and_argmax x n) as [[v m]| |]; cbn [fst]; try exact A.
  destruct (argactive (ls_target (add_loss l (ce_value neps (ls_target l) x))) 0
     (ls_in (add_loss l (ce_value neps (ls_target l) x)))); cbn [fst]; exact A.
Qed.

Lemma mse_reported tol l x n : (0 < n)%nat -> length (ls_target l) = n -> length x = n ->
  reported (mse_forward tol) l x = mse_value (ls_target l) x.
Proof.
  intros Hn Ht Hx. unfold reported, mse_forward.
  destruct (ls_target l) as [|a t] eqn:Et; [simpl in Ht; lia|]. rewrite <- Et in *.
  rewrite Hx, (mse_R (ls_target l) x n Ht Hx). cbn [fst count add_loss ls_cum nadd NumR]. ring.
Qed.

Lemma line_nth x p t i : (p < length x)%nat ->
  nth i (line x p t) 0 = if (i =? p)%nat then nth p x 0 + t else nth i x 0.
Proof.
  intros Hp. unfold line. destruct (Nat.eqb_spec i p) as [->|Hne].
  - now rewrite nth_upd_eq.
  - now rewrite nth_upd_neq.
Qed.

Lemma line_length x p t : length (line x p t) = length x.
Proof. apply upd_length. Qed.

Lemma eps_min : (nmin : R) < (neps : R) /\ 0 < (neps : R).
Proof.
  change (nmin : R) with (/ 2 ^ 1022). change (neps : R) with (/ 2 ^ 52). split.
  - apply Rinv_lt_contravar.
    + apply Rmult_lt_0_compat; apply pow_lt; lra.
    + apply Rlt_pow; [lra|lia].
  - apply Rinv_0_lt_compat, pow_lt. lra.
Qed.

(** Cross entropy: for inputs above the clamping bound backward is 1/batch times the gradient
    of the reported loss. *)
Theorem c33_cross_entropy_gradient : forall n batch (l : lossl R) x,
  (0 < n)%nat -> length (ls_target l) = n -> length (ls_grad l) = n -> length x = n ->
  ls_inv l = / INR (Nat.max batch 1) ->
  (forall i, (i < n)%nat -> / 2 ^ 52 < nth i x 0) ->
  exists g, cce_backward l x = Ok g /\ length g = n /\
  forall p, (p < n)%nat -> exists d,
    derivable_pt_lim (fun t => reported cce_forward l (line x p t)) 0 d /\
    nth p g 0 = / INR (Nat.max batch 1) * d.
Proof.
  intros n batch l x Hn Ht Hg Hx Hi Hpos.
  destruct eps_min as (Hme & He). change (/ 2 ^ 52) with (neps : R) in Hpos.
  exists (tab n (fun i => cross_entropy_1 (ls_inv l) (nth i (ls_target l) 0) (nth i x 0))).
  split; [|split; [apply tab_length|]].
  - unfold cce_backward, cross_entropy_1_arr. rewrite Hg, (map2_into_spec 0) by lia.
    rewrite skipn_all2 by lia. now rewrite app_nil_r.
  - intros p Hp. exists (- nth p (ls_target l) 0 / nth p x 0). split.
    + apply (derivable_pt_lim_ext (fun t => Rsum n (fun i =>
        - nth i (ls_target l) 0 * ln (Rmax (if (i =? p)%nat then nth p x 0 + t else nth i x 0) neps)))).
      { intros t. rewrite (cce_reported l (line x p t) n) by (rewrite ?line_length; auto).
        unfold ce_value. rewrite line_length, Hx. apply Rsum_ext. intros i Hi'.
        rewrite line_nth by lia. reflexivity. }
      apply (dlim_eq _ _ (Rsum n (fun i => if (i =? p)%nat then - nth p (ls_target l) 0 / nth p x 0 else 0))).
      2:{ rewrite (Rsum_single n p); auto; [now rewrite Nat.eqb_refl|].
          intros i Hi' Hne. destruct (Nat.eqb_spec i p); [contradiction|reflexivity]. }
      apply (dlim_Rsum n (fun i t => - nth i (ls_target l) 0 *
         ln (Rmax (if (i =? p)%nat then nth p x 0 + t else nth i x 0) neps))).
      intros i Hi'. destruct (Nat.eqb_spec i p) as [->|Hne]; [|apply dlim_const].
      pose proof (Hpos p Hp) as Hxp.
      apply (derivable_pt_lim_locally_ext (fun t => - nth p (ls_target l) 0 * ln (nth p x 0 + t)) _ 0
        (neps - nth p x 0) 1); [lra| |].
      { intros z Hz. rewrite Rmax_left; [reflexivity|]. lra. }
      eapply dlim_eq.
      * apply (dlim_mult (fun _ => - nth p (ls_target l) 0) (fun t => ln (nth p x 0 + t))); [apply dlim_const|].
        apply (dlim_comp (fun t => nth p x 0 + t) ln).
        -- apply (dlim_plus (fun _ => nth p x 0) (fun t => t)); [apply dlim_const|apply dlim_id].
        -- apply derivable_pt_lim_ln. lra.
      * rewrite !Rplus_0_r. field. lra.
    + rewrite nth_tab by auto. unfold cross_entropy_1. rewrite nmax_Rmax.
      rewrite Rmax_left by (specialize (Hpos p Hp); lra). now rewrite Hi.
Qed.
Print Assumptions c33_cross_entropy_gradient.

(** Mean squared error: backward is n/batch times the gradient of the reported mean: the mean
    in forward is not matched by a division by n in backward. *)
Theorem c33_mean_squared_gradient_actual : forall tol n batch (l : lossl R) x,
  (0 < n)%nat -> length (ls_target l) = n -> length (ls_grad l) = n -> length x = n ->
  ls_inv l = / INR (Nat.max batch 1) ->
  exists g, mse_backward l x = Ok g /\ length g = n /\
  forall p, (p < n)%nat -> exists d,
    derivable_pt_lim (fun t => reported (mse_forward tol) l (line x p t)) 0 d /\
    d = - 2 * (nth p (ls_target l) 0 - nth p x 0) / INR n /\
    nth p g 0 = / INR (Nat.max batch 1) * (INR n * d).
Proof.
  intros tol n batch l x Hn Ht Hg Hx Hi.
  assert (Hnp : 0 < INR n) by now apply lt_0_INR.
  exists (tab n (fun i => squared_error_1 (ls_inv l) (nth i (ls_target l) 0) (nth i x 0))).
  split; [|split; [apply tab_length|]].
  - unfold mse_backward, mean_squared_error_1. rewrite Hg, (map2_into_spec 0) by lia.
    rewrite skipn_all2 by lia. now rewrite app_nil_r.
  - intros p Hp. exists (- 2 * (nth p (ls_target l) 0 - nth p x 0) / INR n).
    split; [|split; [reflexivity|]].
    + apply (derivable_pt_lim_ext (fun t => Rsum n (fun i =>
        (nth i (ls_target l) 0 - (if (i =? p)%nat then nth p x 0 + t else nth i x 0)) ^ 2) / INR n)).
      { intros t. rewrite (mse_reported tol l (line x p t) n) by (rewrite ?line_length; auto).
        unfold mse_value. rewrite line_length, Hx. f_equal. apply Rsum_ext. intros i Hi'.
        rewrite line_nth by lia. reflexivity. }
      apply (dlim_eq _ _ (Rsum n (fun i => if (i =? p)%nat
         then - 2 * (nth p (ls_target l) 0 - nth p x 0) else 0) * / INR n)).
      2:{ rewrite (Rsum_single n p); auto; [now rewrite Nat.eqb_refl|].
          intros i Hi' Hne. destruct (Nat.eqb_spec i p); [contradiction|reflexivity]. }
      eapply dlim_eq.
      * apply (dlim_mult (fun t => Rsum n (fun i =>
          (nth i (ls_target l) 0 - (if (i =? p)%nat then nth p x 0 + t else nth i x 0)) ^ 2))
          (fun _ => / INR n)); [|apply dlim_const].
        apply (dlim_Rsum n (fun i t =>
          (nth i (ls_target l) 0 - (if (i =? p)%nat then nth p x 0 + t else nth i x 0)) ^ 2)
          (fun i => if (i =? p)%nat then - 2 * (nth p (ls_target l) 0 - nth p x 0) else 0)).
        intros i Hi'. destruct (Nat.eqb_spec i p) as [->|Hne]; [|apply dlim_const].
        eapply dlim_eq.
        -- apply (dlim_comp (fun t => nth p (ls_target l) 0 - (nth p x 0 + t)) (fun z => z ^ 2)).
           ++ apply (dlim_minus (fun _ => nth p (ls_target l) 0) (fun t => nth p x 0 + t)); [apply dlim_const|].
              apply (dlim_plus (fun _ => nth p x 0) (fun t => t)); [apply dlim_const|apply dlim_id].
           ++ apply derivable_pt_lim_pow.
        -- simpl. ring.
      * ring.
    + rewrite nth_tab by auto. unfold squared_error_1. cbn [nmul nsub nopp nofZ NumR]. rewrite Hi.
      field. split; [lra|]. apply not_0_INR. lia.
Qed.
Print Assumptions c33_mean_squared_gradient_actual.

(** So the property holds for a single output ... *)
Theorem c33_mean_squared_gradient_partial : forall tol batch (l : lossl R) x,
  length (ls_target l) = 1%nat -> length (ls_grad l) = 1%nat -> length x = 1%nat ->
  ls_inv l = / INR (Nat.max batch 1) ->
  exists g d, mse_backward l x = Ok [g] /\
    derivable_pt_lim (fun t => reported (mse_forward tol) l (line x 0 t)) 0 d /\
    g = / INR (Nat.max batch 1) * d.
Proof.
  intros tol batch l x Ht Hg Hx Hi.
  destruct (c33_mean_squared_gradient_actual tol 1 batch l x ltac:(lia) Ht Hg Hx Hi)
    as (g & E & L & Hd).
  destruct (Hd 0%nat ltac:(lia)) as (d & D & _ & Eq).
  destruct g as [|g0 [|? ?]]; simpl in L; try lia.
  exists g0, d. split; [exact E|]. split; [exact D|]. simpl in Eq. rewrite Eq. ring.
Qed.
Print Assumptions c33_mean_squared_gradient_partial.

(** ... and fails for two outputs. *)
Theorem c33_mean_squared_gradient_refuted : exists tol (l : lossl R) x g p d,
  l = set_target (loss_new 2 1) [1; 1] /\ length x = 2%nat /\
  mse_backward l x = Ok g /\
  derivable_pt_lim (fun t => reported (mse_forward tol) l (line x p t)) 0 d /\
  nth p g 0 <> / INR (Nat.max 1 1) * d.
Proof.
  set (l := set_target (loss_new 2 1) [1; 1] : lossl R).
  destruct (c33_mean_squared_gradient_actual 0 2 1 l [0; 0]) as (g & E & L & Hd);
    try reflexivity; [lia| |].
  { unfold l. cbn. unfold nofnat. cbn [nofZ NumR Z.of_nat]. lra. }
  destruct (Hd 0%nat ltac:(lia)) as (d & D & Ed & Eq).
  exists 0, l, [0; 0], g, 0%nat, d.
  split; [reflexivity|]. split; [reflexivity|]. split; [exact E|]. split; [exact D|].
  rewrite Eq. assert (X : d = -1).
  { rewrite Ed. unfold l. cbn [set_target ls_target nth]. simpl INR. lra. }
  rewrite X. simpl INR. lra.
Qed.
Print Assumptions c33_mean_squared_gradient_refuted.

(** Below the clamping bound the reported loss is constant but backward is not zero: the
    bound in the hypothesis of c33_cross_entropy_gradient is needed. *)
Theorem c33_cross_entropy_below_bound : exists (l : lossl R) x g,
  l = set_target (loss_new 1 1) [1] /\ length x = 1%nat /\ cce_backward l x = Ok [g] /\
  derivable_pt_lim (fun t => reported cce_forward l (line x 0 t)) 0 0 /\ g <> 0.
Proof.
  destruct eps_min as (Hme & He).
  set (l := set_target (loss_new 1 1) [1] : lossl R).
  exists l, [0]. eexists. split; [reflexivity|]. split; [reflexivity|].
  split; [reflexivity|]. split.
  - apply (derivable_pt_lim_locally_ext (fun _ => - 1 * ln neps) _ 0 (-1) neps); [lra| |apply dlim_const].
    intros z Hz. rewrite (cce_reported l (line [0] 0 z) 1) by (auto; reflexivity).
    unfold ce_value. cbn [line upd nth length Rsum]. unfold l. cbn [set_target ls_target nth].
    rewrite Rmax_right by lra. ring.
  - unfold cross_entropy_1. rewrite nmax_Rmax. cbn [nmul ndiv nopp NumR].
    assert (Hmp : 0 < (nmin : R)) by (change (nmin : R) with (/ 2 ^ 1022); apply Rinv_0_lt_compat, pow_lt; lra).
    rewrite Rmax_right by lra.
    unfold l. cbn [set_target loss_new ls_inv]. unfold nofnat. cbn [nofZ NumR Z.of_nat ndiv n1].
    assert (0 < / (nmin : R)) by now apply Rinv_0_lt_compat.
    simpl. unfold Rdiv in *. simpl in *. nra.
Qed.
Print Assumptions c33_cross_entropy_below_bound.

Example c33_hypotheses_met :
  let l := set_target (loss_new 2 3) [0; 1] : lossl R in
  length (ls_target l) = 2%nat /\ length (ls_grad l) = 2%nat /\
  ls_inv l = / INR (Nat.max 3 1) /\ (forall i, (i < 2)%nat -> / 2 ^ 52 < nth i [1; 2] 0).
Proof.
  cbv zeta. split; [reflexivity|]. split; [reflexivity|]. split.
  - cbn. unfold nofnat. cbn [nofZ NumR Z.of_nat]. simpl. lra.
  - intros i Hi.
    assert (H1 : / 2 ^ 52 < 1).
    { rewrite <- Rinv_1. apply Rinv_lt_contravar; [rewrite Rmult_1_l; apply pow_lt; lra|].
      apply Rlt_pow_R1; [lra|lia]. }
    destruct i as [|[|i]]; simpl nth; try lra; lia.
Qed.
