(** Backpropagation through chains of layers. *)
From Verif Require Import Base Num RSum MathModel MathProofs MathProofsR LayerModel GradSpec GradProofs.
From Coq Require Import Reals Lra.
Local Open Scope R_scope.

Lemma ddot_same n a b : ddot n a a b = 0.
Proof. apply Rsum_0. intros. ring. Qed.

Definition layer_sem (l : layer R) (x : list R) : list R :=
  match knd l with
  | KDense => dense_sem (length x) (length (out l)) (wts l) (bias l) x
  | KAct a => act_sem a x
  end.

Lemma layer_vjp (lc : lcurve) n k (c : R -> list R) v :
  layer_shape (base lc) n k -> lcurve_ok lc -> vec_deriv n c v ->
  layer_smooth (base lc) (c 0) ->
  exists y w, (forall t, layer_forward (at_t t lc) (c t) = Ok (set_out (at_t t lc) (y t))) /\
    vec_deriv k y w /\
    forall g, length g = k -> exists l',
      layer_backward (set_out (at_t 0 lc) (y 0)) (c 0) g = Ok l' /\ length (ig l') = n /\
      dotl k g w = dotl n (ig l') v
        + ddot (length (dw lc)) (wgrad l') (wgrad (base lc)) (dw lc)
        + ddot (length (db lc)) (bgrad l') (bgrad (base lc)) (db lc) /\
      wts l' = wts (base lc) /\ bias l' = bias (base lc).
Proof.
  intros (S1 & S2 & S3 & S4) (W0 & B0 & Dw & Db) Dc Hs.
  pose proof Dc as (Lc & Lv & _). pose proof Dw as (LW & LdW & _). pose proof Db as (LB & LdB & _).
  unfold layer_forward, layer_backward. cbn [knd at_t set_out out wts bias insz ig wgrad bgrad].
  unfold layer_smooth in Hs.
  destruct (knd (base lc)) as [|a] eqn:K.
  - destruct S4 as (A1 & A2 & A3 & A4).
    exists (fun t => dense_sem n k (cw lc t) (cb lc t) (c t)).
    rewrite A1 in *. rewrite A3 in *.
    pose proof (dense_vjp n k c (cw lc) (cb lc) v (dw lc) (db lc) (ig (base lc))
      (wgrad (base lc)) (bgrad (base lc)) (repeat 0 k) Dc Dw Db S2 A2 A4 (repeat_length _ _))
      as (w & _ & _ & _ & Dy & _).
    exists w. split; [|split; [exact Dy|]].
    + intros t. rewrite S3, Lc, dense_forward_sem by auto. reflexivity.
    + intros g Hg.
      destruct (dense_vjp n k c (cw lc) (cb lc) v (dw lc) (db lc) (ig (base lc))
        (wgrad (base lc)) (bgrad (base lc)) g Dc Dw Db S2 A2 A4 Hg)
        as (w' & i' & wg' & bg' & Dy' & E & L1 & _ & _ & _ & _ & _ & D).
      assert (w = w').
      { destruct Dy as (_ & Lw1 & D1). destruct Dy' as (_ & Lw2 & D2).
        apply (list_ext_nth 0); [congruence|]. intros i Hi. rewrite Lw1 in Hi.
        eapply uniqueness_limite; [apply D1|apply D2]; auto. }
      subst w'. rewrite S1, Hg, E. cbn [bind]. eexists. split; [reflexivity|].
      cbn [ig wgrad bgrad wts bias]. rewrite LdW, LdB. auto.
  - rewrite S4 in *. clear S4 k.
    exists (fun t => act_sem a (c t)).
    assert (Hn : act_needs a n) by (destruct a; simpl in *; auto; now rewrite Lc in Hs).
    destruct (act_vjp a n c v (ig (base lc)) (repeat 0 n) Dc Hs S2 (repeat_length _ _))
      as (w & _ & Dy & _).
    exists w. split; [|split; [exact Dy|]].
    + intros t. rewrite act_forward_sem; [reflexivity| |]; rewrite Lc; auto.
    + intros g Hg.
      destruct (act_vjp a n c v (ig (base lc)) g Dc Hs S2 Hg)
        as (w' & i' & Dy' & E & L1 & D).
      assert (w = w').
      { destruct Dy as (_ & Lw1 & D1). destruct Dy' as (_ & Lw2 & D2).
        apply (list_ext_nth 0); [congruence|]. intros i Hi. rewrite Lw1 in Hi.
        eapply uniqueness_limite; [apply D1|apply D2]; auto. }
      subst w'. rewrite E. cbn [bind]. eexists. split; [reflexivity|].
      cbn [set_ig set_out at_t ig wgrad bgrad wts bias].
      rewrite !ddot_same. split; [exact L1|]. split; [rewrite D; ring|]. auto.
Qed.

Theorem chain_vjp : forall (cs : list lcurve) n m (c : R -> list R) v,
  chain_shape (map base cs) n m -> Forall lcurve_ok cs -> vec_deriv n c v ->
  chain_smooth (map (at_t 0) cs) (c 0) ->
  exists (run : R -> list (layer R)) y w,
    (forall t, chain_forward (map (at_t t) cs) (c t) = Ok (run t, y t)) /\
    vec_deriv m y w /\
    forall g, length g = m -> exists ls' gx,
      chain_backward (run 0) (c 0) g = Ok (ls', gx) /\ length gx = n /\
      dotl m g w = dotl n gx v + param_terms cs ls' /\
      map wts ls' = map wts (map base cs) /\ map bias ls' = map bias (map base cs).
Proof.
  induction cs as [|lc cs IH]; intros n m c v Hsh Hok Dc Hs.
  - simpl in Hsh. subst m. exists (fun _ => []), c, v. split; [reflexivity|].
    split; [exact Dc|]. intros g Hg. exists [], g. simpl.
    split; [reflexivity|]. split; [exact Hg|]. split; [|auto]. ring.
  - cbn [map chain_shape] in Hsh. destruct Hsh as (k & S1 & S2).
    inversion Hok as [|? ? O1 O2]; subst.
    cbn [map chain_smooth] in Hs. destruct Hs as (H1 & H2).
    destruct (layer_vjp lc n k c v S1 O1 Dc) as (y1 & w1 & F1 & D1 & B1).
    { unfold layer_smooth in *. exact H1. }
    destruct (IH k m y1 w1 S2 O2 D1) as (run & y & w & F & D & B).
    { specialize (H2 _ (F1 0)). exact H2. }
    exists (fun t => set_out (at_t t lc) (y1 t) :: run t), y, w.
    split; [|split; [exact D|]].
    + intros t. cbn [map chain_forward]. rewrite F1. cbn [bind set_out out].
      rewrite F. reflexivity.
    + intros g Hg. destruct (B g Hg) as (ls' & gx & E & L & Q & P1 & P2).
      destruct (B1 gx L) as (l' & E1 & L1 & Q1 & R1 & R2).
      exists (l' :: ls'), (ig l'). cbn [chain_backward set_out out]. rewrite E. cbn [bind].
      rewrite E1. cbn [bind].
      split; [reflexivity|]. split; [exact L1|]. split.
      * rewrite Q, Q1. cbn [param_terms]. ring.
      * cbn [map]. split; f_equal; auto.
Qed.

(** *** Partial derivatives *)
Definition frozen (l : layer R) : lcurve :=
  mkLcurve l (fun _ => wts l) (fun _ => bias l)
    (repeat 0 (length (wts l))) (repeat 0 (length (bias l))).

Lemma nth_repeat0 n i : nth i (repeat 0 n) 0 = 0.
Proof.
  destruct (Nat.lt_ge_cases i n).
  - now rewrite nth_repeat.
  - apply nth_overflow. now rewrite repeat_length.
Qed.

Lemma ddot_zero n a b m : ddot n a b (repeat 0 m) = 0.
Proof. apply Rsum_0. intros. rewrite nth_repeat0. ring. Qed.

Lemma const_deriv l : vec_deriv (length l) (fun _ => l) (repeat 0 (length l)).
Proof.
  split; [reflexivity|]. split; [apply repeat_length|]. intros i Hi.
  rewrite nth_repeat0. apply dlim_const.
Qed.

Lemma frozen_ok l : lcurve_ok (frozen l).
Proof.
  split; [reflexivity|]. split; [reflexivity|].
  split; [apply (const_deriv (wts l))|apply (const_deriv (bias l))].
Qed.

Lemma at_t_frozen t l : at_t t (frozen l) = l.
Proof. now destruct l. Qed.

Lemma map_at_frozen t ls : map (at_t t) (map frozen ls) = ls.
Proof. rewrite map_map. rewrite (map_ext _ (fun l => l)) by apply at_t_frozen. apply map_id. Qed.

Lemma map_base_frozen ls : map base (map frozen ls) = ls.
Proof. rewrite map_map. cbn [frozen base]. apply map_id. Qed.

Lemma param_terms_frozen ls ls' : param_terms (map frozen ls) ls' = 0.
Proof.
  revert ls'. induction ls as [|l ls IH]; intros [|l' ls']; simpl; auto.
  rewrite !ddot_zero, IH. ring.
Qed.

Lemma Forall_frozen ls : Forall lcurve_ok (map frozen ls).
Proof. induction ls; simpl; constructor; auto. apply frozen_ok. Qed.

(** The curve moving coordinate [p]. *)
Definition line (x : list R) (p : nat) (t : R) : list R := upd x p (nth p x 0 + t).
Definition unit_vec (n p : nat) : list R := tab n (fun i => if (i =? p)%nat then 1 else 0).

Lemma line_0 x p : line x p 0 = x.
Proof.
  unfold line. rewrite Rplus_0_r. apply (list_ext_nth 0); [apply upd_length|].
  intros i Hi. rewrite upd_length in Hi. destruct (Nat.eq_dec i p) as [->|Hne].
  - rewrite nth_upd_eq by auto. reflexivity.
  - now rewrite nth_upd_neq by auto.
Qed.

Lemma line_deriv x p : (p < length x)%nat -> vec_deriv (length x) (line x p) (unit_vec (length x) p).
Proof.
  intros Hp. split; [intros; apply upd_length|]. split; [apply tab_length|].
  intros i Hi. unfold unit_vec. rewrite nth_tab by auto. unfold line.
  destruct (Nat.eqb_spec i p) as [->|Hne].
  - apply (derivable_pt_lim_ext (fun t => nth p x 0 + t)).
    + intros z. now rewrite nth_upd_eq.
    + eapply dlim_eq; [apply (dlim_plus (fun _ => nth p x 0) (fun t => t));
        [apply dlim_const|apply dlim_id]|ring].
  - apply (derivable_pt_lim_ext (fun t => nth i x 0)); [|apply dlim_const].
    intros z. now rewrite nth_upd_neq.
Qed.

Lemma dotl_unit n a p : (p < n)%nat -> dotl n a (unit_vec n p) = nth p a 0.
Proof.
  intros Hp. unfold dotl. rewrite (Rsum_single n p); auto.
  - unfold unit_vec. rewrite nth_tab, Nat.eqb_refl by auto. ring.
  - intros i Hi Hne. unfold unit_vec. rewrite nth_tab by auto.
    destruct (Nat.eqb_spec i p); [contradiction|]. ring.
Qed.

Lemma ddot_unit n a b p : (p < n)%nat -> ddot n a b (unit_vec n p) = nth p a 0 - nth p b 0.
Proof.
  intros Hp. unfold ddot. rewrite (Rsum_single n p); auto.
  - unfold unit_vec. rewrite nth_tab, Nat.eqb_refl by auto. ring.
  - intros i Hi Hne. unfold unit_vec. rewrite nth_tab by auto.
    destruct (Nat.eqb_spec i p); [contradiction|]. ring.
Qed.

Lemma dotl_zero n a m : dotl n a (repeat 0 m) = 0.
Proof. apply Rsum_0. intros. rewrite nth_repeat0. ring. Qed.

Lemma dotl_deriv m g y w : vec_deriv m y w ->
  derivable_pt_lim (fun t => dotl m g (y t)) 0 (dotl m g w).
Proof.
  intros (_ & _ & D). unfold dotl.
  apply (dlim_Rsum m (fun i t => nth i g 0 * nth i (y t) 0)). intros i Hi.
  eapply dlim_eq; [apply (dlim_mult (fun _ => nth i g 0) (fun t => nth i (y t) 0));
    [apply dlim_const|now apply D]|]. ring.
Qed.

(** Layer [q] of [ls] with weight [p] (or bias [p]) moved by [t]. *)
Definition with_weight (l : layer R) (p : nat) (t : R) : layer R :=
  mkLayer (knd l) (insz l) (line (wts l) p t) (bias l) (wgrad l) (bgrad l) (out l) (ig l).
Definition with_bias (l : layer R) (p : nat) (t : R) : layer R :=
  mkLayer (knd l) (insz l) (wts l) (line (bias l) p t) (wgrad l) (bgrad l) (out l) (ig l).

Definition wcurve (l : layer R) (p : nat) : lcurve :=
  mkLcurve l (line (wts l) p) (fun _ => bias l)
    (unit_vec (length (wts l)) p) (repeat 0 (length (bias l))).
Definition bcurve (l : layer R) (p : nat) : lcurve :=
  mkLcurve l (fun _ => wts l) (line (bias l) p)
    (repeat 0 (length (wts l))) (unit_vec (length (bias l)) p).

Lemma param_terms_mid pre c post ls1 l ls2 : length ls1 = length pre ->
  param_terms (map frozen pre ++ c :: map frozen post) (ls1 ++ l :: ls2) =
  ddot (length (dw c)) (wgrad l) (wgrad (base c)) (dw c)
  + ddot (length (db c)) (bgrad l) (bgrad (base c)) (db c).
Proof.
  revert ls1. induction pre as [|a pre IH]; intros [|l1 ls1] HL; simpl in HL; try discriminate.
  - cbn [map app param_terms]. rewrite param_terms_frozen. ring.
  - cbn [map app param_terms]. rewrite IH by lia. cbn [frozen dw db]. rewrite !ddot_zero. ring.
Qed.

Section Mid.
Variables (pre post : list (layer R)) (l : layer R) (lc : lcurve) (n m : nat) (x g : list R).
Hypothesis Hb : base lc = l.
Hypothesis Hok : lcurve_ok lc.
Hypothesis Hsh : chain_shape (pre ++ l :: post) n m.
Hypothesis Hx : length x = n.
Hypothesis Hg : length g = m.
Hypothesis Hsm : chain_smooth (pre ++ l :: post) x.

Lemma chain_mid : exists run y ls1 l' ls2 gx,
  (forall t, chain_forward (pre ++ at_t t lc :: post) x = Ok (run t, y t)) /\
  chain_backward (run 0) x g = Ok (ls1 ++ l' :: ls2, gx) /\ length ls1 = length pre /\
  derivable_pt_lim (fun t => dotl m g (y t)) 0
    (ddot (length (dw lc)) (wgrad l') (wgrad l) (dw lc)
     + ddot (length (db lc)) (bgrad l') (bgrad l) (db lc)).
Proof.
  set (cs := map frozen pre ++ lc :: map frozen post).
  assert (Mb : map base cs = pre ++ l :: post).
  { unfold cs. rewrite map_app. cbn [map]. now rewrite !map_base_frozen, Hb. }
  assert (Ma : forall t, map (at_t t) cs = pre ++ at_t t lc :: post).
  { intros t. unfold cs. rewrite map_app. cbn [map]. now rewrite !map_at_frozen. }
  assert (A0 : at_t 0 lc = l).
  { destruct Hok as (W & B & _). unfold at_t. rewrite W, B, Hb. now destruct l. }
  destruct (chain_vjp cs n m (fun _ => x) (repeat 0 n)) as (run & y & w & F & D & B).
  - now rewrite Mb.
  - unfold cs. apply Forall_app. split; [apply Forall_frozen|]. constructor; auto.
    apply Forall_frozen.
  - rewrite <- Hx. apply const_deriv.
  - rewrite Ma, A0. exact Hsm.
  - destruct (B g Hg) as (ls' & gx & E & L & Q & P1 & P2).
    assert (LL : length ls' = length (pre ++ l :: post)).
    { rewrite <- (map_length wts ls'), P1, !map_length, <- Mb, map_length. reflexivity. }
    destruct (nth_error ls' (length pre)) as [l'|] eqn:En.
    2:{ apply nth_error_None in En. rewrite LL, app_length in En. simpl in En. lia. }
    apply nth_error_split in En. destruct En as (ls1 & ls2 & -> & HL).
    exists run, y, ls1, l', ls2, gx. split; [|split; [exact E|split; [exact HL|]]].
    + intros t. rewrite <- Ma. apply F.
    + eapply dlim_eq; [apply dotl_deriv; exact D|].
      rewrite Q, dotl_zero. unfold cs. rewrite param_terms_mid by auto. rewrite Hb. ring.
Qed.
End Mid.
