(** Limits of computed values. *)
From Coq Require Import Reals Lra Lia.
From Verif Require Import Base Num RSum MathModel RoundModel RoundSpec RoundProofs GradProofs LimitSpec.
Local Open Scope R_scope.

Lemma ev_true (P : arith -> Prop) : (forall a, P a) -> eventually P.
Proof. intros HP. exists 1. split; [lra|]. auto. Qed.
Lemma ev_and (P Q : arith -> Prop) : eventually P -> eventually Q -> eventually (fun a => P a /\ Q a).
Proof.
  intros (u & Hu & HP) (v & Hv & HQ). exists (Rmin u v). split; [now apply Rmin_pos|].
  intros a Ha. pose proof (Rmin_l u v). pose proof (Rmin_r u v). split; [apply HP|apply HQ]; lra.
Qed.
Lemma ev_mono (P Q : arith -> Prop) : (forall a, P a -> Q a) -> eventually P -> eventually Q.
Proof. intros HPQ (u & Hu & HP). exists u. split; [exact Hu|]. auto. Qed.
Lemma ev_and_mono (P Q S : arith -> Prop) : eventually P -> eventually Q -> (forall a, P a -> Q a -> S a) -> eventually S.
Proof. intros HP HQ HS. apply (ev_mono _ _ (fun a '(conj p q) => HS a p q)). now apply ev_and. Qed.
Lemma ev_unit u0 : 0 < u0 -> eventually (fun a => a_unit a <= u0).
Proof. intros Hu. exists u0. auto. Qed.
Lemma ev_all (P : nat -> arith -> Prop) n : (forall i, (i < n)%nat -> eventually (P i)) ->
  eventually (fun a => forall i, (i < n)%nat -> P i a).
Proof.
  induction n as [|n IH]; intros HP.
  - apply ev_true. intros a i Hi. lia.
  - apply (ev_and_mono _ _ _ (IH ltac:(intros; apply HP; lia)) (HP n ltac:(lia))).
    intros a A B i Hi. destruct (Nat.eq_dec i n) as [->|]; [exact B|apply A; lia].
Qed.

Lemma unit_pos a : 0 <= a_unit a.
Proof.
  pose proof (pr_err _ _ (a_precise a) 1) as E. rewrite Rabs_R1 in E. pose proof (Rabs_pos (a_rnd a 1 - 1)). lra.
Qed.

Lemma tends_const x : tends (fun _ => x) x.
Proof. intros eps He. apply ev_true. intros a. rewrite Rminus_diag_eq by reflexivity. rewrite Rabs_R0. lra. Qed.
Lemma tends_ext f g x : (forall a, f a = g a) -> tends f x -> tends g x.
Proof. intros E Hf eps He. apply (ev_mono (fun a => Rabs (f a - x) <= eps)); [|now apply Hf]. intros a. now rewrite E. Qed.
Lemma tends_plus f g x y : tends f x -> tends g y -> tends (fun a => f a + g a) (x + y).
Proof.
  intros Hf Hg eps He.
  apply (ev_and_mono _ _ _ (Hf (eps / 2) ltac:(lra)) (Hg (eps / 2) ltac:(lra))). intros a A B.
  replace (f a + g a - (x + y)) with ((f a - x) + (g a - y)) by ring.
  eapply Rle_trans; [apply Rabs_triang|]. lra.
Qed.
Lemma tends_opp f x : tends f x -> tends (fun a => - f a) (- x).
Proof.
  intros Hf eps He. apply (ev_mono (fun a => Rabs (f a - x) <= eps)); [|now apply Hf]. intros a.
  replace (- f a - - x) with (- (f a - x)) by ring. now rewrite Rabs_Ropp.
Qed.
Lemma tends_minus f g x y : tends f x -> tends g y -> tends (fun a => f a - g a) (x - y).
Proof. intros Hf Hg. apply tends_plus; [exact Hf|now apply tends_opp]. Qed.

(** Continuity. *)
Lemma tends_cont (h : R -> R) f x : continuity_pt h x -> tends f x -> tends (fun a => h (f a)) (h x).
Proof.
  intros Hc Hf eps He. destruct (Hc eps He) as (d & Hd & HD). 
  apply (ev_mono (fun a => Rabs (f a - x) <= d / 2)); [|apply Hf; lra]. intros a Ha.
  destruct (Req_dec (f a) x) as [->|Hne].
  - rewrite Rminus_diag_eq by reflexivity. rewrite Rabs_R0. lra.
  - left. apply HD. split; [split; [exact I|auto]|]. simpl. unfold R_dist. lra.
Qed.
Lemma tends_mult f g x y : tends f x -> tends g y -> tends (fun a => f a * g a) (x * y).
Proof.
  intros Hf Hg.
  assert (SQ : forall h z, tends h z -> tends (fun a => (h a) * (h a)) (z * z)).
  { intros h z Hh. apply (tends_cont (fun r => r * r)); [|exact Hh].
    apply derivable_continuous_pt. apply derivable_pt_mult; apply derivable_pt_id. }
  assert (HF : forall h z, tends h z -> tends (fun a => h a * / 4) (z * / 4)).
  { intros h z Hh. apply (tends_cont (fun r => r * / 4)); [|exact Hh].
    apply derivable_continuous_pt. apply derivable_pt_mult; [apply derivable_pt_id|apply derivable_pt_const]. }
  pose proof (SQ _ _ (tends_plus _ _ _ _ Hf Hg)) as A.
  pose proof (SQ _ _ (tends_minus _ _ _ _ Hf Hg)) as B.
  pose proof (HF _ _ (tends_minus _ _ _ _ A B)) as C. cbv beta in C.
  replace (x * y) with (((x + y) * (x + y) - (x - y) * (x - y)) * / 4) by field.
  eapply tends_ext; [|exact C]. intros a. cbv beta. field.
Qed.
Lemma tends_inv f x : x <> 0 -> tends f x -> tends (fun a => / f a) (/ x).
Proof.
  intros Hx Hf. apply (tends_cont Rinv); [|exact Hf].
  apply (continuity_pt_inv (fun r => r)); [|exact Hx]. apply derivable_continuous_pt, derivable_pt_id.
Qed.

(** One rounded operation. *)
Lemma tends_rnd f x : tends f x -> tends (fun a => a_rnd a (f a)) x.
Proof.
  intros Hf eps He.
  set (B := Rabs x + 1). assert (HB : 0 < B) by (unfold B; pose proof (Rabs_pos x); lra).
  assert (Hu : 0 < eps / 2 / B) by (apply Rmult_lt_0_compat; [lra|now apply Rinv_0_lt_compat]).
  apply (ev_and_mono _ _ _ (ev_and _ _ (Hf 1 ltac:(lra)) (Hf (eps / 2) ltac:(lra))) (ev_unit _ Hu)).
  intros a (H1 & H2) H3.
  replace (a_rnd a (f a) - x) with ((a_rnd a (f a) - f a) + (f a - x)) by ring.
  eapply Rle_trans; [apply Rabs_triang|].
  pose proof (pr_err _ _ (a_precise a) (f a)) as E.
  assert (Rabs (f a) <= B).
  { unfold B. replace (f a) with ((f a - x) + x) by ring. eapply Rle_trans; [apply Rabs_triang|]. lra. }
  assert (a_unit a * Rabs (f a) <= eps / 2 / B * B).
  { apply Rmult_le_compat; auto using unit_pos, Rabs_pos. }
  replace (eps / 2 / B * B) with (eps / 2) in * by (field; lra). lra.
Qed.
Lemma tends_nadd f g x y : tends f x -> tends g y -> tends (fun a => @nadd R (a_num a) (f a) (g a)) (x + y).
Proof. intros Hf Hg. apply tends_rnd. now apply tends_plus. Qed.
Lemma tends_nsub f g x y : tends f x -> tends g y -> tends (fun a => @nsub R (a_num a) (f a) (g a)) (x - y).
Proof. intros Hf Hg. apply tends_rnd. now apply tends_minus. Qed.
Lemma tends_nmul f g x y : tends f x -> tends g y -> tends (fun a => @nmul R (a_num a) (f a) (g a)) (x * y).
Proof. intros Hf Hg. apply tends_rnd. now apply tends_mult. Qed.
Lemma tends_ndiv f g x y : y <> 0 -> tends f x -> tends g y -> tends (fun a => @ndiv R (a_num a) (f a) (g a)) (x / y).
Proof. intros Hy Hf Hg. apply tends_rnd. apply tends_mult; [exact Hf|now apply tends_inv]. Qed.
Lemma tends_nofZ z : tends (fun a => @nofZ R (a_num a) z) (IZR z).
Proof. apply tends_rnd. apply tends_const. Qed.
Lemma tends_nexp f x : tends f x -> tends (fun a => @nexp R (a_fun a) (f a)) (exp x).
Proof.
  intros Hf. 
  assert (HE : tends (fun a => exp (f a)) (exp x)).
  { apply (tends_cont exp); [|exact Hf]. apply derivable_continuous_pt, derivable_pt_exp. }
  intros eps He. set (B := exp x + 1). assert (HB : 0 < B) by (unfold B; pose proof (exp_pos x); lra).
  assert (Hu : 0 < eps / 2 / B) by (apply Rmult_lt_0_compat; [lra|now apply Rinv_0_lt_compat]).
  apply (ev_and_mono _ _ _ (ev_and _ _ (HE 1 ltac:(lra)) (HE (eps / 2) ltac:(lra))) (ev_unit _ Hu)).
  intros a (H1 & H2) H3.
  replace (@nexp R (a_fun a) (f a) - exp x) with ((@nexp R (a_fun a) (f a) - exp (f a)) + (exp (f a) - exp x)) by ring.
  eapply Rle_trans; [apply Rabs_triang|].
  pose proof (ac_exp _ _ (a_accurate a) (f a)) as E.
  assert (exp (f a) <= B).
  { unfold B. pose proof (Rle_abs (exp (f a) - exp x)). lra. }
  assert (a_unit a * exp (f a) <= eps / 2 / B * B).
  { apply Rmult_le_compat; auto using unit_pos. left. apply exp_pos. }
  replace (eps / 2 / B * B) with (eps / 2) in * by (field; lra). lra.
Qed.
Lemma tends_ntanh f x : tends f x -> tends (fun a => @ntanh R (a_fun a) (f a)) (tanh x).
Proof.
  intros Hf. 
  assert (HE : tends (fun a => tanh (f a)) (tanh x)).
  { apply (tends_cont tanh); [|exact Hf]. apply derivable_continuous_pt. exists (tanh_1_opt (tanh x)). apply dlim_tanh. }
  intros eps He.
  apply (ev_and_mono _ _ _ (HE (eps / 2) ltac:(lra)) (ev_unit (eps / 2) ltac:(lra))).
  intros a H2 H3.
  replace (@ntanh R (a_fun a) (f a) - tanh x) with ((@ntanh R (a_fun a) (f a) - tanh (f a)) + (tanh (f a) - tanh x)) by ring.
  eapply Rle_trans; [apply Rabs_triang|].
  pose proof (ac_tanh _ _ (a_accurate a) (f a)) as E.
  assert (Rabs (tanh (f a)) <= 1).
  { pose proof (tanh_bounds (f a)). apply Rabs_le. lra. }
  assert (a_unit a * Rabs (tanh (f a)) <= eps / 2 * 1).
  { apply Rmult_le_compat; auto using unit_pos, Rabs_pos. }
  lra.
Qed.

(** Branches on a comparison. *)
Lemma Rabs_between a b : Rabs a <= b -> - b <= a <= b.
Proof. pose proof (Rle_abs a). pose proof (Rle_abs (- a)) as Q. rewrite Rabs_Ropp in Q. lra. Qed.
Lemma tends_if (b : arith -> bool) f g v : tends f v -> tends g v -> tends (fun a => if b a then f a else g a) v.
Proof.
  intros Hf Hg eps He. apply (ev_and_mono _ _ _ (Hf eps He) (Hg eps He)). intros a A B. destruct (b a); assumption.
Qed.
Lemma tends_ev f g v : eventually (fun a => g a = f a) -> tends f v -> tends g v.
Proof. intros He Hf eps Hp. apply (ev_and_mono _ _ _ He (Hf eps Hp)). intros a ->. auto. Qed.
Lemma ev_lt f g x y : tends f x -> tends g y -> x < y -> eventually (fun a => Rltb (f a) (g a) = true).
Proof.
  intros Hf Hg Hxy. set (e := (y - x) / 3).
  apply (ev_and_mono _ _ _ (Hf e ltac:(unfold e; lra)) (Hg e ltac:(unfold e; lra))). intros a A B.
  apply Rltb_true. apply Rabs_between in A, B. unfold e in *. lra.
Qed.
Lemma ev_gt f g x y : tends f x -> tends g y -> y < x -> eventually (fun a => Rltb (f a) (g a) = false).
Proof.
  intros Hf Hg Hxy. set (e := (x - y) / 3).
  apply (ev_and_mono _ _ _ (Hf e ltac:(unfold e; lra)) (Hg e ltac:(unfold e; lra))). intros a A B.
  apply Rltb_false. apply Rabs_between in A, B. unfold e in *. lra.
Qed.
(** [if f < g then p else q]: both branches must agree where f = g in the limit. *)
Lemma tends_cmp f g x y p q vp vq : tends f x -> tends g y -> tends p vp -> tends q vq -> (x = y -> vp = vq) ->
  tends (fun a => if Rltb (f a) (g a) then p a else q a) (if Rltb x y then vp else vq).
Proof.
  intros Hf Hg Hp Hq Heq. destruct (Rtotal_order x y) as [Hlt|[He|Hgt]].
  - replace (Rltb x y) with true by (symmetry; now apply Rltb_true).
    apply (tends_ev p); [|exact Hp]. apply (ev_mono (fun a => Rltb (f a) (g a) = true)); [intros a E; now rewrite E|].
    now apply (ev_lt f g x y).
  - specialize (Heq He). subst vq. destruct (Rltb x y); now apply tends_if.
  - replace (Rltb x y) with false by (symmetry; apply Rltb_false; lra).
    apply (tends_ev q); [|exact Hq]. apply (ev_mono (fun a => Rltb (f a) (g a) = false)); [intros a E; now rewrite E|].
    now apply (ev_gt f g x y).
Qed.
Lemma tends_nmax f g x y : tends f x -> tends g y -> tends (fun a => @nmax R (a_num a) (f a) (g a)) (@nmax R NumR x y).
Proof. intros Hf Hg. unfold nmax. apply (tends_cmp f g x y g f y x); auto. Qed.

(** Sums. *)
Lemma tends_nsum_from (s : arith -> R) s0 (F : arith -> nat -> R) (f : nat -> R) n :
  tends s s0 -> (forall i, (i < n)%nat -> tends (fun a => F a i) (f i)) ->
  tends (fun a => @nsum_from R (a_num a) (s a) n (F a)) (@nsum_from R NumR s0 n f).
Proof.
  intros Hs. induction n as [|n IH]; intros HF; [exact Hs|].
  apply (tends_ext (fun a => @nadd R (a_num a) (@nsum_from R (a_num a) (s a) n (F a)) (F a n))).
  - intros a. now rewrite nsum_from_S.
  - rewrite nsum_from_S. apply tends_nadd; [apply IH; intros; apply HF; lia|apply HF; lia].
Qed.
Lemma tends_nsum (F : arith -> nat -> R) (f : nat -> R) n :
  (forall i, (i < n)%nat -> tends (fun a => F a i) (f i)) ->
  tends (fun a => @nsum R (a_num a) n (F a)) (@nsum R NumR n f).
Proof. intros HF. unfold nsum. apply tends_nsum_from; [exact (tends_const 0)|exact HF]. Qed.

(** Vectors. *)
Lemma vtends_tab n (F : arith -> nat -> R) f : (forall i, (i < n)%nat -> tends (fun a => F a i) (f i)) ->
  vtends (fun a => tab n (F a)) (tab n f).
Proof.
  intros HF. split; [intros a; now rewrite !tab_length|]. intros i.
  destruct (Nat.lt_ge_cases i n) as [Hi|Hi].
  - rewrite nth_tab by exact Hi. apply (tends_ext (fun a => F a i)); [|now apply HF].
    intros a. now rewrite nth_tab.
  - rewrite nth_overflow by (now rewrite tab_length).
    apply (tends_ext (fun _ => 0)); [|apply tends_const]. intros a. now rewrite nth_overflow by (now rewrite tab_length).
Qed.
Lemma vtends_const x : vtends (fun _ => x) x.
Proof. split; [auto|]. intros i. apply tends_const. Qed.
Lemma vtends_ext f g x : (forall a, f a = g a) -> vtends f x -> vtends g x.
Proof.
  intros E (L & Hf). split; [intros a; now rewrite <- E|]. intros i.
  apply (tends_ext (fun a => List.nth i (f a) 0)); [|apply Hf]. intros a. now rewrite E.
Qed.
(** From lengths and entries in range. *)
Lemma vtends_intro f x n : length x = n -> (forall a, length (f a) = n) ->
  (forall i, (i < n)%nat -> tends (fun a => List.nth i (f a) 0) (List.nth i x 0)) -> vtends f x.
Proof.
  intros Lx Lf HF. split; [intros a; now rewrite Lf|]. intros i.
  destruct (Nat.lt_ge_cases i n) as [Hi|Hi]; [now apply HF|].
  rewrite nth_overflow by lia. apply (tends_ext (fun _ => 0)); [|apply tends_const].
  intros a. rewrite nth_overflow; [reflexivity|]. rewrite Lf. lia.
Qed.
