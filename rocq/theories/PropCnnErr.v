(** C94: how far the predictions of convolutional networks computed with doubles are from the exact
    ones. *)
From Coq Require Import Reals Lra Lia.
From Verif Require Import Base Num RSum MathModel MathProofs MathProofsR DumpModel LayerModel LossModel GradProofs GradChain OptModel GraphModel GraphProofs ModelModel NodeModel ChainProofs ModelProofs PropGraph PropModel PropMath FloatModel FloatProofs FloatIeee PropFloat DriftProofs.
From Verif Require Import ConvModel ConvSpec ConvProofs PropConv CnnModel CnnSpec CnnProofs StepProofs PropCnn CnnDriftProofs PropErr.
Local Open Scope R_scope.
#[local] Existing Instances NumD TransD LimD.

(** *** Specification *)
(** The layer with the same numbers, as reals *)
Definition exactk (k : losskind dbl) : losskind R := match k with CCE => CCE | MSE t => MSE (dval t) end.
Definition exactc (s : cnode dbl) : cnode R :=
  match s with
  | CL l => CL (exactl l)
  | CV c => CV (mkConv (cv_H c) (cv_W c) (cv_C c) (cv_kh c) (cv_kw c) (cv_nf c) (cv_sh c) (cv_sw c) (cv_ph c) (cv_pw c) (cv_oh c) (cv_ow c)
      (map dval (cv_w c)) (map dval (cv_b c)) (map dval (cv_wg c)) (map dval (cv_bg c)) (map dval (cv_out c)) (map dval (cv_ig c)))
  | CP p => CP (mkPool (pl_max p) (pl_H p) (pl_W p) (pl_C p) (pl_kh p) (pl_kw p) (pl_sh p) (pl_sw p) (map dval (pl_out p)) (map dval (pl_ig p)))
  | CO k l => CO (exactk k) (loss_new (ls_in l) 1)
  end.
(** Adding [n] numbers of size at most [X]: bounds for the sums and for their error *)
Fixpoint added (n : nat) (X : R) : R * R :=
  match n with O => (0, 0) | S n => let (s, e) := added n X in (rounded_up (s + X), e + roff (s + X)) end.
(** The error a layer makes itself, for inputs of size at most [X]: max pooling makes none. *)
Definition cround1 (del : R) (s : cnode dbl) (X : R) : R :=
  match s with
  | CL l => round1 del l X
  | CV c => snd (summed (cv_kh c * cv_kw c * cv_C c) (X * largest (map dval (cv_w c))) 0)
  | CP p => if pl_max p then 0 else let n := (pl_kh p * pl_kw p)%nat in snd (added n X) / INR n + roff (fst (added n X) / INR n)
  | CO _ _ => 0
  end.
(** No overflow *)
Definition csafe1 (a : fpu) (s : cnode dbl) (X : R) : Prop :=
  match s with
  | CL l => safe1 a l X
  | CV c => fst (summed (cv_kh c * cv_kw c * cv_C c) (X * largest (map dval (cv_w c))) 0) <= big a
  | CP p => pl_max p = false -> fst (added (pl_kh p * pl_kw p) X) <= big a /\ (Z.of_nat (pl_kh p * pl_kw p) <= 2 ^ 53)%Z
  | CO _ _ => True
  end.
(** Inputs of size at most [X], with an error of at most [e] *)
Fixpoint crounded (del : R) (ss : list (cnode dbl)) (X e : R) : R * R :=
  match ss with
  | [] => (X, e)
  | s :: ss => let (X1, e1) := cdrift1 0 (exactc s) X e in crounded del ss X1 (e1 + cround1 del s (X + e))
  end.
Fixpoint csafe (a : fpu) (del : R) (ss : list (cnode dbl)) (X e : R) : Prop :=
  match ss with
  | [] => True
  | s :: ss => csafe1 a s (X + e) /\ let (X1, e1) := cdrift1 0 (exactc s) X e in csafe a del ss X1 (e1 + cround1 del s (X + e))
  end.
(** Weights and, where they are used, biases are finite. *)
Definition finite_node (a : fpu) (s : cnode dbl) : Prop :=
  match s with CL l => finite_layer a l | CV c => Forall (fin a) (cv_w c) | _ => True end.
(** A convolutional network of doubles: as [cnn]. *)
Fixpoint dshape (ss : list (cnode dbl)) (n k : nat) : Prop :=
  match ss with [] => n = k | s :: r => exists j, cnode_shape s n j /\ dshape r j k end.
Record dcnn (m : model (cnode dbl)) (ss : list (cnode dbl)) (kd : losskind dbl) (lo : lossl dbl) (n k : nat) : Prop := {
  dc_graph : is_chain true (length ss) (mgraph m);
  dc_some : (1 <= length ss)%nat;
  dc_nodes : map fst (mnodes m) = ss ++ [CO kd lo];
  dc_shape : dshape ss n k;
  dc_grad : length (ls_grad lo) = k
}.

(** *** Layers *)
Section CErr.
Context (a : fpu) (IE : ieee a) (del : R) (AC : accurate a del).
Notation fl := (fl a). Notation big := (big a). Notation fin := (fin a).
Notation z0 := (DFin false 0). Notation approx := (approx a). Notation apps := (apps a).
Lemma app_eq x r q e : approx x r e -> r = q -> approx x q e.
Proof. now intros A <-. Qed.
Lemma summed_S n p b : 0 <= p -> 0 <= b -> fst (summed n p b) <= fst (summed (S n) p b) /\ snd (summed n p b) <= snd (summed (S n) p b).
Proof.
  intros Pp Pb. destruct (summed_0 n p b Pp Pb) as (A & B & C). split; [exact C|]. cbn [summed] in *. destruct (summed n p b) as (s, e). cbn [fst snd] in *.
  pose proof (roff_pos p Pp). assert (0 <= s + rounded_up p) by (unfold rounded_up; lra). pose proof (roff_pos (s + rounded_up p) ltac:(assumption)). lra.
Qed.
Lemma csum_app (b : nat -> bool) (w x : nat -> dbl) A X n : 0 <= A -> 0 <= X -> (forall j, (j < n)%nat -> b j = true -> fin (w j) /\ fin (x j) /\ Rabs (dval (w j)) <= A /\ Rabs (dval (x j)) <= X) ->
  fst (summed n (A * X) 0) <= big -> approx (csum n b (fun j => nmul (w j) (x j))) (Rsum n (fun j => if b j then dval (w j) * dval (x j) else 0)) (snd (summed n (A * X) 0)) /\
    Rabs (dval (csum n b (fun j => nmul (w j) (x j)))) <= fst (summed n (A * X) 0).
Proof.
  intros PA PX. assert (PP : 0 <= A * X) by now apply Rmult_le_pos.
  induction n as [|n IH]; intros HB Bg; [cbn; split; [apply (app_self a z0), (fin_0 a IE)|rewrite Rabs_R0; lra]|].
  destruct (summed_0 n (A * X) 0 PP (Rle_refl 0)) as (Q1 & Q2 & _). destruct (summed_S n (A * X) 0 PP (Rle_refl 0)) as (Q3 & Q4).
  destruct (IH (fun j Hj => HB j ltac:(lia)) ltac:(lra)) as (As & Ls). rewrite csum_S. cbn [Rsum]. set (acc := csum n b (fun j => nmul (w j) (x j))) in *. destruct (b n) eqn:Eb.
  2:{ rewrite Rplus_0_r. split; [eapply app_weaken; [exact As|exact Q4]|lra]. }
  destruct (HB n ltac:(lia) Eb) as (Fw & Fx & Lw & Lx). cbn [summed] in *. destruct (summed n (A * X) 0) as (s, e). cbn [fst snd] in *.
  pose proof (roff_pos (A * X) PP) as R1. assert (S1 : 0 <= s + rounded_up (A * X)) by (unfold rounded_up; lra). pose proof (roff_pos _ S1) as R2.
  assert (Lp : Rabs (dval (w n) * dval (x n)) <= A * X) by (rewrite Rabs_mult; apply Rmult_le_compat; try apply Rabs_pos; assumption).
  assert (Mp : approx (dmul a (w n) (x n)) (dval (w n) * dval (x n)) (roff (A * X))) by (apply (mul_app a IE); auto; unfold rounded_up in *; lra).
  assert (Sp : Rabs (dval (dmul a (w n) (x n))) <= rounded_up (A * X)) by (pose proof (app_size _ _ _ _ Mp); unfold rounded_up; lra).
  assert (Sum : Rabs (dval acc + dval (dmul a (w n) (x n))) <= s + rounded_up (A * X)) by (eapply Rle_trans; [apply Rabs_triang|lra]).
  pose proof (add_app a IE _ _ _ _ _ _ _ As Mp Sum ltac:(unfold rounded_up in *; lra)) as Ad. change (nadd acc (nmul (w n) (x n))) with (dadd a acc (dmul a (w n) (x n))).
  split; [exact Ad|].
  destruct As as (Fa & _), Mp as (Fm & _). destruct (add_fin a _ _ Fa Fm) as (t & ->). pose proof (app_size _ _ _ _ (round_app a IE t _ _ Sum ltac:(unfold rounded_up in *; lra))). unfold rounded_up at 1. lra.
Qed.
Lemma added_0 n X : 0 <= X -> 0 <= fst (added n X) /\ 0 <= snd (added n X) /\ fst (added n X) <= fst (added (S n) X).
Proof.
  intros PX. assert (G : forall n, 0 <= fst (added n X) /\ 0 <= snd (added n X)).
  { clear n. induction n as [|n IH]; [cbn; lra|]. cbn [added]. destruct (added n X) as (s, e). cbn [fst snd] in *. pose proof (roff_pos (s + X) ltac:(lra)). unfold rounded_up. lra. }
  destruct (G n) as (A & B). split; [exact A|]. split; [exact B|]. cbn [added]. destruct (added n X) as (s, e). cbn [fst snd] in *. pose proof (roff_pos (s + X) ltac:(lra)). unfold rounded_up. lra.
Qed.
Lemma nsum_app (x : nat -> dbl) X n : 0 <= X -> (forall j, (j < n)%nat -> fin (x j) /\ Rabs (dval (x j)) <= X) -> fst (added n X) <= big ->
  approx (nsum n x) (Rsum n (fun j => dval (x j))) (snd (added n X)) /\ Rabs (dval (nsum n x)) <= fst (added n X).
Proof.
  intros PX. induction n as [|n IH]; intros HB Bg; [cbn; split; [apply (app_self a z0), (fin_0 a IE)|rewrite Rabs_R0; lra]|].
  destruct (added_0 n X PX) as (Q1 & Q2 & Q3). destruct (IH (fun j Hj => HB j ltac:(lia)) ltac:(lra)) as (As & Ls). unfold nsum in *. rewrite nsum_from_S. cbn [Rsum]. set (acc := nsum_from n0 n x) in *.
  destruct (HB n ltac:(lia)) as (Fx & Lx). cbn [added] in *. destruct (added n X) as (s, e). cbn [fst snd] in *. pose proof (roff_pos (s + X) ltac:(lra)) as R2.
  assert (Sum : Rabs (dval acc + dval (x n)) <= s + X) by (eapply Rle_trans; [apply Rabs_triang|lra]).
  pose proof (add_app a IE _ _ _ _ _ _ _ As (app_self a _ Fx) Sum ltac:(unfold rounded_up in *; lra)) as Ad. rewrite Rplus_0_r in Ad. change (nadd acc (x n)) with (dadd a acc (x n)). split; [exact Ad|].
  destruct As as (Fa & _). destruct (add_fin a _ _ Fa Fx) as (t & ->). pose proof (app_size _ _ _ _ (round_app a IE t _ _ Sum ltac:(unfold rounded_up in *; lra))). unfold rounded_up at 1. lra.
Qed.
Lemma ofnat_fin n : (Z.of_nat n <= 2 ^ 53)%Z -> fin (nofnat n) /\ dval (nofnat n) = INR n.
Proof.
  intros B. change (@nofnat dbl (NumD a) n) with (dround a false (IZR (Z.of_nat n))). pose proof (ie_int a IE (Z.of_nat n) ltac:(lia)) as E.
  destruct (round_small a IE false (IZR (Z.of_nat n))) as (F & V); [rewrite E; apply (big_Z a IE); lia|]. rewrite V, E, INR_IZR_INZ. auto.
Qed.
Lemma mean_app (x : nat -> dbl) X n : 0 <= X -> (0 < n)%nat -> (Z.of_nat n <= 2 ^ 53)%Z -> (forall j, (j < n)%nat -> fin (x j) /\ Rabs (dval (x j)) <= X) -> fst (added n X) <= big ->
  approx (ndiv (nsum n x) (nofnat n)) (Rsum n (fun j => dval (x j)) / INR n) (snd (added n X) / INR n + roff (fst (added n X) / INR n)).
Proof.
  intros PX Pn Bn HB Bg. destruct (nsum_app x X n PX HB Bg) as ((Fs & As) & Ls). destruct (ofnat_fin n Bn) as (Fn & Vn). pose proof (lt_0_INR n Pn) as Q. assert (Q1 : 1 <= INR n) by (apply (le_INR 1); lia).
  pose proof (added_0 n X PX) as (P1 & P2 & _). pose proof (Rinv_0_lt_compat _ Q) as Qi.
  assert (Qi1 : / INR n <= 1) by (rewrite <- Rinv_1; apply Rinv_le_contravar; lra).
  change (ndiv (nsum n x) (nofnat n)) with (ddiv a (nsum n x) (nofnat n)). destruct (div_fin a _ _ Fs Fn ltac:(rewrite Vn; lra)) as (t & ->). rewrite Vn.
  assert (L : Rabs (dval (nsum n x) / INR n) <= fst (added n X) / INR n) by (unfold Rdiv; rewrite Rabs_mult, (Rabs_right (/ INR n)) by lra; apply Rmult_le_compat_r; lra).
  assert (B : fst (added n X) / INR n <= big) by (unfold Rdiv; apply Rle_trans with (fst (added n X) * 1); [apply Rmult_le_compat_l; lra|lra]).
  apply app_weaken with (roff (fst (added n X) / INR n) + snd (added n X) / INR n); [|lra]. eapply app_trans; [exact (round_app a IE t _ _ L B)|].
  unfold Rdiv. rewrite <- Rmult_minus_distr_r, Rabs_mult, (Rabs_right (/ INR n)) by lra. apply Rmult_le_compat_r; lra.
Qed.
Lemma fold_max_S (m : dbl) n f : fold_max m (S n) f = if nltb (fold_max m n f) (f (S n)) then f (S n) else fold_max m n f.
Proof. unfold fold_max. rewrite seq_S, fold_left_app. reflexivity. Qed.
Lemma max_app (f : nat -> dbl) n : (forall j, (j <= n)%nat -> fin (f j)) -> approx (fold_max (f 0%nat) n f) (Rmaxs n (fun j => dval (f j))) 0.
Proof.
  induction n as [|n IH]; intros F; [apply (app_self a), F; lia|]. rewrite fold_max_S. cbn [Rmaxs]. destruct (IH (fun j Hj => F j ltac:(lia))) as (Fm & Am). set (m := fold_max (f 0%nat) n f) in *.
  assert (Em : dval m = Rmaxs n (fun j => dval (f j))) by (split_Rabs; lra). rewrite <- Em. specialize (F (S n) (le_n _)). change (nltb m (f (S n))) with (dltb m (f (S n))).
  assert (El : dltb m (f (S n)) = Rltb (dval m) (dval (f (S n)))) by (destruct Fm as (_ & s & p & ->), F as (_ & t & q & ->); reflexivity). rewrite El. destruct (Rltb (dval m) (dval (f (S n)))) eqn:E.
  - apply Rltb_true in E. rewrite Rmax_right by lra. now apply app_self.
  - apply Rltb_false in E. rewrite Rmax_left by lra. now apply app_self.
Qed.
Lemma dpix x H W C y z c : dval (pix z0 x H W C y z c) = pix 0 (map dval x) H W C y z c.
Proof. unfold pix. destruct (_ && _)%bool; [now rewrite dval_nth|reflexivity]. Qed.
Lemma apps_cells hd wd C (y : list dbl) (z : list R) e : length y = (hd * wd * C)%nat -> length z = (hd * wd * C)%nat ->
  (forall r c f, (r < hd)%nat -> (c < wd)%nat -> (f < C)%nat -> approx (nth (cell wd C r c f) y z0) (nth (cell wd C r c f) z 0) e) -> apps e y z.
Proof.
  intros Ly Lz HE. split; [congruence|]. intros q Hq. rewrite Ly in Hq. destruct (cell_of hd wd C q Hq) as (A & B & D & E). rewrite <- E. now apply HE.
Qed.
Lemma conv_app c n k x X : conv_shape c n k -> Forall fin (cv_w c) -> length x = n -> Forall fin x -> 0 <= X -> within_ X (map dval x) ->
  csafe1 a (CV c) X -> exists y, convl_forward c x = Ok (conv_with c (cv_w c) (cv_b c) (cv_wg c) (cv_bg c) y (cv_ig c)) /\ length y = k /\ apps (cround1 del (CV c) X) y (node_value (exactc (CV c)) (map dval x)).
Proof.
  intros ((H1 & H2) & (H3 & H4) & (H5 & H6) & (H7 & H8) & (H9 & H10) & (H11 & H12) & (H13 & H14) & (H15 & H16) & (H17 & H18)) Fw Lx Fx PX W SF. cbn [csafe1 cround1 exactc node_value] in *.
  unfold convl_forward, conv_forward.
  destruct (cross_correlation_spec z0 (cv_out c) x (cv_w c) (cv_H c) (cv_W c) (cv_C c) (cv_kh c) (cv_kw c) (cv_nf c) (cv_sh c) (cv_sw c) (cv_ph c) (cv_pw c) (cv_oh c) (cv_ow c)) as (y & E & L & I & _).
  { rewrite H9. now apply side_slide. } { rewrite H10. now apply side_slide. } { lia. } { lia. } { lia. }
  rewrite E. cbn [bind]. exists y. split; [reflexivity|]. split; [congruence|].
  apply (apps_cells (cv_oh c) (cv_ow c) (cv_nf c)); [congruence|rewrite conv_value_length; reflexivity|]. intros r cc f Hr Hc Hf.
  match goal with |- context [conv_value ?q _] => pose proof (conv_value_cell q (map dval x) r cc f Hr Hc Hf) as V end. cbn [cv_H cv_W cv_C cv_kh cv_kw cv_nf cv_sh cv_sw cv_ph cv_pw cv_oh cv_ow cv_w] in V. rewrite V. clear V.
  unfold cell at 1. rewrite I by assumption. rewrite !Nat.max_l by assumption. unfold xcorr, cell. rewrite <- conv_cell_R. unfold conv_cell at 2. rewrite csum_Rsum. unfold conv_cell. cbv zeta.
  match goal with |- PropErr.approx _ (csum ?n ?b ?t) (Rsum _ ?u) _ => set (bb := b) end.
  match goal with |- PropErr.approx _ (csum ?n _ (fun ki => nmul (@?p ki) (@?q ki))) (Rsum _ ?u) _ => pose proof (csum_app bb p q X (largest (map dval (cv_w c))) n PX (largest_0 _)) as G end. cbv beta in G.
  destruct G as (G & _); [|exact SF|].
  - intros j Hj Eb. rewrite dpix. split; [|split; [|split; [now apply pix_within|rewrite <- dval_nth; apply largest_nth]]].
    + unfold bb in Eb. unfold pix. rewrite Eb. rewrite !Bool.andb_true_iff, !Z.leb_le, !Z.ltb_lt in Eb. apply fins_nth; [exact Fx|]. rewrite Lx, H11.
      assert (0 < cv_C c)%nat by (destruct (cv_C c); [rewrite !Nat.mul_0_r in Hj|]; lia). apply (cell_bound (cv_H c) (cv_W c) (cv_C c)); try lia. apply Nat.mod_upper_bound. lia.
    + apply fins_nth; [exact Fw|]. rewrite H13. nia.
  - eapply app_eq; [exact G|]. apply Rsum_ext. intros j Hj. unfold bb. rewrite dpix, dval_nth. reflexivity.
Qed.
Lemma pool_app p n k x X : pool_shape p n k -> length x = n -> Forall fin x -> 0 <= X -> within_ X (map dval x) ->
  csafe1 a (CP p) X -> exists y, pooll_forward p x = Ok (pool_with p y (pl_ig p)) /\ length y = k /\ apps (cround1 del (CP p) X) y (node_value (exactc (CP p)) (map dval x)).
Proof.
  intros ((H1 & H2) & (H3 & H4) & (H5 & H6) & (H7 & H8) & (H11 & H12) & (H17 & H18)) Lx Fx PX W SF. cbn [csafe1 cround1 exactc node_value] in *.
  assert (Eh : pl_oh p = slide_side (pl_H p) (pl_kh p) (pl_sh p) 0) by (unfold pl_oh; rewrite side_slide by (try assumption; lia); now rewrite Nat.max_l).
  assert (Ew : pl_ow p = slide_side (pl_W p) (pl_kw p) (pl_sw p) 0) by (unfold pl_ow; rewrite side_slide by (try assumption; lia); now rewrite Nat.max_l).
  assert (HK : (0 < pl_kh p * pl_kw p)%nat) by nia.
  assert (Cell : forall r c ch i, (r < pl_oh p)%nat -> (c < pl_ow p)%nat -> (ch < pl_C p)%nat -> (i < pl_kh p * pl_kw p)%nat ->
    fin (nth (pool_pos (pl_W p) (pl_C p) (pl_sh p) (pl_sw p) r c (i / pl_kw p) (i mod pl_kw p) ch) x z0) /\ Rabs (dval (nth (pool_pos (pl_W p) (pl_C p) (pl_sh p) (pl_sw p) r c (i / pl_kw p) (i mod pl_kw p) ch) x z0)) <= X).
  { intros r c ch i Hr Hc Hch Hi. split; [|rewrite <- dval_nth; apply W]. apply fins_nth; [exact Fx|]. rewrite Lx, H11. destruct (ki_pool (pl_kh p) (pl_kw p) i Hi) as (Ha & Hb). apply (pool_pos_lt (pl_H p) (pl_W p) (pl_C p) (pl_kh p) (pl_kw p)); auto; congruence. }
  unfold pooll_forward. set (pr := mkPool _ _ _ _ _ _ _ _ _ _). destruct (pl_max p) eqn:EM.
  - destruct (max_pool_spec z0 (pl_out p) x (pl_H p) (pl_W p) (pl_C p) (pl_kh p) (pl_kw p) (pl_sh p) (pl_sw p) (pl_oh p) (pl_ow p)) as (y & E & L & I & _); try assumption; try lia.
    rewrite E. cbn [bind]. exists y. split; [reflexivity|]. split; [congruence|]. apply (apps_cells (pl_oh p) (pl_ow p) (pl_C p)); [congruence|apply (pool_value_length pr)|]. intros r c ch Hr Hc Hch.
    pose proof (pool_value_cell pr (map dval x) r c ch Hr Hc Hch) as V. change (pl_ow pr) with (pl_ow p) in V. change (pl_C pr) with (pl_C p) in V. rewrite V. unfold cell. rewrite I by assumption. cbn [pr pl_max].
    cbv zeta. set (g := fun i => nth _ x z0). eapply app_eq; [apply (max_app g (pl_kh p * pl_kw p - 1))|].
    + intros j Hj. apply Cell; auto; lia.
    + f_equal. unfold window, g. apply FunctionalExtensionality.functional_extensionality. intros i. rewrite <- dval_nth. reflexivity.
  - specialize (SF eq_refl). destruct SF as (S1 & S2).
    destruct (avg_pool_spec z0 (pl_out p) x (pl_H p) (pl_W p) (pl_C p) (pl_kh p) (pl_kw p) (pl_sh p) (pl_sw p) (pl_oh p) (pl_ow p)) as (y & E & L & I & _); try assumption; try lia.
    rewrite E. cbn [bind]. exists y. split; [reflexivity|]. split; [congruence|]. apply (apps_cells (pl_oh p) (pl_ow p) (pl_C p)); [congruence|apply (pool_value_length pr)|]. intros r c ch Hr Hc Hch.
    pose proof (pool_value_cell pr (map dval x) r c ch Hr Hc Hch) as V. change (pl_ow pr) with (pl_ow p) in V. change (pl_C pr) with (pl_C p) in V. rewrite V. unfold cell. rewrite I by assumption. cbn [pr pl_max].
    set (g := fun i => nth _ x z0). eapply app_eq; [apply (mean_app g X); auto|].
    + intros j Hj. now apply Cell.
    + f_equal. apply Rsum_ext. intros i _. unfold window, g. rewrite <- dval_nth. reflexivity.
Qed.
Definition put_out (s : cnode dbl) (y : list dbl) : cnode dbl :=
  match s with CL l => CL (set_out l y) | CV c => CV (conv_with c (cv_w c) (cv_b c) (cv_wg c) (cv_bg c) y (cv_ig c)) | CP p => CP (pool_with p y (pl_ig p)) | s => s end.
Lemma exact_cshape s n k : cnode_shape s n k -> cnode_shape (exactc s) n k.
Proof.
  destruct s as [l|c|p|kd lo]; cbn [cnode_shape exactc]; [apply exact_shape| | |auto].
  - unfold conv_shape. cbn. now rewrite !map_length.
  - unfold pool_shape, pl_oh, pl_ow. cbn. now rewrite !map_length.
Qed.
Lemma node_app s n k x X : cnode_shape s n k -> finite_node a s -> length x = n -> Forall fin x -> 0 <= X -> within_ X (map dval x) -> csafe1 a s X ->
  exists y, c_forward s x = Ok (put_out s y) /\ c_output (put_out s y) = Ok y /\ length y = k /\ apps (cround1 del s X) y (node_value (exactc s) (map dval x)).
Proof.
  intros Sh FN Lx Fx PX W SF. destruct s as [l|c|p|kd lo]; cbn [cnode_shape finite_node c_forward put_out c_output] in *; [| | |contradiction].
  - destruct (layer_app a IE del AC l n k x X Sh FN Lx Fx PX W SF) as (y & -> & Ly & A). exists y. auto.
  - destruct (conv_app c n k x X Sh FN Lx Fx PX W SF) as (y & -> & Ly & A). exists y. auto.
  - destruct (pool_app p n k x X Sh Lx Fx PX W SF) as (y & -> & Ly & A). exists y. auto.
Qed.
Lemma cround1_0 s X : 0 <= X -> 0 <= cround1 del s X.
Proof.
  intros PX. destruct s as [l|c|p|kd lo]; cbn [cround1]; [now apply (round1_0 a del AC)| | |lra].
  - apply summed_0; [|lra]. apply Rmult_le_pos; [exact PX|apply largest_0].
  - destruct (pl_max p); [lra|]. cbv zeta. destruct (added_0 (pl_kh p * pl_kw p) X PX) as (A & B & _). set (m := (pl_kh p * pl_kw p)%nat) in *. assert (Q : 0 <= / INR m).
    { destruct (Nat.eq_dec m 0) as [->|N]; [cbn; rewrite Rinv_0; lra|]. left. apply Rinv_0_lt_compat, lt_0_INR. lia. }
    assert (0 <= fst (added m X) / INR m) by now apply Rmult_le_pos. assert (0 <= snd (added m X) / INR m) by now apply Rmult_le_pos. pose proof (roff_pos _ H). lra.
Qed.
Lemma cnear_self s n k : cnode_shape s n k -> cnear 0 s s.
Proof.
  destruct s as [l|c|p|kd lo]; cbn [cnode_shape cnear]; [intros _; apply near_self| | |auto].
  - intros _. split; [|now destruct c]. intros i. rewrite Rminus_diag_eq, Rabs_R0 by reflexivity. lra.
  - intros _. now destruct p.
Qed.
Lemma crun_app ss : forall n k X e x r, 0 <= X -> 0 <= e -> dshape ss n k -> Forall (finite_node a) ss -> length x = n -> Forall fin x -> length r = n -> within_ X r -> apart e r (map dval x) -> csafe a del ss X e ->
  exists ss' y, gforward cnn_ops ss x = Ok (ss', y) /\ length y = k /\ Forall fin y /\ apart (snd (crounded del ss X e)) (cnn_value (map exactc ss) r) (map dval y).
Proof.
  induction ss as [|s ss IH]; intros n k X e x r PX Pe Sh FL Lx Fx Lr W A SF; cbn [dshape csafe crounded gforward map cnn_value fold_left] in *; [exists [], x; subst; auto|].
  destruct Sh as (j & Sl & Sh). destruct SF as (SF1 & SF2). pose proof (within_apart _ _ _ _ W A) as W'. destruct (node_app s n j x (X + e) Sl (Forall_inv FL) Lx Fx ltac:(lra) W' SF1) as (y & E & EO & Ly & Ay).
  pose proof (cdrift1_0 0 (exactc s) X e (Rle_refl 0) PX Pe) as (D1 & D2). pose proof (cround1_0 s (X + e) ltac:(lra)) as R0. pose proof (exact_cshape _ _ _ Sl) as Sl'.
  destruct (cnode_drift 0 (exactc s) (exactc s) X e r (map dval x) n j (Rle_refl 0) PX Pe Sl' (cnear_self _ _ _ Sl') Lr ltac:(now rewrite map_length) W A) as (W1 & A1).
  destruct (cdrift1 0 (exactc s) X e) as (X1, e1). cbn [fst snd] in *.
  destruct (IH j k X1 (e1 + cround1 del s (X + e)) y (node_value (exactc s) r) D1 ltac:(lra) Sh (Forall_inv_tail FL) Ly (apps_fins _ _ _ _ Ay)) as (ss' & z & Ez & Lz & Fz & Az); auto.
  - now apply (node_value_length (exactc s) n j).
  - intros i. pose proof (A1 i). pose proof (apps_apart _ _ _ _ R0 Ay i). split_Rabs; lra.
  - change (o_tforward cnn_ops s x) with (c_forward s x). rewrite E. cbn [bind]. change (o_output cnn_ops (put_out s y)) with (c_output (put_out s y)). rewrite EO. cbn [bind]. rewrite Ez. cbn [bind]. exists (put_out s y :: ss'), z. auto.
Qed.
End CErr.
Notation z0 := (DFin false 0).

(** *** Networks *)
Lemma predict_gforward (a : fpu) (m : model (cnode dbl)) ss kd lo n k x ss' y : dcnn m ss kd lo n k -> gforward cnn_ops ss x = Ok (ss', y) -> exists m', m_predict cnn_ops m x = Ok (m', y).
Proof.
  intros W E. pose proof (compose_g cnn_ops ss x ss' _ (fun s x => eq_refl) E) as EC.
  assert (LN : length (mnodes m) = nodes (mgraph m)).
  { pose proof (f_equal (@length _) (dc_nodes _ _ _ _ _ _ W)) as Q. rewrite map_length, app_length in Q. cbn in Q. rewrite Q, (ic_nodes _ _ _ (dc_graph _ _ _ _ _ _ W)). lia. }
  destruct (predict_chain cnn_ops true (length ss) m x (dc_graph _ _ _ _ _ _ W) (dc_some _ _ _ _ _ _ W) LN) as (s & p & rest & post & EM & Lr & EP).
  pose proof (dc_nodes _ _ _ _ _ _ W) as N. rewrite EM in N. cbn [map fst] in N. rewrite map_app in N.
  pose proof (dc_some _ _ _ _ _ _ W) as Hn.
  destruct ss as [|s0 ss]; [cbn in Hn; lia|]. cbn [app] in N. injection N as -> N.
  assert (ER : map fst rest = ss).
  { cbn [length] in Lr. assert (LL : length (map fst rest) = length ss) by (rewrite map_length; lia).
    apply (f_equal (firstn (length ss))) in N. rewrite <- LL in N at 1.
    rewrite firstn_app, Nat.sub_diag, firstn_all, firstn_O, app_nil_r in N.
    rewrite firstn_app, Nat.sub_diag, firstn_all, firstn_O, app_nil_r in N. exact N. }
  rewrite EP. cbn [compose] in EC. destruct (o_forward cnn_ops s0 x) as [s'| |]; try discriminate. cbn [bind] in *.
  pose proof (chain_after_compose cnn_ops rest 0 s') as CA. rewrite ER in CA.
  assert (EC' : (rest' <- chain_after cnn_ops false 0 s' rest;; o_output cnn_ops (last (map fst rest') s')) = Ok y) by (rewrite CA; exact EC).
  destruct (chain_after cnn_ops false 0 s' rest) as [rest'| |]; try discriminate. cbn [bind] in *. rewrite EC'. cbn [bind]. eexists. reflexivity.
Qed.
Lemma exact_dshape ss : forall n k, dshape ss n k -> cshape (map exactc ss) n k.
Proof. induction ss as [|s ss IH]; intros n k; cbn [dshape cshape map]; [auto|]. intros (j & H1 & H2). exists j. split; [now apply exact_cshape|auto]. Qed.
(** The same network computed exactly exists. *)
Lemma exact_cnn m ss kd lo n k : dcnn m ss kd lo n k -> exists mr kdr lor, cnn mr (map exactc ss) kdr lor n k.
Proof.
  intros W. exists (mkModel (mgraph m) (map (fun s => (s, SNull)) (map exactc ss ++ [CO (MSE 0) (loss_new k 1)]))), (MSE 0), (loss_new k 1). constructor; cbn [mgraph mnodes].
  - rewrite map_length. apply (dc_graph _ _ _ _ _ _ W).
  - rewrite map_length. apply (dc_some _ _ _ _ _ _ W).
  - rewrite map_map. cbn [fst]. apply map_id.
  - apply exact_dshape, (dc_shape _ _ _ _ _ _ W).
  - cbn. now rewrite repeat_length.
Qed.
Lemma cpredict_app a del m ss kd lo n k x : ieee a -> accurate a del -> dcnn m ss kd lo n k -> Forall (finite_node a) ss -> length x = n -> Forall (fin a) x ->
  csafe a del ss (largest (map dval x)) 0 ->
  exists m' y, m_predict cnn_ops m x = Ok (m', y) /\ length y = k /\ Forall (fin a) y /\ apart (snd (crounded del ss (largest (map dval x)) 0)) (cnn_value (map exactc ss) (map dval x)) (map dval y).
Proof.
  intros IE AC W FL Lx Fx SF.
  assert (A0 : apart 0 (map dval x) (map dval x)) by (intros i; rewrite Rminus_diag_eq, Rabs_R0 by reflexivity; lra).
  destruct (crun_app a IE del AC ss n k (largest (map dval x)) 0 x (map dval x) (largest_0 _) (Rle_refl 0) (dc_shape _ _ _ _ _ _ W) FL Lx Fx ltac:(now rewrite map_length) (largest_nth _) A0 SF) as (ss' & y & E & Ly & Fy & Ay).
  destruct (predict_gforward a m ss kd lo n k x ss' y W E) as (m1 & E1). exists m1, y. auto.
Qed.

(** *** Theorems *)
(** A convolutional network of finite doubles predicts finite doubles within [crounded] of what the
    same network predicts exactly. *)
Theorem c94_predict : forall a del m ss kd lo n k mr kdr lor x, ieee a -> accurate a del ->
  dcnn m ss kd lo n k -> cnn mr (map exactc ss) kdr lor n k -> Forall (finite_node a) ss -> length x = n -> Forall (fin a) x ->
  csafe a del ss (largest (map dval x)) 0 ->
  exists m' y mr' z, m_predict cnn_ops m x = Ok (m', y) /\ m_predict cnn_ops mr (map dval x) = Ok (mr', z) /\ length y = k /\ length z = k /\ Forall (fin a) y /\
    forall i, Rabs (dval (nth i y z0) - nth i z 0) <= snd (crounded del ss (largest (map dval x)) 0).
Proof.
  intros a del m ss kd lo n k mr kdr lor x IE AC W Wr FL Lx Fx SF. destruct (cpredict_app a del m ss kd lo n k x IE AC W FL Lx Fx SF) as (m' & y & E & Ly & Fy & Ay).
  destruct (c69_predict mr _ kdr lor n k (map dval x) Wr ltac:(now rewrite map_length)) as (mr' & Er & Lr). exists m', y, mr', (cnn_value (map exactc ss) (map dval x)).
  split; [exact E|]. split; [exact Er|]. split; [exact Ly|]. split; [exact Lr|]. split; [exact Fy|]. intros i. rewrite <- dval_nth, Rabs_minus_sym. apply Ay.
Qed.
(** A class is told apart by more than twice the bound, exactly or in the computed outputs: both
    predict it. *)
Theorem c94_decision : forall a del m ss kd lo n k mr kdr lor x m' y mr' z c, ieee a -> accurate a del ->
  dcnn m ss kd lo n k -> cnn mr (map exactc ss) kdr lor n k -> Forall (finite_node a) ss -> length x = n -> Forall (fin a) x ->
  csafe a del ss (largest (map dval x)) 0 ->
  m_predict cnn_ops m x = Ok (m', y) -> m_predict cnn_ops mr (map dval x) = Ok (mr', z) -> (c < k)%nat ->
  (let e := snd (crounded del ss (largest (map dval x)) 0) in ahead c k e z \/ ahead c k e (map dval y)) ->
  argmax y k = Ok c /\ argmax z k = Ok c.
Proof.
  intros a del m ss kd lo n k mr kdr lor x m' y mr' z c IE AC W Wr FL Lx Fx SF Ey Ez Hc M.
  destruct (c94_predict a del m ss kd lo n k mr kdr lor x IE AC W Wr FL Lx Fx SF) as (m1 & y1 & mr1 & z1 & E1 & E2 & Ly & Lz & Fy & B). rewrite Ey in E1. injection E1 as <- <-. rewrite Ez in E2. injection E2 as <- <-. cbv zeta in M. set (e := snd _) in *.
  split.
  - apply (argmax_dbl a); auto. intros j Hj N. pose proof (B j) as Bj. pose proof (B c) as Bc. rewrite <- !dval_nth in *. destruct M as [M|M]; specialize (M j Hj N); split_Rabs; lra.
  - destruct (c16_argmax_R z k ltac:(lia) ltac:(lia)) as (b & E & _ & Hb & B1 & _). rewrite E. f_equal. destruct (Nat.eq_dec b c) as [|N]; [assumption|]. specialize (B1 c Hc). pose proof (B b) as Bj. pose proof (B c) as Bc. rewrite <- !dval_nth in *.
    destruct M as [M|M]; specialize (M b Hb N); split_Rabs; lra.
Qed.
(** Two convolutional networks of doubles whose parameters differ by at most [eps], as a network and
    its saved and loaded copy do (C93) *)
Theorem c94_perturbed : forall a del eps m m1 ss ss1 kd kd1 lo lo1 n k x, ieee a -> accurate a del -> 0 <= eps ->
  dcnn m ss kd lo n k -> dcnn m1 ss1 kd1 lo1 n k -> Forall2 (cnear eps) (map exactc ss) (map exactc ss1) -> Forall (finite_node a) ss -> Forall (finite_node a) ss1 ->
  length x = n -> Forall (fin a) x -> let X := largest (map dval x) in csafe a del ss X 0 -> csafe a del ss1 X 0 ->
  exists ma y mb y1, m_predict cnn_ops m x = Ok (ma, y) /\ m_predict cnn_ops m1 x = Ok (mb, y1) /\ Forall (fin a) y /\ Forall (fin a) y1 /\
    forall i, Rabs (dval (nth i y z0) - dval (nth i y1 z0)) <= snd (crounded del ss X 0) + snd (cdrift eps (map exactc ss) X 0) + snd (crounded del ss1 X 0).
Proof.
  intros a del eps m m1 ss ss1 kd kd1 lo lo1 n k x IE AC Pe W W1 N FL FL1 Lx Fx X SF SF1.
  destruct (cpredict_app a del m ss kd lo n k x IE AC W FL Lx Fx SF) as (ma & y & E & Ly & Fy & Ay). destruct (cpredict_app a del m1 ss1 kd1 lo1 n k x IE AC W1 FL1 Lx Fx SF1) as (mb & y1 & E1 & Ly1 & Fy1 & Ay1).
  exists ma, y, mb, y1. split; [exact E|]. split; [exact E1|]. split; [exact Fy|]. split; [exact Fy1|]. intros i. rewrite <- !dval_nth.
  assert (A0 : apart 0 (map dval x) (map dval x)) by (intros j; rewrite Rminus_diag_eq, Rabs_R0 by reflexivity; lra).
  destruct (cnn_drift eps _ _ Pe N n k X 0 (map dval x) (map dval x) (largest_0 _) (Rle_refl 0) (exact_dshape _ _ _ (dc_shape _ _ _ _ _ _ W)) (exact_dshape _ _ _ (dc_shape _ _ _ _ _ _ W1)) ltac:(now rewrite map_length) ltac:(now rewrite map_length) (largest_nth _) A0) as (_ & D).
  specialize (Ay i). specialize (Ay1 i). specialize (D i). fold X in Ay, Ay1. split_Rabs; lra.
Qed.
(** Without [csafe] nothing holds: the average of two equal finite doubles is computed as an
    infinity. *)
Definition pool_ss : list (cnode dbl) := [CP (mkPool false 1 2 1 1 2 1 1 [z0] [z0; z0]); CL (mkLayer (KAct Linear) 1 [] [] [] [] [z0] [z0])].
Theorem c94_average_refuted : forall a, ieee a -> exists m ss kd lo mr kdr lor x m' y mr',
  dcnn m ss kd lo 2 1 /\ cnn mr (map exactc ss) kdr lor 2 1 /\ Forall (finite_node a) ss /\ length x = 2%nat /\ Forall (fin a) x /\
  m_predict cnn_ops m x = Ok (m', [y]) /\ y = DInf false /\ m_predict cnn_ops mr (map dval x) = Ok (mr', [big a]).
Proof.
  intros a IE. set (b := big a). set (x := [DFin false b; DFin false b]). pose proof (big_1 a IE) as B1. fold b in B1.
  destruct (c36_built true 2 (le_n 2)) as (s & E & C). destruct C as (H1 & H2 & H3 & H4 & H5).
  assert (W : dcnn (mkModel s (map (fun q => (q, SNull)) (pool_ss ++ [CO (MSE z0) (loss_new 1 1)]))) pool_ss (MSE z0) (loss_new 1 1) 2 1).
  { constructor; cbn [mgraph mnodes pool_ss length]; [exact (is_chain_built _ _ true 2 E (le_n 2) H1 H2 H3 H4 H5)|lia|reflexivity| |reflexivity].
    cbn [dshape]. exists 1%nat. split; [|exists 1%nat; split; [|reflexivity]].
    - cbn. unfold pool_shape, pl_oh, pl_ow. cbn. lia.
    - cbn. unfold lshape. cbn. split; [auto|]. split; [auto|]. split; [auto|]. split; [auto|]. lia. }
  destruct (exact_cnn _ _ _ _ _ _ W) as (mr & kdr & lor & Wr).
  assert (Fb : fin a (DFin false b)) by (apply (fin_mk a); [unfold b in *; lra|apply (ie_big a IE)]).
  assert (Ov : big a < fl a (b + b)).
  { assert (T : tiny <= b + b) by (pose proof tiny_1; lra). pose proof (ie_rel a IE _ T) as Q. pose proof unit_pos as (U1 & U2). unfold uround in *. assert ((b + b) * / 2 ^ 53 <= (b + b) * / 4) by (apply Rmult_le_compat_l; lra). fold b. split_Rabs; lra. }
  assert (EF : exists ss', gforward cnn_ops pool_ss x = Ok (ss', [DInf false])).
  { unfold pool_ss. cbn [gforward]. change (o_tforward cnn_ops) with (@c_forward dbl _ _ _). change (o_output cnn_ops) with (@c_output dbl). cbn [c_forward]. unfold pooll_forward. cbn [pl_max pl_out pl_H pl_W pl_C pl_kh pl_kw pl_sh pl_sw].
    destruct (avg_pool_spec z0 [z0] x 1 2 1 1 2 1 1 1 1) as (y & Ey & Ly & Iy & _); try reflexivity; try (cbn; lia). rewrite Ey. cbn [bind c_output pool_with pl_out].
    specialize (Iy 0%nat 0%nat 0%nat ltac:(lia) ltac:(lia) ltac:(lia)). destruct y as [|v [|]]; try discriminate Ly. cbn [nth Nat.mul Nat.add] in Iy.
    assert (S1 : dadd a (DFin false 0) (DFin false b) = DFin false b).
    { cbn [dadd dval]. unfold dround. unfold b. rewrite Rplus_0_l, (ie_big a IE), Rabs_right, (proj2 (Rltb_false (big a) (big a))), (proj2 (Reqb_false (big a) 0)), (proj2 (Rltb_false (big a) 0)) by (unfold b in *; lra). reflexivity. }
    assert (S2 : dadd a (DFin false b) (DFin false b) = DInf false) by (apply round_over; [cbn [dval]; lra|exact Ov]).
    assert (En : nofnat 2 = DFin false 2).
    { change (@nofnat dbl (NumD a) 2) with (dround a false 2). pose proof (big_Z a IE 2 ltac:(discriminate)) as B2. unfold dround. rewrite (ie_int a IE 2) by discriminate. rewrite (proj2 (Rltb_false _ _)) by lra. rewrite (proj2 (Reqb_false 2 0)), (proj2 (Rltb_false 2 0)), Rabs_right by lra. reflexivity. }
    assert (Ev : v = ddiv a (dadd a (dadd a (DFin false 0) (DFin false b)) (DFin false b)) (nofnat 2)) by exact Iy. rewrite S1, S2, En in Ev. assert (Ei : v = DInf false) by (rewrite Ev; cbn; reflexivity). clear Ev Iy. subst v. eexists. reflexivity. }
  destruct EF as (ss' & EF). destruct (predict_gforward a _ _ _ _ _ _ _ _ _ W EF) as (m' & Em). destruct (c69_predict mr _ kdr lor 2 1 (map dval x) Wr eq_refl) as (mr' & Er & _).
  do 11 eexists. split; [exact W|]. split; [exact Wr|]. split; [|split; [|split; [|split; [exact Em|split; [reflexivity|]]]]].
  - apply Forall_cons; [exact Logic.I|apply Forall_cons; [exact Logic.I|constructor]].
  - reflexivity.
  - apply Forall_cons; [exact Fb|apply Forall_cons; [exact Fb|constructor]].
  - rewrite Er. do 2 f_equal. cbn. unfold pool_value, row_of, col_of, chan_of, window, wcell, cell. cbn. f_equal. field.
Qed.

(** *** The hypotheses are met *)
(** A 1 x 2 filter of weights 1 and w on a 1 x 3 image, an average pooling of 1 x 2, a dense layer of
    weights 1 and -1 *)
Definition cerr_ss (w : R) : list (cnode dbl) :=
  [CV (mkConv 1 3 1 1 2 1 1 1 0 0 1 2 [DFin false 1; DFin false w] [z0] [z0; z0] [z0] [z0; z0] [z0; z0; z0]);
   CP (mkPool false 1 2 1 1 2 1 2 [z0] [z0; z0]);
   CL (mkLayer KDense 1 [DFin false 1; DFin true 1] [z0; z0] [z0; z0] [z0; z0] [z0; z0] [z0])].
Lemma cerr_shape w : dshape (cerr_ss w) 3 2.
Proof.
  exists 2%nat. split; [|exists 1%nat; split; [|exists 2%nat; split; [|reflexivity]]]; cbn [cnode_shape].
  - unfold conv_shape. cbn [cv_H cv_W cv_C cv_kh cv_kw cv_nf cv_sh cv_sw cv_ph cv_pw cv_oh cv_ow cv_w cv_b cv_wg cv_bg cv_out cv_ig].
    split; [lia|]. split; [lia|]. split; [lia|]. split; [split; reflexivity|]. split; [split; reflexivity|]. split; [lia|]. split; [split; reflexivity|]. split; split; reflexivity.
  - unfold pool_shape. cbn [pl_H pl_W pl_C pl_kh pl_kw pl_sh pl_sw pl_out pl_ig]. split; [lia|]. split; [lia|]. split; [lia|]. split; [split; reflexivity|]. split; [split; reflexivity|]. split; reflexivity.
  - split; [reflexivity|]. split; [reflexivity|]. split; [reflexivity|]. cbn. auto.
Qed.
Definition hh : R := / 10 ^ 15.
Lemma hh_small : 0 < hh <= / 1000000 /\ / 10 ^ 12 = 1000 * hh.
Proof. unfold hh. split; [lra|field]. Qed.
Lemma roff_h y c : 0 <= y <= c -> 0 <= roff y <= (c + 1) * hh.
Proof.
  intros Hy. pose proof unit_small as (U1 & T1). pose proof unit_pos as (U0 & _). pose proof tiny_pos as T0. fold hh in U1, T1. pose proof hh_small as (Q & _). unfold roff.
  assert (uround * y <= hh * c) by (apply Rmult_le_compat; lra). assert (0 <= uround * y) by (apply Rmult_le_pos; lra). lra.
Qed.
Lemma sum2_h p : 0 <= p <= 2 -> 0 <= fst (summed 2 p 0) <= 5 /\ 0 <= snd (summed 2 p 0) <= 15 * hh.
Proof.
  intros Hp. pose proof hh_small as (Q & _). cbn [summed fst snd]. pose proof (roff_h p 2 Hp) as A. assert (B : 0 <= rounded_up p <= 2.1) by (unfold rounded_up; lra). set (q := rounded_up p) in *.
  pose proof (roff_h (0 + q) 2.1 ltac:(lra)) as C. assert (D : 0 <= rounded_up (0 + q) <= 2.2) by (unfold rounded_up; lra). pose proof (roff_h (rounded_up (0 + q) + q) 4.3 ltac:(lra)) as E. unfold rounded_up at 1 3. lra.
Qed.
Lemma add2_h X : 0 <= X <= 5 -> 0 <= fst (added 2 X) <= 11 /\ 0 <= snd (added 2 X) <= 18 * hh.
Proof.
  intros Hp. pose proof hh_small as (Q & _). cbn [added fst snd]. pose proof (roff_h (0 + X) 5 ltac:(lra)) as C. assert (D : 0 <= rounded_up (0 + X) <= 5.1) by (unfold rounded_up; lra). pose proof (roff_h (rounded_up (0 + X) + X) 10.1 ltac:(lra)) as E. unfold rounded_up at 1 3. lra.
Qed.
Lemma sum1_h p : 0 <= p <= 5 -> 0 <= fst (summed 1 p 0) <= 6 /\ 0 <= snd (summed 1 p 0) <= 13 * hh.
Proof.
  intros Hp. pose proof hh_small as (Q & _). cbn [summed fst snd]. pose proof (roff_h p 5 Hp) as A. assert (B : 0 <= rounded_up p <= 5.1) by (unfold rounded_up; lra). set (q := rounded_up p) in *.
  pose proof (roff_h (0 + q) 5.1 ltac:(lra)) as C. unfold rounded_up at 1 2. lra.
Qed.
Lemma cerr_bound a w : ieee a -> 1 <= w <= 2 -> csafe a 0 (cerr_ss w) 1 0 /\ snd (crounded 0 (cerr_ss w) 1 0) <= / 10 ^ 12.
Proof.
  intros IE Hw. unfold cerr_ss. cbn [csafe crounded]. cbn [cdrift1 exactc csafe1 cround1 cv_kh cv_kw cv_C cv_w pl_max pl_kh pl_kw]. unfold drift1, safe1, round1. cbn [exactl knd insz wts bias map dval].
  assert (LW : largest [1; w] = w) by (cbn [largest]; rewrite !Rabs_right, (Rmax_left w 0), Rmax_right by lra; reflexivity).
  assert (L1 : largest [1; - (1)] = 1) by (cbn [largest]; rewrite Rabs_Ropp, !Rabs_right, (Rmax_left 1 0), Rmax_left by lra; reflexivity).
  assert (LB : largest [0; 0] = 0) by (cbn [largest]; rewrite Rabs_R0; rewrite !(Rmax_left 0 0) by lra; reflexivity).
  rewrite !LW, !L1, !LB. change (1 * 2 * 1)%nat with 2%nat. change (1 * 2)%nat with 2%nat. cbv zeta. cbn [fst snd].
  replace (INR 2) with 2 by reflexivity. replace (INR 1) with 1 by reflexivity.
  replace (1 * (2 * 1) * (w * 1)) with (2 * w) by ring. replace (1 * (2 * 1) * (w * 0 + 0 * (1 + 0))) with 0 by ring. rewrite Rplus_0_l. replace ((1 + 0) * w) with w by ring.
  pose proof hh_small as (Q & ->). pose proof (big_Z a IE 16 ltac:(discriminate)) as B. rewrite Rabs_right in B by lra.
  destruct (sum2_h w ltac:(lra)) as (A1 & A2). set (ec := snd (summed 2 w 0)) in *. set (fc := fst (summed 2 w 0)) in *. clearbody ec fc.
  destruct (add2_h (2 * w + ec) ltac:(lra)) as (A3 & A4). set (ea := snd (added 2 (2 * w + ec))) in *. set (fa := fst (added 2 (2 * w + ec))) in *. clearbody ea fa.
  pose proof (roff_h (fa / 2) 5.5 ltac:(lra)) as A5. set (ep := ec + (ea / 2 + roff (fa / 2))). assert (A6 : 0 <= ep <= 31 * hh) by (unfold ep; lra).
  destruct (sum1_h (1 * (2 * w + ep)) ltac:(lra)) as (A7 & A8). split; [|lra].
  split; [lra|]. split; [intros _; split; [lra|discriminate]|]. split; [lra|exact Logic.I].
Qed.
Lemma cerr_net (a : fpu) w : exists m, dcnn m (cerr_ss w) (MSE z0) (loss_new 2 1) 3 2.
Proof.
  destruct (c36_built true 3 ltac:(lia)) as (s & E & C). destruct C as (H1 & H2 & H3 & H4 & H5).
  exists (mkModel s (map (fun q => (q, SNull)) (cerr_ss w ++ [CO (MSE z0) (loss_new 2 1)]))).
  constructor; cbn [mgraph mnodes cerr_ss length]; [exact (is_chain_built _ _ true 3 E ltac:(lia) H1 H2 H3 H4 H5)|lia|reflexivity|apply cerr_shape|reflexivity].
Qed.
Lemma cerr_finite w : fin binary64 (DFin false w) -> Forall (finite_node binary64) (cerr_ss w).
Proof.
  intros F. pose proof ieee_binary64 as IE. pose proof (fin_1 _ IE) as F1. pose proof (fin_0 _ IE false) as F0. apply Forall_cons; [|apply Forall_cons; [exact Logic.I|apply Forall_cons; [|constructor]]]; cbn [finite_node cv_w].
  - apply Forall_cons; [exact F1|apply Forall_cons; [exact F|constructor]].
  - unfold finite_layer. cbn [knd wts bias]. split; [apply Forall_cons; [exact F1|apply Forall_cons; [apply (b64_int 1); lia|constructor]]|apply Forall_cons; [exact F0|apply Forall_cons; [exact F0|constructor]]].
Qed.
Definition cerr_x : list dbl := [DFin false 1; DFin false 1; DFin false 1].
Lemma cerr_input : largest (map dval cerr_x) = 1.
Proof. cbn. rewrite !Rabs_right by lra. rewrite (Rmax_left 1 0) by lra. rewrite !(Rmax_left 1 1) by lra. reflexivity. Qed.
(** The hypotheses of [c94_predict] and [c94_decision]: the error is at most 10^-12, and the first
    class is ahead. *)
Example c94_met : exists m mr kdr lor, ieee binary64 /\ accurate binary64 0 /\ dcnn m (cerr_ss 2) (MSE z0) (@loss_new dbl (NumD binary64) 2 1) 3 2 /\ cnn mr (map exactc (cerr_ss 2)) kdr lor 3 2 /\
  Forall (finite_node binary64) (cerr_ss 2) /\ Forall (fin binary64) cerr_x /\ let X := largest (map dval cerr_x) in
  csafe binary64 0 (cerr_ss 2) X 0 /\ snd (crounded 0 (cerr_ss 2) X 0) <= / 10 ^ 12 /\
  exists mr' z, m_predict cnn_ops mr (map dval cerr_x) = Ok (mr', z) /\ ahead 0 2 (snd (crounded 0 (cerr_ss 2) X 0)) z.
Proof.
  pose proof ieee_binary64 as IE. destruct (cerr_net binary64 2) as (m & W). destruct (exact_cnn _ _ _ _ _ _ W) as (mr & kdr & lor & Wr). destruct (cerr_bound binary64 2 IE ltac:(lra)) as (SF & B).
  exists m, mr, kdr, lor. split; [exact IE|]. split; [exact accurate_64|]. split; [exact W|]. split; [exact Wr|]. split; [apply cerr_finite, (b64_int 2); lia|]. pose proof (fin_1 _ IE) as F1. split; [unfold cerr_x; auto|].
  rewrite cerr_input. cbv zeta. split; [exact SF|]. split; [exact B|]. destruct (c69_predict mr _ kdr lor 3 2 (map dval cerr_x) Wr eq_refl) as (mr' & Er & _). exists mr'. eexists. split; [exact Er|].
  intros j Hj N. assert (j = 1%nat) by lia. subst j. set (e := snd _) in *. clearbody e. pose proof hh_small as (Q & Q'). rewrite Q' in B. cbn. unfold xcorr, pix, row_of, col_of, chan_of, cell, window, wcell. cbn. change (Pos.to_nat 1) with 1%nat. change (Pos.to_nat 2) with 2%nat. cbn. lra.
Qed.
(** The hypotheses of [c94_perturbed]: a weight changed by an eighth *)
Example c94_perturbed_met : let X := largest (map dval cerr_x) in let v := 15 * powerRZ 2 (-3) in exists m m1,
  dcnn m (cerr_ss 2) (MSE z0) (@loss_new dbl (NumD binary64) 2 1) 3 2 /\ dcnn m1 (cerr_ss v) (MSE z0) (@loss_new dbl (NumD binary64) 2 1) 3 2 /\
  Forall2 (cnear (/ 8)) (map exactc (cerr_ss 2)) (map exactc (cerr_ss v)) /\ Forall (finite_node binary64) (cerr_ss 2) /\ Forall (finite_node binary64) (cerr_ss v) /\
  Forall (fin binary64) cerr_x /\ csafe binary64 0 (cerr_ss 2) X 0 /\ csafe binary64 0 (cerr_ss v) X 0.
Proof.
  intros X v. pose proof ieee_binary64 as IE. destruct (cerr_net binary64 2) as (m & W). destruct (cerr_net binary64 v) as (m1 & W1). exists m, m1. pose proof (fin_1 _ IE) as F1.
  assert (E : v = 15 / 8) by (change (15 * / 2 ^ 3 = 15 / 8); field). pose proof (big_Z _ IE 16 ltac:(discriminate)) as B. rewrite Rabs_right in B by lra.
  split; [exact W|]. split; [exact W1|]. split; [|split; [apply cerr_finite, (b64_int 2); lia|split; [apply cerr_finite, (b64 15 (-3)); [lia|lia|fold v; rewrite E; lra]|split; [unfold cerr_x; auto|unfold X; rewrite cerr_input; split; [apply (cerr_bound _ 2 IE); lra|apply (cerr_bound _ _ IE); rewrite E; lra]]]]].
  rewrite E. cbn [map cerr_ss exactc]. apply Forall2_cons; [|apply Forall2_cons; [|apply Forall2_cons; [|apply Forall2_nil]]]; cbn [cnear].
  - split; [|reflexivity]. intros i. cbn [cv_w map dval]. destruct i as [|[|[|i]]]; cbn [nth]; apply Rabs_le; lra.
  - reflexivity.
  - constructor; try reflexivity; intros _ i; rewrite Rminus_diag_eq, Rabs_R0 by reflexivity; lra.
Qed.
Print Assumptions c94_predict.
Print Assumptions c94_decision.
Print Assumptions c94_perturbed.
Print Assumptions c94_average_refuted.
