(** C100: how far the predictions of recurrent networks computed with doubles are from the exact
    ones, call after call. *)
From Coq Require Import Reals Lra Lia.
From Verif Require Import Base Num RSum MathModel MathProofs MathProofsR DumpModel LayerModel LossModel GradProofs GradChain OptModel GraphModel GraphProofs ModelModel NodeModel ChainProofs ModelProofs StepProofs PropModel PropMath PropStep FloatModel FloatProofs FloatIeee PropFloat DriftProofs.
From Verif Require DatasetProofs.
From Verif Require Import CnnNetProofs RecurrentModel RecurrentProofs PropRecurrent RnnModel RnnProofs PropRnn RnnDriftProofs PropErr PropNan.
Local Open Scope R_scope.
#[local] Existing Instances NumD TransD LimD.

(** *** Specification *)
(** The layer with the same numbers, as reals *)
Definition exactr (r : recl dbl) : recl R :=
  mkRec (r_in r) (r_out r) (r_hid r) (r_steps r) (map dval (r_wih r)) (map dval (r_whh r)) (map dval (r_who r)) (map dval (r_bh r)) (map dval (r_bo r))
    (map dval (r_gwih r)) (map dval (r_gwhh r)) (map dval (r_gwho r)) (map dval (r_gbh r)) (map dval (r_gbo r)) (map dval (r_hs r)) (map dval (r_act r)) (map dval (r_ig r)).
Definition exactn (s : rnode dbl) : rnode R :=
  match s with RL l => RL (exactl l) | RR r => RR (exactr r) | RO _ lo => RO (MSE 0) (loss_new (length (ls_grad lo)) 1) end.
(** The state a layer holds between calls *)
Definition dheld (s : rnode dbl) : list dbl := match s with RR r => firstn (r_hid r) (r_hs r) | _ => [] end.
(** Error and size of a computed tanh *)
Definition tanh_err (del : R) : R := del + roff 1.
(** One time step: the sums W_ih u, of inputs of size at most [X], W_hh H, and b_h: a bound for all
    of them and the error made *)
Definition cell_sums (del : R) (r : recl dbl) (X : R) : R * R :=
  let '(s1, e1) := summed (r_in r) (largest (map dval (r_wih r)) * X) 0 in
  let '(s2, e2) := summed (r_hid r) (largest (map dval (r_whh r)) * (1 + tanh_err del)) 0 in
  let z := rounded_up (s1 + s2) + largest (map dval (r_bh r)) in
  (z, e1 + e2 + roff (s1 + s2) + roff z).
(** The output W_ho H + b_o: the same *)
Definition out_sums (del : R) (r : recl dbl) : R * R :=
  let '(s, e) := summed (r_hid r) (largest (map dval (r_who r)) * (1 + tanh_err del)) 0 in
  let z := s + largest (map dval (r_bo r)) in (z, e + roff z).
(** The error of the state after one more time step: inputs of size at most [X] with an error of at
    most [e], a state with an error of at most [d] *)
Definition state_err (del : R) (r : recl dbl) (X e d : R) : R :=
  Rmax d (INR (r_in r) * (largest (map dval (r_wih r)) * e) + INR (r_hid r) * (largest (map dval (r_whh r)) * d) + snd (cell_sums del r (X + e)) + tanh_err del).
(** One call of a layer: size of the exact outputs, error of the computed ones, error of the state *)
Definition rround1 (del : R) (s : rnode dbl) (X e d : R) : R * R * R :=
  match s with
  | RL l => let (X1, e1) := drift1 0 (exactl l) X e in (X1, e1 + round1 del l (X + e), d)
  | RR r => let d := Nat.iter (r_steps r) (state_err del r X e) d in let A := largest (map dval (r_who r)) in
      (INR (r_hid r) * A + largest (map dval (r_bo r)), INR (r_hid r) * (A * d) + snd (out_sums del r), d)
  | RO _ _ => (X, e, d)
  end.
(** No overflow *)
Definition rsafe1 (a : fpu) (del : R) (s : rnode dbl) (X : R) : Prop :=
  match s with
  | RL l => safe1 a l X
  | RR r => fst (cell_sums del r X) <= big a /\ fst (out_sums del r) <= big a
  | RO _ _ => True
  end.
(** One call of all layers, and several calls *)
Fixpoint rround (del : R) (ss : list (rnode dbl)) (X e : R) (ds : list R) : R * list R :=
  match ss, ds with
  | s :: ss, d :: ds => let '(X, e, d) := rround1 del s X e d in let '(e, ds) := rround del ss X e ds in (e, d :: ds)
  | _, _ => (e, [])
  end.
Fixpoint rsafe (a : fpu) (del : R) (ss : list (rnode dbl)) (X e : R) (ds : list R) : Prop :=
  match ss, ds with
  | s :: ss, d :: ds => rsafe1 a del s (X + e) /\ let '(X, e, d) := rround1 del s X e d in rsafe a del ss X e ds
  | _, _ => True
  end.
Fixpoint calls_round (del : R) (ss : list (rnode dbl)) (ds : list R) (xs : list (list dbl)) : list R :=
  match xs with
  | [] => []
  | x :: xs => let '(e, ds) := rround del ss (largest (map dval x)) 0 ds in e :: calls_round del ss ds xs
  end.
Fixpoint calls_safe (a : fpu) (del : R) (ss : list (rnode dbl)) (ds : list R) (xs : list (list dbl)) : Prop :=
  match xs with
  | [] => True
  | x :: xs => let X := largest (map dval x) in rsafe a del ss X 0 ds /\ calls_safe a del ss (snd (rround del ss X 0 ds)) xs
  end.
(** Parameters are finite; the state is finite and between -1 and 1. *)
Definition finite_rnode (a : fpu) (s : rnode dbl) : Prop :=
  match s with
  | RL l => finite_layer a l
  | RR r => Forall (fin a) (r_wih r) /\ Forall (fin a) (r_whh r) /\ Forall (fin a) (r_who r) /\ Forall (fin a) (r_bh r) /\ Forall (fin a) (r_bo r)
  | RO _ _ => True
  end.
Definition unit_state (a : fpu) (s : rnode dbl) : Prop := Forall (fin a) (dheld s) /\ within_ 1 (map dval (dheld s)).
(** Sizes and chains, as [rnode_shape] and [rstack] *)
Definition dnode_shape (s : rnode dbl) (n k : nat) : Prop :=
  match s with
  | RL l => lshape l n k
  | RR r => rec_wf r /\ (2 <= r_steps r)%nat /\ n = (r_in r * r_steps r)%nat /\ k = (r_out r * r_steps r)%nat
  | RO _ _ => False
  end.
Fixpoint drshape (ss : list (rnode dbl)) (n k : nat) : Prop :=
  match ss with [] => n = k | s :: r => exists j, dnode_shape s n j /\ drshape r j k end.
Record drstack (m : model (rnode dbl)) (ss post : list (rnode dbl)) (n k : nat) : Prop := {
  ds_graph : exists lossy, is_chain lossy (length ss) (mgraph m);
  ds_some : (1 <= length ss)%nat;
  ds_length : length (mnodes m) = nodes (mgraph m);
  ds_nodes : map fst (mnodes m) = ss ++ post;
  ds_shape : drshape ss n k;
  ds_post : Forall (fun s => exists kd lo, s = RO kd lo) post
}.

(** Every layer has outputs, a recurrent one also a state. *)
Definition rwide (ss : list (rnode dbl)) : Prop := Forall (fun s => match s with RL l => out l <> [] | RR r => r_hid r <> 0%nat /\ r_out r <> 0%nat | RO _ _ => True end) ss.
(** A layer holds a NaN in its state. *)
Definition poisoned (ss : list (rnode dbl)) : Prop := Exists (fun s => some_nan (dheld s)) ss.

Section RErr.
Context (a : fpu) (IE : ieee a) (del : R) (AC : accurate a del).
Notation fl := (fl a). Notation big := (big a). Notation fin := (fin a).
Notation z0 := (DFin false 0).

(** *** One time step *)
Lemma tanh_err_0 : 0 <= tanh_err del.
Proof. unfold tanh_err. pose proof (proj1 AC). pose proof (roff_pos 1 ltac:(lra)). lra. Qed.
Lemma summed_pos n p b : 0 <= p -> 0 <= b -> 0 <= fst (summed n p b) /\ 0 <= snd (summed n p b).
Proof. intros P B. destruct (summed_0 n p b P B) as (A1 & A2 & _). auto. Qed.
Lemma nsum_app (w x : nat -> dbl) A X n : 0 <= A -> 0 <= X -> (forall j, (j < n)%nat -> fin (w j) /\ fin (x j) /\ Rabs (dval (w j)) <= A /\ Rabs (dval (x j)) <= X) ->
  fst (summed n (A * X) 0) <= big -> approx a (nsum n (fun j => nmul (w j) (x j))) (Rsum n (fun j => dval (w j) * dval (x j))) (snd (summed n (A * X) 0)) /\
    Rabs (dval (nsum n (fun j => nmul (w j) (x j)))) <= fst (summed n (A * X) 0).
Proof.
  intros PA PX B L. pose proof (sum_app a IE z0 w x A X 0 n PA PX (fin_0 a IE false)) as Q. cbn [dval] in Q. rewrite Rabs_R0, Rplus_0_l in Q. apply Q; [lra|exact B|exact L].
Qed.
Lemma cell_sums_0 r X : 0 <= X -> 0 <= fst (cell_sums del r X) /\ 0 <= snd (cell_sums del r X).
Proof.
  intros PX. unfold cell_sums. pose proof tanh_err_0 as T0. pose proof (largest_0 (map dval (r_wih r))) as L1. pose proof (largest_0 (map dval (r_whh r))) as L2. pose proof (largest_0 (map dval (r_bh r))) as L3.
  pose proof (summed_pos (r_in r) (largest (map dval (r_wih r)) * X) 0 ltac:(now apply Rmult_le_pos) ltac:(lra)) as (A1 & A2). pose proof (summed_pos (r_hid r) (largest (map dval (r_whh r)) * (1 + tanh_err del)) 0 ltac:(apply Rmult_le_pos; lra) ltac:(lra)) as (B1 & B2).
  destruct (summed (r_in r) _ 0) as (s1, e1), (summed (r_hid r) _ 0) as (s2, e2). cbn [fst snd] in *. pose proof (roff_pos (s1 + s2) ltac:(lra)) as R1. unfold rounded_up. pose proof (roff_pos (s1 + s2 + roff (s1 + s2) + largest (map dval (r_bh r))) ltac:(lra)). lra.
Qed.
Lemma out_sums_0 r : 0 <= fst (out_sums del r) /\ 0 <= snd (out_sums del r).
Proof.
  unfold out_sums. pose proof tanh_err_0 as T0. pose proof (largest_0 (map dval (r_who r))) as L2. pose proof (largest_0 (map dval (r_bo r))) as L3.
  pose proof (summed_pos (r_hid r) (largest (map dval (r_who r)) * (1 + tanh_err del)) 0 ltac:(apply Rmult_le_pos; lra) ltac:(lra)) as (B1 & B2).
  destruct (summed (r_hid r) _ 0) as (s2, e2). cbn [fst snd] in *. pose proof (roff_pos (s2 + largest (map dval (r_bo r))) ltac:(lra)). lra.
Qed.
(** The computed new state is near the exact one of the same input and old state. *)
Lemma cell_app (r : recl dbl) x t (H : list dbl) X : rec_wf r -> finite_rnode a (RR r) -> 0 <= X -> length x = (r_in r * r_steps r)%nat -> Forall fin x -> within_ X (map dval x) -> (t < r_steps r)%nat ->
  length H = r_hid r -> Forall fin H -> within_ (1 + tanh_err del) (map dval H) -> fst (cell_sums del r X) <= big ->
  forall i, (i < r_hid r)%nat -> approx a (nth i (hid_of r x t (fun j => nth j H z0)) z0) (nth i (hid_of (exactr r) (map dval x) t (fun j => nth j (map dval H) 0)) 0) (snd (cell_sums del r X) + tanh_err del) /\
    Rabs (dval (nth i (hid_of r x t (fun j => nth j H z0)) z0)) <= 1 + tanh_err del.
Proof.
  intros W (F1 & F2 & F3 & F4 & F5) PX Lx Fx WX Ht LH FH WH B i Hi. unfold hid_of. cbn [exactr r_hid]. rewrite !nth_tab by exact Hi. pose proof tanh_err_0 as T0.
  pose proof (largest_0 (map dval (r_wih r))) as L1. pose proof (largest_0 (map dval (r_whh r))) as L2. pose proof (largest_0 (map dval (r_bh r))) as L3.
  pose proof (summed_pos (r_in r) (largest (map dval (r_wih r)) * X) 0 ltac:(now apply Rmult_le_pos) ltac:(lra)) as (A1 & A2). pose proof (summed_pos (r_hid r) (largest (map dval (r_whh r)) * (1 + tanh_err del)) 0 ltac:(apply Rmult_le_pos; lra) ltac:(lra)) as (B1 & B2).
  pose proof (nsum_app (fun j => nth (i * r_in r + j) (r_wih r) z0) (fun j => nth (t * r_in r + j) x z0) (largest (map dval (r_wih r))) X (r_in r) L1 PX) as S1.
  pose proof (nsum_app (fun j => nth (i * r_hid r + j) (r_whh r) z0) (fun j => nth j H z0) (largest (map dval (r_whh r))) (1 + tanh_err del) (r_hid r) L2 ltac:(lra)) as S2.
  unfold cell_sums in *. destruct (summed (r_in r) _ 0) as (s1, e1), (summed (r_hid r) _ 0) as (s2, e2). cbn [fst snd] in *.
  pose proof (roff_pos (s1 + s2) ltac:(lra)) as R1. set (z := rounded_up (s1 + s2) + largest (map dval (r_bh r))) in *. assert (Z1 : s1 + s2 + roff (s1 + s2) <= z) by (unfold z, rounded_up; lra).
  destruct S1 as (S1 & Q1); [|lra|].
  { intros j Hj. split; [apply fins_nth; [exact F1|rewrite (rw_wih r W); nia]|]. split; [apply fins_nth; [exact Fx|rewrite Lx; nia]|]. rewrite <- !dval_nth. split; [apply largest_nth|apply WX]. }
  destruct S2 as (S2 & Q2); [|lra|].
  { intros j Hj. split; [apply fins_nth; [exact F2|rewrite (rw_whh r W); nia]|]. split; [apply fins_nth; [exact FH|lia]|]. rewrite <- !dval_nth. split; [apply largest_nth|apply WH]. }
  unfold drive. change (@n0 dbl (NumD a)) with z0. set (dn := nsum (r_in r) (fun j => nmul (nth (i * r_in r + j) (r_wih r) z0) (nth (t * r_in r + j) x z0))) in *. set (d2 := nsum (r_hid r) (fun j => nmul (nth (i * r_hid r + j) (r_whh r) z0) (nth j H z0))) in *.
  assert (Sum : Rabs (dval dn + dval d2) <= s1 + s2) by (eapply Rle_trans; [apply Rabs_triang|lra]).
  pose proof (add_app a IE _ _ _ _ _ _ _ S1 S2 Sum ltac:(lra)) as S3.
  pose proof (app_size _ _ _ _ (add_app a IE _ _ _ _ _ _ _ (app_self a dn (proj1 S1)) (app_self a d2 (proj1 S2)) Sum ltac:(lra))) as Q3.
  set (d3 := dadd a dn d2) in *. assert (Fb : fin (nth i (r_bh r) z0)) by (apply fins_nth; [exact F4|rewrite (rw_bh r W); lia]).
  assert (Lb : Rabs (dval (nth i (r_bh r) z0)) <= largest (map dval (r_bh r))) by (rewrite <- dval_nth; apply largest_nth).
  assert (Sum2 : Rabs (dval d3 + dval (nth i (r_bh r) z0)) <= z) by (eapply Rle_trans; [apply Rabs_triang|unfold z, rounded_up; lra]).
  pose proof (add_app a IE _ _ _ _ _ _ _ S3 (app_self a _ Fb) Sum2 ltac:(lra)) as S4. pose proof (tanh_app a IE del AC _ (proj1 S4)) as S5.
  change (nadd (nadd dn d2) (nth i (r_bh r) z0)) with (dadd a d3 (nth i (r_bh r) z0)). set (v := dadd a d3 (nth i (r_bh r) z0)) in *.
  cbn [exactr r_in r_hid r_wih r_whh r_bh]. cbn [n0 nadd nmul ntanh NumR TransR].
  set (rr := tanh _). assert (ER : rr = tanh (Rsum (r_in r) (fun j => dval (nth (i * r_in r + j) (r_wih r) z0) * dval (nth (t * r_in r + j) x z0)) + Rsum (r_hid r) (fun j => dval (nth (i * r_hid r + j) (r_whh r) z0) * dval (nth j H z0)) + dval (nth i (r_bh r) z0))).
  { unfold rr. rewrite !nsum_Rsum. do 2 f_equal; [f_equal|]; rewrite ?dval_nth; try reflexivity; apply Rsum_ext; intros j _; now rewrite !dval_nth. }
  rewrite ER. pose proof (app_size _ _ _ _ S5) as S6. pose proof (tanh_1 (dval v)) as T1. split; [|change (ntanh v) with (dtanh a v); unfold tanh_err; lra]. split; [exact (proj1 S5)|]. clear S6 T1. destruct S5 as (_ & S5). destruct S4 as (_ & S4). pose proof (DriftProofs.tanh_slope (dval v) (Rsum (r_in r) (fun j => dval (nth (i * r_in r + j) (r_wih r) z0) * dval (nth (t * r_in r + j) x z0)) + Rsum (r_hid r) (fun j => dval (nth (i * r_hid r + j) (r_whh r) z0) * dval (nth j H z0)) + dval (nth i (r_bh r) z0))) as SL.
  change (ntanh v) with (dtanh a v). unfold tanh_err. set (p := Rsum (r_in r) _) in *. set (q := Rsum (r_hid r) _) in *. split_Rabs; lra.
Qed.
Lemma cell_lip (r : recl R) u u' H H' e d : 0 <= e -> 0 <= d -> apart e u u' -> apart d H H' ->
  apart (INR (r_in r) * (largest (r_wih r) * e) + INR (r_hid r) * (largest (r_whh r) * d)) (cell_next r u H) (cell_next r u' H').
Proof.
  intros Pe Pd AX AH. unfold cell_next. pose proof (largest_0 (r_wih r)) as L1. pose proof (largest_0 (r_whh r)) as L2. pose proof (pos_INR (r_in r)). pose proof (pos_INR (r_hid r)).
  apply tab_apart; [apply Rplus_le_le_0_compat; repeat (apply Rmult_le_pos; try assumption)|]. intros i _. eapply Rle_trans; [apply DriftProofs.tanh_slope|].
  match goal with |- Rabs (Rsum ?n ?f + Rsum ?h ?g + ?b - (Rsum ?n ?f' + Rsum ?h ?g' + ?b)) <= _ =>
    replace (Rsum n f + Rsum h g + b - (Rsum n f' + Rsum h g' + b)) with (Rsum n (fun j => f j - f' j) + Rsum h (fun j => g j - g' j)) by (rewrite !Rsum_minus; ring) end.
  eapply Rle_trans; [apply Rabs_triang|]. apply Rplus_le_compat; apply Rsum_bound; intros j _; rewrite <- Rmult_minus_distr_l, Rabs_mult; apply Rmult_le_compat; try apply Rabs_pos; try apply largest_nth; [apply AX|apply AH].
Qed.
Lemma out_app (r : recl dbl) (H : list dbl) : rec_wf r -> finite_rnode a (RR r) -> length H = r_hid r -> Forall fin H -> within_ (1 + tanh_err del) (map dval H) -> fst (out_sums del r) <= big ->
  apps a (snd (out_sums del r)) (out_of r H) (cell_out (exactr r) (map dval H)).
Proof.
  intros W (F1 & F2 & F3 & F4 & F5) LH FH WH B. unfold out_of, cell_out. cbn [exactr r_out r_hid r_who r_bo]. apply tab_apps. intros i Hi. pose proof tanh_err_0 as T0.
  pose proof (largest_0 (map dval (r_who r))) as L2. pose proof (largest_0 (map dval (r_bo r))) as L3.
  pose proof (summed_pos (r_hid r) (largest (map dval (r_who r)) * (1 + tanh_err del)) 0 ltac:(apply Rmult_le_pos; lra) ltac:(lra)) as (B1 & B2).
  pose proof (nsum_app (fun j => nth (i * r_hid r + j) (r_who r) z0) (fun j => nth j H z0) (largest (map dval (r_who r))) (1 + tanh_err del) (r_hid r) L2 ltac:(lra)) as S2.
  unfold out_sums in *. destruct (summed (r_hid r) _ 0) as (s2, e2). cbn [fst snd] in *. destruct S2 as (S2 & Q2); [|lra|].
  { intros j Hj. split; [apply fins_nth; [exact F3|rewrite (rw_who r W); nia]|]. split; [apply fins_nth; [exact FH|lia]|]. rewrite <- !dval_nth. split; [apply largest_nth|apply WH]. }
  change (@n0 dbl (NumD a)) with z0. set (d2 := nsum (r_hid r) (fun j => nmul (nth (i * r_hid r + j) (r_who r) z0) (nth j H z0))) in *.
  assert (Fb : fin (nth i (r_bo r) z0)) by (apply fins_nth; [exact F5|rewrite (rw_bo r W); lia]).
  assert (Lb : Rabs (dval (nth i (r_bo r) z0)) <= largest (map dval (r_bo r))) by (rewrite <- dval_nth; apply largest_nth).
  assert (Sum2 : Rabs (dval d2 + dval (nth i (r_bo r) z0)) <= s2 + largest (map dval (r_bo r))) by (eapply Rle_trans; [apply Rabs_triang|lra]).
  pose proof (add_app a IE _ _ _ _ _ _ _ S2 (app_self a _ Fb) Sum2 ltac:(lra)) as S4. rewrite Rplus_0_r in S4. rewrite dval_nth.
  rewrite (Rsum_ext (r_hid r) _ (fun j => dval (nth (i * r_hid r + j) (r_who r) z0) * dval (nth j H z0))) by (intros j _; now rewrite !dval_nth). exact S4.
Qed.
Lemma out_lip (r : recl R) H H' d : 0 <= d -> apart d H H' -> apart (INR (r_hid r) * (largest (r_who r) * d)) (cell_out r H) (cell_out r H').
Proof.
  intros Pd AH. unfold cell_out. pose proof (largest_0 (r_who r)) as L2. pose proof (pos_INR (r_hid r)). apply tab_apart; [repeat (apply Rmult_le_pos; try assumption)|]. intros i _.
  match goal with |- Rabs (Rsum ?h ?g + ?b - (Rsum ?h ?g' + ?b)) <= _ => replace (Rsum h g + b - (Rsum h g' + b)) with (Rsum h (fun j => g j - g' j)) by (rewrite !Rsum_minus; ring) end.
  apply Rsum_bound; intros j _; rewrite <- Rmult_minus_distr_l, Rabs_mult; apply Rmult_le_compat; try apply Rabs_pos; try apply largest_nth; apply AH.
Qed.

(** *** One call of a recurrent layer *)
Lemma cell_hid (r : recl R) x t H : cell_next r (firstn (r_in r) (skipn (t * r_in r) x)) H = hid_of r x t (fun j => nth j H 0).
Proof.
  unfold cell_next, hid_of. apply tab_ext. intros i Hi. cbn [ntanh TransR nadd NumR]. f_equal. f_equal. f_equal.
  - unfold drive. rewrite nsum_Rsum. apply Rsum_ext. intros j Hj. rewrite nth_firstn_lt by exact Hj. now rewrite nth_skipn_add.
  - rewrite nsum_Rsum. reflexivity.
Qed.
Lemma state_err_le r X e d : d <= state_err del r X e d.
Proof. apply Rmax_l. Qed.
Lemma state_iter_le r X e n : forall d, d <= Nat.iter n (state_err del r X e) d.
Proof. induction n as [|n IH]; intros d; [apply Rle_refl|]. change (Nat.iter (S n) ?f d) with (f (Nat.iter n f d)). eapply Rle_trans; [apply IH|apply state_err_le]. Qed.
Lemma state_iter_mono r X e m n d : (m <= n)%nat -> Nat.iter m (state_err del r X e) d <= Nat.iter n (state_err del r X e) d.
Proof. intros L. induction L as [|n L IH]; [apply Rle_refl|]. change (Nat.iter (S n) ?f d) with (f (Nat.iter n f d)). eapply Rle_trans; [exact IH|apply state_err_le]. Qed.
(** The exact and the computed state *)
Definition near_state (d : R) (H : list R) (G : list dbl) : Prop :=
  0 <= d /\ length H = length G /\ Forall fin G /\ within_ (1 + tanh_err del) (map dval G) /\ within_ 1 H /\ apart d H (map dval G).
Lemma list_fins (l : list dbl) : (forall i, (i < length l)%nat -> fin (nth i l z0)) -> Forall fin l.
Proof. intros A. apply Forall_forall. intros v I. destruct (In_nth _ _ z0 I) as (i & Hi & <-). now apply A. Qed.
Lemma hidden_err (r : recl dbl) x xr H X e d : rec_wf r -> (2 <= r_steps r)%nat -> finite_rnode a (RR r) -> 0 <= X -> 0 <= e -> length x = (r_in r * r_steps r)%nat -> Forall fin x -> within_ X xr -> apart e xr (map dval x) ->
  near_state d H (firstn (r_hid r) (r_hs r)) -> fst (cell_sums del r (X + e)) <= big ->
  let rr := set_forward (exactr r) H [] in forall t, (t <= r_steps r)%nat -> near_state (Nat.iter t (state_err del r X e) d) (hidden rr xr t) (hidden r x t).
Proof.
  intros W HS F PX Pe Lx Fx WX AX NS B rr. assert (Lb : (r_hid r <= length (r_hs r))%nat) by (rewrite (rw_hs r W); clear - HS; nia).
  assert (E0 : hidden rr xr 0 = H).
  { cbn [hidden]. destruct NS as (_ & LH & _). rewrite firstn_length, Nat.min_l in LH by exact Lb. apply (list_ext_nth 0); [rewrite tab_length; cbn; lia|]. intros j Hj. rewrite tab_length in Hj. now rewrite nth_tab. }
  assert (E1 : hidden r x 0 = firstn (r_hid r) (r_hs r)) by (cbn [hidden]; symmetry; now apply firstn_tab).
  pose proof (within_apart _ _ _ _ WX AX) as WD. pose proof tanh_err_0 as T0.
  induction t as [|t IH]; intros Ht; [rewrite E0, E1; exact NS|]. destruct (IH ltac:(lia)) as (Pd & LG & FG & WG & WH & AH).
  change (Nat.iter (S t) ?f d) with (f (Nat.iter t f d)). set (D := Nat.iter t (state_err del r X e) d) in *. pose proof (hidden_length r x t) as LD. set (G := hidden r x t) in *. set (Hr := hidden rr xr t) in *.
  assert (C : forall i, (i < r_hid r)%nat -> _) by exact (cell_app r x t G (X + e) W F ltac:(lra) Lx Fx WD ltac:(lia) LD FG WG B).
  change (hidden r x (S t)) with (hid_of r x t (fun j => nth j G z0)). set (G' := hid_of r x t (fun j => nth j G z0)) in *. assert (LG' : length G' = r_hid r) by apply tab_length.
  assert (EH : hidden rr xr (S t) = cell_next (exactr r) (firstn (r_in r) (skipn (t * r_in r) xr)) Hr).
  { change (r_in r) with (r_in rr). symmetry. exact (hidden_next rr xr t). }
  rewrite EH. pose proof (cell_hid (exactr r) (map dval x) t (map dval G)) as CH. cbn [exactr r_in] in CH. fold (exactr r) in CH. rewrite <- CH in C. clear CH.
  set (u := firstn (r_in r) (skipn (t * r_in r) xr)) in *. set (u' := firstn (r_in r) (skipn (t * r_in r) (map dval x))) in *.
  assert (Au : apart e u u').
  { unfold u, u'. intros i. destruct (Nat.lt_ge_cases i (r_in r)) as [L|L]; [rewrite !nth_firstn_lt by exact L; rewrite !nth_skipn_add; apply AX|rewrite !(nth_overflow (firstn _ _)) by (rewrite firstn_length; lia); rewrite Rminus_0_r, Rabs_R0; exact Pe]. }
  pose proof (cell_lip (exactr r) u u' Hr (map dval G) e D Pe Pd Au AH) as CL. cbn [exactr r_in r_hid r_wih r_whh] in CL. fold (exactr r) in CL.
  split; [eapply Rle_trans; [exact Pd|apply state_err_le]|]. split; [unfold cell_next; rewrite tab_length, LG'; reflexivity|].
  split; [apply list_fins; rewrite LG'; intros i Hi; apply (C i Hi)|].
  assert (OV : forall i, (r_hid r <= i)%nat -> nth i (map dval G') 0 = 0) by (intros i Hi; apply nth_overflow; rewrite map_length; lia).
  split; [intros i; destruct (Nat.lt_ge_cases i (r_hid r)) as [Hi|Hi]; [rewrite dval_nth; apply (C i Hi)|rewrite OV, Rabs_R0 by exact Hi; lra]|].
  split; [apply tab_within; [lra|intros; apply tanh_1]|]. intros i. unfold state_err. destruct (Nat.lt_ge_cases i (r_hid r)) as [Hi|Hi].
  - eapply Rle_trans; [|apply Rmax_r]. rewrite dval_nth. destruct (C i Hi) as ((_ & C1) & _). specialize (CL i). split_Rabs; lra.
  - rewrite OV by exact Hi. rewrite nth_overflow by (unfold cell_next; rewrite tab_length; cbn; lia). rewrite Rminus_0_r, Rabs_R0. eapply Rle_trans; [exact Pd|apply Rmax_l].
Qed.
Lemma rec_app (r : recl dbl) x xr H X e d : rec_wf r -> (2 <= r_steps r)%nat -> finite_rnode a (RR r) -> 0 <= X -> 0 <= e -> length x = (r_in r * r_steps r)%nat -> length xr = length x -> Forall fin x -> within_ X xr -> apart e xr (map dval x) ->
  near_state d H (firstn (r_hid r) (r_hs r)) -> rsafe1 a del (RR r) (X + e) ->
  exists hs act, rec_forward r x = Ok (set_forward r hs act) /\ rec_wf (set_forward r hs act) /\ length act = (r_out r * r_steps r)%nat /\ Forall fin act /\
    let '(X1, e1, dn) := rround1 del (RR r) X e d in let '(y, H1) := node_run (RR (exactr r)) H xr in
    (0 <= X1 /\ 0 <= e1 /\ length y = length act) /\ within_ X1 y /\ apart e1 y (map dval act) /\ near_state dn H1 (firstn (r_hid r) hs).
Proof.
  intros W HS F PX Pe Lx Lr Fx WX AX NS (B1 & B2). pose proof (hidden_err r x xr H X e d W HS F PX Pe Lx Fx WX AX NS B1) as HE. cbv zeta in HE. set (rr := set_forward (exactr r) H []) in *.
  assert (Lb : (r_hid r <= length (r_hs r))%nat) by (rewrite (rw_hs r W); clear - HS; nia). assert (LH : length H = r_hid r) by (destruct NS as (_ & LH & _); rewrite firstn_length, Nat.min_l in LH by exact Lb; exact LH).
  destruct (rec_forward_spec r x W ltac:(lia) HS) as (hs & act & E & Lh & La & P1 & P2 & P3). exists hs, act. split; [exact E|].
  split; [destruct W; constructor; cbn [set_forward r_in r_out r_hid r_steps r_wih r_whh r_who r_bh r_bo r_gwih r_gwhh r_gwho r_gbh r_gbo r_hs r_act r_ig]; auto; rewrite Lh; f_equal; lia|]. split; [exact La|].
  pose proof NS as (Pd & _). pose proof (out_sums_0 r) as (O1 & O2). pose proof (largest_0 (map dval (r_who r))) as L1. pose proof (largest_0 (map dval (r_bo r))) as L2. pose proof (pos_INR (r_hid r)) as L3.
  cbn [rround1]. set (D := Nat.iter (r_steps r) (state_err del r X e) d) in *. assert (PD : 0 <= D) by (eapply Rle_trans; [exact Pd|apply state_iter_le]).
  set (e1 := INR (r_hid r) * (largest (map dval (r_who r)) * D) + snd (out_sums del r)). set (X1 := INR (r_hid r) * largest (map dval (r_who r)) + largest (map dval (r_bo r))).
  assert (Pe1 : 0 <= e1) by (apply Rplus_le_le_0_compat; [repeat (apply Rmult_le_pos; try assumption)|exact O2]). assert (PX1 : 0 <= X1) by (apply Rplus_le_le_0_compat; [now apply Rmult_le_pos|exact L2]).
  assert (OUT : forall t i, (t < r_steps r)%nat -> (i < r_out r)%nat -> fin (nth (t * r_out r + i) act z0) /\ Rabs (nth i (out_of rr (hidden rr xr (S t))) 0 - dval (nth (t * r_out r + i) act z0)) <= e1 /\ Rabs (nth i (out_of rr (hidden rr xr (S t))) 0) <= X1).
  { intros t i Ht Hi. change z0 with (@n0 dbl (NumD a)). rewrite P3 by assumption. change (@n0 dbl (NumD a)) with z0. destruct (HE (S t) ltac:(lia)) as (Pd' & LG & FG & WG & WH & AH). pose proof (hidden_length r x (S t)) as LG2.
    set (G := hidden r x (S t)) in *. set (Hr := hidden rr xr (S t)) in *. destruct (out_app r G W F LG2 FG WG B2) as (_ & OA). assert (LO : length (out_of r G) = r_out r) by apply tab_length. destruct (OA i ltac:(lia)) as (OF & OE).
    split; [exact OF|]. rewrite <- hidden_out. assert (EC : cell_out rr Hr = cell_out (exactr r) Hr) by reflexivity. rewrite EC.
    assert (NR : rnear 0 (RR (exactr r)) (RR (exactr r))) by (repeat split; try reflexivity; intros j; rewrite Rminus_diag_eq, Rabs_R0 by reflexivity; lra).
    pose proof (cell_out_drift 0 (exactr r) (exactr r) 0 Hr Hr ltac:(lra) ltac:(lra) NR WH WH ltac:(intros j; rewrite Rminus_diag_eq, Rabs_R0 by reflexivity; lra)) as (CW & _). split; [|exact (CW i)].
    pose proof (out_lip (exactr r) Hr (map dval G) _ Pd' AH i) as OL. cbn [exactr r_hid r_who] in OL. fold (exactr r) in OL.
    assert (LE : INR (r_hid r) * (largest (map dval (r_who r)) * Nat.iter (S t) (state_err del r X e) d) <= INR (r_hid r) * (largest (map dval (r_who r)) * D)) by (repeat (apply Rmult_le_compat_l; try assumption); apply state_iter_mono; lia).
    unfold e1. split_Rabs; lra. }
  assert (SPLIT : forall q, (q < r_out r * r_steps r)%nat -> exists t i, q = (t * r_out r + i)%nat /\ (t < r_steps r)%nat /\ (i < r_out r)%nat).
  { intros q Hq. assert (Ho : (r_out r <> 0)%nat) by (intros Z; rewrite Z in Hq; lia). pose proof (Nat.div_mod q (r_out r) Ho) as DM. pose proof (Nat.mod_upper_bound q (r_out r) Ho) as MB.
    exists (q / r_out r)%nat, (q mod r_out r)%nat. split; [lia|]. split; [apply Nat.div_lt_upper_bound; lia|exact MB]. }
  split; [apply list_fins; rewrite La; intros q Hq; destruct (SPLIT q Hq) as (t & i & -> & Ht & Hi); apply (OUT t i Ht Hi)|].
  assert (RS : rsame (exactr r) rr) by (repeat split). rewrite <- (rsame_run (exactr r) rr H xr RS). cbn [node_run]. change (r_in rr) with (r_in r). change (r_steps rr) with (r_steps r).
  pose proof (pieces_from (r_in r) xr (r_steps r) 0) as EP. cbn [Nat.mul skipn] in EP. rewrite EP.
  assert (E0 : hidden rr xr 0 = H) by (cbn [hidden]; apply (list_ext_nth 0); [rewrite tab_length; cbn; lia|]; intros j Hj; rewrite tab_length in Hj; now rewrite nth_tab).
  pose proof (hidden_unroll rr xr (r_steps r) 0) as EU. change (r_in rr) with (r_in r) in EU. rewrite E0 in EU. cbn [Nat.add] in EU. rewrite EU. clear EU. set (ys := map (fun t => out_of rr (hidden rr xr (S t))) (seq 0 (r_steps r))).
  assert (FY : Forall (fun y => length y = r_out r) ys) by (apply Forall_forall; intros y Hy; apply in_map_iff in Hy; destruct Hy as (t & <- & _); apply tab_length).
  assert (LY : length ys = r_steps r) by (unfold ys; now rewrite map_length, seq_length). assert (LC : length (concat ys) = length act) by (rewrite (concat_length ys _ FY), LY, La; reflexivity).
  assert (NY : forall t i, (t < r_steps r)%nat -> (i < r_out r)%nat -> nth (t * r_out r + i) (concat ys) 0 = nth i (out_of rr (hidden rr xr (S t))) 0).
  { intros t i Ht Hi. rewrite (DatasetProofs.nth_concat_uniform 0 (r_out r) ys t i) by (solve [lia|apply Forall_forall; exact FY]). f_equal. unfold ys. rewrite (nth_indep _ [] (out_of rr (hidden rr xr (S 0)))) by (rewrite map_length, seq_length; lia).
    rewrite (map_nth (fun t => out_of rr (hidden rr xr (S t)))), seq_nth by lia. reflexivity. }
  split; [auto|]. split; [|split].
  - intros q. destruct (Nat.lt_ge_cases q (r_out r * r_steps r)) as [Hq|Hq]; [destruct (SPLIT q Hq) as (t & i & -> & Ht & Hi); rewrite NY by assumption; apply (OUT t i Ht Hi)|rewrite nth_overflow, Rabs_R0 by lia; exact PX1].
  - intros q. destruct (Nat.lt_ge_cases q (r_out r * r_steps r)) as [Hq|Hq]; [destruct (SPLIT q Hq) as (t & i & -> & Ht & Hi); rewrite NY, dval_nth by assumption; apply (OUT t i Ht Hi)|].
    rewrite !nth_overflow by (rewrite ?map_length; lia). rewrite Rminus_0_r, Rabs_R0. exact Pe1.
  - assert (EG : firstn (r_hid r) hs = hidden r x (r_steps r)).
    { rewrite firstn_tab by (rewrite Lh; clear - HS; nia). apply (list_ext_nth z0); [rewrite tab_length; symmetry; apply hidden_length|]. intros j Hj. rewrite tab_length in Hj. rewrite nth_tab by exact Hj. now apply P2. }
    rewrite EG. exact (HE (r_steps r) (le_n _)).
Qed.

(** *** Stacks and calls *)
Definition dkept (s s' : rnode dbl) : Prop :=
  match s, s' with
  | RL l, RL l' => exists o, l' = LayerModel.set_out l o /\ length o = length (out l)
  | RR r, RR r' => exists hs act, r' = set_forward r hs act
  | _, _ => False
  end.
Lemma dkept_refl s n k : dnode_shape s n k -> dkept s s.
Proof. destruct s as [l|r|]; cbn [dkept dnode_shape]; [exists (out l); destruct l; auto|intros _; exists (r_hs r), (r_act r); now destruct r|contradiction]. Qed.
Lemma dkept_all_refl : forall ss n k, drshape ss n k -> Forall2 dkept ss ss.
Proof. induction ss as [|s ss IH]; intros n k HS; constructor; destruct HS as (j & A & B); eauto using dkept_refl. Qed.
Lemma rnode_app s0 s n k X e d x xr H : 0 <= X -> 0 <= e -> dkept s0 s -> dnode_shape s n k -> finite_rnode a s0 -> length x = n -> length xr = n -> Forall fin x -> within_ X xr -> apart e xr (map dval x) ->
  near_state d H (dheld s) -> rsafe1 a del s0 (X + e) ->
  exists s' y, r_forward s x = Ok s' /\ r_output s' = Ok y /\ dkept s0 s' /\ dnode_shape s' n k /\ length y = k /\ Forall fin y /\
    let '(X1, e1, dn) := rround1 del s0 X e d in let '(z, H1) := node_run (exactn s0) H xr in
    (0 <= X1 /\ 0 <= e1 /\ length z = k) /\ within_ X1 z /\ apart e1 z (map dval y) /\ near_state dn H1 (dheld s').
Proof.
  intros PX Pe K Sh F Lx Lr Fx WX AX NS SF. destruct s0 as [l0|r0|kd lo], s as [l|r|kd' lo']; cbn [dkept] in K; try contradiction.
  - destruct K as (o & -> & Lo). cbn [dnode_shape] in Sh. pose proof (within_apart _ _ _ _ WX AX) as WD.
    destruct (layer_app a IE del AC (LayerModel.set_out l0 o) n k x (X + e) Sh F Lx Fx ltac:(lra) WD SF) as (y & E & Ly & A).
    exists (RL (LayerModel.set_out l0 y)), y. cbn [r_forward]. rewrite E. cbn [bind]. split; [reflexivity|]. split; [reflexivity|].
    assert (LO : length o = k) by (destruct Sh as (_ & _ & Q & _); exact Q).
    split; [exists y; split; [reflexivity|lia]|]. split; [exact (lshape_set_out _ _ _ y Sh Ly)|]. split; [exact Ly|]. split; [exact (apps_fins a _ _ _ A)|].
    assert (Sh0 : lshape l0 n k) by (destruct Sh as (Q1 & Q2 & Q3 & Q4); split; [exact Q1|]; split; [exact Q2|]; split; [lia|exact Q4]). pose proof (exact_shape l0 n k Sh0) as ShR.
    cbn [rround1 exactn node_run]. pose proof (drift1_0 0 (exactl l0) X e (Rle_refl 0) PX Pe) as D0.
    pose proof (layer_drift 0 (exactl l0) (exactl l0) X e xr (map dval x) n k (Rle_refl 0) PX Pe ShR (near_self (exactl l0)) Lr ltac:(rewrite map_length; exact Lx) WX AX) as (D1 & D2).
    destruct (drift1 0 (exactl l0) X e) as (X1, e1). cbn [fst snd] in *. pose proof (round1_0 a del AC l0 (X + e) ltac:(lra)) as R0. split; [split; [tauto|]; split; [lra|exact (layer_sem_length _ _ _ _ ShR Lr)]|]. split; [exact D1|]. split; [|exact NS].
    assert (ES : layer_sem (exactl (LayerModel.set_out l0 o)) (map dval x) = layer_sem (exactl l0) (map dval x)) by (unfold layer_sem; cbn [exactl LayerModel.set_out knd out wts bias insz]; rewrite !map_length, Lo; reflexivity).
    rewrite ES in A. pose proof (apps_apart a _ _ _ (round1_0 a del AC (LayerModel.set_out l0 o) (X + e) ltac:(lra)) A) as A2. change (round1 del (LayerModel.set_out l0 o) (X + e)) with (round1 del l0 (X + e)) in A2.
    intros i. specialize (D2 i). specialize (A2 i). split_Rabs; lra.
  - destruct K as (hs & act & ->). destruct Sh as (W & HS & En & Ek). cbn [r_in r_out r_steps set_forward] in HS, En, Ek.
    destruct (rec_app (set_forward r0 hs act) x xr H X e d W HS F PX Pe ltac:(cbn; lia) ltac:(lia) Fx WX AX NS SF) as (hs' & act' & E & W' & La & Fa & Q).
    exists (RR (set_forward r0 hs' act')), act'. cbn [r_forward]. rewrite E. cbn [bind]. split; [reflexivity|]. split; [reflexivity|]. split; [exists hs', act'; reflexivity|].
    split; [split; [exact W'|]; cbn [r_in r_out r_steps set_forward]; auto|]. cbn [r_out r_steps set_forward] in La. split; [lia|]. split; [exact Fa|].
    change (rround1 del (RR (set_forward r0 hs act)) X e d) with (rround1 del (RR r0) X e d) in Q. assert (RS : rsame (exactr r0) (exactr (set_forward r0 hs act))) by (repeat split). rewrite (rsame_run _ _ H xr RS) in Q.
    cbn [exactn]. destruct (rround1 del (RR r0) X e d) as ((X1, e1), dn), (node_run (RR (exactr r0)) H xr) as (z, H1). destruct Q as ((Q1 & Q2 & Q3) & Q4 & Q5 & Q6). split; [split; [exact Q1|]; split; [exact Q2|lia]|]. split; [exact Q4|]. split; [exact Q5|exact Q6].
Qed.
Inductive all_near : list R -> list (list R) -> list (rnode dbl) -> Prop :=
| an_nil : all_near [] [] []
| an_cons d ds H Hs s ss : near_state d H (dheld s) -> all_near ds Hs ss -> all_near (d :: ds) (H :: Hs) (s :: ss).
Lemma stack_app : forall ss0 ss, Forall2 dkept ss0 ss -> forall n k X e ds x xr Hs, 0 <= X -> 0 <= e -> drshape ss n k -> Forall (finite_rnode a) ss0 -> length x = n -> length xr = n -> Forall fin x -> within_ X xr -> apart e xr (map dval x) ->
  all_near ds Hs ss -> rsafe a del ss0 X e ds ->
  exists ss' y, gforward rnn_ops ss x = Ok (ss', y) /\ Forall2 dkept ss0 ss' /\ drshape ss' n k /\ length y = k /\ Forall fin y /\
    let '(e1, ds1) := rround del ss0 X e ds in let '(z, Hs1) := stack_run (map exactn ss0) Hs xr in length z = k /\ apart e1 z (map dval y) /\ all_near ds1 Hs1 ss'.
Proof.
  induction 1 as [|s0 s ss0 ss K F IH]; intros n k X e ds x xr Hs PX Pe Sh FN Lx Lr Fx WX AX NS SF.
  - inversion NS; subst. cbn in *. subst. exists [], x. repeat split; auto using an_nil.
  - inversion NS as [|d ds' H Hs' s1 ss1 N1 NS1]; subst. destruct Sh as (j & S1 & S2). inversion FN as [|? ? F1 FN1]; subst. cbn [rsafe] in SF. destruct SF as (SF1 & SF2).
    destruct (rnode_app s0 s (length x) j X e d x xr H PX Pe K S1 F1 eq_refl Lr Fx WX AX N1 SF1) as (s' & y & E & EO & K' & Sh' & Ly & Fy & Q).
    cbn [rround map stack_run]. destruct (rround1 del s0 X e d) as ((X1, e1), dn), (node_run (exactn s0) H xr) as (z, H1). destruct Q as ((Q1 & Q2 & Q3) & Q4 & Q5 & Q6).
    destruct (IH j k X1 e1 ds' y z Hs' Q1 Q2 S2 FN1 Ly Q3 Fy Q4 Q5 NS1 SF2) as (ss' & y' & E' & K2 & Sh2 & Ly' & Fy' & Q'). exists (s' :: ss'), y'.
    cbn [gforward]. change (o_tforward rnn_ops s x) with (r_forward s x). rewrite E. cbn [bind]. change (o_output rnn_ops s') with (r_output s'). rewrite EO. cbn [bind]. rewrite E'. cbn [bind].
    split; [reflexivity|]. split; [constructor; auto|]. split; [exists j; auto|]. split; [exact Ly'|]. split; [exact Fy'|].
    destruct (rround del ss0 X1 e1 ds') as (e2, ds2), (stack_run (map exactn ss0) Hs' z) as (z', Hs2). destruct Q' as (Q7 & Q8 & Q9). split; [exact Q7|]. split; [exact Q8|]. constructor; auto.
Qed.
Lemma calls_app : forall xs ss0 ss m post n k ds Hs, Forall2 dkept ss0 ss -> drstack m ss post n k -> Forall (finite_rnode a) ss0 -> Forall (fun x => length x = n) xs -> Forall (Forall fin) xs -> all_near ds Hs ss -> calls_safe a del ss0 ds xs ->
  exists m' ys, predict_all m xs = Ok (m', ys) /\ length ys = length xs /\ Forall (fun y => length y = k) ys /\ Forall (Forall fin) ys /\
    forall q i, Rabs (nth i (nth q (fst (chunk_run (map exactn ss0) Hs (map (map dval) xs))) []) 0 - dval (nth i (nth q ys []) z0)) <= nth q (calls_round del ss0 ds xs) 0.
Proof.
  induction xs as [|x xs IH]; intros ss0 ss m post n k ds Hs K [(lossy & HC) H2 H3 H4 H5 H6] FN FL FX NS SF.
  - exists m, []. cbn. repeat split; auto. intros q i. destruct q, i; cbn; rewrite Rminus_0_r, Rabs_R0; apply Rle_refl.
  - inversion FL as [|? ? Lx FL2]; subst. inversion FX as [|? ? Fx FX2]; subst. cbn [calls_safe] in SF. cbv zeta in SF. destruct SF as (SF1 & SF2).
    assert (A0 : apart 0 (map dval x) (map dval x)) by (intros j; rewrite Rminus_diag_eq, Rabs_R0 by reflexivity; apply Rle_refl).
    destruct (stack_app ss0 ss K (length x) k (largest (map dval x)) 0 ds x (map dval x) Hs (largest_0 _) (Rle_refl 0) H5 FN eq_refl (map_length _ _) Fx (largest_nth _) A0 NS SF1) as (ss' & y & E & K' & Sh' & Ly & Fy & Q).
    destruct (predict_g rnn_ops (fun s x => eq_refl) lossy m ss post x ss' _ HC H2 H3 H4 E) as (m1 & EP & G & N).
    assert (LL : length ss' = length ss) by (pose proof (f2same _ _ _ K'); pose proof (f2same _ _ _ K); congruence).
    cbn [calls_round map chunk_run]. destruct (rround del ss0 (largest (map dval x)) 0 ds) as (e1, ds1), (stack_run (map exactn ss0) Hs (map dval x)) as (z, Hs1). destruct Q as (_ & Q1 & Q2).
    destruct (IH ss0 ss' m1 post (length x) k ds1 Hs1 K') as (m2 & ys & E2 & LY & FY & FF & QY); auto.
    { constructor; rewrite ?LL, ?G; eauto. apply (f_equal (@length _)) in N. apply (f_equal (@length _)) in H4. rewrite !map_length, !app_length in N, H4. rewrite <- H3. lia. }
    exists m2, (y :: ys). cbn [predict_all]. rewrite EP. cbn [bind]. rewrite E2. cbn [bind]. split; [reflexivity|]. split; [cbn; lia|]. split; [constructor; auto|]. split; [constructor; auto|].
    destruct (chunk_run (map exactn ss0) Hs1 (map (map dval) xs)) as (zs, Hn). cbn [fst] in *. intros [|q] i; cbn [nth]; [|apply QY]. specialize (Q1 i). rewrite dval_nth in Q1. exact Q1.
Qed.
End RErr.

(** *** NaN *)
Section RNan.
Context (a : fpu).
Notation z0 := (DFin false 0).
Lemma hid_nan (r : recl dbl) x t p : (exists j, (j < r_hid r)%nat /\ isnan (p j)) \/ (forall i, (i < r_hid r)%nat -> isnan (drive r x t i)) -> nans (hid_of r x t p).
Proof.
  intros C. unfold hid_of. apply tab_forall. intros i Hi. assert (N : isnan (nadd (nadd (drive r x t i) (nsum (r_hid r) (fun j => nmul (nth (i * r_hid r + j) (r_whh r) n0) (p j)))) (nth i (r_bh r) n0))).
  { apply nan_add. left. apply nan_add. destruct C as [(j & Hj & N)|N]; [right|left; now apply N]. apply sum_nan. right. exists j. split; [exact Hj|]. apply nan_mul. now right. }
  destruct N as (s & ->). now exists false.
Qed.
Lemma drive_nan (r : recl dbl) x t i : (0 < r_in r)%nat -> (t * r_in r < length x)%nat -> nans x -> isnan (drive r x t i).
Proof.
  intros P L N. unfold drive. apply sum_nan. right. exists 0%nat. split; [exact P|]. apply nan_mul. right. apply nans_nth; [exact N|lia].
Qed.
Lemma hidden_nan (r : recl dbl) x : (0 < r_hid r)%nat -> nans (hidden r x 1) -> forall t, nans (hidden r x (S t)).
Proof.
  intros P N. induction t as [|t IH]; [exact N|]. change (hidden r x (S (S t))) with (hid_of r x (S t) (fun j => nth j (hidden r x (S t)) z0)). apply hid_nan. left. exists 0%nat. split; [exact P|].
  apply nans_nth; [exact IH|rewrite hidden_length; exact P].
Qed.
Definition spoils (s : rnode dbl) (x : list dbl) : Prop := match s with RL _ => nans x | RR r => nans (hidden r x 1) | RO _ _ => False end.
Lemma held_spoils r x : rec_wf r -> (2 <= r_steps r)%nat -> some_nan (dheld (RR r)) -> spoils (RR r) x.
Proof.
  intros W HS N. assert (Lb : (r_hid r <= length (r_hs r))%nat) by (rewrite (rw_hs r W); clear - HS; nia). cbn [spoils]. change (hidden r x 1) with (hid_of r x 0 (fun j => nth j (hidden r x 0) z0)). apply hid_nan. left.
  cbn [dheld] in N. rewrite firstn_tab in N by exact Lb. apply some_nan_at in N. destruct N as (j & Hj & N). rewrite tab_length in Hj. exists j. split; [exact Hj|exact N].
Qed.
Lemma rnode_any (s : rnode dbl) n k x : dnode_shape s n k -> length x = n -> rwide [s] ->
  exists s' y, r_forward s x = Ok s' /\ r_output s' = Ok y /\ length y = k /\ dnode_shape s' n k /\ rwide [s'] /\ ((0 < n)%nat -> (0 < k)%nat) /\
    ((0 < n)%nat -> nans x -> spoils s x) /\ ((0 < n)%nat -> spoils s x -> nans y) /\ (some_nan (dheld s) -> nans y /\ some_nan (dheld s') /\ (0 < k)%nat) /\ (match s with RR _ => spoils s x -> some_nan (dheld s') | _ => True end).
Proof.
  intros Sh Lx Wd. inversion Wd as [|? ? W1 _]; subst. destruct s as [l|r|kd lo]; [| |contradiction].
  - cbn [dnode_shape] in Sh. destruct (layer_forward_val l _ k x Sh eq_refl) as (y & Ly & F). specialize (F l Sh (same_params_refl l)). exists (RL (LayerModel.set_out l y)), y. cbn [r_forward]. rewrite F. cbn [bind].
    assert (Pk : (0 < k)%nat) by (destruct Sh as (_ & _ & <- & _); destruct (out l); [congruence|cbn; lia]).
    split; [reflexivity|]. split; [reflexivity|]. split; [exact Ly|]. split; [exact (lshape_set_out _ _ _ _ Sh Ly)|]. split; [constructor; [cbn; intros ->; cbn in Ly; lia|constructor]|]. split; [auto|]. split; [auto|]. split; [|split; [|exact Logic.I]].
    + intros Pn N. cbn [spoils] in N. destruct (layer_nan a l _ k x Sh Pn eq_refl (nans_catch l _ x Pn eq_refl N)) as (z & E & Lz & Nz). rewrite F in E. injection E as E. rewrite E. exact Nz.
    + intros (v & [] & _).
  - destruct Sh as (W & HS & En & Ek). destruct W1 as (Ph & Po). destruct (rec_forward_spec r x W ltac:(lia) HS) as (hs & act & E & Lh & La & P1 & P2 & P3).
    exists (RR (set_forward r hs act)), act. cbn [r_forward]. rewrite E. cbn [bind]. split; [reflexivity|]. split; [reflexivity|]. split; [lia|].
    split; [split; [destruct W; constructor; cbn [set_forward r_in r_out r_hid r_steps r_wih r_whh r_who r_bh r_bo r_gwih r_gwhh r_gwho r_gbh r_gbo r_hs r_act r_ig]; auto; rewrite Lh; f_equal; lia|auto]|].
    split; [constructor; [auto|constructor]|]. assert (Pk : (0 < k)%nat) by nia. split; [auto|].
    assert (NY : spoils (RR r) x -> nans act).
    { intros N. cbn [spoils] in N. apply nth_nans. intros q Hq. rewrite La in Hq. pose proof (Nat.div_mod q (r_out r) Po) as DM. pose proof (Nat.mod_upper_bound q (r_out r) Po) as MB.
      assert (DB : (q / r_out r < r_steps r)%nat) by (apply Nat.div_lt_upper_bound; lia). set (t := (q / r_out r)%nat) in *. set (i := (q mod r_out r)%nat) in *. replace q with (t * r_out r + i)%nat by lia.
      change z0 with (@n0 dbl (NumD a)). rewrite P3 by assumption. unfold out_of. rewrite nth_tab by exact MB. apply nan_add. left. apply sum_nan. right. exists 0%nat. split; [lia|]. apply nan_mul. right.
      apply nans_nth; [apply hidden_nan; [lia|exact N]|rewrite hidden_length; lia]. }
    assert (NS : spoils (RR r) x -> some_nan (dheld (RR (set_forward r hs act)))).
    { intros N. cbn [spoils] in N. cbn [dheld r_hid r_hs set_forward]. assert (EG : firstn (r_hid r) hs = hidden r x (r_steps r)).
      { rewrite firstn_tab by (rewrite Lh; clear - HS; nia). apply (list_ext_nth z0); [rewrite tab_length; symmetry; apply hidden_length|]. intros j Hj. rewrite tab_length in Hj. rewrite nth_tab by exact Hj. now apply P2. }
      rewrite EG. apply nans_some; [|rewrite hidden_length; lia]. destruct (r_steps r) as [|t]; [lia|]. apply hidden_nan; [lia|exact N]. }
    split; [|split; [auto|split; [|exact NS]]].
    + intros Pn N. cbn [spoils]. change (hidden r x 1) with (hid_of r x 0 (fun j => nth j (hidden r x 0) z0)). apply hid_nan. right. intros i Hi. apply drive_nan; [nia|lia|exact N].
    + intros N. pose proof (held_spoils r x W HS N) as SP. auto.
Qed.
Lemma stack_any : forall ss n k x, drshape ss n k -> length x = n -> rwide ss ->
  exists ss' y, gforward rnn_ops ss x = Ok (ss', y) /\ length ss' = length ss /\ length y = k /\ drshape ss' n k /\ rwide ss' /\
    ((0 < n)%nat -> nans x -> nans y) /\ (poisoned ss -> nans y /\ poisoned ss') /\ (match ss with RR r :: _ => (0 < n)%nat -> spoils (RR r) x -> nans y /\ poisoned ss' | _ => True end).
Proof.
  induction ss as [|s ss IH]; intros n k x Sh Lx Wd.
  - exists [], x. cbn in Sh. subst. repeat split; auto. all: inversion H.
  - destruct Sh as (j & S1 & S2). inversion Wd as [|? ? W1 W2]; subst. destruct (rnode_any s (length x) j x S1 eq_refl ltac:(constructor; auto)) as (s' & y & E & EO & Ly & Sh' & Wd' & Pj & N1 & N2 & N3 & N4).
    destruct (IH j k y S2 Ly W2) as (ss' & y' & E' & LL & Ly' & Sh2 & Wd2 & N5 & N6 & _). exists (s' :: ss'), y'.
    cbn [gforward]. change (o_tforward rnn_ops s x) with (r_forward s x). rewrite E. cbn [bind]. change (o_output rnn_ops s') with (r_output s'). rewrite EO. cbn [bind]. rewrite E'. cbn [bind].
    split; [reflexivity|]. split; [cbn; lia|]. split; [exact Ly'|]. split; [exists j; auto|]. split; [inversion Wd'; constructor; auto|]. split; [auto|]. split.
    + intros P. inversion P as [? ? P1|? ? P1]; subst; [destruct (N3 P1) as (A & B & C); split; [auto|now apply Exists_cons_hd]|destruct (N6 P1) as (A & B); split; [exact A|now apply Exists_cons_tl]].
    + destruct s as [|r|]; try exact Logic.I. intros Pn SP. split; [apply N5; auto|]. apply Exists_cons_hd. auto.
Qed.
Lemma predict_any m ss post n k x : drstack m ss post n k -> rwide ss -> length x = n ->
  exists m' ss' y, m_predict rnn_ops m x = Ok (m', y) /\ length y = k /\ drstack m' ss' post n k /\ rwide ss' /\ (poisoned ss -> nans y /\ poisoned ss') /\
    (match ss with RR r :: _ => (0 < n)%nat -> spoils (RR r) x -> nans y /\ poisoned ss' | _ => True end).
Proof.
  intros [(lossy & HC) H2 H3 H4 H5 H6] Wd Lx. destruct (stack_any ss n k x H5 Lx Wd) as (ss' & y & E & LL & Ly & Sh' & Wd' & _ & N1 & N2).
  destruct (predict_g rnn_ops (fun s x => eq_refl) lossy m ss post x ss' _ HC H2 H3 H4 E) as (m1 & EP & G & N). exists m1, ss', y. split; [exact EP|]. split; [exact Ly|]. split; [|auto].
  constructor; rewrite ?LL, ?G; eauto. apply (f_equal (@length _)) in N. apply (f_equal (@length _)) in H4. rewrite !map_length, !app_length in N, H4. rewrite <- H3. lia.
Qed.
Lemma calls_nan : forall xs m ss post n k, drstack m ss post n k -> rwide ss -> poisoned ss -> Forall (fun x => length x = n) xs ->
  exists m' ys, predict_all m xs = Ok (m', ys) /\ length ys = length xs /\ Forall (fun y => length y = k /\ nans y) ys.
Proof.
  induction xs as [|x xs IH]; intros m ss post n k DS Wd P FL; [exists m, []; auto|]. inversion FL as [|? ? Lx FL2]; subst.
  destruct (predict_any m ss post _ k x DS Wd eq_refl) as (m1 & ss1 & y & E & Ly & DS1 & Wd1 & N1 & _). destruct (N1 P) as (Ny & P1). destruct (IH m1 ss1 post _ k DS1 Wd1 P1 FL2) as (m2 & ys & E2 & L2 & F2).
  exists m2, (y :: ys). cbn [predict_all]. rewrite E. cbn [bind]. rewrite E2. cbn [bind length]. auto.
Qed.
End RNan.

Lemma exactr_wf r : rec_wf r -> rec_wf (exactr r).
Proof. intros [? ? ? ? ? ? ? ? ? ? ? ? ?]. constructor; cbn [exactr r_in r_out r_hid r_steps r_wih r_whh r_who r_bh r_bo r_gwih r_gwhh r_gwho r_gbh r_gbo r_hs r_act r_ig]; rewrite map_length; assumption. Qed.
Lemma exactn_shape : forall ss n k, drshape ss n k -> rshape (map exactn ss) n k.
Proof.
  induction ss as [|s ss IH]; intros n k Sh; [exact Sh|]. destruct Sh as (j & S1 & S2). exists j. split; [|auto]. destruct s as [l|r|]; cbn in *; [now apply exact_shape| |contradiction].
  destruct S1 as (W & S1). split; [now apply exactr_wf|exact S1].
Qed.

(** *** Theorems *)
(** A network with recurrent layers computed with doubles and the same network computed exactly,
    called with the same inputs, one after the other: every prediction is finite and within the bound
    for this call. *)
Theorem c100_predict : forall (a : fpu) (del : R) (m : model (rnode dbl)) ss post (mr : model (rnode R)) postr n k xs,
  ieee a -> accurate a del -> drstack m ss post n k -> rstack mr (map exactn ss) postr n k ->
  Forall (finite_rnode a) ss -> Forall (unit_state a) ss ->
  Forall (fun x => length x = n) xs -> Forall (Forall (fin a)) xs -> calls_safe a del ss (repeat 0 (length ss)) xs ->
  exists m' ys mr' zs, predict_all m xs = Ok (m', ys) /\ predict_all mr (map (map dval) xs) = Ok (mr', zs) /\
    length ys = length xs /\ length zs = length xs /\
    Forall (fun y => length y = k) ys /\ Forall (fun y => length y = k) zs /\ Forall (Forall (fin a)) ys /\
    forall q i, (q < length xs)%nat -> (i < k)%nat ->
      Rabs (dval (nth i (nth q ys []) (DFin false 0)) - nth i (nth q zs []) 0) <= nth q (calls_round del ss (repeat 0 (length ss)) xs) 0.
Proof.
  intros a del m ss post mr postr n k xs IE AC DS RS FN US FL FX SF. assert (FL2 : Forall (fun x => length x = n) (map (map dval) xs)) by (clear - FL; induction FL; cbn; constructor; rewrite ?map_length; auto).
  destruct (rstack_predict_all _ mr (map exactn ss) postr n k RS FL2) as (mr' & s' & E2 & L2 & _).
  assert (EH : map held (map exactn ss) = map (map dval) (map dheld ss)).
  { rewrite !map_map. apply map_ext. intros [l|r|]; cbn [exactn held dheld map]; try reflexivity. unfold state. cbn [exactr r_hid r_hs]. now rewrite firstn_map. }
  rewrite EH in E2, L2. assert (AN : all_near a del (repeat 0 (length ss)) (map (map dval) (map dheld ss)) ss).
  { pose proof (tanh_err_0 a del AC) as T0. clear - US T0. induction US as [|s ss (F & W) US IH]; cbn [length repeat map]; constructor; [|exact IH]. split; [lra|]. split; [apply map_length|]. split; [exact F|]. split; [|split; [exact W|]].
    - intros i. specialize (W i). lra.
    - intros i. rewrite Rminus_diag_eq, Rabs_R0 by reflexivity. lra. }
  destruct (calls_app a IE del AC xs ss ss m post n k _ _ (dkept_all_refl ss n k (ds_shape _ _ _ _ _ DS)) DS FN FL FX AN SF) as (m' & ys & E & LY & FY & FF & Q).
  exists m', ys, mr', (fst (chunk_run (map exactn ss) (map (map dval) (map dheld ss)) (map (map dval) xs))). split; [exact E|]. split; [exact E2|]. split; [exact LY|]. split.
  { clear - xs. generalize (map (map dval) (map dheld ss)). induction xs as [|x xs IH]; intros Hs; [reflexivity|]. cbn [map chunk_run]. destruct (stack_run _ _ _) as (z, Hs1). specialize (IH Hs1). destruct (chunk_run _ _ _) as (zs, Hn). cbn in *. lia. }
  split; [exact FY|]. split; [exact L2|]. split; [exact FF|]. intros q i _ _. rewrite Rabs_minus_sym. apply Q.
Qed.

(** A NaN in the state of one layer stays for good: every later prediction is NaN throughout,
    whatever the inputs. *)
Theorem c100_stuck : forall (a : fpu) (m : model (rnode dbl)) ss post n k xs,
  drstack m ss post n k -> rwide ss -> poisoned ss -> Forall (fun x => length x = n) xs ->
  exists m' ys, predict_all m xs = Ok (m', ys) /\ length ys = length xs /\ Forall (fun y => length y = k /\ nans y) ys.
Proof. intros a m ss post n k xs. apply calls_nan. Qed.

(** reset_hidden_state() on every recurrent layer mends this: whatever the states were, the bounds
    hold for the calls after it, with the exact network reset as well. *)
Definition resetn {T} {H : NumOps T} (s : rnode T) : rnode T := match s with RR r => RR (rec_reset r) | s => s end.
Lemma reset_drstack (a : fpu) m ss post n k : drstack m ss post n k -> drstack (reset_states m) (map resetn ss) post n k.
Proof.
  intros [G1 G2 G3 G4 G5 G6]. constructor; cbn [reset_states on_rec mgraph mnodes]; rewrite ?map_length; auto.
  - transitivity (map resetn (map fst (mnodes m))); [rewrite !map_map; apply map_ext; intros (s & o); now destruct s|]. rewrite G4, map_app. f_equal. clear - G6. induction G6 as [|s post (kd & lo & ->) F IH]; cbn [map]; [reflexivity|]. now rewrite IH.
  - clear - G5. revert n G5. induction ss as [|s ss IH]; intros n G5; [exact G5|]. destruct G5 as (j & A & B). exists j. split; [|auto]. destruct s as [l|r|]; auto. destruct A as (W & X). split; [|exact X].
    destruct W. constructor; cbn [rec_reset r_in r_out r_hid r_steps r_wih r_whh r_who r_bh r_bo r_gwih r_gwhh r_gwho r_gbh r_gbo r_hs r_act r_ig]; rewrite ?repeat_length; auto.
Qed.
Lemma reset_exact_rstack m ss post n k : rstack m ss post n k -> rstack (reset_states m) (map resetn ss) post n k.
Proof.
  intros [G1 G2 G3 G4 G5 G6]. constructor; cbn [reset_states on_rec mgraph mnodes]; rewrite ?map_length; auto.
  - transitivity (map resetn (map fst (mnodes m))); [rewrite !map_map; apply map_ext; intros (s & o); now destruct s|]. rewrite G4, map_app. f_equal. clear - G6. induction G6 as [|s post (kd & lo & ->) F IH]; cbn [map]; [reflexivity|]. now rewrite IH.
  - clear - G5. revert n G5. induction ss as [|s ss IH]; intros n G5; [exact G5|]. destruct G5 as (j & A & B). exists j. split; [|auto]. destruct s as [l|r|]; auto. destruct A as (W & X). split; [|exact X].
    destruct W. constructor; cbn [rec_reset r_in r_out r_hid r_steps r_wih r_whh r_who r_bh r_bo r_gwih r_gwhh r_gwho r_gbh r_gbo r_hs r_act r_ig]; rewrite ?repeat_length; auto.
Qed.
Lemma reset_exactn (a : fpu) s : exactn (resetn s) = resetn (exactn s).
Proof.
  destruct s as [l|r|]; try reflexivity. cbn [resetn exactn]. f_equal. unfold exactr, rec_reset. cbn [r_in r_out r_hid r_steps r_wih r_whh r_who r_bh r_bo r_gwih r_gwhh r_gwho r_gbh r_gbo r_hs r_act r_ig].
  rewrite map_length. f_equal. induction (length (r_hs r)) as [|q IH]; cbn [repeat map]; [reflexivity|]. now rewrite IH.
Qed.
Lemma reset_round (a : fpu) del s X e d : rround1 del (resetn s) X e d = rround1 del s X e d.
Proof. destruct s; reflexivity. Qed.
Lemma reset_rround (a : fpu) del : forall ss X e ds, rround del (map resetn ss) X e ds = rround del ss X e ds.
Proof. induction ss as [|s ss IH]; intros X e [|d ds]; cbn [map rround]; try reflexivity. rewrite reset_round. destruct (rround1 del s X e d) as ((X1, e1), dn). now rewrite IH. Qed.
Lemma reset_rsafe (a : fpu) del : forall ss X e ds, rsafe a del ss X e ds -> rsafe a del (map resetn ss) X e ds.
Proof.
  induction ss as [|s ss IH]; intros X e [|d ds]; cbn [map rsafe]; auto. rewrite reset_round. destruct (rround1 del s X e d) as ((X1, e1), dn). intros (A & B). split; [destruct s; exact A|auto].
Qed.
Lemma reset_calls (a : fpu) del ss : forall xs ds, calls_round del (map resetn ss) ds xs = calls_round del ss ds xs /\ (calls_safe a del ss ds xs -> calls_safe a del (map resetn ss) ds xs).
Proof.
  induction xs as [|x xs IH]; intros ds; cbn [calls_round calls_safe]; [auto|]. cbv zeta. rewrite reset_rround. destruct (rround del ss (largest (map dval x)) 0 ds) as (e, ds1). cbn [snd]. destruct (IH ds1) as (I1 & I2). split; [now rewrite I1|].
  intros (A & B). split; [now apply reset_rsafe|auto].
Qed.
Lemma in_firstn {A} (x : A) : forall q l, In x (firstn q l) -> In x l.
Proof. induction q as [|q IH]; intros [|y l]; cbn; try tauto. intros [E|E]; auto. Qed.
Theorem c100_reset : forall (a : fpu) (del : R) (m : model (rnode dbl)) ss post (mr : model (rnode R)) postr n k xs,
  ieee a -> accurate a del -> drstack m ss post n k -> rstack mr (map exactn ss) postr n k -> Forall (finite_rnode a) ss ->
  Forall (fun x => length x = n) xs -> Forall (Forall (fin a)) xs -> calls_safe a del ss (repeat 0 (length ss)) xs ->
  exists m' ys mr' zs, predict_all (reset_states m) xs = Ok (m', ys) /\ predict_all (reset_states mr) (map (map dval) xs) = Ok (mr', zs) /\
    length ys = length xs /\ length zs = length xs /\
    Forall (fun y => length y = k) ys /\ Forall (fun y => length y = k) zs /\ Forall (Forall (fin a)) ys /\
    forall q i, (q < length xs)%nat -> (i < k)%nat ->
      Rabs (dval (nth i (nth q ys []) (DFin false 0)) - nth i (nth q zs []) 0) <= nth q (calls_round del ss (repeat 0 (length ss)) xs) 0.
Proof.
  intros a del m ss post mr postr n k xs IE AC DS RS FN FL FX SF. destruct (reset_calls a del ss xs (repeat 0 (length ss))) as (CR & CS). rewrite <- CR. replace (length ss) with (length (map (@resetn dbl (NumD a)) ss)) by apply map_length.
  apply (c100_predict a del _ (map resetn ss) post _ postr n k xs IE AC); auto.
  - now apply reset_drstack.
  - replace (map exactn (map resetn ss)) with (map (@resetn R NumR) (map exactn ss)) by (rewrite !map_map; apply map_ext; intros s; now rewrite reset_exactn). now apply reset_exact_rstack.
  - clear - FN. induction FN as [|s ss F FN IH]; cbn [map]; constructor; auto. destruct s; exact F.
  - clear - IE. apply Forall_forall. intros s Hs. apply in_map_iff in Hs. destruct Hs as (t & <- & _). destruct t as [l|r|]; cbn [resetn]; [split; [constructor|intros [|i]; cbn; rewrite Rabs_R0; lra]| |split; [constructor|intros [|i]; cbn; rewrite Rabs_R0; lra]].
    unfold unit_state. cbn [dheld rec_reset r_hid r_hs]. assert (Z : forall v, In v (firstn (r_hid r) (repeat (DFin false 0) (length (r_hs r)))) -> v = DFin false 0) by (intros v Hv; apply (repeat_spec (length (r_hs r)) (DFin false 0)), (in_firstn _ _ _ Hv)).
    split; [apply Forall_forall; intros v Hv; rewrite (Z v Hv); apply (fin_0 a IE)|]. intros i. rewrite dval_nth. destruct (Nat.lt_ge_cases i (length (firstn (r_hid r) (repeat (DFin false 0) (length (r_hs r)))))) as [L|L].
    + rewrite (Z _ (nth_In _ _ L)). cbn [dval]. rewrite Rabs_R0. lra.
    + rewrite nth_overflow by exact L. cbn [dval]. rewrite Rabs_R0. lra.
  - rewrite map_length. auto.
Qed.

(** Without [calls_safe] nothing holds: finite weights, states and inputs whose sums overflow give
    NaN where the exact prediction is zero, and NaN in every later call, whatever its inputs. *)
Lemma drnn_chain (lossy : bool) ss post n k : (2 <= length ss)%nat -> drshape ss n k ->
  post = (if lossy then [nth 0 post (RO CCE (mkLoss 0 [] [] (DFin false 0) (DFin false 0) (DFin false 0) 0 0))] else []) -> Forall (fun s => exists kd lo, s = RO kd lo) post ->
  exists m, drstack m ss post n k.
Proof.
  intros HL HS HP HF. destruct (c36_built lossy (length ss) HL) as (s & E & H1 & H2 & H3 & H4 & H5).
  pose proof (is_chain_built _ _ lossy (length ss) E HL H1 H2 H3 H4 H5) as HC.
  exists (mkModel s (map (fun s => (s, SNull)) (ss ++ post))). constructor; cbn [mgraph mnodes]; eauto.
  - lia.
  - rewrite map_length, app_length, (ic_nodes _ _ _ HC), HP. destruct lossy; cbn; lia.
  - rewrite map_map. cbn [fst]. apply map_id.
Qed.
Notation dz := (DFin false 0). Notation dl := (DFin false 1).
Definition flat2 : rnode dbl := RL (mkLayer (KAct Linear) 2 [] [] [] [] [dz; dz] [dz; dz]).
Definition clash (b : R) : recl dbl := mkRec 2 1 1 2 [DFin false b; DFin false b] [dz] [dl] [dz] [dz] [dz; dz] [dz] [dz] [dz] [dz] [dz; dz] [dz; dz] [dz; dz; dz; dz].
Definition clash_in : list dbl := [DFin false 2; DFin true 2; DFin false 2; DFin true 2].
Lemma clash_shape b : drshape [RR (clash b); flat2] 4 2.
Proof.
  exists 2%nat. split; [split; [constructor; reflexivity|cbn; auto]|]. exists 2%nat. split; [|reflexivity]. unfold lshape. cbn. split; [auto|]. split; [auto|]. split; [auto|]. split; [auto|]. lia.
Qed.
Lemma held_unit (a : fpu) r : ieee a -> (forall v, In v (r_hs r) -> v = dz) -> unit_state a (RR r).
Proof.
  intros IE Z. unfold unit_state. cbn [dheld]. assert (Z1 : forall v, In v (firstn (r_hid r) (r_hs r)) -> v = dz) by (intros v Hv; apply Z, (in_firstn _ _ _ Hv)).
  split; [apply Forall_forall; intros v Hv; rewrite (Z1 v Hv); apply (fin_0 a IE)|]. intros i. rewrite dval_nth. destruct (Nat.lt_ge_cases i (length (firstn (r_hid r) (r_hs r)))) as [L|L].
  - rewrite (Z1 _ (nth_In _ _ L)). cbn [dval]. rewrite Rabs_R0. lra.
  - rewrite nth_overflow by exact L. cbn [dval]. rewrite Rabs_R0. lra.
Qed.
Lemma flat2_unit (a : fpu) : unit_state a flat2.
Proof. split; [constructor|intros [|i]; cbn; rewrite Rabs_R0; lra]. Qed.
Theorem c100_refuted : forall a, ieee a -> exists (m : model (rnode dbl)) ss post (mr : model (rnode R)) postr n k x,
  drstack m ss post n k /\ rstack mr (map exactn ss) postr n k /\ rwide ss /\ Forall (finite_rnode a) ss /\ Forall (unit_state a) ss /\ length x = n /\ Forall (fin a) x /\ (0 < k)%nat /\
  (forall xs, Forall (fun x => length x = n) xs -> exists m' ys, predict_all m (x :: xs) = Ok (m', ys) /\ length ys = S (length xs) /\ Forall (fun y => length y = k /\ nans y) ys) /\
  exists mr', predict_all mr [map dval x] = Ok (mr', [repeat 0 k]).
Proof.
  intros a IE. set (b := big a). set (ss := [RR (clash b); flat2]). pose proof (clash_shape b) as Sh.
  destruct (drnn_chain false ss [] 4 2 ltac:(cbn; lia) Sh eq_refl (Forall_nil _)) as (m & DS). destruct (rnn_chain false (map exactn ss) [] 4 2 ltac:(cbn; lia) (exactn_shape ss 4 2 Sh) eq_refl (Forall_nil _)) as (mr & RS).
  pose proof (big_1 a IE) as B1. fold b in B1.
  assert (F2 : forall t, fin a (DFin t 2)) by (intros t; apply (fin_mk a); [pose proof (big_Z a IE 2 ltac:(discriminate)) as Q; rewrite Rabs_right in Q; lra|apply (ie_int a IE 2); discriminate]).
  assert (Fb : fin a (DFin false b)) by (apply (fin_mk a); [unfold b in *; lra|apply (ie_big a IE)]).
  assert (Ov : big a < fl a (b * 2)).
  { assert (T : tiny <= b * 2) by (pose proof tiny_1; lra). pose proof (ie_rel a IE _ T) as Q. pose proof unit_pos as (U1 & U2). unfold uround in *. assert (b * 2 * / 2 ^ 53 <= b * 2 * / 4) by (apply Rmult_le_compat_l; lra). fold b. split_Rabs; lra. }
  assert (M1 : dmul a (DFin false b) (DFin false 2) = DInf false) by (apply round_over; [cbn; lra|exact Ov]).
  assert (M2 : dmul a (DFin false b) (DFin true 2) = DInf true).
  { change (dround a true (b * - (2)) = DInf true). unfold dround. replace (b * - (2)) with (- (b * 2)) by ring. rewrite (ie_opp a IE), Rabs_Ropp, Rabs_right by (unfold b in *; lra). rewrite (proj2 (Rltb_true _ _) Ov). now rewrite (proj2 (Rltb_true _ _)) by lra. }
  assert (Wd : rwide ss) by (apply Forall_cons; [cbn; auto|apply Forall_cons; [cbn; discriminate|constructor]]).
  assert (SP : spoils a (RR (clash b)) clash_in).
  { cbn [spoils]. change (hidden (clash b) clash_in 1) with (hid_of (clash b) clash_in 0 (fun j => nth j (hidden (clash b) clash_in 0) dz)). apply hid_nan. right. intros i Hi. cbn in Hi. assert (i = 0%nat) by lia. subst i.
    unfold drive. change (isnan (dadd a (dadd a dz (dmul a (DFin false b) (DFin false 2))) (dmul a (DFin false b) (DFin true 2)))). rewrite M1, M2. now exists false. }
  exists m, ss, [], mr, [], 4%nat, 2%nat, clash_in. split; [exact DS|]. split; [exact RS|]. split; [exact Wd|]. split; [|split; [|split; [reflexivity|split; [|split; [lia|split]]]]].
  - apply Forall_cons; [|apply Forall_cons; [exact Logic.I|constructor]]. pose proof (fin_0 a IE false) as Z. pose proof (fin_1 a IE) as Z1. unfold finite_rnode. cbn [clash r_wih r_whh r_who r_bh r_bo]. repeat split; repeat (apply Forall_cons; [assumption|]); apply Forall_nil.
  - apply Forall_cons; [apply held_unit; [exact IE|cbn; intros v [E|[E|[]]]; congruence]|apply Forall_cons; [apply flat2_unit|constructor]].
  - unfold clash_in. repeat apply Forall_cons; auto.
  - intros xs FL. destruct (predict_any a m ss [] 4 2 clash_in DS Wd eq_refl) as (m1 & ss1 & y & E & Ly & DS1 & Wd1 & _ & N). cbn [ss] in N. destruct (N ltac:(lia) SP) as (Ny & P1).
    destruct (calls_nan a xs m1 ss1 [] 4 2 DS1 Wd1 P1 FL) as (m2 & ys & E2 & L2 & FY). exists m2, (y :: ys). cbn [predict_all]. rewrite E. cbn [bind]. rewrite E2. cbn [bind length]. auto.
  - destruct (rstack_predict_all [map dval clash_in] mr (map exactn ss) [] 4 2 RS ltac:(repeat constructor)) as (mr' & s' & E & _). exists mr'. rewrite E. do 2 f_equal.
    clearbody b. cbv -[Rplus Rmult Ropp tanh IZR]. replace (0 + b * 2 + b * - (2) + (0 + 0 * 0) + 0) with 0 by ring. rewrite DriftProofs.tanh_00. replace (0 + b * 2 + b * - (2) + (0 + 0 * 0) + 0) with 0 by ring. rewrite ?DriftProofs.tanh_00. replace (0 + 1 * 0 + 0) with 0 by ring. reflexivity.
Qed.

(** *** Non-vacuity *)
Definition echo : recl dbl := mkRec 1 1 1 2 [dl] [dl] [dl] [dz] [dz] [dz] [dz] [dz] [dz] [dz] [dz; dz] [dz; dz] [dz; dz].
Definition echo_ss : list (rnode dbl) := [RR echo; flat2].
Lemma echo_shape : drshape echo_ss 2 2.
Proof.
  exists 2%nat. split; [split; [constructor; reflexivity|cbn; auto]|]. exists 2%nat. split; [|reflexivity]. unfold lshape. cbn. split; [auto|]. split; [auto|]. split; [auto|]. split; [auto|]. lia.
Qed.
Lemma largest_one : largest [1] = 1.
Proof. cbn [largest]. rewrite Rabs_right, Rmax_left; lra. Qed.
Lemma largest_zero : largest [0] = 0.
Proof. cbn [largest]. rewrite Rabs_R0, Rmax_left; lra. Qed.
Lemma echo_sums : (fst (cell_sums 0 echo (1 + 0)) <= 16 /\ 0 <= snd (cell_sums 0 echo (1 + 0)) <= 30 * / 10 ^ 15) /\ (fst (out_sums 0 echo) <= 16 /\ 0 <= snd (out_sums 0 echo) <= 20 * / 10 ^ 15) /\ 0 <= tanh_err 0 <= 2 * / 10 ^ 15.
Proof.
  unfold cell_sums, out_sums, tanh_err. cbn [echo r_in r_hid r_wih r_whh r_bh r_who r_bo map dval]. rewrite largest_one, largest_zero. cbn [summed]. rewrite ?Rplus_0_l, ?Rplus_0_r, ?Rmult_1_l.
  pose proof unit_small as (U1 & T1). pose proof unit_pos as (U0 & _). pose proof tiny_pos as T0. set (h := / 10 ^ 15) in *. assert (Hh : 0 < h <= / 1000000) by (unfold h; lra). clearbody h.
  assert (RF : forall y c, 0 <= y <= c -> 0 <= roff y <= (c + 1) * h).
  { intros y c Hy. unfold roff. assert (uround * y <= h * c) by (apply Rmult_le_compat; lra). assert (0 <= uround * y) by (apply Rmult_le_pos; lra). lra. }
  unfold rounded_up. pose proof (RF 1 1 ltac:(lra)) as R1. set (r1 := roff 1) in *. pose proof (RF (1 + r1) 2 ltac:(lra)) as R2. set (r2 := roff (1 + r1)) in *.
  pose proof (RF (1 + r1 + r2) 2 ltac:(lra)) as R3. set (r3 := roff (1 + r1 + r2)) in *. cbn [fst snd].
  pose proof (RF (1 + r1 + r2 + (1 + r1 + r2 + r3)) 3 ltac:(lra)) as R4. set (r4 := roff (1 + r1 + r2 + (1 + r1 + r2 + r3))) in *.
  pose proof (RF (1 + r1 + r2 + (1 + r1 + r2 + r3) + r4) 4 ltac:(lra)) as R5. pose proof (RF (1 + r1 + r2 + r3) 2 ltac:(lra)) as R6. lra.
Qed.
Lemma echo_state d : state_err 0 echo 1 0 d = d + (snd (cell_sums 0 echo (1 + 0)) + tanh_err 0).
Proof.
  unfold state_err. pose proof echo_sums as ((_ & C & _) & _ & T & _). set (c := snd (cell_sums 0 echo (1 + 0))) in *. clearbody c. set (t := tanh_err 0) in *. clearbody t. cbn [echo r_in r_hid r_wih r_whh map dval INR]. rewrite largest_one. rewrite Rmax_right by lra. ring.
Qed.
Lemma echo_call d : let c := snd (cell_sums 0 echo (1 + 0)) + tanh_err 0 in
  rround 0 echo_ss 1 0 [d; 0] = (d + 2 * c + snd (out_sums 0 echo), [d + 2 * c; 0]).
Proof.
  cbn [rround echo_ss rround1 flat2]. change (r_steps echo) with 2%nat. cbn [Nat.iter nat_rect]. rewrite !echo_state. unfold drift1, round1. cbn [exactl knd map dval exact_act].
  change (map dval (r_who echo)) with [1]. rewrite largest_one. change (INR (r_hid echo)) with 1. cbv zeta. f_equal; [ring|]. f_equal. ring.
Qed.
Definition echo_in : list dbl := [dl; dl].
Lemma echo_in_1 : largest (map dval echo_in) = 1.
Proof. cbn. rewrite Rabs_right by lra. rewrite (Rmax_left 1 0), Rmax_left by lra. reflexivity. Qed.
(** The hypotheses of [c100_predict] and [c100_reset]: two calls, with errors of at most 10^-12 *)
Example c100_met : exists m mr, ieee binary64 /\ accurate binary64 0 /\ drstack m echo_ss [] 2 2 /\ rstack mr (map exactn echo_ss) [] 2 2 /\ Forall (finite_rnode binary64) echo_ss /\ Forall (unit_state binary64) echo_ss /\
  Forall (fun x => length x = 2%nat) [echo_in; echo_in] /\ Forall (Forall (fin binary64)) [echo_in; echo_in] /\ calls_safe binary64 0 echo_ss (repeat 0 (length echo_ss)) [echo_in; echo_in] /\
  Forall (fun e => e <= / 10 ^ 12) (calls_round 0 echo_ss (repeat 0 (length echo_ss)) [echo_in; echo_in]) /\ length (calls_round 0 echo_ss (repeat 0 (length echo_ss)) [echo_in; echo_in]) = 2%nat.
Proof.
  pose proof ieee_binary64 as IE. pose proof (fin_0 _ IE false) as Z. pose proof (fin_1 _ IE) as Z1.
  destruct (drnn_chain false echo_ss [] 2 2 ltac:(cbn; lia) echo_shape eq_refl (Forall_nil _)) as (m & DS). destruct (rnn_chain false (map exactn echo_ss) [] 2 2 ltac:(cbn; lia) (exactn_shape echo_ss 2 2 echo_shape) eq_refl (Forall_nil _)) as (mr & RS).
  exists m, mr. split; [exact IE|]. split; [exact accurate_64|]. split; [exact DS|]. split; [exact RS|].
  pose proof echo_sums as ((C1 & C2) & (O1 & O2) & T). pose proof (big_Z _ IE 16 ltac:(discriminate)) as B. rewrite Rabs_right in B by lra. cbn [echo_ss length repeat]. fold echo_ss.
  split; [|split; [|split; [|split; [|split]]]].
  - apply Forall_cons; [|apply Forall_cons; [exact Logic.I|constructor]]. unfold finite_rnode. cbn [echo r_wih r_whh r_who r_bh r_bo]. repeat split; repeat (apply Forall_cons; [assumption|]); apply Forall_nil.
  - apply Forall_cons; [apply held_unit; [exact IE|cbn; intros v [E|[E|[]]]; congruence]|apply Forall_cons; [apply flat2_unit|constructor]].
  - repeat constructor.
  - unfold echo_in. repeat (apply Forall_cons; [repeat (apply Forall_cons; [assumption|]); apply Forall_nil|]). apply Forall_nil.
  - assert (G : forall d, rsafe binary64 0 echo_ss 1 0 [d; 0]).
    { intros d. cbn [rsafe echo_ss rsafe1 flat2]. split; [split; lra|]. destruct (rround1 _ _ _ _ _) as ((X1, e1), dn). split; [exact Logic.I|]. now destruct (rround1 _ _ _ _ _) as ((X2, e2), dn2). }
    cbn [calls_safe]. cbv zeta. rewrite echo_in_1. split; [apply G|]. rewrite echo_call. cbn [snd]. split; [apply G|exact Logic.I].
  - cbn [calls_round]. rewrite echo_in_1, echo_call. rewrite echo_call. split; [|reflexivity]. set (h := / 10 ^ 15) in *. assert (Eh : / 10 ^ 12 = 1000 * h) by (unfold h; field). assert (Hh : 0 < h) by (unfold h; apply Rinv_0_lt_compat, pow_lt; lra). rewrite Eh.
    repeat apply Forall_cons; [lra|lra|apply Forall_nil].
Qed.
(** The hypotheses of [c100_stuck] *)
Definition sick : recl dbl := mkRec 1 1 1 2 [dl] [dl] [dl] [dz] [dz] [dz] [dz] [dz] [dz] [dz] [dnan; dz] [dz; dz] [dz; dz].
Example c100_stuck_met : exists m, drstack m [RR sick; flat2] [] 2 2 /\ rwide [RR sick; flat2] /\ poisoned [RR sick; flat2].
Proof.
  assert (Sh : drshape [RR sick; flat2] 2 2).
  { exists 2%nat. split; [split; [constructor; reflexivity|cbn; auto]|]. exists 2%nat. split; [|reflexivity]. unfold lshape. cbn. split; [auto|]. split; [auto|]. split; [auto|]. split; [auto|]. lia. }
  destruct (drnn_chain false [RR sick; flat2] [] 2 2 ltac:(cbn; lia) Sh eq_refl (Forall_nil _)) as (m & DS). exists m. split; [exact DS|].
  split; [apply Forall_cons; [cbn; auto|apply Forall_cons; [cbn; discriminate|constructor]]|]. apply Exists_cons_hd. exists dnan. split; [now left|now exists false].
Qed.
Print Assumptions c100_predict.
Print Assumptions c100_stuck.
Print Assumptions c100_reset.
Print Assumptions c100_refuted.
