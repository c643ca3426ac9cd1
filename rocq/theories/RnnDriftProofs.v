(** How far apart two networks with recurrent layers and close parameters predict, call after call. *)
From Coq Require Import Reals Lra Lia.
From Verif Require Import Base Num RSum MathModel MathProofs MathProofsR LayerModel LossModel GradSpec GradProofs GradChain ModelProofs DriftProofs
  RecurrentModel RecurrentProofs RnnModel RnnProofs.
Local Open Scope R_scope.

(** *** Specification *)
(** One time step of a recurrent layer: parameters changed by at most [eps], inputs at most [X] and
    changed by at most [e], the hidden state (between -1 and 1) changed by at most [d]. *)
Definition rec_next (eps : R) (r : recl R) (X e d : R) : R :=
  Rmax d (INR (r_in r) * (largest (r_wih r) * e + eps * (X + e)) + INR (r_hid r) * (largest (r_whh r) * d + eps) + eps).
(** One call of a layer: bounds for its outputs, their change and the change of the state. *)
Definition rdrift1 (eps : R) (s : rnode R) (X e d : R) : R * R * R :=
  match s with
  | RL l => (drift1 eps l X e, d)
  | RR r => let d := Nat.iter (r_steps r) (rec_next eps r X e) d in
      (INR (r_hid r) * largest (r_who r) + largest (r_bo r), INR (r_hid r) * (largest (r_who r) * d + eps) + eps, d)
  | RO _ _ => (X, e, d)
  end.
(** One call of all layers; [ds] has one entry for each. *)
Fixpoint rdrift (eps : R) (ss : list (rnode R)) (X e : R) (ds : list R) : R * list R :=
  match ss, ds with
  | s :: ss, d :: ds => let '(X, e, d) := rdrift1 eps s X e d in let '(e, ds) := rdrift eps ss X e ds in (e, d :: ds)
  | _, _ => (e, [])
  end.
(** Several calls. *)
Fixpoint calls_drift (eps : R) (ss : list (rnode R)) (ds : list R) (xs : list (list R)) : list R :=
  match xs with
  | [] => []
  | x :: xs => let '(e, ds) := rdrift eps ss (largest x) 0 ds in e :: calls_drift eps ss ds xs
  end.
Definition rnear (eps : R) (s s' : rnode R) : Prop :=
  match s, s' with
  | RL l, RL l' => near eps l l'
  | RR r, RR r' => r_in r' = r_in r /\ r_out r' = r_out r /\ r_hid r' = r_hid r /\ r_steps r' = r_steps r /\
      apart eps (r_wih r) (r_wih r') /\ apart eps (r_whh r) (r_whh r') /\ apart eps (r_who r) (r_who r') /\ apart eps (r_bh r) (r_bh r') /\ apart eps (r_bo r) (r_bo r')
  | _, _ => False
  end.

(** *** One time step *)
Lemma tanh_1 x : Rabs (tanh x) <= 1.
Proof. pose proof (tanh_sq x) as (A & _). apply Rabs_le. split; nra. Qed.
Lemma product_apart w w' u u' A e eps U : 0 <= eps -> Rabs w <= A -> Rabs (u - u') <= e -> Rabs (w - w') <= eps -> Rabs u' <= U -> Rabs (w * u - w' * u') <= A * e + eps * U.
Proof.
  intros P Hw Hu Hww HU. replace (w * u - w' * u') with (w * (u - u') + (w - w') * u') by ring. eapply Rle_trans; [apply Rabs_triang|]. rewrite !Rabs_mult.
  apply Rplus_le_compat; apply Rmult_le_compat; try apply Rabs_pos; assumption.
Qed.
Lemma rec_next_le eps r X e d : d <= rec_next eps r X e d.
Proof. apply Rmax_l. Qed.
Lemma iter_le eps r X e n : forall d, d <= Nat.iter n (rec_next eps r X e) d.
Proof. induction n as [|n IH]; intros d; [apply Rle_refl|]. change (Nat.iter (S n) ?f d) with (f (Nat.iter n f d)). eapply Rle_trans; [apply IH|apply rec_next_le]. Qed.
Lemma iter_swap {A} (f : A -> A) n x : Nat.iter n f (f x) = Nat.iter (S n) f x.
Proof. induction n as [|n IH]; [reflexivity|]. change (f (Nat.iter n f (f x)) = f (Nat.iter (S n) f x)). now rewrite IH. Qed.
Lemma cell_drift eps r r' X e d u u' H H' : 0 <= eps -> 0 <= X -> 0 <= e -> 0 <= d -> rnear eps (RR r) (RR r') -> within_ X u -> apart e u u' -> within_ 1 H' -> apart d H H' ->
  within_ 1 (cell_next r u H) /\ within_ 1 (cell_next r' u' H') /\ apart (rec_next eps r X e d) (cell_next r u H) (cell_next r' u' H').
Proof.
  intros P PX Pe Pd (E1 & E2 & E3 & E4 & A1 & A2 & A3 & A4 & A5) WX AX WH AH. unfold cell_next. rewrite E1, E3.
  split; [apply tab_within; [lra|intros; apply tanh_1]|]. split; [apply tab_within; [lra|intros; apply tanh_1]|].
  apply tab_apart; [eapply Rle_trans; [exact Pd|apply rec_next_le]|]. intros i _. eapply Rle_trans; [apply tanh_slope|]. unfold rec_next. eapply Rle_trans; [|apply Rmax_r].
  match goal with |- Rabs (Rsum ?n ?f + Rsum ?h ?g + ?b - (Rsum ?n ?f' + Rsum ?h ?g' + ?b')) <= _ =>
    replace (Rsum n f + Rsum h g + b - (Rsum n f' + Rsum h g' + b')) with (Rsum n (fun j => f j - f' j) + Rsum h (fun j => g j - g' j) + (b - b')) by (rewrite !Rsum_minus; ring) end.
  eapply Rle_trans; [apply Rabs_triang|]. apply Rplus_le_compat; [|apply A4]. eapply Rle_trans; [apply Rabs_triang|]. apply Rplus_le_compat; apply Rsum_bound; intros j _.
  - apply product_apart; [exact P|apply largest_nth|apply AX|apply A1|]. specialize (WX j). specialize (AX j). split_Rabs; lra.
  - eapply Rle_trans; [apply (product_apart _ _ _ _ (largest (r_whh r)) d eps 1); [exact P|apply largest_nth|apply AH|apply A2|apply WH]|]. lra.
Qed.
Lemma cell_out_drift eps r r' d H H' : 0 <= eps -> 0 <= d -> rnear eps (RR r) (RR r') -> within_ 1 H -> within_ 1 H' -> apart d H H' ->
  within_ (INR (r_hid r) * largest (r_who r) + largest (r_bo r)) (cell_out r H) /\ apart (INR (r_hid r) * (largest (r_who r) * d + eps) + eps) (cell_out r H) (cell_out r' H').
Proof.
  intros P Pd (E1 & E2 & E3 & E4 & A1 & A2 & A3 & A4 & A5) WH WH' AH. unfold cell_out. rewrite E2, E3. pose proof (largest_0 (r_who r)) as L1. pose proof (largest_0 (r_bo r)) as L2. pose proof (pos_INR (r_hid r)) as L3. split.
  - apply tab_within; [apply Rplus_le_le_0_compat; [now apply Rmult_le_pos|exact L2]|]. intros i _. eapply Rle_trans; [apply Rabs_triang|]. apply Rplus_le_compat; [|apply largest_nth].
    apply Rsum_bound. intros j _. rewrite Rabs_mult, <- (Rmult_1_r (largest (r_who r))). apply Rmult_le_compat; try apply Rabs_pos; [apply largest_nth|apply WH].
  - apply tab_apart; [apply Rplus_le_le_0_compat; [apply Rmult_le_pos; [exact L3|]; apply Rplus_le_le_0_compat; [now apply Rmult_le_pos|exact P]|exact P]|]. intros i _.
    match goal with |- Rabs (Rsum ?h ?g + ?b - (Rsum ?h ?g' + ?b')) <= _ => replace (Rsum h g + b - (Rsum h g' + b')) with (Rsum h (fun j => g j - g' j) + (b - b')) by (rewrite Rsum_minus; ring) end.
    eapply Rle_trans; [apply Rabs_triang|]. apply Rplus_le_compat; [|apply A5]. apply Rsum_bound. intros j _.
    eapply Rle_trans; [apply (product_apart _ _ _ _ (largest (r_who r)) d eps 1); [exact P|apply largest_nth|apply AH|apply A3|apply WH']|]. lra.
Qed.

(** *** One call *)
Lemma apart_le e e' x y : e <= e' -> apart e x y -> apart e' x y.
Proof. intros L A i. eapply Rle_trans; [apply A|exact L]. Qed.
Lemma unroll_drift eps r r' X e : 0 <= eps -> 0 <= X -> 0 <= e -> rnear eps (RR r) (RR r') -> forall us us', Forall2 (fun u u' => within_ X u /\ apart e u u') us us' ->
  forall d H H', 0 <= d -> within_ 1 H -> within_ 1 H' -> apart d H H' -> let D := Nat.iter (length us) (rec_next eps r X e) d in
  Forall2 (fun y y' => (length y = r_out r /\ length y' = r_out r) /\ within_ (INR (r_hid r) * largest (r_who r) + largest (r_bo r)) y /\ apart (INR (r_hid r) * (largest (r_who r) * D + eps) + eps) y y')
    (fst (unroll r us H)) (fst (unroll r' us' H')) /\
  within_ 1 (snd (unroll r us H)) /\ within_ 1 (snd (unroll r' us' H')) /\ apart D (snd (unroll r us H)) (snd (unroll r' us' H')).
Proof.
  intros P PX Pe N us us' F. induction F as [|u u' us us' (Wu & Au) F IH]; intros d H H' Pd WH WH' AH D; cbn [unroll].
  - cbn [fst snd]. auto.
  - destruct (cell_drift eps r r' X e d u u' H H' P PX Pe Pd N Wu Au WH' AH) as (W1 & W2 & A1). set (d1 := rec_next eps r X e d) in *. assert (P1 : 0 <= d1) by (eapply Rle_trans; [exact Pd|apply rec_next_le]).
    destruct (IH d1 _ _ P1 W1 W2 A1) as (G1 & G2 & G3 & G4). assert (ED : Nat.iter (length us) (rec_next eps r X e) d1 = D) by (unfold D, d1; cbn [length]; now rewrite iter_swap).
    rewrite ED in *. destruct (unroll r us (cell_next r u H)) as (ys & Hn), (unroll r' us' (cell_next r' u' H')) as (ys' & Hn'). cbn [fst snd] in *. split; [|auto]. constructor; [|exact G1].
    assert (LD : d1 <= D) by (rewrite <- ED; apply iter_le). split; [|apply cell_out_drift; auto; [lra|eapply apart_le; eauto]]. pose proof N as (_ & E2 & _). unfold cell_out. rewrite !tab_length. auto.
Qed.
Lemma pieces_drift X e n : 0 <= X -> 0 <= e -> forall k x x', within_ X x -> apart e x x' -> Forall2 (fun u u' => within_ X u /\ apart e u u') (pieces n k x) (pieces n k x').
Proof.
  intros PX Pe. induction k as [|k IH]; intros x x' W A; cbn [pieces]; constructor.
  - split; intros i; (destruct (Nat.lt_ge_cases i n) as [L|L]; [rewrite !nth_firstn_lt by exact L; auto|rewrite !(nth_overflow (firstn _ _)) by (rewrite firstn_length; lia); rewrite ?Rminus_0_r, Rabs_R0; assumption]).
  - apply IH; intros i; rewrite !nth_skipn_add; auto.
Qed.
Lemma concat_drift B e o ys ys' : 0 <= B -> 0 <= e -> Forall2 (fun y y' => (length y = o /\ length y' = o) /\ within_ B y /\ apart e y y') ys ys' -> within_ B (concat ys) /\ apart e (concat ys) (concat ys') /\ length (concat ys) = (o * length ys)%nat /\ length (concat ys') = (o * length ys)%nat.
Proof.
  intros PB Pe. induction 1 as [|y y' ys ys' ((L1 & L2) & W & A) F (I1 & I2 & I3 & I4)]; cbn [concat length].
  - split; [|split; [|split; lia]]; intros [|i]; cbn; rewrite ?Rminus_0_r, Rabs_R0; assumption.
  - split; [|split; [|rewrite !app_length; split; lia]]; intros i; (destruct (Nat.lt_ge_cases i o) as [L|L]; [rewrite !app_nth1 by lia; auto|rewrite !app_nth2 by lia; rewrite L1, ?L2; auto]).
Qed.
Lemma rnode_drift eps s s' n k X e d x x' H H' : 0 <= eps -> 0 <= X -> 0 <= e -> 0 <= d -> rnode_shape s n k -> rnear eps s s' -> length x = n -> length x' = n ->
  within_ X x -> apart e x x' -> within_ 1 H -> within_ 1 H' -> apart d H H' ->
  let '(X1, e1, d1) := rdrift1 eps s X e d in let '(y, G) := node_run s H x in let '(y', G') := node_run s' H' x' in
  (0 <= X1 /\ 0 <= e1 /\ 0 <= d1) /\ (length y = k /\ length y' = k) /\ within_ X1 y /\ apart e1 y y' /\ within_ 1 G /\ within_ 1 G' /\ apart d1 G G'.
Proof.
  intros P PX Pe Pd Sh N Lx Lx' W A WH WH' AH. destruct s as [l|r|kd lo], s' as [l'|r'|kd' lo']; cbn [rnear rnode_shape] in *; try easy.
  - cbn [rdrift1 node_run]. pose proof (drift1_0 eps l X e P PX Pe) as D0. pose proof (layer_drift eps l l' X e x x' n k P PX Pe Sh N Lx Lx' W A) as D1. destruct (drift1 eps l X e) as (X1, e1). cbn [fst snd] in *.
    split; [tauto|]. split; [split; [exact (layer_sem_length _ _ _ _ Sh Lx)|exact (near_length _ _ _ _ _ _ Sh N Lx')]|]. tauto.
  - destruct Sh as (_ & _ & En & Ek). pose proof N as (E1 & E2 & E3 & E4 & _). cbn [rdrift1 node_run]. rewrite E1, E4.
    pose proof (unroll_drift eps r r' X e P PX Pe N _ _ (pieces_drift X e (r_in r) PX Pe (r_steps r) x x' W A) d H H' Pd WH WH' AH) as (G1 & G2 & G3 & G4). rewrite pieces_length in *.
    pose proof (largest_0 (r_who r)) as L1. pose proof (largest_0 (r_bo r)) as L2. pose proof (pos_INR (r_hid r)) as L3. set (D := Nat.iter (r_steps r) (rec_next eps r X e) d) in *. assert (PD : 0 <= D) by (eapply Rle_trans; [exact Pd|apply iter_le]).
    assert (PB : 0 <= INR (r_hid r) * largest (r_who r) + largest (r_bo r)) by (apply Rplus_le_le_0_compat; [now apply Rmult_le_pos|exact L2]).
    assert (Pe1 : 0 <= INR (r_hid r) * (largest (r_who r) * D + eps) + eps) by (apply Rplus_le_le_0_compat; [apply Rmult_le_pos; [exact L3|]; apply Rplus_le_le_0_compat; [now apply Rmult_le_pos|exact P]|exact P]).
    destruct (concat_drift _ _ _ _ _ PB Pe1 G1) as (C1 & C2 & C3 & C4). destruct (unroll_length r (pieces (r_in r) (r_steps r) x) H) as (U1 & _). rewrite pieces_length in U1. rewrite U1 in C3, C4.
    destruct (unroll r _ H) as (ys & Hn), (unroll r' _ H') as (ys' & Hn'). cbn [fst snd] in *. subst k. auto 12.
Qed.
Definition close_states (d : R) (H H' : list R) : Prop := 0 <= d /\ within_ 1 H /\ within_ 1 H' /\ apart d H H'.
Inductive all_close : list R -> list (list R) -> list (list R) -> Prop :=
| ac_nil : all_close [] [] []
| ac_cons d ds H Hs H' Hs' : close_states d H H' -> all_close ds Hs Hs' -> all_close (d :: ds) (H :: Hs) (H' :: Hs').
Lemma stack_drift eps : 0 <= eps -> forall ss ss', Forall2 (rnear eps) ss ss' -> forall n k X e ds x x' Hs Hs', 0 <= X -> 0 <= e -> rshape ss n k -> length x = n -> length x' = n ->
  within_ X x -> apart e x x' -> all_close ds Hs Hs' -> length ds = length ss ->
  let '(e1, ds1) := rdrift eps ss X e ds in let '(y, Gs) := stack_run ss Hs x in let '(y', Gs') := stack_run ss' Hs' x' in
  0 <= e1 /\ (length y = k /\ length y' = k) /\ apart e1 y y' /\ all_close ds1 Gs Gs' /\ length ds1 = length ss.
Proof.
  intros P. induction 1 as [|s s' ss ss' N F IH]; intros n k X e ds x x' Hs Hs' PX Pe Sh Lx Lx' W A C L.
  - destruct ds; [|discriminate]. inversion C; subst. cbn in *. subst. auto using ac_nil.
  - destruct ds as [|d ds]; [discriminate|]. inversion C as [|? ? H Ht H' Ht' (Pd & WH & WH' & AH) C2]; subst. destruct Sh as (j & S1 & S2). cbn [rdrift stack_run].
    pose proof (rnode_drift eps s s' _ j X e d x x' H H' P PX Pe Pd S1 N eq_refl Lx' W A WH WH' AH) as Q. destruct (rdrift1 eps s X e d) as ((X1, e1), d1), (node_run s H x) as (y & G), (node_run s' H' x') as (y' & G').
    destruct Q as ((Q1 & Q2 & Q3) & (Q4 & Q5) & Q6 & Q7 & Q8 & Q9 & Q10). cbn [length] in L. specialize (IH j k X1 e1 ds y y' Ht Ht' Q1 Q2 S2 Q4 Q5 Q6 Q7 C2 ltac:(lia)).
    destruct (rdrift eps ss X1 e1 ds) as (e2, ds2), (stack_run ss Ht y) as (z & Gs), (stack_run ss' Ht' y') as (z' & Gs'). destruct IH as (I1 & I2 & I3 & I4 & I5).
    split; [exact I1|]. split; [exact I2|]. split; [exact I3|]. split; [constructor; [repeat split; assumption|exact I4]|cbn [length]; lia].
Qed.
Lemma calls_apart eps : 0 <= eps -> forall ss ss' n k, Forall2 (rnear eps) ss ss' -> rshape ss n k -> forall xs ds Hs Hs', Forall (fun x => length x = n) xs -> all_close ds Hs Hs' -> length ds = length ss ->
  forall q i, Rabs (nth i (nth q (fst (chunk_run ss Hs xs)) []) 0 - nth i (nth q (fst (chunk_run ss' Hs' xs)) []) 0) <= nth q (calls_drift eps ss ds xs) 0.
Proof.
  intros P ss ss' n k N Sh. induction xs as [|x xs IH]; intros ds Hs Hs' FX C L q i; cbn [chunk_run calls_drift].
  - destruct q, i; cbn; rewrite Rminus_0_r, Rabs_R0; apply Rle_refl.
  - inversion FX as [|? ? Lx FX2]; subst. pose proof (stack_drift eps P ss ss' N (length x) k (largest x) 0 ds x x Hs Hs' (largest_0 x) (Rle_refl 0) Sh eq_refl eq_refl (largest_nth x)) as Q.
    assert (A0 : apart 0 x x) by (intros j; rewrite Rminus_diag_eq, Rabs_R0 by reflexivity; apply Rle_refl). specialize (Q A0 C L).
    destruct (rdrift eps ss (largest x) 0 ds) as (e1, ds1), (stack_run ss Hs x) as (y & Gs), (stack_run ss' Hs' x) as (y' & Gs'). destruct Q as (_ & _ & Q1 & Q2 & Q3).
    specialize (IH ds1 Gs Gs' FX2 Q2 Q3). destruct (chunk_run ss Gs xs) as (ys & Hn), (chunk_run ss' Gs' xs) as (ys' & Hn'). cbn [fst] in *. destruct q as [|q]; cbn [nth]; [apply Q1|apply IH].
Qed.
