(** C70: rows and targets of the wrong size. *)
From Verif Require Import Base Num MathModel MathProofs LayerModel LossModel OptModel GraphModel ModelModel NodeModel
  ChainProofs ModelProofs PropModel.

(** *** Loops that leave the buffers *)
Definition nothrow {A} (r : res A) : Prop := r <> Throw.
Lemma nothrow_bind {A B} (r : res A) (f : A -> res B) : nothrow r -> (forall a, nothrow (f a)) -> nothrow (bind r f).
Proof. unfold nothrow. destruct r; cbn; auto. discriminate. Qed.
Lemma nothrow_rd {A} (l : list A) i : nothrow (rd l i).
Proof. unfold nothrow, rd. destruct (nth_error l i); discriminate. Qed.
Lemma nothrow_wr {A} (l : list A) i x : nothrow (wr l i x).
Proof. unfold nothrow, wr. destruct (i <? length l); discriminate. Qed.
Lemma nothrow_Ok {A} (a : A) : nothrow (Ok a).
Proof. discriminate. Qed.
Lemma nothrow_for {S} n (body : nat -> S -> res S) : (forall i s, nothrow (body i s)) -> forall s, nothrow (for_ n body s).
Proof.
  intros HB. unfold for_. generalize 0. induction n as [|n IH]; intros i s; cbn [for_from]; [apply nothrow_Ok|].
  apply nothrow_bind; auto.
Qed.
Lemma bind_UB {A B} (r : res A) (f : A -> res B) : nothrow r -> (forall a, f a = UB) -> bind r f = UB.
Proof. unfold nothrow. destruct r; cbn; auto; congruence. Qed.
Lemma for_UB {S} n (body : nat -> S -> res S) k : k < n -> (forall i s, nothrow (body i s)) -> (forall s, body k s = UB) ->
  forall s, for_ n body s = UB.
Proof.
  intros Hk HB HU. unfold for_.
  assert (G : forall n i, i <= k < i + n -> forall s, for_from i n body s = UB).
  { clear n Hk. induction n as [|n IH]; intros i Hi s; [lia|]. cbn [for_from].
    destruct (Nat.eq_dec i k) as [->|Hne]; [rewrite HU; reflexivity|].
    apply bind_UB; [apply HB|]. intros a. apply IH. lia. }
  apply G. lia.
Qed.
Lemma rd_out {A} (l : list A) i : length l <= i -> rd l i = UB.
Proof. intros Hi. unfold rd. apply nth_error_None in Hi. now rewrite Hi. Qed.

Section Sizes.
Context {T : Type} `{NumOps T} `{TransOps T} `{LimOps T}.

Lemma dense_row_nothrow (dst src w bias : list T) inp i : nothrow (dense_row dst src w bias inp i).
Proof.
  unfold dense_row. apply nothrow_bind; [apply nothrow_rd|]. intros b. apply nothrow_bind; [apply nothrow_wr|]. intros d.
  apply nothrow_for. intros j s. apply nothrow_bind; [apply nothrow_rd|]. intros a.
  apply nothrow_bind; [apply nothrow_rd|]. intros x. apply nothrow_bind; [apply nothrow_rd|]. intros c. apply nothrow_wr.
Qed.
Lemma dense_out_of_weights (dst src w bias : list T) inp out : 0 < out -> 0 < inp -> length w < out * inp ->
  dense dst src w bias inp out = UB.
Proof.
  intros Ho Hi Hw. unfold dense. apply (for_UB _ _ (out - 1)); [lia|intros; apply dense_row_nothrow|].
  intros s. unfold dense_row. apply bind_UB; [apply nothrow_rd|]. intros b. apply bind_UB; [apply nothrow_wr|]. intros d.
  apply (for_UB _ _ (inp - 1)); [lia| |].
  - intros j t. apply nothrow_bind; [apply nothrow_rd|]. intros a.
    apply nothrow_bind; [apply nothrow_rd|]. intros x. apply nothrow_bind; [apply nothrow_rd|]. intros c. apply nothrow_wr.
  - intros t. rewrite rd_out; [reflexivity|]. assert ((out - 1) * inp + (inp - 1) = out * inp - 1) by nia. lia.
Qed.
Lemma dense_1_short (ig wg bg g last w : list T) inp out : 0 < out -> length last < inp -> length g = out ->
  dense_1 ig wg bg g last w inp out = UB.
Proof.
  intros Ho Hl Hg. unfold dense_1, fill0. apply bind_UB.
  { apply nothrow_for. intros. apply nothrow_wr. }
  intros ig0. apply (for_UB _ _ 0); [lia| |].
  - intros i ((a & b) & c). unfold dense_1_row. apply nothrow_bind; [apply nothrow_rd|]. intros gi.
    apply nothrow_bind; [apply nothrow_rd|]. intros bi. apply nothrow_bind; [apply nothrow_wr|]. intros bg'.
    apply nothrow_for. intros j ((a' & b') & c').
    repeat (first [apply nothrow_rd | apply nothrow_wr | apply nothrow_Ok | apply nothrow_bind; [|intros ?]]).
  - intros ((a & b) & c). unfold dense_1_row. apply bind_UB; [apply nothrow_rd|]. intros gi.
    apply bind_UB; [apply nothrow_rd|]. intros bi. apply bind_UB; [apply nothrow_wr|]. intros bg'.
    apply (for_UB _ _ (length last)); [exact Hl| |].
    + intros j ((a' & b') & c').
      repeat (first [apply nothrow_rd | apply nothrow_wr | apply nothrow_Ok | apply nothrow_bind; [|intros ?]]).
    + intros ((a' & b') & c'). apply bind_UB; [apply nothrow_rd|]. intros g0. rewrite rd_out by lia. reflexivity.
Qed.

(** The dense layer for [m] inputs with the first weights of [l], read row by row of length [m]. *)
Definition narrow (l : layer T) (m : nat) : layer T :=
  mkLayer (knd l) m (firstn (length (out l) * m) (wts l)) (bias l) (firstn (length (out l) * m) (wgrad l)) (bgrad l)
    (out l) (repeat n0 m).
Definition put_first (m : model (node T)) (l : layer T) : model (node T) :=
  mkModel (mgraph m) (upd (mnodes m) 0 (NL l, SNull)).
(** The model with another target stored in its loss. *)
Definition retarget (t : list T) (m : model (node T)) : model (node T) :=
  mkModel (mgraph m) (map (fun sp => match fst sp with NO kd lo => (NO kd (set_target lo t), snd sp) | _ => sp end) (mnodes m)).

Lemma narrow_shape l n j m : lshape l n j -> knd l = KDense -> m <= n -> lshape (narrow l m) m j.
Proof.
  intros (S1 & S2 & S3 & S4) K Hm. rewrite K in S4. destruct S4 as (A1 & A2 & A3 & A4).
  unfold lshape, narrow. cbn [insz ig out knd wts wgrad bias bgrad]. rewrite K.
  split; [reflexivity|]. split; [apply repeat_length|]. split; [exact S3|].
  rewrite !firstn_length, S3, A1, A2. assert (j * m <= j * n) by nia. split; [lia|]. split; [lia|]. auto.
Qed.
Lemma narrow_network m l r kd lo n k w : network m (l :: r) kd lo n k -> knd l = KDense -> w <= n ->
  network (put_first m (narrow l w)) (narrow l w :: r) kd lo w k.
Proof.
  intros W K Hw. constructor; unfold put_first; cbn [mgraph mnodes].
  - exact (nw_graph _ _ _ _ _ _ W).
  - cbn. lia.
  - pose proof (nw_nodes _ _ _ _ _ _ W) as N. destruct (mnodes m) as [|a ns]; [discriminate|]. cbn [upd map fst app] in *.
    injection N as _ N. now rewrite N.
  - destruct (nw_shape _ _ _ _ _ _ W) as (j & A & B). exists j. split; [now apply (narrow_shape l n)|exact B].
  - exact (nw_grad _ _ _ _ _ _ W).
Qed.

Lemma narrow_forward l n j x : lshape l n j -> knd l = KDense -> length x <= n ->
  exists y, layer_forward l x = Ok (set_out l y) /\ layer_forward (narrow l (length x)) x = Ok (set_out (narrow l (length x)) y) /\
    length y = j.
Proof.
  intros (S1 & S2 & S3 & S4) K Hx. rewrite K in S4. destruct S4 as (A1 & A2 & A3 & A4).
  unfold layer_forward. cbn [narrow knd out wts bias]. rewrite K.
  assert (Hm : j * length x <= j * n) by nia.
  rewrite (dense_spec n0) by (rewrite ?S3, ?A1, ?A3; lia). cbn [bind].
  rewrite (dense_spec n0) by (rewrite ?firstn_length, ?S3, ?A1, ?A3; lia). cbn [bind].
  rewrite skipn_all2, !app_nil_r by lia. eexists. split; [reflexivity|]. split; [|rewrite tab_length; exact S3].
  do 2 f_equal. apply tab_ext. intros i Hi. apply nsum_from_ext. intros q Hq. f_equal.
  apply nth_firstn_lt. assert (i * length x + length x <= length (out l) * length x) by nia. lia.
Qed.

Lemma chain_forward_head (l l' : layer T) r x y : layer_forward l x = Ok (set_out l y) -> layer_forward l' x = Ok (set_out l' y) ->
  chain_forward (l :: r) x = ('(r', z) <- chain_forward r y ;; Ok (set_out l y :: r', z)) /\
  chain_forward (l' :: r) x = ('(r', z) <- chain_forward r y ;; Ok (set_out l' y :: r', z)).
Proof. intros E E'. cbn [chain_forward]. rewrite E, E'. cbn [bind set_out out]. auto. Qed.
End Sizes.

(** Prediction, first layer dense: an input that is too long leads outside of the weights; a short one is not noticed,
    the network predicts as one for inputs of that size with the first weights. *)
Theorem c70_predict_actual : forall T (NT : NumOps T) (TT : TransOps T) (LT : LimOps T) draw (m : model (node T)) l r kd lo n k x,
  network m (l :: r) kd lo n k -> knd l = KDense -> 0 < length (out l) ->
  (n < length x -> m_predict (node_ops draw) m x = UB) /\
  (length x <= n ->
     network (put_first m (narrow l (length x))) (narrow l (length x) :: r) kd lo (length x) k /\
     exists m1 m2 y, m_predict (node_ops draw) m x = Ok (m1, y) /\ length y = k /\
       m_predict (node_ops draw) (put_first m (narrow l (length x))) x = Ok (m2, y)).
Proof.
  intros T NT TT LT draw m l r kd lo n k x W K Ho.
  destruct (nw_shape _ _ _ _ _ _ W) as (j & A & B). split.
  - intros Hx. destruct A as (S1 & S2 & S3 & S4). rewrite K in S4. destruct S4 as (A1 & _).
    destruct (predict_chain (node_ops draw) true (length (l :: r)) m x (nw_graph _ _ _ _ _ _ W) (nw_some _ _ _ _ _ _ W)
      (network_length _ _ _ _ _ _ W)) as (s & p & rest & post & EM & Lr & EP).
    pose proof (nw_nodes _ _ _ _ _ _ W) as N. rewrite EM in N. cbn [map fst app] in N. injection N as -> _.
    rewrite EP. cbn [node_ops o_forward n_forward]. unfold layer_forward at 1. rewrite K, dense_out_of_weights; [reflexivity|exact Ho|lia|].
    rewrite A1, <- S3. nia.
  - intros Hx. pose proof (narrow_network _ _ _ _ _ _ _ _ W K Hx) as W'. split; [exact W'|].
    destruct (narrow_forward l n j x A K Hx) as (y1 & E1 & E2 & L1).
    destruct (chain_forward_shape r j k y1 B L1) as (r' & y & ER & Ly & _).
    destruct (chain_forward_head l (narrow l (length x)) r x y1 E1 E2) as (C1 & C2). rewrite ER in C1, C2. cbn [bind] in C1, C2.
    destruct (predict_network draw true (length (l :: r)) m (l :: r) [NO kd lo] x _ _ (nw_graph _ _ _ _ _ _ W)
      (nw_some _ _ _ _ _ _ W) (network_length _ _ _ _ _ _ W) (nw_nodes _ _ _ _ _ _ W) eq_refl C1) as (m1 & P1 & _).
    destruct (predict_network draw true (length (narrow l (length x) :: r)) _ _ [NO kd lo] x _ _ (nw_graph _ _ _ _ _ _ W')
      (nw_some _ _ _ _ _ _ W') (network_length _ _ _ _ _ _ W') (nw_nodes _ _ _ _ _ _ W') eq_refl C2) as (m2 & P2 & _).
    exists m1, m2, y. auto.
Qed.
Print Assumptions c70_predict_actual.

(** A training step never succeeds with an input of the wrong size; too long: undefined. *)
Theorem c70_step_actual : forall T (NT : NumOps T) (TT : TransOps T) (LT : LimOps T) draw (m : model (node T)) l r kd lo n k x t,
  network m (l :: r) kd lo n k -> knd l = KDense -> 0 < length (out l) ->
  (length x <> n -> forall m', m_step (node_ops draw) m x t <> Ok m') /\
  (n < length x -> m_step (node_ops draw) m x t = UB).
Proof.
  intros T NT TT LT draw m l r kd lo n k x t W K Ho.
  destruct (nw_shape _ _ _ _ _ _ W) as (j & A & B). pose proof A as (S1 & S2 & S3 & S4). rewrite K in S4. destruct S4 as (A1 & _).
  assert (U : n < length x -> m_step (node_ops draw) m x t = UB).
  { intros Hx. rewrite (c36_step _ _ _ _ draw m _ kd lo n k x t W). cbn [chain_forward]. unfold layer_forward at 1.
    rewrite K, dense_out_of_weights; [reflexivity|exact Ho|lia|]. rewrite A1, <- S3. nia. }
  split; [|exact U]. intros Hne m' E. destruct (Nat.lt_ge_cases n (length x)) as [Hl|Hg]; [rewrite (U Hl) in E; discriminate|].
  rewrite (c36_step _ _ _ _ draw m _ kd lo n k x t W) in E.
  destruct (narrow_forward l n j x A K Hg) as (y1 & E1 & E2 & L1).
  destruct (chain_forward_shape r j k y1 B L1) as (r' & y & ER & Ly & _ & B').
  destruct (chain_forward_head l l r x y1 E1 E1) as (C1 & _). rewrite ER in C1. rewrite C1 in E. cbn [bind] in E.
  destruct (loss_forward kd (set_target lo t) y) as (lo1, rr) eqn:EL. destruct rr as [[]| |]; try discriminate. cbn [bind] in E.
  destruct (loss_backward kd lo1 y) as [g| |] eqn:EB; try discriminate. cbn [bind] in E.
  assert (Hg' : length g = k).
  { rewrite (loss_backward_len _ _ _ _ EB), (loss_forward_grad _ _ _ _ _ EL). exact (nw_grad _ _ _ _ _ _ W). }
  destruct (chain_backward_shape r' j k y1 g B' L1 Hg') as (r2 & gx & EC & Lx & _).
  cbn [chain_backward set_out out] in E. rewrite EC in E. cbn [bind] in E. unfold layer_backward in E.
  cbn [set_out knd] in E. rewrite K in E. cbn [ig wgrad bgrad wts insz] in E.
  rewrite dense_1_short in E; [discriminate|lia|cbn [set_out insz]; lia|reflexivity].
Qed.
Print Assumptions c70_step_actual.

(** *** Targets *)
Section Targets.
Context {T : Type} `{NumOps T} `{TransOps T} `{LimOps T}.

Lemma rd_firstn {A} (t : list A) k i : i < k -> rd (firstn k t) i = rd t i.
Proof.
  intros Hi. unfold rd. revert k i Hi. induction t as [|a t IH]; intros k i Hi; [rewrite firstn_nil; reflexivity|].
  destruct k as [|k]; [lia|]. destruct i as [|i]; cbn; [reflexivity|]. apply IH. lia.
Qed.
Lemma argactive_firstn (t : list T) k : forall n i, i + n <= k -> argactive (firstn k t) i n = argactive t i n.
Proof.
  induction n as [|n IH]; intros i Hi; cbn [argactive]; [reflexivity|]. rewrite rd_firstn by lia.
  destruct (rd t i) as [x| |]; cbn [bind]; auto. destruct (negb (neqb x n0)); auto. apply IH. lia.
Qed.
Lemma firstn_cons {A} (t : list A) k : 0 < k -> t <> [] -> exists a r, firstn k t = a :: r.
Proof. intros Hk Ht. destruct k; [lia|]. destruct t; [congruence|]. cbn. eauto. Qed.

Lemma loss_forward_firstn kd (lo : lossl T) t y k : 0 < k -> length y = k -> ls_in lo <= k -> t <> [] ->
  loss_forward kd (set_target lo t) y =
  (set_target (fst (loss_forward kd (set_target lo (firstn k t)) y)) t,
   snd (loss_forward kd (set_target lo (firstn k t)) y)).
Proof.
  intros Hk Hy Hin Ht. destruct (firstn_cons t k Hk Ht) as (a & r & EF).
  destruct kd as [|tol]; cbn [loss_forward].
  - unfold cce_forward. cbn [set_target ls_target ls_in].
    assert (EX : cross_entropy (firstn k t) y (length y) = cross_entropy t y (length y)).
    { unfold cross_entropy. apply for_ext. intros i acc Hi. rewrite rd_firstn by lia. reflexivity. }
    assert (EA : argactive (firstn k t) 0 (ls_in lo) = argactive t 0 (ls_in lo)) by (apply argactive_firstn; lia).
    destruct t as [|b t]; [congruence|]. rewrite EF in *. rewrite EX.
    destruct (cross_entropy (b :: t) y (length y)) as [v| |]; try reflexivity.
    cbn zeta. destruct (max_and_argmax y (length y)) as [(v', mi)| |]; try reflexivity.
    cbn [LossModel.add_loss set_target ls_target ls_in]. rewrite EA.
    destruct (argactive (b :: t) 0 (ls_in lo)); reflexivity.
  - unfold mse_forward. cbn [set_target ls_target].
    assert (EX : mean_squared_error (firstn k t) y (length y) = mean_squared_error t y (length y)).
    { unfold mean_squared_error. f_equal. apply for_ext. intros i acc Hi. rewrite rd_firstn by lia. reflexivity. }
    destruct t as [|b t]; [congruence|]. rewrite EF in *. rewrite EX.
    destruct (mean_squared_error (b :: t) y (length y)) as [v| |]; reflexivity.
Qed.
Lemma loss_forward_keeps kd (lo : lossl T) y : ls_target (fst (loss_forward kd lo y)) = ls_target lo /\
  ls_grad (fst (loss_forward kd lo y)) = ls_grad lo.
Proof.
  destruct kd as [|tol]; cbn [loss_forward]; unfold cce_forward, mse_forward; destruct (ls_target lo) eqn:E; rewrite <- ?E; auto.
  - destruct (cross_entropy (ls_target lo) y (length y)); auto. cbn zeta. destruct (max_and_argmax y (length y)) as [(?, ?)| |]; auto.
    destruct (argactive _ _ _); auto.
  - destruct (mean_squared_error (ls_target lo) y (length y)); auto.
Qed.
Lemma loss_backward_firstn kd (lo : lossl T) t y k : length (ls_grad lo) = k -> ls_target lo = firstn k t ->
  loss_backward kd (set_target lo t) y = loss_backward kd lo y.
Proof.
  intros Hg Ht. destruct kd as [|tol]; cbn [loss_backward]; unfold cce_backward, mse_backward, cross_entropy_1_arr, mean_squared_error_1, map2_into;
    cbn [set_target ls_grad ls_target ls_inv]; apply for_ext; intros i acc Hi; rewrite Ht, rd_firstn by lia; reflexivity.
Qed.
Lemma loss_forward_short kd (lo : lossl T) t y : t <> [] -> length t < length y ->
  snd (loss_forward kd (set_target lo t) y) = UB.
Proof.
  intros Ht Hl. destruct t as [|b t]; [congruence|].
  assert (E : forall f : T -> T -> T, for_ (length y) (fun i acc => a <- rd (b :: t) i;; b0 <- rd y i;; Ok (nadd acc (f a b0))) n0 = UB).
  { intros f. apply (for_UB _ _ (length (b :: t))); [exact Hl| |].
    - intros i s. apply nothrow_bind; [apply nothrow_rd|]. intros. apply nothrow_bind; [apply nothrow_rd|]. intros. apply nothrow_Ok.
    - intros s. rewrite rd_out by lia. reflexivity. }
  destruct kd as [|tol]; cbn [loss_forward]; unfold cce_forward, mse_forward; cbn [set_target ls_target].
  - unfold cross_entropy. rewrite (E cross_entropy1). reflexivity.
  - unfold mean_squared_error. rewrite (E squared_error). reflexivity.
Qed.
Lemma retarget_placed (g : dlgraph) (ls : list (layer T)) kd lo t :
  retarget t (mkModel g (place 0 (map NL ls ++ [NO kd lo]))) = mkModel g (place 0 (map NL ls ++ [NO kd (set_target lo t)])).
Proof.
  unfold retarget. cbn [mgraph mnodes]. f_equal. rewrite !place_app, map_app. f_equal.
  generalize 0. induction ls as [|l ls IH]; intros i; cbn; [reflexivity|]. now rewrite IH.
Qed.
End Targets.

(** A target of the wrong size: the empty one is reported; a shorter one is read past its end; of a longer one the
    first entries count, the rest is stored and ignored. *)
Theorem c70_target_actual : forall T (NT : NumOps T) (TT : TransOps T) (LT : LimOps T) draw (m : model (node T)) ls kd lo n k x t,
  network m ls kd lo n k -> length x = n -> 0 < k -> ls_in lo = k ->
  (t = [] -> m_step (node_ops draw) m x t = Throw) /\
  (0 < length t < k -> m_step (node_ops draw) m x t = UB) /\
  (k <= length t -> m_step (node_ops draw) m x t = (m' <- m_step (node_ops draw) m x (firstn k t) ;; Ok (retarget t m'))).
Proof.
  intros T NT TT LT draw m ls kd lo n k x t W Hx Hk Hin.
  destruct (chain_forward_shape ls n k x (nw_shape _ _ _ _ _ _ W) Hx) as (ls1 & y & EF & Ly & _ & _).
  rewrite !(c36_step _ _ _ _ draw m _ kd lo n k x _ W), EF. cbn [bind]. split; [|split].
  - intros ->. destruct kd as [|tol]; reflexivity.
  - intros Ht. pose proof (loss_forward_short kd lo t y ltac:(intros ->; cbn in Ht; lia) ltac:(lia)) as E.
    destruct (loss_forward kd (set_target lo t) y) as (lo1, rr). cbn [snd] in E. subst rr. reflexivity.
  - intros Ht. assert (Hne : t <> []) by (intros ->; cbn in Ht; lia).
    rewrite (loss_forward_firstn kd lo t y k Hk Ly ltac:(lia) Hne).
    pose proof (loss_forward_keeps kd (set_target lo (firstn k t)) y) as (K1 & K2).
    destruct (loss_forward kd (set_target lo (firstn k t)) y) as (lo1, rr). cbn [fst snd set_target ls_target ls_grad] in *.
    destruct rr as [[]| |]; try reflexivity. cbn [bind].
    rewrite (loss_backward_firstn kd lo1 t y k); [|rewrite K2; exact (nw_grad _ _ _ _ _ _ W)|exact K1].
    destruct (loss_backward kd lo1 y) as [g| |]; try reflexivity. cbn [bind].
    destruct (chain_backward ls1 x g) as [(ls2, gx)| |]; try reflexivity. cbn [bind]. now rewrite retarget_placed.
Qed.
Print Assumptions c70_target_actual.

(** *** Nothing reports a wrong size *)
#[local] Existing Instance exTrans.
#[local] Existing Instance exLim.
Theorem c70_reported_refuted : exists (m : model (node Z)) ls kd lo n k x1 x2 t m1 y,
  network m ls kd lo n k /\ length x1 <> n /\ length x2 <> n /\ length t <> k /\
  m_predict (node_ops (fun _ => 0%Z)) m x1 = Ok (m1, y) /\
  m_predict (node_ops (fun _ => 0%Z)) m x2 = UB /\
  m_step (node_ops (fun _ => 0%Z)) m [1; 2]%Z t = UB /\ length [1; 2]%Z = n.
Proof.
  destruct ex_network as (m & _ & _ & _ & W).
  destruct (c70_predict_actual Z _ _ _ (fun _ => 0%Z) m _ _ _ _ 2 3 [5]%Z W eq_refl ltac:(cbn; lia)) as (_ & A).
  destruct (A ltac:(cbn; lia)) as (_ & m1 & _ & y & E & _).
  destruct (c70_predict_actual Z _ _ _ (fun _ => 0%Z) m _ _ _ _ 2 3 [1; 2; 3]%Z W eq_refl ltac:(cbn; lia)) as (B & _).
  destruct (c70_target_actual Z _ _ _ (fun _ => 0%Z) m _ _ _ 2 3 [1; 2]%Z [4]%Z W eq_refl ltac:(lia) eq_refl) as (_ & C & _).
  exists m, ex_layers, (MSE 1%Z), (loss_new 3 1), 2, 3, [5]%Z, [1; 2; 3]%Z, [4]%Z, m1, y.
  split; [exact W|]. split; [cbn; lia|]. split; [cbn; lia|]. split; [cbn; lia|]. split; [exact E|].
  split; [apply B; cbn; lia|]. split; [apply C; cbn; lia|reflexivity].
Qed.
Print Assumptions c70_reported_refuted.

(** The hypotheses can be met: a dense layer with two inputs and three outputs and a rectifier; the prediction for one
    number uses the weights 1, 2, 3 (the first ones) instead of a column. *)
Example c70_hypotheses_met : exists m : model (node Z), network m ex_layers (MSE 1%Z) (loss_new 3 1) 2 3 /\
  (exists l r, ex_layers = l :: r /\ knd l = KDense /\ 0 < length (out l)) /\
  exists m1, m_predict (node_ops (fun _ => 0%Z)) m [10]%Z = Ok (m1, [11; 20; 10]%Z).
Proof.
  destruct ex_network as (m & E & _ & N & W). exists m. split; [exact W|]. split; [do 2 eexists; split; [reflexivity|split; [reflexivity|cbn; lia]]|].
  assert (EF : chain_forward ex_layers [10]%Z = Ok (
    [mkLayer KDense 2 [1; 2; 3; 4; 5; 6]%Z [1; 0; -20]%Z [0; 0; 0; 0; 0; 0]%Z [0; 0; 0]%Z [11; 20; 10]%Z [0; 0]%Z;
     mkLayer (KAct Relu) 3 [] [] [] [] [11; 20; 10]%Z [0; 0; 0]%Z], [11; 20; 10]%Z)) by (vm_compute; reflexivity).
  destruct (predict_network (fun _ => 0%Z) true (length ex_layers) m ex_layers [NO (MSE 1%Z) (loss_new 3 1)] [10]%Z
    _ _ (nw_graph _ _ _ _ _ _ W) (nw_some _ _ _ _ _ _ W) (network_length _ _ _ _ _ _ W) (nw_nodes _ _ _ _ _ _ W) eq_refl EF) as (m1 & P & _).
  exists m1. exact P.
Qed.
