(** C80: training one dense layer with all rows in one batch approaches the least-squares fit. *)
From Coq Require Import Reals Lra.
From Verif Require Import Base Num RSum LeastSquares DatasetModel MathModel MathProofs LayerModel LossModel LossSpec PropLoss GradSpec GradProofs GradChain OptModel GraphModel GraphProofs
  ModelModel NodeModel ChainProofs ModelProofs PropModel TrainProofs FitModel PropFit PropStep PropDescent.
Local Open Scope R_scope.

(** *** What the statement says *)
(** The affine map with the matrix [w] (row by row) and the vector [b]. *)
Definition affine (n k : nat) (w b x : list R) : list R :=
  tab k (fun i => nth i b 0 + Rsum n (fun j => nth (i * n + j) w 0 * nth j x 0)).
(** Its squared error on the rows: for each row the mean over the outputs. *)
Definition misfit (n k : nat) (w b : list R) (rows : row_list) : R :=
  sum (map (fun xt => Rsum k (fun i => (nth i (affine n k w b (fst xt)) 0 - nth i (snd xt) 0) ^ 2) / INR k) rows).
(** Squared distance of two choices of parameters. *)
Definition sqdist (a b : list R) : R := Rsum (length a) (fun i => (nth i a 0 - nth i b 0) ^ 2).
(** Squared length of the rows, each with a 1 for the bias. *)
Definition extent (n : nat) (rows : row_list) : R := sum (map (fun xt => 1 + Rsum n (fun j => (nth j (fst xt) 0) ^ 2)) rows).
(** One dense layer, possibly followed by identities. *)
Definition regression (ls : list (layer R)) (l0 : layer R) : Prop :=
  exists rest, ls = l0 :: rest /\ knd l0 = KDense /\ Forall (fun l => knd l = KAct Linear) rest.

(** *** The value of such a network *)
Lemma linear_rest : forall rest (k k' : nat) x, Forall (fun l : layer R => knd l = KAct Linear) rest -> nshape rest k k' ->
  k' = k /\ net_value rest x = x.
Proof.
  induction rest as [|l rest IH]; intros k k' x F HS; [split; [symmetry; exact HS|reflexivity]|].
  inversion F as [|? ? Kl Fr]; subst. destruct HS as (j & (_ & _ & _ & S4) & HS). rewrite Kl in S4. destruct S4 as (-> & _).
  destruct (IH k k' x Fr HS) as (E & V). split; [exact E|]. unfold net_value in *. cbn [fold_left]. unfold layer_sem at 2. rewrite Kl. exact V.
Qed.
Lemma regression_value ls l0 n k x : regression ls l0 -> nshape ls n k -> length x = n ->
  net_value ls x = affine n k (wts l0) (bias l0) x /\ length (wts l0) = (k * n)%nat /\ length (bias l0) = k.
Proof.
  intros (rest & -> & K0 & F) HS Hx. destruct HS as (j & (_ & _ & S3 & S4) & HS). rewrite K0 in S4. destruct S4 as (S4 & _ & S5 & _).
  destruct (linear_rest rest j k (layer_sem l0 x) F HS) as (-> & V).
  split; [|auto]. unfold net_value in *. cbn [fold_left]. rewrite V. unfold layer_sem. rewrite K0, S3, Hx. reflexivity.
Qed.

(** *** The derivative of the cost *)
Lemma mse_shift t y y' k i g z : (i < k)%nat -> length y = k -> length y' = k -> (0 < k)%nat ->
  (forall i', (i' < k)%nat -> nth i' y' 0 = nth i' y 0 + (if Nat.eq_dec i' i then g * z else 0)) ->
  mse_value t y' = mse_value t y + 2 * (nth i y 0 - nth i t 0) * g / INR k * z + g * g / INR k * z * z.
Proof.
  intros Hi L L' Hk E. unfold mse_value. rewrite L, L'. pose proof (lt_0_INR k Hk) as P.
  assert (X : Rsum k (fun i' => (nth i' t 0 - nth i' y' 0) ^ 2) = Rsum k (fun i' => (nth i' t 0 - nth i' y 0) ^ 2) +
     (2 * (nth i y 0 - nth i t 0) * g * z + g * g * z * z)).
  { pose proof (Rsum_single k i (fun i' => if Nat.eq_dec i' i then 2 * (nth i y 0 - nth i t 0) * g * z + g * g * z * z else 0) Hi) as Q.
    cbv beta in Q. destruct (Nat.eq_dec i i) as [_|]; [|congruence]. rewrite <- Q; clear Q.
    2:{ intros i' _ Hn. destruct (Nat.eq_dec i' i); [contradiction|reflexivity]. }
    rewrite <- Rsum_plus. apply Rsum_ext. intros i' Hi'. rewrite E by exact Hi'. destruct (Nat.eq_dec i' i) as [->|]; ring. }
  rewrite X. field. lra.
Qed.

Lemma quad_lim a b c : derivable_pt_lim (fun z => a + b * z + c * z * z) 0 b.
Proof.
  intros eps He. assert (P : 0 < eps / (Rabs c + 1)) by (apply Rdiv_lt_0_compat; [exact He|pose proof (Rabs_pos c); lra]).
  exists (mkposreal _ P). cbn [pos]. intros z Hz Hb.
  replace ((a + b * (0 + z) + c * (0 + z) * (0 + z) - (a + b * 0 + c * 0 * 0)) / z - b) with (c * z) by (field; exact Hz).
  rewrite Rabs_mult. pose proof (Rabs_pos c) as Q. pose proof (Rabs_pos z) as Q'.
  apply (Rmult_lt_compat_l (Rabs c + 1)) in Hb; [|lra]. replace ((Rabs c + 1) * (eps / (Rabs c + 1))) with eps in Hb by (field; lra). nra.
Qed.

(** The affine map after one weight or bias has moved. *)
Lemma affine_weight n k w b x i j z i' : (i < k)%nat -> (j < n)%nat -> (i' < k)%nat -> length w = (k * n)%nat ->
  nth i' (affine n k (line w (i * n + j) z) b x) 0 = nth i' (affine n k w b x) 0 + (if Nat.eq_dec i' i then nth j x 0 * z else 0).
Proof.
  intros Hi Hj Hi' L. unfold affine. rewrite !nth_tab by exact Hi'.
  assert (P : (i * n + j < length w)%nat) by (rewrite L; nia).
  rewrite Rplus_assoc. f_equal.
  assert (Q : (if Nat.eq_dec i' i then nth j x 0 * z else 0) = Rsum n (fun j' => if Nat.eq_dec i' i then if Nat.eq_dec j' j then nth j x 0 * z else 0 else 0)).
  { destruct (Nat.eq_dec i' i) as [->|].
    - rewrite (Rsum_single n j); [now destruct (Nat.eq_dec j j)|exact Hj|]. intros j' _ Hn. now destruct (Nat.eq_dec j' j).
    - symmetry. now apply Rsum_0. }
  rewrite Q, <- Rsum_plus. apply Rsum_ext. intros j' Hj'. unfold line.
  destruct (Nat.eq_dec i' i) as [->|N]; [destruct (Nat.eq_dec j' j) as [->|N]|].
  - rewrite nth_upd_eq by exact P. ring.
  - rewrite nth_upd_neq by lia. ring.
  - rewrite nth_upd_neq; [ring|]. intros E. apply N.
    assert (i' * n + j' = i * n + j -> i' = i)%nat. { intros E1. destruct (lt_eq_lt_dec i' i) as [[|]|]; [nia|assumption|nia]. }
    apply H. lia.
Qed.
Lemma affine_bias n k w b x i z i' : (i < k)%nat -> (i' < k)%nat -> length b = k ->
  nth i' (affine n k w (line b i z) x) 0 = nth i' (affine n k w b x) 0 + (if Nat.eq_dec i' i then 1 * z else 0).
Proof.
  intros Hi Hi' L. unfold affine. rewrite !nth_tab by exact Hi'. unfold line.
  destruct (Nat.eq_dec i' i) as [->|N]; [rewrite nth_upd_eq by lia|rewrite nth_upd_neq by lia]; ring.
Qed.

Lemma regression_upd ls l0 l : regression ls l0 -> knd l = KDense -> regression (upd ls 0 l) l.
Proof. intros (rest & -> & _ & F) K. exists rest. cbn. auto. Qed.
Lemma regression_head ls l0 : regression ls l0 -> nth_error ls 0 = Some l0.
Proof. intros (rest & -> & _). reflexivity. Qed.

(** The partial derivatives are the ones of least squares. *)
Lemma wpartial_is draw tol m ls l0 lo n k x t i j d : network m ls (MSE tol) lo n k -> regression ls l0 -> length x = n ->
  (i < k)%nat -> (j < n)%nat -> wpartial draw (MSE tol) m 0 (i * n + j) (x, t) d ->
  d = 2 * (nth i (affine n k (wts l0) (bias l0) x) 0 - nth i t 0) * nth j x 0 / INR k.
Proof.
  intros W G Hx Hi Hj (l & s & C & E & Hp & HC & DC). pose proof (node_of _ _ _ _ _ _ _ _ _ W E) as El.
  pose proof (regression_head _ _ G) as E0. rewrite E0 in El. injection El as <-. cbn [fst snd] in HC.
  assert (K : knd l0 = KDense) by (destruct G as (? & _ & K & _); exact K).
  destruct (regression_value ls l0 n k x G (nw_shape _ _ _ _ _ _ W) Hx) as (V & Lw & Lb).
  apply (uniqueness_limite C 0); [exact DC|].
  eapply derivable_pt_lim_ext; [|apply (quad_lim (mse_value t (affine n k (wts l0) (bias l0) x)) _ (nth j x 0 * nth j x 0 / INR k))].
  intros z. cbv beta. pose proof (put_network _ _ _ _ _ _ _ _ _ W E0 (with_weight_sizes l0 (i * n + j) z)) as W'.
  pose proof (regression_upd ls l0 (with_weight l0 (i * n + j) z) G K) as G'.
  destruct (regression_value _ _ n k x G' (nw_shape _ _ _ _ _ _ W') Hx) as (V' & _).
  rewrite (cost_unique _ _ _ _ _ _ _ (HC z) (cost_net draw _ _ _ _ _ _ x t W' Hx)). cbn [loss_value]. rewrite V'. cbn [with_weight wts bias].
  symmetry. apply mse_shift; [exact Hi|apply tab_length|apply tab_length|lia|].
  intros i' Hi'. now apply affine_weight.
Qed.
Lemma bpartial_is draw tol m ls l0 lo n k x t i d : network m ls (MSE tol) lo n k -> regression ls l0 -> length x = n ->
  (i < k)%nat -> bpartial draw (MSE tol) m 0 i (x, t) d ->
  d = 2 * (nth i (affine n k (wts l0) (bias l0) x) 0 - nth i t 0) * 1 / INR k.
Proof.
  intros W G Hx Hi (l & s & C & E & Hp & HC & DC). pose proof (node_of _ _ _ _ _ _ _ _ _ W E) as El.
  pose proof (regression_head _ _ G) as E0. rewrite E0 in El. injection El as <-. cbn [fst snd] in HC.
  assert (K : knd l0 = KDense) by (destruct G as (? & _ & K & _); exact K).
  destruct (regression_value ls l0 n k x G (nw_shape _ _ _ _ _ _ W) Hx) as (V & Lw & Lb).
  apply (uniqueness_limite C 0); [exact DC|].
  eapply derivable_pt_lim_ext; [|apply (quad_lim (mse_value t (affine n k (wts l0) (bias l0) x)) _ (1 * 1 / INR k))].
  intros z. cbv beta. pose proof (put_network _ _ _ _ _ _ _ _ _ W E0 (with_bias_sizes l0 i z)) as W'.
  pose proof (regression_upd ls l0 (with_bias l0 i z) G K) as G'.
  destruct (regression_value _ _ n k x G' (nw_shape _ _ _ _ _ _ W') Hx) as (V' & _).
  rewrite (cost_unique _ _ _ _ _ _ _ (HC z) (cost_net draw _ _ _ _ _ _ x t W' Hx)). cbn [loss_value]. rewrite V'. cbn [with_bias wts bias].
  symmetry. apply mse_shift; [exact Hi|apply tab_length|apply tab_length|lia|].
  intros i' Hi'. now apply affine_bias.
Qed.

(** *** Parameters and rows as functions *)
Definition par (n : nat) (w b : list R) (i j : nat) : R := if (j <? n)%nat then nth (i * n + j) w 0 else nth i b 0.
Definition feat (n : nat) (xt : list R * list R) (j : nat) : R := if (j <? n)%nat then nth j (fst xt) 0 else 1.
Definition goal (i : nat) (xt : list R * list R) : R := nth i (snd xt) 0.

Lemma dot_affine n k w b xt i : (i < k)%nat -> dot (S n) (feat n xt) (par n w b i) = nth i (affine n k w b (fst xt)) 0.
Proof.
  intros Hi. unfold affine. rewrite nth_tab by exact Hi. unfold dot. cbn [Rsum]. unfold feat, par. rewrite Nat.ltb_irrefl.
  rewrite Rmult_1_l, Rplus_comm. f_equal. apply Rsum_ext. intros j Hj. apply Nat.ltb_lt in Hj. rewrite Hj. ring.
Qed.
Lemma misfit_obj n k w b rows c : (0 < k)%nat ->
  INR k * c * misfit n k w b rows = Rsum k (fun i => obj (S n) rows (feat n) (goal i) c (par n w b i)).
Proof.
  intros Hk. pose proof (lt_0_INR k Hk) as P. unfold misfit, obj. rewrite Rsum_scal_l.
  transitivity (c * (INR k * sum (map (fun xt => Rsum k (fun i => (nth i (affine n k w b (fst xt)) 0 - nth i (snd xt) 0) ^ 2) / INR k) rows))); [ring|].
  f_equal. unfold Rdiv. rewrite sum_scale. rewrite sum_Rsum.
  replace (INR k * (Rsum k (fun q => sum (map (fun xt => (nth q (affine n k w b (fst xt)) 0 - nth q (snd xt) 0) ^ 2) rows)) * / INR k))
    with (Rsum k (fun q => sum (map (fun xt => (nth q (affine n k w b (fst xt)) 0 - nth q (snd xt) 0) ^ 2) rows))) by (field; lra).
  apply Rsum_ext. intros i Hi. unfold lsum, sum. f_equal. apply map_ext. intros xt. rewrite (dot_affine n k) by exact Hi. reflexivity.
Qed.
Lemma extent_lips n rows c : lips (S n) rows (feat n) c = 2 * c * extent n rows.
Proof.
  unfold lips, extent. f_equal. unfold lsum, sum. f_equal. apply map_ext. intros xt. unfold dot. cbn [Rsum]. unfold feat. rewrite Nat.ltb_irrefl.
  rewrite Rplus_comm. f_equal; [ring|]. apply Rsum_ext. intros j Hj. apply Nat.ltb_lt in Hj. rewrite Hj. ring.
Qed.
Lemma sqdist_par n k w b w' b' : length w = (k * n)%nat -> length b = k ->
  sqdist w w' + sqdist b b' = Rsum k (fun i => dot (S n) (fun j => par n w b i j - par n w' b' i j) (fun j => par n w b i j - par n w' b' i j)).
Proof.
  intros Lw Lb. unfold sqdist. rewrite Lw, Lb, Rsum_mul, <- Rsum_plus. apply Rsum_ext. intros i Hi. unfold dot. cbn [Rsum].
  assert (E : forall u v, par n u v i n = nth i v 0) by (intros; unfold par; now rewrite Nat.ltb_irrefl).
  rewrite !E. f_equal; [|ring]. apply Rsum_ext. intros j Hj. unfold par. apply Nat.ltb_lt in Hj. rewrite Hj. ring.
Qed.

(** *** One batch with all rows *)
Definition sized (n k : nat) (xt : list R * list R) : Prop := length (fst xt) = n /\ length (snd xt) = k.
Lemma regression_kinds ls l0 ls' : regression ls l0 -> map knd ls' = map knd ls -> exists l0', regression ls' l0'.
Proof.
  intros (rest & -> & K & F) E. destruct ls' as [|l0' rest']; [discriminate|]. cbn [map] in E. injection E as E1 E2.
  exists l0', rest'. split; [reflexivity|]. split; [congruence|]. clear - F E2. revert rest' E2.
  induction F as [|l rest Kl _ IH]; intros [|l' rest'] E2; try discriminate; constructor; cbn [map] in E2; injection E2; [congruence|auto].
Qed.
Lemma regression_smooth ls l0 : regression ls l0 -> Forall smooth_kind ls.
Proof.
  intros (rest & -> & K & F). constructor; [unfold smooth_kind; now rewrite K|]. eapply Forall_impl; [|exact F].
  intros l Kl. unfold smooth_kind. now rewrite Kl.
Qed.
Lemma sum_is (g : list R * list R -> R) (P : list R * list R -> R -> Prop) rows ds :
  Forall2 P rows ds -> (forall xt d, In xt rows -> P xt d -> d = g xt) -> sum ds = sum (map g rows).
Proof.
  intros F E. revert E. induction F as [|xt d rows ds Hd _ IH]; intros E; [reflexivity|]. unfold sum in *. cbn [map fold_right].
  rewrite (E xt d (or_introl eq_refl) Hd), IH; [reflexivity|]. intros xt' d' Hx. apply E. now right.
Qed.

Lemma batch_step draw tol eta m ls l0 lo n k rows : network m ls (MSE tol) lo n k -> regression ls l0 -> (0 < k)%nat -> ls_in lo = k ->
  Forall cleared ls -> Forall (sized n k) rows ->
  exists m' ls' l0' lo', batch draw eta rows m = Ok m' /\ network m' ls' (MSE tol) lo' n k /\ regression ls' l0' /\ ls_in lo' = k /\
    ls_inv lo' = ls_inv lo /\ Forall cleared ls' /\
    forall i j, (i < k)%nat -> (j < S n)%nat -> par n (wts l0') (bias l0') i j =
      par n (wts l0) (bias l0) i j - eta * grd (S n) rows (feat n) (goal i) (ls_inv lo) (par n (wts l0) (bias l0) i) j.
Proof.
  intros W G Hk Hin HC HR.
  assert (HO : Forall (row_ok draw (MSE tol) m ls n k) rows).
  { eapply Forall_impl; [|exact HR]. intros (x, t) (Q1 & Q2). cbn [fst snd] in *. split; [exact Q1|]. split; [exact Q2|].
    split; [|intros; exact I]. exact (smooth_everywhere ls n k x (nw_shape _ _ _ _ _ _ W) Q1 (regression_smooth _ _ G)). }
  destruct (c55_batch_is_gradient_descent draw eta m ls (MSE tol) lo n k rows W Hk Hin HC HO)
    as (m' & ls' & lo' & cs & E' & W' & I' & V' & KN & C' & _ & _ & GD).
  destruct (regression_kinds ls l0 ls' G KN) as (l0' & G').
  exists m', ls', l0', lo'. do 6 (split; [assumption|]).
  destruct (node_at m ls _ lo n k 0 l0 W (regression_head _ _ G)) as (s & EN).
  destruct (GD 0%nat l0 s EN) as (l1 & s1 & EN1 & _ & _ & _ & DD & _).
  pose proof (node_of _ _ _ _ _ _ _ _ _ W' EN1) as El. rewrite (regression_head _ _ G') in El. injection El as <-.
  assert (K0 : knd l0 = KDense) by (destruct G as (? & _ & K & _); exact K). destruct (DD K0) as (Dw & Db). clear DD GD.
  assert (LL : length (wts l0) = (k * n)%nat /\ length (bias l0) = k).
  { destruct (regression_value ls l0 n k (repeat 0 n) G (nw_shape _ _ _ _ _ _ W) (repeat_length _ _)) as (_ & A & B). auto. }
  destruct LL as (Lw & Lb). pose proof (lt_0_INR k Hk) as P.
  intros i j Hi Hj. unfold grd.
  assert (X : forall g : list R * list R -> R, (forall xt, In xt rows -> g xt = 2 * (nth i (affine n k (wts l0) (bias l0) (fst xt)) 0 - nth i (snd xt) 0) * feat n xt j / INR k) ->
     factor (MSE tol) k lo * sum (map g rows) = ls_inv lo * lsum rows (fun r => 2 * (dot (S n) (feat n r) (par n (wts l0) (bias l0) i) - goal i r) * feat n r j)).
  { intros g Eg. rewrite (map_ext_in _ _ _ Eg). unfold Rdiv. rewrite sum_scale. unfold factor, lsum, sum. rewrite <- Rmult_assoc, (Rmult_comm (INR k)).
    rewrite (map_ext (fun r => 2 * (dot (S n) (feat n r) (par n (wts l0) (bias l0) i) - goal i r) * feat n r j)
      (fun xt => 2 * (nth i (affine n k (wts l0) (bias l0) (fst xt)) 0 - nth i (snd xt) 0) * feat n xt j)).
    - field. lra.
    - intros xt. now rewrite (dot_affine n k) by exact Hi. }
  unfold par at 1 2. destruct (Nat.ltb_spec j n) as [Hn|Hn].
  - destruct (Dw (i * n + j)%nat ltac:(rewrite Lw; nia)) as (ds & F & E). rewrite E. f_equal. f_equal.
    rewrite (sum_is _ _ _ _ F (fun xt d Hx Hd => wpartial_is draw tol m ls l0 lo n k (fst xt) (snd xt) i j d W G
      (proj1 (proj1 (Forall_forall _ _) HR _ Hx)) Hi Hn ltac:(destruct xt; exact Hd))).
    apply X. intros xt _. unfold feat. apply Nat.ltb_lt in Hn. now rewrite Hn.
  - destruct (Db i ltac:(lia)) as (ds & F & E). rewrite E. f_equal. f_equal.
    rewrite (sum_is _ _ _ _ F (fun xt d Hx Hd => bpartial_is draw tol m ls l0 lo n k (fst xt) (snd xt) i d W G
      (proj1 (proj1 (Forall_forall _ _) HR _ Hx)) Hi ltac:(destruct xt; exact Hd))).
    apply X. intros xt _. unfold feat. apply Nat.ltb_ge in Hn. now rewrite Hn.
Qed.

(** *** Many batches *)
Lemma regression_cost draw tol m ls l0 lo n k rows : network m ls (MSE tol) lo n k -> regression ls l0 -> Forall (sized n k) rows ->
  total_cost draw (MSE tol) m rows (misfit n k (wts l0) (bias l0) rows).
Proof.
  intros W G HR. eexists. split; [|reflexivity]. induction HR as [|(x, t) rows (Hx & Ht) _ IH]; cbn [map]; constructor; [|exact IH].
  cbn [fst snd] in *. destruct (regression_value ls l0 n k x G (nw_shape _ _ _ _ _ _ W) Hx) as (V & _).
  replace (Rsum k _ / INR k) with (loss_value (MSE tol) t (net_value ls x)); [exact (cost_net draw m ls _ lo n k x t W Hx)|].
  cbn [loss_value]. rewrite V. unfold mse_value, affine at 1 3. rewrite tab_length. f_equal. apply Rsum_ext. intros; ring.
Qed.

Lemma batch_progress draw tol eta m ls l0 lo n k rows : network m ls (MSE tol) lo n k -> regression ls l0 -> (0 < k)%nat -> ls_in lo = k ->
  0 <= ls_inv lo -> Forall cleared ls -> Forall (sized n k) rows -> 0 <= eta -> eta * (2 * ls_inv lo * extent n rows) <= 1 ->
  exists m' ls' l0' lo', batch draw eta rows m = Ok m' /\ network m' ls' (MSE tol) lo' n k /\ regression ls' l0' /\ ls_in lo' = k /\
    ls_inv lo' = ls_inv lo /\ Forall cleared ls' /\
    INR k * ls_inv lo * misfit n k (wts l0') (bias l0') rows <= INR k * ls_inv lo * misfit n k (wts l0) (bias l0) rows /\
    forall w b, 2 * eta * (INR k * ls_inv lo * misfit n k (wts l0') (bias l0') rows - INR k * ls_inv lo * misfit n k w b rows) <=
      (sqdist (wts l0) w + sqdist (bias l0) b) - (sqdist (wts l0') w + sqdist (bias l0') b).
Proof.
  intros W G Hk Hin Hc HC HR He HL.
  destruct (batch_step draw tol eta m ls l0 lo n k rows W G Hk Hin HC HR) as (m' & ls' & l0' & lo' & E' & W' & G' & I' & V' & C' & ST).
  exists m', ls', l0', lo'. do 6 (split; [assumption|]).
  rewrite <- extent_lips in HL. rewrite !(misfit_obj n k) by exact Hk. split.
  - apply Rsum_le. intros i Hi.
    pose proof (step_descends (S n) rows (feat n) (goal i) (ls_inv lo) Hc eta _ _ He HL (fun j Hj => ST i j Hi Hj)) as Q.
    pose proof (dot_self (S n) (grd (S n) rows (feat n) (goal i) (ls_inv lo) (par n (wts l0) (bias l0) i))) as Q'.
    assert (0 <= eta / 2 * dot (S n) (grd (S n) rows (feat n) (goal i) (ls_inv lo) (par n (wts l0) (bias l0) i)) (grd (S n) rows (feat n) (goal i) (ls_inv lo) (par n (wts l0) (bias l0) i)))
      by (apply Rmult_le_pos; lra). lra.
  - intros w b. rewrite (misfit_obj n k) by exact Hk.
    destruct (regression_value ls l0 n k (repeat 0 n) G (nw_shape _ _ _ _ _ _ W) (repeat_length _ _)) as (_ & Lw & Lb).
    destruct (regression_value ls' l0' n k (repeat 0 n) G' (nw_shape _ _ _ _ _ _ W') (repeat_length _ _)) as (_ & Lw' & Lb').
    rewrite (sqdist_par n k _ _ w b Lw Lb), (sqdist_par n k _ _ w b Lw' Lb'). rewrite <- !Rsum_minus, <- Rsum_scal_l. apply Rsum_le. intros i Hi.
    exact (step_closer (S n) rows (feat n) (goal i) (ls_inv lo) Hc eta _ _ _ He HL (fun j Hj => ST i j Hi Hj)).
Qed.

Lemma batches_progress draw tol eta n k rows : (0 < k)%nat -> Forall (sized n k) rows -> 0 <= eta -> forall N m ls l0 lo,
  network m ls (MSE tol) lo n k -> regression ls l0 -> ls_in lo = k -> 0 <= ls_inv lo -> Forall cleared ls ->
  eta * (2 * ls_inv lo * extent n rows) <= 1 ->
  exists m' ls' l0' lo', foldM (fun m b => batch draw eta (pick rows b) m) (concat (repeat [seq 0 (length rows)] N)) m = Ok m' /\
    network m' ls' (MSE tol) lo' n k /\ regression ls' l0' /\
    INR k * ls_inv lo * misfit n k (wts l0') (bias l0') rows <= INR k * ls_inv lo * misfit n k (wts l0) (bias l0) rows /\
    forall w b, 2 * eta * INR N * (INR k * ls_inv lo * misfit n k (wts l0') (bias l0') rows - INR k * ls_inv lo * misfit n k w b rows) <=
      (sqdist (wts l0) w + sqdist (bias l0) b) - (sqdist (wts l0') w + sqdist (bias l0') b).
Proof.
  intros Hk HR He. induction N as [|N IH]; intros m ls l0 lo W G Hin Hc HC HL.
  - exists m, ls, l0, lo. split; [reflexivity|]. split; [exact W|]. split; [exact G|]. split; [lra|]. intros w b. cbn [INR]. lra.
  - destruct (batch_progress draw tol eta m ls l0 lo n k rows W G Hk Hin Hc HC HR He HL) as (m1 & ls1 & l1 & lo1 & E1 & W1 & G1 & I1 & V1 & C1 & M1 & P1).
    rewrite <- V1 in Hc, HL. destruct (IH m1 ls1 l1 lo1 W1 G1 I1 Hc C1 HL) as (m2 & ls2 & l2 & lo2 & E2 & W2 & G2 & M2 & P2). rewrite V1 in M2, P2.
    exists m2, ls2, l2, lo2. split; [cbn [repeat concat app foldM]; rewrite pick_all, E1; exact E2|]. split; [exact W2|]. split; [exact G2|]. split; [lra|].
    intros w b. specialize (P1 w b). specialize (P2 w b). rewrite S_INR. pose proof (pos_INR N) as PN.
    assert (2 * eta * (INR k * ls_inv lo * misfit n k (wts l2) (bias l2) rows - INR k * ls_inv lo * misfit n k w b rows) <=
            2 * eta * (INR k * ls_inv lo * misfit n k (wts l1) (bias l1) rows - INR k * ls_inv lo * misfit n k w b rows)) by (apply Rmult_le_compat_l; lra).
    lra.
Qed.

(** *** C80 *)
(** Training with all rows in one batch, at a rate of at most the inverse of
    2 / batch * (squared length of the rows): the result is an affine map that fits the rows no
    worse than before, and after [epochs] rounds its excess over any affine map whatsoever is at
    most (squared distance from the start to that map) / (2 * rate * epochs * outputs / batch).
    It is also never further from a better-fitting map than the start was. *)
Theorem c80_least_squares : forall draw tol eta m ls l0 lo n k (d : dataset R) rows bs epochs fuel,
  network m ls (MSE tol) lo n k -> regression ls l0 -> (0 < k)%nat -> ls_in lo = k -> 0 < ls_inv lo -> Forall cleared ls ->
  rows_of d rows -> Forall (sized n k) rows -> (1 <= ds_size d <= bs)%nat -> (ds_size d <= fuel)%nat ->
  0 <= eta -> eta * (2 * ls_inv lo * extent n rows) <= 1 ->
  exists m' w b, fit_sequential draw eta d fuel epochs bs m = Some (Ok m') /\ length w = (k * n)%nat /\ length b = k /\
    (forall x, length x = n -> exists m'', m_predict (node_ops draw) m' x = Ok (m'', affine n k w b x)) /\
    total_cost draw (MSE tol) m' rows (misfit n k w b rows) /\
    misfit n k w b rows <= misfit n k (wts l0) (bias l0) rows /\
    forall w1 b1, 2 * eta * INR epochs * (INR k * ls_inv lo) * (misfit n k w b rows - misfit n k w1 b1 rows)
      + (sqdist w w1 + sqdist b b1) <= sqdist (wts l0) w1 + sqdist (bias l0) b1.
Proof.
  intros draw tol eta m ls l0 lo n k d rows bs epochs fuel W G Hk Hin Hc HC HRO HR (Hs & Hb) Hf He HL.
  destruct (batches_progress draw tol eta n k rows Hk HR He epochs m ls l0 lo W G Hin (Rlt_le _ _ Hc) HC HL) as (m' & ls' & l0' & lo' & E & W' & G' & M & P).
  exists m', (wts l0'), (bias l0').
  destruct (regression_value ls' l0' n k (repeat 0 n) G' (nw_shape _ _ _ _ _ _ W') (repeat_length _ _)) as (_ & Lw' & Lb').
  split.
  { destruct (c39_sequential (ds_size d) bs ltac:(lia)) as (bl & B & F). unfold fit_sequential. rewrite F by exact Hf.
    assert (EB : bl = [seq 0 (ds_size d)]).
    { apply (c39_batches_unique (ds_size d) bs); [exact B|]. split; [cbn; apply app_nil_r|]. split; [|constructor].
      constructor; [rewrite seq_length; lia|constructor]. }
    subst bl. rewrite repeat_flat. rewrite (exec_batches draw eta d rows HRO).
    - rewrite <- (proj1 HRO). now rewrite E.
    - clear - HRO. induction epochs as [|e IH]; cbn [repeat concat]; [constructor|]. apply Forall_app. split; [|exact IH].
      constructor; [|constructor]. apply Forall_forall. intros i Hi. apply in_seq in Hi. rewrite (proj1 HRO). lia. }
  split; [exact Lw'|]. split; [exact Lb'|]. split.
  { intros x Hx. destruct (predict_net draw m' ls' _ lo' n k x W' Hx) as (m'' & EP). exists m''. rewrite EP.
    now rewrite (proj1 (regression_value ls' l0' n k x G' (nw_shape _ _ _ _ _ _ W') Hx)). }
  split; [exact (regression_cost draw tol m' ls' l0' lo' n k rows W' G' HR)|].
  pose proof (Rmult_lt_0_compat _ _ (lt_0_INR k Hk) Hc) as PK. split; [nra|].
  intros w1 b1. specialize (P w1 b1). nra.
Qed.
Print Assumptions c80_least_squares.

(** *** The best fit *)
(** No affine map of this size has a smaller squared error. *)
Definition best_fit (n k : nat) (rows : row_list) (w b : list R) : Prop :=
  length w = (k * n)%nat /\ length b = k /\ forall w1 b1, misfit n k w b rows <= misfit n k w1 b1 rows.
(** Squared distance between what two affine maps answer on the rows, mean over the outputs. *)
Definition apart (n k : nat) (rows : row_list) (w b w1 b1 : list R) : R :=
  sum (map (fun xt => Rsum k (fun i => (nth i (affine n k w b (fst xt)) 0 - nth i (affine n k w1 b1 (fst xt)) 0) ^ 2) / INR k) rows).

(** Parameters from a function. *)
Definition flat (n k : nat) (q : nat -> nat -> R) : list R := tab (k * n) (fun p => q (p / n)%nat (p mod n)).
Lemma par_flat n k q i j : (i < k)%nat -> (j < S n)%nat -> par n (flat n k q) (tab k (fun i => q i n)) i j = q i j.
Proof.
  intros Hi Hj. unfold par. destruct (Nat.ltb_spec j n) as [Hn|Hn].
  - unfold flat. rewrite nth_tab by nia. rewrite Nat.div_add_l, Nat.div_small, Nat.add_0_r by lia. rewrite Nat.add_comm, Nat.mod_add, Nat.mod_small by lia. reflexivity.
  - rewrite nth_tab by exact Hi. f_equal. lia.
Qed.
Lemma misfit_flat n k rows q : (0 < k)%nat ->
  INR k * 1 * misfit n k (flat n k q) (tab k (fun i => q i n)) rows = Rsum k (fun i => obj (S n) rows (feat n) (goal i) 1 (q i)).
Proof.
  intros Hk. rewrite misfit_obj by exact Hk. apply Rsum_ext. intros i Hi. apply obj_ext. intros j Hj. now apply par_flat.
Qed.

Lemma best_fit_exists n k rows : (0 < k)%nat -> exists w b, best_fit n k rows w b.
Proof.
  intros Hk. pose proof (lt_0_INR k Hk) as P.
  assert (X : forall i, exists q, forall p, obj (S n) rows (feat n) (goal i) 1 q <= obj (S n) rows (feat n) (goal i) 1 p).
  { intros i. destruct (best_exists rows (S n) (feat n) (goal i)) as (q & Hq). exists q. intros p. unfold obj. specialize (Hq p). lra. }
  assert (Y : exists q : nat -> nat -> R, forall i, (i < k)%nat -> forall p, obj (S n) rows (feat n) (goal i) 1 (q i) <= obj (S n) rows (feat n) (goal i) 1 p).
  { clear Hk P. induction k as [|k (q & Hq)]; [exists (fun _ _ => 0); intros; lia|]. destruct (X k) as (qk & Hk).
    exists (fun i => if (i =? k)%nat then qk else q i). intros i Hi p. destruct (Nat.eqb_spec i k) as [->|]; [apply Hk|apply Hq; lia]. }
  destruct Y as (q & Hq). exists (flat n k q), (tab k (fun i => q i n)).
  split; [apply tab_length|]. split; [apply tab_length|]. intros w1 b1.
  apply (Rmult_le_reg_l (INR k * 1)); [lra|]. rewrite misfit_flat, misfit_obj by exact Hk. apply Rsum_le. intros i Hi. now apply Hq.
Qed.

Lemma Rsum_zero n f : (forall i, (i < n)%nat -> 0 <= f i) -> Rsum n f <= 0 -> forall i, (i < n)%nat -> f i = 0.
Proof.
  intros F Z i Hi. destruct (Rle_lt_or_eq_dec _ _ (F i Hi)) as [P|E]; [|auto].
  pose proof (Rsum_pos_one n f i F Hi P). lra.
Qed.
Lemma best_fit_gap n k rows w b w1 b1 : (0 < k)%nat -> best_fit n k rows w1 b1 ->
  misfit n k w b rows = misfit n k w1 b1 rows + apart n k rows w b w1 b1.
Proof.
  intros Hk (_ & _ & HB). pose proof (lt_0_INR k Hk) as P.
  set (g := fun i => grd (S n) rows (feat n) (goal i) 1 (par n w1 b1 i)). set (L := lips (S n) rows (feat n) 1).
  assert (HL : 0 <= L) by (apply lips_nonneg; lra).
  set (eta := / (L + 1)). assert (He : 0 < eta) by (apply Rinv_0_lt_compat; lra).
  assert (HeL : eta * L <= 1). { unfold eta. apply (Rmult_le_reg_l (L + 1)); [lra|]. rewrite <- Rmult_assoc, Rinv_r by lra. lra. }
  assert (Z : forall i j, (i < k)%nat -> (j < S n)%nat -> g i j = 0).
  { set (q := fun i j => par n w1 b1 i j - eta * g i j).
    assert (B : Rsum k (fun i => obj (S n) rows (feat n) (goal i) 1 (q i)) <=
      Rsum k (fun i => obj (S n) rows (feat n) (goal i) 1 (par n w1 b1 i)) - eta / 2 * Rsum k (fun i => dot (S n) (g i) (g i))).
    { rewrite <- Rsum_scal_l, <- Rsum_minus. apply Rsum_le. intros i Hi.
      apply (step_descends (S n) rows (feat n) (goal i) 1 ltac:(lra) eta _ (q i) ltac:(lra) HeL). intros j _. reflexivity. }
    specialize (HB (flat n k q) (tab k (fun i => q i n))). apply (Rmult_le_compat_l (INR k * 1)) in HB; [|lra].
    rewrite misfit_flat, misfit_obj in HB by exact Hk.
    assert (S0 : Rsum k (fun i => dot (S n) (g i) (g i)) <= 0) by nra.
    intros i j Hi Hj. pose proof (Rsum_zero k _ (fun i _ => dot_self (S n) (g i)) S0 i Hi) as Zi. cbv beta in Zi.
    pose proof (Rsum_zero (S n) (fun j => g i j * g i j) (fun j _ => Rle_0_sqr _) (Req_le _ _ Zi) j Hj) as Zj. cbv beta in Zj. nra. }
  assert (E : INR k * 1 * misfit n k w b rows = INR k * 1 * misfit n k w1 b1 rows + INR k * apart n k rows w b w1 b1).
  { rewrite !misfit_obj by exact Hk. unfold apart, Rdiv. rewrite sum_scale, sum_Rsum.
    replace (INR k * (Rsum k (fun q => sum (map (fun xt => (nth q (affine n k w b (fst xt)) 0 - nth q (affine n k w1 b1 (fst xt)) 0) ^ 2) rows)) * / INR k))
      with (Rsum k (fun q => sum (map (fun xt => (nth q (affine n k w b (fst xt)) 0 - nth q (affine n k w1 b1 (fst xt)) 0) ^ 2) rows))) by (field; lra).
    rewrite <- Rsum_plus. apply Rsum_ext. intros i Hi.
    rewrite (at_minimum (S n) rows (feat n) (goal i) 1 (par n w1 b1 i) (fun j Hj => Z i j Hi Hj) (par n w b i)). rewrite Rmult_1_l. f_equal.
    unfold lsum, sum. f_equal. apply map_ext. intros xt. now rewrite !(dot_affine n k) by exact Hi. }
  apply (Rmult_eq_reg_l (INR k)); lra.
Qed.

Lemma INR_above x : exists N, x < INR N.
Proof.
  destruct (archimed x) as (A & _). exists (Z.to_nat (up x)). rewrite INR_IZR_INZ.
  eapply Rlt_le_trans; [exact A|]. apply IZR_le. lia.
Qed.
(** Training approaches the best affine fit: there is a best one, and with enough epochs the
    squared error exceeds the best by less than any given amount, and the predictions on the
    training rows are that close to the ones of the best fit. *)
Theorem c80_converges : forall draw tol eta m ls l0 lo n k (d : dataset R) rows bs fuel,
  network m ls (MSE tol) lo n k -> regression ls l0 -> (0 < k)%nat -> ls_in lo = k -> 0 < ls_inv lo -> Forall cleared ls ->
  rows_of d rows -> Forall (sized n k) rows -> (1 <= ds_size d <= bs)%nat -> (ds_size d <= fuel)%nat ->
  0 < eta -> eta * (2 * ls_inv lo * extent n rows) <= 1 ->
  exists w1 b1, best_fit n k rows w1 b1 /\
  forall eps, 0 < eps -> exists N, forall epochs, (N <= epochs)%nat ->
    exists m' w b, fit_sequential draw eta d fuel epochs bs m = Some (Ok m') /\
      (forall x, length x = n -> exists m'', m_predict (node_ops draw) m' x = Ok (m'', affine n k w b x)) /\
      total_cost draw (MSE tol) m' rows (misfit n k w b rows) /\
      misfit n k w b rows < misfit n k w1 b1 rows + eps /\ apart n k rows w b w1 b1 < eps.
Proof.
  intros draw tol eta m ls l0 lo n k d rows bs fuel W G Hk Hin Hc HC HRO HR HB Hf He HL.
  destruct (best_fit_exists n k rows Hk) as (w1 & b1 & BF). exists w1, b1. split; [exact BF|]. intros eps Heps.
  pose proof (Rmult_lt_0_compat _ _ (lt_0_INR k Hk) Hc) as PK.
  pose proof (lt_0_INR k Hk) as P0.
  set (D0 := sqdist (wts l0) w1 + sqdist (bias l0) b1).
  assert (PD : 0 < 2 * eta * (INR k * ls_inv lo) * eps) by (repeat apply Rmult_lt_0_compat; lra).
  destruct (INR_above (D0 / (2 * eta * (INR k * ls_inv lo) * eps))) as (N & HN). exists N. intros epochs HE.
  destruct (c80_least_squares draw tol eta m ls l0 lo n k d rows bs epochs fuel W G Hk Hin Hc HC HRO HR HB Hf (Rlt_le _ _ He) HL)
    as (m' & w & b & E & Lw & Lb & P & T & _ & Q).
  exists m', w, b. split; [exact E|]. split; [exact P|]. split; [exact T|]. specialize (Q w1 b1). fold D0 in Q.
  rewrite (best_fit_gap n k rows w b w1 b1 Hk BF) in Q |- *.
  assert (0 <= sqdist w w1 + sqdist b b1) by (apply Rplus_le_le_0_compat; apply Rsum_nonneg; intros; apply pow2_ge_0).
  assert (X : apart n k rows w b w1 b1 < eps); [|split; [lra|exact X]].
  assert (HN' : D0 < INR epochs * (2 * eta * (INR k * ls_inv lo) * eps)).
  { apply (Rmult_lt_compat_r (2 * eta * (INR k * ls_inv lo) * eps)) in HN; [|exact PD].
    unfold Rdiv in HN. rewrite Rmult_assoc, Rinv_l, Rmult_1_r in HN by lra.
    eapply Rlt_le_trans; [exact HN|]. apply Rmult_le_compat_r; [lra|]. now apply le_INR. }
  assert (PE : 0 < INR epochs).
  { destruct (Rle_lt_or_eq_dec _ _ (pos_INR epochs)) as [|Z]; [assumption|]. rewrite <- Z in HN'.
    assert (0 <= D0) by (apply Rplus_le_le_0_compat; apply Rsum_nonneg; intros; apply pow2_ge_0). lra. }
  apply (Rmult_lt_reg_l (2 * eta * INR epochs * (INR k * ls_inv lo))); [repeat apply Rmult_lt_0_compat; lra|]. lra.
Qed.
Print Assumptions c80_converges.

(** *** The bound on the rate is needed *)
(** One weight, one bias, one row 1 -> 0, rate 1: every epoch triples the error. *)
Definition ex80_dense : layer R := mkLayer KDense 1 [1] [0] [0] [0] [0] [0].
Definition ex80_layers : list (layer R) := [ex80_dense; mkLayer (KAct Linear) 1 [] [] [] [] [0] [0]].
Definition ex80_lo : lossl R := loss_new 1 1.
Definition ex80_rows : row_list := [([1], [0])].
Definition ex80_data : dataset R := ds_vec 0 [1; 0] 2 1 [1%nat].
Lemma ex80_model : exists m : model (node R), network m ex80_layers (MSE 1) ex80_lo 1 1.
Proof.
  destruct (c36_built true 2 (le_n 2)) as (s & E & H1 & H2 & H3 & H4 & H5).
  exists (mkModel s (map (fun s => (s, SNull)) (map NL ex80_layers ++ [NO (MSE 1) ex80_lo]))).
  constructor; cbn [mgraph mnodes length ex80_layers].
  - exact (is_chain_built _ _ true 2 E (le_n 2) H1 H2 H3 H4 H5).
  - lia.
  - reflexivity.
  - cbn [nshape ex80_layers]. exists 1%nat. split; [|exists 1%nat; split; [|reflexivity]].
    + unfold lshape. cbn. auto 10.
    + unfold lshape. cbn. split; [auto|]. split; [auto|]. split; [auto|]. split; [auto|]. discriminate.
  - reflexivity.
Qed.
Lemma ex80_cleared : Forall cleared ex80_layers.
Proof. constructor; [|constructor; [|constructor]]; intros K; [|discriminate]. split; intros [|[|p]]; reflexivity. Qed.
Lemma ex80_regression : regression ex80_layers ex80_dense.
Proof. eexists. split; [reflexivity|]. split; [reflexivity|]. repeat constructor. Qed.
Lemma ex80_rows_of : rows_of ex80_data ex80_rows.
Proof. split; [reflexivity|]. intros i x t Hi. destruct i as [|i]; [|destruct i; discriminate]. injection Hi as <- <-. split; reflexivity. Qed.
Lemma ex80_misfit w b : misfit 1 1 w b ex80_rows = (par 1 w b 0 0 + par 1 w b 0 1) ^ 2.
Proof. unfold misfit, affine, ex80_rows, par, sum. cbn. field. Qed.

Lemma ex80_grows N : forall m ls l0 lo, network m ls (MSE 1) lo 1 1 -> regression ls l0 -> ls_in lo = 1%nat -> ls_inv lo = 1 -> Forall cleared ls ->
  exists m' ls' l0' lo', foldM (fun m b => batch (fun _ => 0) 1 (pick ex80_rows b) m) (concat (repeat [seq 0 1] N)) m = Ok m' /\
    network m' ls' (MSE 1) lo' 1 1 /\ regression ls' l0' /\
    misfit 1 1 (wts l0') (bias l0') ex80_rows = 9 ^ N * misfit 1 1 (wts l0) (bias l0) ex80_rows.
Proof.
  induction N as [|N IH]; intros m ls l0 lo W G Hin Hc HC.
  - exists m, ls, l0, lo. split; [reflexivity|]. split; [exact W|]. split; [exact G|]. cbn [pow]. ring.
  - destruct (batch_step (fun _ => 0) 1 1 m ls l0 lo 1 1 ex80_rows W G (le_n 1) Hin HC ltac:(repeat constructor))
      as (m1 & ls1 & l1 & lo1 & E1 & W1 & G1 & I1 & V1 & C1 & ST).
    destruct (IH m1 ls1 l1 lo1 W1 G1 I1 ltac:(congruence) C1) as (m2 & ls2 & l2 & lo2 & E2 & W2 & G2 & M2).
    exists m2, ls2, l2, lo2. split; [cbn [repeat concat app foldM]; change (pick ex80_rows (seq 0 1)) with ex80_rows; rewrite E1; exact E2|].
    split; [exact W2|]. split; [exact G2|]. rewrite M2. rewrite !ex80_misfit, !ST by lia. rewrite Hc.
    unfold grd, lsum, ex80_rows. cbn [map fold_right]. unfold dot, feat, goal. cbn [Rsum fst snd nth Nat.ltb Nat.leb pow].
    ring.
Qed.
Theorem c80_large_rate_refuted : exists draw tol eta m ls l0 lo n k (d : dataset R) rows bs fuel,
  network m ls (MSE tol) lo n k /\ regression ls l0 /\ (0 < k)%nat /\ ls_in lo = k /\ 0 < ls_inv lo /\ Forall cleared ls /\
  rows_of d rows /\ Forall (sized n k) rows /\ (1 <= ds_size d <= bs)%nat /\ (ds_size d <= fuel)%nat /\ 0 < eta /\
  (exists w b, misfit n k w b rows = 0) /\
  forall epochs, exists m', fit_sequential draw eta d fuel epochs bs m = Some (Ok m') /\ total_cost draw (MSE tol) m' rows (9 ^ epochs).
Proof.
  destruct ex80_model as (m & W).
  exists (fun _ => 0), 1, 1, m, ex80_layers, ex80_dense, ex80_lo, 1%nat, 1%nat, ex80_data, ex80_rows, 1%nat, 1%nat.
  split; [exact W|]. split; [exact ex80_regression|]. split; [lia|]. split; [reflexivity|]. split; [change (0 < 1 / 1); lra|].
  split; [exact ex80_cleared|]. split; [exact ex80_rows_of|]. split; [repeat constructor|]. split; [cbn; lia|]. split; [cbn; lia|]. split; [lra|].
  split; [exists [0], [0]; rewrite ex80_misfit; unfold par; cbn; ring|].
  intros epochs.
  destruct (ex80_grows epochs m ex80_layers ex80_dense ex80_lo W ex80_regression eq_refl) as (m' & ls' & l0' & lo' & E & W' & G' & M).
  { cbn. field. } { exact ex80_cleared. }
  exists m'. split.
  - destruct (c39_sequential 1 1 ltac:(lia)) as (bl & B & F). unfold fit_sequential. change (ds_size ex80_data) with 1%nat. rewrite F by lia.
    assert (EB : bl = [seq 0 1]).
    { apply (c39_batches_unique 1 1); [exact B|]. split; [reflexivity|]. split; [|constructor]. constructor; [cbn; lia|constructor]. }
    subst bl. rewrite repeat_flat. rewrite (exec_batches (fun _ => 0) 1 ex80_data ex80_rows ex80_rows_of).
    + now rewrite E.
    + clear. induction epochs as [|e IH]; cbn [repeat concat]; [constructor|]. apply Forall_app. split; [|exact IH]. repeat constructor.
  - replace (9 ^ epochs) with (misfit 1 1 (wts l0') (bias l0') ex80_rows); [apply (regression_cost _ _ _ _ _ _ _ _ _ W' G'); repeat constructor|].
    rewrite M, ex80_misfit. unfold par. cbn. ring.
Qed.
Print Assumptions c80_large_rate_refuted.

(** The same layer at rate 1/4: the hypotheses hold, and the start is not the best fit. *)
Example c80_hypotheses_met : exists m : model (node R), network m ex80_layers (MSE 1) ex80_lo 1 1 /\ regression ex80_layers ex80_dense /\
  ls_in ex80_lo = 1%nat /\ 0 < ls_inv ex80_lo /\ Forall cleared ex80_layers /\ rows_of ex80_data ex80_rows /\ Forall (sized 1 1) ex80_rows /\
  ds_size ex80_data = 1%nat /\ 1 / 4 * (2 * ls_inv ex80_lo * extent 1 ex80_rows) <= 1 /\
  misfit 1 1 (wts ex80_dense) (bias ex80_dense) ex80_rows = 1 /\ best_fit 1 1 ex80_rows [0] [0] /\ misfit 1 1 [0] [0] ex80_rows = 0.
Proof.
  destruct ex80_model as (m & W). exists m. split; [exact W|]. split; [exact ex80_regression|]. split; [reflexivity|].
  assert (E1 : ls_inv ex80_lo = 1) by (cbn; field).
  split; [lra|]. split; [exact ex80_cleared|]. split; [exact ex80_rows_of|]. split; [repeat constructor|]. split; [reflexivity|].
  split. { rewrite E1. unfold extent, ex80_rows, sum. cbn. lra. }
  split. { rewrite ex80_misfit. unfold par. cbn. ring. }
  assert (Z : misfit 1 1 [0] [0] ex80_rows = 0) by (rewrite ex80_misfit; unfold par; cbn; ring).
  split; [|exact Z]. split; [reflexivity|]. split; [reflexivity|]. intros w b. rewrite Z, ex80_misfit. apply pow2_ge_0.
Qed.
