(** C41: prediction and evaluation of data sets. *)
From Verif Require Import Base Num RSum DatasetModel DatasetSpec DatasetProofs MathModel LayerModel LossModel LossSpec LossProofs OptModel GraphModel ModelModel NodeModel ChainProofs ModelProofs PropGraph PropModel CopyModel PropCopy FnnModel PropDataset PropLoss PropPar.
From Coq Require Import Reals Lra.
Local Open Scope nat_scope.

Section Predict.
Context {T : Type} `{NumOps T} `{TransOps T} `{LimOps T}.

(** A sequential model with layers [ls] from [n] to [k] values, with or without a loss
    ([post]). *)
Record stack (m : model (node T)) (ls : list (layer T)) (post : list (node T)) (n k : nat) : Prop := {
  sk_graph : exists lossy, is_chain lossy (length ls) (mgraph m);
  sk_some : 1 <= length ls;
  sk_length : length (mnodes m) = nodes (mgraph m);
  sk_nodes : map fst (mnodes m) = map NL ls ++ post;
  sk_shape : nshape ls n k
}.
Lemma network_stack m ls kd lo n k : network m ls kd lo n k -> stack m ls [NO kd lo] n k.
Proof.
  intros W. constructor.
  - exists true. apply W.
  - apply W.
  - apply (network_length _ _ _ _ _ _ W).
  - apply W.
  - apply W.
Qed.

Lemma nshape_last (ls : list (layer T)) : forall n k, nshape ls n k -> 1 <= length ls ->
  exists l, nth_error ls (length ls - 1) = Some l /\ length (out l) = k.
Proof.
  induction ls as [|l ls IH]; intros n k HS L; [cbn in L; lia|]. destruct HS as (j & HL & HS).
  destruct ls as [|l2 ls].
  - cbn in HS. subst j. exists l. split; [reflexivity|]. apply HL.
  - destruct (IH j k HS) as (l' & E & Ll); [cbn; lia|]. exists l'. split; [|exact Ll].
    cbn [length] in *. replace (S (S (length ls)) - 1) with (S (S (length ls) - 1)) by lia. exact E.
Qed.
Lemma stack_output_size m ls post n k : stack m ls post n k -> m_output_size m = k.
Proof.
  intros [(lossy & HC) H2 H3 H4 H5]. unfold m_output_size. rewrite (ic_out _ _ _ HC).
  destruct (nshape_last ls n k H5 H2) as (l & E & L).
  assert (E' : nth_error (map fst (mnodes m)) (length ls - 1) = Some (NL l)).
  { rewrite H4, nth_error_app1 by (rewrite map_length; lia). now rewrite nth_error_map, E. }
  rewrite nth_error_map in E'. destruct (nth_error (mnodes m) (length ls - 1)) as [(s, p)|]; [|discriminate].
  cbn in E'. injection E' as ->. exact L.
Qed.

(** The value of a prediction: depends on the parameters only. *)
Lemma stack_predict draw m ls post n k x : stack m ls post n k -> length x = n ->
  exists y, length y = k /\
  forall m2 ls2 post2, stack m2 ls2 post2 n k -> Forall2 same_params ls ls2 ->
  exists m2' ls2', m_predict (node_ops draw) m2 x = Ok (m2', y) /\ stack m2' ls2' post2 n k /\ Forall2 same_params ls ls2' /\
    shared_of m2' = shared_of m2.
Proof.
  intros W Hx. destruct (chain_forward_val ls n k x (sk_shape _ _ _ _ _ W) Hx) as (y & Ly & F).
  exists y. split; [exact Ly|]. intros m2 ls2 post2 W2 P2.
  destruct (F ls2 P2 (sk_shape _ _ _ _ _ W2)) as (ls3 & E3 & P3 & S3).
  destruct (sk_graph _ _ _ _ _ W2) as (lossy & HC).
  destruct (predict_network draw lossy (length ls2) m2 ls2 post2 x ls3 y HC (sk_some _ _ _ _ _ W2) (sk_length _ _ _ _ _ W2)
    (sk_nodes _ _ _ _ _ W2) eq_refl E3) as (m3 & EP & G3 & N3).
  pose proof (Forall2_len _ _ _ P3) as LL.
  exists m3, ls3. split; [exact EP|]. split; [|split].
  - constructor; rewrite ?LL, ?G3; auto.
    + exists lossy. exact HC.
    + apply W2.
    + rewrite <- (sk_length _ _ _ _ _ W2). apply (f_equal (@length _)) in N3.
      pose proof (sk_nodes _ _ _ _ _ W2) as N2. apply (f_equal (@length _)) in N2.
      rewrite app_length, !map_length in *. lia.
  - eapply all_same_trans; eauto.
  - pose proof (predict_keys draw m2 x m3 y EP) as (K & _). now apply keys_shared.
Qed.

Lemma copy_row (y ret : list T) off : off + length y <= length ret ->
  for_ (length y) (fun j ret => v <- rd y j ;; wr ret (off + j) v) ret
  = Ok (firstn off ret ++ y ++ skipn (off + length y) ret).
Proof.
  intros L.
  destruct (for_scatter n0 (fun j => off + j) (fun j _ => nth j y n0) (length y)
     (fun j ret => v <- rd y j ;; wr ret (off + j) v) ret) as (r & E & Lr & I1 & I2).
  - intros. lia.
  - intros. lia.
  - intros i d Hi Hd. rewrite (rd_nth y i n0) by exact Hi. cbn [bind]. rewrite wr_ok by lia. reflexivity.
  - rewrite E. f_equal. apply (list_ext_nth n0).
    + rewrite !app_length, firstn_length, skipn_length. lia.
    + intros i Hi. rewrite Lr in Hi.
      destruct (Nat.lt_ge_cases i off) as [H2|H2].
      * rewrite I2 by (intros j Hj; lia). rewrite app_nth1 by (rewrite firstn_length; lia).
        rewrite <- (firstn_skipn off ret) at 1. rewrite app_nth1 by (rewrite firstn_length; lia). reflexivity.
      * rewrite app_nth2 by (rewrite firstn_length; lia). rewrite firstn_length, Nat.min_l by lia.
        destruct (Nat.lt_ge_cases i (off + length y)) as [H3|H3].
        -- rewrite app_nth1 by lia. replace i with (off + (i - off)) at 1 by lia. rewrite I1 by lia. reflexivity.
        -- rewrite app_nth2 by lia. rewrite nth_skipn_add. rewrite I2 by (intros j Hj; lia). f_equal. lia.
Qed.

Definition predict_row (draw : nat -> T) (d : dataset T) (k i : nat) (st : model (node T) * list T) : res (model (node T) * list T) :=
  let '(m, ret) := st in
  x <- ds_entry d i ;;
  '(m, y) <- m_predict (node_ops draw) m x ;;
  ret <- for_ (length y) (fun j ret => v <- rd y j ;; wr ret (i * k + j) v) ret ;;
  Ok (m, ret).
Lemma predict_rows (draw : nat -> T) m ls post n k (xs : list (list T)) (d : dataset T) : stack m ls post n k ->
  Forall (fun x => length x = n) xs -> length xs = ds_size d -> (forall i, i < ds_size d -> ds_entry d i = Ok (nth i xs [])) ->
  exists (m' : model (node T)) (ls' : list (layer T)) (ys : list (list T)), length ys = length xs /\ Forall (fun y => length y = k) ys /\
    for_ (ds_size d) (predict_row draw d k) (m, repeat n0 (ds_size d * k)) = Ok (m', concat ys) /\
    stack m' ls' post n k /\ Forall2 same_params ls ls' /\ shared_of m' = shared_of m /\
    forall i, i < ds_size d -> exists mi, m_predict (node_ops draw) m (nth i xs []) = Ok (mi, nth i ys []).
Proof.
  intros W Hxs Lxs Hd.
  destruct (for_inv (fun i st => exists ls' ys, length ys = i /\ Forall (fun y => length y = k) ys /\
      snd st = concat ys ++ repeat n0 ((ds_size d - i) * k) /\
      stack (fst st) ls' post n k /\ Forall2 same_params ls ls' /\ shared_of (fst st) = shared_of m /\
      forall j, j < i -> exists mi, m_predict (node_ops draw) m (nth j xs []) = Ok (mi, nth j ys []))
    (ds_size d) (predict_row draw d k) (m, repeat n0 (ds_size d * k))) as ((m', ret) & E & ls' & ys & A1 & A2 & A3 & A4 & A5 & A6 & A7).
  - exists ls, []. cbn [length fst snd concat app]. rewrite Nat.sub_0_r. repeat split; auto; try apply W.
    + apply all_same_refl.
    + intros; lia.
  - intros i (m1, ret) Hi (l1 & ys & A1 & A2 & A3 & A4 & A5 & A6 & A7). cbn [fst snd] in *.
    unfold predict_row. rewrite Hd by exact Hi. cbn [bind].
    assert (Lx : length (nth i xs []) = n).
    { eapply Forall_forall in Hxs; [exact Hxs|]. apply nth_In. lia. }
    destruct (stack_predict draw m ls post n k _ W Lx) as (y & Ly & F).
    destruct (F m ls post W (all_same_refl ls)) as (mi & _ & E0 & _).
    destruct (F m1 l1 post A4 A5) as (m2 & l2 & E2 & W2 & P2 & S2).
    rewrite E2. cbn [bind].
    assert (LC : length (concat ys) = i * k).
    { clear - A1 A2. revert i A1. induction A2 as [|y ys Hy A2 IH]; intros i <-; [reflexivity|].
      cbn [concat length]. rewrite app_length, Hy, (IH (length ys)) by reflexivity. lia. }
    rewrite copy_row.
    + eexists. split; [reflexivity|]. exists l2, (ys ++ [y]). cbn [fst snd].
      split; [rewrite app_length; cbn; lia|]. split; [apply Forall_app; auto|]. split.
      { rewrite A3, concat_app. cbn [concat]. rewrite app_nil_r, <- app_assoc.
        rewrite firstn_app, firstn_all2 by lia. rewrite LC, Nat.sub_diag. cbn [firstn]. rewrite app_nil_r.
        f_equal. f_equal. rewrite skipn_app. rewrite skipn_all2 by lia. cbn [app]. rewrite LC.
        replace (i * k + length y - i * k) with k by lia.
        replace ((ds_size d - i) * k) with (k + (ds_size d - S i) * k) by nia.
        rewrite repeat_app, skipn_app, repeat_length, Nat.sub_diag. rewrite skipn_all2 by (rewrite repeat_length; lia). reflexivity. }
      split; [exact W2|]. split; [exact P2|]. split; [congruence|].
      intros j Hj. destruct (Nat.eq_dec j i) as [->|].
      * exists mi. rewrite app_nth2, A1, Nat.sub_diag by lia. exact E0.
      * rewrite app_nth1 by lia. apply A7. lia.
    + rewrite A3, app_length, LC, repeat_length, Ly. nia.
  - cbn [fst snd] in *. rewrite Nat.sub_diag in A3. cbn [Nat.mul repeat] in A3. rewrite app_nil_r in A3. subst ret.
    exists m', ls', ys. split; [lia|]. auto 10.
Qed.

Lemma block_concat (ys : list (list T)) k : Forall (fun y => length y = k) ys -> forall i, i < length ys ->
  block k (concat ys) i = nth i ys [].
Proof.
  unfold block. intros F. induction F as [|y ys Hy F IH]; intros i Hi; [cbn in Hi; lia|].
  destruct i as [|i]; cbn [concat nth Nat.mul].
  - cbn [skipn]. rewrite firstn_app, Hy, Nat.sub_diag. cbn [firstn]. rewrite app_nil_r. apply firstn_all2. lia.
  - rewrite skipn_app. rewrite skipn_all2 by lia. cbn [app]. replace (k + i * k - length y) with (i * k) by lia.
    apply IH. cbn in Hi. lia.
Qed.

(** *** C41 *)
(** Row i of the result is what the model, in the state before the call, predicts for row i;
    the parameters stay. *)
Theorem c41_predict : forall draw m ls post n k (d : dataset T),
  stack m ls post n k -> 0 < k -> wf d -> (0 < ds_size d -> fsize d = n) ->
  exists m' ls' r, fnn_predict draw m d = Ok (m', r) /\ wf r /\ ds_size r = ds_size d /\
    (forall i, i < ds_size d -> exists x y mi, ds_entry d i = Ok x /\
       m_predict (node_ops draw) m x = Ok (mi, y) /\ ds_entry r i = Ok y /\ length y = k) /\
    shared_of m' = shared_of m /\ stack m' ls' post n k /\ Forall2 same_params ls ls'.
Proof.
  intros draw m ls post n k d W Hk Wd Hf.
  assert (Hent : forall i, i < ds_size d -> ds_entry d i = Ok (block (fsize d) (data d) i) /\ length (block (fsize d) (data d) i) = n).
  { intros i Hi. specialize (Hf ltac:(lia)). unfold ds_size in Hi. pose proof (wf_data d Wd) as L. unfold ds_entry, range_copy.
    destruct (Nat.leb_spec (famount d) i); [lia|].
    assert (B : i * fsize d + fsize d <= length (data d)) by nia.
    replace ((i * fsize d <=? i * fsize d + fsize d) && (i * fsize d + fsize d <=? length (data d))) with true
      by (symmetry; apply andb_true_iff; split; apply Nat.leb_le; lia).
    cbn [require bind]. unfold block. replace (i * fsize d + fsize d - i * fsize d) with (fsize d) by lia.
    split; [reflexivity|]. rewrite firstn_length, skipn_length. lia. }
  destruct (predict_rows draw m ls post n k (tab (ds_size d) (block (fsize d) (data d))) d W)
    as (m' & ls' & ys & A1 & A2 & A3 & A4 & A5 & A6 & A7).
  - apply Forall_forall. intros x Hx. apply In_nth with (d := []) in Hx. destruct Hx as (i & Hi & <-).
    rewrite tab_length in Hi. rewrite nth_tab by exact Hi. now apply Hent.
  - apply tab_length.
  - intros i Hi. rewrite nth_tab by exact Hi. now apply Hent.
  - rewrite tab_length in A1.
    exists m', ls', (ds_vec n0 (concat ys) k 1 []). unfold fnn_predict. rewrite (stack_output_size _ _ _ _ _ W).
    unfold predict_row in A3. rewrite A3. cbn [bind]. split; [reflexivity|]. split; [apply ds_vec_wf; constructor|].
    assert (LC : length (concat ys) = ds_size d * 1 * k).
    { rewrite <- A1, Nat.mul_1_r. clear - A2. induction A2 as [|y ys Hy A2 IH]; [reflexivity|]. cbn [concat length]. rewrite app_length, IH. lia. }
    assert (HR : ds_size (ds_vec n0 (concat ys) k 1 []) = ds_size d /\
      forall i, i < ds_size d -> ds_entry (ds_vec n0 (concat ys) k 1 []) i = Ok (nth i ys [])).
    { destruct (Nat.eq_dec (ds_size d) 0) as [Z|Z].
      - rewrite Z in *. destruct ys; [|discriminate]. cbn [concat].
        destruct (ds_vec_nil n0 k 1 []) as (_ & B & _). split; [exact B|intros; lia].
      - destruct (ds_vec_exact n0 (concat ys) k 1 [] (ds_size d) Hk ltac:(lia) ltac:(lia) LC) as (B1 & B2 & _ & _ & B5 & _).
        split; [unfold ds_size at 1; lia|]. intros i Hi.
        unfold ds_entry, range_copy. rewrite B1, B2, B5.
        destruct (Nat.leb_spec (ds_size d * 1) i); [lia|].
        assert (B : i * k + k <= length (concat ys)) by nia.
        replace ((i * k <=? i * k + k) && (i * k + k <=? length (concat ys))) with true
          by (symmetry; apply andb_true_iff; split; apply Nat.leb_le; lia).
        cbn [require bind]. replace (i * k + k - i * k) with k by lia.
        fold (block k (concat ys) i). now rewrite block_concat by (auto; lia). }
    destruct HR as (HR1 & HR2). split; [exact HR1|]. split; [|auto].
    intros i Hi. destruct (A7 i Hi) as (mi & Emi). rewrite nth_tab in Emi by exact Hi.
    exists (block (fsize d) (data d) i), (nth i ys []), mi. split; [now apply Hent|]. split; [exact Emi|].
    split; [now apply HR2|]. eapply Forall_forall in A2; [exact A2|]. apply nth_In. lia.
Qed.

(** Row independence, as a statement about two runs: equal input rows give equal result rows,
    whatever the other rows and whatever was computed before with the same parameters. *)
Theorem c41_rows_independent : forall draw m1 m2 ls1 ls2 post1 post2 n k (d1 d2 : dataset T) m1' m2' r1 r2 i j,
  stack m1 ls1 post1 n k -> stack m2 ls2 post2 n k -> Forall2 same_params ls1 ls2 -> 0 < k ->
  wf d1 -> wf d2 -> fsize d1 = n -> fsize d2 = n ->
  fnn_predict draw m1 d1 = Ok (m1', r1) -> fnn_predict draw m2 d2 = Ok (m2', r2) ->
  i < ds_size d1 -> j < ds_size d2 -> ds_entry d1 i = ds_entry d2 j -> ds_entry r1 i = ds_entry r2 j.
Proof.
  intros draw m1 m2 ls1 ls2 post1 post2 n k d1 d2 m1' m2' r1 r2 i j W1 W2 P Hk Wd1 Wd2 F1 F2 E1 E2 Hi Hj E.
  destruct (c41_predict draw m1 ls1 post1 n k d1 W1 Hk Wd1 (fun _ => F1)) as (a1 & a2 & a3 & B1 & _ & _ & B2 & _).
  destruct (c41_predict draw m2 ls2 post2 n k d2 W2 Hk Wd2 (fun _ => F2)) as (c1 & c2 & c3 & C1 & _ & _ & C2 & _).
  rewrite E1 in B1. injection B1 as <- <-. rewrite E2 in C1. injection C1 as <- <-.
  destruct (B2 i Hi) as (x & y & mi & X1 & X2 & X3 & _). destruct (C2 j Hj) as (x' & y' & mj & Y1 & Y2 & Y3 & _).
  rewrite X1, Y1 in E. injection E as <-. rewrite X3, Y3. f_equal.
  assert (Lx : length x = n).
  { unfold ds_size in Hi. pose proof (wf_data d1 Wd1) as L. unfold ds_entry, range_copy in X1.
    destruct (Nat.leb_spec (famount d1) i); [lia|].
    assert (B : i * fsize d1 + fsize d1 <= length (data d1)) by nia.
    destruct (_ && _); [|discriminate]. cbn [require bind] in X1. injection X1 as <-.
    rewrite firstn_length, skipn_length. lia. }
  destruct (stack_predict draw m1 ls1 post1 n k x W1 Lx) as (y0 & _ & F).
  destruct (F m1 ls1 post1 W1 (all_same_refl ls1)) as (? & ? & Z1 & _).
  destruct (F m2 ls2 post2 W2 P) as (? & ? & Z2 & _). congruence.
Qed.
End Predict.
Print Assumptions c41_predict.
Print Assumptions c41_rows_independent.

(** *** Evaluation, over the reals *)
Lemma count_of_app P (a b : list (list R * list R)) x y : count_of P a x -> count_of P b y -> count_of P (a ++ b) (x + y).
Proof. intros A B. induction A; cbn [app plus]; auto; now constructor. Qed.
Lemma total_app v (a b : list (list R * list R)) : total v (a ++ b) = (total v a + total v b)%R.
Proof. unfold total. induction a as [|p a IH]; cbn [app fold_right]; [lra|]. rewrite IH. lra. Qed.

Lemma evaluate_loop kd n fwd valid v hit (d r : dataset R) N (ts ys : nat -> list R) : 0 < n ->
  fwd_ok n fwd valid v hit -> (forall l x, loss_forward kd l x = fwd l x) ->
  (forall i, i < N -> ds_label n0 d i = Ok (ts i) /\ length (ts i) = n /\ valid (ts i) /\
                      ds_entry r i = Ok (ys i) /\ length (ys i) = n) ->
  exists l, for_ N (fun i l =>
      t <- ds_label n0 d i ;;
      y <- ds_entry r i ;;
      let '(l', e) := loss_forward kd (set_target l t) y in
      _ <- e ;; Ok l') (loss_new n 1) = Ok l /\
    stats_are v hit l (tab N (fun i => (ts i, ys i))).
Proof.
  intros Hn HF HE HR.
  destruct (for_inv (fun i l => ls_in l = n /\ ls_cum l = total v (tab i (fun i => (ts i, ys i))) /\
      count_of hit (tab i (fun i => (ts i, ys i))) (ls_cor l) /\ ls_cor l + ls_inc l = i)
    N (fun i l =>
      t <- ds_label n0 d i ;;
      y <- ds_entry r i ;;
      let '(l', e) := loss_forward kd (set_target l t) y in
      _ <- e ;; Ok l') (loss_new n 1)) as (l & E & A1 & A2 & A3 & A4).
  - repeat split; auto. constructor.
  - intros i l Hi (A1 & A2 & A3 & A4). destruct (HR i Hi) as (B1 & B2 & B3 & B4 & B5).
    rewrite B1. cbn [bind]. rewrite B4. cbn [bind]. rewrite HE.
    destruct (HF (set_target l (ts i)) (ys i)) as (F1 & _); auto. cbn [set_target ls_target] in F1.
    destruct (F1 B3) as (b & Hb & E). rewrite E. cbn [bind]. eexists. split; [reflexivity|].
    cbn [count LossModel.add_loss set_target ls_in ls_cum ls_cor ls_inc].
    replace (tab (S i) (fun i0 => (ts i0, ys i0))) with (tab i (fun i0 => (ts i0, ys i0)) ++ [(ts i, ys i)])
      by (unfold tab; rewrite seq_S, map_app; reflexivity).
    split; [exact A1|]. split; [|split].
    + rewrite total_app, A2. unfold total at 3. cbn [fold_right fst snd nadd NumR]. lra.
    + destruct b.
      * rewrite <- Nat.add_1_r. apply count_of_app; [exact A3|]. apply co_yes; [|constructor]. now apply Hb.
      * rewrite <- (Nat.add_0_r (ls_cor l)). apply count_of_app; [exact A3|]. apply co_no; [|constructor].
        intros HH. apply Hb in HH. discriminate.
    + destruct b; lia.
  - exists l. split; [exact E|]. apply stats_final; auto. now rewrite tab_length.
Qed.

Lemma evaluate_stats kd fwd valid v hit draw m ls post n k (d : dataset R) :
  fwd_ok k fwd valid v hit -> (forall l x, loss_forward kd l x = fwd l x) ->
  stack m ls post n k -> 0 < k -> 0 < n -> wf d -> length (input_i d) = n -> length (labels_i d) = k ->
  (forall i t, i < ds_size d -> ds_label n0 d i = Ok t -> valid t) ->
  exists m' l h, fnn_evaluate draw kd m d = Ok (m', l) /\ length h = ds_size d /\
    (forall i, i < ds_size d -> exists x t y mi, ds_input n0 d i = Ok x /\ ds_label n0 d i = Ok t /\
       m_predict (node_ops draw) m x = Ok (mi, y) /\ nth i h ([], []) = (t, y)) /\
    stats_are v hit l h /\ shared_of m' = shared_of m.
Proof.
  intros HF HE W Hk Hn Wd Hin Hlab HV.
  destruct (columns_ok n0 d (input_i d) Wd) as (di & E1 & W1 & _ & _ & R1).
  { apply Forall_forall. intros c Hc. apply (wf_inputs d Wd) in Hc. tauto. }
  destruct R1 as (R1 & R2); [intros E; rewrite E in Hin; cbn in Hin; lia|].
  assert (Sdi : ds_size di = ds_size d).
  { apply (f_equal (@length _)) in R1. unfold rows in R1. rewrite !tab_length in R1. exact R1. }
  destruct (c41_predict draw m ls post n k di W Hk W1) as (m' & ls' & r & EP & Wr & Sr & HR & HS & _).
  { intros Hs. rewrite Sdi in Hs. destruct (R2 Hs) as (-> & _). exact Hin. }
  set (get := fun f i => match (f : nat -> res (list R)) i with Ok y => y | _ => [] end).
  assert (HI : forall i, i < ds_size d -> exists x y mi, ds_input n0 d i = Ok x /\
     m_predict (node_ops draw) m x = Ok (mi, y) /\ ds_entry r i = Ok y /\ length y = k).
  { intros i Hi. destruct (HR i) as (x & y & mi & X1 & X2 & X3 & X4); [lia|]. exists x, y, mi. split; [|auto].
    destruct (c07_column_datasets R n0 d Wd) as (di' & dl & Y1 & _ & _ & _ & Y2 & _).
    unfold ds_inputs in Y1. rewrite E1 in Y1. injection Y1 as <-.
    destruct Y2 as (_ & Y2); [intros E; rewrite E in Hin; cbn in Hin; lia|]. now rewrite <- Y2. }
  assert (HL : forall i, i < ds_size d -> exists t, ds_label n0 d i = Ok t /\ length t = k).
  { intros i Hi. rewrite label_ok by exact Wd. unfold ds_size in Hi. destruct (Nat.ltb_spec i (famount d)); [|lia].
    eexists. split; [reflexivity|]. unfold DatasetProofs.view. now rewrite map_length. }
  destruct (evaluate_loop kd k fwd valid v hit d r (ds_size r) (get (ds_label n0 d)) (get (ds_entry r)) Hk HF HE) as (l & E & ST).
  { intros i Hi. rewrite Sr, Sdi in Hi. destruct (HI i Hi) as (x & y & mi & X1 & X2 & X3 & X4).
    destruct (HL i Hi) as (t & T1 & T2). unfold get. rewrite X3, T1. repeat split; auto. eapply HV; eauto. }
  exists m', l. eexists. unfold fnn_evaluate, ds_inputs. rewrite E1. cbn [bind]. rewrite EP. cbn [bind].
  rewrite (stack_output_size _ _ _ _ _ W). rewrite E. cbn [bind]. split; [reflexivity|].
  split; [|split; [|split; [exact ST|exact HS]]].
  - rewrite tab_length. congruence.
  - intros i Hi. destruct (HI i Hi) as (x & y & mi & X1 & X2 & X3 & X4). destruct (HL i Hi) as (t & T1 & T2).
    exists x, t, y, mi. repeat split; auto. rewrite nth_tab by lia. unfold get. now rewrite T1, X3.
Qed.

(** evaluate<MSE>, evaluate<CCE>: the figures of the loss layer are those of the pairs
    (label row, prediction for the input row). *)
(** The figures returned for the pairs [h] of targets and predictions: average loss, accuracy,
    accuracy in per cent, error rate, error rate in per cent. *)
Definition figures_are (v : list R -> list R -> R) (hit : list R -> list R -> Prop) (r : list R) (h : list (list R * list R)) : Prop :=
  (h <> [] -> exists good, count_of hit h good /\
    let total_rows := INR (length h) in
    r = [total v h / total_rows; INR good / total_rows; 100 * INR good / total_rows;
         (total_rows - INR good) / total_rows; 100 * (total_rows - INR good) / total_rows])%R.
Theorem c41_evaluation_figures : forall v hit (l : lossl R) h, stats_are v hit l h -> figures_are v hit (evaluation l) h.
Proof.
  intros v hit l h (E1 & E2 & E3 & E4) Hh. exists (ls_cor l). split; [exact E2|]. destruct (E4 Hh) as (A & B & _).
  cbv zeta. unfold evaluation. rewrite A, B. cbn [nmul nsub n1 nofZ NumR].
  assert (Hp : (INR (length h) <> 0)%R) by (apply not_0_INR; destruct h; [congruence|discriminate]).
  repeat (apply f_equal2; [|]); try reflexivity; now field.
Qed.
Print Assumptions c41_evaluation_figures.

Theorem c41_evaluate_mean_squared : forall draw tol m ls post n k (d : dataset R),
  stack m ls post n k -> 0 < k -> 0 < n -> wf d -> length (input_i d) = n -> length (labels_i d) = k ->
  exists m' l h, fnn_evaluate draw (MSE tol) m d = Ok (m', l) /\ length h = ds_size d /\
    (forall i, i < ds_size d -> exists x t y mi, ds_input n0 d i = Ok x /\ ds_label n0 d i = Ok t /\
       m_predict (node_ops draw) m x = Ok (mi, y) /\ nth i h ([], []) = (t, y)) /\
    stats_are mse_value (mse_hit tol) l h /\ shared_of m' = shared_of m.
Proof.
  intros draw tol m ls post n k d W Hk Hn Wd Hin Hlab.
  apply (evaluate_stats (MSE tol) (mse_forward tol) mse_valid) with (ls := ls) (post := post) (n := n) (k := k); auto.
  - now apply mse_ok.
  - intros i t Hi E. rewrite label_ok in E by exact Wd. unfold ds_size in Hi. destruct (Nat.ltb_spec i (famount d)); [|lia].
    injection E as <-. unfold mse_valid, DatasetProofs.view. intros E. apply map_eq_nil in E. rewrite E in Hlab. cbn in Hlab. lia.
Qed.
Theorem c41_evaluate_cross_entropy : forall draw m ls post n k (d : dataset R),
  stack m ls post n k -> 0 < k -> 0 < n -> wf d -> length (input_i d) = n -> length (labels_i d) = k ->
  (forall i t, i < ds_size d -> ds_label n0 d i = Ok t -> ce_valid t) ->
  exists m' l h, fnn_evaluate draw CCE m d = Ok (m', l) /\ length h = ds_size d /\
    (forall i, i < ds_size d -> exists x t y mi, ds_input n0 d i = Ok x /\ ds_label n0 d i = Ok t /\
       m_predict (node_ops draw) m x = Ok (mi, y) /\ nth i h ([], []) = (t, y)) /\
    stats_are (ce_value (/ 2 ^ 52)) ce_hit l h /\ shared_of m' = shared_of m.
Proof.
  intros draw m ls post n k d W Hk Hn Wd Hin Hlab HV.
  apply (evaluate_stats CCE cce_forward ce_valid) with (ls := ls) (post := post) (n := n) (k := k); auto.
  now apply cce_ok.
Qed.
Print Assumptions c41_evaluate_mean_squared.
Print Assumptions c41_evaluate_cross_entropy.

(** The hypotheses hold for the networks of the examples of C36 and C40. *)
Example c41_hypotheses_met : exists m : model (node Z),
  stack m ex_layers [NO (MSE 1%Z) (loss_new 3 1)] 2 3 /\
  let d := ds_vec 0%Z [1; 2; 3; 4; 5; 6]%Z 2 1 [] in wf d /\ fsize d = 2 /\ ds_size d = 3.
Proof.
  destruct ex_network as (m & _ & _ & _ & W). exists m. split; [now apply network_stack|].
  split; [apply ds_vec_wf; constructor|]. split; reflexivity.
Qed.
Example c41_evaluate_hypotheses_met : exists m : model (node R),
  stack m exr_layers [NO (MSE 1%R) (loss_new 3 1)] 2 3 /\
  let d := ds_vec 0%R [1; 2; 6; 10; 0; 2; 1; 5; 4; 1]%R 5 1 [2; 3; 4] in
  wf d /\ length (input_i d) = 2 /\ length (labels_i d) = 3 /\ ds_size d = 2 /\
  (forall i t, i < ds_size d -> ds_label n0 d i = Ok t -> ce_valid t).
Proof.
  destruct c40_hypotheses_met as (m & _ & HR & _). exists m. split; [apply network_stack, HR|].
  split; [apply ds_vec_wf; repeat constructor|]. split; [reflexivity|]. split; [reflexivity|]. split; [reflexivity|].
  intros i t Hi E. cbn in Hi. destruct i as [|[|i]]; [| |lia]; cbn in E; injection E as <-; exists 0; cbn; split; try lia; lra.
Qed.
