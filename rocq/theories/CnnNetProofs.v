(** Lemmas for the high-level convolutional network (C74). *)
From Coq Require Import Reals Lra.
From Verif Require Import Base Num RSum DatasetModel DatasetSpec DatasetProofs PropDataset MathModel MathProofs ConvModel ConvSpec ConvProofs
  LayerModel LossModel LossSpec LossProofs PropLoss OptModel GraphModel GraphProofs ModelModel NodeModel BuilderModel ChainProofs ModelProofs StepProofs PropModel
  TrainProofs RecurrentModel CopyModel FnnModel FitModel PropFit PropStep PropFnn PropBuilder InitModel PropInit PropTraining DynModel
  CnnModel CnnSpec CnnProofs PropCnn PropCnnTrain CnnNetModel.
Local Open Scope nat_scope.

(** *** Predicting with a chain of any layers *)
Section Any.
Context {T S : Type} (op : nodeops T S).
Hypothesis Htf : forall s x, o_tforward op s x = o_forward op s x.

Lemma after_g ss : forall k s0 y0 rest ss' y, map fst rest = ss -> o_output op s0 = Ok y0 ->
  gforward op ss y0 = Ok (ss', y) ->
  exists rest', chain_after op false k s0 rest = Ok rest' /\ map fst rest' = ss' /\
    o_output op (last (map fst rest') s0) = Ok y.
Proof.
  induction ss as [|s ss IH]; intros k s0 y0 rest ss' y ER EO E; cbn [gforward] in E.
  - injection E as <- <-. destruct rest; [|discriminate]. exists []. auto.
  - destruct rest as [|(r, p) rest]; [discriminate|]. cbn [map fst] in ER. injection ER as -> ER.
    rewrite Htf in E. destruct (o_forward op s y0) as [s'| |] eqn:EF; try discriminate. cbn [bind] in E.
    destruct (o_output op s') as [z| |] eqn:EZ; try discriminate. cbn [bind] in E.
    destruct (gforward op ss z) as [(r', w)| |] eqn:EG; try discriminate. cbn [bind] in E. injection E as <- <-.
    destruct (IH (Datatypes.S k) s' z rest r' w ER EZ EG) as (rest' & EA & EM & EL).
    exists ((s', p) :: rest'). split; [|split].
    + cbn [chain_after]. rewrite EO. cbn [bind]. unfold feed. rewrite EF. cbn [bind]. rewrite EA. reflexivity.
    + cbn. now rewrite EM.
    + cbn [map fst]. rewrite <- EL. f_equal. clear. destruct (map fst rest') as [|a l]; [reflexivity|].
      cbn [last]. revert a. induction l as [|b l IH]; intros a; [reflexivity|]. apply IH.
Qed.

Lemma split_same {A} : forall (a b c d : list A), a ++ c = b ++ d -> length a = length b -> a = b /\ c = d.
Proof.
  induction a as [|h a IH]; intros [|h' b] c d E L; try discriminate; auto.
  cbn in E. injection E as -> E. destruct (IH b c d E) as (-> & ->); [now injection L|]. auto.
Qed.

Lemma predict_g lossy m ss post x ss' y : is_chain lossy (length ss) (mgraph m) -> 1 <= length ss ->
  length (mnodes m) = nodes (mgraph m) -> map fst (mnodes m) = ss ++ post -> gforward op ss x = Ok (ss', y) ->
  exists m', m_predict op m x = Ok (m', y) /\ mgraph m' = mgraph m /\ map fst (mnodes m') = ss' ++ post.
Proof.
  intros HC Hn HL EM EF.
  destruct (predict_chain op lossy (length ss) m x HC Hn HL) as (s & p & rest & po & EN & Lr & EP).
  rewrite EN in EM. destruct ss as [|s0 ss]; [cbn in Hn; lia|].
  cbn [map fst app] in EM. injection EM as E0 EM. subst s. rewrite map_app in EM.
  destruct (split_same _ _ _ _ EM) as (S1 & S2); [cbn [length] in Lr; rewrite map_length; lia|].
  cbn [gforward] in EF. rewrite Htf in EF.
  destruct (o_forward op s0 x) as [s'| |] eqn:EL; try discriminate. cbn [bind] in EF.
  destruct (o_output op s') as [z| |] eqn:EZ; try discriminate. cbn [bind] in EF.
  destruct (gforward op ss z) as [(r', w)| |] eqn:EG; try discriminate. cbn [bind] in EF. injection EF as <- <-.
  destruct (after_g ss 0 s' z rest r' w S1 EZ EG) as (rest' & EA & EM' & EO).
  rewrite EP. cbn [bind]. rewrite EA. cbn [bind]. rewrite EO. cbn [bind].
  eexists. split; [reflexivity|]. split; [reflexivity|]. cbn [mnodes map fst]. rewrite map_app, EM', S2. reflexivity.
Qed.
End Any.

(** *** Networks with or without a loss *)
Record cstack (m : model (cnode R)) (ss post : list (cnode R)) (n k : nat) : Prop := {
  cs_graph : exists lossy, is_chain lossy (length ss) (mgraph m);
  cs_some : 1 <= length ss;
  cs_length : length (mnodes m) = nodes (mgraph m);
  cs_nodes : map fst (mnodes m) = ss ++ post;
  cs_shape : cshape ss n k
}.
Lemma cnn_stack m ss kd lo n k : cnn m ss kd lo n k -> cstack m ss [CO kd lo] n k.
Proof.
  intros W. constructor.
  - exists true. apply W.
  - apply W.
  - apply (cnn_length _ _ _ _ _ _ W).
  - apply W.
  - apply W.
Qed.

Lemma cnode_out_size (s : cnode R) n k : cnode_shape s n k -> c_output_size s = k.
Proof. destruct s as [l|c|p|kd lo]; cbn; [intros HS; apply HS|intros HS; apply HS|intros HS; apply HS|tauto]. Qed.
Lemma cshape_last (ss : list (cnode R)) s : forall n k, cshape (ss ++ [s]) n k -> c_output_size s = k.
Proof.
  induction ss as [|a ss IH]; intros n k HS.
  - destruct HS as (j & A & B). cbn in B. subst j. eapply cnode_out_size; eauto.
  - destruct HS as (j & A & B). eauto.
Qed.
Lemma cstack_output_size m ss post n k : cstack m ss post n k -> cnn_output_size m = k.
Proof.
  intros [(lossy & HC) H2 H3 H4 H5]. unfold cnn_output_size. rewrite (ic_out _ _ _ HC).
  destruct (exists_last (l := ss)) as (pre & s & Es). { intros ->. cbn in H2. lia. }
  assert (E' : nth_error (map fst (mnodes m)) (length ss - 1) = Some s).
  { rewrite H4, nth_error_app1 by lia. rewrite Es, app_length. cbn [length]. rewrite nth_error_app2 by lia.
    replace (length pre + 1 - 1 - length pre) with 0 by lia. reflexivity. }
  rewrite nth_error_map in E'. destruct (nth_error (mnodes m) (length ss - 1)) as [(s1, p)|]; [|discriminate].
  cbn in E'. injection E' as ->. subst ss. eapply cshape_last; eauto.
Qed.

Lemma f2same {A B} (P : A -> B -> Prop) l l' : Forall2 P l l' -> length l' = length l.
Proof. induction 1; cbn; auto. Qed.
Lemma cstack_predict m ss post n k x : cstack m ss post n k -> length x = n ->
  exists m' ss', m_predict cnn_ops m x = Ok (m', cnn_value ss x) /\ length (cnn_value ss x) = k /\
    cstack m' ss' post n k /\ Forall2 ckept ss ss'.
Proof.
  intros [(lossy & HC) H2 H3 H4 H5] Hx. destruct (cnn_forward ss n k x H5 Hx) as (ss' & E & L & K & S').
  destruct (predict_g cnn_ops (fun s x => eq_refl) lossy m ss post x ss' _ HC H2 H3 H4 E) as (m' & EP & G & N).
  exists m', ss'. split; [exact EP|]. split; [exact L|]. split; [|exact K]. pose proof (f2same _ _ _ K) as LL.
  constructor; rewrite ?LL, ?G; eauto.
  apply (f_equal (@length _)) in N. apply (f_equal (@length _)) in H4. rewrite !map_length, !app_length in N, H4.
  rewrite <- H3. lia.
Qed.

(** *** Data sets *)
Definition cpredict_row (d : dataset R) (k i : nat) (st : model (cnode R) * list R) : res (model (cnode R) * list R) :=
  let '(m, ret) := st in
  x <- ds_entry d i ;;
  '(m, y) <- m_predict cnn_ops m x ;;
  ret <- for_ (length y) (fun j ret => v <- rd y j ;; wr ret (i * k + j) v) ret ;;
  Ok (m, ret).

Lemma cpredict_rows m ss post n k (xs : list (list R)) (d : dataset R) : cstack m ss post n k ->
  Forall (fun x => length x = n) xs -> length xs = ds_size d -> (forall i, i < ds_size d -> ds_entry d i = Ok (nth i xs [])) ->
  exists m' ss', for_ (ds_size d) (cpredict_row d k) (m, repeat n0 (ds_size d * k)) = Ok (m', concat (map (cnn_value ss) xs)) /\
    Forall (fun y => length y = k) (map (cnn_value ss) xs) /\ cstack m' ss' post n k /\ Forall2 ckept ss ss'.
Proof.
  intros W Hxs Lxs Hd.
  assert (LY : forall x, In x xs -> length (cnn_value ss x) = k).
  { intros x Hx. eapply Forall_forall in Hxs; [|exact Hx]. destruct (cstack_predict m ss post n k x W Hxs) as (_ & _ & _ & L & _). exact L. }
  assert (FY : Forall (fun y => length y = k) (map (cnn_value ss) xs)).
  { apply Forall_map. apply Forall_forall. exact LY. }
  assert (LC : forall i, i <= length xs -> length (concat (map (cnn_value ss) (firstn i xs))) = i * k).
  { intros i Hi. clear - LY Hi. revert i Hi. induction xs as [|x xs IH]; intros [|i] Hi; cbn [length] in Hi; try lia; [reflexivity..|].
    cbn [firstn map concat]. rewrite app_length, LY by now left. rewrite IH; [lia|intros z Hz; apply LY; now right|lia]. }
  destruct (for_inv (fun i st => exists ss', snd st = concat (map (cnn_value ss) (firstn i xs)) ++ repeat n0 ((ds_size d - i) * k) /\
      cstack (fst st) ss' post n k /\ Forall2 ckept ss ss')
    (ds_size d) (cpredict_row d k) (m, repeat n0 (ds_size d * k))) as ((m', ret) & E & ss' & A3 & A4 & A5).
  - exists ss. cbn [fst snd firstn map concat app]. rewrite Nat.sub_0_r. split; [reflexivity|]. split; [exact W|].
    exact (all_kept_refl _ _ _ (cs_shape _ _ _ _ _ W)).
  - intros i (m1, ret) Hi (s1 & A3 & A4 & A5). cbn [fst snd] in *.
    unfold cpredict_row. rewrite Hd by exact Hi. cbn [bind].
    assert (Lx : length (nth i xs []) = n).
    { eapply Forall_forall in Hxs; [exact Hxs|]. apply nth_In. lia. }
    destruct (cstack_predict m1 s1 post n k _ A4 Lx) as (m2 & s2 & E2 & L2 & W2 & K2).
    rewrite (cnn_value_alike ss s1 n k k _ (all_kept_alike _ _ A5) (cs_shape _ _ _ _ _ W) (cs_shape _ _ _ _ _ A4) Lx) in E2, L2.
    rewrite E2. cbn [bind]. set (y := cnn_value ss (nth i xs [])) in *.
    pose proof (LC i ltac:(lia)) as LCi.
    rewrite copy_row.
    + eexists. split; [reflexivity|]. exists s2. cbn [fst snd]. split.
      { assert (EF : firstn (S i) xs = firstn i xs ++ [nth i xs []]).
        { clear - Hi Lxs. rewrite <- Lxs in Hi. clear Lxs. revert i Hi. induction xs as [|x xs IH]; intros [|i] Hi; cbn [length] in Hi; try lia; [reflexivity|].
          cbn [firstn nth app]. f_equal. apply IH. lia. }
        rewrite EF, map_app, concat_app. cbn [map concat]. fold y. rewrite app_nil_r, <- app_assoc.
        rewrite A3, firstn_app, firstn_all2 by lia. rewrite LCi, Nat.sub_diag. cbn [firstn]. rewrite app_nil_r.
        f_equal. f_equal. rewrite skipn_app. rewrite skipn_all2 by lia. cbn [app]. rewrite LCi.
        replace (i * k + length y - i * k) with k by lia.
        replace ((ds_size d - i) * k) with (k + (ds_size d - S i) * k) by nia.
        rewrite repeat_app, skipn_app, repeat_length, Nat.sub_diag. rewrite skipn_all2 by (rewrite repeat_length; lia). reflexivity. }
      split; [exact W2|]. eapply all_kept_trans; eauto.
    + rewrite A3, app_length, LCi, repeat_length. fold y in L2. rewrite L2. nia.
  - cbn [fst snd] in *. rewrite Nat.sub_diag in A3. cbn [Nat.mul repeat] in A3. rewrite app_nil_r in A3.
    rewrite firstn_all2 in A3 by lia. subst ret. exists m', ss'. auto.
Qed.

Lemma entry_block (d : dataset R) n : wf d -> (0 < ds_size d -> fsize d = n) -> forall i, i < ds_size d ->
  ds_entry d i = Ok (block (fsize d) (data d) i) /\ length (block (fsize d) (data d) i) = n.
Proof.
  intros Wd Hf i Hi. specialize (Hf ltac:(lia)). unfold ds_size in Hi. pose proof (wf_data d Wd) as L. unfold ds_entry, range_copy.
  destruct (Nat.leb_spec (famount d) i); [lia|].
  assert (B : i * fsize d + fsize d <= length (data d)) by nia.
  replace ((i * fsize d <=? i * fsize d + fsize d) && (i * fsize d + fsize d <=? length (data d))) with true
    by (symmetry; apply andb_true_iff; split; apply Nat.leb_le; lia).
  cbn [require bind]. unfold block. replace (i * fsize d + fsize d - i * fsize d) with (fsize d) by lia.
  split; [reflexivity|]. rewrite firstn_length, skipn_length. lia.
Qed.

Lemma concat_len {A} k (ys : list (list A)) : Forall (fun y => length y = k) ys -> length (concat ys) = length ys * k.
Proof. induction 1 as [|y ys Hy A2 IH]; [reflexivity|]. cbn [concat length]. rewrite app_length, IH. lia. Qed.

(** Row i of the result is the value of the layers for row i. *)
Lemma cpredict_set m ss post n k (d : dataset R) : cstack m ss post n k -> 0 < k -> wf d -> (0 < ds_size d -> fsize d = n) ->
  exists m' ss' r, cnn_predict m d = Ok (m', r) /\ wf r /\ ds_size r = ds_size d /\
    (forall i, i < ds_size d -> exists x, ds_entry d i = Ok x /\ length x = n /\ ds_entry r i = Ok (cnn_value ss x) /\ length (cnn_value ss x) = k) /\
    cstack m' ss' post n k /\ Forall2 ckept ss ss'.
Proof.
  intros W Hk Wd Hf. pose proof (entry_block d n Wd Hf) as Hent.
  set (xs := tab (ds_size d) (block (fsize d) (data d))).
  destruct (cpredict_rows m ss post n k xs d W) as (m' & ss' & A3 & A2 & A4 & A5).
  - apply Forall_forall. intros x Hx. apply In_nth with (d := []) in Hx. destruct Hx as (i & Hi & <-).
    unfold xs in *. rewrite tab_length in Hi. rewrite nth_tab by exact Hi. now apply Hent.
  - apply tab_length.
  - intros i Hi. unfold xs. rewrite nth_tab by exact Hi. now apply Hent.
  - set (ys := map (cnn_value ss) xs) in *.
    assert (LY : length ys = ds_size d) by (unfold ys, xs; now rewrite map_length, tab_length).
    exists m', ss', (ds_vec n0 (concat ys) k 1 []). unfold cnn_predict. rewrite (cstack_output_size _ _ _ _ _ W).
    unfold cpredict_row in A3. rewrite A3. cbn [bind]. split; [reflexivity|]. split; [apply ds_vec_wf; constructor|].
    assert (LC : length (concat ys) = ds_size d * 1 * k) by (rewrite (concat_len k) by exact A2; rewrite LY; lia).
    assert (HR : ds_size (ds_vec n0 (concat ys) k 1 []) = ds_size d /\
      forall i, i < ds_size d -> ds_entry (ds_vec n0 (concat ys) k 1 []) i = Ok (nth i ys [])).
    { destruct (Nat.eq_dec (ds_size d) 0) as [Z|Z].
      - rewrite Z in *. destruct ys; [|discriminate]. cbn [concat].
        destruct (ds_vec_nil (n0 : R) k 1 []) as (_ & B & _). split; [exact B|intros; lia].
      - destruct (ds_vec_exact n0 (concat ys) k 1 [] (ds_size d) Hk ltac:(lia) ltac:(lia) LC) as (B1 & B2 & _ & _ & B5 & _).
        split; [unfold ds_size at 1; lia|]. intros i Hi.
        unfold ds_entry, range_copy. rewrite B1, B2, B5.
        destruct (Nat.leb_spec (ds_size d * 1) i); [lia|].
        assert (B : i * k + k <= length (concat ys)) by nia.
        replace ((i * k <=? i * k + k) && (i * k + k <=? length (concat ys))) with true
          by (symmetry; apply andb_true_iff; split; apply Nat.leb_le; lia).
        cbn [require bind]. replace (i * k + k - i * k) with k by lia.
        fold (block k (concat ys) i). now rewrite block_concat by (auto; lia). }
    destruct HR as (HR1 & HR2). split; [exact HR1|]. split; [|auto].
    intros i Hi. destruct (Hent i Hi) as (E & L). exists (block (fsize d) (data d) i). split; [exact E|]. split; [exact L|].
    assert (EY : nth i ys [] = cnn_value ss (block (fsize d) (data d) i)).
    { unfold ys. rewrite (nth_indep _ [] (cnn_value ss [])) by (fold ys; lia). rewrite map_nth. unfold xs. rewrite nth_tab by exact Hi. reflexivity. }
    rewrite <- EY. split; [now apply HR2|]. eapply Forall_forall in A2; [exact A2|]. apply nth_In. lia.
Qed.

(** The figures evaluate returns. *)
Lemma cevaluate_set kd fwd valid v hit m ss post n k (d : dataset R) :
  fwd_ok k fwd valid v hit -> (forall l x, loss_forward kd l x = fwd l x) ->
  cstack m ss post n k -> 0 < k -> 0 < n -> wf d -> length (input_i d) = n -> length (labels_i d) = k ->
  (forall i t, i < ds_size d -> ds_label n0 d i = Ok t -> valid t) ->
  exists m' ss' l h, cnn_evaluate kd m d = Ok (m', l) /\ length h = ds_size d /\
    (forall i, i < ds_size d -> exists x t, ds_input n0 d i = Ok x /\ ds_label n0 d i = Ok t /\ nth i h ([], []) = (t, cnn_value ss x)) /\
    stats_are v hit l h /\ cstack m' ss' post n k /\ Forall2 ckept ss ss'.
Proof.
  intros HF HE W Hk Hn Wd Hin Hlab HV.
  destruct (columns_ok n0 d (input_i d) Wd) as (di & E1 & W1 & _ & _ & R1).
  { apply Forall_forall. intros c Hc. apply (wf_inputs d Wd) in Hc. tauto. }
  destruct R1 as (R1 & R2); [intros E; rewrite E in Hin; cbn in Hin; lia|].
  assert (Sdi : ds_size di = ds_size d).
  { apply (f_equal (@length _)) in R1. unfold rows in R1. rewrite !tab_length in R1. exact R1. }
  destruct (cpredict_set m ss post n k di W Hk W1) as (m' & ss' & r & EP & Wr & Sr & HR & W' & K').
  { intros Hs. rewrite Sdi in Hs. destruct (R2 Hs) as (-> & _). exact Hin. }
  set (get := fun f i => match (f : nat -> res (list R)) i with Ok y => y | _ => [] end).
  assert (HI : forall i, i < ds_size d -> exists x, ds_input n0 d i = Ok x /\ ds_entry r i = Ok (cnn_value ss x) /\ length (cnn_value ss x) = k).
  { intros i Hi. destruct (HR i) as (x & X1 & X2 & X3 & X4); [lia|]. exists x. split; [|auto].
    destruct (c07_column_datasets R n0 d Wd) as (di' & dl & Y1 & _ & _ & _ & Y2 & _).
    unfold ds_inputs in Y1. rewrite E1 in Y1. injection Y1 as <-.
    destruct Y2 as (_ & Y2); [intros E; rewrite E in Hin; cbn in Hin; lia|]. now rewrite <- Y2. }
  assert (HL : forall i, i < ds_size d -> exists t, ds_label n0 d i = Ok t /\ length t = k).
  { intros i Hi. rewrite label_ok by exact Wd. unfold ds_size in Hi. destruct (Nat.ltb_spec i (famount d)); [|lia].
    eexists. split; [reflexivity|]. unfold DatasetProofs.view. now rewrite map_length. }
  destruct (evaluate_loop kd k fwd valid v hit d r (ds_size r) (get (ds_label n0 d)) (get (ds_entry r)) Hk HF HE) as (l & E & ST).
  { intros i Hi. rewrite Sr, Sdi in Hi. destruct (HI i Hi) as (x & X1 & X3 & X4).
    destruct (HL i Hi) as (t & T1 & T2). unfold get. rewrite X3, T1. repeat split; auto. eapply HV; eauto. }
  exists m', ss', l. eexists. unfold cnn_evaluate, ds_inputs. rewrite E1. cbn [bind]. rewrite EP. cbn [bind].
  rewrite (cstack_output_size _ _ _ _ _ W). rewrite E. cbn [bind]. split; [reflexivity|].
  split; [|split; [|split; [exact ST|auto]]].
  - rewrite tab_length. congruence.
  - intros i Hi. destruct (HI i Hi) as (x & X1 & X3 & X4). destruct (HL i Hi) as (t & T1 & T2).
    exists x, t. repeat split; auto. rewrite nth_tab by lia. unfold get. now rewrite T1, X3.
Qed.

(** *** The loss layer of the first fit *)
Definition cplain (m : model (cnode R)) (ss : list (cnode R)) (n k : nat) : Prop :=
  is_chain false (length ss) (mgraph m) /\ 1 <= length ss /\ map fst (mnodes m) = ss /\ cshape ss n k.
Lemma cfit_losses kd batch m ss n k : cplain m ss n k ->
  exists m', cnn_fit_losses kd batch m = Ok m' /\ cnn m' ss kd (loss_new k batch) n k.
Proof.
  intros (C & L & EN & HS). unfold cnn_fit_losses. rewrite (ic_losses _ _ _ C), (ic_out _ _ _ C).
  assert (LN : length (mnodes m) = length ss) by (rewrite <- (map_length fst), EN; reflexivity).
  destruct (exists_last (l := ss)) as (pre & s & Es). { intros ->. cbn in L. lia. }
  assert (EL : exists q, nth_error (mnodes m) (length ss - 1) = Some (s, q)).
  { assert (X : nth_error (map fst (mnodes m)) (length ss - 1) = Some s).
    { rewrite EN, Es, app_length. cbn [length]. rewrite nth_error_app2 by lia.
      replace (length pre + 1 - 1 - length pre) with 0 by lia. reflexivity. }
    rewrite nth_error_map in X. destruct (nth_error (mnodes m) (length ss - 1)) as [(s1, q)|]; [|discriminate].
    cbn in X. injection X as ->. eauto. }
  destruct EL as (q & EL). unfold rd. rewrite EL. cbn [bind].
  assert (LO : c_output_size s = k) by (rewrite Es in HS; eapply cshape_last; eauto). rewrite LO.
  pose proof (ic_nodes _ _ _ C) as Nn. rewrite Nn.
  unfold create_loss_edge, add_backward, add_forward_loss, add_arc, GraphModel.add_loss, add_node. cbn [nodes bgraph tgraph fgraph losses inputs outputs].
  rewrite Nn. rewrite (proj2 (Nat.ltb_lt (length ss) (S (length ss)))) by lia.
  rewrite (proj2 (Nat.ltb_lt (length ss - 1) (S (length ss)))) by lia. cbn [andb guard bind nodes bgraph tgraph fgraph losses inputs outputs].
  rewrite (proj2 (Nat.ltb_lt (length ss) (S (length ss)))) by lia.
  rewrite (proj2 (Nat.ltb_lt (length ss - 1) (S (length ss)))) by lia. cbn [andb guard bind nodes bgraph tgraph fgraph losses inputs outputs].
  eexists. split; [reflexivity|]. constructor; cbn [mgraph mnodes].
  - constructor; cbn [nodes bgraph tgraph fgraph losses inputs outputs].
    + reflexivity.
    + intros i. rewrite (ic_f _ _ _ C). reflexivity.
    + intros i. rewrite !(ic_t _ _ _ C). destruct (Nat.eqb_spec i (length ss - 1)) as [->|Hi].
      * replace (S (length ss - 1)) with (length ss) by lia. rewrite Nat.ltb_irrefl, (proj2 (Nat.ltb_lt _ _)) by lia. reflexivity.
      * destruct (Nat.ltb_spec (S i) (length ss)), (Nat.ltb_spec (S i) (S (length ss))); try lia; reflexivity.
    + intros i. rewrite !(ic_b _ _ _ C). destruct (Nat.eqb_spec i (length ss)) as [->|Hi].
      * destruct (length ss) as [|z] eqn:Eq; [lia|]. rewrite Nat.ltb_irrefl, (proj2 (Nat.ltb_lt _ _)) by lia.
        cbn [sinsert]. f_equal. lia.
      * destruct i as [|z]; [reflexivity|]. destruct (Nat.ltb_spec (S z) (length ss)), (Nat.ltb_spec (S z) (S (length ss))); try lia; reflexivity.
    + rewrite (ic_losses _ _ _ C). cbn [app]. f_equal. lia.
    + apply C.
    + apply C.
  - exact L.
  - rewrite map_app, EN. reflexivity.
  - exact HS.
  - cbn. apply repeat_length.
Qed.
Lemma cplain_stack m ss n k : cplain m ss n k -> cstack m ss [] n k.
Proof.
  intros (C & L & EN & HS). constructor.
  - exists false. exact C.
  - exact L.
  - rewrite (ic_nodes _ _ _ C). cbn. rewrite <- (map_length fst), EN. lia.
  - now rewrite app_nil_r.
  - exact HS.
Qed.

(** *** Initialisation *)
Section Engine.
Context {E : Type}.
Variable start : Z -> E.
Variable next : E -> Z * E.
Variable normal : R -> R -> option R -> E -> (R * option R) * E.

(** New weights and biases for the layers that have them, everything else as before. *)
Definition cinitialised (p : pdf) (e : E) (c : Z) (s s' : cnode R) : Prop :=
  match s, s' with
  | CL l, CL l' => (knd l = KDense -> initialised next normal p e c l l') /\ (knd l <> KDense -> l' = l)
  | CV v, CV v' => v' = conv_with v
      (tab (length (cv_w v)) (value next normal p (sqrt (IZR c / IZR (Z.of_nat (cv_H v * cv_W v * cv_C v)))) e))
      (repeat (1 / 100)%R (length (cv_b v))) (cv_wg v) (cv_bg v) (cv_out v) (cv_ig v)
  | CP q, CP q' => q' = q
  | _, _ => False
  end.
Definition cspread (mi : minit) (following : option (cnode R)) : Z :=
  match mi with
  | MKaiming => 2
  | MXavier => 1
  | MAuto => match following with Some (CL l) => match knd l with KAct Relu => 2 | _ => 1 end | _ => 1 end
  end.
(** Every layer, the spread chosen by the layer behind it. *)
Definition all_cinitialised (mi : minit) (p : pdf) (e : E) (ss ss' : list (cnode R)) : Prop :=
  length ss' = length ss /\
  forall i s, nth_error ss i = Some s -> exists s', nth_error ss' i = Some s' /\
    cinitialised p e (cspread mi (nth_error ss (S i))) s s'.

Lemma c_init_spec f p e s n k : cnode_shape s n k -> cinitialised p e (coef f) s (c_init next normal f p e s).
Proof.
  destruct s as [l|c|q|kd lo]; cbn [cnode_shape c_init]; intros HS.
  - destruct (knd l) as [|a] eqn:K; cbn [cinitialised]; rewrite K.
    + split; [intros _; apply dense_init_spec|congruence].
    + split; [discriminate|reflexivity].
  - rewrite (c57_convolution next normal f p e). cbn [cinitialised]. reflexivity.
  - reflexivity.
  - contradiction.
Qed.

Lemma c_init_relu f p e s : c_is_relu (c_init next normal f p e s) = c_is_relu s.
Proof.
  destruct s as [l|c|q|]; cbn [c_init]; auto. destruct (knd l) eqn:K; auto.
Qed.
Definition crelu_after (ns : list (cnode R * source)) (succ : list nat) : bool :=
  existsb (fun j => match nth_error ns j with Some (s, _) => c_is_relu s | None => false end) succ.
Lemma c_any_relu_spec (ns : list (cnode R * source)) succ : Forall (fun j => j < length ns) succ ->
  c_any_relu ns succ = Ok (crelu_after ns succ).
Proof.
  induction succ as [|j t IH]; intros F; inversion F; subst; [reflexivity|]. unfold crelu_after. cbn [c_any_relu existsb].
  destruct (nth_error ns j) as [(s, q)|] eqn:Ej; [|apply nth_error_None in Ej; lia].
  unfold rd. rewrite Ej. cbn [bind]. destruct (c_is_relu s); [reflexivity|]. now rewrite IH.
Qed.
Definition cchoice (mi : minit) (ns : list (cnode R * source)) (succ : list nat) : initf :=
  match mi with MKaiming => Kaiming | MXavier => Xavier | MAuto => if crelu_after ns succ then Kaiming else Xavier end.
Lemma c_init_one_spec mi p e g ns i s src : nth_error ns i = Some (s, src) -> Forall (fun j => j < length ns) (fgraph g i) ->
  c_init_one next normal mi p e g ns i = Ok (upd ns i (c_init next normal (cchoice mi ns (fgraph g i)) p e s, src)).
Proof.
  intros Ei F. unfold c_init_one, rd. rewrite Ei. cbn [bind].
  assert (Hi : i < length ns) by (apply nth_error_Some; congruence).
  destruct mi; cbn [cchoice bind]; try (now rewrite wr_ok).
  rewrite c_any_relu_spec by exact F. cbn [bind]. now rewrite wr_ok.
Qed.
Lemma crelu_after_upd ns i s src f p e succ : nth_error ns i = Some (s, src) ->
  crelu_after (upd ns i (c_init next normal f p e s, src)) succ = crelu_after ns succ.
Proof.
  intros Ei. unfold crelu_after. induction succ as [|j t IH]; [reflexivity|]. cbn [existsb]. rewrite IH. f_equal.
  destruct (Nat.eq_dec j i) as [->|Hj].
  - assert (Hi : i < length ns) by (apply nth_error_Some; congruence).
    rewrite nth_error_upd_eq by exact Hi. rewrite Ei. apply c_init_relu.
  - now rewrite nth_error_upd_neq by auto.
Qed.
Lemma c_init_loop mi p e g : forall is ns, NoDup is -> (forall i, In i is -> i < length ns) ->
  (forall i, In i is -> Forall (fun j => j < length ns) (fgraph g i)) ->
  exists ns', foldM (c_init_one next normal mi p e g) is ns = Ok ns' /\ length ns' = length ns /\
    forall i s src, nth_error ns i = Some (s, src) ->
      nth_error ns' i = Some (if mem i is then c_init next normal (cchoice mi ns (fgraph g i)) p e s else s, src).
Proof.
  induction is as [|a is IH]; intros ns ND HI HS.
  - exists ns. cbn. auto.
  - inversion ND as [|? ? Na ND']; subst.
    assert (Ha : a < length ns) by (apply HI; now left).
    destruct (nth_error ns a) as [(sa, pa)|] eqn:Ea; [|apply nth_error_None in Ea; lia].
    cbn [foldM]. rewrite (c_init_one_spec mi p e g ns a sa pa Ea) by (apply HS; now left). cbn [bind].
    set (ns1 := upd ns a _).
    destruct (IH ns1 ND') as (ns' & E' & L' & P').
    { intros i Hi. unfold ns1. rewrite upd_length. apply HI. now right. }
    { intros i Hi. unfold ns1. rewrite upd_length. apply HS. now right. }
    exists ns'. split; [exact E'|]. split; [unfold ns1 in L'; now rewrite upd_length in L'|].
    intros i s src Ei. destruct (Nat.eq_dec i a) as [->|Hia].
    + rewrite Ea in Ei. injection Ei as <- <-.
      rewrite (P' a (c_init next normal (cchoice mi ns (fgraph g a)) p e sa) pa) by (unfold ns1; now rewrite nth_error_upd_eq).
      assert (M1 : mem a is = false) by (apply Bool.not_true_is_false; rewrite GraphProofs.mem_In; exact Na).
      rewrite M1. cbn [mem existsb]. rewrite Nat.eqb_refl. reflexivity.
    + rewrite (P' i s src) by (unfold ns1; now rewrite nth_error_upd_neq).
      cbn [mem existsb]. rewrite (proj2 (Nat.eqb_neq i a) Hia). cbn [orb].
      change (existsb (Nat.eqb i) is) with (mem i is). f_equal. f_equal. f_equal.
      destruct mi; auto. unfold cchoice, ns1. now rewrite (crelu_after_upd ns a sa pa).
Qed.

Lemma cinitialised_shape p e c s s' n k : cinitialised p e c s s' -> cnode_shape s n k -> cnode_shape s' n k.
Proof.
  destruct s as [l|v|q|], s' as [l'|v'|q'|]; cbn [cinitialised cnode_shape]; try contradiction.
  - intros (A & B) HS. destruct (knd l) as [|a] eqn:K; [|rewrite (B ltac:(discriminate)); exact HS].
    eapply initialised_shape; [exact (A eq_refl)|exact HS].
  - intros -> (H1 & H2 & H3 & H4 & H5 & H6 & (H7 & H7') & (H8 & H8') & H9). unfold conv_shape, conv_with.
    cbn [cv_H cv_W cv_C cv_kh cv_kw cv_nf cv_sh cv_sw cv_ph cv_pw cv_oh cv_ow cv_w cv_b cv_wg cv_bg cv_out cv_ig].
    rewrite tab_length, repeat_length. auto 20.
  - intros ->. auto.
Qed.
Lemma cshape_f2 : forall ss ss' n k, Forall2 csame_sizes ss ss' -> cshape ss n k -> cshape ss' n k.
Proof.
  intros ss ss' n k F. revert n k. induction F as [|s s' ss ss' A F IH]; intros n k HS; [exact HS|].
  destruct HS as (j & B & C). exists j. split; [now apply A|now apply IH].
Qed.

Lemma cinit_network mi p seed device m ss kd lo n k : cnn m ss kd lo n k ->
  exists m' ss', cnn_init start next normal mi p seed device m = Ok (m', if Z.eq_dec seed 0 then device else seed) /\
    cnn m' ss' kd lo n k /\ all_cinitialised mi p (start (if Z.eq_dec seed 0 then device else seed)) ss ss'.
Proof.
  intros W. pose proof (cn_graph _ _ _ _ _ _ W) as C. pose proof (cnn_length _ _ _ _ _ _ W) as LN.
  pose proof (cn_nodes _ _ _ _ _ _ W) as EN. pose proof (cn_shape _ _ _ _ _ _ W) as HS.
  unfold cnn_init. cbv zeta.
  replace (if (seed =? 0)%Z then device else seed) with (if Z.eq_dec seed 0 then device else seed)
    by (destruct (Z.eq_dec seed 0) as [->|Hs]; [reflexivity|now rewrite (proj2 (Z.eqb_neq seed 0) Hs)]).
  set (used := if Z.eq_dec seed 0 then device else seed).
  destruct (c_init_loop mi p (start used) (mgraph m) (forward_layers (mgraph m)) (mnodes m)) as (ns' & E' & L' & P').
  { apply NoDup_filter, seq_NoDup. }
  { intros i Hi. apply filter_In in Hi. destruct Hi as (Hi & _). apply in_seq in Hi. lia. }
  { intros i Hi. rewrite LN. apply Forall_forall. intros j. rewrite (ic_f _ _ _ C), (ic_nodes _ _ _ C).
    destruct (Nat.ltb_spec (S i) (length ss)); cbn; lia. }
  rewrite E'. cbn [bind].
  assert (LN2 : length (mnodes m) = S (length ss)) by (rewrite LN, (ic_nodes _ _ _ C); cbn; lia).
  assert (NS : forall i s, nth_error ss i = Some s -> exists q, nth_error (mnodes m) i = Some (s, q)).
  { intros i s Ei. assert (X : nth_error (map fst (mnodes m)) i = Some s).
    { rewrite EN, nth_error_app1 by (apply nth_error_Some; congruence). exact Ei. }
    rewrite nth_error_map in X. destruct (nth_error (mnodes m) i) as [(s1, q)|]; [|discriminate]. cbn in X. injection X as ->. eauto. }
  set (new := fun i s => c_init next normal (cchoice mi (mnodes m) (fgraph (mgraph m) i)) p (start used) s).
  assert (FL : forall i, i < S (length ss) -> mem i (forward_layers (mgraph m)) = negb (i =? length ss)).
  { intros i Hi. unfold forward_layers. rewrite (ic_losses _ _ _ C), (ic_nodes _ _ _ C).
    apply Bool.eq_iff_eq_true. rewrite GraphProofs.mem_In, filter_In, in_seq, !Bool.negb_true_iff. cbn [mem existsb].
    rewrite Bool.orb_false_r. destruct (Nat.eqb_spec i (length ss)); intuition (try lia; try congruence). }
  assert (AI : forall i s, nth_error ss i = Some s -> cinitialised p (start used) (cspread mi (nth_error ss (S i))) s (new i s)).
  { intros i s Ei. destruct (cshape_nth ss n k i s HS Ei) as (a & b & SH).
    replace (cspread mi (nth_error ss (S i))) with (coef (cchoice mi (mnodes m) (fgraph (mgraph m) i))); [eapply c_init_spec; eauto|].
    unfold cchoice, cspread. destruct mi; try reflexivity. rewrite (ic_f _ _ _ C). unfold crelu_after.
    destruct (Nat.ltb_spec (S i) (length ss)) as [Hs|Hs].
    - destruct (nth_error ss (S i)) as [s1|] eqn:E1; [|apply nth_error_None in E1; lia]. destruct (NS _ _ E1) as (q & Q).
      cbn [existsb]. rewrite Q. rewrite Bool.orb_false_r. destruct s1 as [l|v|q1|]; cbn [c_is_relu]; try reflexivity.
      destruct (knd l) as [|[]]; reflexivity.
    - rewrite (proj2 (nth_error_None ss (S i))) by lia. reflexivity. }
  set (ss' := tab (length ss) (fun i => new i (nth i ss (CO kd lo)))).
  assert (LS : length ss' = length ss) by apply tab_length.
  assert (NT : forall i s, nth_error ss i = Some s -> nth_error ss' i = Some (new i s)).
  { intros i s Ei. assert (Hi : i < length ss) by (apply nth_error_Some; congruence).
    rewrite (nth_error_nth' ss' (CO kd lo)) by lia. unfold ss'. rewrite nth_tab by exact Hi.
    now rewrite (nth_error_nth _ _ _ Ei). }
  assert (AA : all_cinitialised mi p (start used) ss ss').
  { split; [exact LS|]. intros i s Ei. exists (new i s). split; [now apply NT|now apply AI]. }
  exists (mkModel (mgraph m) ns'), ss'. split; [reflexivity|]. split; [|exact AA].
  constructor; cbn [mgraph mnodes].
  - now rewrite LS.
  - rewrite LS. apply W.
  - apply nth_error_ext. intros i. rewrite nth_error_map.
    destruct (Nat.lt_ge_cases i (length ss)) as [Hi|Hi].
    + destruct (nth_error ss i) as [s|] eqn:Ei; [|apply nth_error_None in Ei; lia]. destruct (NS i s Ei) as (q & Q).
      rewrite (P' i s q Q), FL by lia. destruct (Nat.eqb_spec i (length ss)); [lia|]. cbn [negb option_map fst].
      rewrite nth_error_app1 by lia. rewrite (NT i s Ei). reflexivity.
    + rewrite nth_error_app2 by lia. rewrite LS. destruct (Nat.eq_dec i (length ss)) as [->|Hn].
      * rewrite Nat.sub_diag. assert (X : nth_error (map fst (mnodes m)) (length ss) = Some (CO kd lo)).
        { rewrite EN, nth_error_app2, Nat.sub_diag by lia. reflexivity. }
        rewrite nth_error_map in X. destruct (nth_error (mnodes m) (length ss)) as [(s1, q)|] eqn:Q; [|discriminate].
        cbn in X. injection X as ->. rewrite (P' _ _ _ Q), FL by lia. rewrite Nat.eqb_refl. reflexivity.
      * rewrite (proj2 (nth_error_None ns' i)) by lia. destruct (i - length ss) as [|[|z]] eqn:Eq; try lia; reflexivity.
  - apply (cshape_f2 ss); [|exact HS]. apply forall2_nth; [exact LS|]. intros i s Ei. exists (new i s). split; [now apply NT|].
    intros a b SH. eapply cinitialised_shape; [apply AI; exact Ei|exact SH].
  - apply W.
Qed.

Lemma cinitialised_cleared p e c s s' : cinitialised p e c s s' -> ccleared s -> ccleared s'.
Proof.
  unfold ccleared. destruct s as [l|v|q|], s' as [l'|v'|q'|]; cbn [cinitialised learns wgrads bgrads]; try contradiction; auto.
  - intros (A & B) HC K'. destruct (knd l) as [|a] eqn:K; [|rewrite (B ltac:(discriminate)), K in K'; discriminate].
    destruct (A eq_refl) as (_ & _ & W' & B' & _). rewrite W', B'. now apply HC.
  - intros -> HC _. cbn [conv_with cv_wg]. exact (HC I).
Qed.
Lemma all_cinitialised_f2 mi p e ss ss' (P : cnode R -> cnode R -> Prop) : all_cinitialised mi p e ss ss' ->
  (forall c s s', cinitialised p e c s s' -> P s s') -> Forall2 P ss ss'.
Proof.
  intros (L & HI) HP. apply forall2_nth; [exact L|]. intros i s Ei. destruct (HI i s Ei) as (s' & E' & Q). eauto.
Qed.
Lemma all_cinitialised_cleared mi p e ss ss' : all_cinitialised mi p e ss ss' -> Forall ccleared ss -> Forall ccleared ss'.
Proof.
  intros A F. pose proof (all_cinitialised_f2 mi p e ss ss' _ A (fun c s s' => cinitialised_cleared p e c s s')) as Q.
  clear A. induction Q; inversion F; subst; constructor; auto.
Qed.
Lemma cinitialised_smooth p e c s s' : cinitialised p e c s s' -> csmooth_kind s -> csmooth_kind s'.
Proof.
  destruct s as [l|v|q|], s' as [l'|v'|q'|]; cbn [cinitialised csmooth_kind]; try contradiction; auto.
  intros (A & B). destruct (knd l) as [|a] eqn:K; [|now rewrite (B ltac:(discriminate))].
  destruct (A eq_refl) as (K' & _). unfold smooth_kind. now rewrite K', K.
Qed.
Lemma all_cinitialised_smooth mi p e ss ss' : all_cinitialised mi p e ss ss' -> Forall csmooth_kind ss -> Forall csmooth_kind ss'.
Proof.
  intros A F. pose proof (all_cinitialised_f2 mi p e ss ss' _ A (fun c s s' => cinitialised_smooth p e c s s')) as Q.
  clear A. induction Q; inversion F; subst; constructor; auto.
Qed.
End Engine.
