(** C27: dropout. *)
From Verif Require Import Base Num RSum MathModel MathProofs LayerModel LossModel GradSpec GradProofs GraphModel GraphProofs ModelModel NodeModel ChainProofs ModelProofs PropGraph PropModel.
From Coq Require Import Reals Lra.
Local Open Scope nat_scope.

Section Training.
Context {T : Type} `{NumOps T} `{TransOps T} `{LimOps T}.

Definition drop_ok (d : dropl T) : Prop := length (d_out d) = d_size d /\ length (d_ig d) = d_size d.

Lemma drop_new_ok size p : drop_ok (drop_new size p).
Proof. unfold drop_ok, drop_new. cbn. now rewrite !repeat_length. Qed.

Definition kept (draw : nat -> T) (d : dropl T) (i : nat) : bool := nltb (d_p d) (draw (d_pos d + i)).

Lemma drop_tforward_spec draw d x : drop_ok d -> length x = d_size d ->
  drop_tforward draw d x = Ok (mkDrop (d_p d) (d_scale d) (d_size d)
    (tab (d_size d) (fun i => if kept draw d i then nmul (nth i x n0) (d_scale d) else n0))
    (d_ig d) (filter (fun i => negb (kept draw d i)) (seq 0 (d_size d))) (d_pos d + d_size d)).
Proof.
  intros (Ho & Hi) Hx. unfold drop_tforward.
  set (f := fun i => if kept draw d i then nmul (nth i x n0) (d_scale d) else n0).
  match goal with |- context [for_ ?n ?b ?s] =>
    destruct (for_inv (fun k (st : list T * list nat) =>
      fst st = tab k f ++ skipn k (d_out d) /\
      snd st = filter (fun i => negb (kept draw d i)) (seq 0 k)) n b s)
      as ((o, mask) & E & I1 & I2) end.
  - split; reflexivity.
  - intros k (o, mask) Hk (I1 & I2). cbn [fst snd] in *.
    assert (Lo : length o = d_size d).
    { rewrite I1, app_length, tab_length, skipn_length. lia. }
    assert (Hw : forall v, f k = v -> wr o k v = Ok (tab (S k) f ++ skipn (S k) (d_out d))).
    { intros v Hv. rewrite wr_ok by lia. f_equal. apply (list_ext_nth n0).
      - rewrite upd_length, Lo, app_length, tab_length, skipn_length. lia.
      - intros i Hi'. rewrite upd_length in Hi'.
        destruct (Nat.eq_dec i k) as [->|Hne]; [rewrite nth_upd_eq by lia|rewrite nth_upd_neq, I1 by exact Hne].
        + rewrite app_nth1 by (rewrite tab_length; lia). rewrite nth_tab by lia. auto.
        + destruct (Nat.lt_ge_cases i k).
          * rewrite !app_nth1 by (rewrite tab_length; lia). rewrite !nth_tab by lia. reflexivity.
          * rewrite !app_nth2 by (rewrite tab_length; lia). rewrite !tab_length, !nth_skipn_add. f_equal. lia. }
    fold (kept draw d k). rewrite seq_S, filter_app. cbn [plus filter].
    destruct (kept draw d k) eqn:EK.
    + rewrite (rd_nth x k n0) by lia. cbn [bind].
      rewrite (Hw (nmul (nth k x n0) (d_scale d))) by (unfold f; now rewrite EK). cbn [bind].
      eexists. split; [reflexivity|]. cbn [fst snd negb]. rewrite app_nil_r. auto.
    + rewrite (Hw n0) by (unfold f; now rewrite EK). cbn [bind].
      eexists. split; [reflexivity|]. cbn [fst snd negb]. now rewrite I2.
  - rewrite E. cbn [bind fst snd] in *. rewrite I2, I1, skipn_all2 by lia. now rewrite app_nil_r.
Qed.

Lemma zero_all (mask : list nat) : forall l : list T, (forall i, In i mask -> i < length l) ->
  foldM (fun ig i => wr ig i n0) mask l
  = Ok (tab (length l) (fun i => if mem i mask then n0 else nth i l n0)).
Proof.
  induction mask as [|j mask IH]; intros l Hm.
  - cbn [foldM mem existsb]. f_equal. symmetry. apply (list_ext_nth n0); [apply tab_length|].
    intros i Hi. rewrite tab_length in Hi. now rewrite nth_tab.
  - cbn [foldM]. assert (Hj : j < length l) by (apply Hm; now left). rewrite wr_ok by exact Hj. cbn [bind].
    rewrite IH by (intros i Hi; rewrite upd_length; apply Hm; now right).
    f_equal. rewrite upd_length. apply tab_ext. intros i Hi. cbn [mem existsb].
    fold (mem i mask).
    destruct (Nat.eqb_spec i j) as [->|Hne]; cbn [orb];
      [rewrite nth_upd_eq by lia|rewrite nth_upd_neq by exact Hne]; destruct (mem _ mask); reflexivity.
Qed.

Lemma drop_backward_spec d g : drop_ok d -> length g = d_size d ->
  (forall i, In i (d_mask d) -> i < d_size d) ->
  drop_backward d g = Ok (mkDrop (d_p d) (d_scale d) (d_size d) (d_out d)
    (tab (d_size d) (fun i => if mem i (d_mask d) then n0 else nmul (nth i g n0) (d_scale d)))
    (d_mask d) (d_pos d)).
Proof.
  intros (Ho & Hi) Hg Hm. unfold drop_backward, arr_mul_val.
  rewrite (map_into_spec n0) by lia. rewrite skipn_all2 by lia. rewrite app_nil_r. cbn [bind].
  rewrite zero_all by (intros i Hin; rewrite tab_length; auto). cbn [bind]. do 2 f_equal.
  rewrite tab_length. apply tab_ext. intros i Hi'. rewrite nth_tab by lia. reflexivity.
Qed.

(** Anything a model may do with a dropout layer. *)
Inductive dcall := DTrain (x : list T) | DForward (x : list T) | DBackward (g : list T).
Definition d_call (draw : nat -> T) (d : dropl T) (c : dcall) : res (dropl T) :=
  match c with
  | DTrain x => drop_tforward draw d x
  | DForward x => Ok (fst (drop_forward d x))
  | DBackward g => drop_backward d g
  end.
Definition dsized (n : nat) (c : dcall) : Prop :=
  match c with DTrain x => length x = n | DForward _ => True | DBackward g => length g = n end.
End Training.
Arguments dcall T : clear implicits.

(** Training, any number type, after any history of calls: a training pass and any number of
    prediction and backward calls later, backward uses the mask and the scale of that pass. *)
Theorem c27_training_mask : forall T (NT : NumOps T) (TT : TransOps T) (LT : LimOps T)
  (draw : nat -> T) size p before x between g,
  Forall (dsized size) (before ++ DTrain x :: between ++ [DBackward g]) ->
  Forall (fun c => match c with DTrain _ => False | _ => True end) between ->
  exists d0 d1 d2 d3 (keep : nat -> bool),
    foldM (d_call draw) before (drop_new size p) = Ok d0 /\
    drop_tforward draw d0 x = Ok d1 /\
    foldM (d_call draw) between d1 = Ok d2 /\
    drop_backward d2 g = Ok d3 /\
    length (d_out d1) = size /\ length (d_ig d3) = size /\
    (forall i, i < size -> keep i = nltb p (draw (d_pos d0 + i))) /\
    (forall i, i < size -> nth i (d_out d1) n0 = if keep i then nmul (nth i x n0) (d_scale (drop_new size p)) else n0) /\
    (forall i, i < size -> nth i (d_ig d3) n0 = if keep i then nmul (nth i g n0) (d_scale (drop_new size p)) else n0).
Proof.
  intros T NT TT LT draw size p before x between g HS HB.
  set (sc := d_scale (drop_new size p)).
  pose (I0 := fun d : dropl T => drop_ok d /\ d_size d = size /\ d_p d = p /\ d_scale d = sc /\
     forall i, In i (d_mask d) -> i < size).
  assert (Step : forall d c, I0 d -> dsized size c -> exists d', d_call draw d c = Ok d' /\ I0 d' /\
     ((forall x, c <> DTrain x) -> d_mask d' = d_mask d)).
  { intros d c (A1 & A2 & A3 & A4 & A5) Hc. destruct c as [y|y|h]; cbn [d_call dsized] in *.
    - rewrite drop_tforward_spec by congruence. eexists. split; [reflexivity|]. split.
      + unfold I0, drop_ok. cbn. rewrite tab_length. destruct A1 as (B1 & B2). split; [auto|].
        split; [auto|]. split; [auto|]. split; [auto|]. intros i Hi. apply filter_In in Hi.
        destruct Hi as (Hi & _). apply in_seq in Hi. lia.
      + intros Hc'. exfalso. apply (Hc' y). reflexivity.
    - eexists. split; [reflexivity|]. split; [unfold I0; auto|]. auto.
    - rewrite drop_backward_spec by (auto; try congruence; intros i Hi; rewrite A2; auto).
      eexists. split; [reflexivity|]. split; [|auto].
      unfold I0, drop_ok. cbn. rewrite tab_length. destruct A1 as (B1 & B2). auto 10. }
  assert (Steps : forall cs d, I0 d -> Forall (dsized size) cs -> exists d', foldM (d_call draw) cs d = Ok d' /\ I0 d' /\
     (Forall (fun c => match c with DTrain _ => False | _ => True end) cs -> d_mask d' = d_mask d)).
  { induction cs as [|c cs IH]; intros d Hd Hs.
    - exists d. auto.
    - inversion Hs as [|? ? S1 S2]; subst. destruct (Step d c Hd S1) as (d1 & E1 & I1 & M1).
      destruct (IH d1 I1 S2) as (d2 & E2 & I2 & M2). exists d2. cbn [foldM]. rewrite E1. cbn [bind].
      split; [exact E2|]. split; [exact I2|]. intros HN. inversion HN as [|? ? N1 N2]; subst.
      rewrite M2 by exact N2. apply M1. intros y ->. exact N1. }
  apply Forall_app in HS. destruct HS as (HS1 & HS). inversion HS as [|? ? HS2 HS3]; subst.
  apply Forall_app in HS3. destruct HS3 as (HS3 & HS4). inversion HS4 as [|? ? HS5 _]; subst.
  cbn [dsized] in HS2, HS5.
  destruct (Steps before (drop_new size p)) as (d0 & E0 & I0' & _); [|exact HS1|].
  { unfold I0. split; [apply drop_new_ok|]. unfold drop_new. cbn. auto 10. intros. repeat split; auto. intros i []. }
  pose proof I0' as (A1 & A2 & A3 & A4 & A5).
  assert (Lx : length x = d_size d0) by congruence.
  pose proof (drop_tforward_spec draw d0 x A1 Lx) as ET.
  destruct (Step d0 (DTrain x) I0' HS2) as (d1 & E1 & I1 & _). cbn [d_call] in E1.
  destruct (Steps between d1 I1 HS3) as (d2 & E2 & I2 & M2). specialize (M2 HB).
  destruct (Step d2 (DBackward g) I2 HS5) as (d3 & E3 & I3 & _). cbn [d_call] in E3.
  exists d0, d1, d2, d3, (kept draw d0).
  split; [exact E0|]. split; [exact E1|]. split; [exact E2|]. split; [exact E3|].
  split; [destruct I1 as ((B1 & _) & B2 & _); congruence|].
  split; [destruct I3 as ((_ & B1) & B2 & _); congruence|].
  split; [intros i Hi; unfold kept; now rewrite A3|].
  rewrite ET in E1. injection E1 as <-. cbn [d_mask d_out] in *. split.
  - intros i Hi. rewrite nth_tab by lia. rewrite A4. reflexivity.
  - intros i Hi. destruct I2 as (B1 & B2 & B3 & B4 & B5).
    rewrite drop_backward_spec in E3 by (auto; try congruence; intros j Hj; rewrite B2; auto).
    injection E3 as <-. cbn [d_ig]. rewrite nth_tab by lia. rewrite M2, B4.
    destruct (mem i (filter (fun i => negb (kept draw d0 i)) (seq 0 (d_size d0)))) eqn:EM.
    + apply mem_In, filter_In in EM. destruct EM as (_ & EM). apply negb_true_iff in EM. now rewrite EM.
    + apply mem_false in EM. destruct (kept draw d0 i) eqn:EK; [reflexivity|].
      exfalso. apply EM. apply filter_In. split; [apply in_seq; lia|]. now rewrite EK.
Qed.
Print Assumptions c27_training_mask.

(** The scale over the reals. *)
Theorem c27_scale : forall size (p : R), p <> 1%R -> d_scale (drop_new size p) = (1 / (1 - p))%R.
Proof.
  intros size p Hp. unfold drop_new. cbn [d_scale neqb n1 ndiv nsub NumR].
  rewrite (proj2 (Reqb_false p 1) Hp). reflexivity.
Qed.
Print Assumptions c27_scale.

(** *** Prediction *)
(** What predict does: whatever [x] is, the layers after a dropout layer receive its
    activation buffer, i.e. the activations of the last training pass (zeros before it). *)
Theorem c27_predict_actual : forall T (NT : NumOps T) (TT : TransOps T) (LT : LimOps T)
  draw os lossy n (m : model (node T)) pre d post x v,
  gbuild os = Ok (mgraph m) -> 2 <= n -> chain_linked lossy n (mgraph m) ->
  length (mnodes m) = nodes (mgraph m) ->
  map fst (firstn n (mnodes m)) = pre ++ ND d :: post ->
  foldM (fun v s => s' <- n_forward s v ;; n_output s') pre x = Ok v ->
  ('(_, y) <- m_predict (node_ops draw) m x ;; Ok y)
  = foldM (fun v s => s' <- n_forward s v ;; n_output s') post (d_out d).
Proof.
  intros T NT TT LT draw os lossy n m pre d post x v E Hn HC HL EM EP.
  rewrite (c36_predict_composition _ _ _ os lossy n m x E Hn HC HL), EM, foldM_app.
  cbn [node_ops o_forward o_output] in *. rewrite EP. reflexivity.
Qed.
Print Assumptions c27_predict_actual.

(** C27 as stated is false for prediction: with a dropout layer between two identity layers
    the network predicts 0 for the input 5; without it, 5. After a training pass on 7 it
    predicts 7 for the input 5. *)
#[local] Instance exTrans : TransOps Z := Build_TransOps Z (fun x => x) (fun x => x) (fun x => x) (fun x => x) (fun x _ => x).
#[local] Instance exLim : LimOps Z := Build_LimOps Z 0%Z 0%Z.
Definition ex_id : node Z := NL (mkLayer (KAct Linear) 1 [] [] [] [] [0%Z] [0%Z]).
Definition ex_with : list (node Z * source) :=
  [(ex_id, SNull); (ND (drop_new 1 0%Z), SNull); (ex_id, SNull); (NO (MSE 0%Z) (loss_new 1 1), SNull)].
Definition ex_without : list (node Z * source) :=
  [(ex_id, SNull); (ex_id, SNull); (NO (MSE 0%Z) (loss_new 1 1), SNull)].

Lemma both_built (P : dlgraph -> dlgraph -> Prop) :
  match gbuild (chain_build 3 ++ loss_build true 3), gbuild (chain_build 2 ++ loss_build true 2) with
  | Ok g3, Ok g2 => P g3 g2 | _, _ => False end ->
  exists g3 g2, chain_linked true 3 g3 /\ chain_linked true 2 g2 /\ P g3 g2 /\
    gbuild (chain_build 3 ++ loss_build true 3) = Ok g3.
Proof.
  intros HP. destruct (c36_built true 3) as (g3 & E3 & C3); [lia|].
  destruct (c36_built true 2) as (g2 & E2 & C2); [lia|].
  rewrite E3, E2 in HP. exists g3, g2. auto.
Qed.

Theorem c27_prediction_refuted : exists g3 g2 (draw : nat -> Z) m1 m2 m3 m4,
  chain_linked true 3 g3 /\ chain_linked true 2 g2 /\
  m_predict (node_ops draw) (mkModel g2 ex_without) [5%Z] = Ok (m1, [5%Z]) /\
  m_predict (node_ops draw) (mkModel g3 ex_with) [5%Z] = Ok (m2, [0%Z]) /\
  m_step (node_ops draw) (mkModel g3 ex_with) [7%Z] [0%Z] = Ok m3 /\
  m_predict (node_ops draw) m3 [5%Z] = Ok (m4, [7%Z]).
Proof.
  pose (draw := fun _ : nat => 1%Z).
  destruct (both_built (fun g3 g2 =>
    match m_predict (node_ops draw) (mkModel g2 ex_without) [5%Z], m_predict (node_ops draw) (mkModel g3 ex_with) [5%Z],
          m_step (node_ops draw) (mkModel g3 ex_with) [7%Z] [0%Z] with
    | Ok (_, y1), Ok (_, y2), Ok m3 =>
        match m_predict (node_ops draw) m3 [5%Z] with
        | Ok (_, y3) => y1 = [5%Z] /\ y2 = [0%Z] /\ y3 = [7%Z]
        | _ => False
        end
    | _, _, _ => False
    end)) as (g3 & g2 & C3 & C2 & HP & _); [vm_compute; auto|].
  exists g3, g2, draw.
  destruct (m_predict (node_ops draw) (mkModel g2 ex_without) [5%Z]) as [(m1, y1)| |]; try contradiction.
  destruct (m_predict (node_ops draw) (mkModel g3 ex_with) [5%Z]) as [(m2, y2)| |]; try contradiction.
  destruct (m_step (node_ops draw) (mkModel g3 ex_with) [7%Z] [0%Z]) as [m3| |]; try contradiction.
  destruct (m_predict (node_ops draw) m3 [5%Z]) as [(m4, y3)| |] eqn:E4; try contradiction.
  destruct HP as (-> & -> & ->). exists m1, m2, m3, m4. auto 10.
Qed.
Print Assumptions c27_prediction_refuted.

(** The hypotheses of the two other theorems are met. *)
Example c27_mask_hypotheses_met :
  Forall (dsized 2) ([DTrain [1; 2]%Z; DForward [3%Z]] ++ DTrain [4; 5]%Z :: [DForward [7; 7]%Z] ++ [DBackward [1; 1]%Z]) /\
  Forall (fun c => match c with DTrain _ => False | _ => True end) [DForward [7; 7]%Z] /\
  (exists d, drop_tforward (fun k => if k =? 1 then 0%Z else 2%Z) (drop_new 2 0%Z) [4; 5]%Z = Ok d /\
     d_out d = [4; 0]%Z /\ d_mask d = [1] /\
     exists d', drop_backward d [3; 3]%Z = Ok d' /\ d_ig d' = [3; 0]%Z).
Proof.
  split; [repeat constructor|]. split; [repeat constructor|].
  eexists. split; [reflexivity|]. split; [reflexivity|]. split; [reflexivity|].
  eexists. split; reflexivity.
Qed.

Example c27_actual_hypotheses_met : exists g3,
  gbuild (chain_build 3 ++ loss_build true 3) = Ok g3 /\ chain_linked true 3 g3 /\
  length ex_with = nodes g3 /\
  map fst (firstn 3 ex_with) = [ex_id] ++ ND (drop_new 1 0%Z) :: [ex_id] /\
  foldM (fun v s => s' <- n_forward s v ;; n_output s') [ex_id] [5%Z] = Ok [5%Z].
Proof.
  destruct (c36_built true 3) as (g3 & E3 & C3); [lia|]. exists g3. split; [exact E3|]. split; [exact C3|].
  destruct C3 as (-> & _). auto.
Qed.
