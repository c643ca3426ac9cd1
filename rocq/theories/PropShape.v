(** C82: changing the input shape of an existing layer. *)
From Coq Require Import Reals Lra.
From Verif Require Import Base Num RSum MathModel MathProofs ConvModel ConvSpec ConvProofs LayerModel LossModel GradSpec GradProofs GradChain
  GraphModel ModelModel NodeModel ModelProofs StepProofs PropModel PropStep PropSizes CnnModel CnnSpec CnnProofs RecurrentModel RecurrentProofs
  PropDropout PropCnnNet ShapeModel.
Local Open Scope nat_scope.

(** *** What a layer of a given kind for a given input shape consists of *)
Record sizes := mkSizes { z_out : nat; z_act : nat; z_ig : nat; z_par : list nat; z_hs : nat }.

Section Sizes.
Context {T : Type}.

(** The shapes a kind can be built for: the window must fit. *)
Definition accepts (kd : skind T) (s : shape3) : Prop :=
  match kd with
  | SConv kh kw nf sh sw ph pw =>
      (0 < sh_h s /\ 0 < sh_w s) /\ (1 <= kh <= sh_h s + 2 * ph /\ 1 <= kw <= sh_w s + 2 * pw) /\ (1 <= sh /\ 1 <= sw) /\
      ((Z.of_nat (sh_h s + 2 * ph) < 2 ^ 64)%Z /\ (Z.of_nat (sh_w s + 2 * pw) < 2 ^ 64)%Z)
  | SPool _ kh kw sh sw =>
      (0 < sh_h s /\ 0 < sh_w s) /\ (1 <= kh <= sh_h s /\ 1 <= kw <= sh_w s) /\ (1 <= sh /\ 1 <= sw) /\
      ((Z.of_nat (sh_h s) < 2 ^ 64)%Z /\ (Z.of_nat (sh_w s) < 2 ^ 64)%Z)
  | SConcat _ => False
  | _ => True
  end.
(** Output size, lengths of the output and input gradient buffers, of the parameter vectors and
    of the hidden state. [k]: the output size a dense or recurrent layer was built with. *)
Definition wanted (kd : skind T) (k : nat) (s : shape3) : sizes :=
  let n := sh_h s * sh_w s * sh_c s in
  match kd with
  | SDense => mkSizes k k n [k * n; k] 0
  | SAct _ | SDrop _ => mkSizes n n n [] 0
  | SConv kh kw nf sh sw ph pw =>
      let o := side (sh_h s) kh sh ph * side (sh_w s) kw sw pw * nf in
      mkSizes o o n [kh * kw * sh_c s * nf; nf] 0
  | SPool _ kh kw sh sw =>
      let o := side (sh_h s) kh sh 0 * side (sh_w s) kw sw 0 * sh_c s in mkSizes o o n [] 0
  | SLoss => mkSizes 0 0 n [] 0
  | SRec hid steps =>
      mkSizes k (k * steps) (n * steps) [n * hid; hid * hid; hid; hid * k; k] (hid * Nat.max steps 1)
  | SConcat _ => mkSizes n n n [] 0
  end.
(** Convolutions and poolings keep the three extents; the others only count. *)
Definition spatial (kd : skind T) : bool := match kd with SConv _ _ _ _ _ _ _ | SPool _ _ _ _ _ => true | _ => false end.
Definition out_extents (kd : skind T) (s : shape3) : list shape3 :=
  match kd with
  | SConv kh kw nf sh sw ph pw => [mkS (side (sh_h s) kh sh ph) (side (sh_w s) kw sw pw) nf]
  | SPool _ kh kw sh sw => [mkS (side (sh_h s) kh sh 0) (side (sh_w s) kw sw 0) (sh_c s)]
  | _ => []
  end.

Definition sized_for (kd : skind T) (k : nat) (s : shape3) (st : lstate T) : Prop :=
  let '(c, o) := st in let z := wanted kd k s in
  o_kind o = kd /\
  (exists i rest, c_in c = i :: rest /\ s3size i = s3size s /\ (spatial kd = true -> i = s)) /\ c_insz c = s3size s /\
  (exists r rest, c_out c = r :: rest /\ s3size r = z_out z /\ (spatial kd = true -> [r] = out_extents kd s)) /\
  (match kd with SRec _ _ => c_outsz c = k | _ => True end) /\
  length (o_act o) = z_act z /\ length (o_ig o) = z_ig z /\
  map (@length T) (c_par c) = z_par z /\ map (@length T) (o_grads o) = z_par z /\ length (o_hs o) = z_hs z.
End Sizes.

Section Shapes.
Context {T : Type} `{NumOps T} `{TransOps T} `{LimOps T}.
Implicit Types (kd : skind T) (st : lstate T).

Lemma first_sized_lengths n (l : list (list T)) a r : map (@length T) l = a :: r ->
  map (@length T) (first_sized n l) = n :: r.
Proof. destruct l as [|w l]; cbn; [discriminate|]. intros E. injection E as _ E. now rewrite resize_length, E. Qed.

Lemma conv_out_ok s kh kw nf sh sw ph pw : accepts (SConv kh kw nf sh sw ph pw : skind T) s ->
  conv_out_shape s kh kw nf sh sw ph pw = Ok (mkS (side (sh_h s) kh sh ph) (side (sh_w s) kw sw pw) nf).
Proof.
  intros ((A1 & A2) & (B1 & B2) & (C1 & C2) & D1 & D2). unfold conv_out_shape.
  rewrite !side_output by assumption. reflexivity.
Qed.
Lemma pool_out_ok s mx kh kw sh sw : accepts (SPool mx kh kw sh sw : skind T) s ->
  pool_out_shape s kh kw sh sw = Ok (mkS (side (sh_h s) kh sh 0) (side (sh_w s) kw sw 0) (sh_c s)).
Proof.
  intros ((A1 & A2) & (B1 & B2) & (C1 & C2) & D1 & D2). unfold pool_out_shape, pool_output_side.
  rewrite !side_output by (try assumption; try lia; rewrite Nat.mul_0_r, Nat.add_0_r; assumption). reflexivity.
Qed.

(** A constructed layer has the sizes of its kind. *)
Theorem c82_new : forall kd s k st, accepts kd s -> layer_new kd s k = Ok st -> sized_for kd k s st.
Proof.
  intros kd s k st HA. destruct kd; cbn [layer_new]; try contradiction.
  4: rewrite conv_out_ok by exact HA. 5: rewrite (pool_out_ok s mx) by exact HA.
  all: cbn [bind]; intros E; injection E as <-; unfold sized_for, scell_new, zs, wanted, s3size, flat;
    cbn [o_kind o_act o_ig o_grads o_hs c_in c_insz c_out c_outsz c_par z_out z_act z_ig z_par z_hs map sh_h sh_w sh_c];
    rewrite ?repeat_length.
  all: repeat (split; [first [reflexivity | lia | (do 2 eexists; repeat split; cbn [sh_h sh_w sh_c]; try reflexivity; try discriminate; lia)]|]); try reflexivity; try lia.
  all: cbn [length]; rewrite ?Nat.mul_1_r, ?repeat_length; auto.
Qed.

(** One successful call. The parameters other than the input weights are kept; the input weights
    are the old vector, cut or continued with zeros. *)
Definition head_kept (l l' : list (list T)) : Prop :=
  length l' = length l /\ (forall i, 1 <= i -> nth i l' [] = nth i l []) /\
  (forall p, p < length (nth 0 l' []) -> nth p (nth 0 l' []) n0 = nth p (nth 0 l []) n0).
Lemma head_kept_refl l : head_kept l l.
Proof. repeat split; auto. Qed.
Lemma head_kept_first n l : head_kept l (first_sized n l).
Proof.
  destruct l as [|w l]; [apply head_kept_refl|]. split; [reflexivity|]. split; [intros [|i] Hi; [lia|reflexivity]|].
  intros p. cbn [first_sized nth]. rewrite resize_length. intros Hp. now apply nth_resize.
Qed.

Theorem c82_call : forall kd k s0 s rest st f, accepts kd s -> sized_for kd k s0 st ->
  exists st', input_shape (S f) (s :: rest) st = (st', Done) /\ sized_for kd k s st' /\
    head_kept (c_par (fst st)) (c_par (fst st')) /\ head_kept (o_grads (snd st)) (o_grads (snd st')) /\
    o_mask (snd st') = o_mask (snd st) /\ o_hs (snd st') = o_hs (snd st) /\ c_in (fst st') = s :: rest.
Proof.
  intros kd k s0 s rest (c & o) f HA (Z1 & Z2 & Z3 & (r & rs & Z4 & Z5 & Z6) & Z7 & Z8 & Z9 & Z10 & Z11 & Z12).
  cbn [input_shape snd]. rewrite Z1. destruct kd; try contradiction.
  - unfold set_dense, set_ff, set_layer, then_, on_cell, on_obj, use, out_size. cbn [front fst snd put_in put_insz c_out].
    rewrite Z4. cbn [front bind]. cbn in Z5. rewrite Z5.
    eexists. split; [reflexivity|]. split; [|cbn; repeat split; try apply head_kept_first].
    unfold sized_for. cbn in Z8, Z9, Z10, Z11, Z12.
    cbn [wanted fst snd put_par put_grads put_ig put_in put_insz o_kind o_act o_ig o_grads o_hs c_in c_insz c_out c_outsz c_par z_out z_act z_ig z_par z_hs].
    rewrite resize_length. erewrite !first_sized_lengths by eassumption.
    repeat split; auto; do 2 eexists; repeat split; try eassumption; discriminate.
  - unfold set_act, set_ff, set_layer, then_, on_cell, on_obj, use. cbn [front fst snd].
    eexists. split; [reflexivity|]. split; [|cbn; repeat split; try apply head_kept_refl].
    unfold sized_for. cbn in Z8, Z9, Z10, Z11, Z12.
    cbn [wanted fst snd put_act put_outsh put_ig put_in put_insz o_kind o_act o_ig o_grads o_hs c_in c_insz c_out c_outsz c_par z_out z_act z_ig z_par z_hs].
    rewrite !resize_length.
    repeat split; auto; do 2 eexists; repeat split; try discriminate.
    unfold flat, s3size; cbn; lia.
  - unfold set_drop, set_ff, set_layer, then_, on_cell, on_obj, use, out_size. cbn [front fst snd put_outsh c_out bind].
    eexists. split; [reflexivity|]. split; [|cbn; repeat split; try apply head_kept_refl].
    unfold sized_for. cbn in Z8, Z9, Z10, Z11, Z12.
    cbn [wanted fst snd put_act put_outsh put_ig put_in put_insz o_kind o_act o_ig o_grads o_hs c_in c_insz c_out c_outsz c_par z_out z_act z_ig z_par z_hs].
    rewrite !resize_length.
    repeat split; auto; do 2 eexists; repeat split; discriminate.
  - unfold set_conv, set_ff, set_layer, then_, on_cell, on_obj, use, out_size. cbn [front fst snd bind].
    rewrite (conv_out_ok s kh kw nf sh sw ph pw HA). cbn [put_outsh c_out front bind].
    eexists. split; [reflexivity|]. split; [|cbn; repeat split; try apply head_kept_first].
    unfold sized_for. cbn in Z8, Z9, Z10, Z11, Z12.
    cbn [wanted fst snd put_act put_outsh put_par put_grads put_ig put_in put_insz o_kind o_act o_ig o_grads o_hs c_in c_insz c_out c_outsz c_par z_out z_act z_ig z_par z_hs].
    rewrite !resize_length. erewrite !first_sized_lengths by eassumption.
    repeat split; auto; do 2 eexists; repeat split.
  - unfold set_pool, set_ff, set_layer, then_, on_cell, on_obj, use, out_size. cbn [front fst snd bind].
    rewrite (pool_out_ok s mx kh kw sh sw HA). cbn [put_outsh c_out front bind].
    eexists. split; [reflexivity|]. split; [|cbn; repeat split; try apply head_kept_refl].
    unfold sized_for. cbn in Z8, Z9, Z10, Z11, Z12.
    cbn [wanted fst snd put_act put_outsh put_ig put_in put_insz o_kind o_act o_ig o_grads o_hs c_in c_insz c_out c_outsz c_par z_out z_act z_ig z_par z_hs].
    rewrite !resize_length.
    repeat split; auto; do 2 eexists; repeat split.
  - unfold set_loss, set_layer, then_, on_cell, on_obj, use. cbn [front fst snd].
    eexists. split; [reflexivity|]. split; [|cbn; repeat split; try apply head_kept_refl].
    unfold sized_for. cbn in Z5, Z8, Z9, Z10, Z11, Z12.
    cbn [wanted fst snd put_ig put_in put_insz o_kind o_act o_ig o_grads o_hs c_in c_insz c_out c_outsz c_par z_out z_act z_ig z_par z_hs].
    rewrite !resize_length.
    repeat split; auto; do 2 eexists; repeat split; try eassumption; discriminate.
  - unfold set_rec, set_layer, then_, on_cell, on_obj, use. cbn [front fst snd put_in put_insz c_insz].
    eexists. split; [reflexivity|]. split; [|cbn; repeat split; try apply head_kept_first].
    unfold sized_for. cbn in Z5, Z7, Z8, Z9, Z10, Z11, Z12.
    cbn [wanted fst snd put_par put_grads put_ig put_in put_insz o_kind o_act o_ig o_grads o_hs c_in c_insz c_out c_outsz c_par z_out z_act z_ig z_par z_hs].
    rewrite !resize_length. erewrite !first_sized_lengths by eassumption.
    repeat split; auto; do 2 eexists; repeat split; try eassumption; discriminate.
Qed.

(** Any sequence of calls: the sizes are those of a layer newly built for the last shape. *)
Fixpoint shape_calls (calls : list (list shape3)) (st : lstate T) : lstate T * outcome :=
  match calls with
  | [] => (st, Done)
  | ls :: rest => let '(st', r) := input_shape 1 ls st in match r with Done => shape_calls rest st' | _ => (st', r) end
  end.
Theorem c82_like_new : forall kd k s0 calls s rest st0,
  accepts kd s0 -> layer_new kd s0 k = Ok st0 -> Forall (fun ls => exists s' r, ls = s' :: r /\ accepts kd s') (calls ++ [s :: rest]) ->
  exists st, shape_calls (calls ++ [s :: rest]) st0 = (st, Done) /\ sized_for kd k s st /\
  (forall i, 1 <= i -> nth i (c_par (fst st)) [] = nth i (c_par (fst st0)) []).
Proof.
  intros kd k s0 calls s rest st0 HA HN HF. apply c82_new in HN; [|exact HA]. clear HA.
  revert s0 st0 HN HF. induction calls as [|ls calls IH]; intros s0 st0 HN HF.
  - cbn [app] in HF. apply Forall_inv in HF as (s' & r & E & HA). injection E as <- <-.
    destruct (c82_call kd k s0 s rest st0 0 HA HN) as (st' & E & Z & (_ & K & _) & _).
    cbn [app shape_calls]. rewrite E. exists st'. auto.
  - cbn [app] in *. assert (HF' := Forall_inv_tail HF). apply Forall_inv in HF as (s' & r & -> & HA).
    destruct (c82_call kd k s0 s' r st0 0 HA HN) as (st' & E & Z & (_ & K & _) & _).
    cbn [app shape_calls]. rewrite E. destruct (IH s' st' Z HF') as (st2 & A & B & C). exists st2. split; [exact A|]. split; [exact B|].
    intros i Hi. rewrite C by exact Hi. apply K, Hi.
Qed.

(** A concatenate layer: the call never comes back. *)
Theorem c82_concat_loops : forall axis st, o_kind (snd st) = SConcat axis ->
  forall fuel ls, input_shape fuel ls st = (st, Unfinished).
Proof. intros axis st K fuel. induction fuel as [|f IH]; intros ls; cbn [input_shape]; [reflexivity|]. rewrite K. apply IH. Qed.

Theorem c82_returns_refuted : exists st : lstate T, layer_new (SConcat 0) (mkS 2 3 1) 0 = Ok st /\
  forall fuel ls, snd (input_shape fuel ls st) = Unfinished.
Proof. eexists. split; [reflexivity|]. intros fuel ls. now rewrite (c82_concat_loops 0) by reflexivity. Qed.

(** An empty shape is refused, after the shared shape was replaced. *)
Theorem c82_empty : forall st f, (forall a, o_kind (snd st) <> SConcat a) ->
  input_shape (S f) [] st = ((put_in [] (fst st), snd st), Thrown).
Proof. intros (c & o) f K. cbn [input_shape snd] in *. destruct (o_kind o) eqn:E; try reflexivity. exfalso. eapply K. reflexivity. Qed.
Theorem c82_failure_keeps_refuted : exists st ls st', layer_new (SDense : skind T) (flat 2) 1 = Ok st /\
  input_shape 1 ls st = (st', Thrown) /\ st' <> st /\ c_in (fst st) = [flat 2] /\ c_in (fst st') = [] /\ c_insz (fst st') = 2.
Proof.
  eexists _, [], _. split; [reflexivity|]. split; [reflexivity|]. split; [|repeat split].
  intros E. apply (f_equal (fun s : lstate T => length (c_in (fst s)))) in E. discriminate E.
Qed.

(** *** The layer can be used *)
Lemma in_size_of kd k s st : sized_for kd k s st -> in_size (fst st) = s3size s.
Proof. destruct st as (c & o). intros (_ & (i & rest & E & L & _) & _). unfold in_size. cbn [fst]. now rewrite E. Qed.
Lemma two_pars (l : list (list T)) a b : map (@length T) l = [a; b] -> length (par l 0) = a /\ length (par l 1) = b.
Proof. destruct l as [|x [|y [|z l]]]; try discriminate. intros E. injection E as <- <-. now split. Qed.

Lemma c82_dense_use : forall k s st, sized_for SDense k s st -> lshape (as_layer KDense st) (s3size s) k.
Proof.
  intros k s st Z. assert (I := in_size_of _ _ _ _ Z). destruct st as (c & o). cbn [fst] in I.
  destruct Z as (Z1 & Z2 & Z3 & Z4 & Z7 & Z8 & Z9 & Z10 & Z11 & Z12). cbn in Z8, Z9, Z10, Z11.
  apply two_pars in Z10, Z11. unfold lshape. cbn [as_layer insz ig out knd wts wgrad bias bgrad]. unfold s3size in *. tauto.
Qed.
Lemma c82_act_use : forall a k s st, sized_for (SAct a) k s st -> (a = Softmax -> 0 < s3size s) ->
  lshape (as_layer (KAct a) st) (s3size s) (s3size s).
Proof.
  intros a k s st Z HS. assert (I := in_size_of _ _ _ _ Z). destruct st as (c & o). cbn [fst] in I.
  destruct Z as (Z1 & Z2 & Z3 & Z4 & Z7 & Z8 & Z9 & Z10 & Z11 & Z12). cbn in Z8, Z9.
  unfold lshape. cbn [as_layer insz ig out knd]. unfold s3size in *. auto.
Qed.
Theorem c82_runs : forall kd lk k s st l x g,
  sized_for kd k s st -> l = as_layer lk st ->
  (kd = SDense /\ lk = KDense \/ exists a, kd = SAct a /\ lk = KAct a /\ k = s3size s /\ (a = Softmax -> 0 < s3size s)) ->
  length x = s3size s -> length g = k ->
  exists l1 l2, layer_forward l x = Ok l1 /\ length (out l1) = k /\
    layer_backward l1 x g = Ok l2 /\ length (ig l2) = s3size s /\ wts l2 = wts l /\ bias l2 = bias l.
Proof.
  intros kd lk k s st l x g Z -> HK Hx Hg.
  assert (HS : lshape (as_layer lk st) (s3size s) k).
  { destruct HK as [(-> & ->)|(a & -> & -> & -> & HS)]; [now apply c82_dense_use|now apply c82_act_use with (k := s3size s)]. }
  destruct (layer_forward_val _ _ _ x HS Hx) as (y & Hy & F).
  specialize (F _ HS (same_params_refl _)).
  assert (HS1 : lshape (set_out (as_layer lk st) y) (s3size s) k) by (apply lshape_set_out; assumption).
  destruct (layer_backward_shape _ _ _ x g HS1 Hx Hg) as (l2 & E & (P1 & P2 & P3 & P4) & S2 & _).
  exists (set_out (as_layer lk st) y), l2. split; [exact F|]. split; [exact Hy|]. split; [exact E|].
  split; [apply S2|]. split; [exact P3|exact P4].
Qed.

Theorem c82_rec_use : forall hid steps k s st, sized_for (SRec hid steps) k s st ->
  rec_wf (as_rec hid steps st) /\ r_in (as_rec hid steps st) = s3size s /\ r_out (as_rec hid steps st) = k.
Proof.
  intros hid steps k s (c & o) (Z1 & Z2 & Z3 & Z4 & Z7 & Z8 & Z9 & Z10 & Z11 & Z12). cbn in Z7, Z8, Z9, Z10, Z11, Z12.
  change (sh_h s * sh_w s * sh_c s) with (s3size s) in *.
  destruct (c_par c) as [|p0 [|p1 [|p2 [|p3 [|p4 [|p5 ps]]]]]] eqn:EP; try discriminate.
  destruct (o_grads o) as [|q0 [|q1 [|q2 [|q3 [|q4 [|q5 qs]]]]]] eqn:EQ; try discriminate.
  injection Z10 as A0 A1 A2 A3 A4. injection Z11 as B0 B1 B2 B3 B4.
  split; [|cbn; auto]. constructor; cbn [as_rec r_in r_out r_hid r_steps r_wih r_whh r_who r_bh r_bo r_gwih r_gwhh r_gwho r_gbh r_gbo r_hs r_act r_ig];
    rewrite ?EP, ?EQ; cbn [par nth]; rewrite ?Z3, ?Z7; assumption.
Qed.

(** Dropout: a fresh training pass works; the gradients need the mask of the last training pass to
    fit the new size. *)
Lemma c82_drop_use : forall p scale pos k s st, sized_for (SDrop p) k s st -> drop_ok (as_drop p scale pos st).
Proof.
  intros p scale pos k s st Z. assert (I := in_size_of _ _ _ _ Z). destruct st as (c & o). cbn [fst] in I.
  destruct Z as (Z1 & Z2 & Z3 & Z4 & Z7 & Z8 & Z9 & Z10 & Z11 & Z12). cbn in Z8, Z9.
  unfold drop_ok. cbn [as_drop d_out d_ig d_size]. unfold s3size in *. now rewrite I, Z8, Z9.
Qed.
Lemma foldM_wr_out (m : list nat) : forall (l : list T), (exists i, In i m /\ length l <= i) ->
  foldM (fun l i => wr l i n0) m l = UB.
Proof.
  induction m as [|j m IH]; intros l (i & Hi & Hl); [destruct Hi|]. cbn [foldM].
  destruct (Nat.ltb_spec j (length l)).
  - rewrite wr_ok by assumption. cbn [bind]. apply IH. exists i. rewrite upd_length.
    destruct Hi as [->|Hi]; [lia|auto].
  - unfold wr. destruct (Nat.ltb_spec j (length l)); [lia|]. reflexivity.
Qed.
Theorem c82_drop_backward : forall p scale pos k s st g, sized_for (SDrop p) k s st -> length g = s3size s ->
  ((exists d, drop_backward (as_drop p scale pos st) g = Ok d) <-> (forall i, In i (o_mask (snd st)) -> i < s3size s)) /\
  ((exists i, In i (o_mask (snd st)) /\ s3size s <= i) -> drop_backward (as_drop p scale pos st) g = UB).
Proof.
  intros p scale pos k s st g Z Hg. assert (D := c82_drop_use p scale pos _ _ _ Z). assert (I := in_size_of _ _ _ _ Z).
  assert (G : (exists i, In i (o_mask (snd st)) /\ s3size s <= i) -> drop_backward (as_drop p scale pos st) g = UB).
  { intros HM. destruct st as (c & o). destruct D as (D1 & D2). cbn [as_drop d_out d_ig d_size fst snd] in *.
    unfold drop_backward. cbn [as_drop d_out d_ig d_size d_scale d_mask].
    unfold arr_mul_val. rewrite (map_into_spec n0) by lia. cbn [bind]. rewrite foldM_wr_out; [reflexivity|].
    destruct HM as (i & Hi & Hl). exists i. split; [exact Hi|]. rewrite app_length, tab_length, skipn_length. lia. }
  split; [|exact G]. split.
  - intros (d & E) i Hi. destruct (Nat.lt_ge_cases i (s3size s)); auto. rewrite G in E; [discriminate|eauto].
  - intros HM. assert (EM : d_mask (as_drop p scale pos st) = o_mask (snd st)) by (destruct st; reflexivity).
    assert (ES : d_size (as_drop p scale pos st) = s3size s) by (destruct st; cbn; exact I).
    eexists. apply drop_backward_spec; [exact D|now rewrite ES|]. rewrite EM, ES. exact HM.
Qed.
End Shapes.

(** *** Copies *)
Section Family.
Context {T : Type} `{NumOps T} `{TransOps T} `{LimOps T}.

(** Another object of the family keeps its own buffers and sees the new shape and parameters. *)
Theorem c82_siblings : forall fuel (f f' : family T) i ls r, family_shape fuel f i ls = Ok (f', r) ->
  length (snd f') = length (snd f) /\ (forall j, j <> i -> nth_error (snd f') j = nth_error (snd f) j) /\
  exists o o', nth_error (snd f) i = Some o /\ nth_error (snd f') i = Some o' /\
    input_shape fuel ls (fst f, o) = ((fst f', o'), r).
Proof.
  intros fuel f f' i ls r E. unfold family_shape in E. apply bind_Ok_inv in E as (o & E1 & E).
  destruct (input_shape fuel ls (fst f, o)) as ((c & o') & r') eqn:EI.
  unfold wr in E. destruct (Nat.ltb_spec i (length (snd f))) as [Hi|]; [|discriminate]. cbn [bind] in E. injection E as <- <-.
  cbn [fst snd]. rewrite upd_length. split; [reflexivity|]. split; [intros j Hj; rewrite Base.nth_error_upd|].
  - destruct (Nat.eqb_spec j i); [contradiction|reflexivity].
  - exists o, o'. unfold rd in E1. destruct (nth_error (snd f) i) as [o1|] eqn:EN; [|discriminate]. injection E1 as ->.
    split; [reflexivity|]. split; [|exact EI]. rewrite Base.nth_error_upd, Nat.eqb_refl.
    destruct (Nat.ltb_spec i (length (snd f))); [reflexivity|lia].
Qed.

Lemma dense_1_narrow_ig (ig wg bg g last w : list T) inp outn : length ig < inp -> dense_1 ig wg bg g last w inp outn = UB.
Proof.
  intros Hi. unfold dense_1, fill0.
  assert (E : for_ inp (fun j ig => wr ig j n0) ig = UB).
  { unfold for_. assert (G : forall n j (l : list T), length l < j + n -> j <= length l -> for_from j n (fun j ig => wr ig j n0) l = UB).
    { induction n as [|n IH]; intros j l H2 H3; [lia|]. cbn [for_from]. unfold wr at 1. destruct (Nat.ltb_spec j (length l)); [|reflexivity].
      cbn [bind]. apply IH; rewrite upd_length; lia. }
    apply G; lia. }
  rewrite E. reflexivity.
Qed.

(** A copy of a dense layer after the original was resized from [n] to [m] inputs: predictions
    work; the gradients are computed inside the copy's buffers exactly when the layer shrank, and
    the vector they are returned in keeps its old length. *)
Theorem c82_copy_dense : forall k s0 s rest c o f' (l : layer T) x g,
  sized_for SDense k s0 (c, o) -> family_shape 1 (c, [o; o]) 0 (s :: rest) = Ok (f', Done) ->
  l = as_layer KDense (fst f', o) -> length x = s3size s -> length g = k ->
  (exists l1, layer_forward l x = Ok l1 /\ length (out l1) = k) /\
  (s3size s <= s3size s0 -> exists l2, layer_backward l x g = Ok l2 /\ length (ig l2) = s3size s0) /\
  (s3size s0 < s3size s -> layer_backward l x g = UB).
Proof.
  intros k s0 s rest c o f' l x g Z E -> Hx Hg.
  destruct (c82_siblings _ _ _ _ _ _ E) as (_ & _ & oo & o' & EO & EO' & EI). cbn [snd nth_error fst] in EO, EI. injection EO as <-.
  destruct (c82_call SDense k s0 s rest (c, o) 0 I Z) as (st' & EC & Z' & _). rewrite EI in EC. injection EC as <-.
  assert (IS := in_size_of _ _ _ _ Z'). cbn [fst] in IS. apply c82_dense_use in Z'. apply c82_dense_use in Z.
  destruct Z as (A1 & A2 & A3 & A4 & A5 & A6 & A7). destruct Z' as (B1 & B2 & B3 & B4 & B5 & B6 & B7).
  cbn [as_layer insz ig out knd wts wgrad bias bgrad] in *.
  unfold layer_forward, layer_backward. cbn [as_layer insz ig out knd wts wgrad bias bgrad]. rewrite Hx, Hg, IS, A3.
  split; [|split].
  - rewrite (dense_spec n0) by lia. cbn [bind]. eexists. split; [reflexivity|]. cbn [set_out out]. rewrite app_length, tab_length, skipn_length. lia.
  - intros Hs. destruct (dense_1_spec n0 (o_ig o) (par (o_grads o) 0) (par (o_grads o) 1) g x (par (c_par (fst f')) 0) (s3size s) k)
      as (ig' & wg' & bg' & ED & L & _); try lia; [rewrite A5; apply Nat.mul_le_mono_l, Hs|].
    rewrite ED. cbn [bind]. eexists. split; [reflexivity|]. cbn [ig]. lia.
  - intros Hs. rewrite dense_1_narrow_ig by lia. reflexivity.
Qed.
End Family.

(** *** What the layer computes *)
Local Open Scope R_scope.
(** The weight of input [j] in output [i]. *)
Definition weight_of (n : nat) (w : list R) (i j : nat) : R := nth (i * n + j)%nat w 0.

Theorem c82_conv_use : forall kh kw nf sh sw ph pw k s (st : lstate R) x,
  accepts (SConv kh kw nf sh sw ph pw : skind R) s -> sized_for (SConv kh kw nf sh sw ph pw) k s st ->
  length x = s3size s ->
  let o := (side (sh_h s) kh sh ph * side (sh_w s) kw sw pw * nf)%nat in
  conv_shape (as_conv kh kw nf sh sw ph pw st) (s3size s) o /\
  exists c', convl_forward (as_conv kh kw nf sh sw ph pw st) x = Ok c' /\ cv_out c' = conv_value (as_conv kh kw nf sh sw ph pw st) x /\
    length (cv_out c') = o.
Proof.
  intros kh kw nf sh sw ph pw k s (c & o) x ((A1 & A2) & (A3 & A4) & (A5 & A6) & A7 & A8)
    (Z1 & (i & ri & Z2 & Z2' & Z2s) & Z3 & (r & rr & Z4 & Z5 & Z6) & _ & Z8 & Z9 & Z10 & Z11 & Z12) Hx ou.
  cbn in Z8, Z9, Z10, Z11. apply two_pars in Z10, Z11. assert (Z6' := Z6 eq_refl). cbn [out_extents] in Z6'. injection Z6' as ->.
  rewrite (Z2s eq_refl) in *.
  assert (CS : conv_shape (as_conv kh kw nf sh sw ph pw (c, o)) (s3size s) ou).
  { unfold conv_shape. cbn [as_conv cv_H cv_W cv_C cv_kh cv_kw cv_nf cv_sh cv_sw cv_ph cv_pw cv_oh cv_ow cv_w cv_b cv_wg cv_bg cv_out cv_ig].
    rewrite Z2, Z4. cbn [hd sh_h sh_w sh_c]. unfold s3size, ou. tauto. }
  split; [exact CS|]. destruct (convl_forward_value _ _ _ x CS Hx) as (E & L). eexists. split; [exact E|]. split; [reflexivity|exact L].
Qed.
Theorem c82_pool_use : forall mx kh kw sh sw k s (st : lstate R) x,
  accepts (SPool mx kh kw sh sw : skind R) s -> sized_for (SPool mx kh kw sh sw) k s st -> length x = s3size s ->
  let o := (side (sh_h s) kh sh 0 * side (sh_w s) kw sw 0 * sh_c s)%nat in
  pool_shape (as_pool mx kh kw sh sw st) (s3size s) o /\
  exists p', pooll_forward (as_pool mx kh kw sh sw st) x = Ok p' /\ pl_out p' = pool_value (as_pool mx kh kw sh sw st) x /\
    length (pl_out p') = o.
Proof.
  intros mx kh kw sh sw k s (c & o) x ((A1 & A2) & (A3 & A4) & (A5 & A6) & A7 & A8)
    (Z1 & (i & ri & Z2 & Z2' & Z2s) & Z3 & _ & _ & Z8 & Z9 & _) Hx ou.
  cbn in Z8, Z9. rewrite (Z2s eq_refl) in *.
  assert (CS : pool_shape (as_pool mx kh kw sh sw (c, o)) (s3size s) ou).
  { unfold pool_shape, pl_oh, pl_ow. cbn [as_pool pl_H pl_W pl_C pl_kh pl_kw pl_sh pl_sw pl_out pl_ig].
    rewrite Z2. cbn [hd]. unfold s3size, ou. tauto. }
  split; [exact CS|]. destruct (pooll_forward_value _ _ _ x CS Hx) as (E & L). eexists. split; [exact E|]. split; [reflexivity|exact L].
Qed.

(** A dense layer resized from [n] to [m] inputs: connection (i, j) takes the weight of the old
    connection with the same place in the list, whichever input and output that was. *)
Theorem c82_dense_function : forall k s0 s rest (st st' : lstate R) x,
  sized_for SDense k s0 st -> input_shape 1 (s :: rest) st = (st', Done) -> length x = s3size s ->
  let n := s3size s0 in let m := s3size s in let w := nth 0 (c_par (fst st)) [] in
  exists l1, layer_forward (as_layer KDense st') x = Ok l1 /\ length (out l1) = k /\
    forall i, (i < k)%nat -> nth i (out l1) 0 = nth i (nth 1 (c_par (fst st)) []) 0 + Rsum m (fun j =>
      (if (i * m + j <? k * n)%nat then weight_of n w ((i * m + j) / n) ((i * m + j) mod n) else 0) * nth j x 0).
Proof.
  intros k s0 s rest st st' x Z E Hx n m w.
  destruct (c82_call SDense k s0 s rest st 0 I Z) as (st1 & E1 & Z' & (K1 & K2 & K3) & _). rewrite E in E1. injection E1 as <-.
  assert (HS := c82_dense_use _ _ _ Z'). destruct (layer_forward_sem _ _ _ x HS Hx) as (EF & L).
  eexists. split; [exact EF|]. split; [exact L|]. intros i Hi.
  assert (HS0 := c82_dense_use _ _ _ Z). destruct st as (c & o), st' as (c' & o'). cbn [fst snd] in *.
  destruct HS as (B1 & B2 & B3 & B4 & B5 & B6 & B7). destruct HS0 as (A1 & A2 & A3 & A4 & A5 & A6 & A7).
  cbn [as_layer insz ig out knd wts wgrad bias bgrad set_out layer_sem] in *.
  unfold layer_sem. cbn [as_layer knd out wts bias]. unfold dense_sem. rewrite nth_tab by (rewrite B3; exact Hi).
  unfold par in *. rewrite (K2 1%nat) by lia. f_equal. rewrite Hx. apply Rsum_ext. intros j Hj. f_equal.
  fold m in B4. unfold m in *. rewrite K3 by (rewrite B4; nia).
  fold n in A4. fold w in A4 |- *. destruct (Nat.ltb_spec (i * s3size s + j) (k * n)) as [Hp|Hp].
  - unfold weight_of. f_equal. assert (n <> 0)%nat by (intros ->; lia).
    rewrite (Nat.mul_comm _ n). now rewrite <- Nat.div_mod.
  - apply nth_overflow. rewrite A4. exact Hp.
Qed.

(** With one output the weights stay with their inputs. *)
Theorem c82_single_output : forall s0 s rest (st st' : lstate R) x0 x,
  sized_for SDense 1 s0 st -> input_shape 1 (s :: rest) st = (st', Done) ->
  length x0 = s3size s0 -> length x = s3size s ->
  (forall j, nth j x 0 = nth j x0 0 \/ (s3size s <= j)%nat /\ nth j x0 0 = 0 \/ (s3size s0 <= j)%nat) ->
  exists l0 l1, layer_forward (as_layer KDense st) x0 = Ok l0 /\ layer_forward (as_layer KDense st') x = Ok l1 /\ out l1 = out l0.
Proof.
  intros s0 s rest st st' x0 x Z E Hx0 Hx HX.
  destruct (c82_dense_function 1 s0 s rest st st' x Z E Hx) as (l1 & E1 & L1 & F1).
  assert (HS0 := c82_dense_use _ _ _ Z). destruct (layer_forward_sem _ _ _ x0 HS0 Hx0) as (EF & L0).
  eexists _, l1. split; [exact EF|]. split; [exact E1|].
  apply (list_ext_nth 0); [cbn [set_out out]; lia|]. rewrite L1. intros i Hi. rewrite F1 by exact Hi.
  replace i with 0%nat by lia. destruct st as (c & o).
  destruct HS0 as (A1 & A2 & A3 & A4 & A5 & A6 & A7).
  cbn [as_layer insz ig out knd wts wgrad bias bgrad set_out fst] in *. unfold layer_sem. cbn [as_layer knd out wts bias].
  unfold dense_sem. rewrite nth_tab by lia. unfold par in *. f_equal. rewrite Hx0.
  set (n := s3size s0) in *. set (m := s3size s) in *. set (w := nth 0 (c_par c) []) in *. clearbody n m w.
  assert (G1 : Rsum m (fun j => (if (0 * m + j <? 1 * n)%nat then weight_of n w ((0 * m + j) / n) ((0 * m + j) mod n) else 0) * nth j x 0)
             = Rsum m (fun j => nth j w 0 * nth j x 0)).
  { apply Rsum_ext. intros j Hj. f_equal. cbn [Nat.mul Nat.add]. destruct (Nat.ltb_spec j (n + 0)).
    - unfold weight_of. rewrite Nat.div_small, Nat.mod_small by lia. reflexivity.
    - symmetry. apply nth_overflow. lia. }
  rewrite G1. clear G1. cbn [Nat.mul Nat.add].
  destruct (Nat.le_ge_cases m n) as [Hmn|Hmn].
  - replace n with (m + (n - m))%nat by lia. rewrite Rsum_app.
    rewrite (Rsum_0 (n - m)), Rplus_0_r.
    + apply Rsum_ext. intros j Hj. destruct (HX j) as [->|[(A & B)|A]]; [reflexivity|lia|lia].
    + intros j Hj. destruct (HX (m + j)%nat) as [A|[(A & B)|A]]; [|rewrite B; ring|lia].
      rewrite <- A, (nth_overflow x) by lia. ring.
  - replace m with (n + (m - n))%nat by lia. rewrite Rsum_app.
    rewrite (Rsum_0 (m - n)), Rplus_0_r.
    + apply Rsum_ext. intros j Hj. destruct (HX j) as [->|[(A & B)|A]]; [reflexivity|lia|lia].
    + intros j Hj. rewrite (nth_overflow w) by lia. ring.
Qed.

(** Two outputs are enough for the weights to move: the identity of two inputs, given a third. *)
Definition ident2 : lstate R := (scell_new (flat 2) (flat 2) [[1; 0; 0; 1]; [0; 0]], mkObj SDense (zs 2) (zs 2) [zs 4; zs 2] [] []).
Lemma ident2_sized : sized_for SDense 2 (flat 2) ident2.
Proof. unfold sized_for, ident2, scell_new. cbn. repeat split; do 2 eexists; repeat split; discriminate. Qed.
Theorem c82_weights_follow_refuted : exists s0 s (st st' : lstate R) x0 l0 l1,
  sized_for SDense 2 s0 st /\ input_shape 1 [s] st = (st', Done) /\ length x0 = s3size s0 /\ s3size s = S (s3size s0) /\
  layer_forward (as_layer KDense st) x0 = Ok l0 /\ layer_forward (as_layer KDense st') (x0 ++ [0]) = Ok l1 /\
  out l0 = [0; 5] /\ out l1 = [0; 0].
Proof.
  exists (flat 2), (flat 3), ident2. eexists. exists [0; 5]. do 2 eexists.
  split; [exact ident2_sized|]. split; [reflexivity|]. split; [reflexivity|]. split; [reflexivity|].
  split; [cbn; reflexivity|]. split; [cbn; reflexivity|]. cbn. split; repeat (f_equal; try ring).
Qed.

(** A copy of a dense layer cannot be trained after the original was given more inputs. *)
Theorem c82_copies_usable_refuted : exists (c : scell R) o f' x g,
  layer_new SDense (flat 1) 1 = Ok (c, o) /\ clone_of (c, [o]) 0 = Ok (c, [o; o]) /\
  family_shape 1 (c, [o; o]) 0 [flat 2] = Ok (f', Done) /\ c_in (fst f') = [flat 2] /\ nth_error (snd f') 1 = Some o /\
  length x = 2%nat /\ length g = 1%nat /\ layer_backward (as_layer KDense (fst f', o)) x g = UB.
Proof.
  do 3 eexists. exists [3; 4], [1]. split; [reflexivity|]. split; [reflexivity|]. split; [reflexivity|].
  split; [reflexivity|]. split; [reflexivity|]. split; [reflexivity|]. split; [reflexivity|].
  reflexivity.
Qed.

(** A dropout layer made smaller between the training pass and the gradients. *)
Theorem c82_mask_refuted : exists (st st' : lstate R) d1 draw,
  sized_for (SDrop (9 / 10)) 0 (flat 2) st /\
  drop_tforward draw (drop_new 2 (9 / 10)) [1; 1] = Ok d1 /\
  d_out d1 = o_act (snd st) /\ d_ig d1 = o_ig (snd st) /\ d_mask d1 = o_mask (snd st) /\
  input_shape 1 [flat 1] st = (st', Done) /\ sized_for (SDrop (9 / 10)) 0 (flat 1) st' /\
  drop_backward (as_drop (9 / 10) (d_scale d1) (d_pos d1) st') [1] = UB.
Proof.
  set (st := (scell_new (flat 2) (flat 2) [], mkObj (SDrop (9 / 10)) [0; 0] [0; 0] [] [0; 1]%nat []) : lstate R).
  assert (Z : sized_for (SDrop (9 / 10)) 0 (flat 2) st).
  { unfold sized_for, st, scell_new. cbn. repeat split; do 2 eexists; repeat split; discriminate. }
  destruct (c82_call (SDrop (9 / 10)) 0 (flat 2) (flat 1) [] st 0 I Z) as (st' & E & Z' & _ & _ & M & _).
  exists st, st'. eexists. exists (fun _ => 1 / 2). split; [exact Z|]. split.
  { unfold drop_tforward, for_. cbn [drop_new d_size d_p d_pos d_scale d_out d_ig for_from].
    assert (NL : nltb (9 / 10) (1 / 2) = false) by (cbn [nltb NumR]; unfold Rltb; destruct (Rlt_dec (9 / 10) (1 / 2)); [lra|reflexivity]).
    rewrite NL. cbn [repeat wr length Nat.ltb Nat.leb bind upd app]. reflexivity. }
  cbn [d_out d_ig d_mask d_scale d_pos]. split; [reflexivity|]. split; [reflexivity|]. split; [reflexivity|].
  split; [exact E|]. split; [exact Z'|].
  apply (c82_drop_backward (9 / 10) _ _ 0 (flat 1) st' [1] Z' eq_refl). rewrite M. exists 1%nat. cbn. auto.
Qed.

(** *** The hypotheses of the theorems are met *)
(** A convolution of 3x3 windows, two filters, padding 1, first for one channel of 5 x 5, then
    for two channels of 4 x 6 and again for one channel. *)
Definition ex_conv : skind R := SConv 3 3 2 1 2 1 0.
Example c82_hypotheses_met :
  accepts ex_conv (mkS 5 5 1) /\ (exists st, layer_new ex_conv (mkS 5 5 1) 0 = Ok st) /\
  Forall (fun ls => exists s' r, ls = s' :: r /\ accepts ex_conv s') ([[mkS 4 6 2; flat 7]] ++ [[mkS 4 6 1]]) /\
  wanted ex_conv 0 (mkS 4 6 1) = mkSizes 16 16 24 [18; 2]%nat 0 /\
  wanted ex_conv 0 (mkS 4 6 2) = mkSizes 16 16 48 [36; 2]%nat 0.
Proof.
  assert (A : forall a b c, (3 <= a < 10)%nat -> (3 <= b < 10)%nat -> accepts ex_conv (mkS a b c)).
  { intros a b c Ha Hb. unfold accepts, ex_conv. cbn [sh_h sh_w]. repeat split; try lia. }
  split; [apply A; lia|]. split.
  { cbn [layer_new ex_conv]. rewrite (conv_out_ok (T := R)) by (apply A; lia). eexists. reflexivity. }
  split.
  { repeat constructor; do 2 eexists; split; try reflexivity; apply A; lia. }
  split; reflexivity.
Qed.
(** Single output: a layer of two inputs given a third, and back to one. *)
Definition ex_row : lstate R := (scell_new (flat 2) (flat 1) [[4; 5]; [6]], mkObj SDense (zs 1) (zs 2) [zs 2; zs 1] [] []).
Example c82_single_met : sized_for SDense 1 (flat 2) ex_row /\
  (exists st', input_shape 1 [flat 3] ex_row = (st', Done) /\ nth 0 (c_par (fst st')) [] = [4; 5; 0]) /\
  (exists st', input_shape 1 [flat 1] ex_row = (st', Done) /\ nth 0 (c_par (fst st')) [] = [4]) /\
  (forall j, nth j [1; 2; 9] 0 = nth j [1; 2] 0 \/ (s3size (flat 3) <= j)%nat /\ nth j [1; 2] 0 = 0 \/ (s3size (flat 2) <= j)%nat).
Proof.
  split. { unfold sized_for, ex_row, scell_new. cbn. repeat split; do 2 eexists; repeat split; discriminate. }
  split. { eexists. split; reflexivity. }
  split. { eexists. split; reflexivity. }
  intros [|[|j]]; [now left|now left|right; right; cbn; lia].
Qed.

Print Assumptions c82_new.
Print Assumptions c82_call.
Print Assumptions c82_like_new.
Print Assumptions c82_runs.
Print Assumptions c82_rec_use.
Print Assumptions c82_drop_backward.
Print Assumptions c82_conv_use.
Print Assumptions c82_pool_use.
Print Assumptions c82_dense_function.
Print Assumptions c82_single_output.
Print Assumptions c82_siblings.
Print Assumptions c82_copy_dense.
Print Assumptions c82_empty.
Print Assumptions c82_concat_loops.
Print Assumptions c82_returns_refuted.
Print Assumptions c82_failure_keeps_refuted.
Print Assumptions c82_weights_follow_refuted.
Print Assumptions c82_copies_usable_refuted.
Print Assumptions c82_mask_refuted.
