(** Property C98: concatenate layers in models. *)
From Coq Require Import ZArith List Lia.
From Verif Require Import Base Num ArrayModel ArraySpec PropArray ConcatModel PropConcat MathModel LayerModel LossModel OptModel GraphModel GraphSpec GraphProofs ModelModel NodeModel PropGraph ConcatNetModel.
Import ListNotations.

Section Props.
Context {T S : Type} `{NumOps T}.
Variable op : nodeops T S.
Notation ops := (j_ops op).
Implicit Types ns : list (jnode T S * source).

(** Node [v] is a concatenate layer that was called [k] times, with gradient buffer [z] *)
Definition called (k v : nat) (z : list T) ns : Prop :=
  exists c p, nth_error ns v = Some (JC c z, p) /\ length (c_ins c) = 1 /\ c_cur c = k.
Fixpoint times (v : nat) (l : list nat) : nat := match l with [] => 0 | x :: l => (if x =? v then 1 else 0) + times v l end.

Lemma concl_forward_first (c : concl T) x (c' : concl T) : length (c_ins c) = 1 -> c_cur c = 0 -> concl_forward c x = Ok c' -> length (c_ins c') = 1 /\ c_cur c' = 1.
Proof.
  intros L E F. unfold concl_forward in F. rewrite E in F. cbn [Nat.eqb Nat.ltb Nat.leb] in F.
  destruct (rd (c_ins c) 0) as [cs| |]; try discriminate F. cbn [bind] in F. destruct (at_chk (c_ins c) 0) as [sh| |]; try discriminate F. cbn [bind] in F.
  destruct (at_chk sh (c_axis c)) as [ax| |]; try discriminate F. cbn [bind] in F. destruct (rd cs (c_axis c)) as [off| |]; try discriminate F. cbn [bind] in F.
  destruct (append _ _ _ _ _ _) as [b| |]; try discriminate F. cbn [bind] in F. injection F as <-. cbn [c_ins c_cur]. rewrite L. auto.
Qed.
Lemma concl_forward_second (c : concl T) x : length (c_ins c) = 1 -> c_cur c = 1 -> concl_forward c x = Throw.
Proof.
  intros L E. unfold concl_forward. rewrite E. cbn [Nat.eqb bind]. destruct (c_ins c) as [|a [|b l]]; try discriminate L. reflexivity.
Qed.

Lemma nth_error_upd {A} (l : list A) i j x : nth_error (upd l i x) j = if (j =? i) && (i <? length l) then Some x else nth_error l j.
Proof.
  revert i j. induction l as [|a l IH]; intros [|i] [|j]; cbn [upd nth_error]; try reflexivity; [now rewrite andb_false_r|].
  rewrite IH. reflexivity.
Qed.
(** Setting a node that is not [v] *)
Lemma called_other k v z ns b nd ns' : called k v z ns -> b <> v -> wr ns b nd = Ok ns' -> called k v z ns'.
Proof.
  intros (c & p & E & Q) N W. unfold wr in W. destruct (b <? length ns); [|discriminate W]. injection W as <-. exists c, p. split; [|exact Q]. rewrite nth_error_upd.
  destruct (Nat.eqb_spec v b); [congruence|]. exact E.
Qed.
Lemma called_self k v z ns c p ns' : length (c_ins c) = 1 -> c_cur c = k -> wr ns v (JC c z, p) = Ok ns' -> called k v z ns'.
Proof.
  intros L E W. unfold wr in W. destruct (v <? length ns) eqn:B; [|discriminate W]. injection W as <-. exists c, p. split; [|auto]. rewrite nth_error_upd, Nat.eqb_refl, B. reflexivity.
Qed.
Lemma feed_called tr k v z ns b from x ns' : k <= 1 -> called k v z ns ->
  ('(s, p) <- rd ns b ;; n <- feed ops tr s p x from ;; wr ns b n) = Ok ns' ->
  called (k + (if b =? v then 1 else 0)) v z ns' /\ k + (if b =? v then 1 else 0) <= 1.
Proof.
  intros Hk C E. destruct (Nat.eqb_spec b v) as [->|N].
  - destruct C as (c & p & Ev & L & Ec). rewrite (rd_ok _ _ _ Ev) in E. cbn [bind] in E.
    assert (F : exists c' p', concl_forward c x = Ok c' /\ wr ns v (JC c' z, p') = Ok ns').
    { unfold feed in E. destruct tr; cbn [o_tforward o_forward ops j_ops j_tforward j_forward] in E; (destruct (concl_forward c x) as [c'| |]; cbn [bind] in E; try discriminate E; eauto). }
    destruct F as (c' & p' & F & W). destruct k as [|[|k]]; [|rewrite concl_forward_second in F by assumption; discriminate F|lia].
    destruct (concl_forward_first _ _ _ L Ec F) as (L' & E'). split; [|lia]. eapply called_self; eauto.
  - rewrite Nat.add_0_r. split; [|exact Hk]. destruct (rd ns b) as [(s & p)| |]; cbn [bind] in E; try discriminate E. destruct (feed ops tr s p x from) as [n| |]; cbn [bind] in E; try discriminate E. eapply called_other; eauto.
Qed.
Lemma inputs_called tr v z x l : forall k ns ns', k <= 1 -> called k v z ns -> foldM (feed_input ops tr x) l ns = Ok ns' -> called (k + times v l) v z ns' /\ k + times v l <= 1.
Proof.
  induction l as [|b l IH]; intros k ns ns' Hk C E; cbn [foldM times] in *; [injection E as <-; rewrite Nat.add_0_r; auto|].
  destruct (feed_input ops tr x ns b) as [n1| |] eqn:E1; cbn [bind] in E; try discriminate E. destruct (feed_called tr k v z ns b SInput x n1 Hk C E1) as (C1 & H1). destruct (IH _ _ _ H1 C1 E) as (C2 & H2). rewrite Nat.add_assoc. auto.
Qed.
Lemma run_called tr v z l : forall k ns ns', k <= 1 -> called k v z ns -> foldM (run_arc ops tr) l ns = Ok ns' -> called (k + times v (map snd l)) v z ns' /\ k + times v (map snd l) <= 1.
Proof.
  induction l as [|(a & b) l IH]; intros k ns ns' Hk C E; cbn [foldM times map snd] in *; [injection E as <-; rewrite Nat.add_0_r; auto|].
  destruct (run_arc ops tr ns (a, b)) as [n1| |] eqn:E1; cbn [bind] in E; try discriminate E. unfold run_arc in E1. destruct (node_output ops ns a) as [y| |]; cbn [bind] in E1; try discriminate E1.
  destruct (feed_called tr k v z ns b (SNode a) y n1 Hk C E1) as (C1 & H1). destruct (IH _ _ _ H1 C1 E) as (C2 & H2). rewrite Nat.add_assoc. auto.
Qed.
Lemma back_called k v z x ns b g ns' : called k v z ns -> back_node ops x ns b g = Ok ns' -> called k v z ns'.
Proof.
  intros C E. unfold back_node in E. destruct (Nat.eq_dec b v) as [->|N].
  - destruct C as (c & p & Ev & L & Ec). rewrite (rd_ok _ _ _ Ev) in E. cbn [bind] in E. destruct (deref ops ns x p) as [last| |]; cbn [bind] in E; try discriminate E. cbn [o_backward ops j_ops j_backward bind] in E. eapply called_self; eauto.
  - destruct (rd ns b) as [(s & p)| |]; cbn [bind] in E; try discriminate E. destruct (deref ops ns x p) as [last| |]; cbn [bind] in E; try discriminate E. destruct (o_backward ops s last g) as [s'| |]; cbn [bind] in E; try discriminate E. eapply called_other; eauto.
Qed.
Lemma backs_called {B} k v z (f : list (jnode T S * source) -> B -> res (list (jnode T S * source))) l : (forall ns b ns', called k v z ns -> f ns b = Ok ns' -> called k v z ns') ->
  forall ns ns', called k v z ns -> foldM f l ns = Ok ns' -> called k v z ns'.
Proof.
  intros Hf. induction l as [|b l IH]; intros ns ns' C E; cbn [foldM] in E; [now injection E as <-|]. destruct (f ns b) as [n1| |] eqn:E1; cbn [bind] in E; try discriminate E. eauto.
Qed.
Lemma predict_called m x m' y k v z : k <= 1 -> called k v z (mnodes m) -> m_predict ops m x = Ok (m', y) ->
  exists run, sched (fgraph (mgraph m)) (nodes (mgraph m)) (inputs (mgraph m)) = Ok run /\ mgraph m' = mgraph m /\
    called (k + times v (inputs (mgraph m) ++ map snd run)) v z (mnodes m') /\ k + times v (inputs (mgraph m) ++ map snd run) <= 1.
Proof.
  intros Hk C E. unfold m_predict in E. destruct (outputs (mgraph m)) as [|o os]; [discriminate E|]. destruct (sched _ _ _) as [run| |]; cbn [bind] in E; try discriminate E. exists run. split; [reflexivity|].
  destruct (foldM (feed_input ops false x) _ _) as [n1| |] eqn:E1; cbn [bind] in E; try discriminate E. destruct (foldM (run_arc ops false) run n1) as [n2| |] eqn:E2; cbn [bind] in E; try discriminate E.
  destruct (node_output ops n2 o) as [w| |]; cbn [bind] in E; try discriminate E. injection E as <- <-. cbn [mgraph mnodes]. split; [reflexivity|].
  destruct (inputs_called false v z x _ _ _ _ Hk C E1) as (C1 & H1). destruct (run_called false v z _ _ _ _ H1 C1 E2) as (C2 & H2).
  assert (TA : forall a b, times v (a ++ b) = times v a + times v b) by (clear; induction a as [|q a IH]; intros b; cbn; [reflexivity|rewrite IH; lia]). rewrite TA, Nat.add_assoc. auto.
Qed.
Lemma step_called m x t m' k v z : k <= 1 -> called k v z (mnodes m) -> m_step ops m x t = Ok m' ->
  exists run, sched (tgraph (mgraph m)) (nodes (mgraph m)) (inputs (mgraph m)) = Ok run /\ mgraph m' = mgraph m /\
    called (k + times v (inputs (mgraph m) ++ map snd run)) v z (mnodes m') /\ k + times v (inputs (mgraph m) ++ map snd run) <= 1.
Proof.
  intros Hk C E. unfold m_step in E. destruct (sched (tgraph _) _ _) as [run| |]; cbn [bind] in E; try discriminate E. destruct (sched (bgraph _) _ _) as [brun| |]; cbn [bind] in E; try discriminate E. exists run. split; [reflexivity|].
  destruct (foldM (set_targets ops t) _ _) as [n0'| |] eqn:E0; cbn [bind] in E; try discriminate E.
  destruct (foldM (feed_input ops true x) _ _) as [n1| |] eqn:E1; cbn [bind] in E; try discriminate E. destruct (foldM (run_arc ops true) run n1) as [n2| |] eqn:E2; cbn [bind] in E; try discriminate E.
  destruct (foldM (fun ns i => back_node ops x ns i []) _ _) as [n3| |] eqn:E3; cbn [bind] in E; try discriminate E. destruct (foldM (back_arc ops x) brun n3) as [n4| |] eqn:E4; cbn [bind] in E; try discriminate E. injection E as <-. cbn [mgraph mnodes]. split; [reflexivity|].
  assert (C0 : called k v z n0').
  { eapply backs_called; [|exact C|exact E0]. clear. intros ns b ns' C E. unfold set_targets in E. destruct (Nat.eq_dec b v) as [->|N].
    - destruct C as (c & p & Ev & L & Ec). rewrite (rd_ok _ _ _ Ev) in E. cbn [bind o_target ops j_ops j_target] in E. eapply called_self; eauto.
    - destruct (rd ns b) as [(s & p)| |]; cbn [bind] in E; try discriminate E. eapply called_other; eauto. }
  destruct (inputs_called true v z x _ _ _ _ Hk C0 E1) as (C1 & H1). destruct (run_called true v z _ _ _ _ H1 C1 E2) as (C2 & H2).
  assert (TA : forall a b, times v (a ++ b) = times v a + times v b) by (clear; induction a as [|q a IH]; intros b; cbn; [reflexivity|rewrite IH; lia]). rewrite TA, Nat.add_assoc. split; [|exact H2].
  eapply backs_called; [|eapply backs_called; [|exact C2|exact E3]|exact E4].
  - intros ns (a & b) ns' C' E'. unfold back_arc in E'. destruct (rd ns a) as [(s & p)| |]; cbn [bind] in E'; try discriminate E'. eapply back_called; eauto.
  - intros ns b ns' C' E'. exact (back_called _ _ _ _ _ _ _ _ C' E').
Qed.
Lemma times_in v l : In v l -> 1 <= times v l.
Proof. induction l as [|x l IH]; cbn; [easy|]. intros [->|I]; [rewrite Nat.eqb_refl; lia|specialize (IH I); lia]. Qed.
Lemma new_called shs axis s p ns v : jc_new shs axis = Ok s -> nth_error ns v = Some (s, p) -> exists i, concat_input_shape shs axis = Ok i /\ called 0 v (repeat n0 (shape_size i)) ns.
Proof.
  intros E Ev. unfold jc_new, concl_new in E. destruct (concat_input_shape shs axis) as [i| |]; try discriminate E. cbn [bind] in E. destruct (concat_output_shape shs axis) as [o| |]; try discriminate E. cbn [bind] in E.
  cbn [c_ins rd nth_error bind] in E. injection E as <-. exists i. split; [reflexivity|]. eexists. exists p. split; [exact Ev|]. auto.
Qed.

(** The connections that lead to [v], in the forward pass of predictions or of steps *)
Definition leads (g : edges) (start : list nat) (a v : nat) : Prop := reachable g start a /\ In v (g a).
Lemma sched_leads g n start run : finite_graph n g -> NoDup start -> sched g n start = Ok run -> forall a b, In (a, b) run <-> leads g start a b.
Proof.
  intros F N E. destruct (c34_schedule n g start F N) as (arcs & E1 & _ & _ & I). unfold sched in E. rewrite (E1 (n + 2)) in E by lia. injection E as <-. exact I.
Qed.
Lemma times_two v (a b : nat) (run : list arc) : a <> b -> In (a, v) run -> In (b, v) run -> 2 <= times v (map snd run).
Proof.
  intros N. induction run as [|(x & y) run IH]; cbn [In map times snd]; [easy|]. intros [E1|I1] [E2|I2].
  - congruence.
  - injection E1 as -> ->. rewrite Nat.eqb_refl. assert (1 <= times v (map snd run)) by (apply times_in; apply (in_map snd) in I2; exact I2). lia.
  - injection E2 as -> ->. rewrite Nat.eqb_refl. assert (1 <= times v (map snd run)) by (apply times_in; apply (in_map snd) in I1; exact I1). lia.
  - specialize (IH I1 I2). lia.
Qed.
Lemma times_app v a b : times v (a ++ b) = times v a + times v b.
Proof. induction a as [|q a IH]; cbn; [reflexivity|rewrite IH; lia]. Qed.

(** With two connections to a concatenate layer (the case it is made for) no prediction and no
    step ever ends normally, whatever the other layers are. *)
Theorem c98_joins_refuted : forall os m v shs axis s p a b, gbuild os = Ok (mgraph m) -> jc_new shs axis = Ok s -> nth_error (mnodes m) v = Some (s, p) -> a <> b ->
  (leads (fgraph (mgraph m)) (inputs (mgraph m)) a v -> leads (fgraph (mgraph m)) (inputs (mgraph m)) b v -> forall x r, m_predict ops m x <> Ok r) /\
  (leads (tgraph (mgraph m)) (inputs (mgraph m)) a v -> leads (tgraph (mgraph m)) (inputs (mgraph m)) b v -> forall x t r, m_step ops m x t <> Ok r).
Proof.
  intros os m v shs axis s p a b G Es Ev N. destruct (c34_built_models os _ G) as (F1 & F2 & _ & ND & _). destruct (new_called _ _ _ _ _ _ Es Ev) as (i & _ & C). split.
  - intros A B x (m' & y) E. destruct (predict_called m x m' y 0 v _ (Nat.le_0_l 1) C E) as (run & R1 & _ & _ & K). pose proof (sched_leads _ _ _ _ F1 ND R1) as L.
    pose proof (times_two v a b run N (proj2 (L a v) A) (proj2 (L b v) B)) as T2. rewrite times_app in K. lia.
  - intros A B x t m' E. destruct (step_called m x t m' 0 v _ (Nat.le_0_l 1) C E) as (run & R1 & _ & _ & K). pose proof (sched_leads _ _ _ _ F2 ND R1) as L.
    pose proof (times_two v a b run N (proj2 (L a v) A) (proj2 (L b v) B)) as T2. rewrite times_app in K. lia.
Qed.

(** A concatenate layer that is used can be used once: of any program of predictions and steps
    at most the first call ends normally. *)
Theorem c98_once_refuted : forall os m v shs axis s p, gbuild os = Ok (mgraph m) -> jc_new shs axis = Ok s -> nth_error (mnodes m) v = Some (s, p) ->
  In v (inputs (mgraph m)) \/ (exists a, leads (fgraph (mgraph m)) (inputs (mgraph m)) a v) /\ (exists a, leads (tgraph (mgraph m)) (inputs (mgraph m)) a v) ->
  forall calls r, foldM (j_call op) calls m = Ok r -> length calls <= 1.
Proof.
  intros os m v shs axis s p G Es Ev U. destruct (c34_built_models os _ G) as (F1 & F2 & _ & ND & _). destruct (new_called _ _ _ _ _ _ Es Ev) as (i & _ & C).
  assert (ST : forall c m0 m1 k, k <= 1 -> mgraph m0 = mgraph m -> called k v (repeat n0 (shape_size i)) (mnodes m0) -> j_call op m0 c = Ok m1 ->
    mgraph m1 = mgraph m /\ exists k', called k' v (repeat n0 (shape_size i)) (mnodes m1) /\ k + 1 <= k' <= 1).
  { intros [x|x t] m0 m1 k Hk Gm C0 E; cbn [j_call] in E.
    - destruct (m_predict ops m0 x) as [(m' & y)| |] eqn:P; cbn [bind] in E; try discriminate E. injection E as ->. destruct (predict_called m0 x m1 y k v _ Hk C0 P) as (run & R1 & R2 & R3 & K). rewrite Gm in *.
      split; [exact R2|]. eexists. split; [exact R3|]. split; [|exact K]. rewrite times_app. destruct U as [U|((a & U) & _)]; [apply times_in in U; lia|].
      apply (sched_leads _ _ _ _ F1 ND R1) in U. apply (in_map snd) in U. apply times_in in U. cbn [snd] in U. lia.
    - destruct (step_called m0 x t m1 k v _ Hk C0 E) as (run & R1 & R2 & R3 & K). rewrite Gm in *.
      split; [exact R2|]. eexists. split; [exact R3|]. split; [|exact K]. rewrite times_app. destruct U as [U|(_ & a & U)]; [apply times_in in U; lia|].
      apply (sched_leads _ _ _ _ F2 ND R1) in U. apply (in_map snd) in U. apply times_in in U. cbn [snd] in U. lia. }
  intros [|c1 [|c2 calls]] r E; [cbn; lia|cbn; lia|]. exfalso. cbn [foldM] in E. destruct (j_call op m c1) as [m1| |] eqn:E1; cbn [bind] in E; try discriminate E. destruct (j_call op m1 c2) as [m2| |] eqn:E2; cbn [bind] in E; try discriminate E.
  destruct (ST c1 m m1 0 (Nat.le_0_l 1) eq_refl C E1) as (Gm1 & k1 & C1 & K1). destruct (ST c2 m1 m2 k1 ltac:(lia) Gm1 C1 E2) as (_ & k2 & _ & K2). lia.
Qed.

(** The gradient a concatenate layer hands to the layers in front of it is zero, after any calls. *)
Theorem c98_gradient_zero : forall calls m v shs axis s p m', jc_new shs axis = Ok s -> nth_error (mnodes m) v = Some (s, p) -> foldM (j_call op) calls m = Ok m' ->
  exists s' p' i, nth_error (mnodes m') v = Some (s', p') /\ concat_input_shape shs axis = Ok i /\ o_gradient ops s' = repeat n0 (shape_size i).
Proof.
  intros calls m v shs axis s p m' Es Ev E. destruct (new_called _ _ _ _ _ _ Es Ev) as (i & Ei & C).
  assert (K : exists k, k <= 1 /\ called k v (repeat n0 (shape_size i)) (mnodes m)) by (exists 0; split; [lia|exact C]). clear C Es Ev. revert m E K. induction calls as [|c calls IH]; intros m E (k & Hk & C); cbn [foldM] in E.
  - injection E as <-. destruct C as (q & p' & Q & _). exists (JC q (repeat n0 (shape_size i))), p', i. auto.
  - destruct (j_call op m c) as [m1| |] eqn:E1; cbn [bind] in E; try discriminate E. apply (IH m1 E). destruct c as [x|x t]; cbn [j_call] in E1.
    + destruct (m_predict ops m x) as [(m2 & y)| |] eqn:P; cbn [bind] in E1; try discriminate E1. injection E1 as ->. destruct (predict_called m x m1 y k v _ Hk C P) as (run & _ & _ & R3 & K). eauto.
    + destruct (step_called m x t m1 k v _ Hk C E1) as (run & _ & _ & R3 & K). eauto.
Qed.
End Props.

(** *** Cases: two dense layers feed a concatenate layer of two values; one dense layer feeds one. *)
#[local] Instance exTrans : TransOps Z := Build_TransOps Z (fun x => x) (fun x => x) (fun x => x) (fun x => x) (fun x _ => x).
#[local] Instance exLim : LimOps Z := Build_LimOps Z 0%Z 0%Z.
Definition ex_dense (w b : Z) : jnode Z (node Z) := JO (NL (mkLayer KDense 1 [w] [b] [0%Z] [0%Z] [0%Z] [0%Z])).
Definition ex_join (g : dlgraph) (c : jnode Z (node Z)) : model (jnode Z (node Z)) := mkModel g [(ex_dense 2 1, SNull); (ex_dense 3 1, SNull); (c, SNull)].
Definition ex_row (g : dlgraph) (c : jnode Z (node Z)) : model (jnode Z (node Z)) := mkModel g [(ex_dense 2 1, SNull); (c, SNull)].
Lemma walk_start g start x : In x start -> reachable g start x.
Proof. intros I. exists 0. now constructor. Qed.
Example c98_join_met : exists g c, gbuild [GLayer; GLayer; GLayer; GEdge 0 2; GEdge 1 2] = Ok g /\ jc_new (S := node Z) [[1; 1; 1]; [1; 1; 1]] 0 = Ok c /\
  leads (fgraph g) (inputs g) 0 2 /\ leads (fgraph g) (inputs g) 1 2 /\ m_predict (j_ops (node_ops (fun _ => 0%Z))) (ex_join g c) [5%Z] = Throw.
Proof.
  destruct (gbuild [GLayer; GLayer; GLayer; GEdge 0 2; GEdge 1 2]) as [g| |] eqn:E; try discriminate E. injection E as <-. eexists. eexists. split; [reflexivity|]. split; [reflexivity|].
  split; [split; [apply walk_start; vm_compute; auto|vm_compute; auto]|]. split; [split; [apply walk_start; vm_compute; auto|vm_compute; auto]|]. reflexivity.
Qed.
Example c98_once_met : exists g c m, gbuild [GLayer; GLayer; GEdge 0 1] = Ok g /\ jc_new (S := node Z) [[1; 1; 1]; [1; 1; 1]] 0 = Ok c /\
  leads (fgraph g) (inputs g) 0 1 /\ leads (tgraph g) (inputs g) 0 1 /\ m_predict (j_ops (node_ops (fun _ => 0%Z))) (ex_row g c) [5%Z] = Ok (m, [0; 11]%Z) /\
  m_predict (j_ops (node_ops (fun _ => 0%Z))) m [5%Z] = Throw.
Proof.
  destruct (gbuild [GLayer; GLayer; GEdge 0 1]) as [g| |] eqn:E; try discriminate E. injection E as <-. eexists. eexists. eexists. split; [reflexivity|]. split; [reflexivity|].
  split; [split; [apply walk_start; vm_compute; auto|vm_compute; auto]|]. split; [split; [apply walk_start; vm_compute; auto|vm_compute; auto]|]. split; reflexivity.
Qed.

Print Assumptions c98_joins_refuted.
Print Assumptions c98_once_refuted.
Print Assumptions c98_gradient_zero.
