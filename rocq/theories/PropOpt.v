(** C29, C30, C31: flat parameter indexing and the optimizers. *)
From Verif Require Import Base Num RSum OptModel OptProofs.
From Coq Require Import Reals Lra Permutation.

(** *** C29 *)
(** [has l b o]: the layer owns a parameter at position [o] of its parameter vector [b]. *)
Definition has {T} (l : player T) (b o : nat) : Prop :=
  b < length (pblocks l) /\ o < length (nth b (pblocks l) []).

(** Layers reachable from a constructor by changing the input shape. *)
Inductive built {T} `{NumOps T} : player T -> Prop :=
| b_new : forall k, built (player_new k)
| b_input : forall n l, built l -> built (set_input n l).

Lemma built_wf {T} `{NumOps T} (l : player T) : built l -> wf_player l.
Proof. induction 1; [apply wf_new|now apply wf_set_input]. Qed.

Lemma nth_map_len {T} (B : list (list T)) b : nth b (map (@length T) B) 0 = length (nth b B []).
Proof. change 0 with (length (@nil T)). apply map_nth. Qed.

Theorem c29_flat_index : forall T (NT : NumOps T) (l : player T), wf_player l ->
  (* inside: a parameter of the layer, readable, and the gradient at the same place *)
  (forall i, i < pcount (pk l) -> exists b o, param_loc l i = Ok (b, o) /\ has l b o /\
     grad_loc l i = Ok (b, o) /\
     bget (pblocks l) (b, o) = Ok (nth o (nth b (pblocks l) []) n0) /\
     bget (gblocks l) (b, o) = Ok (nth o (nth b (gblocks l) []) n0)) /\
  (* every parameter exactly once *)
  (forall b o, has l b o -> exists! i, i < pcount (pk l) /\ param_loc l i = Ok (b, o)) /\
  (* outside: exception *)
  (forall i, pcount (pk l) <= i -> param_loc l i = Throw /\ grad_loc l i = Throw).
Proof.
  intros T NT l (WP & WG).
  assert (SP : nsum_list (map (@length T) (pblocks l)) = pcount (pk l)) by
    (rewrite WP; symmetry; apply pcount_sum).
  split; [|split].
  - intros i Hi. unfold param_loc, grad_loc. rewrite !loc_split by auto.
    destruct (Nat.ltb_spec i (pcount (pk l))); [|lia]. rewrite WG, <- WP.
    destruct (split_pos_bound (map (@length T) (pblocks l)) i) as (A & B); [lia|].
    destruct (split_pos (map (@length T) (pblocks l)) i) as [b o] eqn:E. cbn [fst snd] in A, B.
    rewrite map_length in A. rewrite nth_map_len in B.
    assert (G1 : b < length (gblocks l)).
    { rewrite <- (map_length (@length T)), WG, <- WP, map_length. exact A. }
    assert (G2 : o < length (nth b (gblocks l) [])).
    { rewrite <- nth_map_len, WG, <- WP, nth_map_len. exact B. }
    exists b, o. split; [reflexivity|]. split; [now split|]. split; [reflexivity|].
    unfold bget. cbn [fst snd].
    rewrite (rd_nth (pblocks l) b []), (rd_nth (gblocks l) b []) by auto. cbn [bind].
    rewrite !(rd_nth _ o n0) by auto. auto.
  - intros b o (Hb & Ho).
    destruct (split_pos_surj (map (@length T) (pblocks l)) b o) as (i & Hi & E).
    { now rewrite map_length. } { now rewrite nth_map_len. }
    exists i. split.
    + split; [lia|]. unfold param_loc. rewrite loc_split by auto.
      destruct (Nat.ltb_spec i (pcount (pk l))); [|lia]. now rewrite E.
    + intros j (Hj & Ej). unfold param_loc in Ej. rewrite loc_split in Ej by auto.
      destruct (Nat.ltb_spec j (pcount (pk l))); [|lia].
      apply (split_pos_inj (map (@length T) (pblocks l))); try lia. congruence.
  - intros i Hi. unfold param_loc, grad_loc. rewrite !loc_split by auto.
    destruct (Nat.ltb_spec i (pcount (pk l))); [lia|]. auto.
Qed.
Print Assumptions c29_flat_index.

(** Every layer built by a constructor and then given any input shapes is covered, and the
    count is the number of parameters it holds. *)
Theorem c29_built_layers : forall T (NT : NumOps T) (l : player T), built l ->
  wf_player l /\ length (concat (pblocks l)) = pcount (pk l) /\
  length (concat (gblocks l)) = pcount (pk l).
Proof.
  intros T NT l Hb. apply built_wf in Hb. split; [exact Hb|]. destruct Hb as (WP & WG).
  split; now apply blocks_total.
Qed.
Print Assumptions c29_built_layers.

Example c29_hypotheses_met :
  built (set_input 3 (player_new (PRec 0 2 1)) : player Z) /\
  param_loc (set_input 3 (player_new (PRec 0 2 1)) : player Z) 11 = Ok (2, 1) /\
  has (set_input 3 (player_new (PRec 0 2 1)) : player Z) 2 1 /\
  built (player_new (PDense 3 2) : player Z) /\ built (player_new (PConv 4 3 2) : player Z).
Proof.
  split; [apply b_input, b_new|]. split; [reflexivity|]. split; [split; cbn; lia|].
  split; apply b_new.
Qed.

(** *** C30 *)
Lemma nth_blocks {T} (B : list (list T)) d b o : b < length B -> o < length (nth b B []) ->
  exists i, i < length (concat B) /\ nth o (nth b B []) d = nth i (concat B) d /\
    split_pos (map (@length T) B) i = (b, o).
Proof.
  intros Hb Ho.
  destruct (split_pos_surj (map (@length T) B) b o) as (i & Hi & E).
  { now rewrite map_length. } { now rewrite nth_map_len. }
  rewrite <- concat_len in Hi. exists i. split; [exact Hi|]. split; [|exact E].
  pose proof (bget_split d B i Hi) as X. rewrite E in X. unfold bget in X. cbn [fst snd] in X.
  rewrite (rd_nth B b []) in X by auto. cbn [bind] in X. rewrite (rd_nth _ o d) in X by auto.
  congruence.
Qed.

Lemma same_shape {T} (B B' : list (list T)) b : map (@length T) B = map (@length T) B' ->
  length (nth b B []) = length (nth b B' []).
Proof. intros E. rewrite <- !nth_map_len. now rewrite E. Qed.

(** train(from, to) on two layers of the same shape: the parameters of [to] move by the
    gradients of [from], which are cleared. *)
Theorem c30_train_from_to : forall T (NT : NumOps T) eta k (P G : list (list T)),
  blocks_ok k P -> blocks_ok k G ->
  exists P' G', gd_train2 eta k k P G = Ok (P', G') /\ blocks_ok k P' /\ blocks_ok k G' /\
  forall b o, b < length P -> o < length (nth b P []) ->
    nth o (nth b P' []) n0 = nsub (nth o (nth b P []) n0) (nmul eta (nth o (nth b G []) n0)) /\
    nth o (nth b G' []) n0 = n0.
Proof.
  intros T NT eta k P G WP WG.
  destruct (gd_train2_spec n0 eta k P G WP WG) as (P' & G' & E & WP' & WG' & CP & CG).
  exists P', G'. split; [exact E|]. split; [exact WP'|]. split; [exact WG'|].
  intros b o Hb Ho.
  assert (M1 : map (@length T) P = map (@length T) P') by (unfold blocks_ok in *; congruence).
  assert (M2 : map (@length T) P = map (@length T) G) by (unfold blocks_ok in *; congruence).
  assert (M3 : map (@length T) P = map (@length T) G') by (unfold blocks_ok in *; congruence).
  assert (LB : forall B : list (list T), map (@length T) P = map (@length T) B -> b < length B).
  { intros B EB. rewrite <- (map_length (@length T)), <- EB, map_length. exact Hb. }
  destruct (nth_blocks P n0 b o Hb Ho) as (i & Hi & N1 & S1).
  destruct (nth_blocks P' n0 b o) as (i2 & Hi2 & N2 & S2);
    [now apply LB|now rewrite <- (same_shape _ _ b M1)|].
  destruct (nth_blocks G n0 b o) as (i3 & Hi3 & N3 & S3);
    [now apply LB|now rewrite <- (same_shape _ _ b M2)|].
  destruct (nth_blocks G' n0 b o) as (i4 & Hi4 & N4 & S4);
    [now apply LB|now rewrite <- (same_shape _ _ b M3)|].
  rewrite concat_len in Hi, Hi2, Hi3, Hi4.
  rewrite <- M1 in Hi2, S2. rewrite <- M2 in Hi3, S3. rewrite <- M3 in Hi4, S4.
  assert (i2 = i) by (apply (split_pos_inj _ _ _ Hi2 Hi); congruence).
  assert (i3 = i) by (apply (split_pos_inj _ _ _ Hi3 Hi); congruence).
  assert (i4 = i) by (apply (split_pos_inj _ _ _ Hi4 Hi); congruence).
  subst i2 i3 i4.
  rewrite WP, <- pcount_sum in Hi.
  rewrite N1, N2, N3, N4, CP, CG. rewrite nth_tab by auto. split; [reflexivity|].
  apply nth_repeat.
Qed.
Print Assumptions c30_train_from_to.

(** One layer. *)
Theorem c30_train_layer : forall T (NT : NumOps T) eta (l : player T), wf_player l ->
  exists l', gd_train eta l = Ok l' /\ wf_player l' /\ pk l' = pk l /\
  forall b o, has l b o ->
    nth o (nth b (pblocks l') []) n0
      = nsub (nth o (nth b (pblocks l) []) n0) (nmul eta (nth o (nth b (gblocks l) []) n0)) /\
    nth o (nth b (gblocks l') []) n0 = n0.
Proof.
  intros T NT eta l (WP & WG).
  destruct (c30_train_from_to T NT eta (pk l) (pblocks l) (gblocks l) WP WG)
    as (P' & G' & E & WP' & WG' & X).
  exists (mkPlayer (pk l) P' G'). unfold gd_train. rewrite E. split; [reflexivity|].
  split; [now split|]. split; [reflexivity|]. intros b o (Hb & Ho). now apply X.
Qed.
Print Assumptions c30_train_layer.

(** All layers of a model: each is trained, whatever the order. *)
Theorem c30_train_model : forall T (NT : NumOps T) eta (ls : list (player T)),
  Forall wf_player ls ->
  exists ls', gd_train_all eta ls = Ok ls' /\
    Forall2 (fun l l' => gd_train eta l = Ok l' /\ wf_player l') ls ls' /\
    forall ms, Permutation ls ms ->
      exists ms', gd_train_all eta ms = Ok ms' /\ Permutation ls' ms'.
Proof.
  intros T NT eta ls Hw.
  assert (Hall : forall ls, Forall wf_player ls -> exists ls', gd_train_all eta ls = Ok ls' /\
    Forall2 (fun l l' => gd_train eta l = Ok l' /\ wf_player l') ls ls').
  { clear. induction 1 as [|l ls Hl Hls (ls' & E & F)].
    - exists []. split; [reflexivity|constructor].
    - destruct (c30_train_layer T NT eta l Hl) as (l' & E1 & W1 & _).
      exists (l' :: ls'). unfold gd_train_all in *. cbn [mapM]. rewrite E1. cbn [bind]. rewrite E.
      split; [reflexivity|]. constructor; auto. }
  destruct (Hall ls Hw) as (ls' & E & F). exists ls'. split; [exact E|]. split; [exact F|].
  intros ms Hp. destruct (Hall ms) as (ms' & E2 & F2).
  { eapply Permutation_Forall; eauto. }
  exists ms'. split; [exact E2|]. clear E E2 Hw Hall.
  revert ls' F ms' F2. induction Hp as [|l ls ms Hp IH|a b ls|ls ms ns H1 IH1 H2 IH2];
    intros ls' F ms' F2.
  - inversion F; inversion F2; subst. constructor.
  - inversion F as [|? l' ? ls'' (E & _) F']; inversion F2 as [|? m' ? ms'' (E2 & _) F2']; subst.
    assert (l' = m') by congruence. subst. constructor. now apply IH.
  - inversion F as [|? l1 ? r1 (E1 & _) F1]; subst. inversion F1 as [|? l2 ? r2 (E2 & _) F3]; subst.
    inversion F2 as [|? m1 ? q1 (G1 & _) G2]; subst. inversion G2 as [|? m2 ? q2 (G3 & _) G4]; subst.
    assert (l1 = m2) by congruence. assert (l2 = m1) by congruence. subst.
    assert (r2 = q2).
    { clear - F3 G4. revert q2 G4. induction F3 as [|x y l r (Ex & _) F IH]; intros q G;
        inversion G as [|? z ? w (Ez & _) G']; subst; auto.
      f_equal; [congruence|now apply IH]. }
    subst. apply perm_swap.
  - assert (exists r, Forall2 (fun l l' => gd_train eta l = Ok l' /\ wf_player l') ms r) as (r & Fr).
    { clear IH1 IH2 H2 F2. revert ls' F. induction H1; intros ls' F.
      - exists []. constructor.
      - inversion F as [|? y0 ? r0 Fy Fr0]; subst. destruct (IHPermutation _ Fr0) as (r & Hr).
        exists (y0 :: r). now constructor.
      - inversion F as [|? y0 ? r0 Fy Fr0]; subst. inversion Fr0 as [|? y1 ? r1 Fy1 Fr1]; subst.
        exists (y1 :: y0 :: r1). constructor; auto.
      - destruct (IHPermutation1 _ F) as (r & Hr). now apply (IHPermutation2 r). }
    eapply perm_trans; [eapply IH1; eauto|eapply IH2; eauto].
Qed.
Print Assumptions c30_train_model.

(** Training again without a new backward pass changes nothing (over the reals). *)
Theorem c30_train_again : forall eta (l l' : player R), wf_player l ->
  gd_train eta l = Ok l' -> gd_train eta l' = Ok l'.
Proof.
  intros eta l l' (WP & WG) E. unfold gd_train in E.
  destruct (gd_train2_spec 0%R eta (pk l) (pblocks l) (gblocks l) WP WG)
    as (P' & G' & E1 & WP' & WG' & CP & CG).
  rewrite E1 in E. cbn [bind] in E. injection E as <-.
  unfold gd_train. cbn [pk pblocks gblocks].
  destruct (gd_train2_spec 0%R eta (pk l) P' G' WP' WG') as (P2 & G2 & E2 & WP2 & WG2 & CP2 & CG2).
  rewrite E2. cbn [bind]. f_equal. f_equal.
  - apply concat_inj; [unfold blocks_ok in *; congruence|].
    rewrite CP2. rewrite <- (blocks_total _ _ WP'). transitivity (tab (length (concat P')) (fun i => nth i (concat P') 0%R)); [|apply tab_nth].
    apply tab_ext. intros i Hi. rewrite CG.
    replace (nth i (repeat n0 (pcount (pk l))) 0%R) with 0%R by (symmetry; apply nth_repeat).
    cbn [nsub nmul NumR]. ring.
  - apply concat_inj; [unfold blocks_ok in *; congruence|]. congruence.
Qed.
Print Assumptions c30_train_again.

Example c30_hypotheses_met :
  wf_player (mkPlayer (PDense 2 1) [[1; 2]; [3]] [[10; 20]; [30]])%Z /\
  gd_train 2%Z (mkPlayer (PDense 2 1) [[1; 2]; [3]] [[10; 20]; [30]])%Z
    = Ok (mkPlayer (PDense 2 1) [[-19; -38]; [-57]] [[0; 0]; [0]])%Z.
Proof. split; [split; reflexivity|reflexivity]. Qed.

(** *** C31 *)
Local Open Scope R_scope.

(** Documented Adam for one parameter with gradient history [gs] (oldest first): moments and
    the amount subtracted at the last step. *)
Definition doc_moment (beta : R) (gs : list R) : R :=
  Rsum (length gs) (fun i => (1 - beta) * beta ^ (length gs - 1 - i) * nth i gs 0).
Definition doc_step (eta b1 b2 eps : R) (gs : list R) : R :=
  let k := length gs in
  eta * ((doc_moment b1 gs / (1 - b1 ^ k))
         / (sqrt (doc_moment b2 (map (fun g => g * g) gs) / (1 - b2 ^ k)) + eps)).

(** The optimizer has seen the gradients [h], in this order. *)
Definition adam_seen (a : adam R) (h : list R) : Prop :=
  a_m a = doc_moment (a_b1 a) h /\ a_v a = doc_moment (a_b2 a) (map (fun g => g * g) h) /\
  a_t a = S (length h).

Lemma doc_moment_snoc beta h g : doc_moment beta (h ++ [g]) = beta * doc_moment beta h + (1 - beta) * g.
Proof.
  unfold doc_moment. rewrite app_length. simpl length. rewrite Nat.add_1_r. cbn [Rsum].
  rewrite app_nth2, Nat.sub_diag by lia. cbn [nth].
  replace (S (length h) - 1 - length h)%nat with 0%nat by lia. cbn [pow].
  rewrite <- Rsum_scal_l. f_equal; [|ring]. apply Rsum_ext. intros i Hi.
  rewrite app_nth1 by auto.
  replace (S (length h) - 1 - i)%nat with (S (length h - 1 - i)) by lia. cbn [pow]. ring.
Qed.

Lemma adam_seen_visit a h g : adam_seen a h -> adam_seen (adam_visit a g) (h ++ [g]).
Proof.
  intros (E1 & E2 & E3). unfold adam_seen, adam_visit. cbn [a_m a_v a_t a_b1 a_b2].
  rewrite map_app. cbn [map]. rewrite !doc_moment_snoc, app_length. simpl length.
  cbn [nadd nmul nsub n1 NumR]. rewrite E1, E2, E3. repeat split; try ring; try lia.
Qed.

Lemma adam_seen_fold gs : forall a h, adam_seen a h -> adam_seen (fold_left adam_visit gs a) (h ++ gs).
Proof.
  induction gs as [|g gs IH]; intros a h Hs; simpl; [now rewrite app_nil_r|].
  replace (h ++ g :: gs) with ((h ++ [g]) ++ gs) by now rewrite <- app_assoc.
  apply IH. now apply adam_seen_visit.
Qed.

Lemma adam_consts (gs : list R) : forall a : adam R, let a' := fold_left adam_visit gs a in
  a_eta a' = a_eta a /\ a_b1 a' = a_b1 a /\ a_b2 a' = a_b2 a /\ a_eps a' = a_eps a.
Proof.
  induction gs as [|g gs IH]; intros a; simpl; auto.
  destruct (IH (adam_visit a g)) as (A & B & C & D). auto.
Qed.

Lemma adam_delta_doc a h g : adam_seen a h ->
  adam_delta a g = doc_step (a_eta a) (a_b1 a) (a_b2 a) (a_eps a) (h ++ [g]).
Proof.
  intros Hs. destruct (adam_seen_visit a h g Hs) as (E1 & E2 & E3). destruct Hs as (_ & _ & E4).
  unfold adam_delta, doc_step. rewrite E1, E2. cbn [adam_visit a_b1 a_b2].
  rewrite E4, app_length. simpl length. rewrite Nat.add_1_r. reflexivity.
Qed.

Lemma adam_new_seen eta b1 b2 eps : adam_seen (adam_new eta b1 b2 eps) [].
Proof. repeat split. Qed.

(** What the code does: the shared moments run over all parameters in visiting order, so the
    step of parameter i uses the gradients of every parameter visited before it. *)
Theorem c31_adam_actual : forall a h (l : player R), wf_player l -> adam_seen a h ->
  exists a' l', adam_train a l = Ok (a', l') /\ wf_player l' /\ pk l' = pk l /\
    adam_seen a' (h ++ concat (gblocks l)) /\
    (forall i, (i < pcount (pk l))%nat ->
       nth i (concat (pblocks l')) 0 = nth i (concat (pblocks l)) 0
         - doc_step (a_eta a) (a_b1 a) (a_b2 a) (a_eps a) (h ++ firstn (S i) (concat (gblocks l)))) /\
    concat (gblocks l') = repeat 0 (pcount (pk l)) /\
    a_eta a' = a_eta a /\ a_b1 a' = a_b1 a /\ a_b2 a' = a_b2 a /\ a_eps a' = a_eps a.
Proof.
  intros a h l (WP & WG) Hs.
  destruct (adam_train2_spec 0 a (pk l) (pblocks l) (gblocks l) WP WG)
    as (P' & G' & E & WP' & WG' & CP & CG).
  exists (fold_left adam_visit (concat (gblocks l)) a), (mkPlayer (pk l) P' G').
  unfold adam_train. rewrite E. split; [reflexivity|]. split; [now split|]. split; [reflexivity|].
  split; [now apply adam_seen_fold|]. split; [|split; [exact CG|apply adam_consts]].
  cbn [pblocks]. intros i Hi. rewrite CP, nth_tab by auto. cbn [nsub NumR]. f_equal.
  pose proof (blocks_total _ _ WG) as LG.
  rewrite (firstn_S_nth 0) by lia. rewrite app_assoc.
  destruct (adam_consts (firstn i (concat (gblocks l))) a) as (A & B & C & D).
  rewrite (adam_delta_doc _ (h ++ firstn i (concat (gblocks l)))) by now apply adam_seen_fold.
  now rewrite A, B, C, D.
Qed.
Print Assumptions c31_adam_actual.

(** With a single parameter this is the documented algorithm. Each step: the gradient becomes
    [g], then train. *)
Fixpoint adam_steps (a : adam R) (l : player R) (gs : list (list (list R))) : res (adam R * player R) :=
  match gs with
  | [] => Ok (a, l)
  | G :: gs' =>
      '(a, l) <- adam_train a (mkPlayer (pk l) (pblocks l) G) ;; adam_steps a l gs'
  end.

Theorem c31_single_parameter_partial : forall eta b1 b2 eps (l : player R) gs,
  wf_player l -> pcount (pk l) = 1%nat -> Forall (blocks_ok (pk l)) gs ->
  exists a' l', adam_steps (adam_new eta b1 b2 eps) l gs = Ok (a', l') /\
    nth 0 (concat (pblocks l')) 0 = nth 0 (concat (pblocks l)) 0
      - Rsum (length gs) (fun k => doc_step eta b1 b2 eps
          (map (fun G => nth 0 (concat G) 0) (firstn (S k) gs))).
Proof.
  intros eta b1 b2 eps l gs Hw Hc Hg.
  assert (Gen : forall gs l h a, wf_player l -> pcount (pk l) = 1%nat -> Forall (blocks_ok (pk l)) gs ->
     adam_seen a h -> a_eta a = eta -> a_b1 a = b1 -> a_b2 a = b2 -> a_eps a = eps ->
     exists a' l', adam_steps a l gs = Ok (a', l') /\
       nth 0 (concat (pblocks l')) 0 = nth 0 (concat (pblocks l)) 0
         - Rsum (length gs) (fun k => doc_step eta b1 b2 eps
             (h ++ map (fun G => nth 0 (concat G) 0) (firstn (S k) gs)))).
  { clear. induction gs as [|G gs IH]; intros l h a Hw Hc Hg Hs C1 C2 C3 C4.
    - exists a, l. split; [reflexivity|]. simpl. ring.
    - inversion Hg as [|? ? HG Hgs]; subst.
      destruct (c31_adam_actual a h (mkPlayer (pk l) (pblocks l) G)) as
        (a1 & l1 & E & W1 & K1 & S1 & P1 & _ & D1 & D2 & D3 & D4); auto.
      { split; [apply Hw|exact HG]. }
      cbn [pk pblocks gblocks] in *.
      pose proof (blocks_total _ _ HG) as LG. rewrite Hc in LG.
      assert (EG : concat G = [nth 0 (concat G) 0]).
      { destruct (concat G) as [|g [|? ?]]; simpl in *; try lia. reflexivity. }
      destruct (IH l1 (h ++ concat G) a1) as (a' & l' & E2 & P2); auto; try congruence.
      exists a', l'. cbn [adam_steps]. rewrite E. cbn [bind]. split; [exact E2|].
      rewrite P2, P1 by lia. cbn [length]. rewrite Rsum_shift.
      rewrite (Rsum_ext _ _ (fun k => doc_step (a_eta a) (a_b1 a) (a_b2 a) (a_eps a)
         (h ++ map (fun G => nth 0 (concat G) 0) (firstn (S (S k)) (G :: gs))))).
      2:{ intros k Hk. f_equal. rewrite <- app_assoc. f_equal. rewrite EG at 1. reflexivity. }
      rewrite firstn_all2 by lia. cbn [firstn map]. rewrite <- EG. unfold Rminus. ring. }
  apply (Gen gs l [] (adam_new eta b1 b2 eps)); auto. apply adam_new_seen.
Qed.
Print Assumptions c31_single_parameter_partial.

(** Two layers that differ only in the gradient of the weight: the bias, with the same value
    and the same gradient history, is updated differently. *)
Theorem c31_independent_refuted : forall eta b1 b2 eps,
  eta <> 0 -> 0 < b1 < 1 -> 0 < b2 < 1 -> 0 < eps ->
  exists (l1 l2 l1' l2' : player R) a1 a2,
    wf_player l1 /\ wf_player l2 /\ pk l1 = pk l2 /\ pblocks l1 = pblocks l2 /\
    nth 1 (gblocks l1) [] = nth 1 (gblocks l2) [] /\
    adam_train (adam_new eta b1 b2 eps) l1 = Ok (a1, l1') /\
    adam_train (adam_new eta b1 b2 eps) l2 = Ok (a2, l2') /\
    nth 1 (pblocks l1') [] <> nth 1 (pblocks l2') [].
Proof.
  intros eta b1 b2 eps He Hb1 Hb2 Heps.
  exists (mkPlayer (PDense 1 1) [[0]; [0]] [[0]; [0]]), (mkPlayer (PDense 1 1) [[0]; [0]] [[1]; [0]]).
  do 4 eexists.
  split; [split; reflexivity|]. split; [split; reflexivity|].
  split; [reflexivity|]. split; [reflexivity|]. split; [reflexivity|].
  split; [reflexivity|]. split; [reflexivity|].
  cbn. rewrite !Rmult_1_r, !Rmult_0_r, !Rplus_0_r, !Rplus_0_l, ?Rmult_0_r.
  intros E. injection E as E.
  match type of E with ?lhs = ?rhs => assert (lhs = 0) as L0 end.
  { unfold Rdiv. rewrite ?Rmult_0_l, ?Rmult_0_r, ?Rmult_0_l. ring. }
  rewrite L0 in E. clear L0.
  match type of E with _ = 0 - eta * (?m / ?q / (sqrt ?s + eps)) =>
    assert (Hm : 0 < m); [|assert (Hq : 0 < q); [|pose proof (sqrt_pos s) as Hs;
      assert (Hd : 0 < m / q / (sqrt s + eps))]] end.
  - apply Rmult_lt_0_compat; lra.
  - nra.
  - apply Rdiv_lt_0_compat; [apply Rdiv_lt_0_compat; auto|lra].
  - assert (eta * (b1 * (1 - b1) / (1 - b1 * b1) / (sqrt (b2 * (1 - b2) / (1 - b2 * b2)) + eps)) = 0) by lra.
    apply Rmult_integral in H. destruct H; lra.
Qed.
Print Assumptions c31_independent_refuted.

Example c31_hypotheses_met :
  wf_player (mkPlayer (PDense 0 1) [[]; [1]] [[]; [2]]) /\ pcount (PDense 0 1) = 1%nat /\
  Forall (blocks_ok (PDense 0 1)) [[[]; [5]]; [[]; [7]]] /\
  adam_seen (adam_new 1 (1/2) (1/2) 1) [].
Proof.
  split; [split; reflexivity|]. split; [reflexivity|].
  split; [repeat constructor|apply adam_new_seen].
Qed.
