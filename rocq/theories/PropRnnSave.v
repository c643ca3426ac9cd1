(** C99: networks with recurrent layers that were saved and loaded, and the hidden states. *)
From Coq Require Import Ascii String Reals Lra Lia.
From Verif Require Import Base Num RSum MathModel MathProofs LayerModel LossModel GradSpec GradProofs GradChain OptModel GraphModel GraphProofs ModelModel NodeModel ChainProofs ModelProofs PropModel PropMath PropStep.
From Verif Require Import RecurrentModel RecurrentProofs PropRecurrent RnnModel RnnProofs PropRnn CnnModel CnnSpec.
From Verif Require Import TypeModel PropTypes StreamModel JsonModel PropJson DumpModel PropDump FloatModel SaveModel DriftProofs PropSave CnnSaveModel CnnDriftProofs PropCnnSave RnnSaveModel RnnDriftProofs.
Local Open Scope list_scope.
Local Open Scope nat_scope.
Local Notation length := List.length.

(** The same class of layer; sizes, time steps, parameters and hidden states may differ. *)
Definition rlike (s s0 : rnode R) : Prop :=
  match s, s0 with
  | RL l, RL l0 => knd l0 = knd l
  | RR _, RR _ => True
  | RO kd _, RO kd0 _ => like_loss kd kd0
  | _, _ => False
  end.
(** A network and what dump sees of it; the text of the file can be read back. *)
Record rsaveable (F : R -> Prop) (dm : dmodel) (m : model (rnode R)) : Prop := {
  rv_shows : Forall2 rshows (m_layers dm) (map fst (mnodes m));
  rv_ok : model_ok F dm;
  rv_name : ~ In quote (m_name dm);
  rv_file : Forall file_layer (m_layers dm)
}.
(** The state a layer holds after loading: the first entries of what the target held before, as many
    as the layer in the file has; zeros behind them. *)
Definition leftover (s s0 : rnode R) : list R :=
  match s, s0 with RR r, RR r0 => tab (r_hid r) (fun j => nth j (r_hs r0) 0%R) | _, _ => [] end.

(** *** Layers *)
Lemma resize_nth (l : list R) n j : j < n -> nth j (resize 0%R n l) 0%R = nth j l 0%R.
Proof. intros L. rewrite nth_resize by exact L. reflexivity. Qed.
Lemma load_rnode fl eps d d0 s s0 n k : (0 <= eps)%R -> (forall x, In x (numbers d) -> close eps x (trip fl x)) -> rshows d s -> rshows d0 s0 -> rlike s s0 -> rnode_shape s n k ->
  same_class d0 d /\ rnear eps s (r_load (restored fl d0 d) s0) /\ rnode_shape (r_load (restored fl d0 d) s0) n k /\ rshows (restored fl d0 d) (r_load (restored fl d0 d) s0) /\
  held (r_load (restored fl d0 d) s0) = leftover s s0.
Proof.
  intros P H Sh Sh0 K Z. destruct s as [l|r|kd lo], s0 as [l0|r0|kd0 lo0]; cbn [rlike rshows rnode_shape] in *; try easy.
  - destruct (load_node fl eps d d0 (CL l) (CL l0) n k P H Sh Sh0 K Z) as (A1 & A2 & A3 & A4). cbn [r_load]. assert (E : exists l1, c_load (restored fl d0 d) (CL l0) = CL l1) by (cbn [c_load]; destruct (restored fl d0 d); eauto).
    destruct E as (l1 & E). rewrite E in *. cbn [rnear rnode_shape rshows held leftover]. auto.
  - destruct Sh as (f & a & w1 & w2 & w3 & b1 & b2 & -> & Fi & Fo & E1 & E2 & E3 & E4 & E5), Sh0 as (f0 & a0 & v1 & v2 & v3 & c1 & c2 & -> & _). cbn [same_class restored r_load numbers] in *. destruct Z as (W & T & En & Ek).
    assert (AP : forall w, (forall x, In x w -> In x (w1 ++ w2 ++ w3 ++ b1 ++ b2)) -> apart eps (map dval w) (map dval (map (trip fl) w))) by (intros w B; apply apart_map; [exact P|]; intros x Hx; apply H, B, Hx).
    split; [exact Logic.I|]. split; [|split; [|split]].
    + cbn [rnear rec_load r_in r_out r_hid r_steps r_wih r_whh r_who r_bh r_bo]. rewrite Fi, Fo, E1, E2, E3, E4, E5. repeat (split; [reflexivity|]). repeat split; apply AP; intros x Hx; repeat (apply in_or_app; (left; assumption) || right || idtac); try assumption; rewrite !in_app_iff; auto.
    + cbn [rnode_shape rec_load r_in r_out r_hid r_steps]. rewrite Fi, Fo. split; [|auto]. destruct W as [W1 W2 W3 W4 W5 W6 W7 W8 W9 W10 W11 W12 W13]. rewrite E1, map_length in W1. rewrite E2, map_length in W2. rewrite E3, map_length in W3. rewrite E4, map_length in W4. rewrite E5, map_length in W5.
      constructor; cbn [rec_load r_in r_out r_hid r_steps r_wih r_whh r_who r_bh r_bo r_gwih r_gwhh r_gwho r_gbh r_gbo r_hs r_act r_ig]; rewrite ?resize_length, ?map_length, ?Fi, ?Fo; auto.
    + cbn [rshows]. eexists. eexists. eexists. eexists. eexists. eexists. eexists. split; [reflexivity|]. cbn [rec_load r_in r_out r_wih r_whh r_who r_bh r_bo]. auto 10.
    + cbn [held leftover]. unfold state. cbn [rec_load r_hid r_hs]. rewrite firstn_tab by (rewrite resize_length; nia). apply tab_ext. intros j Hj. cbn [n0 NumR]. apply resize_nth. nia.
Qed.
Lemma load_rloss fl d d0 s s0 : rshows d s -> rshows d0 s0 -> rlike s s0 -> (exists kd lo, s = RO kd lo) ->
  same_class d0 d /\ (exists kd lo, r_load (restored fl d0 d) s0 = RO kd lo) /\ rlike s (r_load (restored fl d0 d) s0) /\ rshows (restored fl d0 d) (r_load (restored fl d0 d) s0).
Proof.
  intros S S0 K (kd & lo & ->). destruct s0 as [| |kd0 lo0]; try easy. cbn [rshows rlike] in *. destruct (load_loss fl d d0 kd kd0 lo lo0 S S0 K) as (C & kd1 & lo1 & E & K1 & S1 & _).
  cbn [r_load]. rewrite E. cbn [rlike rshows]. eauto 8.
Qed.
Lemma r_load_all_fst ds ss : length ds = length ss -> map fst (r_load_all ds ss) = map2 r_load ds (map fst ss).
Proof. revert ss. induction ds as [|d ds IH]; intros [|(s, p) ss] L; cbn in *; try lia; [reflexivity|]. f_equal. apply IH. lia. Qed.
Lemma r_load_all_length ds ss : length (r_load_all ds ss) = length ss.
Proof. revert ss. induction ds as [|d ds IH]; intros [|(s, p) ss]; cbn; auto. Qed.
Lemma load_rnodes fl eps : (0 <= eps)%R -> forall ds ds0 ss ss0 n k, (forall d, In d ds -> forall x, In x (numbers d) -> close eps x (trip fl x)) ->
  Forall2 rshows ds ss -> Forall2 rshows ds0 ss0 -> Forall2 rlike ss ss0 -> rshape ss n k ->
  Forall2 same_class ds0 ds /\ let ss1 := map2 r_load (map2 (restored fl) ds0 ds) ss0 in
    Forall2 (rnear eps) ss ss1 /\ rshape ss1 n k /\ Forall2 rshows (map2 (restored fl) ds0 ds) ss1 /\ map held ss1 = map2 leftover ss ss0.
Proof.
  intros P ds ds0 ss ss0 n k H S S0 A. revert ds ds0 n k H S S0. induction A as [|s s0 ss ss0 K A IH]; intros ds ds0 n k H S S0 Sh.
  - inversion S; inversion S0; subst. split; [constructor|]. cbn. auto.
  - inversion S as [|d ? ds' ? Sd S']; inversion S0 as [|d0 ? ds0' ? Sd0 S0']; subst. destruct Sh as (j & L1 & Sh).
    destruct (load_rnode fl eps d d0 s s0 n j P (H d (or_introl eq_refl)) Sd Sd0 K L1) as (C & N & L & W & E).
    destruct (IH ds' ds0' j k (fun d Hd => H d (or_intror Hd)) S' S0' Sh) as (C' & N' & L' & W' & E').
    split; [now constructor|]. cbn [map2 rshape map]. split; [now constructor|]. split; [eauto|]. split; [now constructor|congruence].
Qed.
Lemma load_rlosses fl : forall ps ps0, Forall2 rlike ps ps0 -> Forall (fun s => exists kd lo, s = RO kd lo) ps -> forall ds ds0, Forall2 rshows ds ps -> Forall2 rshows ds0 ps0 ->
  Forall2 same_class ds0 ds /\ let ps1 := map2 r_load (map2 (restored fl) ds0 ds) ps0 in
    Forall (fun s => exists kd lo, s = RO kd lo) ps1 /\ Forall2 rlike ps ps1 /\ Forall2 rshows (map2 (restored fl) ds0 ds) ps1.
Proof.
  induction 1 as [|s s0 ss ss0 K A IH]; intros Q ds ds0 S S0.
  - inversion S; inversion S0; subst. split; [constructor|]. cbn. auto.
  - inversion S as [|d ? ds' ? Sd S']; inversion S0 as [|d0 ? ds0' ? Sd0 S0']; inversion Q as [|? ? Q1 Q2]; subst.
    destruct (load_rloss fl d d0 s s0 Sd Sd0 K Q1) as (C & X & K1 & W). destruct (IH Q2 ds' ds0' S' S0') as (C' & X' & K' & W').
    split; [now constructor|]. cbn [map2]. split; [now constructor|]. split; now constructor.
Qed.

(** *** Networks *)
Lemma load_rnn F fl eps dm dm0 m m0 ss ss0 post post0 n k n0 k0 : (0 <= eps)%R -> (forall d, In d (m_layers dm) -> forall x, In x (numbers d) -> close eps x (trip fl x)) ->
  rstack m ss post n k -> rstack m0 ss0 post0 n0 k0 -> Forall2 rlike ss ss0 -> Forall2 rlike post post0 -> rsaveable F dm m -> Forall2 rshows (m_layers dm0) (map fst (mnodes m0)) ->
  let dm1 := mkDM (m_name dm) (map2 (restored fl) (m_layers dm0) (m_layers dm)) in
  Forall2 same_class (m_layers dm0) (m_layers dm) /\ exists ss1 post1, rstack (r_loaded dm1 m0) ss1 post1 n k /\ Forall2 (rnear eps) ss ss1 /\ Forall2 rlike post post1 /\
    Forall2 rshows (m_layers dm1) (map fst (mnodes (r_loaded dm1 m0))) /\ map held ss1 = map2 leftover ss ss0.
Proof.
  intros P H W W0 A AL Sv S0 dm1. pose proof (rv_shows _ _ _ Sv) as S. rewrite (rs_nodes _ _ _ _ _ W) in S. rewrite (rs_nodes _ _ _ _ _ W0) in S0.
  destruct (Forall2_app_r _ _ _ _ S) as (ds & dl & E & Sa & Sb). destruct (Forall2_app_r _ _ _ _ S0) as (ds0 & dl0 & E0 & Sa0 & Sb0).
  destruct (load_rnodes fl eps P ds ds0 ss ss0 n k) as (C & N1 & L1 & W1 & H1); auto.
  { intros d Hd. apply H. rewrite E. apply in_or_app. now left. }
  { exact (rs_shape _ _ _ _ _ W). }
  destruct (load_rlosses fl post post0 AL (rs_post _ _ _ _ _ W) dl dl0 Sb Sb0) as (C2 & X2 & K2 & W2).
  set (ss1 := map2 r_load (map2 (restored fl) ds0 ds) ss0) in *. set (post1 := map2 r_load (map2 (restored fl) dl0 dl) post0) in *.
  assert (LC : length ds0 = length ds) by exact (f2_length C). assert (LC2 : length dl0 = length dl) by exact (f2_length C2).
  assert (LS : length (map2 (restored fl) ds0 ds) = length ss0) by (rewrite map2_length by exact LC; exact (f2_length Sa0)).
  assert (LS2 : length (map2 (restored fl) dl0 dl) = length post0) by (rewrite map2_length by exact LC2; exact (f2_length Sb0)).
  assert (EM : m_layers dm1 = map2 (restored fl) ds0 ds ++ map2 (restored fl) dl0 dl) by (cbn [m_layers dm1]; rewrite E, E0, map2_app by exact LC; reflexivity).
  assert (EN : map fst (mnodes (r_loaded dm1 m0)) = ss1 ++ post1).
  { unfold r_loaded. cbn [mnodes]. rewrite r_load_all_fst.
    - rewrite EM, (rs_nodes _ _ _ _ _ W0), map2_app by exact LS. reflexivity.
    - rewrite EM, app_length, LS, LS2. pose proof (rs_nodes _ _ _ _ _ W0) as Q. apply (f_equal (@List.length _)) in Q. rewrite app_length, map_length in Q. lia. }
  split; [rewrite E, E0; now apply Forall2_app|]. exists ss1, post1.
  assert (LL : length ss1 = length ss0) by (unfold ss1; rewrite map2_length by exact LS; exact LS).
  split; [constructor|split; [exact N1|split; [exact K2|split; [|exact H1]]]].
  - rewrite LL. exact (rs_graph _ _ _ _ _ W0).
  - rewrite LL. exact (rs_some _ _ _ _ _ W0).
  - unfold r_loaded. cbn [mnodes mgraph]. rewrite r_load_all_length. exact (rs_length _ _ _ _ _ W0).
  - exact EN.
  - exact L1.
  - exact X2.
  - rewrite EM, EN. apply Forall2_app; [exact W1|exact W2].
Qed.
Lemma rsaveable_close F fl dm m : nearest F fl -> rsaveable F dm m -> forall d, In d (m_layers dm) -> forall x, In x (numbers d) -> close (1 / 10 ^ 6) x (trip fl x).
Proof.
  intros Hn Sv d Hd x Hx. apply (trip_close fl F); [exact Hn|]. pose proof (rv_ok _ _ _ Sv) as M. unfold model_ok in M. rewrite Forall_forall in M. destruct (M d Hd) as (_ & Q). rewrite Forall_forall in Q. auto.
Qed.
Lemma rsaved_file F fl dm dm0 m : nearest F fl -> rsaveable F dm m -> m_layers dm <> [] -> Forall2 same_class (m_layers dm0) (m_layers dm) ->
  exists d, dump_model dm = Ok d /\ (exists f0, forall f, f0 <= f -> read_back f d = Some (Ok d)) /\
    load_model fl dm0 d = Ok (mkDM (m_name dm) (map2 (restored fl) (m_layers dm0) (m_layers dm))).
Proof.
  intros Hn Sv NE C. destruct (c43_model_file F fl dm0 dm Hn (rv_ok _ _ _ Sv) C NE (rv_name _ _ _ Sv) (rv_file _ _ _ Sv)) as (d & f0 & dm1 & E1 & E2 & E3 & _). exists d. split; [exact E1|]. split; [eauto|].
  pose proof (rv_ok _ _ _ Sv) as M. assert (OK : Forall ok_layer (m_layers dm)) by (eapply Forall_impl; [|exact M]; now intros ? (? & _)).
  rewrite dump_model_ok in E1 by exact OK. injection E1 as <-. now apply (load_model_ok F).
Qed.
Lemma rsaveable_some F dm m ss post n k : rstack m ss post n k -> rsaveable F dm m -> m_layers dm <> [].
Proof.
  intros W Sv Q. pose proof (rv_shows _ _ _ Sv) as S. rewrite Q, (rs_nodes _ _ _ _ _ W) in S. inversion S as [E|]. pose proof (rs_some _ _ _ _ _ W). destruct ss; [cbn in *; lia|discriminate].
Qed.

(** *** States *)
Lemma chunk_length ss : forall xs Hs, length (fst (chunk_run ss Hs xs)) = length xs.
Proof. induction xs as [|x xs IH]; intros Hs; cbn [chunk_run]; [reflexivity|]. destruct (stack_run ss Hs x) as (y & Hs'). specialize (IH Hs'). destruct (chunk_run ss Hs' xs). cbn in *. congruence. Qed.
Lemma zero_close h : close_states 0 (repeat 0%R h) (repeat 0%R h).
Proof.
  assert (E : forall i, nth i (repeat 0%R h) 0%R = 0%R) by (intros i; apply nth_repeat). split; [apply Rle_refl|]. split; [|split]; intros i; rewrite ?E, ?Rminus_0_r, Rabs_R0; lra.
Qed.
Lemma zeroed_near eps ss ss' : Forall2 (rnear eps) ss ss' -> map zeroed ss' = map zeroed ss.
Proof. induction 1 as [|s s' ss ss' N F IH]; [reflexivity|]. cbn [map]. rewrite IH. f_equal. destruct s, s'; try easy. cbn in *. destruct N as (_ & _ & E & _). now rewrite E. Qed.
Lemma zeroed_close ss : all_close (map (fun _ => 0%R) ss) (map zeroed ss) (map zeroed ss).
Proof.
  induction ss as [|s ss IH]; cbn [map]; constructor; [|exact IH]. destruct s; cbn [zeroed]; try exact (zero_close 0). apply zero_close.
Qed.
Lemma apart0_eq x y : length x = length y -> apart 0 x y -> x = y.
Proof. intros L A. apply (list_ext_nth 0%R); [exact L|]. intros i _. specialize (A i). split_Rabs; lra. Qed.
Lemma exact_kept ss ss' n k : Forall2 (rnear 0) ss ss' -> rshape ss n k -> rshape ss' n k -> forall Hs x, stack_run ss' Hs x = stack_run ss Hs x.
Proof.
  intros F. revert n. induction F as [|s s' ss ss' N F IH]; intros n Sh Sh' Hs x; [reflexivity|]. destruct Sh as (j & S1 & S2), Sh' as (j' & S1' & S2'). destruct Hs as [|H Hs]; [reflexivity|]. cbn [stack_run].
  assert (Q : node_run s' H x = node_run s H x /\ j' = j).
  { destruct s as [l|r|], s' as [l'|r'|]; cbn [rnear rnode_shape] in *; try easy.
    - destruct S1 as (Z1 & Z2 & Z3 & Z4), S1' as (Y1 & Y2 & Y3 & Y4). pose proof (nr_out _ _ _ N) as EO. split; [|congruence]. cbn [node_run]. f_equal. unfold layer_sem. rewrite (nr_kind _ _ _ N). pose proof (nr_wts _ _ _ N) as NW. pose proof (nr_bias _ _ _ N) as NB.
      rewrite (nr_kind _ _ _ N) in Y4. destruct (knd l); [|reflexivity]. destruct Z4 as (V1 & _ & V2 & _), Y4 as (U1 & _ & U2 & _).
      rewrite EO. rewrite <- (apart0_eq (wts l) (wts l')), <- (apart0_eq (bias l) (bias l')) by (auto; congruence). reflexivity.
    - destruct N as (E1 & E2 & E3 & E4 & A1 & A2 & A3 & A4 & A5), S1 as (W & _ & _ & Ek), S1' as (W' & _ & _ & Ek'). destruct W, W'. split; [|congruence]. cbn [node_run]. rewrite E1, E4.
      assert (G1 : r_wih r = r_wih r') by (apply apart0_eq; [congruence|exact A1]). assert (G2 : r_whh r = r_whh r') by (apply apart0_eq; [congruence|exact A2]). assert (G3 : r_who r = r_who r') by (apply apart0_eq; [congruence|exact A3]).
      assert (G4 : r_bh r = r_bh r') by (apply apart0_eq; [congruence|exact A4]). assert (G5 : r_bo r = r_bo r') by (apply apart0_eq; [congruence|exact A5]).
      assert (U : forall us H, unroll r' us H = unroll r us H).
      { induction us as [|u us IHu]; intros G; [reflexivity|]. cbn [unroll]. unfold cell_next, cell_out. rewrite E1, E2, E3, <- G1, <- G2, <- G3, <- G4, <- G5. fold (cell_next r u G). rewrite IHu. reflexivity. }
      now rewrite U. }
  destruct Q as (-> & ->). destruct (node_run s H x) as (y & G). rewrite (IH j S2 S2'). reflexivity.
Qed.
Lemma exact_chunks ss ss' n k : Forall2 (rnear 0) ss ss' -> rshape ss n k -> rshape ss' n k -> forall xs Hs, chunk_run ss' Hs xs = chunk_run ss Hs xs.
Proof.
  intros F Sh Sh'. induction xs as [|x xs IH]; intros Hs; cbn [chunk_run]; [reflexivity|]. rewrite (exact_kept ss ss' n k F Sh Sh'). destruct (stack_run ss Hs x) as (y & Hs'). now rewrite IH.
Qed.

(** *** Theorems *)
(** The network [m] is saved to a file and loaded into [m0], a network of the same classes of
    layers: [m0] becomes a network of the sizes of [m], whose layers hold what is left of their old
    states. When the states of both are reset, the outputs of any number of calls are nearly those
    of [m]. *)
Theorem c99_predict : forall F fl dm dm0 m m0 ss ss0 post post0 n k n0 k0, nearest F fl ->
  rstack m ss post n k -> rstack m0 ss0 post0 n0 k0 -> Forall2 rlike ss ss0 -> Forall2 rlike post post0 -> rsaveable F dm m -> Forall2 rshows (m_layers dm0) (map fst (mnodes m0)) ->
  exists d dm1 ss1 post1, dump_model dm = Ok d /\ (exists f0, forall f, f0 <= f -> read_back f d = Some (Ok d)) /\ load_model fl dm0 d = Ok dm1 /\
    Forall2 rshows (m_layers dm1) (map fst (mnodes (r_loaded dm1 m0))) /\
    rstack (r_loaded dm1 m0) ss1 post1 n k /\ Forall2 rlike post post1 /\ map held ss1 = map2 leftover ss ss0 /\
    forall xs, Forall (fun x => length x = n) xs -> exists ma mb ys ys', predict_all (reset_states m) xs = Ok (ma, ys) /\ predict_all (reset_states (r_loaded dm1 m0)) xs = Ok (mb, ys') /\
      length ys = length xs /\ length ys' = length xs /\ Forall (fun y => length y = k) ys /\ Forall (fun y => length y = k) ys' /\
      forall q i, (Rabs (nth i (nth q ys []) 0 - nth i (nth q ys' []) 0) <= nth q (calls_drift (1 / 10 ^ 6) ss (map (fun _ => 0) ss) xs) 0)%R.
Proof.
  intros F fl dm dm0 m m0 ss ss0 post post0 n k n0 k0 Hn W W0 A AL Sv S0.
  destruct (load_rnn F fl (1 / 10 ^ 6) dm dm0 m m0 ss ss0 post post0 n k n0 k0 ten6 (rsaveable_close F fl dm m Hn Sv) W W0 A AL Sv S0) as (C & ss1 & post1 & W1 & N1 & K1 & S1 & H1).
  destruct (rsaved_file F fl dm dm0 m Hn Sv (rsaveable_some _ _ _ _ _ _ _ W Sv) C) as (d & E1 & E2 & E3). eexists. eexists. exists ss1, post1. split; [exact E1|]. split; [exact E2|]. split; [exact E3|]. split; [exact S1|]. split; [exact W1|]. split; [exact K1|]. split; [exact H1|].
  intros xs FX. destruct (reset_rstack m ss post n k W) as (sa & Wa & Ka & Ea). destruct (reset_rstack _ ss1 post1 n k W1) as (sb & Wb & Kb & Eb).
  destruct (rstack_predict_all xs _ sa post n k Wa FX) as (ma & _ & Pa & La & _). destruct (rstack_predict_all xs _ sb post1 n k Wb FX) as (mb & _ & Pb & Lb & _).
  rewrite (rkept_chunks xs ss sa _ Ka), Ea in Pa, La. rewrite (rkept_chunks xs ss1 sb _ Kb), Eb, (zeroed_near _ _ _ N1) in Pb, Lb.
  exists ma, mb. eexists. eexists. split; [exact Pa|]. split; [exact Pb|]. split; [apply chunk_length|]. split; [apply chunk_length|]. split; [exact La|]. split; [exact Lb|].
  apply (calls_apart (1 / 10 ^ 6) ten6 ss ss1 n k N1 (rs_shape _ _ _ _ _ W)); [exact FX|apply zeroed_close|now rewrite map_length].
Qed.
(** Weights and biases with six decimals: after a reset of the states the outputs are the same, call
    after call. Without it the loaded network goes on from what is left of the states of [m0]. *)
Theorem c99_exact : forall F fl dm dm0 m m0 ss ss0 post post0 n k n0 k0 d dm1 xs, nearest F fl ->
  rstack m ss post n k -> rstack m0 ss0 post0 n0 k0 -> Forall2 rlike ss ss0 -> Forall2 rlike post post0 -> rsaveable F dm m -> Forall2 rshows (m_layers dm0) (map fst (mnodes m0)) ->
  Forall (fun l => Forall six_decimals (numbers l)) (m_layers dm) ->
  dump_model dm = Ok d -> load_model fl dm0 d = Ok dm1 -> Forall (fun x => length x = n) xs ->
  (exists ma mb ys, predict_all (reset_states m) xs = Ok (ma, ys) /\ predict_all (reset_states (r_loaded dm1 m0)) xs = Ok (mb, ys)) /\
  exists mc, predict_all (r_loaded dm1 m0) xs = Ok (mc, fst (chunk_run ss (map2 leftover ss ss0) xs)).
Proof.
  intros F fl dm dm0 m m0 ss ss0 post post0 n k n0 k0 d dm1 xs Hn W W0 A AL Sv S0 X Ed El FX.
  assert (H : forall d, In d (m_layers dm) -> forall x, In x (numbers d) -> close 0 x (trip fl x)).
  { intros l Hl z Hz. pose proof (rv_ok _ _ _ Sv) as M. unfold model_ok in M. rewrite Forall_forall in M, X. destruct (M l Hl) as (_ & Q). specialize (X l Hl). rewrite Forall_forall in Q, X.
    rewrite (trip_six F fl) by auto. destruct (Q z Hz) as (neg & mz & -> & _). cbn. split; [reflexivity|]. rewrite Rminus_diag_eq, Rabs_R0 by reflexivity. lra. }
  destruct (load_rnn F fl 0 dm dm0 m m0 ss ss0 post post0 n k n0 k0 (Rle_refl 0) H W W0 A AL Sv S0) as (C & ss1 & post1 & W1 & N1 & K1 & S1 & H1).
  destruct (rsaved_file F fl dm dm0 m Hn Sv (rsaveable_some _ _ _ _ _ _ _ W Sv) C) as (d' & E1 & E2 & E3). rewrite Ed in E1. injection E1 as <-. rewrite El in E3. injection E3 as ->.
  destruct (reset_rstack m ss post n k W) as (sa & Wa & Ka & Ea). destruct (reset_rstack _ ss1 post1 n k W1) as (sb & Wb & Kb & Eb).
  destruct (rstack_predict_all xs _ sa post n k Wa FX) as (ma & _ & Pa & La & _). destruct (rstack_predict_all xs _ sb post1 n k Wb FX) as (mb & _ & Pb & Lb & _).
  pose proof (exact_chunks ss ss1 n k N1 (rs_shape _ _ _ _ _ W) (rs_shape _ _ _ _ _ W1) xs) as Q.
  rewrite (rkept_chunks xs ss sa _ Ka), Ea in Pa. rewrite (rkept_chunks xs ss1 sb _ Kb), Eb, (zeroed_near _ _ _ N1), Q in Pb. split; [eauto|].
  destruct (rstack_predict_all xs _ ss1 post1 n k W1 FX) as (mc & _ & Pc & _). rewrite Q, H1 in Pc. eauto.
Qed.
(** Saving the loaded network gives the same file. *)
Theorem c99_again : forall F fl dm dm0 m m0 ss ss0 post post0 n k n0 k0 d dm1, nearest F fl ->
  rstack m ss post n k -> rstack m0 ss0 post0 n0 k0 -> Forall2 rlike ss ss0 -> Forall2 rlike post post0 -> rsaveable F dm m -> Forall2 rshows (m_layers dm0) (map fst (mnodes m0)) ->
  dump_model dm = Ok d -> load_model fl dm0 d = Ok dm1 -> dump_model dm1 = Ok d.
Proof.
  intros F fl dm dm0 m m0 ss ss0 post post0 n k n0 k0 d dm1 Hn W W0 A AL Sv S0 Ed El.
  destruct (load_rnn F fl (1 / 10 ^ 6) dm dm0 m m0 ss ss0 post post0 n k n0 k0 ten6 (rsaveable_close F fl dm m Hn Sv) W W0 A AL Sv S0) as (C & _).
  destruct (c43_model_file F fl dm0 dm Hn (rv_ok _ _ _ Sv) C (rsaveable_some _ _ _ _ _ _ _ W Sv) (rv_name _ _ _ Sv) (rv_file _ _ _ Sv)) as (d' & f0 & dm1' & E1 & _ & E3 & _ & _ & _ & E4).
  rewrite Ed in E1. injection E1 as <-. rewrite El in E3. injection E3 as <-. exact E4.
Qed.
Print Assumptions c99_predict.
Print Assumptions c99_exact.
Print Assumptions c99_again.

(** *** Cases *)
(** A recurrent layer with one hidden unit in the state [s], two time steps, and a dense layer; the
    output of the recurrent layer at each step is its new state. *)
Definition sr_net (s : R) : list (rnode R) :=
  let z := DFin false 0 in let o := DFin false 1 in
  [RR (mkRec 1 1 1 2 (map dval [o]) (map dval [o]) (map dval [o]) (map dval [z]) (map dval [z]) [0] [0] [0] [0] [0] [s; 0] [0; 0] [0; 0])%R;
   RL (mkLayer KDense 2 (map dval [o; z; z; o]) (map dval [z; z]) [0; 0; 0; 0] [0; 0] [0; 0] [0; 0])%R].
Definition sr_dump : dmodel :=
  let z := DFin false 0 in let o := DFin false 1 in
  mkDM (txt "net") [DRec (mkF (txt "r") [(1, 1, 1)] [(1, 1, 1)]) 0 1 2 [o] [o] [o] [z] [z];
    DDense (mkF (txt "d") [(2, 1, 1)] [(2, 1, 1)]) [o; z; z; o] [z; z]; DMse (mkF (txt "m") [(2, 1, 1)] [(1, 1, 1)]) z].
(** Another one: two hidden units, the first in the state [s], three time steps, one output *)
Definition sr_other (s : R) : list (rnode R) :=
  let z := DFin false 0 in
  [RR (mkRec 1 1 2 3 (map dval [z; z]) (map dval [z; z; z; z]) (map dval [z; z]) (map dval [z; z]) (map dval [z]) [0; 0] [0; 0; 0; 0] [0; 0] [0; 0] [0] [s; 0; 0; 0; 0; 0] [0; 0; 0] [0; 0; 0])%R;
   RL (mkLayer KDense 3 (map dval [z; z; z]) (map dval [z]) [0; 0; 0] [0] [0] [0; 0; 0])%R].
Definition sr_other_dump : dmodel :=
  let z := DFin false 0 in
  mkDM (txt "other") [DRec (mkF (txt "r") [(1, 1, 1)] [(1, 1, 1)]) 0 2 3 [z; z] [z; z; z; z] [z; z] [z; z] [z];
    DDense (mkF (txt "d") [(3, 1, 1)] [(1, 1, 1)]) [z; z; z] [z]; DMse (mkF (txt "m") [(1, 1, 1)] [(1, 1, 1)]) z].
Lemma sr_shape s : rshape (sr_net s) 2 2.
Proof.
  exists 2. split; [split; [constructor; reflexivity|]; cbn; repeat split; lia|]. exists 2. split; [|reflexivity]. split; [reflexivity|]. split; [reflexivity|]. split; [reflexivity|]. cbn. auto.
Qed.
Lemma sr_other_shape s : rshape (sr_other s) 3 1.
Proof.
  exists 3. split; [split; [constructor; reflexivity|]; cbn; repeat split; lia|]. exists 1. split; [|reflexivity]. split; [reflexivity|]. split; [reflexivity|]. split; [reflexivity|]. cbn. auto.
Qed.
Lemma sr_case s s0 : exists m m0, nearest grid to_grid /\ rstack m (sr_net s) [RO (MSE 0%R) (loss_new 2 1)] 2 2 /\ rstack m0 (sr_other s0) [RO (MSE 0%R) (loss_new 1 1)] 3 1 /\
  Forall2 rlike (sr_net s) (sr_other s0) /\ Forall2 rlike [RO (MSE 0%R) (loss_new 2 1)] [RO (MSE 0%R) (loss_new 1 1)] /\ rsaveable grid sr_dump m /\ Forall2 rshows (m_layers sr_other_dump) (map fst (mnodes m0)) /\
  Forall (fun l => Forall six_decimals (numbers l)) (m_layers sr_dump).
Proof.
  destruct (rnn_chain true (sr_net s) [RO (MSE 0%R) (loss_new 2 1)] 2 2 ltac:(cbn; lia) (sr_shape s) eq_refl) as (m & W); [constructor; eauto|].
  destruct (rnn_chain true (sr_other s0) [RO (MSE 0%R) (loss_new 1 1)] 3 1 ltac:(cbn; lia) (sr_other_shape s0) eq_refl) as (m0 & W0); [constructor; eauto|].
  exists m, m0. split; [exact c43_grid_nearest|]. split; [exact W|]. split; [exact W0|]. split; [|split; [|split; [|split]]].
  - unfold sr_net, sr_other. apply Forall2_cons; [exact Logic.I|]. apply Forall2_cons; [reflexivity|constructor].
  - apply Forall2_cons; [exact Logic.I|constructor].
  - assert (G : forall l, (forall x, In x l -> exists b z, x = DFin b (IZR z) /\ (0 <= z)%Z) -> Forall (finite grid) l).
    { intros l B. apply Forall_forall. intros x Hx. destruct (B x Hx) as (b & z & -> & P). now apply grid_finite. }
    constructor.
    + rewrite (rs_nodes _ _ _ _ _ W). unfold sr_dump, sr_net. cbv zeta. cbn [m_layers List.app]. apply Forall2_cons; [cbn [rshows]; do 7 eexists; split; [reflexivity|]; repeat split|].
      apply Forall2_cons; [cbn; repeat split|]. apply Forall2_cons; [cbn; repeat split|constructor].
    + unfold model_ok, sr_dump. cbv zeta. cbn [m_layers].
      assert (GN : forall l, In l (m_layers sr_dump) -> Forall (finite grid) (numbers l)).
      { intros l [<-|[<-|[<-|[]]]]; apply G; cbn [numbers List.app]; intros x Hx; cbn [In] in Hx; repeat (destruct Hx as [<-|Hx]; [eexists; eexists; split; [reflexivity|lia]|]); contradiction. }
      unfold sr_dump in GN. cbv zeta in GN. cbn [m_layers] in GN.
      repeat (apply Forall_cons; [split; [split; [repeat split; try discriminate; repeat constructor; vm_compute; reflexivity|vm_compute; repeat split; try discriminate; try exact Logic.I]|apply GN; cbn [In]; auto]|]). constructor.
    + vm_compute. intuition discriminate.
    + unfold sr_dump. cbv zeta. cbn [m_layers]. repeat (apply Forall_cons; [split; [vm_compute; intuition discriminate|]; split; [vm_compute; intuition discriminate|vm_compute; try lia; try exact Logic.I]|]). constructor.
  - rewrite (rs_nodes _ _ _ _ _ W0). unfold sr_other_dump, sr_other. cbv zeta. cbn [m_layers List.app]. apply Forall2_cons; [cbn [rshows]; do 7 eexists; split; [reflexivity|]; repeat split|].
    apply Forall2_cons; [cbn; repeat split|]. apply Forall2_cons; [cbn; repeat split|constructor].
  - assert (D : forall b z, six_decimals (DFin b (IZR z))) by (intros b z; exists (z * 10 ^ 6)%Z; rewrite mult_IZR, (pow_IZR 10 6); change (Z.of_nat 6) with 6%Z; field; apply IZR_neq; discriminate).
    unfold sr_dump. cbv zeta. cbn [m_layers numbers List.app]. repeat (apply Forall_cons; [repeat (apply Forall_cons; [apply D|]); constructor|]). constructor.
Qed.
(** The hypotheses hold for these two networks, the target having been used before. *)
Example c99_met : exists m m0, nearest grid to_grid /\ rstack m (sr_net 0) [RO (MSE 0%R) (loss_new 2 1)] 2 2 /\ rstack m0 (sr_other (tanh 1)) [RO (MSE 0%R) (loss_new 1 1)] 3 1 /\
  Forall2 rlike (sr_net 0) (sr_other (tanh 1)) /\ Forall2 rlike [RO (MSE 0%R) (loss_new 2 1)] [RO (MSE 0%R) (loss_new 1 1)] /\ rsaveable grid sr_dump m /\ Forall2 rshows (m_layers sr_other_dump) (map fst (mnodes m0)) /\
  Forall (fun l => Forall six_decimals (numbers l)) (m_layers sr_dump).
Proof. apply sr_case. Qed.
Lemma sr_first s H : nth 0 (fst (stack_run (sr_net s) [[H]; []] [0; 0]%R)) 0%R = tanh H.
Proof.
  cbv -[Rplus Rmult tanh IZR]. replace (0 + 1 * 0 + (0 + 1 * H) + 0)%R with H by ring. ring.
Qed.
Lemma sr_differ s s0 : tanh s <> tanh s0 -> exists F fl dm dm0 m m0 post post0 d dm1 ma y mb y', nearest F fl /\
  rstack m (sr_net s) post 2 2 /\ rstack m0 (sr_other s0) post0 3 1 /\ Forall2 rlike (sr_net s) (sr_other s0) /\ Forall2 rlike post post0 /\ rsaveable F dm m /\ Forall2 rshows (m_layers dm0) (map fst (mnodes m0)) /\
  Forall (fun l => Forall six_decimals (numbers l)) (m_layers dm) /\ dump_model dm = Ok d /\ load_model fl dm0 d = Ok dm1 /\
  predict_all m [[0; 0]%R] = Ok (ma, [y]) /\ predict_all (r_loaded dm1 m0) [[0; 0]%R] = Ok (mb, [y']) /\ y <> y'.
Proof.
  intros D. destruct (sr_case s s0) as (m & m0 & Hn & W & W0 & A & AL & Sv & S0 & X).
  destruct (c99_predict _ _ _ _ _ _ _ _ _ _ _ _ _ _ Hn W W0 A AL Sv S0) as (d & dm1 & ss1 & post1 & Ed & _ & El & _).
  assert (FX : Forall (fun x => length x = 2) [[0; 0]%R]) by (constructor; [reflexivity|constructor]).
  destruct (c99_exact _ _ _ _ _ _ _ _ _ _ _ _ _ _ d dm1 [[0; 0]%R] Hn W W0 A AL Sv S0 X Ed El FX) as (_ & mb & Pb).
  destruct (rstack_predict_all [[0; 0]%R] m _ _ _ _ W FX) as (ma & _ & Pa & _).
  cbn [chunk_run] in Pa, Pb. destruct (stack_run (sr_net s) (map held (sr_net s)) [0; 0]%R) as (y & Gs) eqn:Ey. destruct (stack_run (sr_net s) (map2 leftover (sr_net s) (sr_other s0)) [0; 0]%R) as (y' & Gs') eqn:Ey'. cbn [fst] in Pa, Pb.
  exists grid, to_grid, sr_dump, sr_other_dump, m, m0, [RO (MSE 0%R) (loss_new 2 1)], [RO (MSE 0%R) (loss_new 1 1)], d, dm1, ma, y, mb, y'.
  repeat (split; [assumption|]). intros E. apply D. rewrite <- (sr_first s s), <- (sr_first s s0).
  change (map held (sr_net s)) with [[s]; []] in Ey. change (map2 leftover (sr_net s) (sr_other s0)) with [[s0]; []] in Ey'. rewrite Ey, Ey'. cbn [fst]. now rewrite E.
Qed.
(** Without a reset the loaded network need not predict what the saved one does, though no number
    was rounded: a target that was used before goes on from its old state ... *)
Theorem c99_target_refuted : exists F fl dm dm0 m m0 ss ss0 post post0 n k n0 k0 x d dm1 ma y mb y', nearest F fl /\
  rstack m ss post n k /\ rstack m0 ss0 post0 n0 k0 /\ Forall2 rlike ss ss0 /\ Forall2 rlike post post0 /\ rsaveable F dm m /\ Forall2 rshows (m_layers dm0) (map fst (mnodes m0)) /\
  Forall (fun l => Forall six_decimals (numbers l)) (m_layers dm) /\ dump_model dm = Ok d /\ load_model fl dm0 d = Ok dm1 /\
  map held ss = map zeroed ss /\ length x = n /\ predict_all m [x] = Ok (ma, [y]) /\ predict_all (r_loaded dm1 m0) [x] = Ok (mb, [y']) /\ y <> y'.
Proof.
  destruct (sr_differ 0 (tanh 1)) as (F & fl & dm & dm0 & m & m0 & post & post0 & d & dm1 & ma & y & mb & y' & A1 & A2 & A3 & A4 & A5 & A6 & A7 & A8 & A9 & A10 & A11 & A12 & A13).
  { rewrite tanh_00. apply not_eq_sym. apply tanh_nonzero, tanh_nonzero. lra. }
  exists F, fl, dm, dm0, m, m0, (sr_net 0), (sr_other (tanh 1)), post, post0, 2, 2, 3, 1, [0; 0]%R, d, dm1, ma, y, mb, y'. repeat (split; [assumption || reflexivity|]). exact A13.
Qed.
(** ... and into a new target the state of the saved network is not taken over. *)
Theorem c99_saved_refuted : exists F fl dm dm0 m m0 ss ss0 post post0 n k n0 k0 x d dm1 ma y mb y', nearest F fl /\
  rstack m ss post n k /\ rstack m0 ss0 post0 n0 k0 /\ Forall2 rlike ss ss0 /\ Forall2 rlike post post0 /\ rsaveable F dm m /\ Forall2 rshows (m_layers dm0) (map fst (mnodes m0)) /\
  Forall (fun l => Forall six_decimals (numbers l)) (m_layers dm) /\ dump_model dm = Ok d /\ load_model fl dm0 d = Ok dm1 /\
  map held ss0 = map zeroed ss0 /\ length x = n /\ predict_all m [x] = Ok (ma, [y]) /\ predict_all (r_loaded dm1 m0) [x] = Ok (mb, [y']) /\ y <> y'.
Proof.
  destruct (sr_differ (tanh 1) 0) as (F & fl & dm & dm0 & m & m0 & post & post0 & d & dm1 & ma & y & mb & y' & A1 & A2 & A3 & A4 & A5 & A6 & A7 & A8 & A9 & A10 & A11 & A12 & A13).
  { rewrite tanh_00. apply tanh_nonzero, tanh_nonzero. lra. }
  exists F, fl, dm, dm0, m, m0, (sr_net (tanh 1)), (sr_other 0), post, post0, 2, 2, 3, 1, [0; 0]%R, d, dm1, ma, y, mb, y'. repeat (split; [assumption || reflexivity|]). exact A13.
Qed.
Print Assumptions c99_target_refuted.
Print Assumptions c99_saved_refuted.
