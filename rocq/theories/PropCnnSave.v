(** C93: convolutional networks that were saved and loaded, also into a network of other sizes. *)
From Coq Require Import Ascii String Reals Lra Lia.
From Verif Require Import Base Num RSum MathModel MathProofs LayerModel LossModel GradSpec GradProofs GradChain OptModel GraphModel GraphProofs ModelModel NodeModel ChainProofs ModelProofs PropGraph PropModel PropMath.
From Verif Require Import ConvSpec CnnModel CnnSpec PropCnn.
From Verif Require Import TypeModel PropTypes StreamModel JsonModel PropJson DumpModel PropDump FloatModel SaveModel DriftProofs PropSave CnnSaveModel CnnDriftProofs.
Local Open Scope list_scope.
Local Open Scope nat_scope.
Local Notation length := List.length.

(** The same class of layer; sizes, kernels, strides, paddings, filters and parameters may differ.
    The alpha of an ELU layer, which is not saved, is the same. *)
Definition like (s s0 : cnode R) : Prop :=
  match s, s0 with
  | CL l, CL l0 => knd l0 = knd l
  | CV _, CV _ => True
  | CP p, CP p0 => pl_max p0 = pl_max p
  | _, _ => False
  end.
Definition like_loss (kd kd0 : losskind R) : Prop := match kd, kd0 with CCE, CCE | MSE _, MSE _ => True | _, _ => False end.
(** A network and what dump sees of it; the text of the file can be read back. *)
Record csaveable (F : R -> Prop) (dm : dmodel) (m : model (cnode R)) : Prop := {
  cs_shows : Forall2 cshows (m_layers dm) (map fst (mnodes m));
  cs_ok : model_ok F dm;
  cs_name : ~ In quote (m_name dm);
  cs_file : Forall file_layer (m_layers dm)
}.

(** *** Layers *)
Lemma fields_restored fl d0 d : fields_of (restored fl d0 d) = fields_of d.
Proof. destruct d, d0; reflexivity. Qed.
Lemma load_node fl eps d d0 s s0 n k : (0 <= eps)%R -> (forall x, In x (numbers d) -> close eps x (trip fl x)) -> cshows d s -> cshows d0 s0 -> like s s0 -> cnode_shape s n k ->
  same_class d0 d /\ cnear eps s (c_load (restored fl d0 d) s0) /\ cnode_shape (c_load (restored fl d0 d) s0) n k /\ cshows (restored fl d0 d) (c_load (restored fl d0 d) s0).
Proof.
  intros P H Sh Sh0 K Z. destruct s as [l|c|p|kd lo], s0 as [l0|c0|p0|kd0 lo0]; cbn [like cshows cnode_shape] in *; try easy.
  - destruct Sh as (S & Si & So), Sh0 as (S0 & _ & _). destruct Z as (Z1 & Z2 & Z3 & Z4).
    destruct d as [t f|f al|f w b|? ? ? ? ? ? ?|? ? ? ?|? ?|? ?|? ? ? ? ? ? ? ? ?]; cbn [shows fields_of] in *; try easy.
    + destruct S as (a & Ka & Na & ->). destruct d0 as [t0 f0|f0 al0|f0 w0 b0|? ? ? ? ? ? ?|? ? ? ?|? ?|? ?|? ? ? ? ? ? ? ? ?]; cbn [shows] in S0; try easy.
      * destruct S0 as (a0 & Ka0 & Na0 & ->). assert (a0 = a) by congruence. subst a0. cbn [same_class restored c_load fields_of cnear cnode_shape cshows shows]. rewrite Ka in Z4. split; [reflexivity|]. split; [|split].
        -- constructor; cbn [sized knd insz out]; [exact K|exact Si|now rewrite resize_length|congruence|congruence].
        -- unfold lshape. cbn [sized knd insz out ig wts wgrad bias bgrad]. rewrite !resize_length, Ka0. repeat split; try congruence; apply Z4.
        -- cbn [sized knd insz out]. rewrite resize_length. split; [eauto|auto].
      * rewrite S0, Ka in K. injection K as K. now elim (Na (dval al0)).
      * destruct S0 as (Kd & _). congruence.
    + destruct d0 as [t0 f0|f0 al0|f0 w0 b0|? ? ? ? ? ? ?|? ? ? ?|? ?|? ?|? ? ? ? ? ? ? ? ?]; cbn [shows] in S0; try easy.
      * destruct S0 as (a0 & Ka0 & Na0 & ->). rewrite Ka0, S in K. injection K as K. now elim (Na0 (dval al)).
      * cbn [same_class restored c_load fields_of cnear cnode_shape cshows shows]. rewrite S in Z4. split; [exact Logic.I|]. split; [|split].
        -- constructor; cbn [sized knd insz out]; [exact K|exact Si|now rewrite resize_length|congruence|congruence].
        -- unfold lshape. cbn [sized knd insz out ig wts wgrad bias bgrad]. rewrite !resize_length, S0. split; [congruence|]. split; [congruence|]. split; [congruence|]. split; [apply Z4|discriminate].
        -- cbn [sized knd insz out]. rewrite resize_length. auto.
      * destruct S0 as (Kd & _). congruence.
    + destruct S as (Kd & Sz & So' & Ew & Eb). destruct d0 as [t0 f0|f0 al0|f0 w0 b0|? ? ? ? ? ? ?|? ? ? ?|? ?|? ?|? ? ? ? ? ? ? ? ?]; cbn [shows] in S0; try easy.
      * destruct S0 as (a0 & Ka0 & _). congruence.
      * congruence.
      * destruct S0 as (Kd0 & _). rewrite Kd in Z4. destruct Z4 as (Z4 & _ & Z5 & _). cbn [same_class restored c_load fields_of cnear cnode_shape cshows shows]. cbn [numbers] in H. rewrite Ew, map_length in Z4. rewrite Eb, map_length in Z5. split; [exact Logic.I|]. split; [|split].
        -- constructor; cbn [sized knd insz out wts bias]; [exact K|exact Si|now rewrite resize_length| |]; intros _.
           ++ rewrite Ew. apply apart_map; [exact P|]. intros x Hx. apply H, in_or_app. now left.
           ++ rewrite Eb. apply apart_map; [exact P|]. intros x Hx. apply H, in_or_app. now right.
        -- unfold lshape. cbn [sized knd insz out ig wts wgrad bias bgrad]. rewrite Kd0, !resize_length, !map_length. rewrite Si, So, Z1, Z3. auto 8.
        -- cbn [sized knd insz out wts bias]. rewrite resize_length, !map_length. rewrite Eb, map_length in So'. rewrite Si. auto 8.
  - destruct Sh as (f & w & b & -> & Fi & Fo & Ew & Eb), Sh0 as (f0 & w0 & b0 & -> & _). cbn [same_class restored c_load]. rewrite Fi, Fo. cbn [numbers] in H. split; [exact Logic.I|].
    destruct Z as (A1 & A2 & A3 & A4 & A5 & (A6 & A7) & (A8 & _) & (A9 & _) & _). split; [|split].
    + cbn [cnear cv_H cv_W cv_C cv_kh cv_kw cv_nf cv_sh cv_sw cv_ph cv_pw cv_oh cv_ow cv_w cv_b cv_wg cv_bg cv_out cv_ig]. split; [|reflexivity]. rewrite Ew. apply apart_map; [exact P|]. intros x Hx. apply H, in_or_app. now left.
    + unfold cnode_shape, conv_shape. cbn [cv_H cv_W cv_C cv_kh cv_kw cv_nf cv_sh cv_sw cv_ph cv_pw cv_oh cv_ow cv_w cv_b cv_wg cv_bg cv_out cv_ig]. rewrite Ew, map_length in A8. rewrite Eb, map_length in A9.
      unfold first_size. rewrite !resize_length, !map_length, Fi, Fo. cbn [size3]. auto 12.
    + cbn [cshows cv_H cv_W cv_C cv_kh cv_kw cv_nf cv_sh cv_sw cv_ph cv_pw cv_oh cv_ow cv_w cv_b]. eauto 10.
  - destruct Sh as (f & -> & Fi & Fo), Sh0 as (f0 & -> & _). cbn [same_class restored c_load]. rewrite Fi. split; [now rewrite K|]. destruct Z as (A1 & A2 & A3 & A4 & (A5 & A6) & A7 & A8). split; [|split].
    + cbn [cnear]. unfold pool_with. cbn [pl_out pl_ig]. now rewrite K.
    + unfold cnode_shape, pool_shape, pl_oh, pl_ow in *. cbn [pl_H pl_W pl_C pl_kh pl_kw pl_sh pl_sw pl_out pl_ig]. unfold first_size in *. rewrite !resize_length, Fi, Fo. cbn [size3]. auto 12.
    + cbn [cshows pl_max pl_H pl_W pl_C pl_kh pl_kw pl_sh pl_sw pl_out]. rewrite resize_length, K. eauto.
Qed.
Lemma load_loss fl d d0 kd kd0 lo lo0 : cshows d (CO kd lo) -> cshows d0 (CO kd0 lo0) -> like_loss kd kd0 ->
  same_class d0 d /\ exists kd1 lo1, c_load (restored fl d0 d) (CO kd0 lo0) = CO kd1 lo1 /\ like_loss kd kd1 /\ cshows (restored fl d0 d) (CO kd1 lo1) /\ length (ls_grad lo1) = length (ls_grad lo).
Proof.
  intros (S & Si) (S0 & _) K. unfold like_loss in *. destruct d as [t f|f al|f w b|? ? ? ? ? ? ?|? ? ? ?|? ?|? ?|? ? ? ? ? ? ? ? ?]; cbn [shows] in S; try easy; destruct d0 as [t0 f0|f0 al0|f0 w0 b0|? ? ? ? ? ? ?|? ? ? ?|? ?|? ?|? ? ? ? ? ? ? ? ?]; cbn [shows] in S0; try easy;
    destruct kd, kd0; try easy; cbn [restored c_load same_class fields_of] in *; split; try congruence; try exact Logic.I; eexists; eexists; split; try reflexivity; cbn [cshows shows fields_of lsized ls_grad]; rewrite resize_length; auto.
Qed.
Lemma c_load_all_fst ds ss : length ds = length ss -> map fst (c_load_all ds ss) = map2 c_load ds (map fst ss).
Proof. revert ss. induction ds as [|d ds IH]; intros [|(s, p) ss] L; cbn in *; try lia; [reflexivity|]. f_equal. apply IH. lia. Qed.
Lemma load_nodes fl eps : (0 <= eps)%R -> forall ds ds0 ss ss0 n k, (forall d, In d ds -> forall x, In x (numbers d) -> close eps x (trip fl x)) ->
  Forall2 cshows ds ss -> Forall2 cshows ds0 ss0 -> Forall2 like ss ss0 -> cshape ss n k ->
  Forall2 same_class ds0 ds /\ let ss1 := map2 c_load (map2 (restored fl) ds0 ds) ss0 in Forall2 (cnear eps) ss ss1 /\ cshape ss1 n k /\ Forall2 cshows (map2 (restored fl) ds0 ds) ss1.
Proof.
  intros P ds ds0 ss ss0 n k H S S0 A. revert ds ds0 n k H S S0. induction A as [|s s0 ss ss0 K A IH]; intros ds ds0 n k H S S0 Sh.
  - inversion S; inversion S0; subst. split; [constructor|]. cbn. auto.
  - inversion S as [|d ? ds' ? Sd S']; inversion S0 as [|d0 ? ds0' ? Sd0 S0']; subst. destruct Sh as (j & L1 & Sh).
    destruct (load_node fl eps d d0 s s0 n j P (H d (or_introl eq_refl)) Sd Sd0 K L1) as (C & N & L & W).
    destruct (IH ds' ds0' j k (fun d Hd => H d (or_intror Hd)) S' S0' Sh) as (C' & N' & L' & W').
    split; [now constructor|]. cbn [map2 cshape]. split; [now constructor|]. split; [eauto|now constructor].
Qed.

(** *** Networks *)
Lemma map2_length {A B C} (f : A -> B -> C) a b : length a = length b -> length (map2 f a b) = length a.
Proof. revert b. induction a as [|x a IH]; intros [|y b] L; cbn in *; try lia. f_equal. apply IH. lia. Qed.
Lemma load_cnn F fl eps dm dm0 m m0 ss ss0 kd kd0 lo lo0 n k n0 k0 : (0 <= eps)%R -> (forall d, In d (m_layers dm) -> forall x, In x (numbers d) -> close eps x (trip fl x)) ->
  cnn m ss kd lo n k -> cnn m0 ss0 kd0 lo0 n0 k0 -> Forall2 like ss ss0 -> like_loss kd kd0 -> csaveable F dm m -> Forall2 cshows (m_layers dm0) (map fst (mnodes m0)) ->
  let dm1 := mkDM (m_name dm) (map2 (restored fl) (m_layers dm0) (m_layers dm)) in
  Forall2 same_class (m_layers dm0) (m_layers dm) /\ exists ss1 kd1 lo1, cnn (c_loaded dm1 m0) ss1 kd1 lo1 n k /\ Forall2 (cnear eps) ss ss1 /\ like_loss kd kd1 /\ Forall2 cshows (m_layers dm1) (map fst (mnodes (c_loaded dm1 m0))).
Proof.
  intros P H W W0 A AL Sv S0 dm1. pose proof (cs_shows _ _ _ Sv) as S. rewrite (cn_nodes _ _ _ _ _ _ W) in S. rewrite (cn_nodes _ _ _ _ _ _ W0) in S0.
  destruct (Forall2_app_r _ _ _ _ S) as (ds & dl & E & Sa & Sb). destruct (Forall2_app_r _ _ _ _ S0) as (ds0 & dl0 & E0 & Sa0 & Sb0).
  inversion Sb as [|d1 ? ? ? Sd1 Sn1]; subst. inversion Sn1; subst. inversion Sb0 as [|d2 ? ? ? Sd2 Sn2]; subst. inversion Sn2; subst.
  destruct (load_nodes fl eps P ds ds0 ss ss0 n k) as (C & N1 & L1 & W1); auto.
  { intros d Hd. apply H. rewrite E. apply in_or_app. now left. }
  { exact (cn_shape _ _ _ _ _ _ W). }
  destruct (load_loss fl d1 d2 kd kd0 lo lo0 Sd1 Sd2 AL) as (C2 & kd1 & lo1 & E2 & K2 & W2 & G2).
  set (ss1 := map2 c_load (map2 (restored fl) ds0 ds) ss0) in *.
  assert (LC : length ds0 = length ds) by exact (f2_length C).
  assert (LS : length (map2 (restored fl) ds0 ds) = length ss0) by (rewrite map2_length by exact LC; exact (f2_length Sa0)).
  assert (EM : m_layers dm1 = map2 (restored fl) ds0 ds ++ [restored fl d2 d1]) by (cbn [m_layers dm1]; rewrite E, E0, map2_app by exact LC; reflexivity).
  assert (EN : map fst (mnodes (c_loaded dm1 m0)) = ss1 ++ [CO kd1 lo1]).
  { unfold c_loaded. cbn [mnodes]. rewrite c_load_all_fst.
    - rewrite EM, (cn_nodes _ _ _ _ _ _ W0), map2_app by exact LS. cbn [map2]. now rewrite E2.
    - rewrite EM, app_length, LS. pose proof (cn_nodes _ _ _ _ _ _ W0) as Q. apply (f_equal (@List.length _)) in Q. rewrite app_length, map_length in Q. cbn [List.length] in *. lia. }
  split; [rewrite E, E0; apply Forall2_app; [exact C|now constructor]|]. exists ss1, kd1, lo1.
  assert (LL : length ss1 = length ss0) by (unfold ss1; rewrite map2_length by exact LS; exact LS).
  split; [constructor|split; [exact N1|split; [exact K2|]]].
  - rewrite LL. exact (cn_graph _ _ _ _ _ _ W0).
  - rewrite LL. exact (cn_some _ _ _ _ _ _ W0).
  - exact EN.
  - exact L1.
  - rewrite G2. exact (cn_grad _ _ _ _ _ _ W).
  - rewrite EM, EN. apply Forall2_app; [exact W1|now constructor].
Qed.
Lemma csaveable_close F fl dm m : nearest F fl -> csaveable F dm m -> forall d, In d (m_layers dm) -> forall x, In x (numbers d) -> close (1 / 10 ^ 6) x (trip fl x).
Proof.
  intros Hn Sv d Hd x Hx. apply (trip_close fl F); [exact Hn|]. pose proof (cs_ok _ _ _ Sv) as M. unfold model_ok in M. rewrite Forall_forall in M. destruct (M d Hd) as (_ & Q). rewrite Forall_forall in Q. auto.
Qed.
Lemma csaved_file F fl dm dm0 m : nearest F fl -> csaveable F dm m -> m_layers dm <> [] -> Forall2 same_class (m_layers dm0) (m_layers dm) ->
  exists d, dump_model dm = Ok d /\ (exists f0, forall f, f0 <= f -> read_back f d = Some (Ok d)) /\
    load_model fl dm0 d = Ok (mkDM (m_name dm) (map2 (restored fl) (m_layers dm0) (m_layers dm))).
Proof.
  intros Hn Sv NE C. destruct (c43_model_file F fl dm0 dm Hn (cs_ok _ _ _ Sv) C NE (cs_name _ _ _ Sv) (cs_file _ _ _ Sv)) as (d & f0 & dm1 & E1 & E2 & E3 & _). exists d. split; [exact E1|]. split; [eauto|].
  pose proof (cs_ok _ _ _ Sv) as M. assert (OK : Forall ok_layer (m_layers dm)) by (eapply Forall_impl; [|exact M]; now intros ? (? & _)).
  rewrite dump_model_ok in E1 by exact OK. injection E1 as <-. now apply (load_model_ok F).
Qed.
Lemma csaveable_some F dm m ss kd lo n k : cnn m ss kd lo n k -> csaveable F dm m -> m_layers dm <> [].
Proof.
  intros W Sv Q. pose proof (cs_shows _ _ _ Sv) as S. rewrite Q, (cn_nodes _ _ _ _ _ _ W) in S. inversion S as [E|]. now destruct ss.
Qed.
(** The network [m] is saved to a file and loaded into [m0], a network of the same classes of
    layers: [m0] becomes a network of the sizes of [m], which predicts nearly the same. *)
Theorem c93_predict : forall F fl dm dm0 m m0 ss ss0 kd kd0 lo lo0 n k n0 k0, nearest F fl ->
  cnn m ss kd lo n k -> cnn m0 ss0 kd0 lo0 n0 k0 -> Forall2 like ss ss0 -> like_loss kd kd0 -> csaveable F dm m -> Forall2 cshows (m_layers dm0) (map fst (mnodes m0)) ->
  exists d dm1 ss1 kd1 lo1, dump_model dm = Ok d /\ (exists f0, forall f, f0 <= f -> read_back f d = Some (Ok d)) /\ load_model fl dm0 d = Ok dm1 /\
    Forall2 cshows (m_layers dm1) (map fst (mnodes (c_loaded dm1 m0))) /\
    cnn (c_loaded dm1 m0) ss1 kd1 lo1 n k /\ like_loss kd kd1 /\
    forall x, length x = n -> exists ma mb y y', m_predict cnn_ops m x = Ok (ma, y) /\ m_predict cnn_ops (c_loaded dm1 m0) x = Ok (mb, y') /\ length y = k /\ length y' = k /\
      forall i, (Rabs (nth i y 0 - nth i y' 0) <= snd (cdrift (1 / 10 ^ 6) ss (largest x) 0))%R.
Proof.
  intros F fl dm dm0 m m0 ss ss0 kd kd0 lo lo0 n k n0 k0 Hn W W0 A AL Sv S0.
  destruct (load_cnn F fl (1 / 10 ^ 6) dm dm0 m m0 ss ss0 kd kd0 lo lo0 n k n0 k0 ten6 (csaveable_close F fl dm m Hn Sv) W W0 A AL Sv S0) as (C & ss1 & kd1 & lo1 & W1 & N1 & K1 & S1).
  destruct (csaved_file F fl dm dm0 m Hn Sv (csaveable_some _ _ _ _ _ _ _ _ W Sv) C) as (d & E1 & E2 & E3). eexists. eexists. exists ss1, kd1, lo1. split; [exact E1|]. split; [exact E2|]. split; [exact E3|]. split; [exact S1|]. split; [exact W1|]. split; [exact K1|].
  intros x Lx. destruct (c69_predict m ss kd lo n k x W Lx) as (ma & Ea & La). destruct (c69_predict _ ss1 kd1 lo1 n k x W1 Lx) as (mb & Eb & Lb). exists ma, mb, (cnn_value ss x), (cnn_value ss1 x).
  split; [exact Ea|]. split; [exact Eb|]. split; [exact La|]. split; [exact Lb|].
  destruct (cnn_drift (1 / 10 ^ 6) ss ss1 ten6 N1 n k (largest x) 0 x x) as (_ & D); auto; [apply largest_0|apply Rle_refl|exact (cn_shape _ _ _ _ _ _ W)|exact (cn_shape _ _ _ _ _ _ W1)|apply largest_nth|apply apart_0].
Qed.
(** Hence the same class is predicted when the best one wins by more than twice the drift. *)
Theorem c93_decision : forall F fl dm dm0 m m0 ss ss0 kd kd0 lo lo0 n k n0 k0 d dm1 x ma y c, nearest F fl ->
  cnn m ss kd lo n k -> cnn m0 ss0 kd0 lo0 n0 k0 -> Forall2 like ss ss0 -> like_loss kd kd0 -> csaveable F dm m -> Forall2 cshows (m_layers dm0) (map fst (mnodes m0)) ->
  dump_model dm = Ok d -> load_model fl dm0 d = Ok dm1 -> length x = n -> m_predict cnn_ops m x = Ok (ma, y) -> c < k ->
  (forall j, (j < k)%nat -> j <> c -> nth j y 0 + 2 * snd (cdrift (1 / 10 ^ 6) ss (largest x) 0) < nth c y 0)%R ->
  argmax y k = Ok c /\ exists mb y', m_predict cnn_ops (c_loaded dm1 m0) x = Ok (mb, y') /\ argmax y' k = Ok c.
Proof.
  intros F fl dm dm0 m m0 ss ss0 kd kd0 lo lo0 n k n0 k0 d dm1 x ma y c Hn W W0 A AL Sv S0 Ed El Lx Ey Hc M.
  destruct (c93_predict F fl dm dm0 m m0 ss ss0 kd kd0 lo lo0 n k n0 k0 Hn W W0 A AL Sv S0) as (d' & dm1' & ss1 & kd1 & lo1 & E1 & _ & E3 & _ & _ & _ & G). rewrite Ed in E1. injection E1 as <-. rewrite El in E3. injection E3 as <-.
  destruct (G x Lx) as (ma' & mb & y0 & y' & Ea & Eb & L1 & L2 & D). rewrite Ey in Ea. injection Ea as <- <-. set (e := snd _) in *.
  assert (P : (0 <= e)%R) by (eapply Rle_trans; [apply Rabs_pos|apply (D 0)]).
  assert (Q : forall z, length z = k -> (forall j, (j < k)%nat -> j <> c -> nth j z 0 < nth c z 0)%R -> argmax z k = Ok c).
  { intros z Lz B. destruct (c16_argmax_R z k) as (b & E & _ & Hb & B1 & _); [lia|lia|]. rewrite E. f_equal. destruct (Nat.eq_dec b c) as [|N]; [assumption|]. specialize (B b Hb N). specialize (B1 c Hc). lra. }
  split; [apply Q; [exact L1|]; intros j Hj N; specialize (M j Hj N); lra|]. exists mb, y'. split; [exact Eb|]. apply Q; [exact L2|]. intros j Hj N. specialize (M j Hj N). pose proof (D j) as Dj. pose proof (D c) as Dc. split_Rabs; lra.
Qed.
(** Weights and biases with six decimals: the loaded network predicts the same. *)
Theorem c93_exact : forall F fl dm dm0 m m0 ss ss0 kd kd0 lo lo0 n k n0 k0 d dm1 x, nearest F fl ->
  cnn m ss kd lo n k -> cnn m0 ss0 kd0 lo0 n0 k0 -> Forall2 like ss ss0 -> like_loss kd kd0 -> csaveable F dm m -> Forall2 cshows (m_layers dm0) (map fst (mnodes m0)) ->
  Forall (fun l => Forall six_decimals (numbers l)) (m_layers dm) ->
  dump_model dm = Ok d -> load_model fl dm0 d = Ok dm1 -> length x = n ->
  exists ma mb y, m_predict cnn_ops m x = Ok (ma, y) /\ m_predict cnn_ops (c_loaded dm1 m0) x = Ok (mb, y).
Proof.
  intros F fl dm dm0 m m0 ss ss0 kd kd0 lo lo0 n k n0 k0 d dm1 x Hn W W0 A AL Sv S0 X Ed El Lx.
  assert (H : forall d, In d (m_layers dm) -> forall x, In x (numbers d) -> close 0 x (trip fl x)).
  { intros l Hl z Hz. pose proof (cs_ok _ _ _ Sv) as M. unfold model_ok in M. rewrite Forall_forall in M, X. destruct (M l Hl) as (_ & Q). specialize (X l Hl). rewrite Forall_forall in Q, X.
    rewrite (trip_six F fl) by auto. destruct (Q z Hz) as (neg & mz & -> & _). cbn. split; [reflexivity|]. rewrite Rminus_diag_eq, Rabs_R0 by reflexivity. lra. }
  destruct (load_cnn F fl 0 dm dm0 m m0 ss ss0 kd kd0 lo lo0 n k n0 k0 (Rle_refl 0) H W W0 A AL Sv S0) as (C & ss1 & kd1 & lo1 & W1 & N1 & K1 & S1).
  destruct (csaved_file F fl dm dm0 m Hn Sv (csaveable_some _ _ _ _ _ _ _ _ W Sv) C) as (d' & E1 & E2 & E3). rewrite Ed in E1. injection E1 as <-. rewrite El in E3. injection E3 as ->.
  destruct (c69_predict m ss kd lo n k x W Lx) as (ma & Ea & La). destruct (c69_predict _ ss1 kd1 lo1 n k x W1 Lx) as (mb & Eb & Lb). exists ma, mb, (cnn_value ss x). split; [exact Ea|]. rewrite Eb. do 2 f_equal.
  destruct (cnn_drift 0 ss ss1 (Rle_refl 0) N1 n k (largest x) 0 x x) as (L1 & D); auto; [apply largest_0|apply Rle_refl|exact (cn_shape _ _ _ _ _ _ W)|exact (cn_shape _ _ _ _ _ _ W1)|apply largest_nth|apply apart_0|].
  rewrite cdrift_exact in D. apply (list_ext_nth 0%R); [congruence|]. intros i _. specialize (D i). split_Rabs; lra.
Qed.
(** *** Two targets *)
Definition alike (s s0 : cnode R) : Prop := match s, s0 with CO _ _, CO _ _ => True | _, _ => like s s0 end.
Definition equal (s s' : cnode R) : Prop := match s, s' with CO _ _, CO _ _ => True | _, _ => cnear 0 s s' end.
Lemma load_same fl d d0 d0' s s0 s0' : cshows d s -> cshows d0 s0 -> cshows d0' s0' -> alike s s0 -> alike s s0' -> equal (c_load (restored fl d0 d) s0) (c_load (restored fl d0' d) s0').
Proof.
  intros Sh Sh0 Sh0' K K'. destruct s as [l|c|p|kd lo], s0 as [l0|c0|p0|kd0 lo0], s0' as [l0'|c0'|p0'|kd0' lo0']; cbn [alike like cshows] in *; try easy.
  - destruct Sh as (S & _), Sh0 as (S0 & _), Sh0' as (S0' & _).
    assert (E : forall f w b w' b' wg bg wg' bg', (knd l = KDense -> w = w' /\ b = b') -> equal (CL (sized f l0 w b wg bg)) (CL (sized f l0' w' b' wg' bg'))).
    { intros f w b w' b' wg bg wg' bg' Q. cbn [equal cnear]. constructor; cbn [sized knd insz out wts bias]; [congruence|reflexivity|now rewrite !resize_length| |]; intros G; rewrite K in G; destruct (Q G) as (-> & ->); apply apart_0. }
    destruct d as [t f|f al|f w b|? ? ? ? ? ? ?|? ? ? ?|? ?|? ?|? ? ? ? ? ? ? ? ?]; cbn [shows] in S; try easy.
    + cbn [restored c_load]. apply E. intros G. destruct S as (a & Ka & _). congruence.
    + destruct d0 as [t0 f0|f0 al0|f0 w0 b0|? ? ? ? ? ? ?|? ? ? ?|? ?|? ?|? ? ? ? ? ? ? ? ?]; cbn [shows] in S0; try easy; destruct d0' as [t0' f0'|f0' al0'|f0' w0' b0'|? ? ? ? ? ? ?|? ? ? ?|? ?|? ?|? ? ? ? ? ? ? ? ?]; cbn [shows] in S0'; try easy; cbn [restored c_load fields_of]; apply E; congruence.
    + cbn [restored c_load fields_of]. apply E. auto.
  - destruct Sh as (f & w & b & -> & Fi & Fo & _). cbn [restored c_load]. rewrite Fi, Fo. cbn [equal cnear cv_H cv_W cv_C cv_kh cv_kw cv_nf cv_sh cv_sw cv_ph cv_pw cv_oh cv_ow cv_w cv_b cv_wg cv_bg cv_out cv_ig]. split; [apply apart_0|reflexivity].
  - destruct Sh as (f & -> & Fi & _). cbn [restored c_load]. rewrite Fi. cbn [equal cnear]. unfold pool_with. cbn [pl_max pl_H pl_W pl_C pl_kh pl_kw pl_sh pl_sw pl_out pl_ig]. congruence.
Qed.
Lemma load_same_all fl : forall ds ss, Forall2 cshows ds ss -> forall ds0 ss0 ds0' ss0', Forall2 cshows ds0 ss0 -> Forall2 cshows ds0' ss0' -> Forall2 alike ss ss0 -> Forall2 alike ss ss0' ->
  Forall2 equal (map2 c_load (map2 (restored fl) ds0 ds) ss0) (map2 c_load (map2 (restored fl) ds0' ds) ss0').
Proof.
  induction 1 as [|d s ds ss Sh F IH]; intros ds0 ss0 ds0' ss0' S0 S0' A A'; inversion A as [|? s0 ? ss1 A1 A2]; inversion A' as [|? s0' ? ss1' A1' A2']; subst.
  - inversion S0; inversion S0'; subst. constructor.
  - inversion S0; inversion S0'; subst. cbn [map2]. constructor; [eapply load_same; eauto|eapply IH; eauto].
Qed.
Lemma alike_all ss ss0 kd kd0 lo lo0 : Forall2 like ss ss0 -> Forall2 alike (ss ++ [CO kd lo]) (ss0 ++ [CO kd0 lo0]).
Proof.
  intros A. apply Forall2_app; [|now constructor]. induction A as [|s s0 ss ss0 K A IH]; constructor; [|exact IH]. destruct s, s0; cbn in *; easy.
Qed.
(** Saving the loaded network gives the same file; loading it into any third network of these
    classes gives the same predictions as loading it into the second. *)
Theorem c93_any_target : forall F fl dm dm0 dm0' m m0 m0' ss ss0 ss0' kd kd0 kd0' lo lo0 lo0' n k n0 k0 n0' k0' d dm1 dm1' x, nearest F fl ->
  cnn m ss kd lo n k -> cnn m0 ss0 kd0 lo0 n0 k0 -> cnn m0' ss0' kd0' lo0' n0' k0' -> Forall2 like ss ss0 -> Forall2 like ss ss0' -> like_loss kd kd0 -> like_loss kd kd0' -> csaveable F dm m ->
  Forall2 cshows (m_layers dm0) (map fst (mnodes m0)) -> Forall2 cshows (m_layers dm0') (map fst (mnodes m0')) ->
  dump_model dm = Ok d -> load_model fl dm0 d = Ok dm1 -> load_model fl dm0' d = Ok dm1' -> length x = n ->
  dump_model dm1 = Ok d /\ exists ma mb y, m_predict cnn_ops (c_loaded dm1 m0) x = Ok (ma, y) /\ m_predict cnn_ops (c_loaded dm1' m0') x = Ok (mb, y).
Proof.
  intros F fl dm dm0 dm0' m m0 m0' ss ss0 ss0' kd kd0 kd0' lo lo0 lo0' n k n0 k0 n0' k0' d dm1 dm1' x Hn W W0 W0' A A' AL AL' Sv S0 S0' Ed El El' Lx.
  destruct (load_cnn F fl (1 / 10 ^ 6) dm dm0 m m0 ss ss0 kd kd0 lo lo0 n k n0 k0 ten6 (csaveable_close F fl dm m Hn Sv) W W0 A AL Sv S0) as (C & ss1 & kd1 & lo1 & W1 & _ & _ & _).
  destruct (load_cnn F fl (1 / 10 ^ 6) dm dm0' m m0' ss ss0' kd kd0' lo lo0' n k n0' k0' ten6 (csaveable_close F fl dm m Hn Sv) W W0' A' AL' Sv S0') as (C' & ss1' & kd1' & lo1' & W1' & _ & _ & _).
  pose proof (csaveable_some _ _ _ _ _ _ _ _ W Sv) as NE. split.
  { destruct (c43_model_file F fl dm0 dm Hn (cs_ok _ _ _ Sv) C NE (cs_name _ _ _ Sv) (cs_file _ _ _ Sv)) as (d' & f0 & dm1'' & E1 & _ & E3 & _ & _ & _ & E4).
    rewrite Ed in E1. injection E1 as <-. rewrite El in E3. injection E3 as <-. exact E4. }
  destruct (csaved_file F fl dm dm0 m Hn Sv NE C) as (d1 & E1 & _ & E3). rewrite Ed in E1. injection E1 as <-. rewrite El in E3. injection E3 as ->.
  destruct (csaved_file F fl dm dm0' m Hn Sv NE C') as (d1 & E1' & _ & E3'). rewrite Ed in E1'. injection E1' as <-. rewrite El' in E3'. injection E3' as ->.
  destruct (c69_predict _ ss1 kd1 lo1 n k x W1 Lx) as (ma & Ea & La). destruct (c69_predict _ ss1' kd1' lo1' n k x W1' Lx) as (mb & Eb & Lb). exists ma, mb, (cnn_value ss1 x). split; [exact Ea|]. rewrite Eb. do 2 f_equal.
  assert (Q : Forall2 equal (ss1 ++ [CO kd1 lo1]) (ss1' ++ [CO kd1' lo1'])).
  { rewrite <- (cn_nodes _ _ _ _ _ _ W1), <- (cn_nodes _ _ _ _ _ _ W1'). pose proof (f2_length S0) as L0. pose proof (f2_length S0') as L0'. pose proof (f2_length C) as LC. pose proof (f2_length C') as LC'. rewrite map_length in L0, L0'.
    unfold c_loaded. cbn [mnodes m_layers]. rewrite !c_load_all_fst by (rewrite map2_length; assumption).
    apply (load_same_all fl (m_layers dm) (map fst (mnodes m)) (cs_shows _ _ _ Sv)); auto.
    - rewrite (cn_nodes _ _ _ _ _ _ W), (cn_nodes _ _ _ _ _ _ W0). now apply alike_all.
    - rewrite (cn_nodes _ _ _ _ _ _ W), (cn_nodes _ _ _ _ _ _ W0'). now apply alike_all. }
  assert (N : Forall2 (cnear 0) ss1 ss1').
  { destruct (Forall2_app_r _ _ _ _ Q) as (la & lb & E & Qa & Qb). inversion Qb as [|? ? ? ? _ Qn]; subst. inversion Qn; subst. apply app_inj_tail in E as (<- & _).
    pose proof (cn_shape _ _ _ _ _ _ W1) as Z. clear - Qa Z. revert Z. generalize (length x) as q, (length (cnn_value ss1 x)) as r. induction Qa as [|s s' ls ls' E Qa IH]; intros q r Z; [constructor|]. destruct Z as (j & Zs & Z). constructor; [|exact (IH j r Z)].
    destruct s as [l|c|p|? ?]; [destruct s'; exact E|destruct s'; exact E|destruct s'; exact E|easy]. }
  destruct (cnn_drift 0 ss1 ss1' (Rle_refl 0) N n k (largest x) 0 x x) as (_ & D); auto; [apply largest_0|apply Rle_refl|exact (cn_shape _ _ _ _ _ _ W1)|exact (cn_shape _ _ _ _ _ _ W1')|apply largest_nth|apply apart_0|].
  rewrite cdrift_exact in D. symmetry. apply (list_ext_nth 0%R); [congruence|]. intros i _. specialize (D i). split_Rabs; lra.
Qed.

(** *** Cases *)
(** A 1 x 2 filter on a 1 x 3 image, a 1 x 2 max pooling, a dense layer to two outputs; [a] is the
    first weight of the filter. *)
Definition sc_cnn (a : dbl) : list (cnode R) :=
  [CV (mkConv 1 3 1 1 2 1 1 1 0 0 1 2 (map dval [a; DFin false 1]) (map dval [DFin false 0]) [0; 0]%R [0]%R [0; 0]%R [0; 0; 0]%R);
   CP (mkPool true 1 2 1 1 2 1 2 [0]%R [0; 0]%R);
   CL (mkLayer KDense 1 (map dval [DFin false 1; DFin true 1]) (map dval [DFin false 0; DFin false 0]) [0; 0]%R [0; 0]%R [0; 0]%R [0]%R)].
Definition sc_dump (a : dbl) : dmodel :=
  mkDM (txt "net") [DConv (mkF (txt "c") [(1, 3, 1)] [(1, 2, 1)]) (1, 2) (1, 1) (0, 0) 1 [a; DFin false 1] [DFin false 0];
    DPool (txt "MaxPool") (mkF (txt "p") [(1, 2, 1)] [(1, 1, 1)]) (1, 2) (1, 2);
    DDense (mkF (txt "d") [(1, 1, 1)] [(2, 1, 1)]) [DFin false 1; DFin true 1] [DFin false 0; DFin false 0];
    DMse (mkF (txt "m") [(2, 1, 1)] [(1, 1, 1)]) (DFin false 0)].
(** Another one: a 1 x 1 filter on a 1 x 4 image, stride 2, a 1 x 1 pooling, one output *)
Definition sc_other : list (cnode R) :=
  [CV (mkConv 1 4 1 1 1 1 1 2 0 0 1 2 [0]%R [0]%R [0]%R [0]%R [0; 0]%R [0; 0; 0; 0]%R);
   CP (mkPool true 1 2 1 1 1 1 1 [0; 0]%R [0; 0]%R);
   CL (mkLayer KDense 2 [0; 0]%R [0]%R [0; 0]%R [0]%R [0]%R [0; 0]%R)].
Definition sc_other_dump : dmodel :=
  let z := DFin false 0 in
  mkDM (txt "other") [DConv (mkF (txt "c") [(1, 4, 1)] [(1, 2, 1)]) (1, 1) (1, 2) (0, 0) 1 [z] [z];
    DPool (txt "MaxPool") (mkF (txt "p") [(1, 2, 1)] [(1, 2, 1)]) (1, 1) (1, 1);
    DDense (mkF (txt "d") [(2, 1, 1)] [(1, 1, 1)]) [z; z] [z];
    DMse (mkF (txt "m") [(1, 1, 1)] [(1, 1, 1)]) z].
Lemma sc_shape a : cshape (sc_cnn a) 3 2.
Proof.
  exists 2. split; [|exists 1; split; [|exists 2; split; [|reflexivity]]]; cbn [cnode_shape].
  - unfold conv_shape. cbn [cv_H cv_W cv_C cv_kh cv_kw cv_nf cv_sh cv_sw cv_ph cv_pw cv_oh cv_ow cv_w cv_b cv_wg cv_bg cv_out cv_ig].
    split; [lia|]. split; [lia|]. split; [lia|]. split; [split; reflexivity|]. split; [split; reflexivity|]. split; [lia|]. split; [split; reflexivity|]. split; split; reflexivity.
  - unfold pool_shape. cbn [pl_H pl_W pl_C pl_kh pl_kw pl_sh pl_sw pl_out pl_ig]. split; [lia|]. split; [lia|]. split; [lia|]. split; [split; reflexivity|]. split; [split; reflexivity|]. split; reflexivity.
  - split; [reflexivity|]. split; [reflexivity|]. split; [reflexivity|]. cbn. auto.
Qed.
Lemma sc_other_shape : cshape sc_other 4 1.
Proof.
  exists 2. split; [|exists 2; split; [|exists 1; split; [|reflexivity]]]; cbn [cnode_shape].
  - unfold conv_shape. cbn [cv_H cv_W cv_C cv_kh cv_kw cv_nf cv_sh cv_sw cv_ph cv_pw cv_oh cv_ow cv_w cv_b cv_wg cv_bg cv_out cv_ig].
    split; [lia|]. split; [lia|]. split; [lia|]. split; [split; reflexivity|]. split; [split; reflexivity|]. split; [lia|]. split; [split; reflexivity|]. split; split; reflexivity.
  - unfold pool_shape. cbn [pl_H pl_W pl_C pl_kh pl_kw pl_sh pl_sw pl_out pl_ig]. split; [lia|]. split; [lia|]. split; [lia|]. split; [split; reflexivity|]. split; [split; reflexivity|]. split; reflexivity.
  - split; [reflexivity|]. split; [reflexivity|]. split; [reflexivity|]. cbn. auto.
Qed.
Lemma grid_Z (z : Z) : grid (IZR z).
Proof. exists (z * 2 ^ 10)%Z. rewrite mult_IZR, (pow_IZR 2 10). change (Z.of_nat 10) with 10%Z. field. apply IZR_neq. discriminate. Qed.
Lemma grid_finite b (z : Z) : (0 <= z)%Z -> finite grid (DFin b (IZR z)).
Proof. intros P. exists b, (IZR z). split; [reflexivity|]. split; [now apply IZR_le|apply grid_Z]. Qed.
(** The hypotheses hold for these two networks, the numbers being those of [grid]. *)
Example c93_met : exists m m0, nearest grid to_grid /\ cnn m (sc_cnn (DFin false 2)) (MSE 0%R) (loss_new 2 1) 3 2 /\ cnn m0 sc_other (MSE 0%R) (loss_new 1 1) 4 1 /\
  Forall2 like (sc_cnn (DFin false 2)) sc_other /\ like_loss (MSE 0%R) (MSE 0%R) /\ csaveable grid (sc_dump (DFin false 2)) m /\ Forall2 cshows (m_layers sc_other_dump) (map fst (mnodes m0)) /\
  Forall (fun l => Forall six_decimals (numbers l)) (m_layers (sc_dump (DFin false 2))).
Proof.
  destruct (cnn_chain (sc_cnn (DFin false 2)) (MSE 0%R) (loss_new 2 1) 3 2 ltac:(cbn; lia) (sc_shape _) eq_refl) as (m & W). destruct (cnn_chain sc_other (MSE 0%R) (loss_new 1 1) 4 1 ltac:(cbn; lia) sc_other_shape eq_refl) as (m0 & W0).
  exists m, m0. split; [exact c43_grid_nearest|]. split; [exact W|]. split; [exact W0|]. split; [|split; [exact Logic.I|split; [|split]]].
  - unfold sc_cnn, sc_other. apply Forall2_cons; [exact Logic.I|]. apply Forall2_cons; [reflexivity|]. apply Forall2_cons; [reflexivity|constructor].
  - assert (G : forall l, (forall x, In x l -> exists b z, x = DFin b (IZR z) /\ (0 <= z)%Z) -> Forall (finite grid) l).
    { intros l B. apply Forall_forall. intros x Hx. destruct (B x Hx) as (b & z & -> & P). now apply grid_finite. }
    constructor.
    + rewrite (cn_nodes _ _ _ _ _ _ W). cbn [m_layers sc_dump sc_cnn app]. apply Forall2_cons; [cbn [cshows]; eexists; eexists; eexists; split; [reflexivity|]; repeat split|].
      apply Forall2_cons; [cbn [cshows]; eexists; split; [reflexivity|]; split; reflexivity|]. apply Forall2_cons; [cbn; repeat split; lra|]. apply Forall2_cons; [cbn; repeat split|constructor].
    + unfold model_ok. cbn [m_layers sc_dump].
      apply Forall_cons; [|apply Forall_cons; [|apply Forall_cons; [|apply Forall_cons; [|constructor]]]]; (split; [split; [repeat split; try discriminate; repeat constructor; vm_compute; reflexivity|]|]); try exact Logic.I; try (vm_compute; repeat split; reflexivity);
        apply G; cbn [numbers app]; intros x Hx; cbn [In] in Hx; repeat (destruct Hx as [<-|Hx]; [eexists; eexists; split; [reflexivity|lia]|]); contradiction.
    + vm_compute. intuition discriminate.
    + cbn [m_layers sc_dump]. repeat (apply Forall_cons; [split; [vm_compute; intuition discriminate|]; split; [vm_compute; intuition discriminate|vm_compute; try lia; try exact Logic.I]|]). constructor.
  - rewrite (cn_nodes _ _ _ _ _ _ W0). cbn [m_layers sc_other_dump sc_other app]. apply Forall2_cons; [cbn [cshows]; eexists; eexists; eexists; split; [reflexivity|]; repeat split|].
    apply Forall2_cons; [cbn [cshows]; eexists; split; [reflexivity|]; split; reflexivity|]. apply Forall2_cons; [cbn; repeat split|]. apply Forall2_cons; [cbn; repeat split|constructor].
  - assert (D : forall b z, six_decimals (DFin b (IZR z))) by (intros b z; exists (z * 10 ^ 6)%Z; rewrite mult_IZR, (pow_IZR 10 6); change (Z.of_nat 6) with 6%Z; field; apply IZR_neq; discriminate).
    cbn [m_layers sc_dump numbers app]. repeat (apply Forall_cons; [repeat (apply Forall_cons; [apply D|]); constructor|]). constructor.
Qed.
(** The margin of [c93_decision] is met there: for the image 1 1 1 the outputs are 3 and -3. *)
Example c93_decision_met : (nth 1 (cnn_value (sc_cnn (DFin false 2)) [1; 1; 1]) 0 + 2 * snd (cdrift (1 / 10 ^ 6) (sc_cnn (DFin false 2)) (largest [1; 1; 1]) 0) < nth 0 (cnn_value (sc_cnn (DFin false 2)) [1; 1; 1]) 0)%R.
Proof.
  assert (V : cnn_value (sc_cnn (DFin false 2)) [1; 1; 1]%R = [3; -3]%R).
  { unfold cnn_value, sc_cnn. cbn [fold_left]. match goal with |- node_value _ (node_value _ ?c) = _ => replace c with [3; 3]%R by (cbv -[Rplus Rmult IZR Ropp]; repeat f_equal; ring) end.
    match goal with |- node_value _ ?c = _ => replace c with [3]%R by (cbv -[Rplus Rmult IZR Rmax]; rewrite Rmax_left by lra; reflexivity) end. cbv -[Rplus Rmult IZR Ropp]. repeat f_equal; ring. }
  rewrite V. cbn [nth]. unfold sc_cnn. cbn [cdrift cdrift1 drift1 knd insz wts bias cv_kh cv_kw cv_C cv_w largest map dval snd INR]. rewrite Rabs_Ropp, !(Rabs_right 1), (Rabs_right 2) by lra.
  rewrite (Rmax_left 1 0) by lra. rewrite !(Rmax_left 1 1) by lra. rewrite (Rmax_left 2 1) by lra. rewrite E6. lra.
Qed.
Print Assumptions c93_predict.
Print Assumptions c93_decision.
Print Assumptions c93_exact.
Print Assumptions c93_any_target.
