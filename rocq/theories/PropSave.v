(** C91: predictions of a network that was saved and loaded. *)
From Coq Require Import Ascii String Reals Lra Lia.
From Verif Require Import Base Num RSum MathModel MathProofs LayerModel LossModel GradProofs GradChain OptModel GraphModel GraphProofs ModelModel NodeModel ChainProofs ModelProofs PropGraph PropModel PropMath.
From Verif Require Import TypeModel PropTypes StreamModel JsonModel PropJson DumpModel PropDump FloatModel SaveModel DriftProofs.
Local Open Scope list_scope.
Local Open Scope nat_scope.
Local Notation length := List.length.

(** The same architecture: kinds of layers (with the alpha of ELU layers), sizes, kind of loss *)
Definition same_arch (ls ls0 : list (layer R)) (kd kd0 : losskind R) : Prop :=
  Forall2 (fun l l0 => knd l0 = knd l /\ insz l0 = insz l /\ length (out l0) = length (out l)) ls ls0 /\
  match kd, kd0 with CCE, CCE | MSE _, MSE _ => True | _, _ => False end.
(** A network and what dump sees of it; the text of the file can be read back. *)
Record saveable (F : R -> Prop) (dm : dmodel) (m : model (node R)) : Prop := {
  sv_shows : Forall2 shows (m_layers dm) (map fst (mnodes m));
  sv_ok : model_ok F dm;
  sv_name : ~ In quote (m_name dm);
  sv_file : Forall file_layer (m_layers dm)
}.

(** *** One number *)
Lemma dval_close eps x y : close eps x y -> (Rabs (dval x - dval y) <= eps)%R.
Proof.
  destruct x as [s a|s|s], y as [t b|t|t]; cbn [close dval]; try easy. intros (<- & E). destruct s; [|exact E]. replace (- a - - b)%R with (- (a - b))%R by ring. now rewrite Rabs_Ropp.
Qed.
Lemma trip_trip F fl x : nearest F fl -> finite F x -> trip fl (trip fl x) = trip fl x.
Proof.
  intros Hn Hx. pose proof (trip_finite fl F x Hn Hx) as Ht. pose proof (trip_read fl F x Hx) as E. pose proof (trip_read fl F _ Ht) as E'. rewrite (trip_print fl F) in E' by assumption. congruence.
Qed.
Lemma trip_six F fl x : nearest F fl -> finite F x -> six_decimals x -> trip fl x = x.
Proof.
  intros Hn (neg & m & -> & P & HF) (k & Ek). cbn [trip]. assert (E : rne (m * 10 ^ 6) = k) by (rewrite Ek; replace (IZR k / 10 ^ 6 * 10 ^ 6)%R with (IZR k) by (field; lra); apply rne_IZR).
  rewrite E, micro_unit, <- Ek. destruct (Hn m P) as (_ & _ & N). specialize (N m HF P). rewrite (Rminus_diag_eq m m), Rabs_R0 in N by reflexivity. f_equal. split_Rabs; lra.
Qed.
Lemma apart_map eps (g : dbl -> dbl) w : (0 <= eps)%R -> (forall x, In x w -> close eps x (g x)) -> apart eps (map dval w) (map dval (map g w)).
Proof.
  intros P H i. revert i. induction w as [|x w IH]; intros i; cbn [map]; [destruct i; cbn; rewrite Rminus_0_r, Rabs_R0; exact P|].
  destruct i as [|i]; cbn [nth]; [apply dval_close, H; now left|]. apply IH. intros y Hy. apply H. now right.
Qed.

(** *** Layers *)
Lemma put_layer fl eps d d0 l l0 : (0 <= eps)%R -> (forall x, In x (numbers d) -> close eps x (trip fl x)) -> shows d (NL l) -> shows d0 (NL l0) ->
  knd l0 = knd l -> insz l0 = insz l -> length (out l0) = length (out l) -> forall n k, lshape l n k -> lshape l0 n k ->
  same_class d0 d /\ exists l1, put (restored fl d0 d) (NL l0) = NL l1 /\ near eps l l1 /\ lshape l1 n k /\ shows (restored fl d0 d) (NL l1).
Proof.
  intros P H S S0 K I O n k Sh Sh0.
  destruct d as [t f|f al|f w b|? ? ? ? ? ? ?|? ? ? ?|? ?|? ?|? ? ? ? ? ? ? ? ?]; cbn [shows] in S; try easy.
  - destruct S as (a & Ka & Na & ->). destruct d0 as [t0 f0|f0 al0|f0 w0 b0|? ? ? ? ? ? ?|? ? ? ?|? ?|? ?|? ? ? ? ? ? ? ? ?]; cbn [shows] in S0; try easy.
    + destruct S0 as (a0 & Ka0 & Na0 & ->). assert (a0 = a) by congruence. subst a0. split; [reflexivity|]. exists l0. split; [reflexivity|]. split; [constructor; auto; congruence|]. split; [exact Sh0|].
      cbn [restored shows]. eauto.
    + rewrite S0 in K. rewrite Ka in K. injection K as K. now elim (Na (dval al0)).
    + destruct S0 as (Kd & _). congruence.
  - destruct d0 as [t0 f0|f0 al0|f0 w0 b0|? ? ? ? ? ? ?|? ? ? ?|? ?|? ?|? ? ? ? ? ? ? ? ?]; cbn [shows] in S0; try easy.
    + destruct S0 as (a0 & Ka0 & Na0 & ->). rewrite Ka0, S in K. injection K as K. now elim (Na0 (dval al)).
    + split; [exact Logic.I|]. exists l0. split; [reflexivity|]. split; [constructor; auto; congruence|]. split; [exact Sh0|]. exact S0.
    + destruct S0 as (Kd & _). congruence.
  - destruct S as (Kd & Si & So & Ew & Eb). destruct d0 as [t0 f0|f0 al0|f0 w0 b0|? ? ? ? ? ? ?|? ? ? ?|? ?|? ?|? ? ? ? ? ? ? ? ?]; cbn [shows] in S0; try easy.
    + destruct S0 as (a0 & Ka0 & _). congruence.
    + congruence.
    + destruct S0 as (Kd0 & _). split; [exact Logic.I|]. cbn [restored put]. eexists. split; [reflexivity|]. cbn [numbers] in H. split; [|split].
      * constructor; cbn [knd insz out wts bias]; auto; intros _.
        -- rewrite Ew. apply apart_map; [exact P|]. intros x Hx. apply H, in_or_app. now left.
        -- rewrite Eb. apply apart_map; [exact P|]. intros x Hx. apply H, in_or_app. now right.
      * destruct Sh as (A1 & A2 & A3 & A4), Sh0 as (B1 & B2 & B3 & B4). unfold lshape. cbn [knd insz out wts bias ig wgrad bgrad]. rewrite Kd in A4. rewrite Kd0 in *. rewrite !map_length.
        rewrite Ew, Eb, !map_length in A4. intuition.
      * cbn [shows knd insz wts bias]. rewrite I, !map_length. rewrite Eb, map_length in So. auto.
Qed.
Lemma put_loss fl d d0 kd kd0 lo lo0 : shows d (NO kd lo) -> shows d0 (NO kd0 lo0) -> match kd, kd0 with CCE, CCE | MSE _, MSE _ => True | _, _ => False end ->
  same_class d0 d /\ exists kd1, put (restored fl d0 d) (NO kd0 lo0) = NO kd1 lo0 /\ shows (restored fl d0 d) (NO kd1 lo0).
Proof.
  intros S S0 K. destruct d as [t f|f al|f w b|? ? ? ? ? ? ?|? ? ? ?|? ?|? ?|? ? ? ? ? ? ? ? ?]; cbn [shows] in S; try easy; destruct d0 as [t0 f0|f0 al0|f0 w0 b0|? ? ? ? ? ? ?|? ? ? ?|? ?|? ?|? ? ? ? ? ? ? ? ?]; cbn [shows] in S0; try easy;
    destruct kd, kd0; try easy; cbn [restored put same_class]; split; try congruence; eexists; split; reflexivity || exact S.
Qed.
Lemma put_all_fst ds ss : length ds = length ss -> map fst (put_all ds ss) = map2 put ds (map fst ss).
Proof. revert ss. induction ds as [|d ds IH]; intros [|(s, p) ss] L; cbn in *; try lia; [reflexivity|]. f_equal. apply IH. lia. Qed.
Lemma map2_app {A B C} (f : A -> B -> C) a b a' b' : length a = length b -> map2 f (a ++ a') (b ++ b') = map2 f a b ++ map2 f a' b'.
Proof. revert b. induction a as [|x a IH]; intros [|y b] L; cbn in *; try lia; [reflexivity|]. f_equal. apply IH. lia. Qed.
Lemma Forall2_app_r {A B} (P : A -> B -> Prop) l a b : Forall2 P l (a ++ b) -> exists la lb, l = la ++ lb /\ Forall2 P la a /\ Forall2 P lb b.
Proof. intros F. apply Forall2_app_inv_r in F as (la & lb & Fa & Fb & ->). eauto. Qed.
Lemma f2_length {A B} {P : A -> B -> Prop} {a b} : Forall2 P a b -> length a = length b.
Proof. induction 1; cbn; congruence. Qed.
Lemma put_layers fl eps : (0 <= eps)%R -> forall ds ds0 ls ls0 n k, (forall d, In d ds -> forall x, In x (numbers d) -> close eps x (trip fl x)) ->
  Forall2 shows ds (map NL ls) -> Forall2 shows ds0 (map NL ls0) ->
  Forall2 (fun l l0 => knd l0 = knd l /\ insz l0 = insz l /\ length (out l0) = length (out l)) ls ls0 -> nshape ls n k -> nshape ls0 n k ->
  Forall2 same_class ds0 ds /\ exists ls1, map2 put (map2 (restored fl) ds0 ds) (map NL ls0) = map NL ls1 /\ Forall2 (near eps) ls ls1 /\ nshape ls1 n k /\ Forall2 shows (map2 (restored fl) ds0 ds) (map NL ls1).
Proof.
  intros P ds ds0 ls ls0 n k H S S0 A. revert ds ds0 n k H S S0. induction A as [|l l0 ls ls0 (K & I & O) A IH]; intros ds ds0 n k H S S0 Sh Sh0; cbn [map] in S, S0.
  - inversion S; inversion S0; subst. split; [constructor|]. exists []. cbn. auto.
  - inversion S as [|d s ds' ? Sd S']; inversion S0 as [|d0 s0 ds0' ? Sd0 S0']; subst. destruct Sh as (j & L1 & Sh), Sh0 as (j0 & L0 & Sh0).
    assert (j0 = j) by (destruct L1 as (_ & _ & L1 & _), L0 as (_ & _ & L0 & _); congruence). subst j0.
    destruct (put_layer fl eps d d0 l l0 P (H d (or_introl eq_refl)) Sd Sd0 K I O n j L1 L0) as (C & l1 & E & N & L & W).
    destruct (IH ds' ds0' j k (fun d Hd => H d (or_intror Hd)) S' S0' Sh Sh0) as (C' & ls1 & E' & N' & L' & W').
    split; [now constructor|]. exists (l1 :: ls1). cbn [map2 map nshape]. split; [now rewrite E, E'|]. split; [now constructor|]. split; [eauto|now constructor].
Qed.

(** *** Networks *)
Lemma load_network F fl eps dm dm0 m m0 ls ls0 kd kd0 lo lo0 n k : (0 <= eps)%R -> (forall d, In d (m_layers dm) -> forall x, In x (numbers d) -> close eps x (trip fl x)) ->
  network m ls kd lo n k -> network m0 ls0 kd0 lo0 n k -> same_arch ls ls0 kd kd0 -> saveable F dm m -> Forall2 shows (m_layers dm0) (map fst (mnodes m0)) ->
  let dm1 := mkDM (m_name dm) (map2 (restored fl) (m_layers dm0) (m_layers dm)) in
  Forall2 same_class (m_layers dm0) (m_layers dm) /\ exists ls1 kd1, network (loaded dm1 m0) ls1 kd1 lo0 n k /\ Forall2 (near eps) ls ls1 /\ Forall2 shows (m_layers dm1) (map fst (mnodes (loaded dm1 m0))).
Proof.
  intros P H W W0 (A & AL) Sv S0 dm1. pose proof (sv_shows _ _ _ Sv) as S. rewrite (nw_nodes _ _ _ _ _ _ W) in S. pose proof S0 as S0'. rewrite (nw_nodes _ _ _ _ _ _ W0) in S0.
  destruct (Forall2_app_r _ _ _ _ S) as (ds & dl & E & Sa & Sb). destruct (Forall2_app_r _ _ _ _ S0) as (ds0 & dl0 & E0 & Sa0 & Sb0).
  inversion Sb as [|d1 ? ? ? Sd1 Sn1]; subst. inversion Sn1; subst. inversion Sb0 as [|d2 ? ? ? Sd2 Sn2]; subst. inversion Sn2; subst.
  destruct (put_layers fl eps P ds ds0 ls ls0 n k) as (C & ls1 & E1 & N1 & L1 & W1); auto.
  { intros d Hd. apply H. rewrite E. apply in_or_app. now left. }
  { exact (nw_shape _ _ _ _ _ _ W). } { exact (nw_shape _ _ _ _ _ _ W0). }
  destruct (put_loss fl d1 d2 kd kd0 lo lo0 Sd1 Sd2 AL) as (C2 & kd1 & E2 & W2).
  assert (LC : length ds0 = length ds) by exact (f2_length C).
  assert (LS : length (map2 (restored fl) ds0 ds) = length (map (@NL R) ls0)).
  { rewrite <- (f2_length Sa0). clear - LC. revert ds LC. induction ds0 as [|x a IH]; intros [|y b] L; cbn in *; try lia. f_equal. apply IH. lia. }
  assert (EM : m_layers dm1 = map2 (restored fl) ds0 ds ++ [restored fl d2 d1]) by (cbn [m_layers dm1]; rewrite E, E0, map2_app by exact LC; reflexivity).
  assert (EN : map fst (mnodes (loaded dm1 m0)) = map NL ls1 ++ [NO kd1 lo0]).
  { unfold loaded. cbn [mnodes]. rewrite put_all_fst.
    - rewrite EM, (nw_nodes _ _ _ _ _ _ W0), map2_app by exact LS. cbn [map2]. now rewrite E1, E2.
    - rewrite EM, app_length, LS. pose proof (nw_nodes _ _ _ _ _ _ W0) as Q. apply (f_equal (@List.length _)) in Q. rewrite app_length, map_length in Q. cbn [List.length] in *. lia. }
  split; [rewrite E, E0; apply Forall2_app; [exact C|now constructor]|]. exists ls1, kd1.
  assert (LL : length ls1 = length ls0).
  { pose proof (f2_length N1). pose proof (f2_length A). congruence. }
  split; [constructor|split; [exact N1|]].
  - rewrite LL. exact (nw_graph _ _ _ _ _ _ W0).
  - rewrite LL. exact (nw_some _ _ _ _ _ _ W0).
  - exact EN.
  - exact L1.
  - exact (nw_grad _ _ _ _ _ _ W0).
  - rewrite EM, EN. apply Forall2_app; [exact W1|now constructor].
Qed.
Lemma saveable_close F fl dm m : nearest F fl -> saveable F dm m -> forall d, In d (m_layers dm) -> forall x, In x (numbers d) -> close (1 / 10 ^ 6) x (trip fl x).
Proof.
  intros Hn Sv d Hd x Hx. apply (trip_close fl F); [exact Hn|]. pose proof (sv_ok _ _ _ Sv) as M. unfold model_ok in M. rewrite Forall_forall in M. destruct (M d Hd) as (_ & Q). rewrite Forall_forall in Q. auto.
Qed.
Lemma ten6 : (0 <= 1 / 10 ^ 6)%R. Proof. rewrite E6. lra. Qed.
Lemma saved_file F fl dm dm0 m : nearest F fl -> saveable F dm m -> m_layers dm <> [] -> Forall2 same_class (m_layers dm0) (m_layers dm) ->
  exists d, dump_model dm = Ok d /\ (exists f0, forall f, f0 <= f -> read_back f d = Some (Ok d)) /\
    load_model fl dm0 d = Ok (mkDM (m_name dm) (map2 (restored fl) (m_layers dm0) (m_layers dm))).
Proof.
  intros Hn Sv NE C. destruct (c43_model_file F fl dm0 dm Hn (sv_ok _ _ _ Sv) C NE (sv_name _ _ _ Sv) (sv_file _ _ _ Sv)) as (d & f0 & dm1 & E1 & E2 & E3 & _). exists d. split; [exact E1|]. split; [eauto|].
  pose proof (sv_ok _ _ _ Sv) as M. assert (OK : Forall ok_layer (m_layers dm)) by (eapply Forall_impl; [|exact M]; now intros ? (? & _)).
  rewrite dump_model_ok in E1 by exact OK. injection E1 as <-. now apply (load_model_ok F).
Qed.
Lemma saveable_some F dm m ls kd lo n k : network m ls kd lo n k -> saveable F dm m -> m_layers dm <> [].
Proof.
  intros W Sv Q. pose proof (sv_shows _ _ _ Sv) as S. rewrite Q, (nw_nodes _ _ _ _ _ _ W) in S. inversion S as [E|]. now destruct ls.
Qed.
Lemma predictions draw m ls kd lo n k x : network m ls kd lo n k -> length x = n -> exists m', m_predict (node_ops draw) m x = Ok (m', run ls x).
Proof. apply c36_predict_value. Qed.
Lemma apart_0 x : apart 0 x x.
Proof. intros i. rewrite Rminus_diag_eq, Rabs_R0 by reflexivity. lra. Qed.
(** The network [m] is saved to a file and loaded into [m0], of the same architecture. *)
Theorem c91_predict : forall F fl draw dm dm0 m m0 ls ls0 kd kd0 lo lo0 n k, nearest F fl ->
  network m ls kd lo n k -> network m0 ls0 kd0 lo0 n k -> same_arch ls ls0 kd kd0 -> saveable F dm m -> Forall2 shows (m_layers dm0) (map fst (mnodes m0)) ->
  exists d dm1, dump_model dm = Ok d /\ (exists f0, forall f, f0 <= f -> read_back f d = Some (Ok d)) /\ load_model fl dm0 d = Ok dm1 /\
    Forall2 shows (m_layers dm1) (map fst (mnodes (loaded dm1 m0))) /\
    forall x, length x = n -> exists ma mb y y', m_predict (node_ops draw) m x = Ok (ma, y) /\ m_predict (node_ops draw) (loaded dm1 m0) x = Ok (mb, y') /\ length y = k /\ length y' = k /\
      forall i, (Rabs (nth i y 0 - nth i y' 0) <= snd (drift (1 / 10 ^ 6) ls (largest x) 0))%R.
Proof.
  intros F fl draw dm dm0 m m0 ls ls0 kd kd0 lo lo0 n k Hn W W0 A Sv S0.
  destruct (load_network F fl (1 / 10 ^ 6) dm dm0 m m0 ls ls0 kd kd0 lo lo0 n k ten6 (saveable_close F fl dm m Hn Sv) W W0 A Sv S0) as (C & ls1 & kd1 & W1 & N1 & S1).
  destruct (saved_file F fl dm dm0 m Hn Sv (saveable_some _ _ _ _ _ _ _ _ W Sv) C) as (d & E1 & E2 & E3). eexists. eexists. split; [exact E1|]. split; [exact E2|]. split; [exact E3|]. split; [exact S1|].
  intros x Lx. destruct (predictions draw m ls kd lo n k x W Lx) as (ma & Ea). destruct (predictions draw _ ls1 kd1 lo0 n k x W1 Lx) as (mb & Eb). exists ma, mb, (run ls x), (run ls1 x).
  split; [exact Ea|]. split; [exact Eb|].
  destruct (run_drift (1 / 10 ^ 6) ls ls1 ten6 N1 n k (largest x) 0 x x) as (L1 & L2 & D); auto; [apply largest_0|apply Rle_refl|exact (nw_shape _ _ _ _ _ _ W)|apply largest_nth|apply apart_0].
Qed.
(** Hence the same class is predicted when the best one wins by more than twice the drift. *)
Theorem c91_decision : forall F fl draw dm dm0 m m0 ls ls0 kd kd0 lo lo0 n k d dm1 x ma y c, nearest F fl ->
  network m ls kd lo n k -> network m0 ls0 kd0 lo0 n k -> same_arch ls ls0 kd kd0 -> saveable F dm m -> Forall2 shows (m_layers dm0) (map fst (mnodes m0)) ->
  dump_model dm = Ok d -> load_model fl dm0 d = Ok dm1 -> length x = n -> m_predict (node_ops draw) m x = Ok (ma, y) -> c < k ->
  (forall j, (j < k)%nat -> j <> c -> nth j y 0 + 2 * snd (drift (1 / 10 ^ 6) ls (largest x) 0) < nth c y 0)%R ->
  argmax y k = Ok c /\ exists mb y', m_predict (node_ops draw) (loaded dm1 m0) x = Ok (mb, y') /\ argmax y' k = Ok c.
Proof.
  intros F fl draw dm dm0 m m0 ls ls0 kd kd0 lo lo0 n k d dm1 x ma y c Hn W W0 A Sv S0 Ed El Lx Ey Hc M.
  destruct (c91_predict F fl draw dm dm0 m m0 ls ls0 kd kd0 lo lo0 n k Hn W W0 A Sv S0) as (d' & dm1' & E1 & _ & E3 & _ & G). rewrite Ed in E1. injection E1 as <-. rewrite El in E3. injection E3 as <-.
  destruct (G x Lx) as (ma' & mb & y0 & y' & Ea & Eb & L1 & L2 & D). rewrite Ey in Ea. injection Ea as <- <-. set (e := snd _) in *.
  assert (P : (0 <= e)%R) by (eapply Rle_trans; [apply Rabs_pos|apply (D 0)]).
  assert (Q : forall z, length z = k -> (forall j, (j < k)%nat -> j <> c -> nth j z 0 < nth c z 0)%R -> argmax z k = Ok c).
  { intros z Lz B. destruct (c16_argmax_R z k) as (b & E & _ & Hb & B1 & _); [lia|lia|]. rewrite E. f_equal. destruct (Nat.eq_dec b c) as [|N]; [assumption|]. specialize (B b Hb N). specialize (B1 c Hc). lra. }
  split; [apply Q; [exact L1|]; intros j Hj N; specialize (M j Hj N); lra|]. exists mb, y'. split; [exact Eb|]. apply Q; [exact L2|]. intros j Hj N. specialize (M j Hj N). pose proof (D j) as Dj. pose proof (D c) as Dc. split_Rabs; lra.
Qed.
(** The first loading decides: saving the loaded network gives the same file, and loading it
    again, into the network itself, changes nothing. *)
Theorem c91_again : forall F fl dm dm0 m m0 ls ls0 kd kd0 lo lo0 n k d dm1, nearest F fl ->
  network m ls kd lo n k -> network m0 ls0 kd0 lo0 n k -> same_arch ls ls0 kd kd0 -> saveable F dm m -> Forall2 shows (m_layers dm0) (map fst (mnodes m0)) ->
  dump_model dm = Ok d -> load_model fl dm0 d = Ok dm1 -> dump_model dm1 = Ok d /\ load_model fl dm1 d = Ok dm1 /\ loaded dm1 (loaded dm1 m0) = loaded dm1 m0.
Proof.
  intros F fl dm dm0 m m0 ls ls0 kd kd0 lo lo0 n k d dm1 Hn W W0 A Sv S0 Ed El.
  destruct (load_network F fl (1 / 10 ^ 6) dm dm0 m m0 ls ls0 kd kd0 lo lo0 n k ten6 (saveable_close F fl dm m Hn Sv) W W0 A Sv S0) as (C & ls1 & kd1 & W1 & N1 & S1).
  pose proof (saveable_some _ _ _ _ _ _ _ _ W Sv) as NE.
  destruct (c43_model_file F fl dm0 dm Hn (sv_ok _ _ _ Sv) C NE (sv_name _ _ _ Sv) (sv_file _ _ _ Sv)) as (d' & f0 & dm1' & E1 & _ & E3 & _ & _ & _ & E4).
  rewrite Ed in E1. injection E1 as <-. rewrite El in E3. injection E3 as <-. split; [exact E4|].
  pose proof (sv_ok _ _ _ Sv) as M. assert (OK : Forall ok_layer (m_layers dm)) by (eapply Forall_impl; [|exact M]; now intros ? (? & _)).
  rewrite dump_model_ok in Ed by exact OK. injection Ed as <-. rewrite (load_model_ok F) in El by assumption. injection El as <-.
  set (R1 := map2 (restored fl) (m_layers dm0) (m_layers dm)) in *.
  assert (Q : Forall2 same_class R1 (m_layers dm) /\ map2 (restored fl) R1 (m_layers dm) = R1).
  { unfold R1. clear - C. induction C as [|a b la lb Hc C (I1 & I2)]; [split; [constructor|reflexivity]|]. cbn [map2]. split.
    - constructor; [|exact I1]. destruct a, b; cbn in *; easy.
    - f_equal; [|exact I2]. destruct a, b; cbn in *; easy. }
  destruct Q as (Q1 & Q2). split; [rewrite (load_model_ok F) by assumption; cbn [m_layers m_name]; now rewrite Q2|].
  unfold loaded. cbn [mgraph mnodes]. f_equal. generalize (m_layers (mkDM (m_name dm) R1)), (mnodes m0). clear.
  induction l as [|d ds IH]; intros [|(s, p) ss]; cbn [put_all]; try reflexivity. rewrite IH. f_equal. f_equal. destruct d, s as [| |[] ?]; reflexivity.
Qed.
(** Weights and biases with six decimals: the loaded network predicts the same. *)
Theorem c91_exact : forall F fl draw dm dm0 m m0 ls ls0 kd kd0 lo lo0 n k d dm1 x, nearest F fl ->
  network m ls kd lo n k -> network m0 ls0 kd0 lo0 n k -> same_arch ls ls0 kd kd0 -> saveable F dm m -> Forall2 shows (m_layers dm0) (map fst (mnodes m0)) ->
  Forall (fun l => Forall six_decimals (numbers l)) (m_layers dm) ->
  dump_model dm = Ok d -> load_model fl dm0 d = Ok dm1 -> length x = n ->
  exists ma mb y, m_predict (node_ops draw) m x = Ok (ma, y) /\ m_predict (node_ops draw) (loaded dm1 m0) x = Ok (mb, y).
Proof.
  intros F fl draw dm dm0 m m0 ls ls0 kd kd0 lo lo0 n k d dm1 x Hn W W0 A Sv S0 X Ed El Lx.
  assert (H : forall d, In d (m_layers dm) -> forall x, In x (numbers d) -> close 0 x (trip fl x)).
  { intros l Hl z Hz. pose proof (sv_ok _ _ _ Sv) as M. unfold model_ok in M. rewrite Forall_forall in M, X. destruct (M l Hl) as (_ & Q). specialize (X l Hl). rewrite Forall_forall in Q, X.
    rewrite (trip_six F fl) by auto. destruct (Q z Hz) as (neg & mz & -> & _). cbn. split; [reflexivity|]. rewrite Rminus_diag_eq, Rabs_R0 by reflexivity. lra. }
  destruct (load_network F fl 0 dm dm0 m m0 ls ls0 kd kd0 lo lo0 n k (Rle_refl 0) H W W0 A Sv S0) as (C & ls1 & kd1 & W1 & N1 & S1).
  destruct (saved_file F fl dm dm0 m Hn Sv (saveable_some _ _ _ _ _ _ _ _ W Sv) C) as (d' & E1 & E2 & E3). rewrite Ed in E1. injection E1 as <-. rewrite El in E3. injection E3 as ->.
  destruct (predictions draw m ls kd lo n k x W Lx) as (ma & Ea). destruct (predictions draw _ ls1 kd1 lo0 n k x W1 Lx) as (mb & Eb). exists ma, mb, (run ls x). split; [exact Ea|]. rewrite Eb. do 2 f_equal.
  destruct (run_drift 0 ls ls1 (Rle_refl 0) N1 n k (largest x) 0 x x) as (L1 & L2 & D); auto; [apply largest_0|apply Rle_refl|exact (nw_shape _ _ _ _ _ _ W)|apply largest_nth|apply apart_0|].
  rewrite drift_exact in D. apply (list_ext_nth 0%R); [congruence|]. intros i _. specialize (D i). split_Rabs; lra.
Qed.

(** *** Cases *)
(** A dense layer from one input to two outputs, the identity and a squared loss; [w] are its
    weights. *)
Definition sv_layers (w : list dbl) : list (layer R) :=
  [mkLayer KDense 1 (map dval w) [0; 0]%R [0; 0]%R [0; 0]%R [0; 0]%R [0]%R; mkLayer (KAct Linear) 2 [] [] [] [] [0; 0]%R [0; 0]%R].
Definition sv_model (w : list dbl) (s : dlgraph) : model (node R) := mkModel s (map (fun s => (s, SNull)) (map NL (sv_layers w) ++ [NO (MSE 0%R) (loss_new 2 1)])).
Definition sv_dump (w : list dbl) : dmodel :=
  mkDM (txt "net") [DDense (mkF (txt "d") [(1, 1, 1)] [(2, 1, 1)]) w [DFin false 0; DFin false 0]; DPlain (txt "Linear") (mkF (txt "l") [(2, 1, 1)] [(2, 1, 1)]); DMse (mkF (txt "m") [(2, 1, 1)] [(1, 1, 1)]) (DFin false 0)].
Lemma sv_network s w : is_chain true 2 s -> length w = 2 -> network (sv_model w s) (sv_layers w) (MSE 0%R) (loss_new 2 1) 1 2.
Proof.
  intros C Lw. constructor; cbn [mgraph mnodes sv_model].
  - exact C.
  - cbn. lia.
  - reflexivity.
  - cbn [nshape sv_layers]. exists 2. split; [|exists 2; split; [|reflexivity]].
    + unfold lshape. cbn. rewrite map_length. auto 10.
    + unfold lshape. cbn. split; [auto|]. split; [auto|]. split; [auto|]. split; [auto|]. lia.
  - reflexivity.
Qed.
Lemma sv_chain : exists s, is_chain true 2 s.
Proof. destruct (c36_built true 2 (le_n 2)) as (s & E & H1 & H2 & H3 & H4 & H5). exists s. exact (is_chain_built _ _ true 2 E (le_n 2) H1 H2 H3 H4 H5). Qed.
Lemma sv_shown s w : Forall2 shows (m_layers (sv_dump w)) (map fst (mnodes (sv_model w s))).
Proof.
  cbn [m_layers sv_dump mnodes sv_model map app fst sv_layers].
  apply Forall2_cons; [cbn; repeat split|]. apply Forall2_cons; [exists Linear; repeat split; discriminate|]. apply Forall2_cons; [reflexivity|constructor].
Qed.
Lemma sv_saveable (F : R -> Prop) s w : F 0%R -> Forall (finite F) w -> length w = 2 -> saveable F (sv_dump w) (sv_model w s).
Proof.
  intros F0 Fw Lw. assert (Z : finite F (DFin false 0)) by (exists false, 0%R; split; [reflexivity|]; split; [lra|exact F0]). constructor.
  - apply sv_shown.
  - unfold model_ok. cbn [m_layers sv_dump]. apply Forall_cons; [|apply Forall_cons; [|apply Forall_cons; [|constructor]]]; (split; [split; [repeat split; try discriminate; repeat constructor; vm_compute; reflexivity|]|]); cbn [numbers]; try exact I.
    + split; [exact Lw|reflexivity].
    + apply Forall_app. split; [exact Fw|]. repeat (apply Forall_cons; [exact Z|]). constructor.
    + constructor.
    + apply Forall_cons; [exact Z|constructor].
  - vm_compute. intuition discriminate.
  - cbn [m_layers sv_dump]. repeat (apply Forall_cons; [split; [vm_compute; intuition discriminate|]; split; [vm_compute; intuition discriminate|vm_compute; try lia; exact I]|]). constructor.
Qed.
Lemma sv_arch w w0 : same_arch (sv_layers w) (sv_layers w0) (MSE 0%R) (MSE 0%R).
Proof. split; [|exact I]. unfold sv_layers. repeat (apply Forall2_cons; [repeat split|]). constructor. Qed.
(** The hypotheses hold for two such networks, the numbers being those of [grid]. *)
Example c91_met : exists m m0, nearest grid to_grid /\ network m (sv_layers [DFin false 1; DFin true 2]) (MSE 0%R) (loss_new 2 1) 1 2 /\ network m0 (sv_layers [DFin false 0; DFin false 0]) (MSE 0%R) (loss_new 2 1) 1 2 /\
  same_arch (sv_layers [DFin false 1; DFin true 2]) (sv_layers [DFin false 0; DFin false 0]) (MSE 0%R) (MSE 0%R) /\
  saveable grid (sv_dump [DFin false 1; DFin true 2]) m /\ Forall2 shows (m_layers (sv_dump [DFin false 0; DFin false 0])) (map fst (mnodes m0)) /\
  Forall (fun l => Forall six_decimals (numbers l)) (m_layers (sv_dump [DFin false 1; DFin true 2])).
Proof.
  destruct sv_chain as (s & C). exists (sv_model [DFin false 1; DFin true 2] s), (sv_model [DFin false 0; DFin false 0] s). split; [exact c43_grid_nearest|].
  split; [now apply sv_network|]. split; [now apply sv_network|]. split; [apply sv_arch|]. assert (G : forall z : Z, grid (IZR z)) by (intros z; exists (z * 2 ^ 10)%Z; rewrite mult_IZR, (pow_IZR 2 10); change (Z.of_nat 10) with 10%Z; field; apply IZR_neq; discriminate).
  split; [apply sv_saveable; [apply (G 0%Z)| |reflexivity]|split; [apply sv_shown|]].
  - apply Forall_cons; [exists false, 1%R; repeat split; [lra|apply (G 1%Z)]|]. apply Forall_cons; [exists true, 2%R; repeat split; [lra|apply (G 2%Z)]|constructor].
  - assert (D : forall b z, six_decimals (DFin b (IZR z))) by (intros b z; exists (z * 10 ^ 6)%Z; rewrite mult_IZR, (pow_IZR 10 6); change (Z.of_nat 6) with 6%Z; field; apply IZR_neq; discriminate).
    cbn [m_layers sv_dump numbers app]. repeat (apply Forall_cons; [repeat (apply Forall_cons; [apply D|]); constructor|]). constructor.
Qed.
(** The margin of [c91_decision] is met there: for the input 1 the outputs are 1 and -2. *)
Example c91_decision_met : forall s, is_chain true 2 s -> exists ma y, m_predict (node_ops (fun _ => 0%R)) (sv_model [DFin false 1; DFin true 2] s) [1]%R = Ok (ma, y) /\
  (forall j, (j < 2)%nat -> j <> 0%nat -> nth j y 0 + 2 * snd (drift (1 / 10 ^ 6) (sv_layers [DFin false 1; DFin true 2]) (largest [1]) 0) < nth 0 y 0)%R.
Proof.
  intros s C. destruct (predictions (fun _ => 0%R) _ _ _ _ 1 2 [1]%R (sv_network s [DFin false 1; DFin true 2] C eq_refl) eq_refl) as (ma & E). exists ma. eexists. split; [exact E|].
  intros j Hj N. assert (j = 1) by lia. subst j. cbn [drift drift1 sv_layers knd insz wts bias largest map dval snd INR run fold_left layer_sem act_sem length out dense_sem tab seq nth Rsum Nat.mul Nat.add]. rewrite E6.
  rewrite Rmult_0_r, (Rabs_right 1), (Rmax_left 1 0) by lra. lra.
Qed.
(** No bound holds for all networks and inputs: a small weight is lost, and the class predicted
    with any margin changes. The small weight is a power of two. *)
Theorem c91_refuted : forall F fl draw (B : R), nearest F fl -> F 0%R -> F (/ 2 ^ 22)%R -> exists m ls kd lo dm d dm1 x ma mb y y',
  network m ls kd lo 1 2 /\ saveable F dm m /\ dump_model dm = Ok d /\ load_model fl dm d = Ok dm1 /\ length x = 1 /\
  m_predict (node_ops draw) m x = Ok (ma, y) /\ m_predict (node_ops draw) (loaded dm1 m) x = Ok (mb, y') /\
  (nth 0 y 0 + B < nth 1 y 0)%R /\ argmax y' 2 = Ok 0%nat.
Proof.
  intros F fl draw B Hn F0 F1. set (w := [DFin false 0; DFin false (/ 2 ^ 22)]). destruct sv_chain as (s & C).
  pose proof (sv_network s w C eq_refl) as W. assert (P22 : (0 < / 2 ^ 22)%R) by (apply Rinv_0_lt_compat, pow_lt; lra).
  assert (Sv : saveable F (sv_dump w) (sv_model w s)).
  { apply sv_saveable; [exact F0| |reflexivity]. apply Forall_cons; [exists false, 0%R; repeat split; [lra|exact F0]|]. apply Forall_cons; [exists false, (/ 2 ^ 22)%R; repeat split; [lra|exact F1]|constructor]. }
  assert (SC : Forall2 same_class (m_layers (sv_dump w)) (m_layers (sv_dump w))) by (cbn; repeat (apply Forall2_cons; [exact I || reflexivity|]); constructor).
  destruct (saved_file F fl (sv_dump w) (sv_dump w) _ Hn Sv ltac:(discriminate) SC) as (d & E1 & _ & E3). 
  assert (fl0 : fl 0%R = 0%R).
  { destruct (Hn 0%R (Rle_refl 0)) as (_ & _ & N). specialize (N 0%R F0 (Rle_refl 0)). rewrite !Rminus_0_r, Rabs_R0 in N. split_Rabs; lra. }
  assert (T0 : trip fl (DFin false 0) = DFin false 0). { cbn [trip]. rewrite Rmult_0_l, (rne_IZR 0), Rmult_0_l, fl0. reflexivity. }
  assert (T1 : trip fl (DFin false (/ 2 ^ 22)) = DFin false 0).
  { cbn [trip]. rewrite (rne_unique _ 0); [rewrite Rmult_0_l, fl0; reflexivity|]. left. rewrite Rminus_0_r, E6, Rabs_right by (apply Rle_ge, Rmult_le_pos; lra).
    replace (2 ^ 22)%R with 4194304%R by ring. lra. }
  set (x := [((Rabs B + 1) * 2 ^ 22)%R]). destruct (predictions draw _ _ _ _ 1 2 x W eq_refl) as (ma & Ea).
  set (dm1 := mkDM (m_name (sv_dump w)) (map2 (restored fl) (m_layers (sv_dump w)) (m_layers (sv_dump w)))) in *.
  assert (EL : loaded dm1 (sv_model w s) = sv_model [DFin false 0; DFin false 0] s).
  { unfold loaded, dm1, sv_model, w. cbn [m_layers sv_dump map2 restored map mgraph mnodes app sv_layers put_all put]. rewrite T0, T1. reflexivity. }
  pose proof (sv_network s [DFin false 0; DFin false 0] C eq_refl) as W1. destruct (predictions draw _ _ _ _ 1 2 x W1 eq_refl) as (mb & Eb).
  exists (sv_model w s), (sv_layers w), (MSE 0%R), (loss_new 2 1), (sv_dump w), d, dm1, x, ma, mb. eexists. eexists.
  split; [exact W|]. split; [exact Sv|]. split; [exact E1|]. split; [exact E3|]. split; [reflexivity|]. split; [exact Ea|]. split; [rewrite EL; exact Eb|]. split.
  - cbn [w x sv_layers knd wts bias map dval run fold_left layer_sem act_sem length out dense_sem tab seq nth Rsum Nat.mul Nat.add]. replace (/ 2 ^ 22 * ((Rabs B + 1) * 2 ^ 22))%R with (Rabs B + 1)%R by (field; apply pow_nonzero; lra).
    split_Rabs; lra.
  - match goal with |- argmax ?z 2 = _ => replace z with [0; 0]%R end.
    + destruct (c16_argmax_R [0; 0]%R 2) as (b & E & _ & Hb & _ & B2); [lia|cbn; lia|]. rewrite E. f_equal. destruct b as [|[|b]]; [reflexivity| |lia]. specialize (B2 0 ltac:(lia)). cbn in B2. lra.
    + cbn [x sv_layers knd wts bias map dval run fold_left layer_sem act_sem length out dense_sem tab seq nth Rsum Nat.mul Nat.add]. f_equal; [ring|f_equal; ring].
Qed.
Print Assumptions c91_predict.
Print Assumptions c91_decision.
Print Assumptions c91_again.
Print Assumptions c91_exact.
Print Assumptions c91_refuted.
