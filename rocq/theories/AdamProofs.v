(** Training a network with Adam: Model::train on dense and activation layers. *)
From Verif Require Import Base Num MathModel MathProofs LayerModel LossModel OptModel OptProofs GraphModel GraphProofs ModelModel NodeModel ChainProofs ModelProofs PropModel TrainProofs InitModel DynModel.

Section AdamTrain.
Context {T : Type} `{NumOps T} `{TransOps T} `{LimOps T}.

(** The parameters and gradients a layer offers to an optimizer, in order. *)
Definition layer_params (l : layer T) : list T := match knd l with KDense => wts l ++ bias l | KAct _ => [] end.
Definition layer_grads (l : layer T) : list T := match knd l with KDense => wgrad l ++ bgrad l | KAct _ => [] end.

(** Parameters [ps] after Adam visited them with gradients [gs]. *)
Fixpoint amove (a : adam T) (ps gs : list T) : list T :=
  match ps, gs with
  | p :: ps, g :: gs => nsub p (adam_delta a g) :: amove (adam_visit a g) ps gs
  | _, _ => []
  end.
Definition after (a : adam T) (gs : list T) : adam T := fold_left adam_visit gs a.

Lemma amove_length ps : forall a gs, length gs = length ps -> length (amove a ps gs) = length ps.
Proof. induction ps as [|p ps IH]; intros a [|g gs] L; cbn in *; try lia. now rewrite IH by lia. Qed.
Lemma amove_app ps : forall a gs ps' gs', length gs = length ps ->
  amove a (ps ++ ps') (gs ++ gs') = amove a ps gs ++ amove (after a gs) ps' gs'.
Proof. induction ps as [|p ps IH]; intros a [|g gs] ps' gs' L; cbn in *; try lia; [reflexivity|]. now rewrite IH by lia. Qed.
Lemma amove_nth d ps : forall a gs i, length gs = length ps -> i < length ps ->
  nth i (amove a ps gs) d = nsub (nth i ps d) (adam_delta (after a (firstn i gs)) (nth i gs d)).
Proof.
  induction ps as [|p ps IH]; intros a [|g gs] i L Hi; cbn in *; try lia.
  destruct i as [|i]; [reflexivity|]. cbn. rewrite IH by lia. reflexivity.
Qed.

Definition atrained (a : adam T) (l : layer T) : layer T :=
  match knd l with
  | KDense => let ps := amove a (layer_params l) (layer_grads l) in
      mkLayer (knd l) (insz l) (firstn (length (wts l)) ps) (skipn (length (wts l)) ps)
        (repeat n0 (length (wgrad l))) (repeat n0 (length (bgrad l))) (out l) (ig l)
  | KAct _ => l
  end.
Fixpoint train_all (a : adam T) (ls : list (layer T)) : list (layer T) :=
  match ls with [] => [] | l :: ls => atrained a l :: train_all (after a (layer_grads l)) ls end.

Lemma n_train_adam_layer a l n k : lshape l n k -> n_train_adam a (NL l) = Ok (after a (layer_grads l), NL (atrained a l)).
Proof.
  intros (S1 & S2 & S3 & S4). unfold n_train_adam, layer_player, atrained, with_player, layer_grads, layer_params.
  destruct (knd l) as [|ac] eqn:K.
  - destruct S4 as (A1 & A2 & A3 & A4). unfold adam_train. cbn [pk pblocks gblocks].
    destruct (adam_train2_spec n0 a (PDense (insz l) (length (bias l))) [wts l; bias l] [wgrad l; bgrad l])
      as (P' & G' & E & BP & BG & CP & CG).
    + unfold blocks_ok. cbn. congruence.
    + unfold blocks_ok. cbn. congruence.
    + rewrite E. cbn [bind]. cbn [concat] in *. rewrite app_nil_r in *.
      set (ps := amove a (wts l ++ bias l) (wgrad l ++ bgrad l)).
      assert (LL : length (wgrad l ++ bgrad l) = length (wts l ++ bias l)) by (rewrite !app_length; lia).
      assert (Lp : length ps = length (wts l) + length (bias l)) by (unfold ps; rewrite amove_length, app_length by exact LL; lia).
      assert (HP : P' = [firstn (length (wts l)) ps; skipn (length (wts l)) ps]).
      { apply concat_inj.
        - unfold blocks_ok in BP. rewrite BP. cbn. rewrite firstn_length, skipn_length, Lp. f_equal; [rewrite A1, S1, A3; nia|f_equal; lia].
        - rewrite CP. cbn [concat pcount]. rewrite !app_nil_r, firstn_skipn.
          replace ((insz l + 1) * length (bias l)) with (length ps) by (rewrite Lp, A1, A3, S1; ring).
          apply (list_ext_nth n0); [now rewrite tab_length|]. intros i Hi. rewrite tab_length in Hi.
          rewrite nth_tab by exact Hi. unfold ps. rewrite amove_nth by (rewrite ?app_length in *; lia). reflexivity. }
      assert (HG : G' = [repeat n0 (length (wgrad l)); repeat n0 (length (bgrad l))]).
      { apply concat_inj.
        - unfold blocks_ok in BG. rewrite BG. cbn. rewrite !repeat_length. congruence.
        - rewrite CG. cbn [concat pcount]. rewrite !app_nil_r, <- repeat_app. f_equal. rewrite A2, A4, A3, S1. ring. }
      subst P' G'. reflexivity.
  - cbn. reflexivity.
Qed.

Lemma atrained_shape a l n k : lshape l n k -> lshape (atrained a l) n k.
Proof.
  intros (S1 & S2 & S3 & S4). unfold atrained, lshape. destruct (knd l) as [|ac] eqn:K; [|rewrite K; auto].
  cbn [insz ig out knd wts wgrad bias bgrad]. destruct S4 as (A1 & A2 & A3 & A4).
  unfold layer_params, layer_grads. rewrite K.
  rewrite firstn_length, skipn_length, amove_length, !repeat_length, app_length by (rewrite !app_length; lia).
  repeat split; auto; lia.
Qed.
Lemma atrained_params a l n k : lshape l n k -> layer_params (atrained a l) = amove a (layer_params l) (layer_grads l).
Proof.
  intros _. unfold atrained. destruct (knd l) as [|ac] eqn:K.
  - unfold layer_params at 1. cbn [knd wts bias]. apply firstn_skipn.
  - unfold layer_params. now rewrite K.
Qed.
Lemma grads_length (l : layer T) n k : lshape l n k -> length (layer_grads l) = length (layer_params l).
Proof.
  intros (S1 & S2 & S3 & S4). unfold layer_grads, layer_params. destruct (knd l); [|reflexivity].
  rewrite !app_length. lia.
Qed.
Lemma all_grads_length (ls : list (layer T)) : forall n k, nshape ls n k ->
  length (flat_map layer_grads ls) = length (flat_map layer_params ls).
Proof.
  induction ls as [|l ls IH]; intros n k HS; [reflexivity|]. destruct HS as (j & HL & HS). cbn [flat_map].
  rewrite !app_length, (grads_length _ _ _ HL), (IH _ _ HS). reflexivity.
Qed.
Lemma train_all_nshape ls : forall a n k, nshape ls n k -> nshape (train_all a ls) n k.
Proof. induction ls as [|l ls IH]; intros a n k; cbn; auto. intros (j & HL & HS). exists j. split; [now apply atrained_shape|auto]. Qed.
Lemma train_all_length ls : forall a, length (train_all a ls) = length ls.
Proof. induction ls as [|l ls IH]; intros a; cbn; auto. Qed.
Lemma train_all_params ls : forall a n k, nshape ls n k ->
  flat_map layer_params (train_all a ls) = amove a (flat_map layer_params ls) (flat_map layer_grads ls).
Proof.
  induction ls as [|l ls IH]; intros a n k HS; [reflexivity|]. destruct HS as (j & HL & HS). cbn [train_all flat_map].
  rewrite (atrained_params a l n j HL), (IH _ _ _ HS), amove_app by (exact (grads_length _ _ _ HL)). reflexivity.
Qed.

Lemma network_train_adam a m ls kd lo n k : network m ls kd lo n k ->
  exists m', m_train_adam a m = Ok (after a (flat_map layer_grads ls), m') /\ mgraph m' = mgraph m /\
    network m' (train_all a ls) kd lo n k.
Proof.
  intros W. unfold m_train_adam. pose proof (nw_shape _ _ _ _ _ _ W) as S. pose proof (nw_nodes _ _ _ _ _ _ W) as EN.
  assert (G : forall ns ls a acc n k, nshape ls n k -> map fst ns = map NL ls ++ [NO kd lo] ->
    exists ns', foldM (fun st (sp : node T * source) =>
      let '(a, ns) := st in '(a, s) <- n_train_adam a (fst sp) ;; Ok (a, ns ++ [(s, snd sp)])) ns (a, acc)
        = Ok (after a (flat_map layer_grads ls), acc ++ ns') /\
      map fst ns' = map NL (train_all a ls) ++ [NO kd lo]).
  { clear. induction ns as [|(s, p) ns IH]; intros ls a acc n k HS E.
    - destruct ls; discriminate.
    - destruct ls as [|l ls].
      + cbn in E. injection E as -> E. apply map_eq_nil in E. subst ns.
        exists [(NO kd lo, p)]. split; reflexivity.
      + cbn [map app fst] in E. injection E as -> E. destruct HS as (j & HL & HS).
        destruct (IH ls (after a (layer_grads l)) (acc ++ [(NL (atrained a l), p)]) j k HS E) as (ns' & E1 & E2).
        exists ((NL (atrained a l), p) :: ns'). cbn [foldM fst snd]. rewrite (n_train_adam_layer a l n j HL).
        cbn [bind]. rewrite E1. split.
        * cbn [flat_map]. unfold after. rewrite fold_left_app, <- app_assoc. reflexivity.
        * cbn [map fst train_all app]. now rewrite E2. }
  destruct (G (mnodes m) ls a [] n k S EN) as (ns' & E1 & E2). rewrite E1. cbn [bind app].
  eexists. split; [reflexivity|]. split; [reflexivity|].
  destruct W. constructor; cbn [mgraph mnodes]; rewrite ?train_all_length; auto using train_all_nshape.
Qed.
End AdamTrain.
