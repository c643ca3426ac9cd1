(** Training a network: Model::train on dense and activation layers. *)
From Verif Require Import Base Num MathModel MathProofs LayerModel LossModel OptModel OptProofs GraphModel GraphProofs ModelModel NodeModel ChainProofs ModelProofs PropModel.

Section Train.
Context {T : Type} `{NumOps T} `{TransOps T} `{LimOps T}.

(** A trained layer: parameters moved against the gradient, gradients zero. *)
Definition moved (eta : T) (p g : list T) : list T :=
  tab (length p) (fun i => nsub (nth i p n0) (nmul eta (nth i g n0))).
Definition trained (eta : T) (l : layer T) : layer T :=
  match knd l with
  | KDense => mkLayer (knd l) (insz l) (moved eta (wts l) (wgrad l)) (moved eta (bias l) (bgrad l))
                (repeat n0 (length (wgrad l))) (repeat n0 (length (bgrad l))) (out l) (ig l)
  | KAct _ => l
  end.

Lemma tab_app {A} a b (f : nat -> A) : tab (a + b) f = tab a f ++ tab b (fun i => f (a + i)).
Proof.
  apply (list_ext_nth (f 0)).
  - now rewrite app_length, !tab_length.
  - intros i Hi. rewrite tab_length in Hi. rewrite nth_tab by exact Hi.
    destruct (Nat.lt_ge_cases i a) as [Ha|Ha].
    + rewrite app_nth1 by now rewrite tab_length. now rewrite nth_tab.
    + rewrite app_nth2 by (now rewrite tab_length). rewrite tab_length, nth_tab by lia. f_equal. lia.
Qed.

Lemma n_train_layer eta l n k : lshape l n k -> n_train eta (NL l) = Ok (NL (trained eta l)).
Proof.
  intros (S1 & S2 & S3 & S4). unfold n_train, layer_player, trained, with_player.
  destruct (knd l) as [|a] eqn:K.
  - destruct S4 as (A1 & A2 & A3 & A4). unfold gd_train. cbn [pk pblocks gblocks].
    destruct (gd_train2_spec n0 eta (PDense (insz l) (length (bias l))) [wts l; bias l] [wgrad l; bgrad l])
      as (P' & G' & E & BP & BG & CP & CG).
    + unfold blocks_ok. cbn. congruence.
    + unfold blocks_ok. cbn. congruence.
    + rewrite E. cbn [bind].
      assert (HP : P' = [moved eta (wts l) (wgrad l); moved eta (bias l) (bgrad l)]).
      { apply concat_inj.
        - unfold blocks_ok in BP. rewrite BP. unfold moved. cbn. rewrite !tab_length. congruence.
        - rewrite CP. cbn [concat pcount]. rewrite !app_nil_r. unfold moved. cbn [pcount].
          replace ((insz l + 1) * length (bias l)) with (length (wts l) + length (bias l)) by (rewrite A1, A3, S1; ring).
          rewrite tab_app. f_equal.
          + apply tab_ext. intros i Hi. rewrite !app_nth1 by lia. reflexivity.
          + apply tab_ext. intros i Hi. rewrite !app_nth2 by lia. do 2 f_equal; f_equal; lia. }
      assert (HG : G' = [repeat n0 (length (wgrad l)); repeat n0 (length (bgrad l))]).
      { apply concat_inj.
        - unfold blocks_ok in BG. rewrite BG. cbn. rewrite !repeat_length. congruence.
        - rewrite CG. cbn [concat pcount]. rewrite !app_nil_r, <- repeat_app. f_equal. rewrite A2, A4, A3, S1. ring. }
      subst P' G'. reflexivity.
  - cbn. reflexivity.
Qed.

Lemma trained_shape eta l n k : lshape l n k -> lshape (trained eta l) n k.
Proof.
  intros (S1 & S2 & S3 & S4). unfold trained, lshape. destruct (knd l) as [|a] eqn:K.
  - cbn [insz ig out knd wts wgrad bias bgrad]. destruct S4 as (A1 & A2 & A3 & A4).
    unfold moved. rewrite !tab_length, !repeat_length. auto 10.
  - rewrite K. auto.
Qed.
Lemma trained_nshape eta ls : forall n k, nshape ls n k -> nshape (map (trained eta) ls) n k.
Proof.
  induction ls as [|l ls IH]; intros n k; cbn; auto. intros (j & HL & HS). exists j. split; [now apply trained_shape|auto].
Qed.

Lemma network_train eta m ls kd lo n k : network m ls kd lo n k ->
  exists m', m_train eta m = Ok m' /\ mgraph m' = mgraph m /\ network m' (map (trained eta) ls) kd lo n k.
Proof.
  intros W. unfold m_train. pose proof (nw_shape _ _ _ _ _ _ W) as S. pose proof (nw_nodes _ _ _ _ _ _ W) as EN.
  assert (G : forall ns ls n k, nshape ls n k -> map fst ns = map NL ls ++ [NO kd lo] ->
    exists ns', mapM (fun sp : node T * source => s' <- n_train eta (fst sp) ;; Ok (s', snd sp)) ns = Ok ns' /\
      map fst ns' = map NL (map (trained eta) ls) ++ [NO kd lo]).
  { clear. induction ns as [|(s, p) ns IH]; intros ls n k HS E.
    - destruct ls; discriminate.
    - destruct ls as [|l ls].
      + cbn in E. injection E as -> E. apply map_eq_nil in E. subst ns.
        exists [(NO kd lo, p)]. split; reflexivity.
      + cbn [map app fst] in E. injection E as -> E. destruct HS as (j & HL & HS).
        destruct (IH ls j k HS E) as (ns' & E1 & E2).
        exists ((NL (trained eta l), p) :: ns'). cbn [mapM fst snd]. rewrite (n_train_layer eta l n j HL).
        cbn [bind]. rewrite E1. cbn [bind map fst app]. rewrite E2. auto. }
  destruct (G (mnodes m) ls n k S EN) as (ns' & E1 & E2). rewrite E1. cbn [bind].
  eexists. split; [reflexivity|]. split; [reflexivity|].
  destruct W. constructor; cbn [mgraph mnodes]; rewrite ?map_length; auto using trained_nshape.
Qed.
End Train.
