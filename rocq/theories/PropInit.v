(** C57, C58, C59: random initialisation. *)
From Verif Require Import Base Num DatasetModel MathModel LayerModel LossModel OptModel GraphModel GraphSpec GraphProofs ModelModel NodeModel
  RecurrentModel CopyModel FnnModel FitModel InitModel PropModel.
From Coq Require Import Reals Lra.

(** *** Vocabulary *)
Section Values.
Context {T : Type} `{NumOps T} {E : Type}.
Variable next : E -> Z * E.
Variable normal : T -> T -> option T -> E -> (T * option T) * E.

(** The [j]-th number a generator gives. *)
Fixpoint number (e : E) (j : nat) : Z :=
  match j with O => fst (next e) | S j' => number (snd (next e)) j' end.
(** The [j]-th value of a normal distribution used with a generator of its own. *)
Fixpoint normal_value (c d : T) (saved : option T) (e : E) (j : nat) : T :=
  match j with
  | O => fst (fst (normal c d saved e))
  | S j' => normal_value c d (snd (fst (normal c d saved e))) (snd (normal c d saved e)) j'
  end.
(** The [j]-th of a row of values with spread [dev] around 0. *)
Definition value (p : pdf) (dev : T) (e : E) (j : nat) : T :=
  match p with
  | Normal => normal_value n0 dev None e j
  | Uniform => nadd (nmul (nsub (nmul (ndiv (nofZ (number e j)) (nofZ (2 ^ 64 - 1))) (nofZ 2)) n1) (ndiv dev (nofZ 2))) n0
  end.
End Values.

Section Structure.
Context {T : Type} `{NumOps T} `{TransOps T} `{LimOps T} {E : Type}.
Variable start : Z -> E.
Variable next : E -> Z * E.
Variable normal : T -> T -> option T -> E -> (T * option T) * E.

(** A dense layer after initialisation from generator [e] with [c] = 1 or 2: new weights and
    biases, everything else as before. *)
Definition initialised (p : pdf) (e : E) (c : Z) (l l' : layer T) : Prop :=
  knd l' = knd l /\ insz l' = insz l /\ wgrad l' = wgrad l /\ bgrad l' = bgrad l /\ out l' = out l /\ ig l' = ig l /\
  wts l' = tab (length (wts l)) (value next normal p (nsqrt (ndiv (nofZ c) (nofZ (Z.of_nat (insz l))))) e) /\
  bias l' = repeat (ndiv n1 (nofZ 100)) (length (bias l)).

(** Layer [i] feeds a ReLU layer. *)
Definition feeds_relu (m : model (node T)) (i : nat) : Prop :=
  exists j l s, In j (fgraph (mgraph m) i) /\ nth_error (mnodes m) j = Some (NL l, s) /\ knd l = KAct Relu.
Definition kaiming (mi : minit) (m : model (node T)) (i : nat) : Prop :=
  match mi with MKaiming => True | MXavier => False | MAuto => feeds_relu m i end.

Lemma tab_S' {A} k (f : nat -> A) : tab (S k) f = f 0 :: tab k (fun i => f (S i)).
Proof. unfold tab. cbn. f_equal. rewrite <- seq_shift, map_map. reflexivity. Qed.

Lemma fill_uniform : forall w (d : distr T) e, dt_pdf d = Uniform ->
  fst (fst (fill next normal d e w)) = tab (length w) (fun j => uniform_of (dt_center d) (dt_delta d) (number next e j)).
Proof.
  induction w as [|x w IH]; intros d e P; cbn [fill length]; [reflexivity|].
  unfold draw_from at 1. rewrite P. destruct (next e) as (r, e1) eqn:En.
  destruct (fill next normal d e1 w) as ((vs, d2), e2) eqn:Ef. cbn [fst].
  rewrite tab_S'. cbn [number]. rewrite En. cbn [fst snd]. f_equal.
  specialize (IH d e1 P). rewrite Ef in IH. cbn [fst] in IH. exact IH.
Qed.
Lemma fill_normal : forall w (d : distr T) e, dt_pdf d = Normal ->
  fst (fst (fill next normal d e w)) = tab (length w) (normal_value normal (dt_center d) (dt_delta d) (dt_saved d) e).
Proof.
  induction w as [|x w IH]; intros d e P; cbn [fill length]; [reflexivity|].
  unfold draw_from at 1. rewrite P.
  destruct (normal (dt_center d) (dt_delta d) (dt_saved d) e) as ((v, s), e1) eqn:En.
  set (d1 := mkDist Normal (dt_center d) (dt_delta d) s).
  destruct (fill next normal d1 e1 w) as ((vs, d2), e2) eqn:Ef. cbn [fst].
  rewrite tab_S'. cbn [normal_value]. rewrite En. cbn [fst snd]. f_equal.
  specialize (IH d1 e1 eq_refl). rewrite Ef in IH. cbn [fst] in IH. exact IH.
Qed.
Lemma fill_value f p n e w :
  fst (fst (fill next normal (initialization_pdf f p n) e w)) = tab (length w) (value next normal p (init_dev f n) e).
Proof.
  unfold value. destruct p.
  - now rewrite fill_normal.
  - now rewrite fill_uniform.
Qed.

Definition coef (f : initf) : Z := match f with Kaiming => 2 | Xavier => 1 end.
Lemma dense_init_spec f p e (l : layer T) : initialised p e (coef f) l (dense_init next normal f p e l).
Proof.
  unfold dense_init, params_init. repeat (split; [reflexivity|]). split.
  - cbn [wts]. rewrite fill_value. reflexivity.
  - cbn [bias]. unfold bias_init. clear. induction (bias l); cbn; congruence.
Qed.

(** *** The loop over the layers *)
Definition relus (ns ns' : list (node T * source)) : Prop :=
  Forall2 (fun a b : node T * source => is_relu (fst b) = is_relu (fst a)) ns ns'.
Lemma n_init_relu f p e s : is_relu (n_init next normal f p e s) = is_relu s.
Proof. destruct s as [l| |]; cbn [n_init]; auto. destruct (knd l) eqn:K; auto. Qed.

Lemma any_relu_spec (ns : list (node T * source)) succ : Forall (fun j => j < length ns) succ ->
  any_relu ns succ = Ok (existsb (fun j => match nth_error ns j with Some (s, _) => is_relu s | None => false end) succ).
Proof.
  induction succ as [|j t IH]; intros F; inversion F; subst; [reflexivity|]. cbn [any_relu existsb].
  destruct (nth_error ns j) as [(s, q)|] eqn:Ej; [|apply nth_error_None in Ej; lia].
  unfold rd. rewrite Ej. cbn [bind]. destruct (is_relu s); [reflexivity|]. now rewrite IH.
Qed.

Definition relu_after (ns : list (node T * source)) (succ : list nat) : bool :=
  existsb (fun j => match nth_error ns j with Some (s, _) => is_relu s | None => false end) succ.
Definition choice (mi : minit) (ns : list (node T * source)) (succ : list nat) : initf :=
  match mi with MKaiming => Kaiming | MXavier => Xavier | MAuto => if relu_after ns succ then Kaiming else Xavier end.

Lemma init_one_spec mi p e g ns i s src : nth_error ns i = Some (s, src) -> Forall (fun j => j < length ns) (fgraph g i) ->
  init_one next normal mi p e g ns i = Ok (upd ns i (n_init next normal (choice mi ns (fgraph g i)) p e s, src)).
Proof.
  intros Ei F. unfold init_one, rd. rewrite Ei. cbn [bind].
  assert (Hi : i < length ns) by (apply nth_error_Some; congruence).
  destruct mi; cbn [choice bind]; try (now rewrite wr_ok).
  rewrite any_relu_spec by exact F. cbn [bind]. now rewrite wr_ok.
Qed.

Lemma nth_error_upd_eq {A} (l : list A) i x : i < length l -> nth_error (upd l i x) i = Some x.
Proof. intros Hi. rewrite Base.nth_error_upd, Nat.eqb_refl. apply Nat.ltb_lt in Hi. now rewrite Hi. Qed.
Lemma nth_error_upd_neq {A} (l : list A) i j x : j <> i -> nth_error (upd l i x) j = nth_error l j.
Proof. intros Hi. rewrite Base.nth_error_upd. destruct (Nat.eqb_spec j i); [congruence|reflexivity]. Qed.

Lemma relu_after_upd ns i s src f p e succ : nth_error ns i = Some (s, src) ->
  relu_after (upd ns i (n_init next normal f p e s, src)) succ = relu_after ns succ.
Proof.
  intros Ei. unfold relu_after. induction succ as [|j t IH]; [reflexivity|]. cbn [existsb]. rewrite IH. f_equal.
  destruct (Nat.eq_dec j i) as [->|Hj].
  - assert (Hi : i < length ns) by (apply nth_error_Some; congruence).
    rewrite nth_error_upd_eq by exact Hi. rewrite Ei. apply n_init_relu.
  - now rewrite nth_error_upd_neq by auto.
Qed.

Lemma init_loop mi p e g : forall is ns, NoDup is -> (forall i, In i is -> i < length ns) ->
  (forall i, In i is -> Forall (fun j => j < length ns) (fgraph g i)) ->
  exists ns', foldM (init_one next normal mi p e g) is ns = Ok ns' /\ length ns' = length ns /\
    forall i s src, nth_error ns i = Some (s, src) ->
      nth_error ns' i = Some (if mem i is then n_init next normal (choice mi ns (fgraph g i)) p e s else s, src).
Proof.
  induction is as [|a is IH]; intros ns ND HI HS.
  - exists ns. cbn. auto.
  - inversion ND as [|? ? Na ND']; subst.
    assert (Ha : a < length ns) by (apply HI; now left).
    destruct (nth_error ns a) as [(sa, pa)|] eqn:Ea; [|apply nth_error_None in Ea; lia].
    cbn [foldM]. rewrite (init_one_spec mi p e g ns a sa pa Ea) by (apply HS; now left). cbn [bind].
    set (ns1 := upd ns a _).
    destruct (IH ns1 ND') as (ns' & E' & L' & P').
    { intros i Hi. unfold ns1. rewrite upd_length. apply HI. now right. }
    { intros i Hi. unfold ns1. rewrite upd_length. apply HS. now right. }
    exists ns'. split; [exact E'|]. split; [unfold ns1 in L'; now rewrite upd_length in L'|].
    intros i s src Ei. destruct (Nat.eq_dec i a) as [->|Hia].
    + rewrite Ea in Ei. injection Ei as <- <-.
      rewrite (P' a (n_init next normal (choice mi ns (fgraph g a)) p e sa) pa) by (unfold ns1; now rewrite nth_error_upd_eq).
      assert (M1 : mem a is = false) by (apply Bool.not_true_is_false; rewrite GraphProofs.mem_In; exact Na).
      rewrite M1. cbn [mem existsb]. rewrite Nat.eqb_refl. reflexivity.
    + rewrite (P' i s src) by (unfold ns1; now rewrite nth_error_upd_neq).
      cbn [mem existsb]. rewrite (proj2 (Nat.eqb_neq i a) Hia). cbn [orb].
      change (existsb (Nat.eqb i) is) with (mem i is). f_equal. f_equal. f_equal.
      destruct mi; auto. unfold choice, ns1. now rewrite (relu_after_upd ns a sa pa).
Qed.

(** *** C57 *)
(** One object for each layer of the graph, and edges between existing layers only, as in every
    graph that arose from building calls. *)
Definition model_ok (m : model (node T)) : Prop :=
  length (mnodes m) = nodes (mgraph m) /\
  forall i j, In j (fgraph (mgraph m) i) -> j < nodes (mgraph m).
Lemma built_ok os (m : model (node T)) : gbuild os = Ok (mgraph m) -> length (mnodes m) = nodes (mgraph m) -> model_ok m.
Proof.
  intros EB L. split; [exact L|]. intros i j Hj. exact (proj2 (proj2 (proj1 (gbuild_dwf os _ EB) i) j Hj)).
Qed.

Theorem c57_init : forall mi p seed device (m : model (node T)),
  model_ok m ->
  exists m' used, m_init start next normal mi p seed device m = Ok (m', used) /\
    used = (if Z.eq_dec seed 0 then device else seed) /\
    mgraph m' = mgraph m /\ length (mnodes m') = length (mnodes m) /\
    forall i s src, nth_error (mnodes m) i = Some (s, src) -> exists s', nth_error (mnodes m') i = Some (s', src) /\
      ((forall l, s = NL l -> knd l <> KDense) \/ In i (losses (mgraph m)) -> s' = s) /\
      (forall l, s = NL l -> knd l = KDense -> ~ In i (losses (mgraph m)) -> exists l' c, s' = NL l' /\
        (kaiming mi m i /\ c = 2%Z \/ ~ kaiming mi m i /\ c = 1%Z) /\
        initialised p (start used) c l l').
Proof.
  intros mi p seed device m (L & D).
  unfold m_init. cbv zeta. set (used := if (seed =? 0)%Z then device else seed).
  destruct (init_loop mi p (start used) (mgraph m) (forward_layers (mgraph m)) (mnodes m)) as (ns' & E' & L' & P').
  { apply NoDup_filter, seq_NoDup. }
  { intros i Hi. apply filter_In in Hi. destruct Hi as (Hi & _). apply in_seq in Hi. lia. }
  { intros i Hi. rewrite L. apply Forall_forall. intros j Hj. exact (D i j Hj). }
  rewrite E'. cbn [bind]. eexists. exists used. split; [reflexivity|].
  split. { unfold used. destruct (Z.eq_dec seed 0) as [->|Hs]; [reflexivity|]. now rewrite (proj2 (Z.eqb_neq seed 0) Hs). }
  split; [reflexivity|]. split; [exact L'|].
  intros i s src Ei. eexists. split; [exact (P' i s src Ei)|].
  assert (Hi : i < nodes (mgraph m)) by (rewrite <- L; apply nth_error_Some; congruence).
  assert (MI : mem i (forward_layers (mgraph m)) = true <-> ~ In i (losses (mgraph m))).
  { rewrite GraphProofs.mem_In. unfold forward_layers. rewrite filter_In, in_seq, Bool.negb_true_iff.
    rewrite <- (GraphProofs.mem_In i (losses (mgraph m))). destruct (mem i (losses (mgraph m))); intuition (try lia; try congruence). }
  split.
  - intros [HN|HI].
    + destruct (mem i (forward_layers (mgraph m))); [|reflexivity]. destruct s as [l| |]; cbn; auto.
      destruct (knd l) eqn:K; [|reflexivity]. now destruct (HN l eq_refl).
    + destruct (mem i (forward_layers (mgraph m))) eqn:M; [|reflexivity]. now destruct (proj1 MI eq_refl).
  - intros l -> K HN. rewrite (proj2 MI HN). cbn [n_init]. rewrite K.
    set (f := choice mi (mnodes m) (fgraph (mgraph m) i)).
    exists (dense_init next normal f p (start used) l), (coef f). split; [reflexivity|].
    assert (KK : kaiming mi m i <-> f = Kaiming).
    { unfold f, kaiming, choice. destruct mi; try (intuition congruence).
      destruct (relu_after (mnodes m) (fgraph (mgraph m) i)) eqn:RA.
      - split; [reflexivity|]. intros _. apply existsb_exists in RA. destruct RA as (j & Hj & RJ).
        destruct (nth_error (mnodes m) j) as [(sj, q)|] eqn:Ej; [|discriminate].
        destruct sj as [lj| |]; try discriminate. cbn in RJ. exists j, lj, q. split; [exact Hj|]. split; [exact Ej|].
        destruct (knd lj) as [|[]]; try discriminate; reflexivity.
      - split; [|discriminate]. intros (j & lj & q & Hj & Ej & Kj). exfalso.
        assert (X : relu_after (mnodes m) (fgraph (mgraph m) i) = true); [|congruence].
        apply existsb_exists. exists j. split; [exact Hj|]. rewrite Ej. cbn. now rewrite Kj. }
    split; [|apply dense_init_spec].
    destruct f; [right|left]; (split; [|reflexivity]); rewrite KK; congruence.
Qed.

(** Convolution: the same on its own parameters, with the size of the whole input. *)
Theorem c57_convolution : forall f p e n w b,
  params_init next normal f p e n w b =
    (tab (length w) (value next normal p (nsqrt (ndiv (nofZ (match f with Kaiming => 2 | Xavier => 1 end)) (nofZ (Z.of_nat n)))) e),
     repeat (ndiv n1 (nofZ 100)) (length b)).
Proof.
  intros. unfold params_init. rewrite fill_value. f_equal. unfold bias_init. clear. induction b; cbn; congruence.
Qed.

Fixpoint advance (e : E) (k : nat) : E := match k with O => e | S k' => advance (snd (next e)) k' end.
Lemma number_advance : forall k e j, number next (advance e k) j = number next e (k + j).
Proof. induction k as [|k IH]; intros e j; cbn; auto. Qed.
Lemma fill_uniform_state : forall w (d : distr T) e, dt_pdf d = Uniform ->
  snd (fst (fill next normal d e w)) = d /\ snd (fill next normal d e w) = advance e (length w).
Proof.
  induction w as [|x w IH]; intros d e P; cbn [fill length advance]; [auto|].
  unfold draw_from. rewrite P. destruct (next e) as (r, e1) eqn:En. cbn [snd].
  specialize (IH d e1 P). destruct (fill next normal d e1 w) as ((vs, d2), e2). exact IH.
Qed.
(** Recurrent layer: the three weight matrices use consecutive numbers of the generator; the
    first is scaled for the input size, the others for the hidden size. *)
Theorem c57_recurrent_uniform : forall f e (l : recl T),
  let l' := rec_init next normal f Uniform e l in
  let a := length (r_wih l) in
  let b := length (r_whh l) in
  let scaled n r := nadd (nmul (nsub (nmul (ndiv (nofZ r) (nofZ (2 ^ 64 - 1))) (nofZ 2)) n1)
    (ndiv (nsqrt (ndiv (nofZ (match f with Kaiming => 2 | Xavier => 1 end)) (nofZ (Z.of_nat n)))) (nofZ 2))) n0 in
  r_wih l' = tab a (fun j => scaled (r_in l) (number next e j)) /\
  r_whh l' = tab b (fun j => scaled (r_hid l) (number next e (a + j))) /\
  r_who l' = tab (length (r_who l)) (fun j => scaled (r_hid l) (number next e (a + b + j))) /\
  r_bh l' = repeat (ndiv n1 (nofZ 100)) (length (r_bh l)) /\ r_bo l' = repeat (ndiv n1 (nofZ 100)) (length (r_bo l)) /\
  r_hs l' = repeat n0 (length (r_hs l)).
Proof.
  intros f e l l' a b scaled. subst l'. unfold rec_init.
  destruct (fill next normal (initialization_pdf f Uniform (r_in l)) e (r_wih l)) as ((wih, d1), e1) eqn:F1.
  destruct (fill_uniform_state (r_wih l) (initialization_pdf f Uniform (r_in l)) e eq_refl) as (_ & S1).
  pose proof (fill_uniform (r_wih l) (initialization_pdf f Uniform (r_in l)) e eq_refl) as V1.
  rewrite F1 in S1, V1. cbn [fst snd] in S1, V1.
  destruct (fill next normal (initialization_pdf f Uniform (r_hid l)) e1 (r_whh l)) as ((whh, d2), e2) eqn:F2.
  destruct (fill_uniform_state (r_whh l) (initialization_pdf f Uniform (r_hid l)) e1 eq_refl) as (D2 & S2).
  pose proof (fill_uniform (r_whh l) (initialization_pdf f Uniform (r_hid l)) e1 eq_refl) as V2.
  rewrite F2 in D2, S2, V2. cbn [fst snd] in D2, S2, V2. subst d2.
  destruct (fill next normal (initialization_pdf f Uniform (r_hid l)) e2 (r_who l)) as ((who, d3), e3) eqn:F3.
  pose proof (fill_uniform (r_who l) (initialization_pdf f Uniform (r_hid l)) e2 eq_refl) as V3.
  rewrite F3 in V3. cbn [fst snd] in V3.
  assert (B : forall x : list T, bias_init x = repeat (ndiv n1 (nofZ 100)) (length x)).
  { clear. unfold bias_init. induction x; cbn; congruence. }
  cbn [r_wih r_whh r_who r_bh r_bo r_hs]. rewrite !B. subst wih whh who e1 e2.
  split; [reflexivity|].
  split. { apply tab_ext. intros j _. rewrite number_advance. reflexivity. }
  split. { apply tab_ext. intros j _. rewrite !number_advance, Nat.add_assoc. reflexivity. }
  split; [reflexivity|]. split; [reflexivity|]. clear. induction (r_hs l); cbn; congruence.
Qed.

(** *** C58 *)
(** The weights of a layer of the same input size and spread are the first ones of the other:
    every layer starts the random sequence again. *)
Theorem c58_same_sequence_actual : forall mi p seed device (m m' : model (node T)) used i j li lj li' lj' si sj,
  model_ok m ->
  m_init start next normal mi p seed device m = Ok (m', used) ->
  nth_error (mnodes m) i = Some (NL li, si) -> nth_error (mnodes m') i = Some (NL li', si) ->
  nth_error (mnodes m) j = Some (NL lj, sj) -> nth_error (mnodes m') j = Some (NL lj', sj) ->
  knd li = KDense -> knd lj = KDense -> ~ In i (losses (mgraph m)) -> ~ In j (losses (mgraph m)) ->
  insz li = insz lj -> (kaiming mi m i <-> kaiming mi m j) -> length (wts li) <= length (wts lj) ->
  wts li' = firstn (length (wts li)) (wts lj') /\ length (wts lj') = length (wts lj).
Proof.
  intros mi p seed device m m' used i j li lj li' lj' si sj OK EI Ei Ei' Ej Ej' Ki Kj Ni Nj EN HK HL.
  destruct (c57_init mi p seed device m OK) as (m1 & u1 & E1 & _ & _ & _ & P).
  rewrite EI in E1. injection E1 as <- <-.
  destruct (P _ _ _ Ei) as (s1 & X1 & _ & Y1). rewrite Ei' in X1. injection X1 as <-.
  destruct (Y1 li eq_refl Ki Ni) as (l1 & c1 & Z1 & C1 & I1). injection Z1 as <-.
  destruct (P _ _ _ Ej) as (s2 & X2 & _ & Y2). rewrite Ej' in X2. injection X2 as <-.
  destruct (Y2 lj eq_refl Kj Nj) as (l2 & c2 & Z2 & C2 & I2). injection Z2 as <-.
  assert (c1 = c2) by tauto || (destruct C1 as [(A & ->)|(A & ->)], C2 as [(B & ->)|(B & ->)]; tauto). subst c2.
  destruct I1 as (_ & _ & _ & _ & _ & _ & W1 & _), I2 as (_ & _ & _ & _ & _ & _ & W2 & _).
  rewrite W1, W2, EN, tab_length. split; [|reflexivity].
  replace (length (wts lj)) with (length (wts li) + (length (wts lj) - length (wts li))) by lia.
  rewrite tab_app, firstn_app, tab_length, Nat.sub_diag, firstn_O, app_nil_r.
  rewrite <- (tab_length (length (wts li)) (value next normal p (nsqrt (ndiv (nofZ c1) (nofZ (Z.of_nat (insz lj))))) (start used))) at 2.
  now rewrite firstn_all.
Qed.
End Structure.
Print Assumptions c57_init.
Print Assumptions c57_convolution.
Print Assumptions c57_recurrent_uniform.
Print Assumptions c58_same_sequence_actual.

(** Two dense layers of 2 inputs and 2 outputs, each followed by a ReLU. *)
Section Twins.
Context {T : Type} `{NumOps T} `{TransOps T} `{LimOps T}.
Definition twin_dense : layer T :=
  mkLayer KDense 2 (repeat n0 4) (repeat n0 2) (repeat n0 4) (repeat n0 2) (repeat n0 2) (repeat n0 2).
Definition twin_act : layer T := mkLayer (KAct Relu) 2 [] [] [] [] (repeat n0 2) (repeat n0 2).
Definition twin_ops : list gop := [GLayer; GLayer; GEdge 0 1; GLayer; GEdge 1 2; GLayer; GEdge 2 3].
Definition twin_graph : dlgraph := match gbuild twin_ops with Ok g => g | _ => graph_new end.
Definition twins : model (node T) :=
  mkModel twin_graph [(NL twin_dense, SNull); (NL twin_act, SNull); (NL twin_dense, SNull); (NL twin_act, SNull)].
Lemma twins_ok : model_ok twins.
Proof.
  apply (built_ok twin_ops); [|reflexivity]. change (mgraph twins) with twin_graph. unfold twin_graph.
  destruct (gbuild twin_ops) as [g| |] eqn:Eg; [reflexivity| |]; exfalso;
    apply (f_equal (fun r => match r with Ok _ => true | _ => false end)) in Eg; vm_compute in Eg; discriminate.
Qed.
Lemma twins_edges : fgraph (mgraph twins) 0 = [1] /\ fgraph (mgraph twins) 1 = [2] /\ fgraph (mgraph twins) 2 = [3] /\
  losses (mgraph twins) = [].
Proof. change (mgraph twins) with twin_graph. repeat split; vm_compute; reflexivity. Qed.
Lemma twins_relu i : i = 0 \/ i = 2 -> feeds_relu twins i.
Proof.
  intros [->| ->].
  - exists 1, twin_act, SNull. rewrite (proj1 twins_edges). split; [now left|]. split; reflexivity.
  - exists 3, twin_act, SNull. rewrite (proj1 (proj2 (proj2 twins_edges))). split; [now left|]. split; reflexivity.
Qed.

(** With independent draws, equal weights in different layers would be a coincidence; here they
    are equal for every generator and seed. *)
Theorem c58_independent_layers_refuted : exists (m : model (node T)) i j, model_ok m /\ i <> j /\
  forall (E : Type) (start : Z -> E) next normal mi p seed device, exists m' used li lj si sj,
    m_init start next normal mi p seed device m = Ok (m', used) /\
    nth_error (mnodes m') i = Some (NL li, si) /\ nth_error (mnodes m') j = Some (NL lj, sj) /\
    length (wts li) = 4 /\ wts li = wts lj.
Proof.
  assert (NL0 : forall i, ~ In i (losses (mgraph twins))) by (intros i; rewrite (proj2 (proj2 (proj2 twins_edges))); intros []).
  exists twins, 0, 2. split; [exact twins_ok|]. split; [lia|]. intros E start next normal mi p seed device.
  destruct (c57_init start next normal mi p seed device twins twins_ok) as (m' & used & E1 & _ & G & L & P).
  destruct (P 0 _ _ eq_refl) as (s0 & X0 & _ & Y0). destruct (Y0 twin_dense eq_refl eq_refl) as (l0 & c0 & -> & _ & I0); [apply NL0|].
  destruct (P 2 _ _ eq_refl) as (s2 & X2 & _ & Y2). destruct (Y2 twin_dense eq_refl eq_refl) as (l2 & c2 & -> & _ & I2); [apply NL0|].
  exists m', used, l0, l2, SNull, SNull. split; [exact E1|]. split; [exact X0|]. split; [exact X2|].
  destruct I0 as (_ & _ & _ & _ & _ & _ & W0 & _), I2 as (_ & _ & _ & _ & _ & _ & W2 & _).
  split; [rewrite W0; now rewrite tab_length|].
  destruct (c58_same_sequence_actual start next normal mi p seed device twins m' used 0 2 twin_dense twin_dense l0 l2 SNull SNull)
    as (Q & LQ); auto using twins_ok.
  - destruct mi; cbn [kaiming]; try tauto. split; intros _; apply twins_relu; auto.
  - rewrite Q. replace (length (wts twin_dense)) with (length (wts l2)) by (now rewrite LQ). now rewrite firstn_all.
Qed.
End Twins.
Print Assumptions c58_independent_layers_refuted.

Example c57_c58_hypotheses_met : exists (m : model (node Z)) m' used l,
  model_ok m /\
  @m_init Z NumZ PropModel.exTrans Z (fun s => s) (fun e => (e mod 2 ^ 64, e * 3 + 1)%Z) (fun _ _ _ e => ((e, None), e)%Z)
    MAuto Normal 5 7 m = Ok (m', used) /\ used = 5%Z /\
  nth_error (mnodes m') 2 = Some (NL l, SNull) /\ wts l = [5; 5; 5; 5]%Z /\ feeds_relu m 2 /\ ~ feeds_relu m 1.
Proof.
  exists twins. eexists. exists 5%Z. eexists. split; [apply twins_ok|]. split; [vm_compute; reflexivity|]. split; [reflexivity|].
  split; [reflexivity|]. split; [reflexivity|]. split; [apply twins_relu; auto|].
  intros (j & l & s & Hj & Ej & Kj). rewrite (proj1 (proj2 twins_edges)) in Hj. destruct Hj as [<-|[]]. cbn in Ej. injection Ej as <- <-. discriminate.
Qed.

(** *** Over the real numbers *)
Local Open Scope R_scope.
Lemma max_rand_pos : 0 < IZR (2 ^ 64 - 1).
Proof. apply IZR_lt. reflexivity. Qed.
Lemma ratio_range r : (0 <= r < 2 ^ 64)%Z -> 0 <= IZR r / IZR (2 ^ 64 - 1) <= 1.
Proof.
  intros Hr. pose proof max_rand_pos as HM. split.
  - apply Rmult_le_pos; [apply IZR_le; lia|left; now apply Rinv_0_lt_compat].
  - apply (Rmult_le_reg_r (IZR (2 ^ 64 - 1))); [exact HM|]. unfold Rdiv. rewrite Rmult_assoc, Rinv_l by lra.
    rewrite Rmult_1_r, Rmult_1_l. apply IZR_le. lia.
Qed.
Lemma uniform_of_value c d r : uniform_of c d r = c + (2 * (IZR r / IZR (2 ^ 64 - 1)) - 1) * (d / 2).
Proof. unfold uniform_of, max_rand. cbn [nadd nsub nmul ndiv nofZ n1 NumR]. field. apply Rgt_not_eq, max_rand_pos. Qed.

(** The weights of a uniform initialisation of layers with [n] inputs. *)
Theorem c57_uniform_bound : forall (E : Type) (next : E -> Z * E) normal c n e j,
  (forall e, (0 <= fst (next e) < 2 ^ 64)%Z) ->
  Rabs (value next normal Uniform (sqrt (IZR c / INR n)) e j) <= sqrt (IZR c / INR n) / 2.
Proof.
  intros E next normal c n e j HN.
  assert (HB : (0 <= number next e j < 2 ^ 64)%Z).
  { revert e. induction j as [|j IH]; intros e; cbn [number]; auto. }
  pose proof (ratio_range _ HB) as HR. pose proof (sqrt_pos (IZR c / INR n)) as HS.
  unfold value. cbn [nadd nsub nmul ndiv nofZ n1 n0 NumR].
  set (q := IZR (number next e j) / IZR (2 ^ 64 - 1)) in *. set (d := sqrt (IZR c / INR n)) in *.
  replace ((q * 2 - 1) * (d / 2) + 0) with ((2 * q - 1) * (d / 2)) by ring.
  rewrite Rabs_mult, (Rabs_pos_eq (d / 2)) by lra. rewrite <- (Rmult_1_l (d / 2)) at 2.
  apply Rmult_le_compat_r; [lra|]. apply Rabs_le. lra.
Qed.
Print Assumptions c57_uniform_bound.

(** *** C59 *)
Theorem c59_rand_real : forall from to r, from <= to -> (0 <= r < 2 ^ 64)%Z ->
  from <= rand_num from to r <= to /\ rand_num from to 0 = from /\ rand_num from to (2 ^ 64 - 1) = to.
Proof.
  intros from to r HF Hr. unfold rand_num. rewrite !uniform_of_value. cbn [nadd nsub ndiv nofZ NumR].
  pose proof (ratio_range r Hr) as (A & B). set (q := IZR r / IZR (2 ^ 64 - 1)) in *.
  replace (IZR (2 ^ 64 - 1) / IZR (2 ^ 64 - 1)) with 1 by (field; apply Rgt_not_eq, max_rand_pos).
  replace (0 / IZR (2 ^ 64 - 1)) with 0 by (field; apply Rgt_not_eq, max_rand_pos).
  split; [|split; lra].
  replace ((to + from) / 2 + (2 * q - 1) * ((to - from) / 2)) with (from + q * (to - from)) by field.
  assert (0 <= q * (to - from)) by (apply Rmult_le_pos; lra).
  assert (q * (to - from) <= 1 * (to - from)) by (apply Rmult_le_compat_r; lra). lra.
Qed.
Print Assumptions c59_rand_real.

Lemma Int_part_le x z : (z <= Int_part x)%Z <-> IZR z <= x.
Proof.
  destruct (base_Int_part x) as (A & B). split.
  - intros H. apply IZR_le in H. lra.
  - intros H. assert (IZR (z - 1) < IZR (Int_part x)) as X by (rewrite minus_IZR; lra). apply lt_IZR in X. lia.
Qed.
Lemma rtrunc_range x a b : IZR a <= x <= IZR b -> (a <= rtrunc x <= b)%Z.
Proof.
  intros (A & B). unfold rtrunc. destruct (Rle_dec 0 x) as [H|H].
  - split; [now apply Int_part_le|]. destruct (base_Int_part x) as (C & _). apply le_IZR. lra.
  - split.
    + destruct (base_Int_part (- x)) as (C & _). apply le_IZR. rewrite opp_IZR. lra.
    + cut (- b <= Int_part (- x))%Z; [lia|]. apply Int_part_le. rewrite opp_IZR. lra.
Qed.
Lemma rtrunc_nonneg x z : 0 <= x -> IZR z <= x < IZR z + 1 -> rtrunc x = z.
Proof.
  intros H (A & B). unfold rtrunc. destruct (Rle_dec 0 x) as [_|N]; [|lra].
  apply Z.le_antisymm; [|now apply Int_part_le].
  destruct (base_Int_part x) as (C & _). assert (IZR (Int_part x) < IZR (z + 1)) as X by (rewrite plus_IZR; lra).
  apply lt_IZR in X. lia.
Qed.

(** rand<int>(2, 5) can be 1. *)
Theorem c59_rand_integer_refuted : exists from to r, (from <= to)%Z /\ (0 <= r < 2 ^ 64)%Z /\ (rand_int from to r < from)%Z.
Proof.
  exists 2%Z, 5%Z, 0%Z. split; [lia|]. split; [lia|]. unfold rand_int. rewrite uniform_of_value.
  replace (0 / IZR (2 ^ 64 - 1)) with 0 by (field; apply Rgt_not_eq, max_rand_pos).
  change (Z.quot (5 + 2) 2) with 3%Z. change (5 - 2)%Z with 3%Z.
  rewrite (rtrunc_nonneg _ 1%Z); lra || lia.
Qed.
Print Assumptions c59_rand_integer_refuted.

(** What holds for integers. *)
Theorem c59_rand_integer_actual : forall from to r, (from <= to)%Z -> (0 <= r < 2 ^ 64)%Z ->
  (Z.Even (from + to) -> (from <= rand_int from to r <= to)%Z) /\
  (Z.Odd (from + to) -> (0 <= from)%Z -> (Z.max 0 (from - 1) <= rand_int from to r <= to - 1)%Z).
Proof.
  intros from to r HF Hr. unfold rand_int. rewrite uniform_of_value. apply IZR_le in HF as HF'.
  pose proof (ratio_range r Hr) as (A & B). set (q := IZR r / IZR (2 ^ 64 - 1)) in *.
  rewrite minus_IZR.
  assert (HQ : 0 <= q * (IZR to - IZR from) <= IZR to - IZR from).
  { split; [apply Rmult_le_pos; lra|].
    apply (Rle_trans _ (1 * (IZR to - IZR from))); [apply Rmult_le_compat_r; lra|lra]. }
  split.
  - intros (k & Hk). assert (Z.quot (to + from) 2 = k) as -> by (rewrite Z.add_comm, Hk, Z.mul_comm; apply Z.quot_mul; lia).
    apply rtrunc_range. apply (f_equal IZR) in Hk. rewrite plus_IZR, mult_IZR in Hk. split; lra.
  - intros (k & Hk) H0. assert (HNE : (from < to)%Z) by lia. assert (Z.quot (to + from) 2 = k) as ->.
    { rewrite Z.add_comm, Hk. rewrite Z.quot_div_nonneg by lia. rewrite Z.mul_comm, Z.div_add_l by lia. change (1 / 2)%Z with 0%Z. lia. }
    apply (f_equal IZR) in Hk. rewrite !plus_IZR, mult_IZR in Hk. apply IZR_le in H0 as H0'.
    set (x := IZR k + (2 * q - 1) * ((IZR to - IZR from) / 2)).
    assert (X : IZR from - 1 / 2 <= x <= IZR to - 1 / 2) by (unfold x; split; lra).
    split.
    + apply Z.max_lub.
      * unfold rtrunc. destruct (Rle_dec 0 x) as [P|P]; [now apply Int_part_le|].
        cut (Int_part (- x) < 1)%Z; [lia|]. apply lt_IZR. destruct (base_Int_part (- x)) as (C & _). lra.
      * apply (rtrunc_range x (from - 1) to). rewrite minus_IZR. lra.
    + cut (rtrunc x < to)%Z; [lia|]. unfold rtrunc. destruct (Rle_dec 0 x) as [P|P].
      * apply lt_IZR. destruct (base_Int_part x) as (C & _). lra.
      * cut (0 <= Int_part (- x))%Z; [|apply Int_part_le; lra]. intros Q. lia.
Qed.
Print Assumptions c59_rand_integer_actual.

Example c59_hypotheses_met : exists from to r, (from <= to)%Z /\ (0 <= r < 2 ^ 64)%Z /\ Z.Odd (from + to) /\ (0 <= from)%Z.
Proof. exists 2%Z, 5%Z, 9%Z. repeat split; try lia. exists 3%Z. reflexivity. Qed.
