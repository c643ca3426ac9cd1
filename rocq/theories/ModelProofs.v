(** Models with a chain graph: predict and step. *)
From Verif Require Import Base Num MathModel MathProofs LayerModel LossModel OptModel OptProofs GraphModel GraphProofs ModelModel NodeModel ChainProofs.

Section Generic.
Context {T S : Type} (op : nodeops T S).

(** The composition of the layers' forward functions. *)
Fixpoint compose (ss : list S) (x : list T) : res (list T) :=
  match ss with
  | [] => Ok x
  | s :: r => s' <- o_forward op s x ;; y <- o_output op s' ;; compose r y
  end.

Lemma chain_after_compose rest : forall k s,
  (rest' <- chain_after op false k s rest ;; o_output op (last (map fst rest') s))
  = (y <- o_output op s ;; compose (map fst rest) y).
Proof.
  induction rest as [|(r, p) rest IH]; intros k s.
  - cbn. destruct (o_output op s); reflexivity.
  - cbn [chain_after map fst compose feed].
    destruct (o_output op s) as [y| |]; cbn [bind]; auto.
    destruct (o_forward op r y) as [r'| |]; cbn [bind]; auto.
    rewrite <- (IH (Datatypes.S k) r').
    destruct (chain_after op false (Datatypes.S k) r' rest) as [rest'| |]; cbn [bind]; auto.
    cbn [map fst]. f_equal.
    clear. revert r'. induction rest' as [|a l IH]; intros r'; [reflexivity|].
    cbn [map fst]. destruct l as [|b l]; [reflexivity|]. cbn [map] in *. exact (IH r').
Qed.

Lemma last_nth {A} (l : list A) d : last l d = nth (length l - 1) l d.
Proof.
  induction l as [|a l IH]; [reflexivity|]. destruct l as [|b l]; [reflexivity|].
  cbn [last length] in *. rewrite IH. cbn. now rewrite Nat.sub_0_r.
Qed.

Lemma predict_chain lossy n m x : is_chain lossy n (mgraph m) -> 1 <= n ->
  length (mnodes m) = nodes (mgraph m) ->
  exists s p rest post, mnodes m = (s, p) :: rest ++ post /\ length rest = n - 1 /\
    m_predict op m x =
      (s' <- o_forward op s x ;; rest' <- chain_after op false 0 s' rest ;;
       y <- o_output op (last (map fst rest') s') ;;
       Ok (mkModel (mgraph m) ((s', p) :: rest' ++ post), y)).
Proof.
  intros HC Hn HL.
  assert (Hlen : n <= length (mnodes m)).
  { rewrite HL, (ic_nodes _ _ _ HC). destruct lossy; lia. }
  destruct (mnodes m) as [|(s, p) tl] eqn:EM; [cbn in Hlen; lia|].
  exists s, p, (firstn (n - 1) tl), (skipn (n - 1) tl).
  cbn in Hlen. assert (Lr : length (firstn (n - 1) tl) = n - 1) by (rewrite firstn_length; lia).
  split; [now rewrite firstn_skipn|]. split; [exact Lr|].
  unfold m_predict. rewrite (ic_out _ _ _ HC). unfold sched.
  rewrite (chain_forward_run lossy n _ HC Hn), (ic_in _ _ _ HC), EM. cbn [bind foldM].
  unfold feed_input at 1, feed. cbn [rd nth_error bind].
  destruct (o_forward op s x) as [s'| |]; cbn [bind]; auto.
  cbn [wr length Nat.ltb Nat.leb upd bind].
  replace (wr ((s, p) :: tl) 0 (s', p)) with (Ok ((s', p) :: tl)) by reflexivity. cbn [bind].
  pose proof (run_up op false (firstn (n - 1) tl) [] s' p (skipn (n - 1) tl) 0 eq_refl) as RU.
  rewrite Lr, firstn_skipn in RU. cbn [app] in RU. rewrite RU.
  destruct (chain_after op false 0 s' (firstn (n - 1) tl)) as [rest'| |] eqn:EA; cbn [bind]; auto.
  pose proof (chain_after_length _ _ _ _ _ _ EA) as Lr'. rewrite Lr in Lr'.
  assert (EN : node_output op ((s', p) :: rest' ++ skipn (n - 1) tl) (n - 1)
     = o_output op (last (map fst rest') s')).
  { unfold node_output. rewrite (rd_nth _ _ (s', p)) by (cbn; rewrite app_length; lia).
    destruct (n - 1) as [|k] eqn:Ek.
    - destruct rest'; [|cbn in Lr'; lia]. reflexivity.
    - cbn [nth]. rewrite app_nth1 by lia. rewrite last_nth, map_length.
      replace (length rest' - 1) with k by lia.
      rewrite (nth_indep (map fst rest') s' (fst (s', p))) by (rewrite map_length; lia).
      rewrite map_nth. destruct (nth k rest' (s', p)); reflexivity. }
  rewrite EN. reflexivity.
Qed.
End Generic.

(** *** Networks of dense and activation layers with a loss *)
Section Net.
Context {T : Type} `{NumOps T} `{TransOps T} `{LimOps T}.
Variable draw : nat -> T.
Notation ops := (node_ops draw).

(** Nodes with the pointers a training step sets. *)
Fixpoint place (k : nat) (ss : list (node T)) : list (node T * source) :=
  match ss with
  | [] => []
  | s :: r => (s, match k with 0 => SInput | S j => SNode j end) :: place (S k) r
  end.

Lemma place_app a : forall k b, place k (a ++ b) = place k a ++ place (k + length a) b.
Proof.
  induction a as [|s a IH]; intros k b; cbn [place app length].
  - now rewrite Nat.add_0_r.
  - rewrite IH. do 3 f_equal. lia.
Qed.
Lemma place_length a : forall k, length (place k a) = length a.
Proof. induction a as [|s a IH]; intros k; cbn; auto. Qed.
Lemma place_fst a : forall k, map fst (place k a) = a.
Proof. induction a as [|s a IH]; intros k; cbn; [reflexivity|]. now rewrite IH. Qed.

(** One training step of a network: forward, loss, backward. *)
Definition net_step (kd : losskind T) (ls : list (layer T)) (lo : lossl T) (x t : list T)
  : res (list (layer T) * lossl T) :=
  '(ls1, y) <- chain_forward ls x ;;
  let '(lo1, r) := loss_forward kd (set_target lo t) y in
  _ <- r ;;
  g <- loss_backward kd lo1 y ;;
  '(ls2, _) <- chain_backward ls1 x g ;;
  Ok (ls2, set_grad lo1 g).

Lemma chain_after_layers ls : forall k l0 rest kd lo,
  map fst rest = map NL ls ++ [NO kd lo] ->
  chain_after ops true k (NL l0) rest =
  ('(ls', y) <- chain_forward ls (out l0) ;;
   let '(lo', r) := loss_forward kd lo y in
   _ <- r ;; Ok (place (S k) (map NL ls' ++ [NO kd lo']))).
Proof.
  induction ls as [|l ls IH]; intros k l0 rest kd lo E; destruct rest as [|(r, p) rest]; try discriminate;
    cbn [map app] in E; injection E as E1 E2; cbn [fst] in E1; subst r.
  - destruct rest; [|discriminate]. cbn.
    destruct (loss_forward kd lo (out l0)) as (lo', [[]| |]); reflexivity.
  - cbn [chain_after chain_forward feed]. cbn [ops node_ops o_output o_tforward n_output n_tforward n_forward bind].
    destruct (layer_forward l (out l0)) as [l'| |]; cbn [bind]; auto.
    rewrite (IH (S k) l' rest kd lo E2).
    destruct (chain_forward ls (out l')) as [(ls', y)| |]; cbn [bind]; auto.
    destruct (loss_forward kd lo y) as (lo', [[]| |]); reflexivity.
Qed.

(** The value that reaches the loss is the last layer's output. *)
Lemma chain_forward_out ls : forall x ls' y, chain_forward ls x = Ok (ls', y) ->
  length ls' = length ls /\ y = match rev ls' with [] => x | q :: _ => out q end.
Proof.
  induction ls as [|l ls IH]; intros x ls' y E; cbn [chain_forward] in E.
  - injection E as <- <-. auto.
  - destruct (layer_forward l x) as [l'| |]; try discriminate. cbn [bind] in E.
    destruct (chain_forward ls (out l')) as [(ls1, y1)| |] eqn:E1; try discriminate. cbn [bind] in E.
    injection E as <- <-. apply IH in E1. destruct E1 as (L & ->). cbn [length]. split; [lia|].
    cbn [rev]. destruct (rev ls1) as [|q r] eqn:ER; reflexivity.
Qed.

Lemma chain_backward_snoc ls : forall l x g,
  chain_backward (ls ++ [l]) x g =
  (l' <- layer_backward l (match rev ls with [] => x | q :: _ => out q end) g ;;
   '(ls', gx) <- chain_backward ls x (ig l') ;; Ok (ls' ++ [l'], gx)).
Proof.
  induction ls as [|h ls IH]; intros l x g.
  - cbn. destruct (layer_backward l x g); reflexivity.
  - cbn [app chain_backward]. rewrite IH. cbn [rev].
    assert (ER : match rev ls ++ [h] with [] => x | q :: _ => out q end
               = match rev ls with [] => out h | q :: _ => out q end)
      by (destruct (rev ls); reflexivity).
    rewrite ER. clear ER.
    destruct (layer_backward l (match rev ls with [] => out h | q :: _ => out q end) g) as [l'| |]; cbn [bind]; auto.
    destruct (chain_backward ls (out h) (ig l')) as [(ls', gx)| |]; cbn [bind]; auto.
    destruct (layer_backward h x gx) as [h'| |]; cbn [bind]; reflexivity.
Qed.

Lemma chain_before_layers x ls : forall g,
  chain_before ops x (rev (place 0 (map NL ls))) g =
  ('(ls', _) <- chain_backward ls x g ;; Ok (rev (place 0 (map NL ls')))).
Proof.
  induction ls as [|l ls IH] using rev_ind; intros g; [reflexivity|].
  rewrite map_app, place_app, rev_app_distr. cbn [map place rev app].
  rewrite chain_backward_snoc. cbn [chain_before].
  assert (EL : (match rev (place 0 (map NL ls)) with [] => Ok x | (q, _) :: _ => o_output ops q end)
    = Ok (match rev ls with [] => x | q :: _ => out q end)).
  { destruct ls as [|q ls _] using rev_ind; [reflexivity|].
    rewrite map_app, place_app, !rev_app_distr. reflexivity. }
  rewrite EL. cbn [bind ops node_ops o_backward n_backward].
  destruct (layer_backward l _ g) as [l'| |]; cbn [bind]; auto.
  change (o_gradient ops (NL l')) with (ig l'). rewrite IH.
  destruct (chain_backward ls x (ig l')) as [(ls', gx)| |] eqn:EB; cbn [bind]; auto.
  f_equal. rewrite map_app, place_app, rev_app_distr. cbn [map place rev app].
  do 2 f_equal.
  assert (length ls' = length ls).
  { clear - EB. revert x ls' gx EB. generalize (ig l'). induction ls as [|h t IH]; intros g x ls' gx EB.
    - injection EB as <- <-. reflexivity.
    - cbn [chain_backward] in EB.
      destruct (chain_backward t (out h) g) as [(t', g')| |] eqn:E1; try discriminate. cbn [bind] in EB.
      destruct (layer_backward h x g') as [h'| |]; try discriminate. injection EB as <- <-.
      cbn. f_equal. eapply IH; eauto. }
  rewrite !map_length, H2. reflexivity.
Qed.

Lemma linked_place ss : linked (rev (place 0 ss)).
Proof.
  induction ss as [|s ss IH] using rev_ind; [exact I|].
  rewrite place_app, rev_app_distr. cbn [place rev app linked plus]. split; [|exact IH].
  destruct (length ss) as [|j] eqn:EL.
  - destruct ss; [reflexivity|discriminate].
  - destruct (rev (place 0 ss)) as [|h t] eqn:ER.
    + apply (f_equal (@length _)) in ER. rewrite rev_length, place_length in ER. cbn in ER. lia.
    + rewrite <- ER, rev_length, place_length. f_equal. lia.
Qed.

Lemma step_network n m ls kd lo x t : is_chain true n (mgraph m) -> 1 <= n ->
  map fst (mnodes m) = map NL ls ++ [NO kd lo] -> length ls = n ->
  m_step ops m x t =
  ('(ls', lo') <- net_step kd ls lo x t ;;
   Ok (mkModel (mgraph m) (place 0 (map NL ls' ++ [NO kd lo'])))).
Proof.
  intros HC Hn EM Hl.
  destruct ls as [|l ls]; [cbn in Hl; lia|]. cbn [length] in Hl.
  destruct (mnodes m) as [|(s0, p0) tl] eqn:EN; [discriminate|].
  cbn [map fst app] in EM. injection EM as E0 ET. subst s0.
  assert (Htl : exists rest lp, tl = rest ++ [(NO kd lo, lp)] /\ map fst rest = map NL ls).
  { destruct (exists_last (l := tl)) as (rest & (q, lp) & Etl).
    { intros ->. destruct ls; discriminate. }
    subst tl. rewrite map_app in ET. cbn [map fst] in ET.
    apply app_inj_tail in ET. destruct ET as (E1 & E2). exists rest, lp. subst q. auto. }
  destruct Htl as (rest & lp & Etl & Er). subst tl. clear ET.
  assert (Lr : length rest = n - 1).
  { apply (f_equal (@length _)) in Er. rewrite !map_length in Er. lia. }
  unfold m_step, sched. rewrite (chain_training_run n _ HC Hn), (chain_backward_run n _ HC Hn).
  rewrite (ic_in _ _ _ HC), (ic_losses _ _ _ HC), EN. cbn [bind foldM].
  unfold set_targets at 1.
  change ((NL l, p0) :: rest ++ [(NO kd lo, lp)]) with (((NL l, p0) :: rest) ++ [(NO kd lo, lp)]).
  assert (L1 : length ((NL l, p0) :: rest) = n) by (cbn; lia).
  rewrite (rd_app_mid _ (NO kd lo, lp) [] n L1). cbn [bind].
  rewrite (wr_app_mid _ (NO kd lo, lp) _ [] n L1). cbn [bind app ops node_ops o_target n_target].
  unfold feed_input at 1, feed. cbn [rd nth_error bind].
  cbn [ops node_ops o_tforward n_tforward n_forward]. unfold net_step. cbn [chain_forward].
  destruct (layer_forward l x) as [l'| |]; cbn [bind]; auto.
  match goal with |- context [wr ((NL l, p0) :: ?r) 0 ?v] =>
    replace (wr ((NL l, p0) :: r) 0 v) with (Ok (v :: r)) by reflexivity end. cbn [bind].
  pose proof (run_up ops true (rest ++ [(NO kd (set_target lo t), lp)]) [] (NL l') SInput [] 0 eq_refl) as RU.
  rewrite app_nil_r in RU. cbn [app] in RU.
  replace (length (rest ++ [(NO kd (set_target lo t), lp)])) with n in RU by (rewrite app_length; cbn; lia).
  rewrite RU. rewrite (chain_after_layers ls 0 l' _ kd (set_target lo t)) by (rewrite map_app, Er; reflexivity).
  destruct (chain_forward ls (out l')) as [(ls1, y)| |] eqn:EF; cbn [bind]; auto.
  destruct (loss_forward kd (set_target lo t) y) as (lo1, [[]| |]) eqn:ELF; cbn [bind]; auto.
  destruct (chain_forward_out _ _ _ _ EF) as (Ll & Ey).
  rewrite app_nil_r.
  change ((NL l', SInput) :: place 1 (map NL ls1 ++ [NO kd lo1]))
    with (place 0 (map NL (l' :: ls1) ++ [NO kd lo1])).
  rewrite place_app. cbn [place plus]. rewrite map_length. cbn [length].
  assert (L2 : length (place 0 (map NL (l' :: ls1))) = n).
  { rewrite place_length, map_length. cbn. lia. }
  unfold back_node at 1.
  rewrite (rd_app_mid _ (NO kd lo1, SNode (length ls1)) [] n L2). cbn [bind].
  assert (ED : deref ops (place 0 (map NL (l' :: ls1)) ++ [(NO kd lo1, SNode (length ls1))]) x (SNode (length ls1))
             = Ok y).
  { cbn [deref]. unfold node_output.
    destruct ls1 as [|q ls1 _] using rev_ind.
    - cbn in Ey. cbn. subst y. reflexivity.
    - rewrite app_length. cbn [length]. rewrite Nat.add_1_r.
      change (l' :: ls1 ++ [q]) with ((l' :: ls1) ++ [q]).
      assert (LL : length (l' :: ls1) = S (length ls1)) by reflexivity.
      rewrite rev_app_distr in Ey. cbn in Ey. subst y.
      revert LL. generalize (l' :: ls1). clear. intros L LL.
      rewrite map_app, place_app, <- app_assoc. cbn [map place app].
      rewrite (rd_app_mid (place 0 (map NL L)) _ _ (S (length ls1))); [reflexivity|].
      rewrite place_length, map_length. exact LL. }
  rewrite ED. cbn [bind o_backward ops node_ops n_backward].
  destruct (loss_backward kd lo1 y) as [g| |]; cbn [bind]; auto.
  rewrite (wr_app_mid _ _ _ [] n L2). cbn [bind].
  pose proof (run_down ops x (rev (place 0 (map NL (l' :: ls1)))) (NO kd (set_grad lo1 g)) (SNode (length ls1)) []
    (linked_place _)) as RD.
  rewrite rev_involutive, rev_length, L2 in RD. rewrite RD, chain_before_layers.
  change (o_gradient ops (NO kd (set_grad lo1 g))) with g.
  destruct (chain_backward (l' :: ls1) x g) as [(ls2, gx)| |] eqn:EB; cbn [bind]; auto.
  rewrite rev_involutive, place_app. cbn [place plus]. do 3 f_equal.
  assert (L3 : length ls2 = S (length ls1)).
  { clear - EB. change (S (length ls1)) with (length (l' :: ls1)). revert EB. generalize (l' :: ls1). intros ls EB.
    revert x g ls2 gx EB. induction ls as [|h tl IH]; intros x g ls' gx EB.
    - injection EB as <- <-. reflexivity.
    - cbn [chain_backward] in EB.
      destruct (chain_backward tl (out h) g) as [(t', g')| |] eqn:E1; try discriminate. cbn [bind] in EB.
      destruct (layer_backward h x g') as [h'| |]; try discriminate. injection EB as <- <-.
      cbn. f_equal. eapply IH; eauto. }
  rewrite map_length, L3. reflexivity.
Qed.
End Net.

(** *** Histories *)
Section History.
Context {T : Type} `{NumOps T} `{TransOps T} `{LimOps T}.

(** A layer constructed for [n] inputs and [k] outputs (softmax: at least one). *)
Definition lshape (l : layer T) (n k : nat) : Prop :=
  insz l = n /\ length (ig l) = n /\ length (out l) = k /\
  match knd l with
  | KDense => length (wts l) = k * n /\ length (wgrad l) = k * n /\
              length (bias l) = k /\ length (bgrad l) = k
  | KAct a => k = n /\ (a = Softmax -> 0 < n)
  end.
Fixpoint nshape (ls : list (layer T)) (n m : nat) : Prop :=
  match ls with
  | [] => n = m
  | l :: ls' => exists k, lshape l n k /\ nshape ls' k m
  end.

Definition same_params (l l' : layer T) : Prop :=
  knd l' = knd l /\ insz l' = insz l /\ wts l' = wts l /\ bias l' = bias l.

Lemma same_params_refl l : same_params l l.
Proof. repeat split. Qed.
Lemma same_params_trans l1 l2 l3 : same_params l1 l2 -> same_params l2 l3 -> same_params l1 l3.
Proof. intros (A & B & C & D) (E & F & G & I). repeat split; congruence. Qed.
Lemma all_same_refl ls : Forall2 same_params ls ls.
Proof. induction ls; constructor; auto using same_params_refl. Qed.
Lemma all_same_trans ls1 : forall ls2 ls3, Forall2 same_params ls1 ls2 -> Forall2 same_params ls2 ls3 ->
  Forall2 same_params ls1 ls3.
Proof.
  induction ls1 as [|l ls1 IH]; intros ls2 ls3 A B; inversion A; subst; inversion B; subst; constructor.
  - eapply same_params_trans; eauto.
  - eapply IH; eauto.
Qed.

Lemma max_ok (src : list T) n : 0 < n -> n <= length src -> exists d, max_ src n = Ok d.
Proof.
  intros Hn Hs. unfold max_, max_element. destruct (Nat.eqb_spec n 0) as [|Hn']; [lia|].
  match goal with |- context [for_from 1 (n - 1) ?b ?s] =>
    destruct (for_from_inv (fun k m => m < k) 1 (n - 1) b s) as (m & E & Hm) end.
  - lia.
  - intros k m Hk Hm. rewrite (rd_nth src m n0), (rd_nth src k n0) by lia. cbn [bind].
    eexists. split; [reflexivity|]. destruct (nltb _ _); lia.
  - rewrite E. cbn [bind]. destruct (Nat.ltb_spec m n); [|lia].
    cbn [require bind]. rewrite (rd_nth src m n0) by lia. eexists. reflexivity.
Qed.

Lemma map_into_val f (x : list T) n : length x = n -> exists y, length y = n /\
  forall o, length o = n -> map_into f o x n = Ok y.
Proof.
  intros Hx. exists (tab n (fun i => f (nth i x n0))). split; [apply tab_length|].
  intros o Ho. rewrite (map_into_spec n0) by lia. rewrite skipn_all2 by lia. now rewrite app_nil_r.
Qed.

Lemma layer_forward_val l n k x : lshape l n k -> length x = n ->
  exists y, length y = k /\ forall l2, lshape l2 n k -> same_params l l2 ->
    layer_forward l2 x = Ok (set_out l2 y).
Proof.
  intros (S1 & S2 & S3 & S4) Hx. destruct (knd l) as [|a] eqn:K.
  - destruct S4 as (A1 & A2 & A3 & A4).
    exists (tab k (fun i => nsum_from (nth i (bias l) n0) n
        (fun j => nmul (nth (i * n + j) (wts l) n0) (nth j x n0)))).
    split; [apply tab_length|]. intros l2 (T1 & T2 & T3 & T4) (P1 & P2 & P3 & P4).
    unfold layer_forward. rewrite P1, K, P3, P4, T3, Hx, (dense_spec n0) by lia.
    rewrite skipn_all2 by lia. rewrite app_nil_r. reflexivity.
  - destruct S4 as (A1 & A2). rewrite A1 in *. clear A1 k.
    assert (G : exists y, length y = n /\ forall o, length o = n -> act_forward a o x = Ok y).
    { unfold act_forward. destruct a; try (
        match goal with |- context [map_into ?f] => destruct (map_into_val f x n Hx) as (y & Ly & Hy) end;
        exists y; split; [exact Ly|]; intros o Ho; rewrite Ho; now apply Hy).
      - specialize (A2 eq_refl). unfold stable_softmax.
        destruct (max_ok x n A2) as (d & Ed); [lia|].
        exists (tab n (fun i => nmul (nexp (nsub (nth i x n0) d)) (ndiv n1 (nsum n (fun j => nexp (nsub (nth j x n0) d)))))).
        split; [apply tab_length|]. intros o Ho. rewrite Ho, Ed. cbn [bind].
        rewrite (softmax_with_spec n0) by lia. rewrite skipn_all2 by lia. now rewrite app_nil_r.
      - exists x. auto. }
    destruct G as (y & Ly & Hy). exists y. split; [exact Ly|].
    intros l2 (T1 & T2 & T3 & T4) (P1 & P2 & P3 & P4).
    unfold layer_forward. rewrite P1, K, Hy by exact T3. reflexivity.
Qed.

Lemma lshape_set_out l n k y : lshape l n k -> length y = k -> lshape (set_out l y) n k.
Proof. intros (S1 & S2 & S3 & S4) Hy. unfold lshape, set_out. cbn. auto. Qed.

Lemma chain_forward_val ls : forall n m x, nshape ls n m -> length x = n ->
  exists y, length y = m /\ forall ls2, Forall2 same_params ls ls2 -> nshape ls2 n m ->
    exists ls2', chain_forward ls2 x = Ok (ls2', y) /\ Forall2 same_params ls2 ls2' /\ nshape ls2' n m.
Proof.
  induction ls as [|l ls IH]; intros n m x HS Hx.
  - cbn in HS. subst m. exists x. split; [exact Hx|]. intros ls2 HF HS2. inversion HF; subst.
    exists []. cbn. auto.
  - destruct HS as (k & HL & HS). destruct (layer_forward_val l n k x HL Hx) as (y1 & Ly1 & F1).
    destruct (IH k m y1 HS Ly1) as (y & Ly & F). exists y. split; [exact Ly|].
    intros ls2 HF HS2. destruct ls2 as [|l2 tl2]; [inversion HF|].
    assert (P12 : same_params l l2 /\ Forall2 same_params ls tl2) by (inversion HF; auto).
    destruct P12 as (P1 & P2).
    destruct HS2 as (k2 & HL2 & HS2).
    assert (k2 = k).
    { destruct HL as (_ & A2 & A3 & A4), HL2 as (_ & B2 & B3 & B4), P1 as (Q1 & Q2 & Q3 & Q4).
      rewrite Q1 in B4. destruct (knd l).
      - destruct A4 as (_ & _ & A5 & _), B4 as (_ & _ & B5 & _). congruence.
      - destruct A4, B4. congruence. }
    subst k2. cbn [chain_forward]. rewrite (F1 l2 HL2 P1). cbn [bind set_out out].
    destruct (F tl2 P2 HS2) as (tl2' & E & P3 & HS3). rewrite E. cbn [bind].
    eexists. split; [reflexivity|]. split.
    + constructor; [|exact P3]. repeat split.
    + exists k. split; [|exact HS3]. apply lshape_set_out; auto.
Qed.

Lemma chain_forward_shape ls n m x : nshape ls n m -> length x = n ->
  exists ls' y, chain_forward ls x = Ok (ls', y) /\ length y = m /\ Forall2 same_params ls ls' /\ nshape ls' n m.
Proof.
  intros HS Hx. destruct (chain_forward_val ls n m x HS Hx) as (y & Ly & F).
  destruct (F ls (all_same_refl ls) HS) as (ls' & E & P & S'). exists ls', y. auto.
Qed.

Lemma map_into_length f (x o : list T) n : length o = n -> n <= length x ->
  exists y, map_into f o x n = Ok y /\ length y = n.
Proof.
  intros Ho Hx. rewrite (map_into_spec n0) by lia. rewrite skipn_all2 by lia. rewrite app_nil_r.
  eexists. split; [reflexivity|]. apply tab_length.
Qed.

Lemma layer_backward_shape l n k last g : lshape l n k -> length last = n -> length g = k ->
  exists l', layer_backward l last g = Ok l' /\ same_params l l' /\ lshape l' n k /\ out l' = out l.
Proof.
  intros (S1 & S2 & S3 & S4) Hl Hg. unfold layer_backward.
  destruct (knd l) as [|a] eqn:K.
  - destruct S4 as (A1 & A2 & A3 & A4).
    destruct (dense_1_spec n0 (ig l) (wgrad l) (bgrad l) g last (wts l) n k)
      as (i' & wg' & bg' & E & L1 & L2 & L3 & _); try lia.
    rewrite S1, Hg, E. cbn [bind]. eexists. split; [reflexivity|].
    split; [repeat split; auto; congruence|]. split; [|reflexivity].
    unfold lshape. cbn [insz ig out knd wts wgrad bias bgrad]. rewrite ?K. repeat split; try congruence.
  - destruct S4 as (-> & A2).
    assert (G : exists i', act_backward a (out l) (ig l) g = Ok i' /\ length i' = n).
    { unfold act_backward. rewrite S2.
      assert (PW : forall f, exists i', (i <- map_into f (ig l) (out l) n ;; map2_inplace nmul i g n) = Ok i' /\ length i' = n).
      { intros f. destruct (map_into_length f (out l) (ig l) n S2) as (i1 & E1 & L1); [lia|].
        rewrite E1. cbn [bind]. rewrite (map2_inplace_spec n0) by lia. eexists. split; [reflexivity|].
        rewrite skipn_all2 by lia. rewrite app_nil_r. apply tab_length. }
      destruct a; try apply PW.
      - rewrite (softmax_1_opt_spec n0) by lia. eexists. split; [reflexivity|].
        rewrite skipn_all2 by lia. rewrite app_nil_r. apply tab_length.
      - apply map_into_length; [exact S2|lia]. }
    destruct G as (i' & E & L). rewrite E. cbn [bind]. eexists. split; [reflexivity|].
    split; [repeat split; auto|]. split; [|reflexivity].
    unfold lshape, set_ig. cbn. rewrite K. auto.
Qed.

Lemma chain_backward_shape ls : forall n m x g, nshape ls n m -> length x = n -> length g = m ->
  exists ls' gx, chain_backward ls x g = Ok (ls', gx) /\ length gx = n /\
    Forall2 same_params ls ls' /\ nshape ls' n m.
Proof.
  induction ls as [|l ls IH]; intros n m x g HS Hx Hg.
  - cbn in HS. subst m. exists [], g. cbn. auto.
  - destruct HS as (k & HL & HS). cbn [chain_backward].
    destruct (IH k m (out l) g HS) as (ls' & gx & E & Lg & P & S'); [apply HL|exact Hg|].
    rewrite E. cbn [bind].
    destruct (layer_backward_shape l n k x gx HL Hx Lg) as (l' & E1 & P1 & S1 & O1).
    rewrite E1. cbn [bind]. do 2 eexists. split; [reflexivity|]. split; [apply S1|].
    split; [constructor; auto|]. exists k. auto.
Qed.
End History.

Section Calls.
Context {T : Type} `{NumOps T} `{TransOps T} `{LimOps T}.
Variable draw : nat -> T.
Notation ops := (node_ops draw).

Lemma chain_after_forward ls : forall k l0 rest ls' y, map fst rest = map NL ls ->
  chain_forward ls (out l0) = Ok (ls', y) ->
  exists rest', chain_after ops false k (NL l0) rest = Ok rest' /\ map fst rest' = map NL ls' /\
    o_output ops (last (map fst rest') (NL l0)) = Ok y.
Proof.
  induction ls as [|l ls IH]; intros k l0 rest ls' y ER E; cbn [chain_forward] in E.
  - injection E as <- <-. destruct rest; [|discriminate]. exists []. auto.
  - destruct rest as [|(r, p) rest]; [discriminate|]. cbn [map fst] in ER. injection ER as E1 ER. subst r.
    destruct (layer_forward l (out l0)) as [l'| |] eqn:EL; try discriminate. cbn [bind] in E.
    destruct (chain_forward ls (out l')) as [(ls1, y1)| |] eqn:EC; try discriminate. cbn [bind] in E.
    injection E as <- <-.
    destruct (IH (S k) l' rest ls1 y1 ER EC) as (rest' & EA & EM & EO).
    exists ((NL l', p) :: rest'). split; [|split].
    + cbn [chain_after feed]. cbn [ops node_ops o_output o_forward n_output n_forward bind].
      rewrite EL. cbn [bind]. rewrite EA. reflexivity.
    + cbn. now rewrite EM.
    + cbn [map fst]. rewrite <- EO. f_equal. clear. destruct (map fst rest') as [|a l]; [reflexivity|].
      cbn [last]. clear. revert a. induction l as [|b l IH]; intros a; [reflexivity|]. apply IH.
Qed.

Lemma predict_network lossy n m ls post x ls' y : is_chain lossy n (mgraph m) -> 1 <= n ->
  length (mnodes m) = nodes (mgraph m) ->
  map fst (mnodes m) = map NL ls ++ post -> length ls = n ->
  chain_forward ls x = Ok (ls', y) ->
  exists m', m_predict ops m x = Ok (m', y) /\ mgraph m' = mgraph m /\
    map fst (mnodes m') = map NL ls' ++ post.
Proof.
  intros HC Hn HL EM Hls EF.
  destruct (predict_chain ops lossy n m x HC Hn HL) as (s & p & rest & po & EN & Lr & EP).
  rewrite EN in EM. destruct ls as [|l ls]; [cbn in Hls; lia|].
  cbn [map fst app] in EM. injection EM as E0 EM. subst s. rewrite map_app in EM.
  assert (Sp : map fst rest = map NL ls /\ map fst po = post).
  { cbn [length] in Hls. assert (LL : length (map fst rest) = length (map (@NL T) ls)) by (rewrite !map_length; lia).
    clear - EM LL. revert EM LL. generalize (map fst rest), (map (@NL T) ls), (map fst po).
    intros a b c. revert b. induction a as [|h a IH]; intros [|h' b] E LL; try discriminate; auto.
    cbn in E. injection E as -> E. destruct (IH b E) as (-> & ->); [now injection LL|]. auto. }
  destruct Sp as (S1 & S2). cbn [chain_forward] in EF.
  destruct (layer_forward l x) as [l'| |] eqn:EL; try discriminate. cbn [bind] in EF.
  destruct (chain_forward ls (out l')) as [(ls1, y1)| |] eqn:EC; try discriminate. cbn [bind] in EF.
  injection EF as <- <-.
  destruct (chain_after_forward ls 0 l' rest ls1 y1 S1 EC) as (rest' & EA & EM' & EO).
  rewrite EP. cbn [ops node_ops o_forward n_forward]. rewrite EL. cbn [bind]. rewrite EA. cbn [bind].
  change (n_output (last (map fst rest') (NL l'))) with (o_output ops (last (map fst rest') (NL l'))).
  rewrite EO. cbn [bind]. eexists. split; [reflexivity|]. split; [reflexivity|].
  cbn [mnodes map fst]. rewrite map_app, EM', S2. reflexivity.
Qed.
End Calls.
