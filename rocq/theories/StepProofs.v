(** A step of a chain of layers of any kind: forward, loss, backward, and the derivative along
    curves of parameters. *)
From Verif Require Import Base Num RSum GraphModel ModelModel ChainProofs ModelProofs GradSpec.
From Coq Require Import Reals Lra.

Section Step.
Context {T S : Type} (op : nodeops T S).

(** Forward through the layers. *)
Fixpoint gforward (ss : list S) (x : list T) : res (list S * list T) :=
  match ss with
  | [] => Ok ([], x)
  | s :: r => s' <- o_tforward op s x ;; y <- o_output op s' ;; '(r', z) <- gforward r y ;; Ok (s' :: r', z)
  end.
(** Backward; [x] is what was given to the first layer. *)
Fixpoint gbackward (ss : list S) (x g : list T) : res (list S * list T) :=
  match ss with
  | [] => Ok ([], g)
  | s :: r => y <- o_output op s ;; '(r', g') <- gbackward r y g ;; s' <- o_backward op s x g' ;;
      Ok (s' :: r', o_gradient op s')
  end.

Fixpoint splace (k : nat) (ss : list S) : list (S * source) :=
  match ss with
  | [] => []
  | s :: r => (s, match k with 0 => SInput | Datatypes.S j => SNode j end) :: splace (Datatypes.S k) r
  end.
Lemma splace_app a : forall k b, splace k (a ++ b) = splace k a ++ splace (k + length a) b.
Proof.
  induction a as [|s a IH]; intros k b; cbn [splace app length].
  - now rewrite Nat.add_0_r.
  - rewrite IH. do 3 f_equal. lia.
Qed.
Lemma splace_length a : forall k, length (splace k a) = length a.
Proof. induction a as [|s a IH]; intros k; cbn; auto. Qed.
Lemma splace_fst a : forall k, map fst (splace k a) = a.
Proof. induction a as [|s a IH]; intros k; cbn; [reflexivity|]. now rewrite IH. Qed.
Lemma slinked_place ss : linked (rev (splace 0 ss)).
Proof.
  induction ss as [|s ss IH] using rev_ind; [exact I|].
  rewrite splace_app, rev_app_distr. cbn [splace rev app linked plus]. split; [|exact IH].
  destruct (length ss) as [|j] eqn:EL.
  - destruct ss; [reflexivity|discriminate].
  - destruct (rev (splace 0 ss)) as [|h t] eqn:ER.
    + apply (f_equal (@length _)) in ER. rewrite rev_length, splace_length in ER. cbn in ER. lia.
    + rewrite <- ER, rev_length, splace_length. f_equal. lia.
Qed.

Lemma gforward_length ss : forall x ss' y, gforward ss x = Ok (ss', y) -> length ss' = length ss.
Proof.
  induction ss as [|s ss IH]; intros x ss' y E; cbn [gforward] in E.
  - injection E as <- <-. reflexivity.
  - destruct (o_tforward op s x) as [s'| |]; try discriminate. cbn [bind] in E.
    destruct (o_output op s') as [z| |]; try discriminate. cbn [bind] in E.
    destruct (gforward ss z) as [(r, w)| |] eqn:ER; try discriminate. cbn [bind] in E.
    injection E as <- <-. cbn. f_equal. eapply IH; eauto.
Qed.
Lemma gbackward_length ss : forall x g ss' gx, gbackward ss x g = Ok (ss', gx) -> length ss' = length ss.
Proof.
  induction ss as [|s ss IH]; intros x g ss' gx E; cbn [gbackward] in E.
  - injection E as <- <-. reflexivity.
  - destruct (o_output op s) as [z| |]; try discriminate. cbn [bind] in E.
    destruct (gbackward ss z g) as [(r, w)| |] eqn:ER; try discriminate. cbn [bind] in E.
    destruct (o_backward op s x w) as [s'| |]; try discriminate. cbn [bind] in E.
    injection E as <- <-. cbn. f_equal. eapply IH; eauto.
Qed.

(** What the layer after [ss] reads: the last output, or [x]. *)
Definition last_out (ss : list S) (x : list T) : res (list T) :=
  match rev ss with [] => Ok x | q :: _ => o_output op q end.

Lemma gforward_last ss : forall x ss' y, gforward ss x = Ok (ss', y) -> last_out ss' x = Ok y.
Proof.
  induction ss as [|s ss IH]; intros x ss' y E; cbn [gforward] in E.
  - injection E as <- <-. reflexivity.
  - destruct (o_tforward op s x) as [s'| |]; try discriminate. cbn [bind] in E.
    destruct (o_output op s') as [z| |] eqn:EO; try discriminate. cbn [bind] in E.
    destruct (gforward ss z) as [(r, w)| |] eqn:ER; try discriminate. cbn [bind] in E.
    injection E as <- <-. specialize (IH _ _ _ ER). unfold last_out in *. cbn [rev].
    destruct (rev r) as [|q t]; cbn [app]; [congruence|exact IH].
Qed.

Lemma gbackward_snoc ss : forall s x g r, gbackward (ss ++ [s]) x g = Ok r ->
  exists last s' ss' gx, last_out ss x = Ok last /\ o_backward op s last g = Ok s' /\
    gbackward ss x (o_gradient op s') = Ok (ss', gx) /\ r = (ss' ++ [s'], gx).
Proof.
  induction ss as [|h ss IH]; intros s x g r E; cbn [app gbackward] in E.
  - destruct (o_output op s) as [z| |]; try discriminate. cbn [bind] in E.
    destruct (o_backward op s x g) as [s'| |] eqn:EB; try discriminate. cbn [bind] in E. injection E as <-.
    exists x, s', [], (o_gradient op s'). auto.
  - destruct (o_output op h) as [z| |] eqn:EO; try discriminate. cbn [bind] in E.
    destruct (gbackward (ss ++ [s]) z g) as [r1| |] eqn:E1; try discriminate. cbn [bind] in E.
    destruct (IH _ _ _ _ E1) as (last & s' & ss' & gx & A & B & C & ->).
    destruct (o_backward op h x gx) as [h'| |] eqn:EB; try discriminate. cbn [bind] in E. injection E as <-.
    exists last, s', (h' :: ss'), (o_gradient op h'). split.
    { unfold last_out in *. cbn [rev]. destruct (rev ss) as [|q t]; cbn [app]; [congruence|exact A]. }
    split; [exact B|]. split; [|reflexivity]. cbn [gbackward]. rewrite EO. cbn [bind]. rewrite C. cbn [bind].
    rewrite EB. reflexivity.
Qed.

Lemma chain_before_g x ss : forall g ss' gx, gbackward ss x g = Ok (ss', gx) ->
  chain_before op x (rev (splace 0 ss)) g = Ok (rev (splace 0 ss')).
Proof.
  induction ss as [|s ss IH] using rev_ind; intros g ss2 gx E.
  - cbn in E. injection E as <- <-. reflexivity.
  - destruct (gbackward_snoc _ _ _ _ _ E) as (last & s' & ss' & gx' & A & B & C & F). injection F as -> ->.
    rewrite splace_app, rev_app_distr. cbn [splace rev app chain_before].
    assert (EL : (match rev (splace 0 ss) with [] => Ok x | (q, _) :: _ => o_output op q end) = Ok last).
    { rewrite <- A. unfold last_out. destruct ss as [|q ss _] using rev_ind; [reflexivity|].
      rewrite splace_app, !rev_app_distr. reflexivity. }
    rewrite EL. cbn [bind]. rewrite B. cbn [bind]. rewrite (IH _ _ _ C). cbn [bind].
    rewrite splace_app, rev_app_distr. cbn [splace rev app]. now rewrite (gbackward_length _ _ _ _ _ C).
Qed.

Lemma chain_after_g ss : forall k s0 rest y0 ss1 y lo lo1,
  map fst rest = ss ++ [lo] -> o_output op s0 = Ok y0 -> gforward ss y0 = Ok (ss1, y) ->
  o_tforward op lo y = Ok lo1 ->
  chain_after op true k s0 rest = Ok (splace (Datatypes.S k) (ss1 ++ [lo1])).
Proof.
  induction ss as [|s ss IH]; intros k s0 rest y0 ss1 y lo lo1 E EO EF EL;
    destruct rest as [|(r, p) rest]; try discriminate; cbn [map app fst] in E; injection E as E1 E2; subst r.
  - destruct rest; [|discriminate]. cbn in EF. injection EF as <- <-. cbn [chain_after]. rewrite EO. cbn [bind feed].
    rewrite EL. reflexivity.
  - cbn [gforward] in EF. cbn [chain_after]. rewrite EO. cbn [bind feed].
    destruct (o_tforward op s y0) as [s'| |]; try discriminate. cbn [bind] in *.
    destruct (o_output op s') as [z| |] eqn:EZ; try discriminate. cbn [bind] in EF.
    destruct (gforward ss z) as [(r', w)| |] eqn:ER; try discriminate. cbn [bind] in EF. injection EF as <- <-.
    rewrite (IH (Datatypes.S k) s' rest z r' w lo lo1 E2 EZ ER EL). reflexivity.
Qed.

(** One step of a chain of layers with a loss. *)
Lemma step_chain n m ss lo x t ss1 y lo1 lo2 ss2 gx : is_chain true n (mgraph m) -> 1 <= n ->
  map fst (mnodes m) = ss ++ [lo] -> length ss = n ->
  gforward ss x = Ok (ss1, y) -> o_tforward op (o_target op lo t) y = Ok lo1 ->
  o_backward op lo1 y [] = Ok lo2 -> gbackward ss1 x (o_gradient op lo2) = Ok (ss2, gx) ->
  m_step op m x t = Ok (mkModel (mgraph m) (splace 0 (ss2 ++ [lo2]))).
Proof.
  intros HC Hn EM Hl EF EL EB EG.
  destruct ss as [|s ss]; [cbn in Hl; lia|]. cbn [length] in Hl.
  destruct (mnodes m) as [|(s0, p0) tl] eqn:EN; [discriminate|].
  cbn [map fst app] in EM. injection EM as E0 ET. subst s0.
  assert (Htl : exists rest lp, tl = rest ++ [(lo, lp)] /\ map fst rest = ss).
  { destruct (exists_last (l := tl)) as (rest & (q, lp) & Etl).
    { intros ->. destruct ss; discriminate. }
    subst tl. rewrite map_app in ET. cbn [map fst] in ET.
    apply app_inj_tail in ET. destruct ET as (E1 & E2). exists rest, lp. subst q. auto. }
  destruct Htl as (rest & lp & Etl & Er). subst tl. clear ET.
  assert (Lr : length rest = n - 1).
  { apply (f_equal (@length _)) in Er. rewrite !map_length in Er. lia. }
  pose proof EF as EF0. cbn [gforward] in EF.
  destruct (o_tforward op s x) as [s'| |] eqn:ES; try discriminate. cbn [bind] in EF.
  destruct (o_output op s') as [y0| |] eqn:EO; try discriminate. cbn [bind] in EF.
  destruct (gforward ss y0) as [(r1, z)| |] eqn:ER; try discriminate. cbn [bind] in EF. injection EF as <- <-.
  unfold m_step, sched. rewrite (chain_training_run n _ HC Hn), (chain_backward_run n _ HC Hn).
  rewrite (ic_in _ _ _ HC), (ic_losses _ _ _ HC), EN. cbn [bind foldM].
  unfold set_targets at 1.
  change ((s, p0) :: rest ++ [(lo, lp)]) with (((s, p0) :: rest) ++ [(lo, lp)]).
  assert (L1 : length ((s, p0) :: rest) = n) by (cbn; lia).
  rewrite (rd_app_mid _ (lo, lp) [] n L1). cbn [bind].
  rewrite (wr_app_mid _ (lo, lp) _ [] n L1). cbn [bind app].
  unfold feed_input at 1, feed. cbn [rd nth_error bind]. rewrite ES. cbn [bind].
  match goal with |- context [wr ((s, p0) :: ?r) 0 ?v] =>
    replace (wr ((s, p0) :: r) 0 v) with (Ok (v :: r)) by reflexivity end. cbn [bind].
  pose proof (run_up op true (rest ++ [(o_target op lo t, lp)]) [] s' SInput [] 0 eq_refl) as RU.
  rewrite app_nil_r in RU. cbn [app] in RU.
  replace (length (rest ++ [(o_target op lo t, lp)])) with n in RU by (rewrite app_length; cbn; lia).
  rewrite RU. rewrite (chain_after_g ss 0 s' _ y0 r1 z (o_target op lo t) lo1)
    by (try assumption; rewrite map_app, Er; reflexivity).
  cbn [bind]. rewrite app_nil_r.
  change ((s', SInput) :: splace 1 (r1 ++ [lo1])) with (splace 0 ((s' :: r1) ++ [lo1])).
  assert (L2' : length (s' :: r1) = n) by (cbn; rewrite (gforward_length _ _ _ _ ER); lia).
  assert (NE : s' :: r1 <> []) by discriminate.
  pose proof (gforward_last _ _ _ _ EF0) as LO. cbv beta in LO.
  revert EG LO L2' NE. generalize (s' :: r1). intros L EG LO L2' NE.
  assert (L2 : length (splace 0 L) = n) by (rewrite splace_length; exact L2').
  rewrite splace_app, L2'. destruct n as [|n']; [lia|]. cbn [splace plus].
  unfold back_node at 1.
  rewrite (rd_app_mid _ (lo1, SNode n') [] _ L2). cbn [bind].
  assert (ED : deref op (splace 0 L ++ [(lo1, SNode n')]) x (SNode n') = Ok z).
  { cbn [deref]. unfold node_output. unfold last_out in LO.
    destruct (exists_last (l := L) NE) as (L' & q & EL').
    rewrite EL' in LO, L2' |- *. rewrite rev_app_distr in LO. cbn [rev app] in LO.
    rewrite app_length in L2'. cbn [length] in L2'.
    rewrite splace_app, <- app_assoc. cbn [splace app].
    rewrite (rd_app_mid (splace 0 L') _ _ n') by (rewrite splace_length; lia). cbn [bind]. exact LO. }
  rewrite ED. cbn [bind]. rewrite EB. cbn [bind].
  rewrite (wr_app_mid _ _ _ [] _ L2). cbn [bind].
  pose proof (run_down op x (rev (splace 0 L)) lo2 (SNode n') [] (slinked_place _)) as RD.
  rewrite rev_involutive, rev_length, L2 in RD. rewrite RD, (chain_before_g _ _ _ _ _ EG). cbn [bind].
  rewrite rev_involutive, splace_app. cbn [splace plus].
  pose proof (gbackward_length _ _ _ _ _ EG) as L3. rewrite L3, L2'. reflexivity.
Qed.

(** Prediction when forward and training_forward agree. *)
Lemma compose_g ss : forall x ss' y, (forall s x, o_forward op s x = o_tforward op s x) ->
  gforward ss x = Ok (ss', y) -> compose op ss x = Ok y.
Proof.
  induction ss as [|s ss IH]; intros x ss' y HT E; cbn [gforward compose] in *.
  - now injection E as <- <-.
  - rewrite HT. destruct (o_tforward op s x) as [s'| |]; try discriminate. cbn [bind] in *.
    destruct (o_output op s') as [z| |]; try discriminate. cbn [bind] in *.
    destruct (gforward ss z) as [(r, w)| |] eqn:ER; try discriminate. cbn [bind] in E. injection E as <- <-.
    eapply IH; eauto.
Qed.
End Step.

(** *** Derivatives along curves *)
Section Vjp.
Context {S : Type} (op : nodeops R S).
Local Open Scope R_scope.

(** A layer moving along a curve: where it starts, where it is at time t, and what its gradient
    buffers contribute to the derivative. *)
Record curve := mkCurve { cbase : S; cat : R -> S; cterm : S -> R }.

Variable ok : curve -> Prop.
Variable sh : S -> nat -> nat -> Prop.
Variable sm : S -> list R -> Prop.
Variable kept : S -> S -> Prop.

Definition vjp_ok (c : curve) (n k : nat) (x : R -> list R) (v : list R) : Prop :=
  exists fwd y w, (forall t, o_tforward op (cat c t) (x t) = Ok (fwd t) /\ o_output op (fwd t) = Ok (y t)) /\
    vec_deriv k y w /\
    forall g, length g = k -> exists s', o_backward op (fwd 0) (x 0) g = Ok s' /\
      length (o_gradient op s') = n /\ dotl k g w = dotl n (o_gradient op s') v + cterm c s' /\
      kept (cbase c) s' /\ sh s' n k.

Hypothesis node_vjp : forall c n k x v, ok c -> sh (cbase c) n k -> vec_deriv n x v ->
  sm (cbase c) (x 0) -> vjp_ok c n k x v.
Hypothesis cat_0 : forall c, ok c -> cat c 0 = cbase c.

Fixpoint gshape (ss : list S) (n m : nat) : Prop :=
  match ss with [] => n = m | s :: r => exists k, sh s n k /\ gshape r k m end.
Fixpoint gsmooth (ss : list S) (x : list R) : Prop :=
  match ss with
  | [] => True
  | s :: r => sm s x /\ forall s' y, o_tforward op s x = Ok s' -> o_output op s' = Ok y -> gsmooth r y
  end.
Fixpoint gterms (cs : list curve) (ss : list S) : R :=
  match cs, ss with c :: cs', s :: ss' => cterm c s + gterms cs' ss' | _, _ => 0 end.

Lemma gchain_vjp : forall (cs : list curve) n m (x : R -> list R) v,
  gshape (map cbase cs) n m -> Forall ok cs -> vec_deriv n x v -> gsmooth (map cbase cs) (x 0) ->
  exists (run : R -> list S) y w,
    (forall t, gforward op (map (fun c => cat c t) cs) (x t) = Ok (run t, y t)) /\ vec_deriv m y w /\
    forall g, length g = m -> exists ss' gx, gbackward op (run 0) (x 0) g = Ok (ss', gx) /\ length gx = n /\
      dotl m g w = dotl n gx v + gterms cs ss' /\ Forall2 kept (map cbase cs) ss' /\ gshape ss' n m.
Proof.
  induction cs as [|c cs IH]; intros n m x v HS HO HV HM.
  - cbn in HS. subst m. exists (fun _ => []), x, v. split; [reflexivity|]. split; [exact HV|].
    intros g Hg. exists [], g. cbn. split; [reflexivity|]. split; [exact Hg|]. split; [ring|]. split; [constructor|reflexivity].
  - cbn [map gshape] in HS. destruct HS as (k & S1 & S2). inversion HO as [|? ? O1 O2]; subst.
    cbn [map gsmooth] in HM. destruct HM as (M1 & M2).
    destruct (node_vjp c n k x v O1 S1 HV M1) as (fwd & y1 & w1 & F1 & D1 & B1).
    destruct (IH k m y1 w1 S2 O2 D1) as (run & y & w & F & D & B).
    { apply (M2 (fwd 0)); [|apply F1]. rewrite <- (cat_0 c O1). apply F1. }
    exists (fun t => fwd t :: run t), y, w. split; [|split; [exact D|]].
    + intros t. cbn [map gforward]. destruct (F1 t) as (-> & E2). cbn [bind]. rewrite E2. cbn [bind].
      rewrite F. reflexivity.
    + intros g Hg. destruct (B g Hg) as (ss' & gx & E & L & Q & K & G).
      destruct (B1 gx L) as (s' & E1 & L1 & Q1 & K1 & G1). exists (s' :: ss'), (o_gradient op s').
      cbn [gbackward]. destruct (F1 0) as (_ & ->). cbn [bind]. rewrite E. cbn [bind]. rewrite E1. cbn [bind].
      split; [reflexivity|]. split; [exact L1|]. cbn [gterms]. split; [rewrite Q, Q1; ring|].
      cbn [map gshape]. split; [constructor; assumption|]. exists k. auto.
Qed.
End Vjp.
Arguments curve S : clear implicits.
