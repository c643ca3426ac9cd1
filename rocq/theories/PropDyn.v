(** C65: the calls a user makes on a network chosen at run time. *)
From Verif Require Import Base Num DatasetModel MathModel LayerModel LossModel OptModel GraphModel ModelModel NodeModel
  BuilderModel CopyModel FnnModel FitModel InitModel PropModel DynModel.

Section Any.
Context {L SN D P Y V : Type}.
Variable st : static L SN D P Y V.
Notation call := (call D P).
Notation outcome := (outcome Y V).

Definition is_compile (c : call) : Prop := match c with Compile _ _ _ => True | _ => False end.
(** fit and evaluate *)
Definition needs_compile (c : call) : Prop := match c with Fit _ _ | Evaluate _ => True | _ => False end.
(** predict and the sizes *)
Definition compiles (c : call) : Prop := match c with Predict _ | InputSize | OutputSize => True | _ => False end.

Lemma drun_app d a : forall b, drun st d (a ++ b) =
  (fst (drun st (fst (drun st d a)) b), snd (drun st d a) ++ snd (drun st (fst (drun st d a)) b)).
Proof.
  revert d. induction a as [|c a IH]; intros d b; cbn [app drun].
  - cbn [fst snd app]. now destruct (drun st d b).
  - destruct (dstep st d c) as (d1, o). rewrite IH. destruct (drun st d1 a) as (d2, os). reflexivity.
Qed.
Lemma dstep_layers d c : d_layers (fst (dstep st d c)) = d_layers d.
Proof.
  destruct c; cbn [dstep]; unfold compiled, d_default, d_compile.
  - destruct (add_all st _ _). reflexivity.
  - destruct (d_model d); [destruct (s_predict st _ _); reflexivity|].
    destruct (add_all st (s_new st LtMSE MAuto) (d_layers d)) as (s, []); cbn; auto. destruct (s_predict st s x). reflexivity.
  - destruct (d_model d); [destruct (s_fit st _ _ _ _); reflexivity|reflexivity].
  - destruct (d_model d); [destruct (s_evaluate st _ _ _); reflexivity|reflexivity].
  - destruct (d_model d); [reflexivity|]. destruct (add_all st _ _) as (s, []); reflexivity.
  - destruct (d_model d); [reflexivity|]. destruct (add_all st _ _) as (s, []); reflexivity.
Qed.
Lemma drun_layers cs : forall d, d_layers (fst (drun st d cs)) = d_layers d.
Proof.
  induction cs as [|c cs IH]; intros d; [reflexivity|]. cbn [drun].
  pose proof (dstep_layers d c) as E. destruct (dstep st d c) as (d1, o). pose proof (IH d1) as E1.
  destruct (drun st d1 cs). cbn [fst] in *. congruence.
Qed.
(** An object that holds a network runs as the network. *)
Lemma drun_holds cs : forall s ls o l, Forall (fun c => ~ is_compile c) cs ->
  drun st (mkDnet (Some s) ls o l) cs = (mkDnet (Some (fst (srun st l o s cs))) ls o l, snd (srun st l o s cs)).
Proof.
  induction cs as [|c cs IH]; intros s ls o l F; [reflexivity|]. inversion F as [|? ? F1 F2]; subst.
  cbn [drun srun]. destruct c; cbn [dstep sstep compiled d_model d_opt d_loss with_model d_layers]; [now destruct F1|..].
  - destruct (s_predict st s x) as (s1, r). unfold with_model. cbn [d_layers d_opt d_loss]. rewrite IH by exact F2. now destruct (srun st l o s1 cs).
  - destruct (s_fit st s o x p) as (s1, r). unfold with_model. cbn [d_layers d_opt d_loss]. rewrite IH by exact F2. now destruct (srun st l o s1 cs).
  - destruct (s_evaluate st l s x) as (s1, r). unfold with_model. cbn [d_layers d_opt d_loss]. rewrite IH by exact F2. now destruct (srun st l o s1 cs).
  - rewrite IH by exact F2. now destruct (srun st l o s cs).
  - rewrite IH by exact F2. now destruct (srun st l o s cs).
Qed.

(** Whatever was called before, after compile(l, o, i) the object behaves as the static network
    with loss [l] and initialisation [i] made of the same layers, whose fit is always called
    with optimizer [o]; and compile throws exactly if the static network's constructor does. *)
Theorem c65_compiled_is_static : forall layers before l o i after,
  Forall (fun c => ~ is_compile c) after ->
  let d := fst (drun st (dnew layers) before) in
  match construct st l i layers with
  | RVal s => exists d', dstep st d (Compile l o i) = (d', OUnit) /\ snd (drun st d' after) = snd (srun st l o s after)
  | RThrow => snd (dstep st d (Compile l o i)) = OThrow
  | RStuck => snd (dstep st d (Compile l o i)) = OStuck
  end.
Proof.
  intros layers before l o i after F d. pose proof (drun_layers before (dnew layers)) as E. fold d in E. cbn [dnew d_layers] in E.
  unfold construct. cbn [dstep]. unfold d_compile. rewrite E. destruct (add_all st (s_new st l i) layers) as (s, [[]| |]); cbn; auto.
  eexists. split; [reflexivity|]. rewrite drun_holds by exact F. reflexivity.
Qed.

(** Before the first compile fit and evaluate throw and leave the object as it is; predict and
    the sizes act as after compile(MSE, ADAM, AUTO), including its exception. *)
Theorem c65_uncompiled : forall layers before,
  Forall needs_compile before ->
  drun st (dnew layers) before = (dnew layers, repeat OThrow (length before)) /\
  forall c after, compiles c ->
  match construct st LtMSE MAuto layers with
  | RVal _ => snd (drun st (dnew layers) (c :: after)) =
      tl (snd (drun st (dnew layers) (Compile LtMSE OAdam MAuto :: c :: after)))
  | RThrow => snd (dstep st (dnew layers) c) = OThrow
  | RStuck => snd (dstep st (dnew layers) c) = OStuck
  end.
Proof.
  intros layers before F. split.
  - induction F as [|c cs F1 _ IH]; [reflexivity|]. cbn [drun length repeat].
    destruct c; try destruct F1; cbn [dstep dnew d_model]; fold (dnew (SN := SN) layers); now rewrite IH.
  - intros c after HC. unfold construct.
    destruct (add_all st (s_new st LtMSE MAuto) layers) as (s, [[]| |]) eqn:E.
    + cbn [drun]. cbn [dstep]. unfold d_compile. cbn [dnew d_layers]. rewrite E. cbn [ends].
      assert (X : dstep st (dnew layers) c = dstep st (mkDnet (Some s) layers OAdam LtMSE) c).
      { destruct c; try destruct HC; cbn [dstep]; unfold compiled, d_default, d_compile; cbn [dnew d_layers d_model]; rewrite E; reflexivity. }
      fold (dnew (SN := SN) layers). rewrite X. destruct (dstep st (mkDnet (Some s) layers OAdam LtMSE) c) as (d1, o1).
      destruct (drun st d1 after) as (d2, os). reflexivity.
    + destruct c; try destruct HC; cbn [dstep]; unfold compiled, d_default, d_compile; cbn [dnew d_layers d_model]; rewrite E; reflexivity.
    + destruct c; try destruct HC; cbn [dstep]; unfold compiled, d_default, d_compile; cbn [dnew d_layers d_model]; rewrite E; reflexivity.
Qed.

(** After a compile that threw the object holds a network of the layers in front of the one
    that was refused, and all later calls use it. *)
Theorem c65_failed_compile_actual : forall layers before l o i after pre x post s s',
  Forall (fun c => ~ is_compile c) after ->
  layers = pre ++ x :: post -> construct st l i pre = RVal s -> s_add st s x = (s', RThrow) ->
  let d := fst (drun st (dnew layers) before) in
  exists d', dstep st d (Compile l o i) = (d', OThrow) /\ snd (drun st d' after) = snd (srun st l o s' after).
Proof.
  intros layers before l o i after pre x post s s' F EL EC EA d.
  pose proof (drun_layers before (dnew layers)) as E. fold d in E. cbn [dnew d_layers] in E.
  assert (A : add_all st (s_new st l i) layers = (s', RThrow)).
  { rewrite EL. unfold construct in EC. clear - EC EA. revert EC. generalize (s_new st l i). induction pre as [|p pre IH]; intros s0 EC.
    - cbn in EC. injection EC as ->. cbn [app add_all]. now rewrite EA.
    - cbn [app add_all] in *. destruct (s_add st s0 p) as (s1, [[]| |]); try discriminate. now apply IH. }
  cbn [dstep]. unfold d_compile. rewrite E, A. cbn [ends]. eexists. split; [reflexivity|]. rewrite drun_holds by exact F. reflexivity.
Qed.
End Any.
Print Assumptions c65_compiled_is_static.
Print Assumptions c65_uncompiled.
Print Assumptions c65_failed_compile_actual.

(** *** The network of this library *)
#[local] Existing Instance exTrans.
#[local] Existing Instance exLim.

(** Any engine would do. *)
Definition ex_edge := edge_net (T := Z) (fun s => s) (fun e => (0%Z, e)) (fun _ _ _ e => ((1%Z, None), e)) (fun _ => 0%Z)
  (fun e _ => e) (fun e _ _ _ => e).
Definition ex65_good : list (desc Z * actt) := [(DInput (2, 1, 1), ANone); (DDense (1, 1, 1), ALinear)].
Definition ex65_bad : list (desc Z * actt) :=
  [(DInput (2, 1, 1), ANone); (DDense (3, 1, 1), ALinear); (DInput (4, 1, 1), ANone); (DDense (1, 1, 1), ALinear)].
Definition ex65_in : dataset Z := ds_vec 0%Z [1; 2]%Z 2 1 [].
Definition ex65_data : dataset Z := ds_vec 0%Z [1; 2; 3]%Z 3 1 [2].
Definition ex65_args : fargs Z := mkFargs 1 1 1%Z 1%Z 1%Z 5.

(** "fit throws as long as compile has not been called" is false: predict compiles. *)
Theorem c65_fit_needs_compile_refuted : exists layers cs x p,
  Forall (fun c => ~ is_compile c) cs /\
  snd (dstep ex_edge (fst (drun ex_edge (dnew layers) cs)) (Fit x p)) <> OThrow.
Proof.
  exists ex65_good, [Predict ex65_in], ex65_data, ex65_args. split; [repeat constructor; cbn; auto|].
  assert (X : match snd (dstep ex_edge (fst (drun ex_edge (dnew ex65_good) [Predict ex65_in])) (Fit ex65_data ex65_args)) with
    OUnit => True | _ => False end) by (vm_compute; exact I).
  intros E. rewrite E in X. exact X.
Qed.
(** "After a compile that threw, the object is as before" is false: it was not compiled before,
    so fit threw and output_size threw; afterwards both work, on half of the network. *)
Theorem c65_failed_compile_refuted : exists layers l o i x p,
  let d' := fst (dstep ex_edge (dnew layers) (Compile l o i)) in
  snd (dstep ex_edge (dnew layers) (Compile l o i)) = OThrow /\
  snd (dstep ex_edge (dnew layers) (Fit x p)) = OThrow /\ snd (dstep ex_edge (dnew layers) OutputSize) = OThrow /\
  snd (dstep ex_edge d' OutputSize) = OSize 3 /\ snd (dstep ex_edge d' (Fit x p)) = OUnit.
Proof.
  exists ex65_bad, LtMSE, OGd, MXavier, (ds_vec 0%Z [1; 2; 3; 4; 5]%Z 5 1 [2; 3; 4]), ex65_args. cbv zeta.
  split; [vm_compute; reflexivity|]. split; [vm_compute; reflexivity|]. split; [vm_compute; reflexivity|].
  split; vm_compute; reflexivity.
Qed.
Print Assumptions c65_fit_needs_compile_refuted.
Print Assumptions c65_failed_compile_refuted.

(** A static network is made of [ex65_good]; [ex65_bad] is refused at its third descriptor. *)
Example c65_hypotheses_met :
  (exists s, construct ex_edge LtMSE MAuto ex65_good = RVal s) /\
  (exists s s', construct ex_edge LtMSE MAuto (firstn 2 ex65_bad) = RVal s /\ s_add ex_edge s (DInput (4, 1, 1), ANone) = (s', RThrow)) /\
  Forall (fun c => ~ is_compile c) [Fit ex65_data ex65_args; Predict ex65_in; OutputSize] /\
  Forall needs_compile [Fit ex65_data ex65_args; Evaluate ex65_data] /\
  match snd (drun ex_edge (dnew ex65_good) [Fit ex65_data ex65_args; Compile LtMSE OGd MXavier; Fit ex65_data ex65_args; InputSize;
      Predict ex65_in; Evaluate ex65_data]) with
  | [OThrow; OUnit; OUnit; OSize 2; OPredict _; OEvaluate _] => True
  | _ => False
  end.
Proof.
  split; [|split; [|split; [|split]]].
  - assert (X : match construct ex_edge LtMSE MAuto ex65_good with RVal _ => True | _ => False end) by (vm_compute; exact I).
    destruct (construct ex_edge LtMSE MAuto ex65_good) as [s| |]; try contradiction. now exists s.
  - assert (X : match construct ex_edge LtMSE MAuto (firstn 2 ex65_bad) with
      RVal s => match snd (s_add ex_edge s (DInput (4, 1, 1), ANone)) with RThrow => True | _ => False end | _ => False end) by (vm_compute; exact I).
    destruct (construct ex_edge LtMSE MAuto (firstn 2 ex65_bad)) as [s| |]; try contradiction.
    destruct (s_add ex_edge s (DInput (4, 1, 1), ANone)) as (s', r) eqn:E. cbn [snd] in X. destruct r; try contradiction. exists s, s'. auto.
  - repeat constructor; cbn; auto.
  - repeat constructor.
  - vm_compute. exact I.
Qed.
