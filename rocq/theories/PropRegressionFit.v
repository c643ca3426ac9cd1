(** C80, from the layer list: compile, fit and predict of a network with one dense layer. *)
From Coq Require Import Reals Lra.
From Verif Require Import Base Num RSum DatasetModel DatasetSpec DatasetProofs MathModel MathProofs LayerModel LossModel LossSpec PropLoss OptModel GraphModel GraphProofs ModelModel NodeModel
  BuilderModel ChainProofs ModelProofs PropModel TrainProofs RecurrentModel CopyModel FnnModel FitModel PropFit PropStep PropFnn PropBuilder InitModel PropInit PropTraining DynModel PropDyn PropWhole
  PropDescent PropRegression.
Local Open Scope R_scope.

Section Fitted.
Context {E : Type}.
Variable start : Z -> E.
Variable next : E -> Z * E.
Variable normal : R -> R -> option R -> E -> (R * option R) * E.
Variable draw : nat -> R.
Variable left_predict : edge R -> dataset R -> edge R.
Variable left_fit : edge R -> optt -> dataset R -> fargs R -> edge R.
Notation net := (edge_net start next normal draw left_predict left_fit).

(** fit: initialisation, the same whatever the number of epochs, then the batches. *)
Lemma fit_starts kd mi eta d fuel batch seed device (m : model (node R)) ls n k :
  plain m ls n k -> Forall fresh ls -> (1 <= batch)%nat ->
  exists m0 ls0 lo0, network m0 ls0 kd lo0 n k /\
    all_initialised next normal mi Normal (start (if Z.eq_dec seed 0 then device else seed)) ls ls0 /\
    ls_in lo0 = k /\ ls_inv lo0 = 1 / INR batch /\ Forall cleared ls0 /\ map knd ls0 = map knd ls /\
    forall epochs, fnn_fit start next normal draw kd mi eta d fuel epochs batch seed device m = fit_sequential draw eta d fuel epochs batch m0.
Proof.
  intros P F Hb. destruct (fit_losses_plain kd batch m ls n k P) as (ml & EL & WL).
  destruct (m_init_network start next normal mi Normal seed device ml ls kd (loss_new k batch) n k WL) as (m0 & ls0 & I0 & V0 & Q0).
  exists m0, ls0, (loss_new k batch). split; [exact V0|]. split; [exact Q0|]. split; [reflexivity|]. split.
  { cbn [loss_new ls_inv ndiv n1 NumR]. rewrite Nat.max_l by exact Hb. unfold nofnat. cbn [nofZ NumR]. now rewrite <- INR_IZR_INZ. }
  destruct Q0 as (L & Q0).
  assert (K : forall i l l', nth_error ls i = Some l -> nth_error ls0 i = Some l' -> knd l' = knd l /\ cleared l').
  { intros i l l' El El'. destruct (Q0 i l El) as (l1 & El1 & X & Y). rewrite El' in El1. injection El1 as <-.
    pose proof (proj1 (Forall_forall _ _) F l (nth_error_In _ _ El)) as G. unfold fresh, cleared in *. destruct (knd l) as [|a] eqn:Kn.
    - destruct (X eq_refl) as (X1 & X2 & X3 & X4 & _). rewrite X1, X3, X4. destruct G as (-> & ->). split; [congruence|].
      intros _. split; intros p; apply nth_repeat.
    - rewrite (Y ltac:(discriminate)), Kn. split; [reflexivity|discriminate]. }
  split.
  { apply Forall_forall. intros l' Hl'. apply In_nth_error in Hl'. destruct Hl' as (i & El').
    destruct (nth_error ls i) as [l|] eqn:El; [exact (proj2 (K i l l' El El'))|].
    apply nth_error_None in El. assert (i < length ls0)%nat by (apply nth_error_Some; congruence). lia. }
  split.
  { clear - L K. revert ls0 L K. induction ls as [|l ls IH]; intros [|l0 ls0] L K; cbn [length] in L; try lia; [reflexivity|].
    cbn [map]. f_equal; [exact (proj1 (K 0%nat l l0 eq_refl eq_refl))|]. apply IH; [lia|]. intros i. exact (K (S i)). }
  intros epochs. unfold fnn_fit. rewrite (ready_some kd batch m ls n k) by (now left). cbn [negb guard bind]. rewrite EL. cbn [bind].
  rewrite I0. reflexivity.
Qed.

(** Any layer list Input, Dense with linear activation; mean squared error and gradient descent;
    a batch at least as large as the data; a rate of at most the inverse of
    2 / batch * (squared length of the rows). Whatever was called before, compile and fit succeed,
    and the network then answers with an affine map. There is a best affine fit, and enough
    epochs bring the squared error within any given distance of the best one, and the answers on
    the training rows within that distance of the best fit's. *)
Theorem c80_end_to_end : forall s a0 u before mi (d : dataset R) rows batch eta seed device fuel,
  let n := ssize s in let k := ssize u in
  (0 < k)%nat -> rows_fit d n k rows -> (1 <= ds_size d <= batch)%nat -> (ds_size d <= fuel)%nat ->
  0 < eta -> eta * (2 / INR batch * extent n rows) <= 1 ->
  exists w1 b1, best_fit n k rows w1 b1 /\
  forall eps, 0 < eps -> exists N, forall epochs, (N <= epochs)%nat -> exists w b d' os,
    drun net (dnew [(DInput s, a0); (DDense u, ALinear)]) (before ++ [Compile LtMSE OGd mi; Fit d (mkFargs epochs batch eta seed device fuel)])
      = (d', os ++ [OUnit; OUnit]) /\
    (forall x, wf x -> fsize x = n -> exists d'' r, dstep net d' (Predict x) = (d'', OPredict r) /\ ds_size r = ds_size x /\
       forall i, (i < ds_size x)%nat -> exists xi, ds_entry x i = Ok xi /\ ds_entry r i = Ok (affine n k w b xi)) /\
    misfit n k w b rows < misfit n k w1 b1 rows + eps /\ apart n k rows w b w1 b1 < eps.
Proof.
  intros s a0 u before mi d rows batch eta seed device fuel n k Hk HR Hs Hf He HL.
  set (ds := [(DDense u, ALinear)] : list (desc R * actt)).
  assert (HD : all_dense ds). { constructor; [|constructor]. exists u. split; [reflexivity|discriminate]. }
  destruct (c66_built start next normal draw left_predict left_fit LtMSE mi s a0 ds HD ltac:(discriminate)) as (e & EC & EB & EL & EI & PL & _ & _).
  change (last_units (ssize s) ds) with k in PL. fold n in PL.
  pose proof (stack_fresh ds HD n) as FR. set (ls := dense_stack n ds) in *.
  destruct (fit_starts (MSE (1 / 10)) mi eta d fuel batch seed device (e_model e) ls n k PL FR ltac:(lia))
    as (m0 & ls0 & lo0 & W0 & _ & I0 & V0 & C0 & KN & EF).
  assert (RG : regression ls (dense_new n k)). { eexists. split; [reflexivity|]. split; [reflexivity|]. repeat constructor. }
  destruct (regression_kinds ls _ ls0 RG KN) as (l0 & G0).
  assert (PB : 0 < INR batch) by (apply lt_0_INR; lia).
  assert (HI : 0 < ls_inv lo0). { rewrite V0. apply Rdiv_lt_0_compat; lra. }
  assert (HL' : eta * (2 * ls_inv lo0 * extent n rows) <= 1). { rewrite V0. replace (2 * (1 / INR batch)) with (2 / INR batch) by (field; lra). exact HL. }
  destruct (c80_converges draw (1 / 10) eta m0 ls0 l0 lo0 n k d rows batch fuel W0 G0 Hk I0 HI C0 (proj1 HR) (proj2 HR) Hs Hf He HL')
    as (w1 & b1 & BF & CV).
  exists w1, b1. split; [exact BF|]. intros eps Heps. destruct (CV eps Heps) as (N & HN). exists N. intros epochs HE.
  destruct (HN epochs HE) as (m' & w & b & Efit & PR & _ & MF & AP). rewrite <- EF in Efit.
  set (p := mkFargs epochs batch eta seed device fuel).
  destruct (fit_rested start next normal draw (MSE (1 / 10)) mi eta d fuel epochs batch
     seed device (e_model e) m' ls n k (or_introl PL) FR (rows_fit_sized d n k rows HR) Efit)
     as (ls' & lo' & W' & _).
  destruct (c42_loss _ _ EB ltac:(cbn [body]; cbn; lia)) as (f' & last & EAL & _).
  set (e' := e_with e (f_layers f') m').
  assert (EFit : e_fit start next normal draw left_fit e OGd d p = (e', RVal tt)).
  { unfold e_fit. rewrite EL, EI, EAL. change (loss_of LtMSE) with (@MSE R (1 / 10)).
    change (fnn_fit_with start next normal draw OGd) with (fnn_fit start next normal draw). unfold p. cbn [fa_epochs fa_batch fa_eta fa_seed fa_device fa_fuel].
    rewrite Efit. reflexivity. }
  set (db := drun net (dnew ((DInput s, a0) :: ds)) before).
  exists w, b, (mkDnet (Some e') ((DInput s, a0) :: ds) OGd LtMSE), (snd db).
  assert (EM : e_model e' = m') by (destruct m'; reflexivity).
  split; [|split; [|auto]].
  - rewrite drun_app. fold ds. fold db. fold p.
    assert (X : drun net (fst db) [Compile LtMSE OGd mi; Fit d p] =
      (mkDnet (Some e') ((DInput s, a0) :: ds) OGd LtMSE, [OUnit; OUnit])).
    { cbn [drun]. cbn [dstep]. unfold d_compile. unfold db. rewrite drun_layers. cbn [dnew d_layers].
      unfold construct in EC. destruct (add_all net (s_new net LtMSE mi) ((DInput s, a0) :: ds)) as (e1, [[]| |]) eqn:EA; try discriminate.
      injection EC as ->. rewrite ?EA. cbn [ends nothing d_model d_opt s_fit edge_net]. rewrite EFit. reflexivity. }
    rewrite X. reflexivity.
  - intros x Wx Fx. destruct (c41_predict draw m' ls' [NO (MSE (1 / 10)) lo'] n k x (network_stack _ _ _ _ _ _ W') Hk Wx (fun _ => Fx))
      as (m2 & ls2 & r & EP & Wr & SR & RW & _).
    cbn [dstep]. unfold compiled. cbn [d_model s_predict edge_net]. unfold e_predict. rewrite EM, EP. cbn [ends].
    do 2 eexists. split; [reflexivity|]. split; [exact SR|]. intros i Hi. destruct (RW i Hi) as (xi & y & m3 & X1 & X2 & X3 & Ly).
    exists xi. split; [exact X1|]. rewrite X3. f_equal.
    assert (Lx : length xi = n).
    { unfold ds_size in Hi. pose proof (wf_data x Wx) as L. unfold ds_entry, range_copy in X1.
      destruct (Nat.leb_spec (famount x) i); [lia|].
      destruct (_ && _) eqn:EB2 in X1; [|discriminate]. cbn [require bind] in X1. injection X1 as <-.
      apply andb_true_iff in EB2. destruct EB2 as (_ & EB2). apply Nat.leb_le in EB2.
      rewrite firstn_length, skipn_length. lia. }
    destruct (PR xi Lx) as (m4 & E4). rewrite E4 in X2. now injection X2.
Qed.
End Fitted.
Print Assumptions c80_end_to_end.

(** Two inputs, one output, two rows, rate 1/100. *)
Example c80_end_to_end_met : (0 < ssize (1, 1, 1)%nat)%nat /\ rows_fit ex66_data (ssize (2, 1, 1)%nat) (ssize (1, 1, 1)%nat) [([1; 2], [3]); ([4; 5], [6])] /\
  ds_size ex66_data = 2%nat /\ 1 / 100 * (2 / INR 2 * extent (ssize (2, 1, 1)%nat) [([1; 2], [3]); ([4; 5], [6])]) <= 1.
Proof.
  destruct c66_hypotheses_met as (_ & _ & _ & _ & _ & RF & DS & _).
  split; [cbn; lia|]. split; [exact RF|]. split; [exact DS|]. unfold extent, sum. cbn. lra.
Qed.
