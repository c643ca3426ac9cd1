(** C39: sequential training. *)
From Verif Require Import Base Num DatasetModel MathModel LayerModel LossModel OptModel GraphModel ModelModel NodeModel ChainProofs ModelProofs PropModel TrainProofs CopyModel FitModel.

(** What one call of run does, as a list of calls. *)
Inductive ev := EReset | EStep (i : nat) | ETrain.
Definition exec {M} (step : M -> nat -> res M) (reset train : M -> res M) (m : M) (e : ev) : res M :=
  match e with EReset => reset m | EStep i => step m i | ETrain => train m end.
Definition batch_calls (b : list nat) : list ev := EReset :: map EStep b ++ [ETrain].

(** Batches of [bs] rows, the last one possibly smaller, together the rows 0..size-1 in
    order. *)
Definition batches_of (size bs : nat) (bl : list (list nat)) : Prop :=
  concat bl = seq 0 size /\ Forall (fun b => 1 <= length b <= bs) bl /\
  Forall (fun b => length b = bs) (removelast bl).

Section Loop.
Context {M : Type} (step : M -> nat -> res M) (reset train : M -> res M).
Let run := foldM (exec step reset train).

Lemma batch_steps_spec size : forall b i m,
  batch_steps step b size i m
  = (m' <- run (map EStep (seq i (min b (size - i)))) m ;; Ok (m', i + min b (size - i))).
Proof.
  induction b as [|b IH]; intros i m.
  - cbn. now rewrite Nat.add_0_r.
  - cbn [batch_steps]. destruct (Nat.ltb_spec i size) as [Hi|Hi].
    + replace (min (S b) (size - i)) with (S (min b (size - S i))) by lia.
      cbn [seq map]. unfold run in *. cbn [foldM exec]. destruct (step m i) as [m'| |]; cbn [bind]; auto.
      rewrite IH. destruct (foldM _ _ m'); cbn [bind]; auto. do 2 f_equal. lia.
    + replace (min (S b) (size - i)) with 0 by lia. cbn. now rewrite Nat.add_0_r.
Qed.

(** The batches from row i on. *)
Fixpoint cut (fuel size bs i : nat) : list (list nat) :=
  match fuel with
  | O => []
  | S f => if i <? size then seq i (min bs (size - i)) :: cut f size bs (i + min bs (size - i)) else []
  end.

Lemma cut_spec size bs : 1 <= bs -> forall fuel i, size - i <= fuel -> i <= size ->
  concat (cut fuel size bs i) = seq i (size - i) /\
  Forall (fun b => 1 <= length b <= bs) (cut fuel size bs i) /\
  Forall (fun b => length b = bs) (removelast (cut fuel size bs i)).
Proof.
  intros Hb. induction fuel as [|fuel IH]; intros i Hf Hi.
  - replace (size - i) with 0 by lia. cbn. auto.
  - cbn [cut]. destruct (Nat.ltb_spec i size) as [Hs|Hs].
    + set (c := min bs (size - i)). destruct (IH (i + c)) as (A & B & C); [lia|lia|].
      cbn [concat]. rewrite A, <- seq_app. split; [f_equal; lia|]. split.
      * constructor; [rewrite seq_length; lia|exact B].
      * destruct (cut fuel size bs (i + c)) as [|b0 bl] eqn:EC; [constructor|].
        change (removelast (seq i c :: b0 :: bl)) with (seq i c :: removelast (b0 :: bl)).
        constructor; [|exact C]. rewrite seq_length. unfold c.
        destruct (Nat.le_gt_cases bs (size - i)); [lia|].
        exfalso. destruct fuel as [|fuel]; cbn [cut] in EC; [discriminate|].
        destruct (Nat.ltb_spec (i + c) size); [lia|discriminate].
    + replace (size - i) with 0 by lia. cbn. auto.
Qed.

Lemma cut_enough size bs : 1 <= bs -> forall f f' i, size - i <= f -> size - i <= f' ->
  cut f size bs i = cut f' size bs i.
Proof.
  intros Hb. induction f as [|f IH]; intros [|f'] i H1 H2; auto.
  - cbn [cut]. destruct (Nat.ltb_spec i size); [lia|reflexivity].
  - cbn [cut]. destruct (Nat.ltb_spec i size); [lia|reflexivity].
  - cbn [cut]. destruct (Nat.ltb_spec i size); [|reflexivity]. f_equal. apply IH; lia.
Qed.

Lemma epoch_spec size bs : 1 <= bs -> forall fuel i m, size - i <= fuel ->
  epoch step reset train fuel size bs i m = Some (run (flat_map batch_calls (cut fuel size bs i)) m).
Proof.
  intros Hb. induction fuel as [|fuel IH]; intros i m Hf.
  - cbn [epoch cut]. destruct (Nat.ltb_spec i size); [lia|]. reflexivity.
  - cbn [epoch cut]. destruct (Nat.ltb_spec i size) as [Hs|Hs]; [|reflexivity].
    cbn [flat_map]. unfold run in *. rewrite foldM_app. unfold batch_calls at 1. cbn [foldM exec].
    destruct (reset m) as [m1| |]; cbn [bind]; auto.
    rewrite batch_steps_spec, foldM_app. unfold run.
    destruct (foldM (exec step reset train) (map EStep (seq i (min bs (size - i)))) m1) as [m2| |]; cbn [bind]; auto.
    cbn [foldM exec]. destruct (train m2) as [m3| |]; cbn [bind]; auto.
    apply IH. lia.
Qed.
End Loop.

Theorem c39_sequential : forall size bs, 1 <= bs ->
  exists bl, batches_of size bs bl /\
  forall (M : Type) (step : M -> nat -> res M) (reset train : M -> res M) epochs fuel m, size <= fuel ->
    fit_run step reset train fuel epochs size bs m
    = Some (foldM (exec step reset train) (concat (repeat (flat_map batch_calls bl) epochs)) m).
Proof.
  intros size bs Hb. exists (cut size size bs 0). split.
  - destruct (cut_spec size bs Hb size 0) as (A & B & C); [lia|lia|]. rewrite Nat.sub_0_r in A. split; auto.
  - intros M step reset train epochs fuel m Hf. revert m.
    induction epochs as [|e IH]; intros m; [reflexivity|]. cbn [fit_run repeat concat].
    rewrite epoch_spec by lia. rewrite foldM_app. rewrite (cut_enough size bs Hb fuel size 0) by lia.
    destruct (foldM (exec step reset train) (flat_map batch_calls (cut size size bs 0)) m) as [m'| |]; cbn [bind]; auto.
Qed.
Print Assumptions c39_sequential.

(** The batches are determined by these conditions. *)
Theorem c39_batches_unique : forall size bs b1 b2, batches_of size bs b1 -> batches_of size bs b2 -> b1 = b2.
Proof.
  intros size bs b1 b2 (A1 & B1 & C1) (A2 & B2 & C2).
  assert (E : concat b1 = concat b2) by congruence. clear A1 A2.
  revert b2 E B2 C2. induction b1 as [|x b1 IH]; intros b2 E B2 C2.
  - destruct b2 as [|y b2]; [reflexivity|]. exfalso.
    assert (1 <= length y) by (inversion B2; lia). destruct y; [cbn in *; lia|discriminate].
  - assert (X : 1 <= length x <= bs /\ Forall (fun b => 1 <= length b <= bs) b1) by (inversion B1; auto).
    destruct b2 as [|y b2]; [exfalso; destruct X as ((X & _) & _); destruct x; [cbn in *; lia|discriminate]|].
    assert (Y : 1 <= length y <= bs /\ Forall (fun b => 1 <= length b <= bs) b2) by (inversion B2; auto).
    destruct X as (X & X'), Y as (Y & Y').
    assert (Q : forall (z : list nat) b, removelast (z :: b) = match b with [] => [] | _ => z :: removelast b end) by reflexivity.
    rewrite Q in C1, C2. cbn [concat] in E.
    assert (L : length x = length y).
    { destruct b1 as [|x1 b1], b2 as [|y1 b2].
      - cbn in E. rewrite !app_nil_r in E. now subst.
      - assert (length y = bs) by (inversion C2; auto).
        assert (1 <= length y1) by (inversion Y'; lia).
        apply (f_equal (@length _)) in E. cbn [concat] in E. rewrite !app_length in E. cbn in E. lia.
      - assert (length x = bs) by (inversion C1; auto).
        assert (1 <= length x1) by (inversion X'; lia).
        apply (f_equal (@length _)) in E. cbn [concat] in E. rewrite !app_length in E. cbn in E. lia.
      - assert (length x = bs) by (inversion C1; auto).
        assert (length y = bs) by (inversion C2; auto). lia. }
    assert (EE : x = y /\ concat b1 = concat b2).
    { clear - E L. revert y E L. induction x as [|a x IH]; intros [|c y] E L; try discriminate; [auto|].
      cbn in E. injection E as -> E. destruct (IH y E) as (-> & ->); [now injection L|auto]. }
    destruct EE as (-> & EE). f_equal. apply IH; auto.
    + destruct b1 as [|x1 b1]; [constructor|]. inversion C1; auto.
    + destruct b2 as [|y1 b2]; [constructor|]. inversion C2; auto.
Qed.
Print Assumptions c39_batches_unique.

(** batch_size 0: with data, the loop never ends (as long as reset_score and train do not
    fail); without data nothing is done, whatever the batch size. *)
Theorem c39_batch_zero : forall (M : Type) (P : M -> Prop) (step : M -> nat -> res M) (reset train : M -> res M) size epochs m,
  (forall m, P m -> exists m', reset m = Ok m' /\ P m') ->
  (forall m, P m -> exists m', train m = Ok m' /\ P m') ->
  P m -> 0 < size -> 0 < epochs -> forall fuel, fit_run step reset train fuel epochs size 0 m = None.
Proof.
  intros M P step reset train size epochs m HR HT Hm Hs He fuel.
  assert (G : forall fuel m, P m -> epoch step reset train fuel size 0 0 m = None).
  { clear m Hm fuel. induction fuel as [|fuel IH]; intros m Hm; cbn [epoch].
    - destruct (Nat.ltb_spec 0 size); [reflexivity|lia].
    - destruct (Nat.ltb_spec 0 size); [|lia]. destruct (HR m Hm) as (m1 & E1 & P1). rewrite E1. cbn [bind batch_steps].
      destruct (HT m1 P1) as (m2 & E2 & P2). rewrite E2. cbn [bind]. apply IH. exact P2. }
  destruct epochs as [|e]; [lia|]. cbn [fit_run]. now rewrite G.
Qed.
Print Assumptions c39_batch_zero.

Theorem c39_no_data : forall (M : Type) (step : M -> nat -> res M) (reset train : M -> res M) fuel epochs bs m,
  fit_run step reset train fuel epochs 0 bs m = Some (Ok m).
Proof.
  intros M step reset train fuel epochs bs m. induction epochs as [|e IH]; [reflexivity|].
  cbn [fit_run]. destruct fuel; exact IH.
Qed.
Print Assumptions c39_no_data.

(** For networks and gradient descent: never ends with batch_size 0. *)
Theorem c39_network_batch_zero : forall T (NT : NumOps T) (TT : TransOps T) (LT : LimOps T) draw eta (d : dataset T)
    (m : model (node T)) ls kd lo n k epochs,
  network m ls kd lo n k -> 0 < ds_size d -> 0 < epochs ->
  forall fuel, fit_sequential draw eta d fuel epochs 0 m = None.
Proof.
  intros T NT TT LT draw eta d m ls kd lo n k epochs W Hd He. unfold fit_sequential.
  apply (c39_batch_zero _ (fun m => exists ls lo, network m ls kd lo n k)); auto.
  - intros m0 (l0 & o0 & W0).
    assert (E : exists m', m_reset_score m0 = Ok m').
    { unfold m_reset_score. rewrite (ic_losses _ _ _ (nw_graph _ _ _ _ _ _ W0)). cbn [foldM].
      pose proof (network_length _ _ _ _ _ _ W0) as L. rewrite (ic_nodes _ _ _ (nw_graph _ _ _ _ _ _ W0)) in L.
      unfold rd, wr. destruct (nth_error (mnodes m0) (length l0)) as [(s, p)|] eqn:EN.
      - cbn [bind]. destruct (Nat.ltb_spec (length l0) (length (mnodes m0))); [|lia]. cbn [bind]. eauto.
      - apply nth_error_None in EN. lia. }
    destruct E as (m' & E). exists m'. split; [exact E|].
    destruct (network_call draw m0 l0 kd o0 n k CReset m' W0 I E) as (l1 & o1 & W1 & _). eauto.
  - intros m0 (l0 & o0 & W0). destruct (network_train eta m0 l0 kd o0 n k W0) as (m' & E & _ & W1). eauto.
  - eauto.
Qed.
Print Assumptions c39_network_batch_zero.

(** Seven rows in batches of three, two epochs, and a network with data to diverge on. *)
Example c39_batches_example : batches_of 7 3 [[0; 1; 2]; [3; 4; 5]; [6]].
Proof. split; [reflexivity|]. split; repeat constructor. Qed.
Example c39_run_example :
  fit_run (fun m i => Ok (m ++ [EStep i])) (fun m => Ok (m ++ [EReset])) (fun m => Ok (m ++ [ETrain])) 7 2 4 3 []
  = Some (Ok [EReset; EStep 0; EStep 1; EStep 2; ETrain; EReset; EStep 3; ETrain;
              EReset; EStep 0; EStep 1; EStep 2; ETrain; EReset; EStep 3; ETrain]).
Proof. reflexivity. Qed.
Example c39_network_hypotheses_met : exists m : model (node Z), exists d : dataset Z,
  network m ex_layers (MSE 1%Z) (loss_new 3 1) 2 3 /\ ds_size d = 2.
Proof.
  destruct ex_network as (m & _ & _ & _ & W). exists m. exists (DS [1; 2; 6; 10; 0; 1; 2; 6; 10; 0]%Z 5 1 10 2 2 [2; 3; 4] [0; 1]).
  split; [exact W|reflexivity].
Qed.
