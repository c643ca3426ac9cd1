(** C12, C13: the thread versions of the dense kernels, over every interleaving. *)
From Verif Require Import Base Num RSum MathModel MathProofs Conc ThreadModel ThreadProofs.
From Coq Require Import Reals Lra FunctionalExtensionality.

(** C12. In every interleaving no access is out of range, the execution cannot get stuck and
    is finite, and when all tasks are done the output array is the one the sequential kernel
    leaves, and no other array has changed. Any number type. *)
Theorem c12_dense_thread_opt :
  forall (T : Type) (NT : NumOps T) (d0 : T) (dst src w bias : list T) inp out,
    out <= length dst -> out * inp <= length w -> inp <= length src -> out <= length bias ->
    let arrs := fwd_arrs dst src w bias in
    let sz a := length (arrs a) in
    let m0 := mem_of d0 arrs in
    exists r, dense dst src w bias inp out = Ok r /\
      (forall ps m, csteps sz (dense_tasks inp out, m0) (ps, m) ->
        ~ ub_state sz (ps, m) /\
        (all_done ps \/ exists s', cstep sz (ps, m) s') /\
        (all_done ps ->
          array_of m DST (length dst) = r /\ array_of m SRC (length src) = src /\
          array_of m WTS (length w) = w /\ array_of m BIAS (length bias) = bias)) /\
      (forall k s', nsteps sz k (dense_tasks inp out, m0) s' -> k <= out * (2 + 4 * inp)).
Proof.
  intros T NT d0 dst src w bias inp out Hd Hw Hs Hb arrs sz m0.
  eexists. split; [apply (dense_spec d0); auto|]. split.
  2:{ intros k s'. now apply fwd_steps_bound. }
  intros ps m Hst.
  pose proof (fwd_inv d0 dst src w bias inp out Hd Hw Hs Hb) as I0.
  pose proof (inv_steps _ _ _ _ _ I0 Hst) as I1.
  pose proof (inv_no_ub _ _ _ _ I1) as N.
  split; [exact N|]. split; [apply progress; [exact N|apply inr_dec]|].
  intros Hdone.
  pose proof (inv_const _ _ _ _ _ I0 Hst) as Hc. cbn [snd] in Hc.
  assert (Hlen : length ps = out).
  { clear - Hst. remember (dense_tasks inp out, m0) as s0. remember (ps, m) as s1.
    assert (G : length (fst s1) = length (fst s0)).
    { clear Heqs0 Heqs1. induction Hst as [|s1 s2 s3 H1 IH H2]; auto.
      inversion H2; subst. cbn [fst] in *. now rewrite upd_length. }
    subst. cbn [fst] in G. rewrite G. apply tab_length. }
  assert (K : forall a l, fwd_arrs dst src w bias a = l -> a <> 0 -> array_of m a (length l) = l).
  { intros a l E Ha. subst l. apply (list_ext_nth d0); [apply tab_length|].
    intros i Hi. unfold array_of in *. rewrite tab_length in Hi. rewrite nth_tab by auto.
    rewrite Hc; [reflexivity|]. unfold fwd_cls. cbn [fst]. destruct a; [contradiction|reflexivity]. }
  split; [|repeat split; apply K; auto; discriminate].
  apply (list_ext_nth d0).
  { unfold array_of. rewrite app_length, !tab_length, skipn_length. lia. }
  unfold array_of. rewrite tab_length. intros i Hi. rewrite nth_tab by auto.
  destruct (Nat.lt_ge_cases i out) as [Hlt|Hge].
  - rewrite app_nth1, nth_tab by (rewrite ?tab_length; auto).
    rewrite (inv_final _ _ _ _ _ I1 Hdone i (DST, i)); [reflexivity|lia|].
    unfold fwd_cls, DST. cbn [fst snd]. destruct (Nat.ltb_spec i out); [reflexivity|lia].
  - rewrite app_nth2, tab_length, nth_skipn_add by (rewrite tab_length; auto).
    rewrite Hc.
    + unfold m0, mem_of, DST. cbn. f_equal. lia.
    + unfold fwd_cls, DST. cbn [fst snd]. destruct (Nat.ltb_spec i out); [lia|reflexivity].
Qed.
Print Assumptions c12_dense_thread_opt.

(** A complete run with two tasks that really interleaves: the tasks alternate. *)
Fixpoint run_sched {T} (sched : list nat) (ps : list (prog T)) (m : cmem T) : list (prog T) * cmem T :=
  match sched with
  | [] => (ps, m)
  | i :: r =>
      match nth_error ps i with
      | Some (Load l k) => run_sched r (upd ps i (k (m l))) m
      | Some (Store l v p) => run_sched r (upd ps i p) (cset m l v)
      | _ => run_sched r ps m
      end
  end.

Lemma csteps_trans {T} sz (s1 s2 s3 : list (prog T) * cmem T) :
  csteps sz s1 s2 -> csteps sz s2 s3 -> csteps sz s1 s3.
Proof. intros H1 H2. induction H2 as [|a b c Hab IH Hbc]; [exact H1|]. eapply css_step; [apply IH; exact H1|exact Hbc]. Qed.

(** Schedules are executions when no access is out of range. *)
Fixpoint sched_ok {T} (sz : nat -> nat) (sched : list nat) (ps : list (prog T)) (m : cmem T) : bool :=
  match sched with
  | [] => true
  | i :: r =>
      match nth_error ps i with
      | Some (Load l k) => (snd l <? sz (fst l)) && sched_ok sz r (upd ps i (k (m l))) m
      | Some (Store l v p) => (snd l <? sz (fst l)) && sched_ok sz r (upd ps i p) (cset m l v)
      | _ => sched_ok sz r ps m
      end
  end.

Lemma run_sched_csteps {T} sz sched : forall (ps : list (prog T)) m,
  sched_ok sz sched ps m = true -> csteps sz (ps, m) (run_sched sched ps m).
Proof.
  induction sched as [|i r IH]; intros ps m Hok; cbn [run_sched sched_ok] in *; [constructor|].
  destruct (nth_error ps i) as [[|l k|l v p]|] eqn:En; auto.
  - apply andb_prop in Hok. destruct Hok as (H1 & H2). apply Nat.ltb_lt in H1.
    eapply csteps_trans; [|apply IH; exact H2].
    econstructor; [constructor|]. econstructor; [exact En|]. now constructor.
  - apply andb_prop in Hok. destruct Hok as (H1 & H2). apply Nat.ltb_lt in H1.
    eapply csteps_trans; [|apply IH; exact H2].
    econstructor; [constructor|]. econstructor; [exact En|]. now constructor.
Qed.

Fixpoint alternate (n : nat) : list nat := match n with O => [] | S n => 0 :: 1 :: alternate n end.

Example c12_two_tasks_alternating :
  let arrs := fwd_arrs [0; 0; 9]%Z [1; 2]%Z [10; 20; 30; 40]%Z [5; 6]%Z in
  let sz a := length (arrs a) in
  exists ps m, csteps sz (dense_tasks 2 2, mem_of 0%Z arrs) (ps, m) /\ all_done ps /\
    array_of m DST 3 = [55; 116; 9]%Z.
Proof.
  intros arrs sz.
  exists (fst (run_sched (alternate 10) (dense_tasks 2 2) (mem_of 0%Z arrs))).
  exists (snd (run_sched (alternate 10) (dense_tasks 2 2) (mem_of 0%Z arrs))).
  split; [|split].
  - rewrite <- surjective_pairing. apply run_sched_csteps. reflexivity.
  - repeat constructor.
  - reflexivity.
Qed.

(** C13, what holds: in every interleaving no access is out of range, execution is finite and
    never stuck, the weight and bias gradients end as the sequential kernel leaves them, and
    so do the input gradients when there is a single output. *)
Theorem c13_parameter_gradients_partial :
  forall (T : Type) (NT : NumOps T) (d0 : T) (ig wg bg g last w : list T) inp out,
    inp <= length ig -> out * inp <= length wg -> out <= length bg ->
    out <= length g -> inp <= length last -> out * inp <= length w ->
    let arrs := bwd_arrs ig wg bg g last w inp in
    let sz a := length (arrs a) in
    let m0 := mem_of d0 arrs in
    exists ig' wg' bg', dense_1 ig wg bg g last w inp out = Ok (ig', wg', bg') /\
      (forall ps m, csteps sz (dense_1_tasks inp out, m0) (ps, m) ->
        ~ ub_state sz (ps, m) /\
        (all_done ps \/ exists s', cstep sz (ps, m) s') /\
        (all_done ps ->
          array_of m WG (length wg) = wg' /\ array_of m BG (length bg) = bg' /\
          (out = 1 -> array_of m IG (length ig) = ig'))) /\
      (forall k s', nsteps sz k (dense_1_tasks inp out, m0) s' -> k <= out * (3 + 8 * inp)).
Proof.
  intros T NT d0 ig wg bg g last w inp out Hig Hwg Hbg Hg Hx Hw arrs sz m0.
  destruct (dense_1_spec d0 ig wg bg g last w inp out Hig Hwg Hbg Hg Hx Hw)
    as (ig' & wg' & bg' & E & L1 & L2 & L3 & V1 & V2 & V2' & V3).
  exists ig', wg', bg'. split; [exact E|]. split.
  2:{ intros k s'. now apply bwd_steps_bound. }
  intros ps m Hst.
  pose proof (bwd_inv d0 ig wg bg g last w inp out Hig Hwg Hbg Hg Hx Hw) as I0.
  pose proof (inv_steps _ _ _ _ _ I0 Hst) as I1.
  pose proof (inv_no_ub _ _ _ _ I1) as N.
  split; [exact N|]. split; [apply progress; [exact N|apply inr_dec]|].
  intros Hdone.
  pose proof (inv_const _ _ _ _ _ I0 Hst) as Hc. cbn [snd] in Hc.
  assert (Hlen : length ps = out).
  { clear - Hst. remember (dense_1_tasks inp out, m0) as s0. remember (ps, m) as s1.
    assert (G : length (fst s1) = length (fst s0)).
    { clear Heqs0 Heqs1. induction Hst as [|s1 s2 s3 H1 IH H2]; auto.
      inversion H2; subst. cbn [fst] in *. now rewrite upd_length. }
    subst. cbn [fst] in G. rewrite G. apply tab_length. }
  pose proof (inv_final _ _ _ _ _ I1 Hdone) as Hf. rewrite Hlen in Hf.
  split; [|split].
  - apply (list_ext_nth d0); unfold array_of; rewrite tab_length; [auto|].
    intros i Hi. rewrite nth_tab by auto.
    destruct (Nat.lt_ge_cases i (out * inp)) as [Hlt|Hge].
    + assert (Hn : inp <> 0) by nia.
      assert (Hq : i / inp < out) by (apply Nat.div_lt_upper_bound; lia).
      assert (Hr : i mod inp < inp) by (apply Nat.mod_upper_bound; auto).
      assert (Ei : i = i / inp * inp + i mod inp).
      { rewrite (Nat.div_mod i inp) at 1 by auto. lia. }
      rewrite (Hf (i / inp) (WG, i)); [|auto|].
      * unfold bwd_E, WG. cbn [fst snd].
        rewrite Ei at 4. rewrite V2 by auto. rewrite <- Ei. reflexivity.
      * unfold bwd_cls, WG. cbn [fst snd]. destruct (Nat.ltb_spec i (out * inp)); [reflexivity|lia].
    + rewrite V2' by auto. rewrite Hc; [reflexivity|].
      unfold bwd_cls, WG. cbn [fst snd]. destruct (Nat.ltb_spec i (out * inp)); [lia|reflexivity].
  - apply (list_ext_nth d0); unfold array_of; rewrite tab_length; [auto|].
    intros i Hi. rewrite nth_tab by auto. rewrite V3.
    destruct (Nat.ltb_spec i out) as [Hlt|Hge].
    + rewrite (Hf i (BG, i)); [reflexivity|auto|].
      unfold bwd_cls, BG. cbn [fst snd]. destruct (Nat.ltb_spec i out); [reflexivity|lia].
    + rewrite Hc; [reflexivity|].
      unfold bwd_cls, BG. cbn [fst snd]. destruct (Nat.ltb_spec i out); [lia|reflexivity].
  - intros E1. apply (list_ext_nth d0); unfold array_of; rewrite tab_length; [auto|].
    intros i Hi. rewrite nth_tab by auto. rewrite V1.
    destruct (Nat.ltb_spec i inp) as [Hlt|Hge].
    + rewrite (Hf 0 (IG, i)); [|lia|].
      * unfold bwd_E, IG. cbn [fst snd]. rewrite E1. reflexivity.
      * unfold bwd_cls, IG. cbn [fst snd]. destruct (Nat.ltb_spec i inp); [|lia].
        now rewrite E1.
    + rewrite Hc.
      * unfold m0, mem_of, IG. cbn [fst snd arrs bwd_arrs].
        unfold arrs, bwd_arrs. rewrite app_nth2, tab_length, nth_skipn_add by (rewrite tab_length; auto).
        f_equal. lia.
      * unfold bwd_cls, IG. cbn [fst snd]. destruct (Nat.ltb_spec i inp); [lia|reflexivity].
Qed.
Print Assumptions c13_parameter_gradients_partial.

(** C13 as stated is false: two tasks load the same input gradient before either stores, and
    one contribution is lost. Sequential: 5; here: 3. *)
Theorem c13_input_gradients_refuted :
  exists (ig wg bg g last w : list Z) inp out ps m ig' wg' bg',
    let arrs := bwd_arrs ig wg bg g last w inp in
    let sz a := length (arrs a) in
    inp <= length ig /\ out * inp <= length wg /\ out <= length bg /\
    out <= length g /\ inp <= length last /\ out * inp <= length w /\
    dense_1 ig wg bg g last w inp out = Ok (ig', wg', bg') /\
    csteps sz (dense_1_tasks inp out, mem_of 0%Z arrs) (ps, m) /\ all_done ps /\
    array_of m IG (length ig) <> ig'.
Proof.
  pose (arrs := bwd_arrs [0]%Z [0; 0]%Z [0; 0]%Z [1; 1]%Z [7]%Z [2; 3]%Z 1).
  exists [0]%Z, [0; 0]%Z, [0; 0]%Z, [1; 1]%Z, [7]%Z, [2; 3]%Z, 1, 2.
  exists (fst (run_sched (alternate 11) (dense_1_tasks 1 2) (mem_of 0%Z arrs))).
  exists (snd (run_sched (alternate 11) (dense_1_tasks 1 2) (mem_of 0%Z arrs))).
  exists [5]%Z, [7; 7]%Z, [1; 1]%Z.
  cbv zeta. do 6 (split; [cbn; lia|]). split; [reflexivity|]. split; [|split].
  - rewrite <- surjective_pairing. apply run_sched_csteps. reflexivity.
  - repeat constructor.
  - change (array_of _ _ _) with [3]%Z. discriminate.
Qed.
Print Assumptions c13_input_gradients_refuted.

(** C13 with indivisible increments: if no task's [input_gradients\[j\] += v] is split by
    another task, then over the reals all three gradients are the sequential ones, in every
    such interleaving. *)
Lemma asteps_csteps {T} sz (s s' : list (prog T) * cmem T) : asteps sz s s' -> csteps sz s s'.
Proof.
  intros Hs. induction Hs as [|s ps i p p' m m' H1 IH Hn Hp Hl|s ps i p p1 p2 m m1 m2 H1 IH Hn Hl Hp1 Hp2].
  - constructor.
  - econstructor; [exact IH|]. econstructor; eauto.
  - assert (i < length ps) by (apply nth_error_Some; congruence).
    replace (upd ps i p2) with (upd (upd ps i p1) i p2) by apply upd_upd.
    econstructor; [econstructor; [exact IH|]|].
    + econstructor; eauto.
    + econstructor; [|exact Hp2]. rewrite nth_error_upd, Nat.eqb_refl.
      destruct (Nat.ltb_spec i (length ps)); [reflexivity|lia].
Qed.

Lemma fold_tab_Rsum n (f : nat -> R) : fold_right Rplus 0%R (tab n f) = Rsum n f.
Proof.
  induction n as [|n IH]; [reflexivity|].
  unfold tab in *. rewrite seq_S, map_app, fold_right_app. cbn [map fold_right plus].
  cbn [Rsum]. rewrite <- IH, Rplus_0_r.
  generalize (map f (seq 0 n)). induction l as [|h t IHl]; cbn [fold_right]; [ring|].
  rewrite IHl. ring.
Qed.

Lemma dense_1_adder inp out (ig wg bg g last w : list R) o : o < out ->
  let m0 := mem_of 0%R (bwd_arrs ig wg bg g last w inp) in
  adder m0 (dense_1_task inp o)
    (fun j => if j <? inp then (nth o g 0 * nth (o * inp + j) w 0)%R else 0%R).
Proof.
  intros Ho m0. unfold dense_1_task.
  apply ad_const; [auto|]. unfold incr. apply ad_load; [auto|]. intros v. apply ad_store; [auto|].
  assert (G : forall n j, j + n = inp -> adder m0 (dense_1_task_loop inp o n j)
    (fun i => if (j <=? i) && (i <? inp) then (nth o g 0 * nth (o * inp + i) w 0)%R else 0%R)).
  { induction n as [|n IH]; intros j Hj; cbn [dense_1_task_loop].
    - replace (fun i => _) with (fun _ : nat => 0%R); [constructor|].
      extensionality i. destruct (Nat.leb_spec j i), (Nat.ltb_spec i inp); auto; lia.
    - apply ad_const; [auto|]. apply ad_const; [auto|]. unfold incr at 1.
      apply ad_load; [auto|]. intros v'. apply ad_store; [auto|].
      apply ad_const; [auto|]. apply ad_const; [auto|].
      eapply ad_incr; [apply IH; lia|].
      intros i. unfold m0, mem_of, GRAD, WTS. cbn [fst snd bwd_arrs nmul NumR].
      destruct (Nat.eqb_spec i j) as [->|Hne].
      + destruct (Nat.leb_spec j j), (Nat.ltb_spec j inp), (Nat.leb_spec (S j) j); cbn; try lia; ring.
      + destruct (Nat.leb_spec j i), (Nat.leb_spec (S j) i); cbn; auto; lia. }
  replace (fun j => _) with (fun i : nat => if (0 <=? i) && (i <? inp) then (nth o g 0 * nth (o * inp + i) w 0)%R else 0%R).
  - apply G. lia.
  - reflexivity.
Qed.

Theorem c13_indivisible_increments :
  forall (ig wg bg g last w : list R) inp out,
    inp <= length ig -> out * inp <= length wg -> out <= length bg ->
    out <= length g -> inp <= length last -> out * inp <= length w ->
    let arrs := bwd_arrs ig wg bg g last w inp in
    let sz a := length (arrs a) in
    let m0 := mem_of 0%R arrs in
    exists ig' wg' bg', dense_1 ig wg bg g last w inp out = Ok (ig', wg', bg') /\
      forall ps m, asteps sz (dense_1_tasks inp out, m0) (ps, m) -> all_done ps ->
        array_of m IG (length ig) = ig' /\ array_of m WG (length wg) = wg' /\
        array_of m BG (length bg) = bg'.
Proof.
  intros ig wg bg g last w inp out Hig Hwg Hbg Hg Hx Hw arrs sz m0.
  destruct (c13_parameter_gradients_partial R NumR 0%R ig wg bg g last w inp out Hig Hwg Hbg Hg Hx Hw)
    as (ig' & wg' & bg' & E & P & _).
  destruct (dense_1_spec 0%R ig wg bg g last w inp out Hig Hwg Hbg Hg Hx Hw)
    as (ig2 & wg2 & bg2 & E2 & L1 & _ & _ & V1 & _).
  rewrite E in E2. injection E2 as <- <- <-.
  exists ig', wg', bg'. split; [exact E|]. intros ps m Hst Hdone.
  destruct (P ps m (asteps_csteps _ _ _ Hst)) as (_ & _ & PW).
  destruct (PW Hdone) as (W1 & W2 & _). split; [|split; [exact W1|exact W2]].
  pose proof (bwd_inv 0%R ig wg bg g last w inp out Hig Hwg Hbg Hg Hx Hw) as I0.
  pose proof (inv_const _ _ _ _ _ I0 (asteps_csteps _ _ _ Hst)) as Hc. cbn [snd] in Hc.
  pose (tot := fun j => (m0 (IG, j) + fold_right (fun c r => c j + r) 0
     (tab out (fun o j => if j <? inp then (nth o g 0 * nth (o * inp + j) w 0)%R else 0)))%R).
  assert (IA : inv_add m0 tot (ps, m)).
  { eapply asteps_inv; [exact Hst|]. split; [reflexivity|].
    exists (tab out (fun o j => if j <? inp then (nth o g 0 * nth (o * inp + j) w 0)%R else 0%R)).
    split; [|reflexivity]. cbn [fst]. unfold dense_1_tasks, tab.
    assert (G : forall o, In o (seq 0 out) -> o < out) by (intros o Ho; apply in_seq in Ho; lia).
    revert G. generalize (seq 0 out). induction l as [|h t IH]; intros G; cbn [map]; constructor.
    - apply (dense_1_adder inp out). apply G. now left.
    - apply IH. intros o Ho. apply G. now right. }
  destruct IA as (_ & cs & HF & Hsum). cbn [fst snd] in *.
  assert (Z : forall j, fold_right (fun c r => (c j + r)%R) 0%R cs = 0%R).
  { intros j. clear - HF Hdone. induction HF as [|p c ps cs Hp HF IH]; auto.
    cbn [fold_right]. inversion Hdone as [|p' ps' Hp' Hps']; subst.
    inversion Hp; subst. rewrite (IH Hps'). ring. }
  apply (list_ext_nth 0%R); unfold array_of; rewrite tab_length; [auto|].
  intros i Hi. rewrite nth_tab by auto. rewrite V1.
  specialize (Hsum i). rewrite Z, Rplus_0_r in Hsum. rewrite Hsum. unfold tot.
  unfold m0, mem_of, IG. cbn [fst snd]. unfold arrs, bwd_arrs.
  destruct (Nat.ltb_spec i inp) as [Hlt|Hge].
  - rewrite app_nth1, nth_tab by (rewrite ?tab_length; auto). cbn [n0 NumR].
    rewrite nsum_Rsum, Rplus_0_l. cbn [nmul NumR].
    rewrite <- (fold_tab_Rsum out (fun o => (nth o g 0 * nth (o * inp + i) w 0)%R)).
    unfold tab. generalize (seq 0 out). induction l as [|h t IH]; cbn [map fold_right]; [reflexivity|].
    rewrite IH. destruct (Nat.ltb_spec i inp); [reflexivity|lia].
  - rewrite app_nth2, tab_length, nth_skipn_add by (rewrite tab_length; auto).
    replace (inp + (i - inp)) with i by lia.
    assert (Z0 : fold_right (fun (c : nat -> R) r => (c i + r)%R) 0%R
      (tab out (fun o j => if j <? inp then (nth o g 0 * nth (o * inp + j) w 0)%R else 0%R)) = 0%R).
    { unfold tab. generalize (seq 0 out). induction l as [|h t IH]; cbn [map fold_right]; [reflexivity|].
      rewrite IH. destruct (Nat.ltb_spec i inp); [lia|ring]. }
    rewrite Z0. ring.
Qed.
Print Assumptions c13_indivisible_increments.

(** Non-vacuity: two tasks whose increments alternate without being split. *)
Lemma asteps_trans {T} sz (s1 s2 s3 : list (prog T) * cmem T) :
  asteps sz s1 s2 -> asteps sz s2 s3 -> asteps sz s1 s3.
Proof.
  intros H1 H2. induction H2 as [|s ps i p p' m m' Ha IH Hn Hp Hl|s ps i p p1 p2 m m1 m2 Ha IH Hn Hl Hp1 Hp2];
    [exact H1| |].
  - eapply as_one; eauto.
  - eapply as_pair; eauto.
Qed.

Example c13_alternating_increments :
  let arrs := bwd_arrs [0]%Z [0; 0]%Z [0; 0]%Z [1; 1]%Z [7]%Z [2; 3]%Z 1 in
  let sz a := length (arrs a) in
  exists ps m, asteps sz (dense_1_tasks 1 2, mem_of 0%Z arrs) (ps, m) /\ all_done ps /\
    array_of m IG 1 = [5]%Z.
Proof.
  intros arrs sz.
  assert (G : exists s, asteps sz (dense_1_tasks 1 2, mem_of 0%Z arrs) s /\ all_done (fst s) /\
    array_of (snd s) IG 1 = [5]%Z).
  { unfold dense_1_tasks, tab. cbn [map seq].
    assert (one : forall i (ps : list (prog Z)) m s p p' m', nth_error ps i = Some p -> pstep sz p m p' m' ->
      ~ touches p IG -> (exists t, asteps sz (upd ps i p', m') t /\ s t) -> exists t, asteps sz (ps, m) t /\ s t).
    { intros i ps m s p p' m' Hn Hp Hl (t & Ht & Hs). exists t. split; [|exact Hs].
      eapply asteps_trans; [|exact Ht]. eapply as_one; [constructor|exact Hn|exact Hp|exact Hl]. }
    assert (pair : forall i (ps : list (prog Z)) m s p p1 p2 m1 m2, nth_error ps i = Some p -> touches p IG ->
      pstep sz p m p1 m1 -> pstep sz p1 m1 p2 m2 ->
      (exists t, asteps sz (upd ps i p2, m2) t /\ s t) -> exists t, asteps sz (ps, m) t /\ s t).
    { intros i ps m s p p1 p2 m1 m2 Hn Hl Hp1 Hp2 (t & Ht & Hs). exists t. split; [|exact Hs].
      eapply asteps_trans; [|exact Ht]. eapply as_pair; [constructor|exact Hn|exact Hl|exact Hp1|exact Hp2]. }
    do 9 (eapply (one 0); [reflexivity|constructor; unfold inr_; cbn; lia|intros X; discriminate X|];
          eapply (one 1); [reflexivity|constructor; unfold inr_; cbn; lia|intros X; discriminate X|]).
    eapply (pair 1); [reflexivity|reflexivity|constructor; unfold inr_; cbn; lia|constructor; unfold inr_; cbn; lia|].
    eapply (pair 0); [reflexivity|reflexivity|constructor; unfold inr_; cbn; lia|constructor; unfold inr_; cbn; lia|].
    eexists. split; [constructor|]. split; [repeat constructor|reflexivity]. }
  destruct G as ((ps & m) & G). exists ps, m. exact G.
Qed.
