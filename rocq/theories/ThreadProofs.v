(** Proofs about the thread versions of the dense kernels. *)
From Coq Require Import Reals Lra.
From Verif Require Import Base Num MathModel MathProofs Conc ThreadModel.

Lemma inr_dec sz l : inr_ sz l \/ ~ inr_ sz l.
Proof. unfold inr_. lia. Qed.

Lemma cset_eq {T} (m : cmem T) l v : cset m l v l = v.
Proof. unfold cset. destruct (cloc_eqb_spec l l); congruence. Qed.
Lemma cset_neq {T} (m : cmem T) l l' v : l' <> l -> cset m l v l' = m l'.
Proof. unfold cset. destruct (cloc_eqb_spec l' l); congruence. Qed.

Lemma nth_error_tab {A} n (f : nat -> A) i p :
  nth_error (tab n f) i = Some p -> i < n /\ p = f i.
Proof.
  intros E. assert (Hi : i < n).
  { rewrite <- (tab_length n f). apply nth_error_Some. congruence. }
  split; [exact Hi|]. apply (nth_error_nth _ _ (f 0)) in E. rewrite nth_tab in E; auto.
Qed.

Lemma fold_const c n : fold_right Nat.add 0 (repeat c n) = n * c.
Proof. induction n; cbn; auto. Qed.

Lemma Forall2_tab {A} (P : A -> nat -> Prop) n (f : nat -> A) c :
  (forall i, i < n -> P (f i) c) -> Forall2 P (tab n f) (repeat c n).
Proof.
  intros Hf. unfold tab. replace n with (length (seq 0 n)) at 2 by apply seq_length.
  assert (G : forall i, In i (seq 0 n) -> P (f i) c).
  { intros i Hi. apply in_seq in Hi. apply Hf. lia. }
  revert G. generalize (seq 0 n). induction l as [|h t IH]; intros G; cbn; constructor.
  - apply G. now left.
  - apply IH. intros i Hi. apply G. now right.
Qed.

Section Fwd.
Context {T : Type} {NT : NumOps T} (d0 : T).
Variables (dst src w bias : list T) (inp out : nat).
Hypotheses (Hd : out <= length dst) (Hw : out * inp <= length w)
           (Hs : inp <= length src) (Hb : out <= length bias).

Let fa := fwd_arrs dst src w bias.
Let sz a := length (fa a).
Let m0 := mem_of d0 fa.

Definition fwd_cls (l : cloc) : access :=
  match fst l with 0 => if snd l <? out then Own (snd l) else Const | _ => Const end.
Definition fwd_row (i n : nat) : T :=
  nsum_from (nth i bias d0) n (fun j => nmul (nth (i * inp + j) w d0) (nth j src d0)).
Definition fwd_E (l : cloc) : T := fwd_row (snd l) inp.

Lemma fwd_loop_good o : o < out -> forall n j m,
  j + n = inp ->
  (forall l, fwd_cls l = Const -> m l = m0 l) ->
  m (DST, o) = fwd_row o j ->
  good sz fwd_cls fwd_E o (dense_task_loop inp o n j) m.
Proof.
  intros Ho n. induction n as [|n IH]; intros j m Hj Hc Hm.
  - cbn [dense_task_loop good]. intros (a, i) Hl. unfold fwd_cls in Hl. cbn [fst snd] in Hl.
    destruct a; [|discriminate]. destruct (Nat.ltb_spec i out); [|discriminate].
    injection Hl as ->. unfold fwd_E. cbn [snd]. replace inp with j by lia. exact Hm.
  - cbn [dense_task_loop good incr].
    split; [unfold inr_, sz; cbn; nia|]. cbn [fwd_cls fst WTS].
    split; [unfold inr_, sz; cbn; lia|]. cbn [fwd_cls fst SRC].
    assert (Co : fwd_cls (DST, o) = Own o).
    { unfold fwd_cls, DST. cbn [fst snd]. destruct (Nat.ltb_spec o out); [reflexivity|lia]. }
    rewrite Co. split; [unfold inr_, sz; cbn; lia|]. split; [reflexivity|].
    split; [unfold inr_, sz; cbn; lia|]. split; [reflexivity|].
    apply IH; [lia| |].
    + intros l Hl. rewrite cset_neq; [auto|]. intros ->. congruence.
    + rewrite cset_eq, Hm. unfold fwd_row. rewrite nsum_from_S, !Hc by reflexivity. reflexivity.
Qed.

Lemma fwd_inv : inv sz fwd_cls fwd_E (dense_tasks inp out, m0).
Proof.
  intros o p Hp. cbn [fst snd] in *. apply nth_error_tab in Hp. destruct Hp as (Ho & ->).
  unfold dense_task. cbn [good].
  split; [unfold inr_, sz; cbn; lia|]. cbn [fwd_cls fst BIAS].
  assert (Co : fwd_cls (DST, o) = Own o).
  { unfold fwd_cls, DST. cbn [fst snd]. destruct (Nat.ltb_spec o out); [reflexivity|lia]. }
  split; [unfold inr_, sz; cbn; lia|]. rewrite Co. split; [reflexivity|].
  apply fwd_loop_good; [exact Ho|lia| |].
  - intros l Hl. apply cset_neq. intros ->. congruence.
  - rewrite cset_eq. reflexivity.
Qed.

Lemma fwd_loop_bounded o n : forall j, bounded (dense_task_loop inp o n j) (4 * n).
Proof.
  induction n as [|n IH]; intros j; cbn [dense_task_loop]; [constructor|].
  replace (4 * S n) with (S (S (S (S (4 * n))))) by lia. unfold incr.
  repeat (constructor; intros). apply IH.
Qed.

Lemma fwd_steps_bound k m s' : nsteps sz k (dense_tasks inp out, m) s' -> k <= out * (2 + 4 * inp).
Proof.
  intros Hk. rewrite <- fold_const. revert Hk. apply total_bound.
  apply Forall2_tab. intros i Hi. unfold dense_task.
  constructor. intros v. constructor. apply fwd_loop_bounded.
Qed.
End Fwd.

Section Bwd.
Context {T : Type} {NT : NumOps T} (d0 : T).
Variables (ig wg bg g last w : list T) (inp out : nat).
Hypotheses (Hig : inp <= length ig) (Hwg : out * inp <= length wg) (Hbg : out <= length bg)
           (Hg : out <= length g) (Hx : inp <= length last) (Hw : out * inp <= length w).

Let ba := bwd_arrs ig wg bg g last w inp.
Let sz a := length (ba a).
Let m0 := mem_of d0 ba.

(** Weight gradient row [o] and bias gradient [o] belong to task [o]; the input gradients are
    shared, or belong to the only task when there is one output. *)
Definition bwd_cls (l : cloc) : access :=
  match fst l with
  | 4 => if snd l <? inp then (if out =? 1 then Own 0 else Shared) else Const
  | 5 => if snd l <? out * inp then Own (snd l / inp) else Const
  | 6 => if snd l <? out then Own (snd l) else Const
  | _ => Const
  end.
Definition bwd_E (l : cloc) : T :=
  match fst l with
  | 4 => nadd n0 (nmul (nth 0 g d0) (nth (snd l) w d0))
  | 5 => nadd (nth (snd l) wg d0) (nmul (nth (snd l / inp) g d0) (nth (snd l mod inp) last d0))
  | _ => nadd (nth (snd l) bg d0) (nth (snd l) g d0)
  end.

Lemma sz_ig : sz 4 = length ig.
Proof. unfold sz. cbn. rewrite app_length, tab_length, skipn_length. lia. Qed.

Lemma m0_ig j : j < inp -> m0 (IG, j) = n0.
Proof.
  intros Hj. unfold m0, mem_of, IG. cbn [fst snd ba bwd_arrs].
  rewrite app_nth1, nth_tab by (rewrite ?tab_length; auto). reflexivity.
Qed.

Lemma cls_wg o j : o < out -> j < inp -> bwd_cls (WG, o * inp + j) = Own o.
Proof.
  intros Ho Hj. unfold bwd_cls, WG. cbn [fst snd].
  destruct (Nat.ltb_spec (o * inp + j) (out * inp)); [|nia].
  f_equal. rewrite Nat.add_comm, Nat.div_add, Nat.div_small by lia. reflexivity.
Qed.

Lemma cls_wg_inv o i : bwd_cls (WG, i) = Own o -> exists j, j < inp /\ i = o * inp + j.
Proof.
  unfold bwd_cls, WG. cbn [fst snd]. destruct (Nat.ltb_spec i (out * inp)); [|discriminate].
  intros E. injection E as <-. assert (inp <> 0) by nia.
  exists (i mod inp). split; [apply Nat.mod_upper_bound; auto|].
  rewrite (Nat.div_mod i inp) at 1 by auto. lia.
Qed.

(** State of task [o] before step [j] of its loop. *)
Definition bwd_at (o j : nat) (m : cmem T) : Prop :=
  (forall l, bwd_cls l = Const -> m l = m0 l) /\
  m (BG, o) = bwd_E (BG, o) /\
  (forall i, i < inp -> m (WG, o * inp + i) =
     if i <? j then bwd_E (WG, o * inp + i) else m0 (WG, o * inp + i)) /\
  (out = 1 -> forall i, i < inp -> m (IG, i) = if i <? j then bwd_E (IG, i) else n0).

Lemma bwd_loop_good o : o < out -> forall n j m, j + n = inp -> bwd_at o j m ->
  good sz bwd_cls bwd_E o (dense_1_task_loop inp o n j) m.
Proof.
  intros Ho n. induction n as [|n IH]; intros j m Hj (Hc & Hb & Hwv & Hi).
  - cbn [dense_1_task_loop good]. intros (a, i) Hl.
    assert (Ha : a = 4 \/ a = 5 \/ a = 6).
    { unfold bwd_cls in Hl. cbn [fst] in Hl.
      do 7 (destruct a as [|a]; [try discriminate; auto|]). discriminate. }
    destruct Ha as [-> | [-> | -> ]].
    + unfold bwd_cls in Hl. cbn [fst snd] in Hl.
      destruct (Nat.ltb_spec i inp); [|discriminate].
      destruct (Nat.eqb_spec out 1) as [E1|]; [|discriminate].
      specialize (Hi E1 i H). destruct (Nat.ltb_spec i j); [exact Hi|lia].
    + apply cls_wg_inv in Hl. destruct Hl as (k & Hk & ->).
      specialize (Hwv k Hk). destruct (Nat.ltb_spec k j); [exact Hwv|lia].
    + unfold bwd_cls in Hl. cbn [fst snd] in Hl.
      destruct (Nat.ltb_spec i out); [|discriminate]. injection Hl as ->. exact Hb.
  - cbn [dense_1_task_loop good incr].
    assert (Hjn : j < inp) by lia.
    assert (Hr : o * inp + j < out * inp) by nia.
    pose proof (cls_wg o j Ho Hjn) as Cw.
    split; [unfold inr_, sz; cbn; lia|]. change (bwd_cls (GRAD, o)) with Const. cbv iota.
    split; [unfold inr_, sz; cbn; lia|]. change (bwd_cls (SRC, j)) with Const. cbv iota.
    rewrite Cw.
    split; [unfold inr_, sz; cbn; lia|]. split; [reflexivity|].
    split; [unfold inr_, sz; cbn; lia|]. split; [reflexivity|].
    split; [unfold inr_, sz; cbn; lia|].
    split; [unfold inr_, sz; cbn; lia|]. change (bwd_cls (WTS, o * inp + j)) with Const. cbv iota.
    assert (Hsi : inr_ sz (IG, j)) by (pose proof sz_ig; unfold inr_, IG; cbn [fst snd]; lia).
    split; [exact Hsi|].
    rewrite !(cset_neq m (WG, _)) by (unfold GRAD, WTS, WG, IG; congruence).
    set (v := nadd (m (WG, o * inp + j)) (nmul (m (GRAD, o)) (m (SRC, j)))).
    assert (Hv : v = bwd_E (WG, o * inp + j)).
    { unfold v. rewrite Hwv by auto. destruct (Nat.ltb_spec j j); [lia|].
      rewrite (Hc (GRAD, o)), (Hc (SRC, j)) by reflexivity.
      unfold bwd_E, WG. cbn [fst snd].
      destruct (divmod_unique inp o j Hjn) as (-> & ->). reflexivity. }
    assert (Hq : nmul (m (GRAD, o)) (m (WTS, o * inp + j)) = nmul (nth o g d0) (nth (o * inp + j) w d0)).
    { rewrite (Hc (GRAD, o)), (Hc (WTS, _)) by reflexivity. reflexivity. }
    rewrite Hq.
    assert (Ci : bwd_cls (IG, j) = if out =? 1 then Own 0 else Shared).
    { unfold bwd_cls, IG. cbn [fst snd]. destruct (Nat.ltb_spec j inp); [reflexivity|lia]. }
    rewrite Ci. destruct (Nat.eqb_spec out 1) as [E1|N1].
    + assert (o = 0) as -> by lia.
      split; [reflexivity|]. split; [exact Hsi|]. split; [reflexivity|].
      try rewrite (cset_neq m (WG, _)) by (unfold IG, WG; congruence).
      apply IH; [lia|]. split; [|split; [|split]].
      * intros l Hl. rewrite !cset_neq; [auto| |]; intros ->; congruence.
      * rewrite !cset_neq by (unfold BG, IG, WG; congruence). exact Hb.
      * intros i Hi'. rewrite cset_neq by (unfold IG, WG; congruence).
        destruct (Nat.eq_dec i j) as [->|Hne].
        -- rewrite cset_eq. destruct (Nat.ltb_spec j (S j)); [exact Hv|lia].
        -- rewrite cset_neq by (intros X; injection X; lia). rewrite Hwv by auto.
           destruct (Nat.ltb_spec i j), (Nat.ltb_spec i (S j)); auto; lia.
      * intros _ i Hi'. destruct (Nat.eq_dec i j) as [->|Hne].
        -- rewrite cset_eq. destruct (Nat.ltb_spec j (S j)); [|lia].
           rewrite (Hi E1 j Hjn). destruct (Nat.ltb_spec j j); [lia|]. reflexivity.
        -- rewrite cset_neq by (intros X; injection X; lia).
           rewrite cset_neq by (unfold IG, WG; congruence). rewrite (Hi E1 i Hi').
           destruct (Nat.ltb_spec i j), (Nat.ltb_spec i (S j)); auto; lia.
    + intros c. split; [exact Hsi|]. apply IH; [lia|]. split; [|split; [|split]].
      * intros l Hl. rewrite cset_neq; [auto|]. intros ->; congruence.
      * rewrite cset_neq by (unfold BG, WG; congruence). exact Hb.
      * intros i Hi'. destruct (Nat.eq_dec i j) as [->|Hne].
        -- rewrite cset_eq. destruct (Nat.ltb_spec j (S j)); [exact Hv|lia].
        -- rewrite cset_neq by (intros X; injection X; lia). rewrite Hwv by auto.
           destruct (Nat.ltb_spec i j), (Nat.ltb_spec i (S j)); auto; lia.
      * intros E1. contradiction.
Qed.

Lemma bwd_inv : inv sz bwd_cls bwd_E (dense_1_tasks inp out, m0).
Proof.
  intros o p Hp. cbn [fst snd] in *. apply nth_error_tab in Hp. destruct Hp as (Ho & ->).
  unfold dense_1_task, incr. cbn [good].
  split; [unfold inr_, sz; cbn; lia|]. change (bwd_cls (GRAD, o)) with Const. cbv iota.
  assert (Cb : bwd_cls (BG, o) = Own o).
  { unfold bwd_cls, BG. cbn [fst snd]. destruct (Nat.ltb_spec o out); [reflexivity|lia]. }
  rewrite Cb. split; [unfold inr_, sz; cbn; lia|]. split; [reflexivity|].
  split; [unfold inr_, sz; cbn; lia|]. split; [reflexivity|].
  apply bwd_loop_good; [exact Ho|lia|]. split; [|split; [|split]].
  - intros l Hl. apply cset_neq. intros ->; congruence.
  - rewrite cset_eq. reflexivity.
  - intros i Hi. apply cset_neq. unfold WG, BG; congruence.
  - intros _ i Hi. rewrite cset_neq by (unfold IG, BG; congruence). now apply m0_ig.
Qed.

Lemma bwd_loop_bounded o n : forall j, bounded (dense_1_task_loop inp o n j) (8 * n).
Proof.
  induction n as [|n IH]; intros j; cbn [dense_1_task_loop]; [constructor|].
  replace (8 * S n) with (S (S (S (S (S (S (S (S (8 * n))))))))) by lia. unfold incr.
  repeat (constructor; intros). apply IH.
Qed.

Lemma bwd_steps_bound k m s' : nsteps sz k (dense_1_tasks inp out, m) s' -> k <= out * (3 + 8 * inp).
Proof.
  intros Hk. rewrite <- fold_const. revert Hk. apply total_bound.
  apply Forall2_tab. intros i Hi. unfold dense_1_task, incr.
  constructor. intros v. constructor. intros v'. constructor. apply bwd_loop_bounded.
Qed.
End Bwd.

(** *** Indivisible increments of the input gradients *)
Section Atomic.
Variable sz : nat -> nat.
Variable m0 : cmem R.

(** [adder p c]: task [p] adds [c j] to input gradient [j] in all. *)
Inductive adder : prog R -> (nat -> R) -> Prop :=
| ad_done : adder Done (fun _ => 0%R)
| ad_const : forall a i k c, (a = GRAD \/ a = WTS \/ a = SRC) -> adder (k (m0 (a, i))) c -> adder (Load (a, i) k) c
| ad_load : forall a i k c, (a = WG \/ a = BG) -> (forall v, adder (k v) c) -> adder (Load (a, i) k) c
| ad_store : forall a i v p c, (a = WG \/ a = BG) -> adder p c -> adder (Store (a, i) v p) c
| ad_incr : forall j v p c c', adder p c ->
    (forall i, c' i = if i =? j then (v + c i)%R else c i) -> adder (incr (IG, j) v p) c'.

Definition inv_add (total : nat -> R) (s : list (prog R) * cmem R) : Prop :=
  (forall a i, (a = GRAD \/ a = WTS \/ a = SRC) -> snd s (a, i) = m0 (a, i)) /\
  exists cs, Forall2 adder (fst s) cs /\
    forall j, (snd s (IG, j) + fold_right (fun c r => c j + r) 0 cs)%R = total j.

Lemma Forall2_nth_error {A B} (P : A -> B -> Prop) l l' i x : Forall2 P l l' ->
  nth_error l i = Some x -> exists y, nth_error l' i = Some y /\ P x y.
Proof.
  intros HF. revert i. induction HF as [|a b l l' Hab HF IH]; intros i Hi.
  - destruct i; discriminate.
  - destruct i as [|i]; cbn in *.
    + injection Hi as ->. eauto.
    + apply IH, Hi.
Qed.

Lemma Forall2_upd {A B} (P : A -> B -> Prop) l l' i x y : Forall2 P l l' -> P x y ->
  Forall2 P (upd l i x) (upd l' i y).
Proof.
  intros HF Hxy. revert i. induction HF as [|a b l l' Hab HF IH]; intros i; [destruct i; constructor|].
  destruct i as [|i]; cbn; constructor; auto.
Qed.

Lemma sum_upd cs i (c c' : nat -> R) j : nth_error cs i = Some c ->
  (fold_right (fun c r => c j + r) 0 (upd cs i c') =
   fold_right (fun c r => c j + r) 0 cs - c j + c' j)%R.
Proof.
  revert i. induction cs as [|h cs IH]; intros i Hi; [destruct i; discriminate|].
  destruct i as [|i]; cbn in *.
  - injection Hi as ->. ring.
  - rewrite (IH i Hi). ring.
Qed.

Lemma asteps_inv s s' total : asteps sz s s' -> inv_add total s -> inv_add total s'.
Proof.
  intros Hs Hi. induction Hs as [|s1 ps i p p' m m' H1 IH Hn Hp Hl|s1 ps i p p1 p2 m m1 m2 H1 IH Hn Hl Hp1 Hp2].
  - exact Hi.
  - specialize (IH Hi). destruct IH as (Hc & cs & HF & Hsum). cbn [fst snd] in *.
    destruct (Forall2_nth_error _ _ _ _ _ HF Hn) as (c & Hcn & Ha).
    inversion Ha; subst; inversion Hp; subst.
    + split; [exact Hc|]. exists (upd cs i c). cbn [fst snd]. split.
      * apply Forall2_upd; auto. rewrite Hc by auto. exact H0.
      * intros j. rewrite (sum_upd cs i c) by auto. rewrite <- Hsum. ring.
    + split; [exact Hc|]. exists (upd cs i c). cbn [fst snd]. split.
      * apply Forall2_upd; auto.
      * intros j. rewrite (sum_upd cs i c) by auto. rewrite <- Hsum. ring.
    + split.
      * intros a' i' Ha'. cbn [snd]. rewrite cset_neq; auto.
        intros X. injection X as -> _. unfold GRAD, WTS, SRC, WG, BG in *.
        destruct H as [->| ->]; destruct Ha' as [X|[X|X]]; discriminate.
      * exists (upd cs i c). cbn [fst snd]. split; [apply Forall2_upd; auto|].
        intros j. rewrite (sum_upd cs i c) by auto.
        rewrite cset_neq.
        -- rewrite <- Hsum. ring.
        -- intros X. injection X as X _. destruct H as [->| ->]; discriminate.
    + exfalso. apply Hl. reflexivity.
  - specialize (IH Hi). destruct IH as (Hc & cs & HF & Hsum). cbn [fst snd] in *.
    destruct (Forall2_nth_error _ _ _ _ _ HF Hn) as (c & Hcn & Ha).
    inversion Ha; subst; cbn [touches fst] in Hl.
    + contradiction.
    + exfalso. destruct H as [X|[X|X]]; subst; discriminate.
    + exfalso. destruct H as [X|X]; subst; discriminate.
    + exfalso. destruct H as [X|X]; subst; discriminate.
    + unfold incr in Hp1. inversion Hp1; subst. inversion Hp2; subst.
      split.
      * intros a' i' Ha'. cbn [snd]. rewrite cset_neq; auto.
        intros X. injection X as -> _. unfold GRAD, WTS, SRC, IG in *.
        destruct Ha' as [X|[X|X]]; discriminate.
      * exists (upd cs i c0). cbn [fst snd]. split; [apply Forall2_upd; auto|].
        intros j'. rewrite (sum_upd cs i c) by auto.
        rewrite H0. destruct (Nat.eqb_spec j' j) as [->|Hne].
        -- rewrite cset_eq. rewrite <- Hsum. cbn [nadd NumR]. ring.
        -- rewrite cset_neq by (intros X; injection X; auto). rewrite <- Hsum. ring.
Qed.
End Atomic.
