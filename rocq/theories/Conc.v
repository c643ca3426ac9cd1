(** Concurrent tasks: every interleaving of their loads and stores.

    Modelling convention (no single place in /repo): a task is the sequence of its memory
    accesses; the tasks enqueued on BetterThreads::TaskManager are interleaved at the
    granularity of single loads and stores, in every possible order. A location is an array
    number and an index; [sz] gives the array lengths, an access outside is UB. *)
From Verif Require Import Base.

Definition cloc := (nat * nat)%type.
Definition cloc_eqb (a b : cloc) : bool := (fst a =? fst b) && (snd a =? snd b).

Lemma cloc_eqb_spec a b : reflect (a = b) (cloc_eqb a b).
Proof.
  destruct a as [a1 a2], b as [b1 b2]. unfold cloc_eqb. cbn [fst snd].
  destruct (Nat.eqb_spec a1 b1), (Nat.eqb_spec a2 b2); constructor; congruence.
Qed.

Section Conc.
Context {T : Type}.

Inductive prog : Type :=
| Done
| Load (l : cloc) (k : T -> prog)
| Store (l : cloc) (v : T) (p : prog).

Definition cmem := cloc -> T.
Definition cset (m : cmem) (l : cloc) (v : T) : cmem := fun l' => if cloc_eqb l' l then v else m l'.

Variable sz : nat -> nat.
Definition inr_ (l : cloc) : Prop := snd l < sz (fst l).

(** One memory access of one task. *)
Inductive pstep : prog -> cmem -> prog -> cmem -> Prop :=
| ps_load : forall l k m, inr_ l -> pstep (Load l k) m (k (m l)) m
| ps_store : forall l v p m, inr_ l -> pstep (Store l v p) m p (cset m l v).

(** Some task of the pool makes an access. *)
Inductive cstep : list prog * cmem -> list prog * cmem -> Prop :=
| cs : forall ps i p p' m m', nth_error ps i = Some p -> pstep p m p' m' ->
    cstep (ps, m) (upd ps i p', m').

Inductive csteps : list prog * cmem -> list prog * cmem -> Prop :=
| css_refl : forall s, csteps s s
| css_step : forall s1 s2 s3, csteps s1 s2 -> cstep s2 s3 -> csteps s1 s3.

Definition all_done (ps : list prog) : Prop := Forall (fun p => p = Done) ps.

(** Some task is about to access an array out of range. *)
Definition ub_state (s : list prog * cmem) : Prop :=
  exists p, In p (fst s) /\
    match p with Done => False | Load l _ => ~ inr_ l | Store l _ _ => ~ inr_ l end.

(** At most [n] accesses remain, whatever is read. *)
Inductive bounded : prog -> nat -> Prop :=
| bd_done : forall n, bounded Done n
| bd_load : forall l k n, (forall v, bounded (k v) n) -> bounded (Load l k) (S n)
| bd_store : forall l v p n, bounded p n -> bounded (Store l v p) (S n).

(** *** Reasoning principle *)
(** [cls l]: who may write [l]: one task, nobody, or anybody. *)
Inductive access := Own (i : nat) | Const | Shared.
Variable cls : cloc -> access.
Variable E : cloc -> T.

(** From [p], task [i] ends with the values [E] in the locations it owns, whatever it reads
    from shared locations, and keeps the access discipline. *)
Fixpoint good (i : nat) (p : prog) (m : cmem) : Prop :=
  match p with
  | Done => forall l, cls l = Own i -> m l = E l
  | Load l k => inr_ l /\
      match cls l with
      | Own j => j = i /\ good i (k (m l)) m
      | Const => good i (k (m l)) m
      | Shared => forall v, good i (k v) m
      end
  | Store l v p => inr_ l /\
      match cls l with
      | Own j => j = i /\ good i p (cset m l v)
      | Const => False
      | Shared => good i p m
      end
  end.

Lemma good_ext i p : forall m m',
  (forall l, cls l = Own i \/ cls l = Const -> m l = m' l) -> good i p m -> good i p m'.
Proof.
  induction p as [|l k IH|l v p IH]; intros m m' H Hg; cbn [good] in *.
  - intros l Hl. rewrite <- H by auto. now apply Hg.
  - destruct Hg as (Hi & Hg). split; [exact Hi|].
    destruct (cls l) as [j| |] eqn:C.
    + destruct Hg as (-> & Hg). split; [reflexivity|]. rewrite <- (H l) by auto.
      eapply IH; eauto.
    + rewrite <- (H l) by auto. eapply IH; eauto.
    + intros v. eapply IH; eauto.
  - destruct Hg as (Hi & Hg). split; [exact Hi|].
    destruct (cls l) as [j| |] eqn:C; [|contradiction|].
    + destruct Hg as (-> & Hg). split; [reflexivity|].
      eapply IH; [|exact Hg]. intros l' Hl'. unfold cset.
      destruct (cloc_eqb l' l); auto.
    + eapply IH; eauto.
Qed.

Definition inv (s : list prog * cmem) : Prop :=
  forall i p, nth_error (fst s) i = Some p -> good i p (snd s).

Lemma good_step i j p p' m m' : good j p m -> pstep p m p' m' ->
  good j p' m' /\ forall q, i <> j -> good i q m -> good i q m'.
Proof.
  intros Hg Hs. inversion Hs as [l k m0 Hi|l v q0 m0 Hi]; subst; cbn [good] in Hg;
    destruct Hg as (_ & Hg).
  - split; [|auto]. destruct (cls l); auto; now destruct Hg.
  - destruct (cls l) as [o| |] eqn:C; [|contradiction|].
    + destruct Hg as (-> & Hg). split; [exact Hg|].
      intros q Hne Hq. eapply good_ext; [|exact Hq]. intros l' Hl'. unfold cset.
      destruct (cloc_eqb_spec l' l) as [->|]; auto. rewrite C in Hl'. destruct Hl'; congruence.
    + split.
      * eapply good_ext; [|exact Hg]. intros l' Hl'. unfold cset.
        destruct (cloc_eqb_spec l' l) as [->|]; auto. rewrite C in Hl'. destruct Hl'; congruence.
      * intros q Hne Hq. eapply good_ext; [|exact Hq]. intros l' Hl'. unfold cset.
        destruct (cloc_eqb_spec l' l) as [->|]; auto. rewrite C in Hl'. destruct Hl'; congruence.
Qed.

Lemma inv_step s s' : inv s -> cstep s s' -> inv s'.
Proof.
  intros Hi Hs. inversion Hs as [ps j p p' m m' Hn Hp]; subst.
  intros i q Hq. cbn [fst snd] in *. rewrite nth_error_upd in Hq.
  destruct (Nat.eq_dec i j) as [->|Hne].
  - rewrite Nat.eqb_refl in Hq.
    assert (j < length ps) by (apply nth_error_Some; congruence).
    destruct (Nat.ltb_spec j (length ps)); [|lia]. simpl in Hq. injection Hq as <-.
    exact (proj1 (good_step j j p p' m m' (Hi j p Hn) Hp)).
  - destruct (Nat.eqb_spec i j); [contradiction|]. simpl in Hq.
    destruct (good_step i j p p' m m' (Hi j p Hn) Hp) as (_ & X). apply X; auto.
Qed.

Lemma inv_steps s s' : inv s -> csteps s s' -> inv s'.
Proof. intros Hi Hs. induction Hs as [|s1 s2 s3 H1 IH H2]; [exact Hi|]. apply (inv_step s2); auto. Qed.

Lemma inv_no_ub s : inv s -> ~ ub_state s.
Proof.
  intros Hi (p & Hin & Hub). apply In_nth_error in Hin. destruct Hin as (i & Hn).
  specialize (Hi i p Hn). destruct p; cbn [good] in Hi; tauto.
Qed.

Lemma inv_final ps m : inv (ps, m) -> all_done ps ->
  forall i l, i < length ps -> cls l = Own i -> m l = E l.
Proof.
  intros Hi Hd i l Hl Hc.
  destruct (nth_error ps i) as [p|] eqn:En; [|apply nth_error_None in En; lia].
  specialize (Hi i p En). unfold all_done in Hd. rewrite Forall_forall in Hd.
  rewrite (Hd p) in Hi by (eapply nth_error_In; eauto). now apply Hi.
Qed.

Lemma inv_const s s' : inv s -> csteps s s' -> forall l, cls l = Const -> snd s' l = snd s l.
Proof.
  intros Hi Hs l Hl. induction Hs as [|s1 s2 s3 H1 IH H2]; [reflexivity|].
  rewrite <- IH by auto. pose proof (inv_steps _ _ Hi H1) as Hi2.
  inversion H2 as [ps j p p' m m' Hn Hp]; subst. specialize (Hi2 j p Hn).
  cbn [snd] in *. inversion Hp as [l0 k m0 Hin|l0 v q m0 Hin]; subst; [reflexivity|].
  cbn [good] in Hi2. unfold cset. destruct (cloc_eqb_spec l l0) as [->|]; auto.
  rewrite Hl in Hi2. tauto.
Qed.

Lemma progress ps m : ~ ub_state (ps, m) -> (forall l, inr_ l \/ ~ inr_ l) ->
  all_done ps \/ exists s', cstep (ps, m) s'.
Proof.
  intros Hub Hdec.
  assert (D : all_done ps \/ exists i p, nth_error ps i = Some p /\ p <> Done).
  { unfold all_done. clear Hub. induction ps as [|p ps IH]; [left; constructor|].
    destruct p as [|l k|l v p].
    - destruct IH as [IH|(i & p & Hn & Hp)]; [left; now constructor|].
      right. exists (S i), p. auto.
    - right. exists 0, (Load l k). split; [reflexivity|discriminate].
    - right. exists 0, (Store l v p). split; [reflexivity|discriminate]. }
  destruct D as [D|(i & p & Hn & Hp)]; [now left|right].
  pose proof (nth_error_In _ _ Hn) as Hin.
  destruct p as [|l k|l v p]; [contradiction| |].
  - destruct (Hdec l) as [Hl|Hl].
    + eexists. eapply cs; [exact Hn|]. now constructor.
    + exfalso. apply Hub. exists (Load l k). auto.
  - destruct (Hdec l) as [Hl|Hl].
    + eexists. eapply cs; [exact Hn|]. now constructor.
    + exfalso. apply Hub. exists (Store l v p). auto.
Qed.

(** *** Termination: the number of accesses is bounded *)
Lemma bounded_step p m p' m' n : bounded p n -> pstep p m p' m' -> exists n', n = S n' /\ bounded p' n'.
Proof.
  intros Hb Hs. inversion Hs; subst; inversion Hb; subst; eexists; split; eauto.
Qed.

Fixpoint nsteps (k : nat) (s s' : list prog * cmem) : Prop :=
  match k with
  | O => s' = s
  | S k' => exists s1, cstep s s1 /\ nsteps k' s1 s'
  end.

Lemma total_bound k : forall ps ns m s', Forall2 bounded ps ns -> nsteps k (ps, m) s' ->
  k <= fold_right Nat.add 0 ns.
Proof.
  induction k as [|k IH]; intros ps ns m s' HF Hk; [lia|].
  destruct Hk as (s1 & Hs & Hk). inversion Hs as [ps0 i p p' m0 m' Hn Hp]; subst.
  assert (exists ns', Forall2 bounded (upd ps i p') ns' /\
    fold_right Nat.add 0 ns = S (fold_right Nat.add 0 ns')) as (ns' & HF' & Hsum).
  { clear - HF Hn Hp. revert i Hn. induction HF as [|q n ps ns Hq HF IH]; intros i Hn.
    - destruct i; discriminate.
    - destruct i as [|i].
      + cbn in Hn. injection Hn as ->. destruct (bounded_step _ _ _ _ _ Hq Hp) as (n' & -> & Hb).
        exists (n' :: ns). split; [cbn; now constructor|]. cbn. lia.
      + cbn in Hn. destruct (IH i Hn) as (ns' & HF' & E').
        exists (n :: ns'). split; [cbn; now constructor|]. cbn. lia. }
  specialize (IH _ _ _ _ HF' Hk). lia.
Qed.
End Conc.
Arguments prog T : clear implicits.
Arguments cmem T : clear implicits.
