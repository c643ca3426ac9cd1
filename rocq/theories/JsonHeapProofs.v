(** JSON documents in memory never share: what a pointer structure represents, and how the
    operations of JsonHeapModel change it. *)
From Verif Require Import Base StreamModel TypeModel JsonModel PropJson JsonHeapModel JsonHeapSpec GraphProofs.
From Coq Require Import Ascii Permutation.
Local Open Scope list_scope.
Local Notation length := List.length.

(** *** Maps *)
Section MapLemmas.
Context {V : Type}.
Implicit Types m : list (text * V).
Lemma find_put k x m y : find_key k m = Some y -> find_key k (put_key k x m) = Some x.
Proof.
  induction m as [|(k', z) m IH]; cbn; [discriminate|]. destruct (text_eqb k k') eqn:E; cbn; rewrite E; auto.
Qed.
Lemma find_put_other k k' x m : k <> k' -> find_key k (put_key k' x m) = find_key k m.
Proof.
  intros N. induction m as [|(q, z) m IH]; cbn; [reflexivity|]. destruct (text_eqb k' q) eqn:E; cbn.
  - apply text_eqb_eq in E. subst q. destruct (text_eqb k k') eqn:E; [apply text_eqb_eq in E; contradiction|reflexivity].
  - destruct (text_eqb k q); auto.
Qed.
Lemma find_new k x m : find_key k m = None -> find_key k (new_key k x m) = Some x.
Proof.
  induction m as [|(q, z) m IH]; cbn; [intros _; now rewrite text_eqb_refl|]. destruct (text_eqb k q) eqn:E; [discriminate|]. intros F.
  destruct (text_cmp k q); cbn; rewrite ?text_eqb_refl, ?E; auto.
Qed.
Lemma find_new_other k k' x m : k <> k' -> find_key k (new_key k' x m) = find_key k m.
Proof.
  intros N. assert (E : text_eqb k k' = false) by (destruct (text_eqb k k') eqn:E; [apply text_eqb_eq in E; contradiction|reflexivity]).
  induction m as [|(q, z) m IH]; cbn; [now rewrite E|].
  destruct (text_cmp k' q); cbn; rewrite ?E; auto. destruct (text_eqb k q); auto.
Qed.
Lemma put_new k x y m : find_key k m = None -> put_key k x (new_key k y m) = new_key k x m.
Proof.
  induction m as [|(q, z) m IH]; cbn; [intros _; now rewrite text_eqb_refl|]. destruct (text_eqb k q) eqn:E; [discriminate|]. intros F.
  destruct (text_cmp k q); cbn; rewrite ?text_eqb_refl, ?E; auto. now rewrite IH.
Qed.
Lemma put_put_key k x y m : put_key k x (put_key k y m) = put_key k x m.
Proof. induction m as [|(q, z) m IH]; cbn; [reflexivity|]. destruct (text_eqb k q) eqn:E; cbn; rewrite E; [reflexivity|now rewrite IH]. Qed.
Lemma put_same_key k x m : find_key k m = Some x -> put_key k x m = m.
Proof. induction m as [|(q, z) m IH]; cbn; [discriminate|]. destruct (text_eqb k q) eqn:E; [intros F; now injection F as ->|intros F; now rewrite IH]. Qed.

(** A key by its position among the keys. *)
Fixpoint pos (k : text) (ks : list text) : option nat :=
  match ks with [] => None | q :: ks => if text_eqb k q then Some 0 else option_map S (pos k ks) end.
Lemma find_pos k m : find_key k m = match pos k (map fst m) with Some j => nth_error (map snd m) j | None => None end.
Proof.
  induction m as [|(q, z) m IH]; cbn; [reflexivity|]. destruct (text_eqb k q); cbn; [reflexivity|]. rewrite IH.
  destruct (pos k (map fst m)); reflexivity.
Qed.
Lemma pos_lt k ks j : pos k ks = Some j -> j < length ks.
Proof.
  revert j. induction ks as [|q ks IH]; cbn; [discriminate|]. intros j. destruct (text_eqb k q); [intros E; injection E as <-; lia|].
  destruct (pos k ks) as [i|]; [|discriminate]. intros E. injection E as <-. specialize (IH i eq_refl). lia.
Qed.
Lemma put_pos k x m j : pos k (map fst m) = Some j -> map fst (put_key k x m) = map fst m /\ map snd (put_key k x m) = upd (map snd m) j x.
Proof.
  revert j. induction m as [|(q, z) m IH]; cbn; [discriminate|]. intros j. destruct (text_eqb k q); cbn; [intros E; injection E as <-; auto|].
  destruct (pos k (map fst m)) as [i|] eqn:EP; [|discriminate]. intros E. injection E as <-. destruct (IH i eq_refl) as (A & B). cbn. now rewrite A, B.
Qed.
(** Where a new key goes depends on the keys only. *)
Fixpoint gap (k : text) (ks : list text) : nat :=
  match ks with [] => 0 | q :: ks => match text_cmp k q with Gt => S (gap k ks) | _ => 0 end end.
Definition insert {A} (j : nat) (x : A) (l : list A) : list A := firstn j l ++ x :: skipn j l.
Lemma new_gap k x m : map fst (new_key k x m) = insert (gap k (map fst m)) k (map fst m) /\
  map snd (new_key k x m) = insert (gap k (map fst m)) x (map snd m).
Proof.
  induction m as [|(q, z) m (IH1 & IH2)]; cbn; [auto|]. destruct (text_cmp k q); cbn; auto.
  unfold insert in *. cbn. now rewrite IH1, IH2.
Qed.
Lemma gap_le k ks : gap k ks <= length ks.
Proof. induction ks as [|q ks IH]; cbn; [lia|]. destruct (text_cmp k q); lia. Qed.
End MapLemmas.

Lemma combine_split {A B} (m : list (A * B)) : combine (map fst m) (map snd m) = m.
Proof. induction m as [|(a, b) m IH]; cbn; [reflexivity|now rewrite IH]. Qed.
Lemma map_fst_combine {A B} (l : list A) (l' : list B) : length l' = length l -> map fst (combine l l') = l.
Proof. revert l'. induction l as [|x l IH]; intros [|y l']; cbn; intros E; try discriminate; [reflexivity|]. f_equal. apply IH. lia. Qed.
Lemma map_snd_combine {A B} (l : list A) (l' : list B) : length l' = length l -> map snd (combine l l') = l'.
Proof. revert l'. induction l as [|x l IH]; intros [|y l']; cbn; intros E; try discriminate; [reflexivity|]. f_equal. apply IH. lia. Qed.
Lemma nth_error_upd_same {A} (l : list A) j x : j < length l -> nth_error (upd l j x) j = Some x.
Proof. intros Hj. rewrite Base.nth_error_upd, Nat.eqb_refl. cbn [andb]. destruct (Nat.ltb_spec j (length l)); [reflexivity|lia]. Qed.
Lemma nth_error_upd_other {A} (l : list A) j i x : i <> j -> nth_error (upd l j x) i = nth_error l i.
Proof.
  intros N. rewrite Base.nth_error_upd. destruct (Nat.eqb_spec i j); [contradiction|reflexivity].
Qed.

(** *** What an item represents *)
(** [rep h it d o]: the item's structure in memory [h] is the document [d]; its objects are at
    the addresses [o]. *)
Inductive rep (h : list obj) : item -> json -> list nat -> Prop :=
| rep_null : rep h null_item JNull []
| rep_leaf a v t : nth_error h a = Some (OLeaf v t) -> rep h (mkItem JtLeaf (Some a)) (JLeaf v t) [a]
| rep_list a its ds o : nth_error h a = Some (OList its) -> reps h its ds o -> rep h (mkItem JtList (Some a)) (JList ds) (a :: o)
| rep_dict a m ms o : nth_error h a = Some (ODict m) -> map fst m = map fst ms -> reps h (map snd m) (map snd ms) o ->
    rep h (mkItem JtDict (Some a)) (JDict ms) (a :: o)
with reps (h : list obj) : list item -> list json -> list nat -> Prop :=
| reps_nil : reps h [] [] []
| reps_cons it d o its ds os : rep h it d o -> reps h its ds os -> reps h (it :: its) (d :: ds) (o ++ os).
Scheme rep_mind := Induction for rep Sort Prop with reps_mind := Induction for reps Sort Prop.
Combined Scheme rep_reps from rep_mind, reps_mind.

(** All objects of the variables are distinct. *)
Definition holds (s : jstate) (docs : list json) : Prop :=
  exists o, reps (j_cells s) (j_vars s) docs o /\ NoDup o.

Definition agree (h h' : list obj) (o : list nat) : Prop := forall a, In a o -> nth_error h' a = nth_error h a.
Lemma agree_app h h' o o' : agree h h' (o ++ o') <-> agree h h' o /\ agree h h' o'.
Proof.
  split; [intros A; split; intros a I; apply A, in_or_app; auto|]. intros (A & B) a I. apply in_app_or in I as [I|I]; auto.
Qed.
Lemma rep_frame_both h :
  (forall it d o, rep h it d o -> forall h', agree h h' o -> rep h' it d o) /\
  (forall its ds o, reps h its ds o -> forall h', agree h h' o -> reps h' its ds o).
Proof.
  apply rep_reps.
  - constructor.
  - intros a v t E h' A. constructor. rewrite A; [exact E|left; reflexivity].
  - intros a its ds o E R IH h' A. econstructor; [rewrite A; [exact E|left; reflexivity]|]. apply IH. intros b I. apply A. right. exact I.
  - intros a m ms o E K R IH h' A. econstructor; [rewrite A; [exact E|left; reflexivity]|exact K|]. apply IH. intros b I. apply A. right. exact I.
  - constructor.
  - intros it d o its ds os R IH Rs IHs h' A. apply agree_app in A as (A1 & A2). constructor; auto.
Qed.
Definition rep_frame h it d o h' R A := proj1 (rep_frame_both h) it d o R h' A.
Definition reps_frame h its ds o h' R A := proj2 (rep_frame_both h) its ds o R h' A.
Lemma rep_in_both h :
  (forall it d o, rep h it d o -> forall a, In a o -> a < length h) /\
  (forall its ds o, reps h its ds o -> forall a, In a o -> a < length h).
Proof.
  apply rep_reps.
  - contradiction.
  - intros a v t E b [<-|[]]. apply nth_error_Some. congruence.
  - intros a its ds o E R IH b [<-|I]; [apply nth_error_Some; congruence|auto].
  - intros a m ms o E K R IH b [<-|I]; [apply nth_error_Some; congruence|auto].
  - contradiction.
  - intros it d o its ds os R IH Rs IHs b I. apply in_app_or in I as [I|I]; auto.
Qed.
Definition rep_in h it d o R a I := proj1 (rep_in_both h) it d o R a I.
Definition reps_in h its ds o R a I := proj2 (rep_in_both h) its ds o R a I.
Lemma agree_more h e o : (forall a, In a o -> a < length h) -> agree h (h ++ e) o.
Proof. intros L a I. apply nth_error_app1. auto. Qed.
Lemma reps_length h its ds o : reps h its ds o -> length ds = length its.
Proof. induction 1; cbn; congruence. Qed.

(** One entry of a list of items, and the list with this entry replaced. *)
Lemma reps_focus h its ds o : reps h its ds o -> forall j d, nth_error ds j = Some d ->
  exists it o1 o0 o2, nth_error its j = Some it /\ rep h it d o0 /\ o = o1 ++ o0 ++ o2 /\
    forall h' it' d' o', agree h h' o1 -> agree h h' o2 -> rep h' it' d' o' -> reps h' (upd its j it') (upd ds j d') (o1 ++ o' ++ o2).
Proof.
  induction 1 as [|it d o its ds os R Rs IH]; intros j e E; [destruct j; discriminate|].
  destruct j as [|j]; cbn in E.
  - injection E as <-. exists it, [], o, os. split; [reflexivity|]. split; [exact R|]. split; [reflexivity|].
    intros h' it' d' o' _ A R'. cbn [upd app]. constructor; [exact R'|]. eapply reps_frame; eauto.
  - destruct (IH j e E) as (i & o1 & o0 & o2 & E1 & R1 & -> & F). exists i, (o ++ o1), o0, o2.
    split; [exact E1|]. split; [exact R1|]. split; [now rewrite app_assoc|].
    intros h' it' d' o' A1 A2 R'. apply agree_app in A1 as (A0 & A1). cbn [upd]. rewrite <- app_assoc. constructor; [eapply rep_frame; eauto|]. auto.
Qed.
Lemma reps_insert h its ds o : reps h its ds o -> forall j it d o', rep h it d o' -> j <= length its ->
  exists o1 o2, o = o1 ++ o2 /\ reps h (insert j it its) (insert j d ds) (o1 ++ o' ++ o2).
Proof.
  induction 1 as [|i e o its ds os R Rs IH]; intros j it d o' R' Hj.
  - exists [], []. cbn in Hj. assert (j = 0) by lia. subst j. split; [reflexivity|]. cbn. constructor; [exact R'|constructor].
  - destruct j as [|j].
    + exists [], (o ++ os). split; [reflexivity|]. cbn. constructor; [exact R'|]. constructor; auto.
    + destruct (IH j it d o' R' ltac:(cbn in Hj; lia)) as (o1 & o2 & -> & RR). exists (o ++ o1), o2.
      split; [now rewrite app_assoc|]. unfold insert in *. cbn [firstn skipn app]. rewrite <- app_assoc. constructor; auto.
Qed.
Lemma reps_app h its ds o its' ds' o' : reps h its ds o -> reps h its' ds' o' -> reps h (its ++ its') (ds ++ ds') (o ++ o').
Proof. induction 1; cbn [app]; [auto|]. rewrite <- app_assoc. constructor; auto. Qed.

(** *** Copying, decoding, building *)
Definition fresh_at (n : nat) (o : list nat) : Prop := NoDup o /\ Forall (fun a => n <= a) o.
Lemma fresh_app (h : list obj) n o o' : fresh_at n o -> fresh_at (length h) o' -> (forall a, In a o -> a < length h) -> n <= length h -> fresh_at n (o ++ o').
Proof.
  intros (N & F) (N' & F') L Hn. split.
  - apply GraphProofs.NoDup_app; auto. intros a I I'. specialize (L a I). pose proof (proj1 (Forall_forall _ _) F' a I'). cbn in *. lia.
  - apply Forall_app. split; [exact F|]. eapply Forall_impl; [|exact F']. cbn. lia.
Qed.
Lemma fresh_snoc (h : list obj) o n : fresh_at n o -> (forall a, In a o -> a < length h) -> n <= length h -> fresh_at n (length h :: o).
Proof.
  intros (N & F) L Hn. split; [|constructor; [exact Hn|exact F]]. constructor; [|exact N]. intros I. specialize (L _ I). lia.
Qed.
Lemma reps_more h e its ds o : reps h its ds o -> reps (h ++ e) its ds o.
Proof. intros R. eapply reps_frame; [exact R|]. apply agree_more. eapply reps_in; eauto. Qed.
Lemma rep_more h e it d o : rep h it d o -> rep (h ++ e) it d o.
Proof. intros R. eapply rep_frame; [exact R|]. apply agree_more. eapply rep_in; eauto. Qed.
Lemma nth_last {A} (h : list A) x : nth_error (h ++ [x]) (length h) = Some x.
Proof. rewrite nth_error_app2 by lia. now rewrite Nat.sub_diag. Qed.

Lemma copy_both h0 :
  (forall it d o, rep h0 it d o -> forall e n, length o < n -> exists e' it' o',
     copy n (h0 ++ e) it = Some (((h0 ++ e) ++ e'), it') /\ rep ((h0 ++ e) ++ e') it' d o' /\ fresh_at (length (h0 ++ e)) o') /\
  (forall its ds o, reps h0 its ds o -> forall e n, length o < n -> exists e' its' o',
     thread (copy n) (h0 ++ e) its = Some ((h0 ++ e) ++ e', its') /\ reps ((h0 ++ e) ++ e') its' ds o' /\ fresh_at (length (h0 ++ e)) o').
Proof.
  apply rep_reps.
  - intros e n Hn. destruct n as [|n]; [inversion Hn|]. exists [], null_item, []. rewrite app_nil_r. cbn. split; [reflexivity|]. split; [constructor|].
    split; constructor.
  - intros a v t E e n Hn. destruct n as [|n]; [inversion Hn|]. cbn [copy i_value].
    rewrite (nth_error_app1 h0 e) by (apply nth_error_Some; congruence). rewrite E. exists [OLeaf v t], (mkItem JtLeaf (Some (length (h0 ++ e)))), [length (h0 ++ e)].
    split; [reflexivity|]. split; [constructor; apply nth_last|]. split; constructor; auto; constructor.
  - intros a its ds o E R IH e n Hn. destruct n as [|n]; [inversion Hn|]. cbn [copy i_value i_type].
    rewrite (nth_error_app1 h0 e) by (apply nth_error_Some; congruence). rewrite E.
    destruct (IH e n ltac:(cbn in Hn; lia)) as (e1 & its' & o' & EC & R' & F). rewrite EC.
    exists (e1 ++ [OList its']), (mkItem JtList (Some (length ((h0 ++ e) ++ e1)))), (length ((h0 ++ e) ++ e1) :: o').
    rewrite !(app_assoc (h0 ++ e)). split; [reflexivity|]. split.
    + econstructor; [apply nth_last|]. now apply reps_more.
    + apply fresh_snoc; [exact F|eapply reps_in; eauto|rewrite (app_length (h0 ++ e)); lia].
  - intros a m ms o E K R IH e n Hn. destruct n as [|n]; [inversion Hn|]. cbn [copy i_value i_type].
    rewrite (nth_error_app1 h0 e) by (apply nth_error_Some; congruence). rewrite E.
    destruct (IH e n ltac:(cbn in Hn; lia)) as (e1 & its' & o' & EC & R' & F). rewrite EC.
    exists (e1 ++ [ODict (combine (map fst m) its')]), (mkItem JtDict (Some (length ((h0 ++ e) ++ e1)))), (length ((h0 ++ e) ++ e1) :: o').
    rewrite !(app_assoc (h0 ++ e)). split; [reflexivity|].
    assert (L : length its' = length (map fst m)).
    { pose proof (reps_length _ _ _ _ R') as L1. pose proof (reps_length _ _ _ _ R) as L2. rewrite <- L1, L2. now rewrite !map_length. }
    split.
    + econstructor; [apply nth_last| |]; [now rewrite map_fst_combine|]. rewrite map_snd_combine by exact L. now apply reps_more.
    + apply fresh_snoc; [exact F|eapply reps_in; eauto|rewrite (app_length (h0 ++ e)); lia].
  - intros e n Hn. exists [], [], []. rewrite app_nil_r. split; [reflexivity|]. split; [constructor|]. split; constructor.
  - intros it d o its ds os R IH Rs IHs e n Hn. rewrite app_length in Hn. cbn [thread].
    destruct (IH e n ltac:(lia)) as (e1 & it' & o1 & EC & R1 & F1). rewrite EC.
    destruct (IHs (e ++ e1) n ltac:(lia)) as (e2 & its' & o2 & EC2 & R2 & F2). rewrite (app_assoc h0) in EC2, R2, F2. rewrite EC2.
    exists (e1 ++ e2), (it' :: its'), (o1 ++ o2). rewrite !(app_assoc (h0 ++ e)). split; [reflexivity|]. split.
    + constructor; [now apply rep_more|exact R2].
    + eapply fresh_app; [exact F1|exact F2|eapply rep_in; eauto|rewrite (app_length (h0 ++ e)); lia].
Qed.
Lemma copy_ok h it d o n : rep h it d o -> length o < n -> exists e it' o',
  copy n h it = Some (h ++ e, it') /\ rep (h ++ e) it' d o' /\ fresh_at (length h) o'.
Proof. intros R Hn. pose proof (proj1 (copy_both h) it d o R [] n Hn) as X. rewrite app_nil_r in X. exact X. Qed.

Lemma all_some_ok {A B} (f : A -> option B) l l' : Forall2 (fun x y => f x = Some y) l l' -> all_some (map f l) = Some l'.
Proof. induction 1 as [|x y l l' E _ IH]; cbn; [reflexivity|]. now rewrite E, IH. Qed.
Lemma decode_both h :
  (forall it d o, rep h it d o -> forall n, length o < n -> decode n h it = Some d) /\
  (forall its ds o, reps h its ds o -> forall n, length o < n -> Forall2 (fun it d => decode n h it = Some d) its ds).
Proof.
  apply rep_reps.
  - intros n Hn. destruct n as [|n]; [inversion Hn|]. reflexivity.
  - intros a v t E n Hn. destruct n as [|n]; [inversion Hn|]. cbn. now rewrite E.
  - intros a its ds o E R IH n Hn. destruct n as [|n]; [inversion Hn|]. cbn [decode i_value]. rewrite E.
    rewrite (all_some_ok _ _ _ (IH n ltac:(cbn in Hn; lia))). reflexivity.
  - intros a m ms o E K R IH n Hn. destruct n as [|n]; [inversion Hn|]. cbn [decode i_value]. rewrite E.
    rewrite (all_some_ok _ _ _ (IH n ltac:(cbn in Hn; lia))). cbn. now rewrite K, combine_split.
  - constructor.
  - intros it d o its ds os R IH Rs IHs n Hn. rewrite app_length in Hn. constructor; [apply IH|apply IHs]; lia.
Qed.

Lemma build_ok d : forall h, exists e it o, build h d = Some (h ++ e, it) /\ rep (h ++ e) it d o /\ fresh_at (length h) o.
Proof.
  assert (TH : forall A (doc : A -> json) (bd : list obj -> A -> option (list obj * item)) l,
    Forall (fun x => forall h, exists e it o, bd h x = Some (h ++ e, it) /\ rep (h ++ e) it (doc x) o /\ fresh_at (length h) o) l ->
    forall h, exists e its o, thread bd h l = Some (h ++ e, its) /\ reps (h ++ e) its (map doc l) o /\ fresh_at (length h) o).
  { intros A doc bd l. induction 1 as [|x l Hx _ IH]; intros h.
    - exists [], [], []. rewrite app_nil_r. split; [reflexivity|]. split; [constructor|]. split; constructor.
    - destruct (Hx h) as (e1 & it & o1 & E1 & R1 & F1). destruct (IH (h ++ e1)) as (e2 & its & o2 & E2 & R2 & F2).
      exists (e1 ++ e2), (it :: its), (o1 ++ o2). cbn [thread map]. rewrite E1, E2, app_assoc. split; [reflexivity|]. split.
      + constructor; [now apply rep_more|exact R2].
      + eapply fresh_app; [exact F1|exact F2|eapply rep_in; eauto|rewrite app_length; lia]. }
  induction d as [|v t|l IH|m IH] using json_ind'; intros h.
  - exists [], null_item, []. rewrite app_nil_r. split; [reflexivity|]. split; [constructor|]. split; constructor.
  - exists [OLeaf v t], (mkItem JtLeaf (Some (length h))), [length h]. split; [reflexivity|]. split; [constructor; apply nth_last|].
    split; constructor; auto; constructor.
  - destruct (TH _ (fun d => d) _ l IH h) as (e & its & o & E & R & F). cbn [build]. rewrite E. rewrite map_id in R.
    exists (e ++ [OList its]), (mkItem JtList (Some (length (h ++ e)))), (length (h ++ e) :: o). rewrite app_assoc. split; [reflexivity|]. split.
    + econstructor; [apply nth_last|]. now apply reps_more.
    + apply fresh_snoc; [exact F|eapply reps_in; eauto|rewrite app_length; lia].
  - destruct (TH _ (fun p => snd p) (fun h p => build h (snd p)) m IH h) as (e & its & o & E & R & F). cbn [build]. rewrite E.
    exists (e ++ [ODict (combine (map fst m) its)]), (mkItem JtDict (Some (length (h ++ e)))), (length (h ++ e) :: o). rewrite app_assoc. split; [reflexivity|].
    assert (L : length its = length (map fst m)) by (pose proof (reps_length _ _ _ _ R) as L1; rewrite map_length in *; lia).
    split.
    + econstructor; [apply nth_last| |]; [now rewrite map_fst_combine|]. rewrite map_snd_combine by exact L. now apply reps_more.
    + apply fresh_snoc; [exact F|eapply reps_in; eauto|rewrite app_length; lia].
Qed.

Lemma bounded_length (o : list nat) n : NoDup o -> (forall a, In a o -> a < n) -> length o <= n.
Proof.
  intros N L. rewrite <- (seq_length n 0). apply NoDup_incl_length; [exact N|]. intros a I. apply in_seq. specialize (L a I). lia.
Qed.

(** *** Reading and writing through references *)
Lemma load_push s o l it : load s l = Some it -> load (push s o) l = Some it.
Proof.
  destruct l as [x|a i|a k]; cbn; auto; intros E.
  - destruct (nth_error (j_cells s) a) eqn:EA; [|discriminate]. rewrite nth_error_app1 by (apply nth_error_Some; congruence). now rewrite EA.
  - destruct (nth_error (j_cells s) a) eqn:EA; [|discriminate]. rewrite nth_error_app1 by (apply nth_error_Some; congruence). now rewrite EA.
Qed.
Lemma store_ok s l it it' : load s l = Some it -> exists s', store s l it' = Some s'.
Proof.
  intros E. unfold store. rewrite E. destruct l as [x|a i|a k]; cbn in E; [eauto| |];
  destruct (nth_error (j_cells s) a) as [[]|]; try discriminate; eauto.
Qed.
Lemma load_store s l it s' l' : store s l it = Some s' -> load s' l' = if
  (match l, l' with
   | LVar x, LVar y => if Nat.eq_dec x y then true else false
   | LIdx a i, LIdx b j => if Nat.eq_dec a b then if Nat.eq_dec i j then true else false else false
   | LKey a k, LKey b q => if Nat.eq_dec a b then if list_eq_dec Ascii.ascii_dec k q then true else false else false
   | _, _ => false
   end) then Some it else load s l'.
Proof.
  unfold store. destruct (load s l) as [it0|] eqn:E0; [|discriminate]. destruct l as [x|a i|a k]; cbn in E0.
  - intros E. injection E as <-. destruct l' as [y|b j|b q]; cbn; try reflexivity.
    destruct (Nat.eq_dec x y) as [<-|N]; [apply nth_error_upd_same, nth_error_Some; congruence|apply nth_error_upd_other; auto].
  - destruct (nth_error (j_cells s) a) as [[v t|its|m]|] eqn:EA; try discriminate. intros E. injection E as <-.
    assert (La : a < length (j_cells s)) by (apply nth_error_Some; congruence).
    destruct l' as [y|b j|b q]; cbn; try reflexivity.
    + destruct (Nat.eq_dec a b) as [<-|N]; [|now rewrite nth_error_upd_other by auto]. rewrite nth_error_upd_same by exact La. rewrite EA.
      destruct (Nat.eq_dec i j) as [<-|N]; [apply nth_error_upd_same, nth_error_Some; congruence|apply nth_error_upd_other; auto].
    + destruct (Nat.eq_dec a b) as [<-|N]; [|now rewrite nth_error_upd_other by auto]. rewrite nth_error_upd_same by exact La. now rewrite EA.
  - destruct (nth_error (j_cells s) a) as [[v t|its|m]|] eqn:EA; try discriminate. intros E. injection E as <-.
    assert (La : a < length (j_cells s)) by (apply nth_error_Some; congruence).
    destruct l' as [y|b j|b q]; cbn; try reflexivity.
    + destruct (Nat.eq_dec a b) as [<-|N]; [|now rewrite nth_error_upd_other by auto]. rewrite nth_error_upd_same by exact La. now rewrite EA.
    + destruct (Nat.eq_dec a b) as [<-|N]; [|now rewrite nth_error_upd_other by auto]. rewrite nth_error_upd_same by exact La. rewrite EA.
      destruct (list_eq_dec Ascii.ascii_dec k q) as [<-|N]; [eapply find_put; eauto|apply find_put_other; auto].
Qed.

(** Items stay where they are; those with a value keep it. *)
Definition grown (s s' : jstate) : Prop :=
  forall l it, load s l = Some it -> exists it', load s' l = Some it' /\ (i_value it <> None -> it' = it).
Lemma grown_refl s : grown s s.
Proof. intros l it E. eauto. Qed.
Lemma grown_trans s s1 s2 : grown s s1 -> grown s1 s2 -> grown s s2.
Proof.
  intros A B l it E. destruct (A l it E) as (it1 & E1 & K1). destruct (B l it1 E1) as (it2 & E2 & K2). exists it2. split; [exact E2|].
  intros N. specialize (K1 N). subst it1. auto.
Qed.
Lemma grown_cells s e : grown s (mkJ (j_vars s) (j_cells s ++ e)).
Proof.
  intros l it E. exists it. split; [|auto]. destruct l as [x|a i|a k]; cbn in *; auto;
  (destruct (nth_error (j_cells s) a) eqn:EA; [|discriminate]); rewrite nth_error_app1 by (apply nth_error_Some; congruence); now rewrite EA.
Qed.
Lemma grown_store s l it it' s' : load s l = Some it -> i_value it = None -> store s l it' = Some s' -> grown s s'.
Proof.
  intros E V St l1 it1 E1. rewrite (load_store _ _ _ _ l1 St).
  match goal with |- context [if ?b then _ else _] => destruct b eqn:EB end; [|eauto].
  exists it'. split; [reflexivity|]. intros N. exfalso. apply N.
  assert (l1 = l).
  { destruct l, l1; try discriminate.
    - destruct (Nat.eq_dec _ _); [congruence|discriminate].
    - destruct (Nat.eq_dec _ _); [|discriminate]. destruct (Nat.eq_dec _ _); [congruence|discriminate].
    - destruct (Nat.eq_dec _ _); [|discriminate]. destruct (list_eq_dec _ _ _); [congruence|discriminate]. }
  subst l1. congruence.
Qed.
Lemma grown_new_key s a m k : nth_error (j_cells s) a = Some (ODict m) -> find_key k m = None ->
  grown s (mkJ (j_vars s) (upd (j_cells s) a (ODict (new_key k null_item m)))).
Proof.
  intros EA F l it E. exists it. split; [|auto].
  assert (La : a < length (j_cells s)) by (apply nth_error_Some; congruence).
  destruct l as [x|b i|b q]; cbn in *; auto.
  - destruct (Nat.eq_dec b a) as [->|N]; [|now rewrite nth_error_upd_other]. rewrite EA in E. discriminate.
  - destruct (Nat.eq_dec b a) as [->|N]; [|now rewrite nth_error_upd_other]. rewrite nth_error_upd_same by exact La. rewrite EA in E.
    rewrite find_new_other; [exact E|]. intros ->. congruence.
Qed.

(** The reference an at() returns. *)
Definition next_loc (a : nat) (q : jstep) : loc := match q with SIdx i => LIdx a i | SKey k => LKey a k end.
Lemma at_step_ok s l q l' : at_step s l q = Ok l' <->
  exists it a it', load s l = Some it /\ i_value it = Some a /\ l' = next_loc a q /\ load s l' = Some it'.
Proof.
  unfold at_step. split.
  - destruct (load s l) as [it|]; [|discriminate]. destruct (i_value it) as [a|] eqn:V; [|discriminate].
    destruct (nth_error (j_cells s) a) as [[v t|its|m]|] eqn:EA; [destruct q; discriminate| | |destruct q; discriminate].
    + destruct q as [i|k]; [|discriminate]. destruct (Nat.ltb_spec i (length its)); [|discriminate]. intros E. injection E as <-.
      destruct (nth_error its i) as [it'|] eqn:Ei; [|apply nth_error_None in Ei; lia].
      exists it, a, it'. split; [reflexivity|]. split; [exact V|]. split; [reflexivity|]. cbn. now rewrite EA.
    + destruct q as [i|k]; [discriminate|]. destruct (find_key k m) as [it'|] eqn:Ei; [|discriminate]. intros E. injection E as <-.
      exists it, a, it'. split; [reflexivity|]. split; [exact V|]. split; [reflexivity|]. cbn. now rewrite EA.
  - intros (it & a & it' & E & V & -> & E'). rewrite E, V. destruct q as [i|k]; cbn in E'; (destruct (nth_error (j_cells s) a) as [[v t|its|m]|]; try discriminate).
    + destruct (Nat.ltb_spec i (length its)); [reflexivity|]. exfalso. assert (nth_error its i <> None) by congruence.
      apply nth_error_Some in H0. lia.
    + now rewrite E'.
Qed.
Lemma at_step_grown s s' l q l' : grown s s' -> at_step s l q = Ok l' -> at_step s' l q = Ok l'.
Proof.
  intros G E. apply at_step_ok in E as (it & a & it' & E & V & -> & E'). apply at_step_ok.
  destruct (G _ _ E) as (it1 & E1 & K1). rewrite K1 in E1 by congruence. destruct (G _ _ E') as (it2 & E2 & _). eauto 8.
Qed.
Lemma walk_at_grown s s' p : grown s s' -> forall l l', walk_at s l p = Ok l' -> walk_at s' l p = Ok l'.
Proof.
  intros G. induction p as [|q p IH]; intros l l' E; [exact E|]. cbn [walk_at] in *.
  destruct (at_step s l q) as [l1| |] eqn:E1; try discriminate. cbn [bind] in E. rewrite (at_step_grown _ _ _ _ _ G E1). cbn [bind]. auto.
Qed.
Lemma walk_at_app s p : forall l p', walk_at s l (p ++ p') = (l1 <- walk_at s l p ;; walk_at s l1 p').
Proof. induction p as [|q p IH]; intros l p'; [reflexivity|]. cbn [app walk_at]. destruct (at_step s l q); cbn [bind]; auto. Qed.

(** *** Values at places *)
Lemma dat_app d p p' : dat d (p ++ p') = (e <- dat d p ;; dat e p').
Proof.
  revert d. induction p as [|[i|k] p IH]; intros d; [reflexivity| |]; cbn [app dat]; destruct d as [|v t|l|m]; try reflexivity.
  - destruct (nth_error l i); [apply IH|reflexivity].
  - destruct (find_key k m); [apply IH|reflexivity].
Qed.
Lemma put_app d p : forall p' y e, dat d p = Ok e -> put d (p ++ p') y = put d p (put e p' y).
Proof.
  revert d. induction p as [|[i|k] p IH]; intros d p' y e E; cbn [app put dat] in *; [now injection E as ->| |]; destruct d as [|v t|l|m]; try discriminate.
  - destruct (nth_error l i) as [x|]; [|discriminate]. now rewrite (IH x p' y e E).
  - destruct (find_key k m) as [x|]; [|discriminate]. now rewrite (IH x p' y e E).
Qed.
Lemma dat_put d p : forall e y, dat d p = Ok e -> dat (put d p y) p = Ok y.
Proof.
  revert d. induction p as [|[i|k] p IH]; intros d e y E; cbn [put dat] in *; [reflexivity| |]; destruct d as [|v t|l|m]; try discriminate.
  - destruct (nth_error l i) as [x|] eqn:Ei; [|discriminate]. rewrite nth_error_upd_same by (apply nth_error_Some; congruence). eauto.
  - destruct (find_key k m) as [x|] eqn:Ei; [|discriminate]. rewrite (find_put _ _ _ _ Ei). eauto.
Qed.
Lemma put_put d p : forall e y z, dat d p = Ok e -> put (put d p y) p z = put d p z.
Proof.
  revert d. induction p as [|[i|k] p IH]; intros d e y z E; cbn [put dat] in *; [reflexivity| |]; destruct d as [|v t|l|m]; try discriminate.
  - destruct (nth_error l i) as [x|] eqn:Ei; [|discriminate]. rewrite nth_error_upd_same by (apply nth_error_Some; congruence).
    now rewrite upd_upd, (IH x e y z E).
  - destruct (find_key k m) as [x|] eqn:Ei; [|discriminate]. rewrite (find_put _ _ _ _ Ei). now rewrite put_put_key, (IH x e y z E).
Qed.
Lemma upd_same {A} (l : list A) i x : nth_error l i = Some x -> upd l i x = l.
Proof. revert i. induction l as [|y l IH]; intros [|i]; cbn; intros E; try discriminate; [congruence|]. now rewrite IH. Qed.
Lemma put_self d p : forall e, dat d p = Ok e -> put d p e = d.
Proof.
  revert d. induction p as [|[i|k] p IH]; intros d e E; cbn [put dat] in *; [now injection E as ->| |]; destruct d as [|v t|l|m]; try discriminate.
  - destruct (nth_error l i) as [x|] eqn:Ei; [|discriminate]. rewrite (IH x e E). now rewrite upd_same.
  - destruct (find_key k m) as [x|] eqn:Ei; [|discriminate]. rewrite (IH x e E). now rewrite put_same_key.
Qed.

(** [s'] has [it'] at the reference [l] and is otherwise as [s] at the addresses [o]. *)
Definition written (s : jstate) (l : loc) (it' : item) (s' : jstate) (o : list nat) : Prop :=
  match l with
  | LVar x => j_vars s' = upd (j_vars s) x it' /\ agree (j_cells s) (j_cells s') o
  | LIdx a i => j_vars s' = j_vars s /\
      (exists its, nth_error (j_cells s) a = Some (OList its) /\ nth_error (j_cells s') a = Some (OList (upd its i it'))) /\
      (forall b, In b o -> b <> a -> nth_error (j_cells s') b = nth_error (j_cells s) b)
  | LKey a k => j_vars s' = j_vars s /\
      (exists m, nth_error (j_cells s) a = Some (ODict m) /\ nth_error (j_cells s') a = Some (ODict (put_key k it' m))) /\
      (forall b, In b o -> b <> a -> nth_error (j_cells s') b = nth_error (j_cells s) b)
  end.
Definition holder_in (l : loc) (o : list nat) : Prop := match l with LVar _ => True | LIdx a _ | LKey a _ => In a o end.
Lemma written_same s l it s' o : load s l = Some it -> holder_in l o -> j_vars s' = j_vars s -> agree (j_cells s) (j_cells s') o -> written s l it s' o.
Proof.
  intros E Hl V A. destruct l as [x|a i|a k]; cbn in *.
  - split; [|exact A]. rewrite V. symmetry. now apply upd_same.
  - split; [exact V|]. split; [|intros b I _; apply A, I]. rewrite (A a Hl). destruct (nth_error (j_cells s) a) as [[v t|its|m]|]; try discriminate.
    exists its. split; [reflexivity|]. now rewrite upd_same.
  - split; [exact V|]. split; [|intros b I _; apply A, I]. rewrite (A a Hl). destruct (nth_error (j_cells s) a) as [[v t|its|m]|]; try discriminate.
    exists m. split; [reflexivity|]. now rewrite put_same_key.
Qed.
Lemma written_store s l it' s' o : store s l it' = Some s' -> written s l it' s' o.
Proof.
  unfold store. destruct (load s l) as [it|] eqn:E; [|discriminate]. destruct l as [x|a i|a k]; cbn in *.
  - intros S. injection S as <-. cbn. split; [reflexivity|]. intros b _. reflexivity.
  - destruct (nth_error (j_cells s) a) as [[v t|its|m]|] eqn:EA; try discriminate. intros S. injection S as <-. cbn. split; [reflexivity|].
    split; [exists its; split; [reflexivity|]; apply nth_error_upd_same, nth_error_Some; congruence|]. intros b _ N. now apply nth_error_upd_other.
  - destruct (nth_error (j_cells s) a) as [[v t|its|m]|] eqn:EA; try discriminate. intros S. injection S as <-. cbn. split; [reflexivity|].
    split; [exists m; split; [reflexivity|]; apply nth_error_upd_same, nth_error_Some; congruence|]. intros b _ N. now apply nth_error_upd_other.
Qed.

Record located (s : jstate) (docs : list json) (pl : place) (l : loc) (it : item) (d : json) (o1 o0 o2 : list nat) : Prop := {
  lc_load : load s l = Some it;
  lc_rep : rep (j_cells s) it d o0;
  lc_value : sat docs pl = Ok d;
  lc_holder : holder_in l o1;
  lc_put : forall s' it' d' o', written s l it' s' (o1 ++ o2) -> rep (j_cells s') it' d' o' ->
    reps (j_cells s') (j_vars s') (sput docs pl d') (o1 ++ o' ++ o2)
}.

Ltac aeq := repeat (cbn [app]; rewrite <- ?app_assoc); reflexivity.
Lemma NoDup_mid {A} (a : A) o1 o2 : NoDup (o1 ++ a :: o2) -> ~ In a o1 /\ ~ In a o2.
Proof. intros N. apply NoDup_remove_2 in N. split; intros I; apply N, in_or_app; auto. Qed.
Lemma sat_snoc docs x p q d : sat docs (x, p) = Ok d -> sat docs (x, p ++ [q]) = dat d [q].
Proof. unfold sat. cbn [fst snd]. destruct (nth_error docs x); [|discriminate]. intros E. now rewrite dat_app, E. Qed.
Lemma sput_snoc docs x p q d y : sat docs (x, p) = Ok d -> sput docs (x, p ++ [q]) y = sput docs (x, p) (put d [q] y).
Proof. unfold sat, sput. cbn [fst snd]. destruct (nth_error docs x); [|discriminate]. intros E. now rewrite (put_app _ _ _ _ _ E). Qed.

Lemma located_at s docs o : reps (j_cells s) (j_vars s) docs o -> NoDup o -> forall x p l, x < length docs -> walk_at s (LVar x) p = Ok l ->
  exists it d o1 o0 o2, o = o1 ++ o0 ++ o2 /\ located s docs (x, p) l it d o1 o0 o2.
Proof.
  intros R ND x p. induction p as [|q p IH] using rev_ind; intros l Hx E.
  - cbn in E. injection E as <-. destruct (nth_error docs x) as [d|] eqn:Ed; [|apply nth_error_None in Ed; lia].
    destruct (reps_focus _ _ _ _ R x d Ed) as (it & o1 & o0 & o2 & Ei & Ri & -> & F). exists it, d, o1, o0, o2. split; [reflexivity|].
    constructor; cbn [load holder_in written]; auto.
    + unfold sat. cbn [fst snd]. now rewrite Ed.
    + intros s' it' d' o' (V & A) R'. apply agree_app in A as (A1 & A2). rewrite V. unfold sput. cbn [fst snd put]. rewrite Ed. apply F; auto.
  - rewrite walk_at_app in E. destruct (walk_at s (LVar x) p) as [l1| |] eqn:E1; try discriminate. cbn [bind walk_at] in E.
    destruct (at_step s l1 q) as [l2| |] eqn:E2; try discriminate. cbn [bind] in E. injection E as ->.
    destruct (IH l1 Hx eq_refl) as (it & d & o1 & o0 & o2 & -> & [LL LR LV LH LP]).
    apply at_step_ok in E2 as (it0 & a & it' & E2 & V & -> & E3). rewrite LL in E2. injection E2 as <-.
    inversion LR as [|a' v t EA|a' its ds o' EA Rs|a' m ms o' EA K Rs]; subst; cbn in V; try discriminate; injection V as ->.
    + destruct q; cbn in E3; rewrite EA in E3; discriminate.
    + destruct q as [i|k]; cbn in E3; rewrite EA in E3; [|discriminate].
      pose proof (reps_length _ _ _ _ Rs) as Ld. assert (Hi : i < length its) by (apply nth_error_Some; congruence).
      destruct (nth_error ds i) as [di|] eqn:Ei; [|apply nth_error_None in Ei; lia].
      destruct (reps_focus _ _ _ _ Rs i di Ei) as (it2 & p1 & p0 & p2 & Ei2 & Ri & -> & F). rewrite E3 in Ei2. injection Ei2 as <-.
      exists it', di, (o1 ++ a :: p1), p0, (p2 ++ o2). split; [aeq|].
      constructor; cbn [load holder_in next_loc].
      * now rewrite EA.
      * exact Ri.
      * rewrite (sat_snoc _ _ _ _ _ LV). cbn. now rewrite Ei.
      * apply in_or_app. right. left. reflexivity.
      * intros s' itn dn on (SV & (its1 & EA1 & EA2) & AG) R'. rewrite EA in EA1. injection EA1 as <-.
        assert (N1 : ~ In a o1 /\ ~ In a ((p1 ++ p0 ++ p2) ++ o2)) by (apply NoDup_mid; cbn [app] in ND; exact ND).
        destruct N1 as (N1 & N2).
        rewrite (sput_snoc _ _ _ _ _ _ LV). cbn [put]. rewrite Ei.
        replace ((o1 ++ a :: p1) ++ on ++ p2 ++ o2) with (o1 ++ (a :: p1 ++ on ++ p2) ++ o2) by aeq.
        apply (LP s' (mkItem JtList (Some a))).
        -- apply written_same; auto; [destruct l1; cbn in *; auto; apply in_or_app; auto|]. intros b I. apply AG.
           ++ apply in_app_or in I as [I|I]; apply in_or_app; [left; apply in_or_app; auto|right; apply in_or_app; auto].
           ++ intros ->. apply in_app_or in I as [I|I]; [auto|apply N2, in_or_app; auto].
        -- apply (rep_list _ a (upd its i itn)); [exact EA2|]. apply F.
           ++ intros b I. apply AG; [apply in_or_app; left; apply in_or_app; right; right; exact I|]. intros ->. apply N2, in_or_app. left. apply in_or_app. auto.
           ++ intros b I. apply AG; [apply in_or_app; right; apply in_or_app; left; exact I|]. intros ->. apply N2, in_or_app. left. apply in_or_app. right. apply in_or_app. auto.
           ++ exact R'.
    + destruct q as [i|k]; cbn in E3; rewrite EA in E3; [discriminate|].
      pose proof E3 as E3'. rewrite find_pos in E3'. destruct (pos k (map fst m)) as [j|] eqn:EP; [|discriminate].
      pose proof (reps_length _ _ _ _ Rs) as Ld. assert (Hj : j < length (map snd m)) by (apply nth_error_Some; congruence).
      destruct (nth_error (map snd ms) j) as [di|] eqn:Ei; [|apply nth_error_None in Ei; lia].
      assert (EF : find_key k ms = Some di) by (rewrite find_pos, <- K, EP; exact Ei).
      destruct (reps_focus _ _ _ _ Rs j di Ei) as (it2 & p1 & p0 & p2 & Ei2 & Ri & -> & F). rewrite E3' in Ei2. injection Ei2 as <-.
      exists it', di, (o1 ++ a :: p1), p0, (p2 ++ o2). split; [aeq|].
      constructor; cbn [load holder_in next_loc].
      * now rewrite EA.
      * exact Ri.
      * rewrite (sat_snoc _ _ _ _ _ LV). cbn. now rewrite EF.
      * apply in_or_app. right. left. reflexivity.
      * intros s' itn dn on (SV & (its1 & EA1 & EA2) & AG) R'. rewrite EA in EA1. injection EA1 as <-.
        assert (N1 : ~ In a o1 /\ ~ In a ((p1 ++ p0 ++ p2) ++ o2)) by (apply NoDup_mid; cbn [app] in ND; exact ND).
        destruct N1 as (N1 & N2).
        rewrite (sput_snoc _ _ _ _ _ _ LV). cbn [put]. rewrite EF.
        replace ((o1 ++ a :: p1) ++ on ++ p2 ++ o2) with (o1 ++ (a :: p1 ++ on ++ p2) ++ o2) by aeq.
        apply (LP s' (mkItem JtDict (Some a))).
        -- apply written_same; auto; [destruct l1; cbn in *; auto; apply in_or_app; auto|]. intros b I. apply AG.
           ++ apply in_app_or in I as [I|I]; apply in_or_app; [left; apply in_or_app; auto|right; apply in_or_app; auto].
           ++ intros ->. apply in_app_or in I as [I|I]; [auto|apply N2, in_or_app; auto].
        -- destruct (put_pos k itn m j EP) as (Q1 & Q2). destruct (put_pos k dn ms j ltac:(now rewrite <- K)) as (Q3 & Q4).
           apply (rep_dict _ a (put_key k itn m)); [exact EA2|congruence|]. rewrite Q2, Q4. apply F.
           ++ intros b I. apply AG; [apply in_or_app; left; apply in_or_app; right; right; exact I|]. intros ->. apply N2, in_or_app. left. apply in_or_app. auto.
           ++ intros b I. apply AG; [apply in_or_app; right; apply in_or_app; left; exact I|]. intros ->. apply N2, in_or_app. left. apply in_or_app. right. apply in_or_app. auto.
           ++ exact R'.
Qed.

(** *** The operations *)
Lemma NoDup_drop {A} (o1 o2 : list A) : NoDup (o1 ++ o2) -> NoDup o2.
Proof. induction o1 as [|a o1 IH]; [auto|]. cbn. intros N. inversion N; auto. Qed.
Lemma disjoint_mid (o1 o0 o2 o' : list nat) : NoDup (o1 ++ o0 ++ o2) -> NoDup o' -> (forall a, In a (o1 ++ o0 ++ o2) -> ~ In a o') -> NoDup (o1 ++ o' ++ o2).
Proof.
  intros N N' D. assert (P : NoDup (o0 ++ o1 ++ o2)).
  { eapply Permutation_NoDup; [|exact N]. rewrite app_assoc, (app_assoc o0). apply Permutation_app_tail. apply Permutation_app_comm. }
  apply NoDup_drop in P.
  eapply Permutation_NoDup; [|exact (NoDup_app o' (o1 ++ o2) N' P ltac:(intros a I I'; apply (D a); [|exact I]; apply in_app_or in I' as [I'|I']; apply in_or_app; [auto|right; apply in_or_app; auto]))].
  rewrite app_assoc, (app_assoc o1). apply Permutation_app_tail. apply Permutation_app_comm.
Qed.
(** A reference is overwritten with an item of its own. *)
Lemma store_holds s docs o x p l it' s' d' o' : reps (j_cells s) (j_vars s) docs o -> NoDup o -> x < length docs ->
  walk_at s (LVar x) p = Ok l -> store s l it' = Some s' -> rep (j_cells s) it' d' o' -> NoDup o' -> (forall a, In a o -> ~ In a o') ->
  holds s' (sput docs (x, p) d').
Proof.
  intros R N Hx W St R' N' D. destruct (located_at s docs o R N x p l Hx W) as (it & d & o1 & o0 & o2 & -> & [LL LR LV LH LP]).
  exists (o1 ++ o' ++ o2). split; [|eapply disjoint_mid; eauto]. eapply LP; [apply written_store; exact St|].
  eapply rep_frame; [exact R'|]. pose proof (written_store s l it' s' o' St) as WR. intros b I.
  destruct l as [y|a i|a k]; cbn in WR, LH.
  - destruct WR as (_ & A). apply A, I.
  - destruct WR as (_ & _ & A). apply A; [exact I|]. intros ->. apply (D a); [apply in_or_app; auto|exact I].
  - destruct WR as (_ & _ & A). apply A; [exact I|]. intros ->. apply (D a); [apply in_or_app; auto|exact I].
Qed.

Lemma sput_length docs pl y : length (sput docs pl y) = length docs.
Proof. unfold sput. destruct (nth_error docs (fst pl)); [apply upd_length|reflexivity]. Qed.
Lemma sat_sput docs pl d y : sat docs pl = Ok d -> sat (sput docs pl y) pl = Ok y.
Proof.
  destruct pl as (x, p). unfold sat, sput. cbn [fst snd]. destruct (nth_error docs x) as [e|] eqn:E; [|discriminate]. intros D.
  rewrite nth_error_upd_same by (apply nth_error_Some; congruence). eapply dat_put; eauto.
Qed.
Lemma sput_sput docs pl d y z : sat docs pl = Ok d -> sput (sput docs pl y) pl z = sput docs pl z.
Proof.
  destruct pl as (x, p). unfold sat, sput. cbn [fst snd]. destruct (nth_error docs x) as [e|] eqn:E; [|rewrite E; discriminate]. intros D.
  rewrite nth_error_upd_same by (apply nth_error_Some; congruence). now rewrite upd_upd, (put_put _ _ _ _ _ D).
Qed.
Lemma sput_self docs pl d : sat docs pl = Ok d -> sput docs pl d = docs.
Proof.
  destruct pl as (x, p). unfold sat, sput. cbn [fst snd]. destruct (nth_error docs x) as [e|] eqn:E; [|discriminate]. intros D.
  rewrite (put_self _ _ _ D). now apply upd_same.
Qed.

(** An item without value gets an empty object, others keep theirs. *)
Definition empty_doc (o : obj) : json := match o with ODict _ => JDict [] | _ => JList [] end.
Lemma ensure_null s docs x p l e0 : holds s docs -> x < length docs -> walk_at s (LVar x) p = Ok l -> sat docs (x, p) = Ok JNull ->
  (e0 = ODict [] \/ e0 = OList []) ->
  exists s' a, ensure e0 s l = Some (s', a) /\ holds s' (sput docs (x, p) (empty_doc e0)) /\ grown s s' /\ walk_at s' (LVar x) p = Ok l.
Proof.
  intros (o & R & N) Hx W V Ho. destruct (located_at s docs o R N x p l Hx W) as (it & d & o1 & o0 & o2 & Eo & [LL LR LV LH LP]).
  rewrite V in LV. injection LV as <-. inversion LR; subst it. unfold ensure. rewrite LL. cbn [i_type null_item].
  assert (G1 : grown s (push s e0)) by apply grown_cells.
  destruct (store_ok _ _ _ (mkItem (otype e0) (Some (length (j_cells s)))) (load_push s e0 _ _ LL)) as (s' & ES). rewrite ES.
  assert (G2 : grown (push s e0) s') by (eapply grown_store; [apply load_push; exact LL|reflexivity|exact ES]).
  exists s', (length (j_cells s)). split; [reflexivity|]. assert (G : grown s s') by (eapply grown_trans; [exact G1|exact G2]). split; [|split; [exact G|eapply walk_at_grown; [exact G|exact W]]].
  eapply (store_holds (push s e0) docs o x p l _ s' _ [length (j_cells s)]).
  - cbn. now apply reps_more.
  - exact N.
  - exact Hx.
  - eapply walk_at_grown; eauto.
  - exact ES.
  - destruct Ho as [-> | ->]; cbn; [eapply (rep_dict _ _ [] []); [apply nth_last|reflexivity|constructor]|eapply rep_list; [apply nth_last|constructor]].
  - repeat constructor; auto.
  - intros a I [<-|[]]. pose proof (reps_in _ _ _ _ R _ I). lia.
Qed.

(** The object of an item is replaced. *)
Lemma cell_holds s docs o x p l it a ob d d' o1 o0 o2 o' : located s docs (x, p) l it d o1 o0 o2 -> o = o1 ++ o0 ++ o2 -> i_value it = Some a -> NoDup o -> In a o0 ->
  rep (upd (j_cells s) a ob) it d' o' -> NoDup (o1 ++ o' ++ o2) ->
  holds (mkJ (j_vars s) (upd (j_cells s) a ob)) (sput docs (x, p) d').
Proof.
  intros [LL LR LV LH LP] -> V N I R' N'. exists (o1 ++ o' ++ o2). split; [|exact N']. apply LP with (it' := it); [|exact R'].
  apply written_same; auto; [destruct l; cbn in *; auto; apply in_or_app; auto|].
  intros b Ib. cbn. apply nth_error_upd_other. intros ->.
  assert (P : NoDup (o0 ++ o1 ++ o2)).
  { eapply Permutation_NoDup; [|exact N]. rewrite app_assoc, (app_assoc o0). apply Permutation_app_tail. apply Permutation_app_comm. }
  clear - P I Ib. induction o0 as [|c o0 IH]; [contradiction|]. cbn [app] in P. inversion P as [|? ? Nc Pc]; subst.
  destruct I as [->|I]; [|auto]. apply Nc, in_or_app. auto.
Qed.

Definition with_key (k : text) (m : list (text * json)) : list (text * json) := match find_key k m with Some _ => m | None => new_key k JNull m end.
Lemma sub_key_dict s docs x p l k m : holds s docs -> x < length docs -> walk_at s (LVar x) p = Ok l -> sat docs (x, p) = Ok (JDict m) ->
  exists s' l', sub_key s l k = (s', Ok l') /\ holds s' (sput docs (x, p) (JDict (with_key k m))) /\ grown s s' /\ at_step s' l (SKey k) = Ok l'.
Proof.
  intros HH Hx W V. pose proof HH as (o & R & N). destruct (located_at s docs o R N x p l Hx W) as (it & d & o1 & o0 & o2 & Eo & LC). pose proof LC as [LL LR LV LH LP].
  rewrite V in LV. injection LV as <-. inversion LR as [| | |a mi ms ow EA K Rs]; subst it ms o0. unfold sub_key, ensure. rewrite LL. cbn [i_type i_value]. rewrite EA.
  assert (FF : find_key k m = None <-> find_key k mi = None).
  { rewrite !find_pos, K. destruct (pos k (map fst m)) as [j|] eqn:EP; [|tauto]. pose proof (pos_lt _ _ _ EP) as Hj.
    pose proof (reps_length _ _ _ _ Rs) as Ld. rewrite !map_length in *.
    split; intros X; apply nth_error_None in X; rewrite map_length in X; lia. }
  unfold with_key. destruct (find_key k mi) as [it'|] eqn:EF.
  - exists s, (LKey a k). split; [reflexivity|]. destruct (find_key k m) as [dk|] eqn:EK; [|discriminate (proj1 FF eq_refl)].
    rewrite (sput_self _ _ _ V). split; [exact HH|]. split; [apply grown_refl|]. apply at_step_ok. exists (mkItem JtDict (Some a)), a, it'.
    split; [exact LL|]. split; [reflexivity|]. split; [reflexivity|]. cbn. now rewrite EA.
  - rewrite (proj2 FF eq_refl). eexists. exists (LKey a k). split; [reflexivity|].
    assert (G : grown s (mkJ (j_vars s) (upd (j_cells s) a (ODict (new_key k null_item mi))))) by (apply grown_new_key; auto).
    assert (La : a < length (j_cells s)) by (apply nth_error_Some; congruence).
    split; [|split; [exact G|]].
    + destruct (new_gap k null_item mi) as (G1 & G2). destruct (new_gap k JNull m) as (G3 & G4).
      assert (Na : ~ In a ow). { rewrite Eo in N. apply NoDup_drop in N. cbn in N. inversion N; subst. intros I. apply H1, in_or_app. auto. }
      assert (Rs' : reps (upd (j_cells s) a (ODict (new_key k null_item mi))) (map snd mi) (map snd m) ow).
      { eapply reps_frame; [exact Rs|]. intros b I. apply nth_error_upd_other. intros ->. auto. }
      destruct (reps_insert _ _ _ _ Rs' (gap k (map fst mi)) null_item JNull [] (rep_null _)) as (q1 & q2 & Eq & RI).
      { rewrite map_length. etransitivity; [apply gap_le|]. now rewrite map_length. }
      cbn [app] in RI. rewrite <- Eq in RI.
      eapply (cell_holds s docs o x p l _ a _ _ _ o1 (a :: ow) o2 (a :: ow)); eauto; [left; reflexivity| |now rewrite <- Eo].
      eapply rep_dict; [apply nth_error_upd_same; exact La|rewrite G1, G3, K; reflexivity|]. rewrite G2, G4, <- K. exact RI.
    + apply at_step_ok. exists (mkItem JtDict (Some a)), a, null_item. destruct (G _ _ LL) as (it1 & L1 & K1). rewrite K1 in L1 by discriminate.
      split; [exact L1|]. split; [reflexivity|]. split; [reflexivity|]. cbn. rewrite nth_error_upd_same by exact La. now apply find_new.
Qed.
Lemma sub_key_ok s docs x p l k d : holds s docs -> x < length docs -> walk_at s (LVar x) p = Ok l -> sat docs (x, p) = Ok d ->
  match d with
  | JNull | JDict _ => exists s' l', sub_key s l k = (s', Ok l') /\
      holds s' (sput docs (x, p) (JDict (with_key k match d with JDict m => m | _ => [] end))) /\ grown s s' /\ at_step s' l (SKey k) = Ok l'
  | _ => sub_key s l k = (s, Throw)
  end.
Proof.
  intros HH Hx W V. pose proof HH as (o & R & N). destruct (located_at s docs o R N x p l Hx W) as (it & d1 & o1 & o0 & o2 & Eo & [LL LR LV LH LP]).
  rewrite V in LV. injection LV as <-. destruct d as [|v t|ds|m].
  - destruct (ensure_null s docs x p l (ODict []) HH Hx W V (or_introl eq_refl)) as (s1 & a & E1 & H1 & G1 & W1).
    destruct (sub_key_dict s1 _ x p l k [] H1 ltac:(rewrite sput_length; exact Hx) W1 (sat_sput _ _ _ _ V)) as (s2 & l2 & E2 & H2 & G2 & A2).
    rewrite (sput_sput _ _ _ _ _ V) in H2. exists s2, l2. split; [|split; [exact H2|split; [eapply grown_trans; eauto|exact A2]]].
    rewrite <- E2. unfold sub_key at 1. rewrite E1. unfold sub_key.
    (* the second look finds the object made by the first *)
    assert (EN : ensure (ODict []) s1 l = Some (s1, a)).
    { unfold ensure in E1. rewrite LL in E1. inversion LR; subst it. cbn [i_type null_item] in E1.
      destruct (store (push s (ODict [])) l (mkItem (otype (ODict [])) (Some (length (j_cells s))))) as [s'|] eqn:ES; [|discriminate].
      injection E1 as <- <-. unfold ensure. rewrite (load_store _ _ _ _ l ES).
      assert (Q : forall (A : Type) (u v : A), (if match l, l with
         | LVar x, LVar y => if Nat.eq_dec x y then true else false
         | LIdx a i, LIdx b j => if Nat.eq_dec a b then if Nat.eq_dec i j then true else false else false
         | LKey a k, LKey b q => if Nat.eq_dec a b then if list_eq_dec Ascii.ascii_dec k q then true else false else false
         | _, _ => false end then u else v) = u).
      { intros A u w. destruct l; repeat (destruct (Nat.eq_dec _ _); try congruence); try reflexivity. destruct (list_eq_dec _ _ _); congruence. }
      rewrite Q. reflexivity. }
    rewrite EN. reflexivity.
  - inversion LR as [|a v' t' EA| |]; subst. unfold sub_key, ensure. rewrite LL. cbn [i_type i_value]. now rewrite EA.
  - inversion LR as [| |a its ds' o' EA Rs|]; subst. unfold sub_key, ensure. rewrite LL. cbn [i_type i_value]. now rewrite EA.
  - exact (sub_key_dict s docs x p l k m HH Hx W V).
Qed.
Lemma sub_idx_ok s docs x p l i d : holds s docs -> x < length docs -> walk_at s (LVar x) p = Ok l -> sat docs (x, p) = Ok d ->
  match d with
  | JList ds => if i <? length ds then exists l', sub_idx s l i = (s, Ok l') /\ at_step s l (SIdx i) = Ok l' else sub_idx s l i = (s, Throw)
  | _ => sub_idx s l i = (s, Throw)
  end.
Proof.
  intros (o & R & N) Hx W V. destruct (located_at s docs o R N x p l Hx W) as (it & d1 & o1 & o0 & o2 & Eo & [LL LR LV LH LP]).
  rewrite V in LV. injection LV as <-. unfold sub_idx, at_step. rewrite LL.
  inversion LR as [|a v t EA|a its ds o' EA Rs|a m ms o' EA K Rs]; subst; cbn [i_value null_item]; rewrite ?EA; try reflexivity.
  rewrite (reps_length _ _ _ _ Rs). destruct (i <? length its); [eauto|reflexivity].
Qed.
Lemma find_with k m : find_key k (with_key k m) = Some (match find_key k m with Some x => x | None => JNull end).
Proof. unfold with_key. destruct (find_key k m) eqn:E; [exact E|]. now apply find_new. Qed.
Lemma put_with k x m : put_key k x (with_key k m) = set_or_new k x m.
Proof. unfold with_key, set_or_new. destruct (find_key k m) eqn:E; [reflexivity|]. now apply put_new. Qed.

Lemma walk_ok x rest : forall p s docs l e, holds s docs -> x < length docs -> walk_at s (LVar x) p = Ok l -> sat docs (x, p) = Ok e ->
  exists s' r, walk s l rest = (s', r) /\ holds s' (sput docs (x, p) (fst (touch e rest))) /\ grown s s' /\
    if snd (touch e rest) then exists l', r = Ok l' /\ walk_at s' (LVar x) (p ++ rest) = Ok l' else r = Throw.
Proof.
  induction rest as [|q rest IH]; intros p s docs l e HH Hx W V.
  - exists s, (Ok l). cbn. rewrite (sput_self _ _ _ V), app_nil_r. split; [reflexivity|]. split; [exact HH|]. split; [apply grown_refl|eauto].
  - assert (STOP : forall s0, fst (touch e (q :: rest)) = e -> snd (touch e (q :: rest)) = false -> walk s l (q :: rest) = (s0, Throw) -> s0 = s ->
      exists s' r, walk s l (q :: rest) = (s', r) /\ holds s' (sput docs (x, p) (fst (touch e (q :: rest)))) /\ grown s s' /\
        if snd (touch e (q :: rest)) then exists l', r = Ok l' /\ walk_at s' (LVar x) (p ++ q :: rest) = Ok l' else r = Throw).
    { intros s0 T1 T2 E0 ->. rewrite T1, T2, (sput_self _ _ _ V). exists s, Throw. split; [exact E0|]. split; [exact HH|]. split; [apply grown_refl|reflexivity]. }
    destruct q as [i|k].
    + pose proof (sub_idx_ok s docs x p l i e HH Hx W V) as SI. cbn [walk] in *.
      destruct e as [|v t|ds|m]; try (apply (STOP s); [reflexivity|reflexivity|now rewrite SI|reflexivity]).
      destruct (nth_error ds i) as [y|] eqn:EN.
      * assert (Hi : i <? length ds = true) by (apply Nat.ltb_lt, nth_error_Some; congruence). rewrite Hi in SI. destruct SI as (l' & E1 & A1). rewrite E1.
        assert (W1 : walk_at s (LVar x) (p ++ [SIdx i]) = Ok l') by (rewrite walk_at_app, W; cbn; now rewrite A1).
        assert (V1 : sat docs (x, p ++ [SIdx i]) = Ok y) by (rewrite (sat_snoc _ _ _ _ _ V); cbn; now rewrite EN).
        destruct (IH (p ++ [SIdx i]) s docs l' y HH Hx W1 V1) as (s' & r & E2 & H2 & G2 & B2).
        rewrite (sput_snoc _ _ _ _ _ _ V) in H2. cbn [put] in H2. rewrite EN in H2. cbn [touch]. rewrite EN. destruct (touch y rest) as (y', b). cbn [fst snd] in *.
        rewrite <- app_assoc in B2. cbn [app] in B2. exists s', r. auto.
      * assert (Hi : i <? length ds = false) by (apply Nat.ltb_ge, nth_error_None; congruence). rewrite Hi in SI.
        apply (STOP s); [cbn; now rewrite EN|cbn; now rewrite EN|now rewrite SI|reflexivity].
    + pose proof (sub_key_ok s docs x p l k e HH Hx W V) as SK. cbn [walk] in *.
      assert (GO : forall m, (exists s' l', sub_key s l k = (s', Ok l') /\ holds s' (sput docs (x, p) (JDict (with_key k m))) /\ grown s s' /\ at_step s' l (SKey k) = Ok l') ->
        exists s' r, (let (s', y) := sub_key s l k in match y with Ok l' => walk s' l' rest | Throw => (s', Throw) | UB => (s', UB) end) = (s', r) /\
          holds s' (sput docs (x, p) (JDict (set_or_new k (fst (touch (match find_key k m with Some x => x | None => JNull end) rest)) m))) /\ grown s s' /\
          if snd (touch (match find_key k m with Some x => x | None => JNull end) rest) then exists l', r = Ok l' /\ walk_at s' (LVar x) (p ++ SKey k :: rest) = Ok l' else r = Throw).
      { intros m (s1 & l1 & E1 & H1 & G1 & A1). rewrite E1.
        assert (W1 : walk_at s1 (LVar x) (p ++ [SKey k]) = Ok l1) by (rewrite walk_at_app, (walk_at_grown _ _ _ G1 _ _ W); cbn; now rewrite A1).
        pose proof (sat_sput docs (x, p) _ (JDict (with_key k m)) V) as V0.
        assert (V1 : sat (sput docs (x, p) (JDict (with_key k m))) (x, p ++ [SKey k]) = Ok (match find_key k m with Some x => x | None => JNull end))
          by (rewrite (sat_snoc _ _ _ _ _ V0); cbn; now rewrite find_with).
        destruct (IH (p ++ [SKey k]) s1 _ l1 _ H1 ltac:(rewrite sput_length; exact Hx) W1 V1) as (s' & r & E2 & H2 & G2 & B2).
        rewrite (sput_snoc _ _ _ _ _ _ V0) in H2. cbn [put] in H2. rewrite find_with, put_with, (sput_sput _ _ _ _ _ V) in H2.
        rewrite <- app_assoc in B2. cbn [app] in B2. exists s', r. split; [exact E2|]. split; [exact H2|]. split; [eapply grown_trans; eauto|exact B2]. }
      destruct e as [|v t|ds|m]; try (apply (STOP s); [reflexivity|reflexivity|now rewrite SK|reflexivity]).
      * destruct (GO [] SK) as (s' & r & E2 & H2 & G2 & B2). cbn [find_key] in H2, B2. cbn [touch]. destruct (touch JNull rest) as (y', b). cbn [fst snd] in *. exists s', r. split; [exact E2|]. split; [exact H2|]. split; [exact G2|exact B2].
      * destruct (GO m SK) as (s' & r & E2 & H2 & G2 & B2). cbn [touch]. destruct (touch _ rest) as (y', b). cbn [fst snd] in *. exists s', r. split; [exact E2|]. split; [exact H2|]. split; [exact G2|exact B2].
Qed.

Lemma walk_at_ok s docs x rest : holds s docs -> x < length docs -> forall p l e, walk_at s (LVar x) p = Ok l -> sat docs (x, p) = Ok e ->
  match dat e rest with
  | Ok _ => exists l', walk_at s l rest = Ok l'
  | Throw => walk_at s l rest = Throw
  | UB => False
  end.
Proof.
  intros (o & R & N) Hx. induction rest as [|q rest IH]; intros p l e W V; [cbn; eauto|].
  destruct (located_at s docs o R N x p l Hx W) as (it & d & o1 & o0 & o2 & Eo & [LL LR LV LH LP]). rewrite V in LV. injection LV as <-.
  assert (ST : match dat e [q] with Ok y => exists l', at_step s l q = Ok l' | Throw => at_step s l q = Throw | UB => False end).
  { unfold at_step. rewrite LL. destruct q as [i|k]; inversion LR as [|a v t EA|a its ds o' EA Rs|a m ms o' EA K Rs]; subst; cbn [i_value null_item dat]; rewrite ?EA; try reflexivity.
    - rewrite <- (reps_length _ _ _ _ Rs). destruct (nth_error ds i) eqn:EN.
      + assert (Hi : i <? length ds = true) by (apply Nat.ltb_lt, nth_error_Some; congruence). rewrite Hi. eauto.
      + assert (Hi : i <? length ds = false) by (apply Nat.ltb_ge, nth_error_None; congruence). now rewrite Hi.
    - rewrite !find_pos, <- K. destruct (pos k (map fst m)) as [j|] eqn:EP; [|reflexivity].
      pose proof (reps_length _ _ _ _ Rs) as Ld. rewrite !map_length in Ld. pose proof (pos_lt _ _ _ EP) as Hj. rewrite map_length in Hj.
      destruct (nth_error (map snd ms) j) eqn:E1; [|apply nth_error_None in E1; rewrite map_length in E1; lia].
      destruct (nth_error (map snd m) j) eqn:E2; [|apply nth_error_None in E2; rewrite map_length in E2; lia]. eauto. }
  replace (q :: rest) with ([q] ++ rest) by reflexivity. rewrite dat_app, walk_at_app. cbn [walk_at].
  destruct (dat e [q]) as [y| |] eqn:ED; cbn [bind]; [|now rewrite ST|contradiction].
  destruct ST as (l' & A). rewrite A. cbn [bind]. apply (IH (p ++ [q])).
  - rewrite walk_at_app, W. cbn. now rewrite A.
  - rewrite (sat_snoc _ _ _ _ _ V). exact ED.
Qed.

(** *** Temporaries: kept as additional variables *)
Definition ext (s : jstate) (ts : list item) : jstate := mkJ (j_vars s ++ ts) (j_cells s).
Definition okl (s : jstate) (l : loc) : Prop := match l with LVar x => x < length (j_vars s) | _ => True end.
Lemma upd_app1 {A} (l l' : list A) j x : j < length l -> upd (l ++ l') j x = upd l j x ++ l'.
Proof. revert j. induction l as [|a l IH]; cbn; intros [|j] L; try lia; [reflexivity|]. cbn. now rewrite IH by lia. Qed.
Lemma load_ext s ts l : okl s l -> load (ext s ts) l = load s l.
Proof. destruct l as [x| |]; cbn; intros O; [|reflexivity|reflexivity]. now rewrite nth_error_app1. Qed.
Lemma store_ext s ts l it : okl s l -> store (ext s ts) l it = option_map (fun s => ext s ts) (store s l it).
Proof.
  intros O. unfold store. rewrite load_ext by exact O. destruct (load s l) as [it0|]; [|reflexivity]. destruct l as [x|a i|a k]; cbn in *.
  - unfold ext. cbn. now rewrite upd_app1.
  - destruct (nth_error (j_cells s) a) as [[]|]; reflexivity.
  - destruct (nth_error (j_cells s) a) as [[]|]; reflexivity.
Qed.
Lemma ensure_ext o s ts l : okl s l -> ensure o (ext s ts) l = option_map (fun '(s, a) => (ext s ts, a)) (ensure o s l).
Proof.
  intros O. unfold ensure. rewrite load_ext by exact O. destruct (load s l) as [it|]; [|reflexivity].
  change (push (ext s ts) o) with (ext (push s o) ts). rewrite store_ext by (destruct l; exact O). cbn [j_cells ext].
  destruct (store (push s o) l _); destruct (i_type it), (i_value it); reflexivity.
Qed.
Lemma sub_key_ext s ts l k : okl s l -> sub_key (ext s ts) l k = (ext (fst (sub_key s l k)) ts, snd (sub_key s l k)).
Proof.
  intros O. unfold sub_key. rewrite ensure_ext by exact O. destruct (ensure (ODict []) s l) as [(s', a)|]; [|reflexivity]. cbn [option_map j_cells ext].
  destruct (nth_error (j_cells s') a) as [[|its|m]|]; try reflexivity. cbn [fst snd]. destruct (find_key k m); reflexivity.
Qed.
Lemma sub_idx_ext s ts l i : okl s l -> sub_idx (ext s ts) l i = (ext (fst (sub_idx s l i)) ts, snd (sub_idx s l i)).
Proof.
  intros O. unfold sub_idx. rewrite load_ext by exact O. destruct (load s l) as [it|]; [|reflexivity]. destruct (i_value it); [|reflexivity]. cbn [j_cells ext].
  destruct (nth_error (j_cells s) n) as [[]|]; reflexivity.
Qed.
Lemma sub_key_okl s l k s' l' : sub_key s l k = (s', Ok l') -> okl s' l'.
Proof.
  unfold sub_key. destruct (ensure (ODict []) s l) as [(s1, a)|]; [|discriminate]. destruct (nth_error (j_cells s1) a) as [[]|]; try discriminate. intros E. injection E as _ <-. exact I.
Qed.
Lemma sub_idx_okl s l k s' l' : sub_idx s l k = (s', Ok l') -> okl s' l'.
Proof.
  unfold sub_idx. destruct (load s l) as [it|]; [|discriminate]. destruct (i_value it); [|discriminate]. destruct (nth_error (j_cells s) n) as [[]|]; try discriminate.
  destruct (k <? _); [|discriminate]. intros E. injection E as _ <-. exact I.
Qed.
Lemma walk_ext ts p : forall s l, okl s l -> walk (ext s ts) l p = (ext (fst (walk s l p)) ts, snd (walk s l p)).
Proof.
  induction p as [|q p IH]; intros s l O; [reflexivity|]. cbn [walk]. destruct q as [i|k].
  - rewrite sub_idx_ext by exact O. destruct (sub_idx s l i) as (s', [l'| |]) eqn:E; cbn [fst snd]; try reflexivity. apply IH. eapply sub_idx_okl; eauto.
  - rewrite sub_key_ext by exact O. destruct (sub_key s l k) as (s', [l'| |]) eqn:E; cbn [fst snd]; try reflexivity. apply IH. eapply sub_key_okl; eauto.
Qed.
Lemma reps_split h its its' ds ds' o : length its = length ds -> reps h (its ++ its') (ds ++ ds') o -> exists o1 o2, o = o1 ++ o2 /\ reps h its ds o1 /\ reps h its' ds' o2.
Proof.
  revert ds o. induction its as [|i its IH]; intros [|d ds] o L R; try discriminate.
  - exists [], o. split; [reflexivity|]. split; [constructor|exact R].
  - cbn [app] in R. inversion R as [|? ? oi ? ? os Ri Rs]; subst. destruct (IH ds os ltac:(now injection L) Rs) as (o1 & o2 & -> & R1 & R2).
    exists (oi ++ o1), o2. split; [now rewrite app_assoc|]. split; [now constructor|exact R2].
Qed.
Lemma holds_length s docs : holds s docs -> length (j_vars s) = length docs.
Proof. intros (o & R & _). symmetry. exact (reps_length _ _ _ _ R). Qed.
Lemma sput_app docs ts x p y : x < length docs -> sput (docs ++ ts) (x, p) y = sput docs (x, p) y ++ ts.
Proof.
  intros L. unfold sput. cbn [fst snd]. rewrite nth_error_app1 by exact L. destruct (nth_error docs x) eqn:E; [|apply nth_error_None in E; lia]. now apply upd_app1.
Qed.
Lemma sat_app docs ts x p : x < length docs -> sat (docs ++ ts) (x, p) = sat docs (x, p).
Proof. intros L. unfold sat. cbn [fst snd]. now rewrite nth_error_app1. Qed.
Lemma holds_drop s ts docs tds : length (j_vars s) = length docs -> holds (ext s ts) (docs ++ tds) -> holds s docs.
Proof.
  intros L (o & R & N). cbn [ext j_cells j_vars] in R. destruct (reps_split _ _ _ _ _ _ L R) as (o1 & o2 & -> & R1 & _). exists o1. split; [exact R1|].
  clear -N. induction o1 as [|a o1 IH]; [constructor|]. cbn in N. inversion N as [|? ? Na Nr]; subst. constructor; [|auto]. intros J. apply Na, in_or_app. auto.
Qed.
Lemma okl_at s p : forall l l', okl s l -> walk_at s l p = Ok l' -> okl s l'.
Proof.
  induction p as [|q p IH]; intros l l' O E; [cbn in E; congruence|]. cbn in E. apply bind_Ok_inv in E as (l1 & A & E). apply IH in E; [exact E|].
  apply at_step_ok in A as (it & a & it' & _ & _ & -> & _). destruct q; exact I.
Qed.

(** The whole walk, with temporaries. *)
Lemma walk_with s ts docs tds x p d : holds (ext s ts) (docs ++ tds) -> length (j_vars s) = length docs -> nth_error docs x = Some d ->
  exists s' r, walk s (LVar x) p = (s', r) /\ length (j_vars s') = length docs /\ holds (ext s' ts) (upd docs x (fst (touch d p)) ++ tds) /\ grown s s' /\
    if snd (touch d p) then exists l', r = Ok l' /\ okl s' l' /\ walk_at s' (LVar x) p = Ok l' else r = Throw.
Proof.
  intros HH L E. assert (Hx : x < length docs) by (apply nth_error_Some; congruence).
  destruct (walk_ok x p [] (ext s ts) (docs ++ tds) (LVar x) d HH ltac:(rewrite app_length; lia) eq_refl) as (s1 & r & EW & H1 & G1 & B1).
  { rewrite sat_app by exact Hx. unfold sat. cbn. now rewrite E. }
  rewrite walk_ext in EW by (cbn; lia). destruct (walk s (LVar x) p) as (s', r') eqn:EW'. cbn [fst snd] in EW. injection EW as <- <-.
  rewrite sput_app in H1 by exact Hx. unfold sput in H1. cbn [fst snd put] in H1. rewrite E in H1.
  assert (L' : length (j_vars s') = length docs).
  { pose proof (holds_length _ _ H1) as X. pose proof (holds_length _ _ HH) as Y. cbn [ext j_vars] in X, Y. rewrite !app_length in X, Y. rewrite upd_length in X. lia. }
  assert (G : grown s s').
  { intros l it El. destruct l as [y|a i|a k].
    - cbn in El. assert (Hy : y < length (j_vars s)) by (apply nth_error_Some; congruence).
      destruct (G1 (LVar y) it) as (it' & E' & K); [now rewrite load_ext|]. exists it'. rewrite load_ext in E' by (cbn; lia). auto.
    - exact (G1 (LIdx a i) it El).
    - exact (G1 (LKey a k) it El). }
  exists s', r'. split; [reflexivity|]. split; [exact L'|]. split; [exact H1|]. split; [exact G|].
  destruct (snd (touch d p)); [|exact B1]. destruct B1 as (l' & -> & W). cbn [app] in W. exists l'. split; [reflexivity|].
  assert (WX : walk_at s' (LVar x) p = Ok l').
  { revert W. clear -L' Hx. assert (O : okl s' (LVar x)) by (cbn; lia). revert O. generalize (LVar x). induction p as [|q p IH]; intros l O W; [exact W|]. cbn in *.
    apply bind_Ok_inv in W as (l1 & A & W). assert (A' : at_step s' l q = Ok l1) by (unfold at_step in *; rewrite load_ext in A by exact O; exact A).
    rewrite A'. cbn. apply IH; [|exact W]. apply at_step_ok in A' as (it & a & it' & _ & _ & -> & _). destruct q; exact I. }
  split; [|exact WX]. eapply okl_at; [|exact WX]. cbn. lia.
Qed.

(** *** Statements *)
Lemma ensure_twice o s l s' a : ensure o s l = Some (s', a) -> ensure o s' l = Some (s', a).
Proof.
  unfold ensure at 1. destruct (load s l) as [it|] eqn:LL; [|discriminate].
  assert (FR : (match store (push s o) l (mkItem (otype o) (Some (length (j_cells s)))) with Some s1 => Some (s1, length (j_cells s)) | None => None end) = Some (s', a) ->
    ensure o s' l = Some (s', a)).
  { destruct (store (push s o) l _) as [s1|] eqn:ES; [|discriminate]. intros E. injection E as <- <-. unfold ensure. rewrite (load_store _ _ _ _ l ES).
    match goal with |- context [if ?b then _ else _] => assert (Q : b = true) end.
    { destruct l; repeat (destruct (Nat.eq_dec _ _); try congruence); try reflexivity. destruct (list_eq_dec _ _ _); congruence. }
    rewrite Q. cbn [i_type i_value]. destruct o; reflexivity. }
  destruct (i_type it) eqn:T, (i_value it) as [b|] eqn:V; try exact FR; intros E; injection E as <- <-; unfold ensure; rewrite LL, T, V; reflexivity.
Qed.

Definition source (s : jstate) (ts : list item) (tds : list json) (r : rval) (f : jfrom) : Prop :=
  match f with
  | FDoc d => exists it, r = RTmp it /\ ts = [it] /\ tds = [d]
  | FSub (x, p) | FAt (x, p) => exists l, r = RLoc l /\ walk_at s (LVar x) p = Ok l /\ ts = [] /\ tds = []
  end.
Lemma source_grown s s' ts tds r f : grown s s' -> source s ts tds r f -> source s' ts tds r f.
Proof. intros G. destruct f as [d|(x, p)|(x, p)]; cbn; auto; intros (l & A & W & B); exists l; split; auto; split; auto; eapply walk_at_grown; eauto. Qed.
Lemma ext_nil s : ext s [] = s.
Proof. unfold ext. rewrite app_nil_r. now destruct s. Qed.
Lemma holds_push s docs e it y o' : holds s docs -> rep (j_cells s ++ e) it y o' -> fresh_at (length (j_cells s)) o' ->
  holds (ext (mkJ (j_vars s) (j_cells s ++ e)) [it]) (docs ++ [y]).
Proof.
  intros (o & R & N) R' (N' & F). exists (o ++ o' ++ []). cbn [ext j_cells j_vars]. split.
  - apply reps_app; [now apply reps_more|]. constructor; [exact R'|constructor].
  - rewrite app_nil_r. apply NoDup_app; auto. intros a I J. pose proof (reps_in _ _ _ _ R a I). pose proof (proj1 (Forall_forall _ _) F a J). cbn in *. lia.
Qed.
Lemma eval_ok s docs f : holds s docs -> from_in (length docs) f ->
  exists s1 r1 ts tds, eval s f = (s1, r1) /\ length (j_vars s1) = length docs /\ length (fst (seval docs f)) = length docs /\ length ts = length tds /\
    holds (ext s1 ts) (fst (seval docs f) ++ tds) /\ grown s s1 /\
    if snd (seval docs f) then exists r, r1 = Ok r /\ source s1 ts tds r f else r1 = Throw.
Proof.
  intros HH F. pose proof (holds_length _ _ HH) as L. destruct f as [d|(x, p)|(x, p)]; cbn [from_in fst] in F; cbn [eval seval].
  - destruct (build_ok d (j_cells s)) as (e & it & o' & EB & RB & FB). rewrite EB. exists (mkJ (j_vars s) (j_cells s ++ e)), (Ok (RTmp it)), [it], [d].
    repeat split; auto; [eapply holds_push; eauto|apply grown_cells|]. cbn. exists (RTmp it). split; [reflexivity|]. exists it. auto.
  - unfold stouch. cbn [fst snd]. destruct (nth_error docs x) as [d|] eqn:E; [|apply nth_error_None in E; lia]. cbn [fst snd].
    destruct (walk_with s [] docs [] x p d) as (s' & r & EW & L' & H' & G & B); auto; [now rewrite ext_nil, app_nil_r|].
    rewrite EW. destruct (snd (touch d p)).
    + destruct B as (l & -> & O & W). exists s', (Ok (RLoc l)), [], []. repeat split; auto; [now rewrite upd_length|]. exists (RLoc l). split; [reflexivity|]. cbn. eauto.
    + rewrite B. exists s', Throw, [], []. repeat split; auto. now rewrite upd_length.
  - cbn [fst snd]. destruct (nth_error docs x) as [d|] eqn:E; [|apply nth_error_None in E; lia].
    pose proof (walk_at_ok s docs x p HH F [] (LVar x) d eq_refl) as WA. unfold sat in *. cbn [fst snd dat] in *. rewrite E in *. specialize (WA eq_refl).
    exists s. eexists. exists [], []. split; [reflexivity|]. rewrite ext_nil, app_nil_r. split; [exact L|]. split; [reflexivity|]. split; [reflexivity|]. split; [exact HH|].
    split; [apply grown_refl|]. destruct (dat d p) as [y| |]; [|now rewrite WA|contradiction].
    destruct WA as (l & W). rewrite W. exists (RLoc l). split; [reflexivity|]. cbn. eauto.
Qed.
Lemma rep_copied s it y o r : rep (j_cells s) it y o -> NoDup o -> value_of s r = Some it -> exists e it' o',
  copied s r = Some (mkJ (j_vars s) (j_cells s ++ e), it') /\ rep (j_cells s ++ e) it' y o' /\ fresh_at (length (j_cells s)) o'.
Proof.
  intros R N V. unfold copied. rewrite V. destruct (copy_ok _ _ _ _ (deep (j_cells s)) R) as (e & it' & o' & E & R' & F').
  { unfold deep. apply Nat.lt_succ_r, bounded_length; [exact N|]. intros a I. eapply rep_in; eauto. }
  rewrite E. exists e, it', o'. auto.
Qed.
Lemma copied_ok s ts docs tds r f : holds (ext s ts) (docs ++ tds) -> length (j_vars s) = length docs -> source s ts tds r f -> from_in (length docs) f ->
  exists y e it o', svalue docs f = Ok y /\ copied s r = Some (mkJ (j_vars s) (j_cells s ++ e), it) /\ rep (j_cells s ++ e) it y o' /\ fresh_at (length (j_cells s)) o'.
Proof.
  intros HH L SR F. assert (PL : forall x p, x < length docs -> forall l, r = RLoc l -> walk_at s (LVar x) p = Ok l ->
    exists y e it o', sat docs (x, p) = Ok y /\ copied s r = Some (mkJ (j_vars s) (j_cells s ++ e), it) /\ rep (j_cells s ++ e) it y o' /\ fresh_at (length (j_cells s)) o').
  { intros x p Hx l -> W. destruct (holds_drop _ _ _ _ L HH) as (o & R & N).
    destruct (located_at s docs o R N x p l Hx W) as (it & d & o1 & o0 & o2 & -> & [LL LR LV LH LP]).
    destruct (rep_copied s it d o0 (RLoc l) LR) as (e & it' & o' & C); [|exact LL|exists d, e, it', o'; split; [exact LV|exact C]].
    apply NoDup_drop in N. clear -N. induction o0 as [|a o0 IH]; [constructor|]. cbn in N. inversion N as [|? ? Na Nr]; subst. constructor; [|auto]. intros J. apply Na, in_or_app. auto. }
  destruct f as [d|(x, p)|(x, p)]; cbn [source from_in svalue fst] in *.
  - destruct SR as (it & -> & -> & ->). destruct HH as (o & R & N). cbn [ext j_cells j_vars] in R. destruct (reps_split _ _ _ _ _ _ L R) as (o1 & o2 & -> & _ & R2).
    inversion R2 as [|? ? oi ? ? os Ri Rs]; subst. inversion Rs; subst. rewrite app_nil_r in *. destruct (rep_copied s it d oi (RTmp it) Ri) as (e & it' & o' & C); [|reflexivity|].
    + eapply NoDup_drop. exact N.
    + exists d, e, it', o'. split; [reflexivity|exact C].
  - destruct SR as (l & -> & W & _). eapply PL; eauto.
  - destruct SR as (l & -> & W & _). eapply PL; eauto.
Qed.

Lemma jassign_ok s docs t f : holds s docs -> fst t < length docs -> from_in (length docs) f ->
  holds (fst (jassign s t f)) (fst (sassign docs t f)) /\ snd (jassign s t f) = snd (sassign docs t f) /\ snd (jassign s t f) <> JStuck /\ length (fst (sassign docs t f)) = length docs.
Proof.
  intros HH Ht Hf. destruct t as (x, p). cbn [fst snd] in *. unfold jassign, sassign. cbn [fst snd].
  destruct (eval_ok s docs f HH Hf) as (s1 & r1 & ts & tds & EE & L1 & LD & LT & H1 & G1 & B1). rewrite EE. destruct (seval docs f) as (docs1, b1) eqn:ES. cbn [fst snd] in *.
  destruct b1; [|rewrite B1; cbn; split; [eapply holds_drop; [|exact H1]; lia|split; [reflexivity|split; [discriminate|exact LD]]]].
  destruct B1 as (r & -> & SR). unfold stouch. cbn [fst snd]. destruct (nth_error docs1 x) as [d|] eqn:E; [|apply nth_error_None in E; lia]. cbn [fst snd].
  destruct (walk_with s1 ts docs1 tds x p d H1 ltac:(lia) E) as (s2 & r2 & EW & L2 & H2 & G2 & B2). rewrite EW.
  destruct (snd (touch d p)); [|rewrite B2; cbn; rewrite upd_length; split; [eapply holds_drop; [|exact H2]; rewrite upd_length; exact L2|split; [reflexivity|split; [discriminate|exact LD]]]].
  destruct B2 as (l & -> & O2 & W2). set (docs2 := upd docs1 x (fst (touch d p))) in *. assert (LD2 : length docs2 = length docs) by (unfold docs2; rewrite upd_length; exact LD).
  destruct (copied_ok s2 ts docs2 tds r f H2 ltac:(lia) (source_grown _ _ _ _ _ _ G2 SR) ltac:(rewrite LD2; exact Hf)) as (y & e & it & o' & EV & EC & RC & FC). rewrite EC, EV.
  destruct (holds_drop s2 ts docs2 tds ltac:(lia) H2) as (o & R & N).
  set (s3 := mkJ (j_vars s2) (j_cells s2 ++ e)). assert (G3 : grown s2 s3) by apply grown_cells.
  pose proof (walk_at_grown _ _ _ G3 _ _ W2) as W3. assert (R3 : reps (j_cells s3) (j_vars s3) docs2 o) by (cbn; now apply reps_more).
  destruct (located_at s3 docs2 o R3 N x p l ltac:(lia) W3) as (it0 & d0 & o1 & o0 & o2 & Eo & [LL _ _ _ _]).
  destruct (store_ok _ _ _ it LL) as (s4 & E4). rewrite E4. cbn [fst snd]. rewrite sput_length. split; [|split; [reflexivity|split; [discriminate|exact LD2]]].
  eapply store_holds; eauto; [lia|apply FC|]. intros a I J. pose proof (reps_in _ _ _ _ R a I). destruct FC as (_ & FC). pose proof (proj1 (Forall_forall _ _) FC a J). cbn in *. lia.
Qed.

Lemma append_list s docs x p l it y ds : holds (ext s [it]) (docs ++ [y]) -> length (j_vars s) = length docs -> x < length docs -> walk_at s (LVar x) p = Ok l -> sat docs (x, p) = Ok (JList ds) ->
  exists a its, ensure (OList []) s l = Some (s, a) /\ nth_error (j_cells s) a = Some (OList its) /\
    holds (mkJ (j_vars s) (upd (j_cells s) a (OList (its ++ [it])))) (sput docs (x, p) (JList (ds ++ [y]))).
Proof.
  intros (oa & RA & NA) L Hx W V. cbn [ext j_cells j_vars] in RA. destruct (reps_split _ _ _ _ _ _ L RA) as (o & o' & -> & R & R').
  inversion R' as [|? ? oi ? ? os Ri Rs]; subst. inversion Rs; subst. rewrite app_nil_r in *. clear Rs R' RA.
  assert (N : NoDup o) by (clear -NA; induction o as [|a o IH]; [constructor|]; cbn in NA; inversion NA as [|? ? Na Nr]; subst; constructor; [|auto]; intros J; apply Na, in_or_app; auto).
  destruct (located_at s docs o R N x p l Hx W) as (it0 & d1 & o1 & o0 & o2 & Eo & LC). pose proof LC as [LL LR LV LH LP]. rewrite V in LV. injection LV as <-.
  inversion LR as [| |a its ds' ow EA Rw|]; subst it0 ds' o0. exists a, its. split; [unfold ensure; rewrite LL; reflexivity|]. split; [exact EA|].
  assert (La : a < length (j_cells s)) by (apply nth_error_Some; congruence).
  assert (Na : ~ In a ow /\ ~ In a oi).
  { split; intros J.
    - rewrite Eo in N. apply NoDup_drop in N. cbn in N. inversion N; subst. apply H1, in_or_app. auto.
    - rewrite Eo in NA. rewrite <- !app_assoc in NA. apply NoDup_drop in NA. cbn in NA. inversion NA; subst. apply H1, in_or_app. right. apply in_or_app. auto. }
  eapply (cell_holds s docs o x p l _ a _ _ _ o1 (a :: ow) o2 (a :: ow ++ oi)); eauto; [left; reflexivity| |].
  - eapply rep_list; [apply nth_error_upd_same; exact La|]. apply reps_app; [eapply reps_frame; [exact Rw|]; intros b J; apply nth_error_upd_other; intros ->; tauto|].
    rewrite <- (app_nil_r oi). constructor; [|constructor]. eapply rep_frame; [exact Ri|]. intros b J; apply nth_error_upd_other; intros ->; tauto.
  - eapply Permutation_NoDup; [|exact NA]. rewrite Eo. rewrite <- !app_assoc. apply Permutation_app_head. cbn. apply perm_skip. rewrite <- app_assoc. apply Permutation_app_head, Permutation_app_comm.
Qed.

Lemma jappend_ok s docs t f : holds s docs -> fst t < length docs -> from_in (length docs) f ->
  holds (fst (jappend s t f)) (fst (sappend docs t f)) /\ snd (jappend s t f) = snd (sappend docs t f) /\ snd (jappend s t f) <> JStuck /\ length (fst (sappend docs t f)) = length docs.
Proof.
  intros HH Ht Hf. destruct t as (x, p). cbn [fst snd] in *. unfold jappend, sappend. cbn [fst snd]. pose proof (holds_length _ _ HH) as L.
  unfold stouch. cbn [fst snd]. destruct (nth_error docs x) as [d|] eqn:E; [|apply nth_error_None in E; lia]. cbn [fst snd].
  destruct (walk_with s [] docs [] x p d) as (s1 & r1 & EW & L1 & H1 & G1 & B1); auto; [now rewrite ext_nil, app_nil_r|]. rewrite ext_nil, app_nil_r in H1. rewrite EW.
  set (docs1 := upd docs x (fst (touch d p))) in *. assert (LD1 : length docs1 = length docs) by (unfold docs1; now rewrite upd_length).
  destruct (snd (touch d p)); [|rewrite B1; cbn; split; [exact H1|split; [reflexivity|split; [discriminate|exact LD1]]]].
  destruct B1 as (l & -> & O1 & W1).
  destruct (eval_ok s1 docs1 f H1 ltac:(rewrite LD1; exact Hf)) as (s2 & r2 & ts & tds & EE & L2 & LD & LT & H2 & G2 & B2). rewrite EE. destruct (seval docs1 f) as (docs2, b2) eqn:ES. cbn [fst snd] in *.
  destruct b2; [|rewrite B2; cbn; split; [eapply holds_drop; [|exact H2]; lia|split; [reflexivity|split; [discriminate|lia]]]].
  destruct B2 as (r & -> & SR).
  destruct (copied_ok s2 ts docs2 tds r f H2 ltac:(lia) SR ltac:(replace (length docs2) with (length docs) by lia; exact Hf)) as (y & e & it & o' & EV & EC & RC & FC). rewrite EC, EV.
  pose proof (holds_drop s2 ts docs2 tds ltac:(lia) H2) as HD. pose proof (holds_push _ _ _ _ _ _ HD RC FC) as H3.
  set (s3 := mkJ (j_vars s2) (j_cells s2 ++ e)) in *. assert (G3 : grown s2 s3) by apply grown_cells.
  assert (W3 : walk_at s3 (LVar x) p = Ok l) by (eapply walk_at_grown; [exact G3|]; eapply walk_at_grown; [exact G2|exact W1]).
  assert (L3 : length (j_vars s3) = length docs2) by (cbn; lia). pose proof (holds_drop s3 _ docs2 _ L3 H3) as HD3.
  destruct HD3 as (o & R & N). destruct (located_at s3 docs2 o R N x p l ltac:(lia) W3) as (it0 & d0 & o1 & o0 & o2 & Eo & [LL LR LV LH LP]). rewrite LV.
  destruct d0 as [|v t|ds|m].
  - (* a list is made *)
    assert (W3' : walk_at (ext s3 [it]) (LVar x) p = Ok l).
    { eapply walk_at_grown; [|exact W3]. intros q iq Eq. exists iq. split; [|auto]. rewrite load_ext; [exact Eq|]. destruct q; cbn; auto. apply nth_error_Some. cbn in Eq. cbn. congruence. }
    destruct (ensure_null (ext s3 [it]) (docs2 ++ [y]) x p l (OList [])) as (s4' & a & EN & H4 & G4 & W4); auto; [rewrite app_length; lia|rewrite sat_app by lia; exact LV|].
    assert (O3 : okl s3 l) by (eapply okl_at; [|exact W3]; cbn; cbn in L3; lia).
    rewrite ensure_ext in EN by exact O3. destruct (ensure (OList []) s3 l) as [(s4, a')|] eqn:EN3; [|discriminate]. cbn [option_map] in EN. injection EN as <- <-.
    rewrite sput_app in H4 by lia. cbn [empty_doc] in H4.
    assert (L4 : length (j_vars s4) = length (sput docs2 (x, p) (JList []))).
    { pose proof (holds_length _ _ H4) as X. cbn [ext j_vars] in X. rewrite !app_length in X. cbn [List.length] in X. lia. }
    assert (W4' : walk_at s4 (LVar x) p = Ok l).
    { revert W4. rewrite sput_length in L4. assert (O : okl s4 (LVar x)) by (cbn; lia). clear -O. revert O. generalize (LVar x). induction p as [|q p IH]; intros l0 O W; [exact W|]. cbn in *.
      apply bind_Ok_inv in W as (l1 & A & W). assert (A' : at_step s4 l0 q = Ok l1) by (unfold at_step in *; rewrite load_ext in A by exact O; exact A).
      rewrite A'. cbn. apply IH; [|exact W]. apply at_step_ok in A' as (i & b & i' & _ & _ & -> & _). destruct q; exact I. }
    destruct (append_list s4 _ x p l it y [] H4 L4 ltac:(rewrite sput_length; lia) W4' (sat_sput _ _ _ _ LV)) as (a2 & its & E2 & EA & H5).
    rewrite (ensure_twice _ _ _ _ _ EN3) in E2. injection E2 as <-. rewrite EA. cbn [fst snd]. rewrite (sput_sput _ _ _ _ _ LV) in H5. cbn [app] in H5.
    split; [exact H5|]. rewrite sput_length. split; [reflexivity|split; [discriminate|lia]].
  - inversion LR as [|a v' t' EA| |]; subst. unfold ensure. rewrite LL. cbn [i_type i_value]. rewrite EA. cbn [fst snd].
    split; [exists (o1 ++ [a] ++ o2); auto|split; [reflexivity|split; [discriminate|lia]]].
  - destruct (append_list s3 docs2 x p l it y ds H3 L3 ltac:(lia) W3 LV) as (a2 & its & E2 & EA & H5). rewrite E2, EA. cbn [fst snd]. rewrite sput_length.
    split; [exact H5|split; [reflexivity|split; [discriminate|lia]]].
  - inversion LR as [| | |a mi ms ow EA K Rs]; subst. unfold ensure. rewrite LL. cbn [i_type i_value]. rewrite EA. cbn [fst snd].
    split; [exists (o1 ++ (a :: ow) ++ o2); auto|split; [reflexivity|split; [discriminate|lia]]].
Qed.
Lemma jget_ok s docs pl : holds s docs -> fst pl < length docs -> jget s pl = (s, sget docs pl) /\ sget docs pl <> JStuck.
Proof.
  destruct pl as (x, p). cbn [fst]. intros HH Hx. unfold jget, sget, sat. cbn [fst snd]. destruct (nth_error docs x) as [d|] eqn:E; [|apply nth_error_None in E; lia].
  pose proof (walk_at_ok s docs x p HH Hx [] (LVar x) d eq_refl) as WA. unfold sat in WA. cbn [fst snd dat] in WA. rewrite E in WA. specialize (WA eq_refl).
  destruct (dat d p) as [y| |] eqn:ED; [|now rewrite WA|contradiction]. destruct WA as (l & W). rewrite W. destruct HH as (o & R & N).
  destruct (located_at s docs o R N x p l Hx W) as (it & d1 & o1 & o0 & o2 & -> & [LL LR LV LH LP]). rewrite LL. unfold sat in LV. cbn [fst snd] in LV. rewrite E, ED in LV. injection LV as <-.
  rewrite (proj1 (decode_both _) _ _ _ LR); [split; [reflexivity|discriminate]|]. unfold deep. apply Nat.lt_succ_r, bounded_length.
  - apply NoDup_drop in N. clear -N. induction o0 as [|a o0 IH]; [constructor|]. cbn in N. inversion N as [|? ? Na Nr]; subst. constructor; [|auto]. intros J. apply Na, in_or_app. auto.
  - intros a J. eapply rep_in; eauto.
Qed.
Lemma jexec_ok s docs c : holds s docs -> cmd_in (length docs) c ->
  holds (fst (jexec s c)) (fst (sexec docs c)) /\ snd (jexec s c) = snd (sexec docs c) /\ snd (jexec s c) <> JStuck /\ length (fst (sexec docs c)) = length docs.
Proof.
  intros HH C. destruct c as [t f|t f|pl]; cbn [jexec sexec cmd_in] in *.
  - apply jassign_ok; tauto.
  - apply jappend_ok; tauto.
  - destruct (jget_ok s docs pl HH C) as (E & N). rewrite E. cbn [fst snd]. auto.
Qed.
Lemma jrun_ok cs : forall s docs, holds s docs -> Forall (cmd_in (length docs)) cs ->
  holds (fst (jrun s cs)) (fst (srun docs cs)) /\ snd (jrun s cs) = snd (srun docs cs) /\ Forall (fun o => o <> JStuck) (snd (jrun s cs)) /\ length (fst (srun docs cs)) = length docs.
Proof.
  induction cs as [|c cs IH]; intros s docs HH C; [cbn; auto|]. inversion C as [|? ? C1 C2]; subst. cbn [jrun srun].
  destruct (jexec_ok s docs c HH C1) as (H1 & E1 & N1 & L1). destruct (jexec s c) as (s1, o1), (sexec docs c) as (docs1, o1'). cbn [fst snd] in *. subst o1'.
  destruct (IH s1 docs1 H1 ltac:(rewrite L1; exact C2)) as (H2 & E2 & N2 & L2). destruct (jrun s1 cs) as (s2, os), (srun docs1 cs) as (docs2, os'). cbn [fst snd] in *. subst os'.
  split; [exact H2|]. split; [reflexivity|]. split; [constructor; auto|lia].
Qed.
Lemma holds_start n : holds (jstart n) (repeat JNull n).
Proof. exists []. split; [|constructor]. cbn. induction n; cbn; [constructor|]. change (@nil nat) with (@nil nat ++ []). constructor; [constructor|exact IHn]. Qed.
