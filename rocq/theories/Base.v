(** Result monad, checked buffers and loops used by every model file.

    These are the modelling conventions for C++ and do not correspond to one
    place of /repo:
    - [UB] is undefined behaviour (out-of-range access, division by zero, ...);
    - [Throw] is a C++ exception;
    - a [std::vector] (or pointer plus length) is a [list]. *)
From Coq Require Export List Arith ZArith Lia Bool.
Export ListNotations.

Inductive res (A : Type) : Type :=
| Ok (a : A)
| Throw
| UB.
Arguments Ok {A} a.
Arguments Throw {A}.
Arguments UB {A}.

Definition bind {A B} (m : res A) (k : A -> res B) : res B :=
  match m with Ok a => k a | Throw => Throw | UB => UB end.
Notation "x <- m ;; k" := (bind m (fun x => k))
  (at level 61, m at next level, right associativity).
Notation "' p <- m ;; k" := (bind m (fun p => k))
  (at level 61, p pattern, m at next level, right associativity, only parsing).

Definition guard (b : bool) : res unit := if b then Ok tt else Throw.
Definition require (b : bool) : res unit := if b then Ok tt else UB.

(** [l\[i\]] as an rvalue. *)
Definition rd {A} (l : list A) (i : nat) : res A :=
  match nth_error l i with Some x => Ok x | None => UB end.

Fixpoint upd {A} (l : list A) (i : nat) (x : A) : list A :=
  match l, i with
  | [], _ => []
  | _ :: t, O => x :: t
  | h :: t, S j => h :: upd t j x
  end.

(** [l\[i\] = x]. *)
Definition wr {A} (l : list A) (i : nat) (x : A) : res (list A) :=
  if i <? length l then Ok (upd l i x) else UB.

(** [for (k = i; k < i + n; ++k) s = body(k, s)]. *)
Fixpoint for_from {S : Type} (i n : nat) (body : nat -> S -> res S) (s : S)
  : res S :=
  match n with
  | O => Ok s
  | Datatypes.S m => s' <- body i s ;; for_from (Datatypes.S i) m body s'
  end.
Definition for_ {S : Type} (n : nat) (body : nat -> S -> res S) (s : S) : res S :=
  for_from 0 n body s.

(** Monadic map, left to right. *)
Fixpoint mapM {A B} (f : A -> res B) (l : list A) : res (list B) :=
  match l with
  | [] => Ok []
  | x :: t => y <- f x ;; ys <- mapM f t ;; Ok (y :: ys)
  end.

Fixpoint foldM {A S} (f : S -> A -> res S) (l : list A) (s : S) : res S :=
  match l with
  | [] => Ok s
  | x :: t => s' <- f s x ;; foldM f t s'
  end.

(** Specification helper: the list [f 0; ...; f (n-1)]. *)
Definition tab {A} (n : nat) (f : nat -> A) : list A := map f (seq 0 n).

(** [std::vector::resize(n)] with value-initialised new elements. *)
Definition resize {A} (d : A) (n : nat) (l : list A) : list A :=
  firstn n l ++ repeat d (n - length l).

(* ------------------------------------------------------------------ *)
(** ** Lemmas *)

Lemma bind_Ok {A B} (a : A) (k : A -> res B) : bind (Ok a) k = k a.
Proof. reflexivity. Qed.

Lemma bind_Ok_inv {A B} (m : res A) (k : A -> res B) b :
  bind m k = Ok b -> exists a, m = Ok a /\ k a = Ok b.
Proof. destruct m; simpl; intros H; try discriminate; eauto. Qed.

Lemma bind_assoc {A B C} (m : res A) (f : A -> res B) (g : B -> res C) :
  bind (bind m f) g = bind m (fun a => bind (f a) g).
Proof. destruct m; reflexivity. Qed.

Lemma bind_ext {A B} (m : res A) (f g : A -> res B) :
  (forall a, f a = g a) -> bind m f = bind m g.
Proof. intros H; destruct m; simpl; auto. Qed.

Lemma rd_ok {A} (l : list A) i x : nth_error l i = Some x -> rd l i = Ok x.
Proof. unfold rd; intros ->; reflexivity. Qed.

Lemma rd_nth {A} (l : list A) i d : i < length l -> rd l i = Ok (nth i l d).
Proof. intros H. apply rd_ok. apply nth_error_nth'; exact H. Qed.

Lemma rd_UB {A} (l : list A) i : length l <= i -> rd l i = UB.
Proof. unfold rd; intros H. apply nth_error_None in H. now rewrite H. Qed.

Lemma rd_Ok_inv {A} (l : list A) i x :
  rd l i = Ok x -> nth_error l i = Some x.
Proof. unfold rd. destruct (nth_error l i); intros H; inversion H; reflexivity. Qed.

Lemma rd_not_UB {A} (l : list A) i : rd l i <> UB <-> i < length l.
Proof.
  unfold rd. destruct (nth_error l i) eqn:E.
  - split; [intros _; apply nth_error_Some; congruence | discriminate].
  - apply nth_error_None in E. split; [congruence | lia].
Qed.

Lemma upd_length {A} (l : list A) i x : length (upd l i x) = length l.
Proof. revert i; induction l as [|h t IH]; intros [|i]; simpl; auto. Qed.

Lemma nth_error_upd {A} (l : list A) i j x :
  nth_error (upd l i x) j =
  if (j =? i) && (i <? length l) then Some x else nth_error l j.
Proof.
  revert i j; induction l as [|h t IH]; intros i j.
  - simpl. rewrite andb_false_r. destruct i; reflexivity.
  - destruct i as [|i]; destruct j as [|j]; simpl; auto.
    rewrite IH. reflexivity.
Qed.

Lemma nth_upd {A} (l : list A) i j x d :
  nth j (upd l i x) d = if (j =? i) && (i <? length l) then x else nth j l d.
Proof.
  revert i j; induction l as [|h t IH]; intros i j.
  - simpl. rewrite andb_false_r. destruct i; reflexivity.
  - destruct i as [|i]; destruct j as [|j]; simpl; auto.
    rewrite IH. reflexivity.
Qed.

Lemma nth_upd_eq {A} (l : list A) i x d :
  i < length l -> nth i (upd l i x) d = x.
Proof.
  intros H. rewrite nth_upd, Nat.eqb_refl.
  apply Nat.ltb_lt in H. now rewrite H.
Qed.

Lemma nth_upd_neq {A} (l : list A) i j x d :
  j <> i -> nth j (upd l i x) d = nth j l d.
Proof. intros H. rewrite nth_upd. apply Nat.eqb_neq in H. now rewrite H. Qed.

Lemma wr_ok {A} (l : list A) i x : i < length l -> wr l i x = Ok (upd l i x).
Proof. unfold wr; intros H. apply Nat.ltb_lt in H. now rewrite H. Qed.

Lemma wr_UB {A} (l : list A) i x : length l <= i -> wr l i x = UB.
Proof. unfold wr; intros H. apply Nat.ltb_ge in H. now rewrite H. Qed.

Lemma wr_Ok_inv {A} (l : list A) i x l' :
  wr l i x = Ok l' -> i < length l /\ l' = upd l i x.
Proof.
  unfold wr. destruct (Nat.ltb_spec i (length l)); intros H'; inversion H'; auto.
Qed.

Lemma upd_same {A} (l : list A) i x : nth_error l i = Some x -> upd l i x = l.
Proof.
  revert i; induction l as [|h t IH]; intros [|i]; simpl; intros H; auto.
  - congruence.
  - now rewrite IH.
Qed.

Lemma upd_comm {A} (l : list A) i j x y :
  i <> j -> upd (upd l i x) j y = upd (upd l j y) i x.
Proof.
  revert i j; induction l as [|h t IH]; intros [|i] [|j] H; simpl; auto; try lia.
  rewrite IH; auto.
Qed.

Lemma upd_upd {A} (l : list A) i x y : upd (upd l i x) i y = upd l i y.
Proof. revert i; induction l as [|h t IH]; intros [|i]; simpl; auto. now rewrite IH. Qed.

Lemma upd_app {A} (l1 l2 : list A) i x :
  upd (l1 ++ l2) i x =
  if i <? length l1 then upd l1 i x ++ l2 else l1 ++ upd l2 (i - length l1) x.
Proof.
  revert i; induction l1 as [|h t IH]; intros i; simpl.
  - now rewrite Nat.sub_0_r.
  - destruct i as [|i]; simpl; auto. rewrite IH.
    change (S i <? S (length t)) with (i <? length t).
    destruct (i <? length t); reflexivity.
Qed.

Lemma list_ext {A} (l l' : list A) :
  length l = length l' ->
  (forall i, i < length l -> nth_error l i = nth_error l' i) -> l = l'.
Proof.
  revert l'; induction l as [|h t IH]; intros [|h' t'] Hl Hn; simpl in *; auto; try lia.
  f_equal.
  - specialize (Hn 0 ltac:(lia)). simpl in Hn. congruence.
  - apply IH; [lia|]. intros i Hi. apply (Hn (S i)). lia.
Qed.

Lemma list_ext_nth {A} (d : A) (l l' : list A) :
  length l = length l' ->
  (forall i, i < length l -> nth i l d = nth i l' d) -> l = l'.
Proof.
  intros Hl Hn. apply list_ext; auto. intros i Hi.
  rewrite (nth_error_nth' l d Hi). rewrite (nth_error_nth' l' d) by lia.
  now rewrite Hn.
Qed.

Lemma tab_length {A} n (f : nat -> A) : length (tab n f) = n.
Proof. unfold tab. now rewrite map_length, seq_length. Qed.

Lemma nth_tab {A} n (f : nat -> A) i d : i < n -> nth i (tab n f) d = f i.
Proof.
  intros H. unfold tab.
  rewrite nth_indep with (d' := f 0) by now rewrite map_length, seq_length.
  rewrite map_nth, seq_nth; auto.
Qed.

Lemma nth_error_tab {A} n (f : nat -> A) i :
  nth_error (tab n f) i = if i <? n then Some (f i) else None.
Proof.
  destruct (Nat.ltb_spec i n).
  - rewrite (nth_error_nth' _ (f 0)) by (rewrite tab_length; lia).
    now rewrite nth_tab.
  - apply nth_error_None. now rewrite tab_length.
Qed.

Lemma tab_ext {A} n (f g : nat -> A) :
  (forall i, i < n -> f i = g i) -> tab n f = tab n g.
Proof.
  intros H. unfold tab. apply map_ext_in. intros i Hi. apply in_seq in Hi.
  apply H. lia.
Qed.

Lemma tab_nth {A} (l : list A) d : tab (length l) (fun i => nth i l d) = l.
Proof.
  apply (list_ext_nth d); rewrite tab_length; auto.
  intros i Hi. now rewrite nth_tab.
Qed.

Lemma tab_S {A} n (f : nat -> A) : tab (S n) f = tab n f ++ [f n].
Proof. unfold tab. rewrite seq_S, map_app. reflexivity. Qed.

Lemma tab_cons {A} n (f : nat -> A) : tab (S n) f = f 0 :: tab n (fun i => f (S i)).
Proof. unfold tab. simpl. f_equal. rewrite <- seq_shift, map_map. reflexivity. Qed.

Lemma map_tab {A B} (g : A -> B) n f : map g (tab n f) = tab n (fun i => g (f i)).
Proof. unfold tab. now rewrite map_map. Qed.

Lemma tab_app {A} n m (f : nat -> A) :
  tab (n + m) f = tab n f ++ tab m (fun i => f (n + i)).
Proof.
  unfold tab. rewrite seq_app, map_app. f_equal. simpl.
  replace n with (n + 0) at 1 by lia. generalize 0 as k.
  induction m as [|m IH]; intros k; simpl; auto.
  f_equal. rewrite plus_n_Sm. apply IH.
Qed.

Lemma for_from_inv {S} (P : nat -> S -> Prop) i n body s :
  P i s ->
  (forall k s, i <= k < i + n -> P k s ->
     exists s', body k s = Ok s' /\ P (Datatypes.S k) s') ->
  exists s', for_from i n body s = Ok s' /\ P (i + n) s'.
Proof.
  revert i s; induction n as [|n IH]; intros i s H0 Hstep; simpl.
  - exists s. rewrite Nat.add_0_r. auto.
  - destruct (Hstep i s ltac:(lia) H0) as (s' & E & H1). rewrite E. simpl.
    destruct (IH (Datatypes.S i) s' H1) as (s'' & E' & H2).
    + intros k t Hk Hp. apply Hstep; auto; lia.
    + exists s''. split; auto. now replace (i + Datatypes.S n) with (Datatypes.S i + n) by lia.
Qed.

Lemma for_inv {S} (P : nat -> S -> Prop) n body s :
  P 0 s ->
  (forall k s, k < n -> P k s -> exists s', body k s = Ok s' /\ P (Datatypes.S k) s') ->
  exists s', for_ n body s = Ok s' /\ P n s'.
Proof.
  intros H0 Hs. apply (for_from_inv P 0 n body s H0).
  intros k t Hk. apply Hs. lia.
Qed.

(** A loop whose body always succeeds with a known pure step. *)
Lemma for_from_pure {S} (f : nat -> S -> S) (P : nat -> S -> Prop) i n body s :
  P i s ->
  (forall k s, i <= k < i + n -> P k s -> body k s = Ok (f k s) /\ P (Datatypes.S k) (f k s)) ->
  for_from i n body s = Ok (fold_left (fun a k => f k a) (seq i n) s).
Proof.
  revert i s; induction n as [|n IH]; intros i s H0 Hstep; simpl; auto.
  destruct (Hstep i s ltac:(lia) H0) as (E & H1). rewrite E. simpl.
  apply IH; auto. intros k t Hk Hp. apply Hstep; auto; lia.
Qed.

Lemma for_pure {S} (f : nat -> S -> S) (P : nat -> S -> Prop) n body s :
  P 0 s ->
  (forall k s, k < n -> P k s -> body k s = Ok (f k s) /\ P (Datatypes.S k) (f k s)) ->
  for_ n body s = Ok (fold_left (fun a k => f k a) (seq 0 n) s).
Proof.
  intros H0 Hs. apply (for_from_pure f P); auto. intros k t Hk. apply Hs. lia.
Qed.

Lemma for_from_ext {S} i n (b1 b2 : nat -> S -> res S) s :
  (forall k s, i <= k < i + n -> b1 k s = b2 k s) ->
  for_from i n b1 s = for_from i n b2 s.
Proof.
  revert i s; induction n as [|n IH]; intros i s H; simpl; auto.
  rewrite H by lia. apply bind_ext. intros a. apply IH.
  intros k t Hk. apply H. lia.
Qed.

Lemma for_ext {S} n (b1 b2 : nat -> S -> res S) s :
  (forall k s, k < n -> b1 k s = b2 k s) -> for_ n b1 s = for_ n b2 s.
Proof. intros H. apply for_from_ext. intros k t Hk. apply H. lia. Qed.

Lemma for_from_app {S} i n m (b : nat -> S -> res S) s :
  for_from i (n + m) b s = bind (for_from i n b s) (for_from (i + n) m b).
Proof.
  revert i s; induction n as [|n IH]; intros i s; simpl.
  - now rewrite Nat.add_0_r.
  - rewrite bind_assoc. apply bind_ext. intros a. rewrite IH.
    now replace (i + Datatypes.S n) with (Datatypes.S i + n) by lia.
Qed.

Lemma for_S {S} n (b : nat -> S -> res S) s :
  for_ (Datatypes.S n) b s = bind (for_ n b s) (b n).
Proof.
  unfold for_. replace (Datatypes.S n) with (n + 1) by lia.
  rewrite for_from_app. apply bind_ext. intros a. simpl.
  destruct (b n a); reflexivity.
Qed.

Lemma resize_length {A} (d : A) n l : length (resize d n l) = n.
Proof. unfold resize. rewrite app_length, firstn_length, repeat_length. lia. Qed.

Lemma resize_firstn {A} (d : A) n l : n <= length l -> resize d n l = firstn n l.
Proof.
  intros H. unfold resize. replace (n - length l) with 0 by lia.
  simpl. apply app_nil_r.
Qed.

Lemma nth_resize {A} (d : A) n l i :
  i < n -> nth i (resize d n l) d = nth i l d.
Proof.
  intros H. unfold resize.
  destruct (Nat.lt_ge_cases i (length l)) as [Hi|Hi].
  - rewrite app_nth1 by (rewrite firstn_length; lia).
    rewrite <- (firstn_skipn n l) at 2.
    rewrite app_nth1 by (rewrite firstn_length; lia). reflexivity.
  - rewrite app_nth2 by (rewrite firstn_length; lia).
    rewrite nth_repeat. now rewrite nth_overflow.
Qed.

Lemma nth_firstn_lt {A} (l : list A) n i d :
  i < n -> nth i (firstn n l) d = nth i l d.
Proof.
  revert n i; induction l as [|h t IH]; intros n i H.
  - now rewrite firstn_nil.
  - destruct n as [|n]; [lia|]. destruct i as [|i]; simpl; auto. apply IH; lia.
Qed.

Lemma nth_skipn_add {A} (l : list A) n i d : nth i (skipn n l) d = nth (n + i) l d.
Proof.
  revert n i; induction l as [|h t IH]; intros n i.
  - rewrite skipn_nil. destruct i, n; reflexivity.
  - destruct n as [|n]; simpl; auto.
Qed.

Lemma mapM_ok {A B} (f : A -> res B) (g : A -> B) l :
  (forall x, In x l -> f x = Ok (g x)) -> mapM f l = Ok (map g l).
Proof.
  induction l as [|x t IH]; intros H; simpl; auto.
  rewrite H by (left; auto). simpl. rewrite IH; auto.
  intros y Hy. apply H. now right.
Qed.

Lemma mapM_length {A B} (f : A -> res B) l l' : mapM f l = Ok l' -> length l' = length l.
Proof.
  revert l'; induction l as [|x t IH]; intros l' H; simpl in H.
  - inversion H; reflexivity.
  - apply bind_Ok_inv in H as (y & E & H). apply bind_Ok_inv in H as (ys & E' & H).
    inversion H; subst. simpl. f_equal. auto.
Qed.

Lemma foldM_app {A S} (f : S -> A -> res S) l1 l2 s :
  foldM f (l1 ++ l2) s = bind (foldM f l1 s) (foldM f l2).
Proof.
  revert s; induction l1 as [|x t IH]; intros s; simpl; auto.
  rewrite bind_assoc. apply bind_ext. intros a. apply IH.
Qed.

Lemma divmod_unique b q r : r < b -> (q * b + r) / b = q /\ (q * b + r) mod b = r.
Proof.
  intros H. split.
  - rewrite Nat.add_comm, Nat.div_add by lia. rewrite Nat.div_small; lia.
  - rewrite Nat.add_comm, Nat.mod_add by lia. apply Nat.mod_small; lia.
Qed.

(** A nested counting loop is one loop over [a * b] steps. *)
Lemma for_nested {S} a b (body : nat -> nat -> S -> res S) s :
  for_ a (fun i s => for_ b (fun j s => body i j s) s) s =
  for_ (a * b) (fun q s => body (q / b) (q mod b) s) s.
Proof.
  induction a as [|a IH]; [reflexivity|].
  rewrite for_S, IH. simpl. rewrite (Nat.add_comm b).
  unfold for_ at 3. rewrite for_from_app. fold (for_ (S:=S) (a * b)).
  apply bind_ext. intros t. simpl.
  unfold for_. generalize (eq_refl (a * b + 0)).
  assert (G : forall m k t, k + m <= b ->
    for_from k m (fun j s => body a j s) t =
    for_from (a * b + k) m (fun q s => body (q / b) (q mod b) s) t).
  { induction m as [|m IHm]; intros k u Hk; simpl; auto.
    destruct (divmod_unique b a k) as [E1 E2]; [lia|]. rewrite E1, E2.
    apply bind_ext. intros u'. rewrite plus_n_Sm. apply IHm. lia. }
  intros _. rewrite G by lia. now rewrite Nat.add_0_r.
Qed.

(** A loop that updates the distinct cells [g 0, ..., g (n-1)] of a buffer, each from
    its own old value, leaves every other cell alone. *)
Lemma for_scatter {A} (d0 : A) (g : nat -> nat) (v : nat -> A -> A) n body dst :
  (forall i, i < n -> g i < length dst) ->
  (forall i j, i < n -> j < n -> g i = g j -> i = j) ->
  (forall i d, i < n -> length d = length dst ->
     body i d = Ok (upd d (g i) (v i (nth (g i) d d0)))) ->
  exists dst', for_ n body dst = Ok dst' /\ length dst' = length dst /\
    (forall i, i < n -> nth (g i) dst' d0 = v i (nth (g i) dst d0)) /\
    (forall p, (forall i, i < n -> p <> g i) -> nth p dst' d0 = nth p dst d0).
Proof.
  intros Hg Hinj Hb.
  destruct (for_inv (fun k d => length d = length dst /\
    (forall i, i < k -> nth (g i) d d0 = v i (nth (g i) dst d0)) /\
    (forall p, (forall i, i < k -> p <> g i) -> nth p d d0 = nth p dst d0)) n body dst)
    as (d' & E & H1 & H2 & H3).
  - repeat split; auto; intros; lia.
  - intros k d Hk (H1 & H2 & H3). rewrite Hb by auto.
    eexists; split; [reflexivity|]. rewrite upd_length. split; [auto|]. split.
    + intros i Hi. destruct (Nat.eq_dec i k) as [->|Hne].
      * rewrite nth_upd_eq by (rewrite H1; auto). f_equal. apply H3.
        intros j Hj E. apply Hinj in E; lia.
      * rewrite nth_upd_neq by (intros E; apply Hinj in E; lia). apply H2. lia.
    + intros p Hp. rewrite nth_upd_neq by (apply Hp; lia). apply H3.
      intros i Hi. apply Hp. lia.
  - exists d'. auto.
Qed.

(** A loop that fills a fresh buffer cell by cell. *)
Lemma for_fill {A} (f : nat -> A) n body dst :
  length dst = n ->
  (forall i d, i < n -> length d = n -> body i d = Ok (upd d i (f i))) ->
  for_ n body dst = Ok (tab n f).
Proof.
  intros Hl Hb.
  destruct (for_inv (fun k d => length d = n /\
    forall i, i < k -> nth_error d i = Some (f i)) n body dst) as (d & E & L & H).
  - split; auto. intros; lia.
  - intros k d Hk (L & H). rewrite Hb by auto. eexists; split; [reflexivity|].
    rewrite upd_length. split; auto. intros i Hi. rewrite nth_error_upd.
    destruct (Nat.eqb_spec i k) as [->|]; simpl.
    + destruct (Nat.ltb_spec k (length d)); [auto|lia].
    + apply H. lia.
  - rewrite E. f_equal. apply list_ext.
    + now rewrite tab_length.
    + intros i Hi. rewrite nth_error_tab. destruct (Nat.ltb_spec i n); [|lia].
      apply H. lia.
Qed.

Lemma tab_concat {A} (f : nat -> nat -> A) n m :
  tab (n * m) (fun q => f (q / m) (q mod m)) = concat (tab n (fun i => tab m (f i))).
Proof.
  induction n as [|n IH]; [reflexivity|].
  rewrite tab_S, concat_app. simpl concat. rewrite app_nil_r, <- IH.
  replace (S n * m) with (n * m + m) by lia. rewrite tab_app. f_equal.
  apply tab_ext. intros i Hi. destruct (divmod_unique m n i Hi) as [-> ->]. reflexivity.
Qed.

(** The same for a doubly nested loop writing row-major. *)
Lemma for_fill2 {A} (f : nat -> nat -> A) n m body dst :
  length dst = n * m ->
  (forall i j d, i < n -> j < m -> length d = n * m ->
     body i j d = Ok (upd d (i * m + j) (f i j))) ->
  for_ n (fun i d => for_ m (fun j d => body i j d) d) dst =
  Ok (concat (tab n (fun i => tab m (f i)))).
Proof.
  intros Hl Hb. rewrite for_nested, <- tab_concat.
  apply (for_fill (fun q => f (q / m) (q mod m))); auto.
  intros q d Hq Hd.
  assert (m <> 0) by (intros ->; lia).
  assert (q / m < n) by (apply Nat.div_lt_upper_bound; lia).
  assert (q mod m < m) by (apply Nat.mod_upper_bound; auto).
  rewrite Hb by auto. do 2 f_equal. pose proof (Nat.div_mod q m). lia.
Qed.

