(** C50: one-hot label encoding. *)
From Verif Require Import Base Num EncodingModel.
From Coq Require Import Permutation Sorted.

Section Encoding.
Context {T : Type} `{NumOps T}.

(** *** Specification *)
(** The order of the label values: strict and total (numbers without NaN). *)
Definition total_order : Prop :=
  (forall a, nltb a a = false) /\
  (forall a b c, nltb a b = true -> nltb b c = true -> nltb a c = true) /\
  (forall a b, nltb a b = false -> nltb b a = false -> a = b).
(** [D] lists the distinct values of [col]. *)
Definition distinct_of (col D : list T) : Prop := NoDup D /\ forall x, In x D <-> In x col.
(** [w] is the one-hot code of [v]: as long as there are distinct values in [col], 1 at the
    number of distinct values below [v] and 0 elsewhere. *)
Definition is_code (col : list T) (v : T) (w : list T) : Prop :=
  forall D, distinct_of col D -> length w = length D /\
    let k := length (filter (fun x => nltb x v) D) in
    k < length D /\ forall j, j < length D -> nth j w n0 = if j =? k then n1 else n0.
Definition column (p : dparser T) (l : nat) : list T := map (fun row => nth l row n0) (dp_rows p).
(** Rows are as wide as announced, the labels are columns. *)
Definition parser_ok (p : dparser T) : Prop :=
  Forall (fun row => length row = dp_features p) (dp_rows p) /\
  StronglySorted lt (dp_labels p) /\ Forall (fun l => l < dp_features p) (dp_labels p).
Definition row_of (w r : nat) (data : list T) : list T := firstn w (skipn (r * w) data).

(** *** std::set and std::map as sorted sequences *)
Lemma firstn_S {A} (l : list A) : forall k d, k < length l -> firstn (S k) l = firstn k l ++ [nth k l d].
Proof.
  induction l as [|a l IH]; intros [|k] d Hk; cbn in Hk; try lia; [reflexivity|].
  cbn [nth]. change (firstn (S (S k)) (a :: l)) with (a :: firstn (S k) l). rewrite (IH k d) by lia. reflexivity.
Qed.
Notation slt := (fun a b => nltb a b = true).

Lemma set_insert_In (O : total_order) x s y : In y (set_insert x s) <-> y = x \/ In y s.
Proof.
  destruct O as (_ & _ & Tri). induction s as [|a s IH]; cbn; [intuition|].
  destruct (nltb a x) eqn:E1; [cbn; rewrite IH; intuition|].
  destruct (nltb x a) eqn:E2; [cbn; intuition|].
  pose proof (Tri _ _ E1 E2) as ->. cbn. intuition.
Qed.
Lemma set_insert_sorted (O : total_order) x s : StronglySorted slt s -> StronglySorted slt (set_insert x s).
Proof.
  intros SS. induction SS as [|a s SS IH F]; cbn; [repeat constructor|].
  destruct (nltb a x) eqn:E1.
  - constructor; [exact IH|]. apply Forall_forall. intros y Hy. apply (set_insert_In O) in Hy as [->|Hy]; [exact E1|].
    rewrite Forall_forall in F. auto.
  - destruct (nltb x a) eqn:E2; [|constructor; assumption]. constructor; [now constructor|]. constructor; [exact E2|].
    apply Forall_forall. intros y Hy. rewrite Forall_forall in F. destruct O as (_ & Tr & _). eapply Tr; eauto.
Qed.
Lemma fold_set (O : total_order) vals : forall s, StronglySorted slt s ->
  StronglySorted slt (fold_left (fun s v => set_insert v s) vals s) /\
  forall y, In y (fold_left (fun s v => set_insert v s) vals s) <-> In y s \/ In y vals.
Proof.
  induction vals as [|v vals IH]; intros s SS; cbn; [split; [exact SS|intuition]|].
  destruct (IH (set_insert v s) (set_insert_sorted O v s SS)) as (A & B). split; [exact A|].
  intros y. rewrite B, (set_insert_In O). intuition.
Qed.
Lemma sorted_NoDup (O : total_order) s : StronglySorted slt s -> NoDup s.
Proof.
  intros SS. induction SS as [|a s SS IH F]; constructor; [|exact IH].
  intros I. rewrite Forall_forall in F. specialize (F _ I). destruct O as (Ir & _). rewrite Ir in F. discriminate.
Qed.

Lemma column_loop (rows : list (list T)) idx : Forall (fun row => idx < length row) rows ->
  for_ (length rows) (fun i ret => row <- rd rows i ;; v <- rd row idx ;; Ok (ret ++ [v])) [] =
  Ok (map (fun row => nth idx row n0) rows).
Proof.
  intros F. destruct (for_inv (fun k ret => ret = map (fun row => nth idx row n0) (firstn k rows)) (length rows)
    (fun i ret => row <- rd rows i ;; v <- rd row idx ;; Ok (ret ++ [v])) []) as (ret & E & Q).
  - reflexivity.
  - intros k ret Hk ->. rewrite (rd_nth rows k []) by exact Hk. cbn [bind].
    rewrite Forall_forall in F. pose proof (F _ (nth_In rows [] Hk)) as L.
    rewrite (rd_nth _ idx n0) by exact L. cbn [bind]. eexists. split; [reflexivity|].
    rewrite (firstn_S rows k []) by exact Hk. now rewrite map_app.
  - rewrite E, Q, firstn_all. reflexivity.
Qed.

Lemma unique_spec (O : total_order) p idx : Forall (fun row => idx < length row) (dp_rows p) ->
  exists u, unique p idx = Ok u /\ StronglySorted slt u /\ distinct_of (column p idx) u.
Proof.
  intros F. unfold unique. rewrite (column_loop _ _ F). cbn [bind].
  destruct (fold_set O (map (fun row => nth idx row n0) (dp_rows p)) []) as (A & B); [constructor|].
  eexists. split; [reflexivity|]. split; [exact A|]. split; [now apply (sorted_NoDup O)|].
  intros x. rewrite B. unfold column. cbn [In]. tauto.
Qed.

Lemma map_put_last (O : total_order) k v m : Forall (fun e => slt (fst e) k) m -> map_put k v m = m ++ [(k, v)].
Proof.
  intros F. induction F as [|[k' v'] m E F IH]; cbn; [reflexivity|]. cbn in E. rewrite E. now rewrite IH.
Qed.
Lemma fold_map (O : total_order) u : forall m i, StronglySorted slt (map fst m ++ u) ->
  fold_left (fun '(m, i) l => (map_put l i m, i + 1)) u (m, i) = (m ++ combine u (seq i (length u)), i + length u).
Proof.
  induction u as [|a u IH]; intros m i SS; cbn [fold_left length seq combine].
  - now rewrite app_nil_r, Nat.add_0_r.
  - rewrite (map_put_last O).
    + rewrite IH.
      * rewrite <- app_assoc. cbn [app]. f_equal; [|lia]. now rewrite Nat.add_1_r.
      * rewrite map_app, <- app_assoc. exact SS.
    + apply Forall_forall. intros e He.
      assert (G : forall l1 l2 x y, StronglySorted slt (l1 ++ l2) -> In x l1 -> In y l2 -> slt x y).
      { clear. induction l1 as [|b l1 IHl]; intros l2 x y SS I1 I2; [easy|]. inversion SS; subst. destruct I1 as [->|I1].
        - rewrite Forall_forall in H3. apply H3. apply in_or_app. auto.
        - now apply (IHl l2). }
      apply (G (map fst m) (a :: u)); [exact SS|now apply in_map|now left].
Qed.
Lemma unique_map_spec (O : total_order) p idx u : unique p idx = Ok u -> StronglySorted slt u ->
  unique_map p idx = Ok (combine u (seq 0 (length u))).
Proof.
  intros E SS. unfold unique_map. rewrite E. cbn [bind]. now rewrite (fold_map O) by exact SS.
Qed.

Lemma filter_all {A} (f : A -> bool) l : (forall x, In x l -> f x = true) -> filter f l = l.
Proof.
  induction l as [|a l IH]; intros F; cbn; [reflexivity|]. rewrite (F a) by now left. f_equal. apply IH. intros x Hx. apply F. now right.
Qed.
Lemma filter_none {A} (f : A -> bool) l : (forall x, In x l -> f x = false) -> filter f l = [].
Proof.
  induction l as [|a l IH]; intros F; cbn; [reflexivity|]. rewrite (F a) by now left. apply IH. intros x Hx. apply F. now right.
Qed.
Lemma map_at_rank (O : total_order) u v : StronglySorted slt u -> In v u -> forall i,
  map_at (combine u (seq i (length u))) v = Ok (i + length (filter (fun x => nltb x v) u)).
Proof.
  intros SS. pose proof O as (Ir & Tr & Tri). induction SS as [|a u SS IH F]; intros I i; [easy|].
  cbn [length seq combine map_at filter]. rewrite Forall_forall in F.
  destruct I as [->|I].
  - rewrite (Ir v). cbn. rewrite filter_none; [cbn; f_equal; lia|]. intros x Hx. destruct (nltb x v) eqn:E; [|reflexivity].
    pose proof (Tr _ _ _ E (F _ Hx)) as Q. rewrite Ir in Q. discriminate.
  - rewrite (F _ I). cbn [orb]. rewrite (IH I). cbn [length]. f_equal. lia.
Qed.
Lemma filter_length_le {A} (f : A -> bool) l : length (filter f l) <= length l.
Proof. induction l as [|a l IH]; cbn; [lia|]. destruct (f a); cbn; lia. Qed.
Lemma Permutation_filter' {A} (f : A -> bool) l l' : Permutation l l' -> length (filter f l) = length (filter f l').
Proof.
  induction 1; cbn; auto; try congruence.
  - destruct (f x); cbn; congruence.
  - destruct (f x), (f y); reflexivity.
Qed.

(** *** The code of a value *)
Definition code (u : list T) (v : T) : list T :=
  tab (length u) (fun j => if j =? length (filter (fun x => nltb x v) u) then n1 else n0).
Lemma rank_lt (O : total_order) u v : In v u -> length (filter (fun x => nltb x v) u) < length u.
Proof.
  destruct O as (Ir & _). induction u as [|a u IH]; intros I; [easy|]. cbn. destruct I as [->|I].
  - rewrite Ir. pose proof (filter_length_le (fun x => nltb x v) u). lia.
  - specialize (IH I). destruct (nltb a v); cbn; lia.
Qed.
Lemma code_is_code (O : total_order) col u v : distinct_of col u -> In v col -> is_code col v (code u v).
Proof.
  intros (N & I) Iv D (ND & ID).
  assert (P : Permutation u D) by (apply NoDup_Permutation; auto; intros x; rewrite I, ID; reflexivity).
  unfold code. rewrite tab_length. split; [now apply Permutation_length|].
  cbn zeta. rewrite <- (Permutation_filter' _ _ _ P), <- (Permutation_length P).
  split; [apply (rank_lt O); now apply I|]. intros j Hj. now rewrite nth_tab.
Qed.

(** *** Buffers as functions *)
Lemma wr_tab {A} N (f : nat -> A) k x : k < N -> wr (tab N f) k x = Ok (tab N (fun j => if j =? k then x else f j)).
Proof.
  intros Hk. rewrite wr_ok by (rewrite tab_length; exact Hk). f_equal. apply (list_ext_nth x).
  - now rewrite upd_length, !tab_length.
  - intros i Hi. rewrite upd_length, tab_length in Hi. rewrite (nth_tab _ _ i) by exact Hi.
    destruct (Nat.eqb_spec i k) as [->|Ne].
    + rewrite nth_upd_eq by (rewrite tab_length; exact Hk). reflexivity.
    + rewrite nth_upd_neq by congruence. now rewrite nth_tab.
Qed.
Lemma for_store {A} (q : nat -> bool) (g : nat -> A) base n N body (f : nat -> A) :
  base + n <= N ->
  (forall c d, c < n -> length d = N -> body c d = if q c then wr d (base + c) (g c) else Ok d) ->
  for_ n body (tab N f) = Ok (tab N (fun j => if (base <=? j) && (j <? base + n) && q (j - base) then g (j - base) else f j)).
Proof.
  intros HN Hb.
  destruct (for_inv (fun k d => d = tab N (fun j => if (base <=? j) && (j <? base + k) && q (j - base) then g (j - base) else f j)) n body (tab N f)) as (d & E & Q).
  - apply tab_ext. intros i Hi. destruct (Nat.leb_spec base i), (Nat.ltb_spec i (base + 0)); cbn; auto; lia.
  - intros k d Hk ->. rewrite Hb by (auto; apply tab_length). destruct (q k) eqn:Eq.
    + rewrite wr_tab by lia. eexists. split; [reflexivity|]. apply tab_ext. intros i Hi.
      destruct (Nat.eqb_spec i (base + k)) as [->|Ne].
      * replace (base + k - base) with k by lia. rewrite Eq.
        destruct (Nat.leb_spec base (base + k)), (Nat.ltb_spec (base + k) (base + S k)); cbn; auto; lia.
      * destruct (Nat.ltb_spec i (base + k)), (Nat.ltb_spec i (base + S k)); auto; lia.
    + eexists. split; [reflexivity|]. apply tab_ext. intros i Hi.
      destruct (Nat.eq_dec i (base + k)) as [->|Ne].
      * replace (base + k - base) with k by lia. rewrite Eq. now rewrite !andb_false_r.
      * destruct (Nat.ltb_spec i (base + k)), (Nat.ltb_spec i (base + S k)); auto; lia.
  - now rewrite E, Q.
Qed.

(** *** One row *)
Definition us_ok (p : dparser T) (us : list (list T)) : Prop :=
  Forall2 (fun l u => unique p l = Ok u /\ StronglySorted slt u /\ distinct_of (column p l) u) (dp_labels p) us.
Definition total (us : list (list T)) : nat := fold_right (fun u n => length u + n) 0 us.
Definition codes (p : dparser T) (us : list (list T)) (row : list T) : list (list T) :=
  map (fun lu => code (snd lu) (nth (fst lu) row n0)) (combine (dp_labels p) us).

Lemma us_exist (O : total_order) p : parser_ok p -> exists us, us_ok p us.
Proof.
  intros (W & _ & L). unfold us_ok.
  assert (forall ls, Forall (fun l => l < dp_features p) ls -> exists us,
    Forall2 (fun l u => unique p l = Ok u /\ StronglySorted slt u /\ distinct_of (column p l) u) ls us); [|auto].
  intros ls Fl. induction Fl as [|l ls Hl Fl (us & IH)]; [exists []; constructor|].
  destruct (unique_spec O p l) as (u & A & B & C).
  - eapply Forall_impl; [|exact W]. cbn. intros a ->. exact Hl.
  - exists (u :: us). constructor; auto.
Qed.
Lemma feature_size_spec p us : us_ok p us ->
  one_hot_feature_size p = Ok (dp_features p - length (dp_labels p) + total us).
Proof.
  intros F. unfold one_hot_feature_size. generalize (dp_features p - length (dp_labels p)).
  induction F as [|l u ls us (A & _) F IH]; intros n; cbn [foldM total fold_right]; [now rewrite Nat.add_0_r|].
  rewrite A. cbn [bind]. rewrite IH. f_equal. unfold total. lia.
Qed.
Lemma maps_spec (O : total_order) p us : us_ok p us -> forall maps es,
  foldM (fun st l => let '(maps, es) := st in m <- unique_map p l ;; Ok (maps ++ [m], es + length m)) (dp_labels p) (maps, es) =
  Ok (maps ++ map (fun u => combine u (seq 0 (length u))) us, es + total us).
Proof.
  intros F. induction F as [|l u ls us (A & B & _) F IH]; intros maps es; cbn [foldM total fold_right map]; [now rewrite app_nil_r, Nat.add_0_r|].
  rewrite (unique_map_spec O p l u A B). cbn [bind]. rewrite IH. f_equal. rewrite <- app_assoc. f_equal.
  rewrite combine_length, seq_length. unfold total. lia.
Qed.

Lemma total_app a b : total (a ++ b) = total a + total b.
Proof. unfold total. induction a as [|x a IH]; cbn; [reflexivity|]. rewrite IH. lia. Qed.
Lemma codes_length p us row : length (dp_labels p) = length us -> length (concat (codes p us row)) = total us.
Proof.
  unfold codes. generalize (dp_labels p) as ls. induction us as [|u us IH]; intros [|l ls] E; try discriminate; [reflexivity|].
  cbn [combine map concat total fold_right]. rewrite app_length, IH by (cbn in E; lia). unfold code. cbn [snd]. now rewrite tab_length.
Qed.
Lemma Forall2_nth {A B} (P : A -> B -> Prop) l l' i a b : Forall2 P l l' -> i < length l -> P (nth i l a) (nth i l' b).
Proof. intros F. revert i. induction F; intros [|i] Hi; cbn in *; try lia; auto. apply IHF. lia. Qed.
Lemma Forall2_len {A B} (P : A -> B -> Prop) l l' : Forall2 P l l' -> length l = length l'.
Proof. induction 1; cbn; congruence. Qed.

Lemma one_hot_row_spec (O : total_order) p us r f :
  parser_ok p -> us_ok p us -> r < length (dp_rows p) ->
  let es := dp_features p - length (dp_labels p) + total us in
  let off := dp_features p - length (dp_labels p) in
  let row := nth r (dp_rows p) [] in
  let N := es * length (dp_rows p) in
  dp_features p <= es ->
  one_hot_row p (map (fun u => combine u (seq 0 (length u))) us) es r (tab N f) =
  Ok (tab N (fun j => if (r * es <=? j) && (j <? r * es + es)
      then let c := j - r * es in
        if off <=? c then nth (c - off) (concat (codes p us row)) n0
        else if is_label p c then f j else nth c row n0
      else f j)).
Proof.
  intros W U Hr es off row N Hes. unfold one_hot_row. rewrite (rd_nth (dp_rows p) r []) by exact Hr. cbn [bind]. fold row.
  destruct W as (W & _ & WL). rewrite Forall_forall in W. pose proof (W _ (nth_In (dp_rows p) [] Hr)) as Lr. fold row in Lr.
  assert (HN : r * es + es <= N) by (unfold N; clear - Hr; nia).
  rewrite (for_store (fun c => negb (is_label p c)) (fun c => nth c row n0) (r * es) (dp_features p) N).
  2:{ lia. }
  2:{ intros c d Hc Hd. destruct (is_label p c); cbn [negb]; [reflexivity|]. rewrite (rd_nth row c n0) by lia. reflexivity. }
  cbn [bind].
  set (f1 := fun j => if (r * es <=? j) && (j <? r * es + dp_features p) && negb (is_label p (j - r * es)) then nth (j - r * es) row n0 else f j).
  pose proof (Forall2_len _ _ _ U) as Lu.
  set (cs := codes p us row).
  assert (Lcs : length cs = length (dp_labels p)) by (unfold cs, codes; rewrite map_length, combine_length; lia).
  destruct (for_inv (fun k st => st = (tab N (fun j => if (r * es + off <=? j) && (j <? r * es + off + total (firstn k us))
                then nth (j - (r * es + off)) (concat (firstn k cs)) n0 else f1 j), off + total (firstn k us)))
    (length (dp_labels p)) (fun i st => let '(ret, off) := st in
      m <- rd (map (fun u => combine u (seq 0 (length u))) us) i ;; li <- rd (dp_labels p) i ;; v <- rd row li ;;
      hot <- map_at m v ;;
      ret <- for_ (length m) (fun c ret => wr ret (r * es + off + c) (if c =? hot then n1 else n0)) ret ;;
      Ok (ret, off + length m)) (tab N f1, off)) as (st & E & Q).
  - cbn [firstn total fold_right]. f_equal; [|lia]. apply tab_ext. intros j Hj.
    destruct (Nat.leb_spec (r * es + off) j), (Nat.ltb_spec j (r * es + off + 0)); cbn; auto; lia.
  - intros k st Hk ->. set (u := nth k us []). set (l := nth k (dp_labels p) 0).
    pose proof (Forall2_nth _ _ _ k 0 [] U Hk) as (_ & Su & Du). fold u l in Su, Du.
    assert (Hl : l < dp_features p) by (rewrite Forall_forall in WL; apply WL; now apply nth_In).
    assert (Iv : In (nth l row n0) u).
    { apply Du. unfold column. apply in_map_iff. exists row. split; [reflexivity|now apply nth_In]. }
    rewrite (rd_nth (map _ us) k []) by (rewrite map_length; lia).
    change (@nil (T * nat)) with ((fun u : list T => combine u (seq 0 (length u))) []). rewrite map_nth. fold u. cbn [bind].
    rewrite (rd_nth (dp_labels p) k 0) by exact Hk. fold l. cbn [bind]. rewrite (rd_nth row l n0) by lia. cbn [bind].
    rewrite (map_at_rank O u _ Su Iv 0). cbn [bind Nat.add].
    assert (Lc : length (combine u (seq 0 (length u))) = length u) by (rewrite combine_length, seq_length; lia).
    rewrite Lc.
    assert (Fu : firstn (S k) us = firstn k us ++ [u]) by (apply firstn_S; lia).
    assert (Fc : firstn (S k) cs = firstn k cs ++ [nth k cs []]) by (apply firstn_S; lia).
    assert (Ck : nth k cs [] = code u (nth l row n0)).
    { unfold cs, codes. rewrite (nth_indep _ [] (code (snd (0, @nil T)) (nth (fst (0, @nil T)) row n0))) by (rewrite map_length, combine_length; lia).
      rewrite (map_nth (fun lu => code (snd lu) (nth (fst lu) row n0))). rewrite combine_nth by exact Lu. reflexivity. }
    assert (Lk : length (concat (firstn k cs)) = total (firstn k us)).
    { assert (G : forall (ls : list nat) (vs : list (list T)) k, length ls = length vs ->
        length (concat (firstn k (map (fun lu => code (snd lu) (nth (fst lu) row n0)) (combine ls vs)))) = total (firstn k vs)).
      { clear. induction ls as [|a ls IH]; intros [|b vs] [|k] E; try discriminate; try reflexivity.
        cbn [combine map firstn concat total fold_right]. rewrite app_length, IH by (cbn in E; lia). unfold code. cbn [snd]. now rewrite tab_length. }
      apply G. exact Lu. }
    assert (Tk : total (firstn k us) + length u <= total us).
    { assert (Et : total us = total (firstn (S k) us) + total (skipn (S k) us)) by now rewrite <- total_app, firstn_skipn.
      rewrite Fu, total_app in Et. cbn [total fold_right] in Et. lia. }
    rewrite (for_store (fun _ => true) (fun c => if c =? length (filter (fun x => nltb x (nth l row n0)) u) then n1 else n0)
               (r * es + (off + total (firstn k us))) (length u) N).
    2:{ unfold es in *. fold off. clear - Tk HN. unfold off. lia. }
    2:{ intros c d Hc Hd. reflexivity. }
    cbn [bind]. eexists. split; [reflexivity|]. rewrite Fu, Fc, total_app. cbn [total fold_right]. rewrite Nat.add_0_r.
    f_equal; [|lia]. apply tab_ext. intros j Hj.
    rewrite concat_app. cbn [concat]. rewrite app_nil_r, Ck.
    destruct (Nat.leb_spec (r * es + off) j) as [A|A]; cbn [andb].
    2:{ destruct (Nat.leb_spec (r * es + (off + total (firstn k us))) j); cbn [andb]; [lia|reflexivity]. }
    destruct (Nat.leb_spec (r * es + (off + total (firstn k us))) j) as [B|B]; cbn [andb].
    + destruct (Nat.ltb_spec j (r * es + (off + total (firstn k us)) + length u)) as [C|C]; cbn [andb].
      * destruct (Nat.ltb_spec j (r * es + off + (total (firstn k us) + length u))); [|lia].
        rewrite app_nth2 by lia. rewrite Lk. unfold code. rewrite nth_tab by lia.
        replace (j - (r * es + off) - total (firstn k us)) with (j - (r * es + (off + total (firstn k us)))) by lia. reflexivity.
      * destruct (Nat.ltb_spec j (r * es + off + total (firstn k us))); [lia|].
        destruct (Nat.ltb_spec j (r * es + off + (total (firstn k us) + length u))); [lia|reflexivity].
    + destruct (Nat.ltb_spec j (r * es + off + total (firstn k us))) as [C|C]; [|lia].
      destruct (Nat.ltb_spec j (r * es + off + (total (firstn k us) + length u))); [|lia].
      rewrite app_nth1 by lia. reflexivity.
  - fold f1. fold off. rewrite E. cbn [bind]. subst st. f_equal. apply tab_ext. intros j Hj.
    rewrite (firstn_all2 us) by lia. rewrite (firstn_all2 cs) by lia.
    unfold f1. destruct (Nat.leb_spec (r * es) j) as [A|A]; cbn [andb].
    + destruct (Nat.ltb_spec j (r * es + es)) as [B|B]; cbn [andb].
      * cbn zeta. destruct (Nat.leb_spec (r * es + off) j) as [C|C]; destruct (Nat.leb_spec off (j - r * es)) as [D|D]; try lia; cbn [andb].
        -- destruct (Nat.ltb_spec j (r * es + off + total us)) as [F|F]; [|unfold es, off in *; lia].
           f_equal. lia.
        -- destruct (Nat.ltb_spec j (r * es + dp_features p)) as [F|F]; [|unfold off in *; lia]. cbn [andb].
           destruct (is_label p (j - r * es)); reflexivity.
      * destruct (Nat.leb_spec (r * es + off) j) as [C|C]; cbn [andb].
        -- destruct (Nat.ltb_spec j (r * es + off + total us)) as [F|F]; [unfold es, off in *; lia|].
           destruct (Nat.ltb_spec j (r * es + dp_features p)) as [G|G]; [lia|]. reflexivity.
        -- unfold es, off in *. lia.
    + destruct (Nat.leb_spec (r * es + off) j); [lia|]. reflexivity.
Qed.

(** *** The whole data set *)
Lemma labels_le (p : dparser T) : parser_ok p -> length (dp_labels p) <= dp_features p.
Proof.
  intros (_ & SS & L). rewrite <- (seq_length (dp_features p) 0). apply NoDup_incl_length.
  - clear L. induction SS as [|a l SS IH F]; constructor; [|exact IH]. intros I. rewrite Forall_forall in F. specialize (F _ I). lia.
  - intros x Hx. rewrite Forall_forall in L. apply in_seq. specialize (L _ Hx). lia.
Qed.
Lemma total_ge p us r : parser_ok p -> us_ok p us -> r < length (dp_rows p) -> length (dp_labels p) <= total us.
Proof.
  intros W U Hr. assert (G : Forall (fun u => 1 <= length u) us).
  { unfold us_ok in U. induction U as [|l u ls us (A & B & C) U IH]; constructor; [|exact IH].
    assert (I : In (nth l (nth r (dp_rows p) []) n0) u) by (apply C; unfold column; apply in_map_iff; eexists; split; [reflexivity|now apply nth_In]).
    destruct u; [easy|cbn; lia]. }
  rewrite (Forall2_len _ _ _ U). clear U. induction G as [|u us Hu G IH]; cbn; [lia|]. unfold total in IH. lia.
Qed.
Definition cell (p : dparser T) (us : list (list T)) (r c : nat) : T :=
  let off := dp_features p - length (dp_labels p) in
  let row := nth r (dp_rows p) [] in
  if off <=? c then nth (c - off) (concat (codes p us row)) n0
  else if is_label p c then n0 else nth c row n0.
Lemma data_one_hot_spec (O : total_order) p us : parser_ok p -> us_ok p us ->
  let es := dp_features p - length (dp_labels p) + total us in
  data_one_hot p = Ok (tab (es * length (dp_rows p)) (fun j => cell p us (j / es) (j mod es))).
Proof.
  intros W U es. unfold data_one_hot. rewrite (maps_spec O p us U). cbn [app bind]. fold es.
  set (N := es * length (dp_rows p)).
  destruct (for_inv (fun k d => d = tab N (fun j => if j <? k * es then cell p us (j / es) (j mod es) else n0))
    (length (dp_rows p)) (one_hot_row p (map (fun u => combine u (seq 0 (length u))) us) es) (repeat n0 N)) as (d & E & Q).
  - apply (list_ext_nth n0); [now rewrite tab_length, repeat_length|]. intros i Hi. rewrite repeat_length in Hi. rewrite nth_tab by exact Hi.
    rewrite nth_repeat. reflexivity.
  - intros k d Hk ->. pose proof (total_ge p us k W U Hk) as Ht. pose proof (labels_le p W) as Hl.
    eexists. split; [apply (one_hot_row_spec O p us k _ W U Hk); lia|]. apply tab_ext. intros j Hj. fold es.
    destruct (Nat.leb_spec (k * es) j) as [A|A]; cbn [andb].
    + destruct (Nat.ltb_spec j (k * es + es)) as [B|B].
      * destruct (Nat.ltb_spec j (S k * es)) as [C|C]; [|cbn in C; lia].
        assert (Ej : j = k * es + (j - k * es)) by lia. destruct (divmod_unique es k (j - k * es)) as (D1 & D2); [lia|].
        rewrite <- Ej in D1, D2. rewrite D1, D2. unfold cell. cbn zeta.
        destruct (Nat.leb (dp_features p - length (dp_labels p)) (j - k * es)); [reflexivity|].
        destruct (is_label p (j - k * es)); [|reflexivity]. destruct (Nat.ltb_spec j (k * es)); [lia|reflexivity].
      * destruct (Nat.ltb_spec j (k * es)), (Nat.ltb_spec j (S k * es)) as [C|C]; try reflexivity; cbn in *; lia.
    + destruct (Nat.ltb_spec j (k * es)), (Nat.ltb_spec j (S k * es)) as [C|C]; try reflexivity; cbn in *; lia.
  - rewrite E, Q. f_equal. apply tab_ext. intros j Hj. destruct (Nat.ltb_spec j (length (dp_rows p) * es)) as [C|C]; [reflexivity|].
    unfold N in Hj. lia.
Qed.
Lemma row_of_tab (g : nat -> nat -> T) es n r : r < n ->
  row_of es r (tab (es * n) (fun j => g (j / es) (j mod es))) = tab es (g r).
Proof.
  intros Hr. unfold row_of. apply (list_ext_nth n0).
  - rewrite firstn_length, skipn_length, !tab_length. nia.
  - intros i Hi. rewrite firstn_length in Hi. assert (Hi' : i < es) by lia.
    rewrite nth_firstn_lt by exact Hi'. rewrite nth_skipn_add. rewrite (nth_tab _ _ i) by exact Hi'.
    rewrite nth_tab by nia. destruct (divmod_unique es r i Hi') as (-> & ->). reflexivity.
Qed.

(** What the one-hot encoding produces, for any label columns: the code of each label in
    order after [off] = features - labels columns; in front of them the columns below [off],
    with 0 in the place of labels. *)
Theorem c50_one_hot_actual : forall p, total_order -> parser_ok p ->
  let off := dp_features p - length (dp_labels p) in
  exists es data,
    one_hot_feature_size p = Ok es /\ off <= es /\ one_hot_labels p = Ok (seq off (es - off)) /\
    data_one_hot p = Ok data /\ length data = es * length (dp_rows p) /\
    forall r, r < length (dp_rows p) -> let row := nth r (dp_rows p) [] in
      exists front cs, row_of es r data = front ++ concat cs /\
        length front = off /\ off + length (concat cs) = es /\
        (forall c, c < off -> In c (dp_labels p) -> nth c front n0 = n0) /\
        (forall c, c < off -> ~ In c (dp_labels p) -> nth c front n0 = nth c row n0) /\
        Forall2 (fun l w => is_code (column p l) (nth l row n0) w) (dp_labels p) cs.
Proof.
  intros p O W off. destruct (us_exist O p W) as (us & U). pose proof (Forall2_len _ _ _ U) as Lu.
  exists (off + total us). eexists. split; [apply feature_size_spec; exact U|]. split; [lia|].
  split; [unfold one_hot_labels; rewrite (feature_size_spec p us U); reflexivity|].
  split; [apply (data_one_hot_spec O p us W U)|]. fold off. split; [apply tab_length|].
  intros r Hr row. exists (tab off (fun c => if is_label p c then n0 else nth c row n0)), (codes p us row).
  assert (Lab : forall c, is_label p c = true <-> In c (dp_labels p)).
  { intros c. unfold is_label. rewrite existsb_exists. split; [intros (x & I & E); apply Nat.eqb_eq in E; now subst|].
    intros I. exists c. split; [exact I|apply Nat.eqb_refl]. }
  split; [|split; [|split; [|split; [|split]]]].
  - rewrite row_of_tab by exact Hr. rewrite tab_app. f_equal.
    + apply tab_ext. intros c Hc. unfold cell. fold off row. destruct (Nat.leb_spec off c); [lia|reflexivity].
    + apply (list_ext_nth n0); [now rewrite tab_length, codes_length|]. intros c Hc. rewrite tab_length in Hc. rewrite nth_tab by exact Hc.
      unfold cell. fold off row. destruct (Nat.leb_spec off (off + c)); [|lia]. f_equal. lia.
  - apply tab_length.
  - now rewrite codes_length.
  - intros c Hc I. rewrite nth_tab by exact Hc. apply Lab in I. now rewrite I.
  - intros c Hc I. rewrite nth_tab by exact Hc. destruct (is_label p c) eqn:E; [|reflexivity]. apply Lab in E. contradiction.
  - assert (G : forall ls vs, Forall2 (fun l u => unique p l = Ok u /\ StronglySorted slt u /\ distinct_of (column p l) u) ls vs ->
      Forall2 (fun l w => is_code (column p l) (nth l row n0) w) ls (map (fun lu => code (snd lu) (nth (fst lu) row n0)) (combine ls vs))).
    { intros ls vs F. induction F as [|l u ls vs (A & B & C) F IH]; cbn; constructor; [|exact IH].
      apply (code_is_code O); [exact C|]. unfold column. apply in_map_iff. exists row. split; [reflexivity|now apply nth_In]. }
    apply G. exact U.
Qed.
(** When the labels are the last columns, each row is its input columns followed by the
    codes of its labels. *)
Theorem c50_one_hot_partial : forall p off, total_order -> parser_ok p ->
  dp_labels p = seq off (dp_features p - off) -> off <= dp_features p ->
  exists es data,
    one_hot_feature_size p = Ok es /\ one_hot_labels p = Ok (seq off (es - off)) /\
    data_one_hot p = Ok data /\ length data = es * length (dp_rows p) /\
    forall r, r < length (dp_rows p) -> let row := nth r (dp_rows p) [] in
      exists cs, row_of es r data = firstn off row ++ concat cs /\
        Forall2 (fun l w => is_code (column p l) (nth l row n0) w) (dp_labels p) cs.
Proof.
  intros p off O W EL Ho. assert (Eo : dp_features p - length (dp_labels p) = off) by (rewrite EL, seq_length; lia).
  destruct (c50_one_hot_actual p O W) as (es & data & A & _ & B & C & D & E). rewrite Eo in *. exists es, data.
  split; [exact A|]. split; [exact B|]. split; [exact C|]. split; [exact D|]. intros r Hr row.
  destruct (E r Hr) as (front & cs & E1 & E2 & E3 & E4 & E5 & E6). exists cs. split; [|exact E6].
  rewrite E1. f_equal. destruct W as (W & _). rewrite Forall_forall in W. pose proof (W _ (nth_In (dp_rows p) [] Hr)) as Lr. fold row in Lr.
  apply (list_ext_nth n0); [rewrite firstn_length; lia|]. intros c Hc. rewrite E2 in Hc. rewrite nth_firstn_lt by exact Hc.
  apply E5; [exact Hc|]. rewrite EL. intros I. apply in_seq in I. lia.
Qed.

(** Distinct values have distinct codes. *)
Lemma rank_mono (O : total_order) u v v' : In v u -> nltb v v' = true ->
  length (filter (fun x => nltb x v) u) < length (filter (fun x => nltb x v') u).
Proof.
  pose proof O as (Ir & Tr & _). intros I L.
  assert (M : forall w, length (filter (fun x => nltb x v) w) <= length (filter (fun x => nltb x v') w)).
  { induction w as [|a w IH]; cbn; [lia|]. destruct (nltb a v) eqn:E.
    - rewrite (Tr _ _ _ E L). cbn. lia.
    - destruct (nltb a v'); cbn; lia. }
  induction u as [|a u IH]; [easy|]. cbn. destruct I as [->|I].
  - rewrite Ir, L. cbn. specialize (M u). lia.
  - specialize (IH I). destruct (nltb a v) eqn:E.
    + rewrite (Tr _ _ _ E L). cbn. lia.
    + destruct (nltb a v'); cbn; lia.
Qed.
Theorem c50_codes_distinct : forall col v v' w, total_order -> n1 <> n0 ->
  In v col -> In v' col -> is_code col v w -> is_code col v' w -> v = v'.
Proof.
  intros col v v' w O N I I' C C'. destruct (fold_set O col []) as (A & B); [constructor|].
  set (u := fold_left (fun s v => set_insert v s) col []) in *.
  assert (Du : distinct_of col u) by (split; [now apply (sorted_NoDup O)|intros x; rewrite B; cbn [In]; tauto]).
  destruct (C u Du) as (_ & K & G). destruct (C' u Du) as (_ & K' & G').
  assert (E : length (filter (fun x => nltb x v) u) = length (filter (fun x => nltb x v') u)).
  { specialize (G _ K). specialize (G' _ K). rewrite Nat.eqb_refl in G. rewrite G in G'.
    destruct (Nat.eqb_spec (length (filter (fun x => nltb x v) u)) (length (filter (fun x => nltb x v') u))); [assumption|contradiction]. }
  destruct (nltb v v') eqn:L1.
  - pose proof (rank_mono O u v v' (proj2 (proj2 Du v) I) L1). lia.
  - destruct (nltb v' v) eqn:L2.
    + pose proof (rank_mono O u v' v (proj2 (proj2 Du v') I') L2). lia.
    + destruct O as (_ & _ & Tri). auto.
Qed.
(** A code holds exactly one 1. *)
Theorem c50_one_one : forall col v w, total_order -> is_code col v w ->
  exists k, k < length w /\ nth k w n0 = n1 /\ forall j, j < length w -> j <> k -> nth j w n0 = n0.
Proof.
  intros col v w O C. destruct (fold_set O col []) as (A & B); [constructor|].
  set (u := fold_left (fun s v => set_insert v s) col []) in *.
  assert (Du : distinct_of col u) by (split; [now apply (sorted_NoDup O)|intros x; rewrite B; cbn [In]; tauto]).
  destruct (C u Du) as (L & K & G). rewrite L. eexists. split; [exact K|]. split; [rewrite G by exact K; now rewrite Nat.eqb_refl|].
  intros j Hj Ne. rewrite G by exact Hj. destruct (Nat.eqb_spec j (length (filter (fun x => nltb x v) u))); [contradiction|reflexivity].
Qed.
(** The default encoding is the rows one after the other. *)
Theorem c50_default : forall p, Forall (fun row => length row = dp_features p) (dp_rows p) ->
  data_default p = Ok (concat (dp_rows p)).
Proof.
  intros p W. unfold data_default. rewrite Forall_forall in W.
  assert (E : forall d, for_ (length (dp_rows p)) (fun r ret => row <- rd (dp_rows p) r ;;
      for_ (dp_features p) (fun c ret => x <- rd row c ;; wr ret (r * dp_features p + c) x) ret) d =
    for_ (length (dp_rows p)) (fun r ret => for_ (dp_features p) (fun c ret => wr ret (r * dp_features p + c) (nth c (nth r (dp_rows p) []) n0)) ret) d).
  { intros d. apply for_ext. intros r ret Hr. rewrite (rd_nth (dp_rows p) r []) by exact Hr. cbn [bind].
    apply for_ext. intros c ret' Hc. rewrite (rd_nth _ c n0); [reflexivity|]. rewrite (W _ (nth_In _ [] Hr)). exact Hc. }
  rewrite E. rewrite (for_fill2 (fun r c => nth c (nth r (dp_rows p) []) n0)).
  - do 2 f_equal. apply (list_ext_nth []); [now rewrite tab_length|]. intros r Hr. rewrite tab_length in Hr. rewrite nth_tab by exact Hr.
    rewrite <- (W _ (nth_In _ [] Hr)). apply tab_nth.
  - rewrite repeat_length. lia.
  - intros r c d Hr Hc Hd. apply wr_ok. rewrite Hd. clear - Hr Hc. nia.
Qed.
End Encoding.

(** *** Refuted: label columns that are not the last ones *)
(** One label in column 0: the input column is overwritten by the code and lost. *)
Theorem c50_one_hot_refuted : exists (p p' : dparser Z) data,
  parser_ok p /\ parser_ok p' /\ (@total_order Z _) /\ dp_labels p = dp_labels p' /\
  dp_rows p <> dp_rows p' /\ column p 0 = column p' 0 /\
  data_one_hot p = Ok data /\ data_one_hot p' = Ok data.
Proof.
  exists (mkDParser [[1; 5]; [2; 6]]%Z 2 [0]), (mkDParser [[1; 7]; [2; 8]]%Z 2 [0]).
  assert (O : forall rows : list (list Z), Forall (fun row => length row = 2) rows -> parser_ok (mkDParser rows 2 [0])).
  { intros rows F. split; [exact F|]. split; repeat constructor. }
  eexists. split; [apply O; repeat constructor|]. split; [apply O; repeat constructor|]. split.
  - split; [|split]; cbn [nltb NumZ]; intros; try apply Z.ltb_irrefl.
    + apply Z.ltb_lt in H, H0. apply Z.ltb_lt. lia.
    + apply Z.ltb_ge in H, H0. lia.
  - split; [reflexivity|]. split; [discriminate|]. split; [reflexivity|]. split; vm_compute; reflexivity.
Qed.

(** *** The hypotheses can be met *)
Example c50_hypotheses_met : exists p : dparser Z, parser_ok p /\ (@total_order Z _) /\ length (dp_rows p) = 3 /\
  dp_labels p = seq 1 (dp_features p - 1) /\ data_one_hot p = Ok [7; 0; 1; 0; 1; 0;  8; 1; 0; 0; 0; 1;  9; 0; 0; 1; 1; 0]%Z.
Proof.
  exists (mkDParser [[7; 2; 5]; [8; 1; 6]; [9; 4; 5]]%Z 3 [1; 2]).
  split; [|split; [|split; [reflexivity|split; [reflexivity|vm_compute; reflexivity]]]].
  - split; [repeat constructor|]. split; repeat constructor.
  - split; [|split]; cbn [nltb NumZ]; intros; try apply Z.ltb_irrefl.
    + apply Z.ltb_lt in H, H0. apply Z.ltb_lt. lia.
    + apply Z.ltb_ge in H, H0. lia.
Qed.

Print Assumptions c50_one_hot_actual.
Print Assumptions c50_one_hot_partial.
Print Assumptions c50_codes_distinct.
Print Assumptions c50_one_one.
Print Assumptions c50_default.
Print Assumptions c50_one_hot_refuted.
