From Verif Require Import Base Num ArrayModel ArraySpec ArrayProofs DatasetModel DatasetSpec.
From Coq Require Import QArith Qround.
Close Scope Q_scope.

(** ** Lists *)
Lemma block_length {T} n (l : list T) i : (i + 1) * n <= length l -> length (block n l i) = n.
Proof. intros H. unfold block. rewrite firstn_length, skipn_length. lia. Qed.

Lemma nth_block {T} n (l : list T) i k d :
  k < n -> nth k (block n l i) d = nth (i * n + k) l d.
Proof. intros H. unfold block. rewrite nth_firstn_lt by auto. apply nth_skipn_add. Qed.

Lemma range_copy_ok {T} (l : list T) a b :
  a <= b -> b <= length l -> range_copy l a b = Ok (firstn (b - a) (skipn a l)).
Proof.
  intros H1 H2. unfold range_copy.
  apply Nat.leb_le in H1, H2. now rewrite H1, H2.
Qed.

Lemma range_copy_UB {T} (l : list T) a b :
  length l < b -> range_copy l a b = UB.
Proof.
  intros H2. unfold range_copy. apply Nat.leb_gt in H2.
  rewrite H2, andb_false_r. reflexivity.
Qed.

Lemma erase_ge_filter fs l : erase_ge fs l = filter (fun x => x <? fs) l.
Proof.
  induction l as [|x t IH]; simpl; auto.
  destruct (Nat.leb_spec fs x); destruct (Nat.ltb_spec x fs); try lia; rewrite ?IH; auto.
Qed.

Lemma filter_sorted (f : nat -> bool) l : StronglySorted lt l -> StronglySorted lt (filter f l).
Proof.
  induction 1 as [|x l Hs IH Hf]; simpl; [constructor|].
  destruct (f x); auto. constructor; auto.
  rewrite Forall_forall in *. intros y Hy. apply filter_In in Hy as [Hy _]. auto.
Qed.

Lemma seq_sorted a n : StronglySorted lt (seq a n).
Proof.
  revert a; induction n as [|n IH]; intros a; simpl; constructor; auto.
  apply Forall_forall. intros x Hx. apply in_seq in Hx. lia.
Qed.

Lemma mem_In x l : mem x l = true <-> In x l.
Proof.
  unfold mem. rewrite existsb_exists. split.
  - intros (y & Hy & E). apply Nat.eqb_eq in E. now subst.
  - intros H. exists x. split; auto. apply Nat.eqb_refl.
Qed.

Lemma other_cols_In fs l c : In c (other_cols fs l) <-> c < fs /\ ~ In c l.
Proof.
  unfold other_cols. rewrite filter_In, in_seq, negb_true_iff, <- not_true_iff_false, mem_In.
  intuition lia.
Qed.

Lemma other_cols_sorted fs l : StronglySorted lt (other_cols fs l).
Proof. apply filter_sorted, seq_sorted. Qed.

Lemma sorted_NoDup l : StronglySorted lt l -> NoDup l.
Proof.
  induction 1 as [|x l Hs IH Hf]; constructor; auto.
  rewrite Forall_forall in Hf. intros Hin. apply Hf in Hin. lia.
Qed.

Lemma erase_ge_In fs l c : In c (erase_ge fs l) <-> In c l /\ c < fs.
Proof. rewrite erase_ge_filter, filter_In, Nat.ltb_lt. tauto. Qed.

Lemma erase_ge_id fs l : Forall (fun c => c < fs) l -> erase_ge fs l = l.
Proof.
  induction 1 as [|x l Hx Hl IH]; simpl; auto.
  destruct (Nat.leb_spec fs x); [lia|]. now rewrite IH.
Qed.

Lemma div_mul_max a b : a / Nat.max b 1 * b <= a.
Proof.
  destruct b as [|b]; simpl max.
  - lia.
  - rewrite Nat.max_l by lia. pose proof (Nat.mul_div_le a (S b)). lia.
Qed.

Lemma min_div_mul v fs ss :
  fs <= v -> ss <= v / Nat.max fs 1 -> fs * ss <= v.
Proof.
  intros H1 H2. pose proof (div_mul_max v fs). nia.
Qed.

Lemma mul_nz_le a s : a * s <> 0 -> s <= a * s.
Proof. destruct a; nia. Qed.

Section DS.
Context {T : Type} (dflt : T).

(** ** Helpers missing from the 8.16 library *)
Lemma skipn_skipn' {A} n m (l : list A) : skipn n (skipn m l) = skipn (n + m) l.
Proof.
  revert m l; induction m as [|m IH]; intros l; [now rewrite Nat.add_0_r|].
  rewrite Nat.add_succ_r. destruct l as [|x l]; [now rewrite !skipn_nil|]. simpl. apply IH.
Qed.

Lemma NoDup_app' {A} (l1 l2 : list A) :
  NoDup l1 -> NoDup l2 -> (forall x, In x l1 -> ~ In x l2) -> NoDup (l1 ++ l2).
Proof.
  induction 1 as [|x l1 Hx Hn IH]; intros H2 Hd; simpl; auto.
  constructor.
  - rewrite in_app_iff. intros [H|H]; [auto|]. apply (Hd x); [now left|auto].
  - apply IH; auto. intros y Hy. apply Hd. now right.
Qed.

(** ** Vector constructor *)
Lemma ds_vec_sizes (v : list T) f s lab :
  let d := ds_vec dflt v f s lab in
  let n := length v in
  fsize d = Nat.min f n /\
  ssize d = Nat.min s (n / Nat.max (fsize d) 1) /\
  famount d = samount d * ssize d /\
  dsize d = famount d * fsize d /\
  samount d = (if fsize d * ssize d =? 0 then 0 else n / (fsize d * ssize d)) /\
  dsize d <= n.
Proof.
  intros d n. unfold d, ds_vec. cbn [fsize ssize famount samount dsize].
  fold n. set (fs := Nat.min f n). set (ss := Nat.min s (n / Nat.max fs 1)).
  pose proof (div_mul_max n (fs * ss)) as Hle.
  destruct (Nat.eq_dec (fs * ss) 0) as [E|E].
  - rewrite E. change (Nat.max 0 1) with 1. rewrite Nat.div_1_r, Nat.mul_0_r.
    simpl. rewrite !Nat.div_0_l by lia. repeat split; auto; lia.
  - destruct (Nat.eqb_spec (fs * ss) 0); [lia|].
    rewrite (Nat.max_l (fs * ss) 1) by lia. rewrite (Nat.max_l (fs * ss) 1) in Hle by lia.
    assert (fs <> 0) by (intros E'; rewrite E' in E; lia).
    rewrite (Nat.max_l fs 1) by lia.
    rewrite Nat.div_mul by auto.
    set (q := n / (fs * ss)).
    assert (E2 : q * (fs * ss) / fs = q * ss).
    { replace (q * (fs * ss)) with (q * ss * fs) by lia. now apply Nat.div_mul. }
    rewrite E2. repeat split; auto; lia.
Qed.

Lemma ds_vec_wf v f s lab :
  StronglySorted lt lab -> wf (ds_vec dflt v f s lab).
Proof.
  intros Hs. destruct (ds_vec_sizes v f s lab) as (H1 & H2 & H3 & H4 & H5 & H6).
  assert (Hl : length (data (ds_vec dflt v f s lab)) = dsize (ds_vec dflt v f s lab))
    by (unfold ds_vec; cbn [data dsize]; apply resize_length).
  constructor.
  - rewrite Hl. exact H4.
  - symmetry; exact Hl.
  - exact H3.
  - unfold ds_vec. cbn [labels_i]. rewrite erase_ge_filter. now apply filter_sorted.
  - unfold ds_vec. cbn [labels_i fsize]. apply Forall_forall. intros c Hc.
    apply erase_ge_In in Hc. tauto.
  - intros c. unfold ds_vec. cbn [input_i labels_i fsize]. apply other_cols_In.
  - unfold ds_vec. cbn [input_i]. apply other_cols_sorted.
Qed.

Lemma ds_vec_data v f s lab :
  data (ds_vec dflt v f s lab) = firstn (dsize (ds_vec dflt v f s lab)) v.
Proof.
  destruct (ds_vec_sizes v f s lab) as (_ & _ & _ & _ & _ & H6).
  unfold ds_vec in *. cbn [data dsize] in *. now apply resize_firstn.
Qed.

(** Exactly whole sequences: nothing is dropped. *)
Lemma ds_vec_exact v f s lab q :
  0 < f -> 0 < s -> 0 < q -> length v = q * s * f ->
  let d := ds_vec dflt v f s lab in
  data d = v /\ fsize d = f /\ ssize d = s /\ dsize d = length v /\
  famount d = q * s /\ samount d = q /\ labels_i d = erase_ge f lab /\
  input_i d = other_cols f (erase_ge f lab).
Proof.
  intros Hf Hs Hq Hl d.
  assert (Hqs : s <= q * s) by nia.
  assert (Hqf : f <= q * s * f) by nia.
  destruct (ds_vec_sizes v f s lab) as (H1 & H2 & H3 & H4 & H5 & H6).
  fold d in H1, H2, H3, H4, H5, H6.
  assert (Hmin : Nat.min f (length v) = f) by (apply Nat.min_l; rewrite Hl; exact Hqf).
  assert (F : fsize d = f) by (rewrite H1; exact Hmin).
  assert (S : ssize d = s).
  { rewrite H2, F, Hl. rewrite (Nat.max_l f 1) by lia. rewrite Nat.div_mul by lia.
    apply Nat.min_l. exact Hqs. }
  rewrite F, S in *.
  destruct (Nat.eqb_spec (f * s) 0) as [E0|E0]; [nia|].
  assert (A : samount d = q).
  { rewrite H5, Hl. replace (q * s * f) with (q * (f * s)) by lia. now apply Nat.div_mul. }
  rewrite A in *.
  assert (D : dsize d = length v) by (rewrite H4, H3, Hl; lia).
  repeat split; auto.
  - unfold d. rewrite ds_vec_data. fold d. rewrite D. apply firstn_all.
  - unfold d, ds_vec. cbn [labels_i]. now rewrite Hmin.
  - unfold d, ds_vec. cbn [input_i]. now rewrite Hmin.
Qed.

Lemma ds_vec_nil f s lab : 
  let d := ds_vec dflt [] f s lab in
  data d = [] /\ famount d = 0 /\ samount d = 0.
Proof.
  cbv zeta. destruct (ds_vec_sizes [] f s lab) as (H1 & H2 & H3 & H4 & H5 & H6).
  simpl length in *. rewrite ds_vec_data, firstn_nil. split; auto.
  rewrite Nat.min_0_r in H1. rewrite H1, Nat.mul_0_l, Nat.eqb_refl in H5.
  rewrite H5 in H3. auto.
Qed.

(** ** Reading *)
Lemma entry_in (d : dataset T) i :
  i < famount d -> (i + 1) * fsize d <= length (data d) ->
  ds_entry d i = Ok (block (fsize d) (data d) i).
Proof.
  intros H1 H2. unfold ds_entry. destruct (Nat.leb_spec (famount d) i); [lia|].
  rewrite range_copy_ok by lia. unfold block. do 2 f_equal. lia.
Qed.

Lemma entry_wf (d : dataset T) i :
  wf d -> ds_entry d i = Ok (if i <? famount d then block (fsize d) (data d) i else []).
Proof.
  intros W. destruct (Nat.ltb_spec i (famount d)).
  - apply entry_in; auto. rewrite (wf_data d W). nia.
  - unfold ds_entry. destruct (Nat.leb_spec (famount d) i); [auto|lia].
Qed.

Lemma rows_length (d : dataset T) : length (rows d) = famount d.
Proof. apply tab_length. Qed.

Lemma nth_rows (d : dataset T) i : i < famount d ->
  nth i (rows d) [] = block (fsize d) (data d) i.
Proof. intros H. apply nth_tab. exact H. Qed.

(** ** Matrix constructor *)
Lemma fold_min_spec {A} (len : A -> nat) l a :
  let m := fold_left (fun a v => Nat.min (len v) a) l a in
  m <= a /\ (forall v, In v l -> m <= len v) /\ (m = a \/ exists v, In v l /\ m = len v).
Proof.
  revert a; induction l as [|x l IH]; intros a; simpl.
  - repeat split; auto. intros v [].
  - destruct (IH (Nat.min (len x) a)) as (H1 & H2 & H3). repeat split.
    + lia.
    + intros v [->|Hv]; [lia|auto].
    + destruct H3 as [E|(v & Hv & E)]; [|eauto].
      destruct (Nat.min_spec (len x) a) as [[_ E']|[_ E']]; rewrite E' in *; eauto.
Qed.

Lemma mapM_range (m : list (list T)) fs :
  (forall v, In v m -> fs <= length v) ->
  mapM (fun v => range_copy v 0 fs) m = Ok (map (firstn fs) m).
Proof.
  intros H. apply mapM_ok. intros v Hv. rewrite range_copy_ok by (auto; lia).
  now rewrite Nat.sub_0_r.
Qed.

Lemma concat_firstn_length (m : list (list T)) fs :
  (forall v, In v m -> fs <= length v) ->
  length (concat (map (firstn fs) m)) = length m * fs.
Proof.
  induction m as [|v m IH]; intros H; simpl; auto.
  rewrite app_length, firstn_length, IH by (intros; apply H; now right).
  rewrite Nat.min_l by (apply H; now left). lia.
Qed.

Lemma block_concat (m : list (list T)) fs i :
  (forall v, In v m -> length v = fs) -> i < length m ->
  block fs (concat m) i = nth i m [].
Proof.
  unfold block. revert i; induction m as [|v m IH]; intros i H Hi; simpl in Hi; [lia|].
  assert (Hv : length v = fs) by (apply H; now left).
  destruct i as [|i]; simpl.
  - rewrite firstn_app, Hv, Nat.sub_diag. simpl. rewrite app_nil_r.
    apply firstn_all2. lia.
  - rewrite skipn_app, Hv. rewrite skipn_all2 by lia. simpl.
    replace (fs + i * fs - fs) with (i * fs) by lia. apply IH; [|lia].
    intros w Hw. apply H. now right.
Qed.

Lemma block_firstn n (l : list T) i k :
  (i + 1) * n <= k -> block n (firstn k l) i = block n l i.
Proof.
  intros H. unfold block. rewrite skipn_firstn_comm, firstn_firstn.
  f_equal. lia.
Qed.

Lemma ds_mat_spec (m : list (list T)) s lab :
  exists d, ds_mat dflt m s lab = Ok d /\
    famount d = length m /\ ssize d = Nat.min s (length m) /\
    (m <> [] -> is_min (fsize d) (map (@length T) m)) /\ (m = [] -> fsize d = 0) /\
    samount d = length m / Nat.max (ssize d) 1 /\
    length (data d) = samount d * ssize d * fsize d /\
    dsize d = length (data d) /\
    labels_i d = erase_ge (fsize d) lab /\ input_i d = other_cols (fsize d) (labels_i d) /\
    forall i, i < samount d * ssize d ->
      block (fsize d) (data d) i = firstn (fsize d) (nth i m []).
Proof.
  destruct m as [|r0 m'].
  - eexists. unfold ds_mat. cbn [bind]. split; [reflexivity|].
    cbn [famount ssize fsize samount data dsize labels_i input_i length].
    rewrite Nat.min_0_r, ?Nat.mul_0_r. repeat split; auto; try congruence; try lia.
  - set (m := r0 :: m'). unfold ds_mat.
    set (fs := fold_left (fun a v => Nat.min (length v) a) m (length r0)).
    destruct (fold_min_spec (@length T) m (length r0)) as (M1 & M2 & M3). fold fs in M1, M2, M3.
    assert (Mmin : is_min fs (map (@length T) m)).
    { split.
      - destruct M3 as [E|(v & Hv & E)].
        + rewrite E. apply in_map. now left.
        + rewrite E. now apply in_map.
      - intros x Hx. apply in_map_iff in Hx as (v & <- & Hv). auto. }
    set (ss := Nat.min s (length m)).
    set (sa := length m / Nat.max ss 1).
    assert (Hle : sa * ss <= length m) by apply div_mul_max.
    assert (G : forall dat, length dat = length m * fs ->
      (forall i, i < length m -> block fs dat i = firstn fs (nth i m [])) ->
      exists d, Ok (DS (resize dflt (sa * ss * fs) dat) fs ss (sa * ss * fs) (length m) sa
                   (erase_ge fs lab) (other_cols fs (erase_ge fs lab))) = Ok d /\
        famount d = length m /\ ssize d = Nat.min s (length m) /\
        (m <> [] -> is_min (fsize d) (map (@length T) m)) /\ (m = [] -> fsize d = 0) /\
        samount d = length m / Nat.max (ssize d) 1 /\
        length (data d) = samount d * ssize d * fsize d /\
        dsize d = length (data d) /\
        labels_i d = erase_ge (fsize d) lab /\ input_i d = other_cols (fsize d) (labels_i d) /\
        forall i, i < samount d * ssize d ->
          block (fsize d) (data d) i = firstn (fsize d) (nth i m [])).
    { intros dat Hlen Hblk. eexists. split; [reflexivity|].
      cbn [famount ssize fsize samount data dsize labels_i input_i].
      rewrite resize_length. repeat split; auto; try discriminate; try apply Mmin.
      intros i Hi. rewrite resize_firstn by (rewrite Hlen; nia).
      rewrite block_firstn by nia. apply Hblk. lia. }
    assert (Em : mat_rows m = if fs =? 0 then Ok (0, [])
      else rows <- mapM (fun v => range_copy v 0 fs) m ;; Ok (fs, concat rows))
      by reflexivity.
    rewrite Em. clear Em.
    destruct (Nat.eqb_spec fs 0) as [E0|E0].
    + cbn [bind]. rewrite E0 in G.
      destruct (G []) as (d & E & R).
      * simpl. lia.
      * intros i Hi. unfold block. rewrite skipn_nil. reflexivity.
      * exists d. split; [exact E|exact R].
    + rewrite mapM_range by auto. cbn [bind].
      destruct (G (concat (map (firstn fs) m))) as (d & E & R).
      * apply concat_firstn_length. auto.
      * intros i Hi. rewrite block_concat.
        -- transitivity (nth i (map (firstn fs) m) (firstn fs [])); [now rewrite firstn_nil|].
           apply map_nth.
        -- intros v Hv. apply in_map_iff in Hv as (w & <- & Hw).
           rewrite firstn_length. apply Nat.min_l. auto.
        -- now rewrite map_length.
      * exists d. split; [exact E|exact R].
Qed.

(** ** Cube constructor *)
Lemma fold_min_concat {A} (len : A -> nat) c a :
  fold_left (fun a m => fold_left (fun a v => Nat.min (len v) a) m a) c a =
  fold_left (fun a v => Nat.min (len v) a) (concat c) a.
Proof.
  revert a; induction c as [|m c IH]; intros a; simpl; auto.
  rewrite fold_left_app. apply IH.
Qed.

Lemma nth_concat_uniform {A} (d : A) n (m : list (list A)) i k :
  (forall v, In v m -> length v = n) -> i < length m -> k < n ->
  nth (i * n + k) (concat m) d = nth k (nth i m []) d.
Proof.
  revert i; induction m as [|v m IH]; intros i H Hi Hk; simpl in Hi; [lia|].
  assert (Hv : length v = n) by (apply H; now left).
  destruct i as [|i]; simpl.
  - rewrite app_nth1 by lia. reflexivity.
  - rewrite app_nth2 by lia. rewrite Hv.
    replace (n + i * n + k - n) with (i * n + k) by lia.
    apply IH; auto; [|lia]. intros w Hw. apply H. now right.
Qed.

Lemma concat_uniform_length {A} n (m : list (list A)) :
  (forall v, In v m -> length v = n) -> length (concat m) = length m * n.
Proof.
  induction m as [|v m IH]; intros H; simpl; auto.
  rewrite app_length, IH by (intros; apply H; now right).
  now rewrite (H v) by now left.
Qed.

Lemma ds_cub_spec (c : list (list (list T))) lab :
  c <> [] -> hd [] c <> [] ->
  exists d, ds_cub c lab = Ok d /\
    samount d = length c /\ is_min (ssize d) (map (@length _) c) /\
    is_min (fsize d) (map (@length T) (concat c)) /\
    famount d = samount d * ssize d /\ length (data d) = famount d * fsize d /\
    dsize d = length (data d) /\
    labels_i d = erase_ge (fsize d) lab /\ input_i d = other_cols (fsize d) (labels_i d) /\
    forall q r, q < length c -> r < ssize d ->
      block (fsize d) (data d) (q * ssize d + r) =
      firstn (fsize d) (nth r (nth q c []) []).
Proof.
  intros Hc Hh. destruct c as [|m0 c']; [congruence|].
  destruct m0 as [|r0 m0']; [simpl in Hh; congruence|].
  set (m0 := r0 :: m0') in *. set (c := m0 :: c') in *.
  set (ss := fold_left (fun a m => Nat.min (length m) a) c (length m0)).
  set (fs := cub_min_row c (length r0)).
  assert (E : cub_rows c =
    if negb (ss =? 0) && negb (fs =? 0) then
      blocks <- mapM (fun m =>
        rows <- mapM (fun i => v <- rd m i ;; range_copy v 0 fs) (seq 0 ss) ;;
        Ok (concat rows)) c ;;
      Ok (ss, fs, concat blocks)
    else Ok (ss, fs, [])) by reflexivity.
  destruct (fold_min_spec (@length (list T)) c (length m0)) as (S1 & S2 & S3).
  fold ss in S1, S2, S3.
  assert (Smin : is_min ss (map (@length _) c)).
  { split.
    - destruct S3 as [E3|(v & Hv & E3)].
      + rewrite E3. now left.
      + rewrite E3. now apply in_map.
    - intros x Hx. apply in_map_iff in Hx as (v & <- & Hv). auto. }
  assert (Ef : fs = fold_left (fun a v => Nat.min (length v) a) (concat c) (length r0))
    by apply fold_min_concat.
  destruct (fold_min_spec (@length T) (concat c) (length r0)) as (F1 & F2 & F3).
  rewrite <- Ef in F1, F2, F3.
  assert (Fmin : is_min fs (map (@length _) (concat c))).
  { split.
    - destruct F3 as [E3|(v & Hv & E3)].
      + rewrite E3. now left.
      + rewrite E3. now apply in_map.
    - intros x Hx. apply in_map_iff in Hx as (v & <- & Hv). auto. }
  assert (G : forall dat, length dat = length c * ss * fs ->
    (forall q r, q < length c -> r < ss ->
      block fs dat (q * ss + r) = firstn fs (nth r (nth q c []) [])) ->
    exists d, Ok (DS dat fs ss (length c * ss * fs) (length c * ss) (length c)
                   (erase_ge fs lab) (other_cols fs (erase_ge fs lab))) = Ok d /\
    samount d = length c /\ is_min (ssize d) (map (@length _) c) /\
    is_min (fsize d) (map (@length T) (concat c)) /\
    famount d = samount d * ssize d /\ length (data d) = famount d * fsize d /\
    dsize d = length (data d) /\
    labels_i d = erase_ge (fsize d) lab /\ input_i d = other_cols (fsize d) (labels_i d) /\
    forall q r, q < length c -> r < ssize d ->
      block (fsize d) (data d) (q * ssize d + r) =
      firstn (fsize d) (nth r (nth q c []) [])).
  { intros dat Hl Hb. eexists. split; [reflexivity|].
    cbn [samount ssize fsize famount data dsize labels_i input_i].
    repeat split; auto; try apply Smin; try apply Fmin. }
  unfold ds_cub. rewrite E. clear E.
  destruct (Nat.eqb_spec ss 0) as [E0|E0]; cbn [negb andb bind].
  { destruct (G []) as (d & E & R).
    - simpl length at 1. rewrite E0. lia.
    - intros q r Hq Hr. lia.
    - exists d. split; [exact E|exact R]. }
  destruct (Nat.eqb_spec fs 0) as [E1|E1]; cbn [negb andb bind].
  { destruct (G []) as (d & E & R).
    - simpl length at 1. rewrite E1. lia.
    - intros q r Hq Hr. rewrite E1. reflexivity.
    - exists d. split; [exact E|exact R]. }
  assert (Hrow : forall m i, In m c -> i < ss -> fs <= length (nth i m [])).
  { intros m i Hm Hi. apply F2. apply in_concat. exists m. split; auto.
    apply nth_In. specialize (S2 m Hm). lia. }
  rewrite (mapM_ok _ (fun m => concat (tab ss (fun i => firstn fs (nth i m []))))).
  2:{ intros m Hm. rewrite (mapM_ok _ (fun i => firstn fs (nth i m []))).
      - reflexivity.
      - intros i Hi. apply in_seq in Hi. specialize (S2 m Hm).
        rewrite (rd_nth m i []) by lia. cbn [bind].
        rewrite range_copy_ok; [now rewrite Nat.sub_0_r|lia|].
        apply Hrow; auto; lia. }
  cbn [bind].
  set (RR := map (fun m => tab ss (fun i => firstn fs (nth i m []))) c).
  assert (EB : concat (map (fun m => concat (tab ss (fun i => firstn fs (nth i m [])))) c)
    = concat (concat RR)).
  { unfold RR. generalize ss, fs, c. clear. intros ss fs c.
    induction c as [|m c IH]; simpl; auto. now rewrite concat_app, IH. }
  assert (LR : forall v, In v (concat RR) -> length v = fs).
  { intros v Hv. apply in_concat in Hv as (w & Hw & Hv).
    apply in_map_iff in Hw as (m & <- & Hm).
    unfold tab in Hv. apply in_map_iff in Hv as (i & <- & Hi). apply in_seq in Hi.
    rewrite firstn_length. apply Nat.min_l. apply Hrow; auto; lia. }
  assert (LL : length (concat RR) = length c * ss).
  { rewrite (concat_uniform_length ss).
    - unfold RR. now rewrite map_length.
    - intros v Hv. apply in_map_iff in Hv as (m & <- & Hm). apply tab_length. }
  destruct (G (concat (concat RR))) as (d & E & R).
  - rewrite (concat_uniform_length fs) by auto. now rewrite LL.
  - intros q r Hq Hr. rewrite block_concat; [|exact LR|rewrite LL; nia].
    rewrite (nth_concat_uniform [] ss).
    + unfold RR.
      rewrite (nth_indep (map _ c) [] (tab ss (fun i => firstn fs (nth i [] []))))
        by (rewrite map_length; auto).
      rewrite (map_nth (fun m => tab ss (fun i => firstn fs (nth i m [])))).
      now rewrite nth_tab.
    + intros v Hv. apply in_map_iff in Hv as (m & <- & Hm). apply tab_length.
    + unfold RR. now rewrite map_length.
    + auto.
  - exists d. rewrite <- E, <- EB. split; [reflexivity|exact R].
Qed.

(** ** subdata and split *)
Lemma block_sub n (l : list T) from cnt i :
  i < cnt ->
  block n (firstn (cnt * n) (skipn (from * n) l)) i = block n l (from + i).
Proof.
  intros H. rewrite block_firstn by nia. unfold block. rewrite skipn_skipn'.
  do 2 f_equal. lia.
Qed.

Lemma subdata_spec (d : dataset T) from to :
  wf d -> 0 < fsize d ->
  (Nat.min to (famount d) < from -> ds_subdata dflt d from to = Throw) /\
  (from <= Nat.min to (famount d) ->
   let n := Nat.min to (famount d) - from in
   let s := Nat.min (ssize d) n in
   exists e, ds_subdata dflt d from to = Ok e /\ wf e /\
     rows e = firstn (n / Nat.max s 1 * s) (skipn from (rows d)) /\
     (0 < n -> fsize e = fsize d /\ ssize e = s /\ labels_i e = labels_i d)).
Proof.
  intros W Hf.
  assert (Eto : (if famount d <? to then famount d else to) = Nat.min to (famount d)).
  { destruct (Nat.ltb_spec (famount d) to); lia. }
  split.
  - intros H. unfold ds_subdata. rewrite Eto. apply Nat.leb_gt in H. rewrite H. reflexivity.
  - intros H n s. unfold ds_subdata. rewrite Eto. apply Nat.leb_le in H as H'. rewrite H'. cbn [guard bind].
    pose proof (wf_data d W) as HD.
    rewrite range_copy_ok by nia. cbn [bind].
    replace (Nat.min to (famount d) * fsize d - from * fsize d) with (n * fsize d) by nia.
    set (v := firstn (n * fsize d) (skipn (from * fsize d) (data d))).
    assert (Lv : length v = n * fsize d)
      by (unfold v; rewrite firstn_length, skipn_length; nia).
    set (e := ds_vec dflt v (fsize d) (ssize d) (labels_i d)).
    exists e. split; [reflexivity|].
    assert (We : wf e) by (apply ds_vec_wf, (wf_sorted d W)).
    split; [exact We|].
    destruct (ds_vec_sizes v (fsize d) (ssize d) (labels_i d)) as (H1 & H2 & H3 & H4 & H5 & H6).
    fold e in H1, H2, H3, H4, H5, H6.
    destruct (Nat.eq_dec n 0) as [En|En].
    + assert (Ev : v = []) by (apply length_zero_iff_nil; rewrite Lv, En; lia).
      assert (F0 : famount e = 0).
      { unfold e. rewrite Ev. apply (ds_vec_nil (fsize d) (ssize d) (labels_i d)). }
      split; [|lia]. unfold rows, ds_size. rewrite F0, En.
      rewrite Nat.div_0_l by lia. reflexivity.
    + assert (Hmin : fsize e = fsize d) by (rewrite H1, Lv; apply Nat.min_l; nia).
      assert (Hs : ssize e = s).
      { rewrite H2, Hmin, Lv. rewrite (Nat.max_l (fsize d) 1) by lia.
        rewrite Nat.div_mul by lia. reflexivity. }
      assert (Hl : labels_i e = labels_i d).
      { unfold e, ds_vec. cbn [labels_i]. rewrite (Nat.min_l (fsize d)) by (rewrite Lv; nia).
        apply erase_ge_id, (wf_labels d W). }
      split; [|auto].
      assert (Hfa : famount e = n / Nat.max s 1 * s).
      { rewrite H3, Hs. f_equal. rewrite H5, Hmin, Hs, Lv.
        destruct (Nat.eqb_spec (fsize d * s) 0) as [E|E].
        - assert (Es : s = 0) by nia.
          assert (ssize d = 0) by lia.
          pose proof (wf_seq d W). assert (famount d = 0) by nia. lia.
        - rewrite (Nat.max_l s 1) by nia.
          rewrite (Nat.mul_comm n). rewrite Nat.div_mul_cancel_l by nia. reflexivity. }
      assert (Hle : famount e <= n) by (rewrite Hfa; apply div_mul_max).
      apply list_ext.
      * rewrite rows_length, firstn_length, skipn_length, rows_length. lia.
      * intros i Hi. rewrite rows_length in Hi.
        rewrite (nth_error_nth' _ []) by (rewrite rows_length; auto).
        rewrite (nth_error_nth' _ []) by
          (rewrite firstn_length, skipn_length, rows_length; lia).
        f_equal. rewrite nth_rows by auto. rewrite nth_firstn_lt by lia.
        rewrite nth_skipn_add. rewrite nth_rows by lia. rewrite Hmin.
        unfold e. rewrite ds_vec_data. fold e. rewrite block_firstn by nia.
        unfold v. apply block_sub. lia.
Qed.

Lemma split_at_spec (d : dataset T) k :
  wf d -> 0 < fsize d -> k <= samount d ->
  exists tr te, ds_split_at dflt d k = Ok (tr, te) /\ wf tr /\ wf te /\
    rows tr ++ rows te = rows d /\
    ds_size tr = k * ssize d /\
    (ds_size tr <> 0 -> fsize tr = fsize d /\ ssize tr = ssize d /\ labels_i tr = labels_i d) /\
    (ds_size te <> 0 -> fsize te = fsize d /\ ssize te = ssize d /\ labels_i te = labels_i d).
Proof.
  intros W Hf Hk. pose proof (wf_seq d W) as HS. unfold ds_split_at.
  set (s := ssize d) in *.
  assert (Hto : k * s <= famount d) by nia.
  assert (Hkeep : forall j, j * s / Nat.max (Nat.min s (j * s)) 1 * Nat.min s (j * s) = j * s).
  { intros [|j]; [rewrite Nat.mul_0_l, Nat.div_0_l by lia; reflexivity|].
    rewrite (Nat.min_l s) by nia. destruct s as [|s']; [lia|].
    rewrite Nat.max_l by lia. rewrite Nat.div_mul by lia. reflexivity. }
  destruct (subdata_spec d 0 (k * s) W Hf) as (_ & H1).
  destruct H1 as (tr & E1 & W1 & R1 & K1); [lia|].
  rewrite Nat.min_l, Nat.sub_0_r in R1, K1 by lia.
  destruct (subdata_spec d (k * s) (famount d) W Hf) as (_ & H2).
  destruct H2 as (te & E2 & W2 & R2 & K2); [lia|].
  rewrite Nat.min_id in R2, K2.
  replace (famount d - k * s) with ((samount d - k) * s) in R2, K2 by nia.
  fold s in R1, K1, R2, K2. rewrite Hkeep in R1, R2. simpl skipn in R1.
  exists tr, te. rewrite E1, E2. cbn [bind]. split; [reflexivity|].
  split; [exact W1|]. split; [exact W2|].
  assert (L1 : famount tr = k * s).
  { rewrite <- rows_length, R1, firstn_length, rows_length. lia. }
  assert (L2 : famount te = (samount d - k) * s).
  { rewrite <- rows_length, R2, firstn_length, skipn_length, rows_length. nia. }
  split; [|split; [exact L1|]].
  - rewrite R1, R2, (firstn_all2 (n := (samount d - k) * s)).
    + apply firstn_skipn.
    + rewrite skipn_length, rows_length, Nat.mul_sub_distr_r. lia.
  - unfold ds_size. rewrite L1, L2. split; intros Hne.
    + destruct K1 as (A & B & C); [lia|]. repeat split; auto.
      rewrite B. apply Nat.min_l. now apply mul_nz_le.
    + destruct K2 as (A & B & C); [lia|]. repeat split; auto.
      rewrite B. apply Nat.min_l. now apply mul_nz_le.
Qed.

(** ** Shuffle *)
Lemma shuffle_spec (d : dataset T) perm :
  wf d -> Permutation perm (seq 0 (famount d)) ->
  exists e, ds_shuffle dflt d perm = Ok e /\ wf e /\
    fsize e = fsize d /\ ssize e = ssize d /\ famount e = famount d /\
    labels_i e = labels_i d /\ input_i e = input_i d /\
    (forall i, i < famount d ->
       nth (nth i perm 0) (rows e) [] = nth i (rows d) []) /\
    Permutation (rows e) (rows d).
Proof.
  intros W Hp. set (fs := fsize d). set (fa := famount d) in *.
  assert (Lp : length perm = fa) by (apply Permutation_length in Hp; now rewrite seq_length in Hp).
  assert (Nd : NoDup perm).
  { apply Permutation_sym in Hp. eapply Permutation_NoDup; [exact Hp|apply seq_NoDup]. }
  assert (Hin : forall i, i < fa -> nth i perm 0 < fa).
  { intros i Hi. assert (In (nth i perm 0) perm) by (apply nth_In; lia).
    eapply Permutation_in in H; [|exact Hp]. apply in_seq in H. lia. }
  pose proof (wf_data d W) as HD. fold fs fa in HD.
  unfold ds_shuffle. fold fs fa.
  rewrite (for_ext _ _ (fun cur nd => for_ fs (fun i nd =>
      v <- rd (data d) (cur * fs + i) ;;
      wr nd (nth cur perm 0 * fs + i) v) nd)).
  2:{ intros k s Hk. rewrite (rd_nth perm k 0) by lia. reflexivity. }
  rewrite (for_nested fa fs (fun cur i nd => v <- rd (data d) (cur * fs + i) ;;
      wr nd (nth cur perm 0 * fs + i) v)).
  assert (Hq : forall q, q < fa * fs ->
    q / fs < fa /\ q mod fs < fs /\ q = q / fs * fs + q mod fs).
  { intros q Hq. assert (fs <> 0) by (intros E; rewrite E in Hq; lia).
    repeat split.
    - apply Nat.div_lt_upper_bound; lia.
    - apply Nat.mod_upper_bound; auto.
    - pose proof (Nat.div_mod q fs). lia. }
  destruct (for_scatter dflt (fun q => nth (q / fs) perm 0 * fs + q mod fs)
    (fun q _ => nth (q / fs * fs + q mod fs) (data d) dflt) (fa * fs)
    (fun q s => v <- rd (data d) (q / fs * fs + q mod fs);;
                wr s (nth (q / fs) perm 0 * fs + q mod fs) v)
    (repeat dflt (length (data d)))) as (nd & E & L & S & _).
  - intros q Hlt. destruct (Hq q Hlt) as (A & B & C). rewrite repeat_length, HD.
    specialize (Hin _ A). nia.
  - intros q1 q2 Hq1 Hq2 Eq.
    destruct (Hq q1 Hq1) as (A1 & B1 & C1). destruct (Hq q2 Hq2) as (A2 & B2 & C2).
    assert (nth (q1 / fs) perm 0 = nth (q2 / fs) perm 0) by nia.
    assert (q1 / fs = q2 / fs) by (apply (NoDup_nth perm 0); auto; lia).
    nia.
  - intros q x Hlt Hl. destruct (Hq q Hlt) as (A & B & C).
    rewrite (rd_nth (data d) _ dflt) by lia. cbn [bind].
    apply wr_ok. rewrite Hl, repeat_length, HD. specialize (Hin _ A). nia.
  - rewrite E. cbn [bind]. rewrite repeat_length in L.
    eexists. split; [reflexivity|].
    cbn [fsize ssize famount labels_i input_i].
    assert (R : forall i, i < fa -> block fs nd (nth i perm 0) = block fs (data d) i).
    { intros i Hi. specialize (Hin i Hi). apply (list_ext_nth dflt).
      - rewrite !block_length; auto; nia.
      - intros k Hk. rewrite block_length in Hk by nia. rewrite !nth_block by auto.
        destruct (divmod_unique fs i k Hk) as [E1 E2].
        specialize (S (i * fs + k) ltac:(nia)). cbv beta in S. rewrite E1, E2 in S. exact S. }
    split.
    { constructor; cbn [data fsize ssize famount labels_i input_i dsize samount];
        try apply W; rewrite L; apply W. }
    repeat split; auto.
    + intros i Hi. unfold rows, ds_size. cbn [famount fsize data]. fold fs fa.
      rewrite !nth_tab by auto. apply R; auto.
    + set (e := DS nd fs (ssize d) (dsize d) fa (samount d) (labels_i d) (input_i d)).
      assert (E1 : map (fun p => block fs nd p) perm = rows d).
      { apply (list_ext_nth []); rewrite map_length, ?rows_length; auto.
        intros i Hi. rewrite nth_rows by (fold fa; lia).
        rewrite (nth_indep _ [] (block fs nd 0)) by (rewrite map_length; auto).
        rewrite (map_nth (fun p => block fs nd p)). apply R. lia. }
      rewrite <- E1. apply Permutation_sym. apply (Permutation_map _ Hp).
Qed.

(** ** Views *)
(** Columns [set] of row [i]. *)
Definition view (d : dataset T) (set : list nat) (i : nat) : list T :=
  map (fun c => nth c (nth i (rows d) []) dflt) set.

Lemma view_data (d : dataset T) set i :
  i < famount d -> Forall (fun c => c < fsize d) set ->
  view d set i = map (fun c => nth (i * fsize d + c) (data d) dflt) set.
Proof.
  intros Hi Hs. unfold view. apply map_ext_in. intros c Hc.
  rewrite Forall_forall in Hs. rewrite nth_rows by auto. apply nth_block. auto.
Qed.

Lemma tab_map {A B} (g : A -> B) (set : list A) a :
  tab (length set) (fun k => g (nth k set a)) = map g set.
Proof. rewrite <- (map_tab g), tab_nth. reflexivity. Qed.

Lemma field_from_row_ok (d : dataset T) set i :
  wf d -> i < famount d -> Forall (fun c => c < fsize d) set ->
  field_from_row dflt d i set = Ok (view d set i).
Proof.
  intros W Hi Hs. pose proof (wf_data d W) as HD. rewrite view_data by auto.
  unfold field_from_row.
  rewrite (for_fill (fun k => nth (i * fsize d + nth k set 0) (data d) dflt)).
  - now rewrite (tab_map (fun c => nth (i * fsize d + c) (data d) dflt)).
  - apply repeat_length.
  - intros k l Hk Hl. rewrite (rd_nth set k 0) by auto. cbn [bind].
    assert (nth k set 0 < fsize d).
    { rewrite Forall_forall in Hs. apply Hs. now apply nth_In. }
    rewrite (rd_nth (data d) _ dflt) by nia. cbn [bind]. apply wr_ok. lia.
Qed.

Lemma sorted_ext l1 l2 :
  StronglySorted lt l1 -> StronglySorted lt l2 ->
  (forall x, In x l1 <-> In x l2) -> l1 = l2.
Proof.
  intros H1. revert l2. induction H1 as [|x l1 H1 IH F1]; intros l2 H2 E.
  - destruct l2 as [|y l2]; auto. exfalso. apply (E y). now left.
  - destruct H2 as [|y l2 H2 F2]; [exfalso; apply (E x); now left|].
    rewrite Forall_forall in F1, F2.
    assert (x = y).
    { assert (A : In x (y :: l2)) by (apply E; now left).
      assert (B : In y (x :: l1)) by (apply E; now left).
      destruct A as [A|A]; [auto|]. destruct B as [B|B]; [auto|].
      apply F2 in A. apply F1 in B. lia. }
    subst y. f_equal. apply IH; auto.
    intros z. split; intros Hz.
    + assert (A : In z (x :: l2)) by (apply E; now right).
      destruct A as [<-|A]; auto. apply F1 in Hz. lia.
    + assert (A : In z (x :: l1)) by (apply E; now right).
      destruct A as [<-|A]; auto. apply F2 in Hz. lia.
Qed.

Lemma wf_inputs_lt (d : dataset T) : wf d -> Forall (fun c => c < fsize d) (input_i d).
Proof. intros W. apply Forall_forall. intros c Hc. apply (wf_inputs d W) in Hc. tauto. Qed.

Lemma wf_partition (d : dataset T) :
  wf d -> Permutation (input_i d ++ labels_i d) (seq 0 (fsize d)).
Proof.
  intros W. apply NoDup_Permutation.
  - apply NoDup_app'.
    + apply sorted_NoDup, W.
    + apply sorted_NoDup, W.
    + intros x Hx Hy. apply (wf_inputs d W) in Hx. tauto.
  - apply seq_NoDup.
  - intros x. rewrite in_app_iff, (wf_inputs d W), in_seq.
    pose proof (wf_labels d W) as F. rewrite Forall_forall in F.
    destruct (in_dec Nat.eq_dec x (labels_i d)) as [Hi|Hi].
    + specialize (F x Hi). intuition lia.
    + intuition lia.
Qed.

Lemma wf_all_inputs (d : dataset T) :
  wf d -> length (input_i d) = fsize d -> input_i d = seq 0 (fsize d).
Proof.
  intros W E. pose proof (wf_partition d W) as P.
  pose proof (Permutation_length P) as L. rewrite app_length, seq_length in L.
  assert (labels_i d = []) as E' by (apply length_zero_iff_nil; lia).
  rewrite E', app_nil_r in P. apply sorted_ext; [apply W|apply seq_sorted|].
  intros x. split; apply Permutation_in; auto using Permutation_sym.
Qed.

Lemma block_seq (d : dataset T) i :
  wf d -> i < famount d -> view d (seq 0 (fsize d)) i = block (fsize d) (data d) i.
Proof.
  intros W Hi. pose proof (wf_data d W).
  unfold view. rewrite nth_rows by auto.
  pose proof (tab_nth (block (fsize d) (data d) i) dflt) as E.
  rewrite block_length in E by nia. exact E.
Qed.

Lemma input_ok (d : dataset T) i :
  wf d -> ds_input dflt d i = Ok (if i <? famount d then view d (input_i d) i else []).
Proof.
  intros W. unfold ds_input. destruct (Nat.leb_spec (famount d) i);
    destruct (Nat.ltb_spec i (famount d)); try lia; auto.
  destruct (Nat.eqb_spec (length (input_i d)) (fsize d)) as [E|E].
  - rewrite entry_wf by auto. destruct (Nat.ltb_spec i (famount d)); [|lia].
    rewrite (wf_all_inputs d W E). now rewrite block_seq.
  - apply field_from_row_ok; auto. now apply wf_inputs_lt.
Qed.

Lemma label_ok (d : dataset T) i :
  wf d -> ds_label dflt d i = Ok (if i <? famount d then view d (labels_i d) i else []).
Proof.
  intros W. unfold ds_label. destruct (Nat.leb_spec (famount d) i);
    destruct (Nat.ltb_spec i (famount d)); try lia; auto.
  simpl. destruct (Nat.eqb_spec (length (labels_i d)) 0) as [E|E].
  - apply length_zero_iff_nil in E. rewrite E. reflexivity.
  - apply field_from_row_ok; auto. apply W.
Qed.

(** ** Whole-sequence views *)
Lemma entry_seq_ok (d : dataset T) q :
  wf d -> ds_entry_seq d q =
    Ok (if q <? samount d then concat (tab (ssize d) (fun t => nth (q * ssize d + t) (rows d) []))
        else []).
Proof.
  intros W. pose proof (wf_data d W) as HD. pose proof (wf_seq d W) as HS.
  unfold ds_entry_seq. destruct (Nat.leb_spec (samount d) q);
    destruct (Nat.ltb_spec q (samount d)); try lia; auto.
  assert (HB : q * ssize d * fsize d + ssize d * fsize d <= length (data d)).
  { rewrite HD, HS. nia. }
  assert (HQ : forall t, t < ssize d -> q * ssize d + t < famount d).
  { intros t Ht. rewrite HS. nia. }
  rewrite range_copy_ok by lia. f_equal.
  assert (Hlen : forall v, In v (tab (ssize d) (fun t => nth (q * ssize d + t) (rows d) [])) ->
    length v = fsize d).
  { intros v Hv. unfold tab in Hv. apply in_map_iff in Hv as (t & <- & Ht). apply in_seq in Ht.
    specialize (HQ t ltac:(lia)). rewrite nth_rows by lia. apply block_length.
    rewrite HD. nia. }
  replace (q * ssize d * fsize d + ssize d * fsize d - q * ssize d * fsize d)
    with (ssize d * fsize d) by lia.
  apply (list_ext_nth dflt).
  - rewrite firstn_length, skipn_length. rewrite (concat_uniform_length (fsize d)) by auto.
    rewrite tab_length. lia.
  - intros p Hp. rewrite firstn_length, skipn_length in Hp.
    rewrite nth_firstn_lt by lia. rewrite nth_skipn_add.
    assert (Hp' : p < ssize d * fsize d) by lia.
    assert (Hf : fsize d <> 0) by (intros E; rewrite E in Hp'; lia).
    assert (Hd : p / fsize d < ssize d) by (apply Nat.div_lt_upper_bound; lia).
    assert (Hm : p mod fsize d < fsize d) by (apply Nat.mod_upper_bound; auto).
    pose proof (Nat.div_mod p (fsize d) Hf) as E. rewrite Nat.mul_comm in E.
    rewrite E at 2.
    rewrite (nth_concat_uniform dflt (fsize d)); auto; [|now rewrite tab_length].
    specialize (HQ _ Hd).
    rewrite nth_tab by auto. rewrite nth_rows by auto. rewrite nth_block by auto.
    f_equal. rewrite E at 1. lia.
Qed.

Lemma field_from_seq_ok (d : dataset T) set q :
  wf d -> q < samount d -> Forall (fun c => c < fsize d) set ->
  field_from_seq dflt d q set =
  Ok (concat (tab (ssize d) (fun t => view d set (q * ssize d + t)))).
Proof.
  intros W Hq Hs. pose proof (wf_data d W) as HD. pose proof (wf_seq d W) as HS.
  unfold field_from_seq.
  rewrite (for_fill2 (fun t k => nth ((q * ssize d + t) * fsize d + nth k set 0) (data d) dflt)).
  - do 2 f_equal. apply tab_ext. intros t Ht.
    rewrite view_data by (auto; nia).
    now rewrite (tab_map (fun c => nth ((q * ssize d + t) * fsize d + c) (data d) dflt)).
  - apply repeat_length.
  - intros t k l Ht Hk Hl. rewrite (rd_nth set k 0) by auto. cbn [bind].
    assert (nth k set 0 < fsize d).
    { rewrite Forall_forall in Hs. apply Hs. now apply nth_In. }
    replace (q * ssize d * fsize d + t * fsize d + nth k set 0)
      with ((q * ssize d + t) * fsize d + nth k set 0) by lia.
    rewrite (rd_nth (data d) _ dflt).
    + cbn [bind]. apply wr_ok. rewrite Hl. nia.
    + rewrite HD, HS.
      assert (q * ssize d + t < samount d * ssize d) by nia. nia.
Qed.

(** ** inputs() and labels() *)
Lemma columns_ok (d : dataset T) set :
  wf d -> Forall (fun c => c < fsize d) set ->
  exists e, columns dflt d set = Ok e /\ wf e /\ labels_i e = [] /\
    (set = [] -> ds_size e = 0) /\
    (set <> [] -> rows e = tab (famount d) (view d set) /\
       (0 < famount d -> fsize e = length set /\ ssize e = ssize d)).
Proof.
  intros W Hs. pose proof (wf_data d W) as HD. pose proof (wf_seq d W) as HS.
  unfold columns. rewrite (Nat.mul_comm (length set)).
  rewrite (for_fill2 (fun r k => nth (r * fsize d + nth k set 0) (data d) dflt)).
  2: apply repeat_length.
  2:{ intros r k l Hr Hk Hl. rewrite (rd_nth set k 0) by auto. cbn [bind].
      assert (nth k set 0 < fsize d).
      { rewrite Forall_forall in Hs. apply Hs. now apply nth_In. }
      rewrite (rd_nth (data d) _ dflt) by nia. cbn [bind]. apply wr_ok. rewrite Hl. nia. }
  cbn [bind].
  set (R := tab (famount d) (fun r => tab (length set)
     (fun k => nth (r * fsize d + nth k set 0) (data d) dflt))).
  assert (HR : R = tab (famount d) (view d set)).
  { unfold R. apply tab_ext. intros r Hr. rewrite view_data by auto.
    now rewrite (tab_map (fun c => nth (r * fsize d + c) (data d) dflt)). }
  assert (LR : forall v, In v R -> length v = length set).
  { intros v Hv. unfold R, tab in Hv. apply in_map_iff in Hv as (r & <- & _).
    now rewrite map_length, seq_length. }
  assert (LC : length (concat R) = famount d * length set).
  { rewrite (concat_uniform_length (length set)) by auto. unfold R. now rewrite tab_length. }
  set (e := ds_vec dflt (concat R) (length set) (ssize d) []).
  exists e. split; [reflexivity|]. split; [apply ds_vec_wf; constructor|].
  split; [reflexivity|].
  destruct (ds_vec_sizes (concat R) (length set) (ssize d) []) as (H1 & H2 & H3 & H4 & H5 & H6).
  fold e in H1, H2, H3, H4, H5, H6. split.
  - intros ->. unfold ds_size. simpl length in H1. rewrite Nat.min_0_l in H1.
    rewrite H1, Nat.mul_0_l, Nat.eqb_refl in H5. rewrite H3, H5. lia.
  - intros Hne. assert (0 < length set) by (destruct set; simpl; [congruence|lia]).
    destruct (Nat.eq_dec (famount d) 0) as [E0|E0].
    + assert (concat R = []) as E by (apply length_zero_iff_nil; rewrite LC, E0; lia).
      split; [|lia]. unfold rows, ds_size, e. rewrite E, E0.
      destruct (ds_vec_nil (length set) (ssize d) []) as (_ & -> & _). reflexivity.
    + destruct (ds_vec_exact (concat R) (length set) (ssize d) [] (samount d))
        as (D1 & D2 & D3 & D4 & D5 & D6 & _); [lia|nia|nia|nia|].
      fold e in D1, D2, D3, D4, D5, D6. split; [|auto].
      unfold rows, ds_size. rewrite D5, <- HS, D1, D2.
      apply tab_ext. intros r Hr. rewrite block_concat; auto.
      * rewrite HR, nth_tab by auto. reflexivity.
      * unfold R. now rewrite tab_length.
Qed.

(** ** sequence_size setter *)
Lemma set_sequence_spec (d : dataset T) s :
  wf d ->
  (s = 0 \/ famount d = 0 \/ fsize d = 0 -> ds_set_sequence_size dflt d s = UB) /\
  (0 < s -> 0 < famount d -> 0 < fsize d ->
   let s' := Nat.min s (famount d) in
   exists e, ds_set_sequence_size dflt d s = Ok e /\ wf e /\
     ssize e = s' /\ fsize e = fsize d /\ labels_i e = labels_i d /\
     rows e = firstn (famount d / s' * s') (rows d)).
Proof.
  intros W. pose proof (wf_data d W) as HD. split.
  - intros H. unfold ds_set_sequence_size. destruct (Nat.eqb_spec (Nat.min s (famount d)) 0) as [E|E]; [reflexivity|].
    cbn [negb require bind]. destruct (Nat.eqb_spec (fsize d) 0); [reflexivity|lia].
  - intros Hs Hfa Hf s'. unfold ds_set_sequence_size.
    destruct (Nat.eqb_spec (Nat.min s (famount d)) 0) as [E|E]; [lia|].
    destruct (Nat.eqb_spec (fsize d) 0); [lia|]. cbn [negb require bind].
    fold s'. fold s' in E. set (k := famount d / s').
    assert (Hk : k * s' <= famount d) by (pose proof (Nat.mul_div_le (famount d) s' E); lia).
    assert (Ef : s' * k * fsize d / fsize d = k * s') by (rewrite Nat.div_mul; lia).
    rewrite Ef. eexists. split; [reflexivity|].
    split.
    { constructor; cbn [data fsize ssize famount labels_i input_i dsize samount];
        try apply W; rewrite ?resize_length; try reflexivity; ring. }
    repeat split; auto. clearbody k s'.
    apply (list_ext_nth []).
    + rewrite firstn_length, !rows_length. cbn [famount]. lia.
    + intros i Hi. rewrite rows_length in Hi. cbn [famount] in Hi.
      rewrite nth_rows by exact Hi. rewrite nth_firstn_lt by auto.
      rewrite nth_rows by lia. cbn [fsize data]. rewrite resize_firstn by nia.
      apply block_firstn. nia.
Qed.

End DS.
