(** C01-C10: datasets. *)
From Verif Require Import Base Num ArrayModel ArraySpec DatasetModel DatasetSpec DatasetProofs
  DatasetProofs2.
From Coq Require Import Reals Lra QArith Qminmax.
Close Scope Q_scope. Close Scope R_scope.

(** *** C01 *)
Theorem c01_vec_constructor :
  forall (T : Type) (dflt : T) v f s lab,
    let d := ds_vec dflt v f s lab in
    (* the stored data is a prefix of the input ... *)
    (exists dropped, v = data d ++ dropped /\
       (* ... and less than one whole sequence is dropped *)
       (v <> [] -> 0 < f -> 0 < s -> length dropped < fsize d * ssize d)) /\
    length (data d) = ds_size d * fsize d /\
    (exists q, ds_size d = q * ssize d) /\
    fsize d = Nat.min f (length v) /\
    (0 < fsize d -> ssize d = Nat.min s (length v / fsize d)) /\
    (forall i, i < ds_size d ->
       ds_entry d i = Ok (block (fsize d) v i) /\ length (block (fsize d) v i) = fsize d) /\
    (forall i, ds_size d <= i -> ds_entry d i = Ok []).
Proof.
  intros T dflt v f s lab d.
  destruct (ds_vec_sizes dflt v f s lab) as (H1 & H2 & H3 & H4 & H5 & H6).
  fold d in H1, H2, H3, H4, H5, H6.
  assert (HD : data d = firstn (dsize d) v) by apply ds_vec_data.
  assert (HL : length (data d) = famount d * fsize d) by (rewrite HD, firstn_length; lia).
  split; [|split; [exact HL|split; [exists (samount d); exact H3|split; [exact H1|]]]].
  - exists (skipn (dsize d) v). split; [rewrite HD; symmetry; apply firstn_skipn|].
    intros Hv Hf Hs. rewrite skipn_length.
    assert (length v <> 0) by (intros E; apply length_zero_iff_nil in E; auto).
    assert (Fp : 0 < fsize d) by lia.
    assert (Sp : 0 < ssize d).
    { rewrite H2. rewrite (Nat.max_l (fsize d)) by lia.
      assert (length v / fsize d <> 0).
      { intros E. apply Nat.div_small_iff in E; lia. }
      lia. }
    destruct (Nat.eqb_spec (fsize d * ssize d) 0) as [E|E]; [nia|].
    rewrite H4, H3, H5.
    pose proof (Nat.div_mod (length v) (fsize d * ssize d) E).
    pose proof (Nat.mod_upper_bound (length v) (fsize d * ssize d) E). nia.
  - split; [intros Fp; rewrite H2; rewrite (Nat.max_l (fsize d)) by lia; reflexivity|].
    split.
    + intros i Hi. unfold ds_size in Hi.
      assert (Hb : block (fsize d) (data d) i = block (fsize d) v i).
      { rewrite HD. apply block_firstn. nia. }
      split.
      * rewrite entry_in; [now rewrite Hb|auto|rewrite HL; nia].
      * apply block_length. nia.
    + intros i Hi. unfold ds_size in Hi. unfold ds_entry.
      destruct (Nat.leb_spec (famount d) i); [reflexivity|lia].
Qed.
Print Assumptions c01_vec_constructor.

Theorem c01_invariant :
  forall (T : Type) (dflt : T) v f s lab,
    StronglySorted lt lab -> wf (ds_vec dflt v f s lab).
Proof. exact @ds_vec_wf. Qed.
Print Assumptions c01_invariant.

Example c01_example :
  let d := ds_vec 0 [1; 2; 3; 4; 5; 6; 7; 8; 9; 10; 11; 12; 13] 2 3 [1] in
  data d = [1; 2; 3; 4; 5; 6; 7; 8; 9; 10; 11; 12] /\ ds_size d = 6 /\
  ds_entry d 4 = Ok [9; 10] /\ ds_entry d 6 = Ok [] /\ ds_entry_seq d 1 = Ok [7; 8; 9; 10; 11; 12].
Proof. vm_compute. auto 10. Qed.

Example c01_clamped :
  let d := ds_vec 0 [1; 2; 3] 10 7 [] in fsize d = 3 /\ ssize d = 1 /\ ds_size d = 1.
Proof. vm_compute. auto. Qed.

(** *** C02 *)
Theorem c02_mat_constructor :
  forall (T : Type) (dflt : T) m s lab,
    exists d, ds_mat dflt m s lab = Ok d /\
      ds_size d = length m /\ ssize d = Nat.min s (length m) /\
      (m <> [] -> is_min (fsize d) (map (@length T) m)) /\
      ((forall i, i < ds_size d -> ds_entry d i <> UB) <->
       (Nat.divide (ssize d) (length m) \/ fsize d = 0)) /\
      (forall i, i < samount d * ssize d ->
         ds_entry d i = Ok (firstn (fsize d) (nth i m []))).
Proof.
  intros T dflt m s lab.
  destruct (ds_mat_spec dflt m s lab) as (d & E & A & B & C & C' & D & F & G & _ & _ & I).
  exists d. split; [exact E|]. split; [exact A|]. split; [exact B|]. split; [exact C|].
  assert (Hle : samount d * ssize d <= length m) by (rewrite D; apply div_mul_max).
  split.
  - unfold ds_size. rewrite A. split.
    + intros H. destruct (Nat.eq_dec (fsize d) 0) as [E0|E0]; [now right|]. left.
      exists (samount d). destruct (Nat.eq_dec (length m) (samount d * ssize d)) as [|Hne]; auto.
      exfalso. apply (H (samount d * ssize d)); [lia|].
      unfold ds_entry. rewrite A. destruct (Nat.leb_spec (length m) (samount d * ssize d)); [lia|].
      apply range_copy_UB. rewrite F. nia.
    + intros [Hd|H0] i Hi; unfold ds_entry; rewrite A;
        destruct (Nat.leb_spec (length m) i); try lia.
      * assert (Em : samount d * ssize d = length m).
        { destruct Hd as (q & Eq). rewrite D. destruct (Nat.eq_dec (ssize d) 0) as [E0|E0].
          - rewrite E0 in *. lia.
          - rewrite Nat.max_l by lia. rewrite Eq at 1. rewrite Nat.div_mul; auto. }
        rewrite range_copy_ok; [discriminate|lia|]. rewrite F. nia.
      * rewrite range_copy_ok; [discriminate|lia|]. rewrite F, H0. lia.
  - intros i Hi. rewrite entry_in; [now rewrite I by auto|lia|]. rewrite F. nia.
Qed.
Print Assumptions c02_mat_constructor.

(** A matrix of three rows with sequences of two: row 2 is advertised and not stored. *)
Theorem c02_all_rows_readable_refuted :
  exists d, ds_mat 0 [[1; 2]; [3; 4]; [5; 6]] 2 [] = Ok d /\
    ds_size d = 3 /\ ds_entry d 1 = Ok [3; 4] /\ ds_entry d 2 = UB.
Proof. eexists. split; [reflexivity|]. vm_compute. auto. Qed.
Print Assumptions c02_all_rows_readable_refuted.

Example c02_example :
  exists d, ds_mat 0 [[1; 2; 9]; [3; 4]; [5; 6]; [7; 8; 9]] 2 [] = Ok d /\
    ds_size d = 4 /\ fsize d = 2 /\ ds_entry d 3 = Ok [7; 8] /\ Nat.divide (ssize d) 4.
Proof. eexists. split; [reflexivity|]. vm_compute. repeat split; auto. exists 2. reflexivity. Qed.

(** *** C03 *)
Theorem c03_cub_constructor :
  forall (T : Type) (c : list (list (list T))) lab,
    c <> [] -> hd [] c <> [] ->
    exists d, ds_cub c lab = Ok d /\
      is_min (ssize d) (map (@length _) c) /\
      is_min (fsize d) (map (@length T) (concat c)) /\
      ds_size d = length c * ssize d /\
      (forall q r, q < length c -> r < ssize d ->
         ds_entry d (q * ssize d + r) = Ok (firstn (fsize d) (nth r (nth q c []) []))) /\
      (StronglySorted lt lab -> wf d).
Proof.
  intros T c lab Hc Hh.
  destruct (ds_cub_spec c lab Hc Hh) as (d & E & A & B & C & D & F & G & H & I & J).
  exists d. split; [exact E|]. split; [exact B|]. split; [exact C|].
  split; [unfold ds_size; now rewrite D, A|]. split.
  - intros q r Hq Hr.
    assert (Hi : q * ssize d + r < famount d) by (rewrite D, A; nia).
    rewrite entry_in; [now rewrite J by auto|auto|]. rewrite F. nia.
  - intros Hs. constructor; auto; try (now rewrite D).
    + rewrite H, erase_ge_filter. now apply filter_sorted.
    + rewrite H. apply Forall_forall. intros x Hx. apply erase_ge_In in Hx. tauto.
    + intros x. rewrite I. apply other_cols_In.
    + rewrite I. apply other_cols_sorted.
Qed.
Print Assumptions c03_cub_constructor.

Example c03_example :
  exists d, ds_cub [[[1; 2; 3]; [4; 5; 6]; [7; 8]]; [[9; 10]; [11; 12; 13]]] [0] = Ok d /\
    ds_size d = 4 /\ fsize d = 2 /\ ssize d = 2 /\
    ds_entry d 1 = Ok [4; 5] /\ ds_entry d 2 = Ok [9; 10] /\ labels_i d = [0] /\ input_i d = [1].
Proof. eexists. split; [reflexivity|]. vm_compute. auto 10. Qed.

(** An empty first sequence: three sequences with no rows at all count as nine rows. *)
Theorem c03_empty_first_sequence_refuted :
  exists d, ds_cub ([[]; []; []] : list (list (list nat))) [] = Ok d /\
    ds_size d = 9 /\ ssize d = 3 /\ ds_entry d 8 = Ok [].
Proof. eexists. split; [reflexivity|]. vm_compute. auto. Qed.
Print Assumptions c03_empty_first_sequence_refuted.

(** *** C04 *)
Theorem c04_split :
  forall (T : Type) (dflt : T) (d : dataset T) (p : Q),
    wf d -> 0 < fsize d -> 0 < ssize d ->
    exists tr te k, ds_split dflt d p = Ok (tr, te) /\ wf tr /\ wf te /\
      rows tr ++ rows te = rows d /\
      ds_size tr = k * ssize d /\
      (qnat k <= Qmax 0 (Qmin 1 p) * qnat (ds_size d) / qnat (ssize d) < qnat (S k))%Q /\
      (ds_size tr <> 0 -> fsize tr = fsize d /\ ssize tr = ssize d /\ labels_i tr = labels_i d) /\
      (ds_size te <> 0 -> fsize te = fsize d /\ ssize te = ssize d /\ labels_i te = labels_i d).
Proof. exact @split_spec. Qed.
Print Assumptions c04_split.

(** The same whatever the floating-point rounding of the fraction: any number of
    training sequences up to the total. *)
Theorem c04_split_any_rounding :
  forall (T : Type) (dflt : T) (d : dataset T) k,
    wf d -> 0 < fsize d -> k <= samount d ->
    exists tr te, ds_split_at dflt d k = Ok (tr, te) /\ wf tr /\ wf te /\
      rows tr ++ rows te = rows d /\
      ds_size tr = k * ssize d /\
      (ds_size tr <> 0 -> fsize tr = fsize d /\ ssize tr = ssize d /\ labels_i tr = labels_i d) /\
      (ds_size te <> 0 -> fsize te = fsize d /\ ssize te = ssize d /\ labels_i te = labels_i d).
Proof. exact @split_at_spec. Qed.
Print Assumptions c04_split_any_rounding.

Definition c04_ds := ds_vec 0 [1; 2; 3; 4; 5; 6; 7; 8; 9; 10; 11; 12; 13; 14; 15; 16] 2 2 [1].
Example c04_example_hyps : wf c04_ds /\ 0 < fsize c04_ds /\ 0 < ssize c04_ds.
Proof.
  split; [apply ds_vec_wf; repeat constructor|]. vm_compute. auto.
Qed.
Example c04_example :
  exists tr te, ds_split 0 c04_ds (7 # 10) = Ok (tr, te) /\
    data tr = [1; 2; 3; 4; 5; 6; 7; 8] /\ data te = [9; 10; 11; 12; 13; 14; 15; 16].
Proof. eexists. eexists. split; [reflexivity|]. vm_compute. auto. Qed.

(** An empty part forgets its feature size and its label columns. *)
Theorem c04_empty_part_loses_shape :
  exists tr te, ds_split 0 c04_ds 0%Q = Ok (tr, te) /\ ds_size tr = 0 /\
    fsize tr = 0 /\ labels_i tr = [] /\ rows te = rows c04_ds.
Proof. eexists. eexists. split; [reflexivity|]. vm_compute. auto. Qed.
Print Assumptions c04_empty_part_loses_shape.

(** *** C05 *)
Theorem c05_subdata :
  forall (T : Type) (dflt : T) (d : dataset T) from to,
    wf d -> 0 < fsize d ->
    (ds_subdata dflt d from to = Throw <-> Nat.min to (ds_size d) < from) /\
    (from <= Nat.min to (ds_size d) ->
     let n := Nat.min to (ds_size d) - from in
     let s := Nat.min (ssize d) n in
     exists e, ds_subdata dflt d from to = Ok e /\ wf e /\
       rows e = firstn (n / Nat.max s 1 * s) (skipn from (rows d)) /\
       (0 < n -> fsize e = fsize d /\ ssize e = s /\ labels_i e = labels_i d)).
Proof.
  intros T dflt d from to W Hf. destruct (subdata_spec dflt d from to W Hf) as (A & B).
  split; [split|exact B].
  - intros E. destruct (Nat.lt_ge_cases (Nat.min to (ds_size d)) from) as [|Hge]; auto.
    destruct (B Hge) as (e & E' & _). congruence.
  - exact A.
Qed.
Print Assumptions c05_subdata.

Example c05_example :
  (exists e, ds_subdata 0 c04_ds 1 6 = Ok e /\ rows e = [[3; 4]; [5; 6]; [7; 8]; [9; 10]]) /\
  (exists e, ds_subdata 0 c04_ds 7 100 = Ok e /\ rows e = [[15; 16]] /\ ssize e = 1) /\
  ds_subdata 0 c04_ds 9 100 = Throw.
Proof. vm_compute. repeat split; eexists; repeat split. Qed.

(** *** C06 *)
Theorem c06_shuffle :
  forall (T : Type) (dflt : T) (d : dataset T) perm,
    wf d -> Permutation perm (seq 0 (ds_size d)) ->
    exists e, ds_shuffle dflt d perm = Ok e /\ wf e /\
      fsize e = fsize d /\ ssize e = ssize d /\ ds_size e = ds_size d /\
      labels_i e = labels_i d /\ input_i e = input_i d /\
      (forall i, i < ds_size d -> nth (nth i perm 0) (rows e) [] = nth i (rows d) []) /\
      Permutation (rows e) (rows d).
Proof. exact @shuffle_spec. Qed.
Print Assumptions c06_shuffle.

Example c06_example :
  Permutation [2; 0; 3; 1; 4; 6; 7; 5] (seq 0 (ds_size c04_ds)) /\
  exists e, ds_shuffle 0 c04_ds [2; 0; 3; 1; 4; 6; 7; 5] = Ok e /\
    data e = [3; 4; 7; 8; 1; 2; 5; 6; 9; 10; 15; 16; 11; 12; 13; 14].
Proof.
  split.
  - apply NoDup_Permutation; [repeat (constructor; [simpl; lia|]); constructor|apply seq_NoDup|].
    intros x. change (seq 0 (ds_size c04_ds)) with [0; 1; 2; 3; 4; 5; 6; 7].
    simpl. intuition.
  - eexists. split; [reflexivity|]. reflexivity.
Qed.

(** *** C07 *)
Theorem c07_views :
  forall (T : Type) (dflt : T) (d : dataset T) i,
    wf d -> i < ds_size d ->
    exists inp lab,
      ds_input dflt d i = Ok inp /\ ds_label dflt d i = Ok lab /\
      inp = map (fun c => nth c (nth i (rows d) []) dflt) (input_i d) /\
      lab = map (fun c => nth c (nth i (rows d) []) dflt) (labels_i d) /\
      (* the row can be rebuilt: every (column, value) pair occurs exactly once *)
      Permutation (combine (input_i d) inp ++ combine (labels_i d) lab)
                  (combine (seq 0 (fsize d)) (nth i (rows d) [])).
Proof.
  intros T dflt d i W Hi. unfold ds_size in Hi.
  exists (view dflt d (input_i d) i), (view dflt d (labels_i d) i).
  rewrite input_ok, label_ok by auto.
  destruct (Nat.ltb_spec i (famount d)); [|lia].
  split; [reflexivity|]. split; [reflexivity|]. split; [reflexivity|]. split; [reflexivity|].
  set (row := nth i (rows d) []).
  assert (Lr : length row = fsize d).
  { unfold row. rewrite nth_rows by auto. apply block_length. rewrite (wf_data d W). nia. }
  assert (Hc : forall set, combine set (map (fun c => nth c row dflt) set)
                           = map (fun c => (c, nth c row dflt)) set).
  { induction set as [|c set IH]; simpl; auto. now rewrite IH. }
  unfold view. fold row. rewrite !Hc, <- map_app.
  assert (Er : row = map (fun c => nth c row dflt) (seq 0 (fsize d))).
  { rewrite <- Lr. symmetry. apply (tab_nth row dflt). }
  assert (Ec : combine (seq 0 (fsize d)) row = map (fun c => (c, nth c row dflt)) (seq 0 (fsize d))).
  { rewrite <- Hc. now rewrite <- Er. }
  rewrite Ec. apply Permutation_map. now apply wf_partition.
Qed.
Print Assumptions c07_views.

(** Labels: whatever set is given, exactly its members below the feature size are kept. *)
Theorem c07_label_columns :
  forall (T : Type) (d : dataset T) l,
    wf d -> StronglySorted lt l ->
    wf (ds_set_labels d l) /\ data (ds_set_labels d l) = data d /\
    (forall c, In c (labels_i (ds_set_labels d l)) <-> In c l /\ c < fsize d) /\
    (forall c, In c (input_i (ds_set_labels d l)) <-> c < fsize d /\ ~ In c l).
Proof.
  intros T d l W Hs.
  assert (A : forall c, In c (labels_i (ds_set_labels d l)) <-> In c l /\ c < fsize d).
  { intros c. apply erase_ge_In. }
  assert (B : forall c, In c (input_i (ds_set_labels d l)) <-> c < fsize d /\ ~ In c l).
  { intros c. cbn [ds_set_labels input_i]. rewrite other_cols_In, erase_ge_In. tauto. }
  split; [|auto].
  constructor; cbn [ds_set_labels data fsize ssize famount dsize samount labels_i input_i];
    try apply W.
  - rewrite erase_ge_filter. now apply filter_sorted.
  - apply Forall_forall. intros c Hc. apply erase_ge_In in Hc. tauto.
  - intros c. apply other_cols_In.
  - apply other_cols_sorted.
Qed.
Print Assumptions c07_label_columns.

(** inputs() and labels() hold the same views for every row. *)
Theorem c07_column_datasets :
  forall (T : Type) (dflt : T) (d : dataset T),
    wf d ->
    exists di dl, ds_inputs dflt d = Ok di /\ ds_labels dflt d = Ok dl /\ wf di /\ wf dl /\
      (input_i d <> [] -> ds_size di = ds_size d /\
         forall i, i < ds_size d -> ds_entry di i = ds_input dflt d i) /\
      (labels_i d <> [] -> ds_size dl = ds_size d /\
         forall i, i < ds_size d -> ds_entry dl i = ds_label dflt d i) /\
      (input_i d = [] -> ds_size di = 0) /\ (labels_i d = [] -> ds_size dl = 0).
Proof.
  intros T dflt d W.
  destruct (columns_ok dflt d (input_i d) W) as (di & E1 & W1 & _ & Z1 & R1);
    [now apply wf_inputs_lt|].
  destruct (columns_ok dflt d (labels_i d) W) as (dl & E2 & W2 & _ & Z2 & R2); [apply W|].
  exists di, dl. split; [exact E1|]. split; [exact E2|]. split; [auto|]. split; [auto|].
  assert (G : forall e set, wf e -> rows e = tab (famount d) (view dflt d set) ->
    ds_size e = ds_size d /\
    forall i, i < ds_size d -> ds_entry e i = Ok (view dflt d set i)).
  { intros e set We R. assert (L : famount e = famount d).
    { rewrite <- rows_length, R. apply tab_length. }
    split; [exact L|]. intros i Hi. unfold ds_size in Hi. rewrite entry_wf by auto.
    destruct (Nat.ltb_spec i (famount e)); [|lia]. rewrite <- nth_rows by lia.
    rewrite R, nth_tab by auto. reflexivity. }
  split; [|split; [|split; [exact Z1|exact Z2]]].
  - intros Hn. destruct (R1 Hn) as (R & _). destruct (G di _ W1 R) as (A & B).
    split; [exact A|]. intros i Hi. rewrite B, input_ok by auto. unfold ds_size in Hi.
    destruct (Nat.ltb_spec i (famount d)); [reflexivity|lia].
  - intros Hn. destruct (R2 Hn) as (R & _). destruct (G dl _ W2 R) as (A & B).
    split; [exact A|]. intros i Hi. rewrite B, label_ok by auto. unfold ds_size in Hi.
    destruct (Nat.ltb_spec i (famount d)); [reflexivity|lia].
Qed.
Print Assumptions c07_column_datasets.

(** Sequence views are the row views one after the other. *)
Theorem c07_sequence_views :
  forall (T : Type) (dflt : T) (d : dataset T) q,
    wf d -> q < samount d ->
    exists ri rl,
      ds_inputs_seq dflt d q = Ok (concat ri) /\ ds_labels_seq dflt d q = Ok (concat rl) /\
      length ri = ssize d /\ length rl = ssize d /\
      forall t, t < ssize d ->
        ds_input dflt d (q * ssize d + t) = Ok (nth t ri []) /\
        ds_label dflt d (q * ssize d + t) = Ok (nth t rl []).
Proof.
  intros T dflt d q W Hq.
  exists (tab (ssize d) (fun t => view dflt d (input_i d) (q * ssize d + t))),
         (tab (ssize d) (fun t => view dflt d (labels_i d) (q * ssize d + t))).
  assert (Hlt : forall t, t < ssize d -> q * ssize d + t < famount d).
  { intros t Ht. rewrite (wf_seq d W). nia. }
  split; [|split; [|split; [apply tab_length|split; [apply tab_length|]]]].
  - unfold ds_inputs_seq. destruct (Nat.leb_spec (samount d) q); [lia|].
    destruct (Nat.eqb_spec (length (input_i d)) (fsize d)) as [E|E].
    + rewrite entry_seq_ok by auto. destruct (Nat.ltb_spec q (samount d)); [|lia].
      do 2 f_equal. apply tab_ext. intros t Ht. rewrite (wf_all_inputs d W E).
      rewrite block_seq by auto. now rewrite nth_rows by auto.
    + apply field_from_seq_ok; auto. now apply wf_inputs_lt.
  - unfold ds_labels_seq. destruct (Nat.leb_spec (samount d) q); [lia|]. simpl.
    destruct (Nat.eqb_spec (length (labels_i d)) 0) as [E|E].
    + apply length_zero_iff_nil in E. rewrite E. f_equal.
      unfold view. simpl. symmetry.
      assert (Z : forall n, concat (tab n (fun _ => @nil T)) = []).
      { induction n as [|n IH]; auto. now rewrite tab_cons. }
      apply Z.
    + apply field_from_seq_ok; auto. apply W.
  - intros t Ht. rewrite !nth_tab by auto. rewrite input_ok, label_ok by auto.
    specialize (Hlt t Ht). destruct (Nat.ltb_spec (q * ssize d + t) (famount d)); [auto|lia].
Qed.
Print Assumptions c07_sequence_views.

Example c07_example :
  let d := ds_vec 0 [1; 2; 3; 4; 5; 6; 7; 8; 9; 10; 11; 12] 3 2 [0; 2; 7] in
  wf d /\ ds_input 0 d 1 = Ok [5] /\ ds_label 0 d 1 = Ok [4; 6] /\
  ds_inputs_seq 0 d 1 = Ok [8; 11] /\ labels_i d = [0; 2].
Proof. split; [apply ds_vec_wf; repeat constructor|vm_compute; auto]. Qed.

(** *** C08 *)
Theorem c08_concatenate :
  forall (T : Type) (dflt : T) (d1 d2 : dataset T) axis,
    wf d1 -> wf d2 -> data d1 <> [] -> data d2 <> [] -> axis <= 2 ->
    (forall i, i <= 2 -> i <> axis -> nth i (shape3 d1) 0 = nth i (shape3 d2) 0) ->
    (axis <> 2 -> labels_i d1 = labels_i d2) ->
    exists e, ds_concatenate dflt d1 d2 axis = Ok e /\ wf e /\
      shape3 e = upd (shape3 d1) axis (nth axis (shape3 d1) 0 + nth axis (shape3 d2) 0) /\
      labels_i e = (if axis =? 2 then [] else labels_i d1) /\
      forall idx, inb (shape3 e) idx ->
        at_ dflt (shape3 e) (data e) idx =
        pick2 dflt (shape3 d1) (data d1) (shape3 d2) (data d2) axis idx.
Proof. exact @concatenate_spec. Qed.
Print Assumptions c08_concatenate.

Theorem c08_empty_operand :
  forall (T : Type) (dflt : T) (d1 d2 : dataset T) axis,
    (data d1 = [] -> ds_concatenate dflt d1 d2 axis = Ok d2) /\
    (data d1 <> [] -> data d2 = [] -> ds_concatenate dflt d1 d2 axis = Ok d1).
Proof. exact @concatenate_empty. Qed.
Print Assumptions c08_empty_operand.

Theorem c08_throws :
  forall (T : Type) (dflt : T) (d1 d2 : dataset T) axis,
    data d1 <> [] -> data d2 <> [] ->
    (2 < axis \/ (axis <> 2 /\ labels_i d1 <> labels_i d2) \/
     (exists i, i <= 2 /\ i <> axis /\ nth i (shape3 d1) 0 <> nth i (shape3 d2) 0)) ->
    ds_concatenate dflt d1 d2 axis = Throw.
Proof. exact @concatenate_throws. Qed.
Print Assumptions c08_throws.

Example c08_example :
  let d1 := ds_vec 0 [1; 2; 3; 4; 5; 6; 7; 8] 2 2 [1] in
  let d2 := ds_vec 0 [11; 12; 13; 14] 2 1 [1] in
  wf d1 /\ wf d2 /\ shape3 d1 = [2; 2; 2] /\ shape3 d2 = [2; 1; 2] /\
  exists e, ds_concatenate 0 d1 d2 1 = Ok e /\
    data e = [1; 2; 3; 4; 11; 12; 5; 6; 7; 8; 13; 14] /\ shape3 e = [2; 3; 2] /\ labels_i e = [1].
Proof.
  repeat (split; [first [reflexivity | apply ds_vec_wf; repeat constructor]|]).
  eexists. split; [reflexivity|]. vm_compute. auto.
Qed.

(** *** C09 *)
Theorem c09_min_max_bounds :
  forall (d : dataset R) mn mx idx,
    wf d -> NoDup idx -> Forall (fun c => c < fsize d) idx ->
    (ds_min_max d mn mx idx = Throw <-> mn = mx) /\
    (mn <> mx -> exists e, ds_min_max d mn mx idx = Ok e /\ wf e /\
       ds_size e = ds_size d /\ fsize e = fsize d /\ ssize e = ssize d /\
       labels_i e = labels_i d /\
       forall r c, r < ds_size d -> c < fsize d ->
         (* selected columns (all of them when the list is empty) are rescaled *)
         cell e r c = if match idx with [] => true | _ => mem c idx end
                      then ((cell d r c - mn) / (mx - mn))%R else cell d r c).
Proof.
  intros d mn mx idx W Nd Hf. destruct (min_max_spec d mn mx idx W Nd Hf) as (A & B).
  split; [split|exact B].
  - intros E. destruct (Req_EM_T mn mx) as [|Hne]; auto.
    destruct (B Hne) as (e & E' & _). congruence.
  - exact A.
Qed.
Print Assumptions c09_min_max_bounds.

Theorem c09_min_max_columns :
  forall (d : dataset R),
    wf d -> 0 < ds_size d ->
    exists mn mx e, ds_min_max_auto d = Ok e /\ wf e /\
      ds_size e = ds_size d /\ fsize e = fsize d /\ ssize e = ssize d /\ labels_i e = labels_i d /\
      (forall c, c < fsize d ->
        (exists r, r < ds_size d /\ mn c = cell d r c) /\
        (exists r, r < ds_size d /\ mx c = cell d r c) /\
        (forall r, r < ds_size d -> (mn c <= cell d r c <= mx c)%R)) /\
      (forall r c, r < ds_size d -> c < fsize d ->
         cell e r c = ((cell d r c - mn c) / (mx c - mn c))%R) /\
      (* consequences for columns that are not constant *)
      (forall c, c < fsize d -> (mn c < mx c)%R ->
         (forall r, r < ds_size d -> (0 <= cell e r c <= 1)%R) /\
         (exists r, r < ds_size d /\ cell e r c = 0%R) /\
         (exists r, r < ds_size d /\ cell e r c = 1%R) /\
         (forall r1 r2, r1 < ds_size d -> r2 < ds_size d ->
            ((cell d r1 c < cell d r2 c)%R <-> (cell e r1 c < cell e r2 c)%R))).
Proof.
  intros d W Hn.
  destruct (min_max_auto_spec d W Hn) as (mn & mx & e & E & We & A & B & C & L & D & F).
  exists mn, mx, e. repeat (split; [assumption|]).
  intros c Hc Hlt. destruct (D c Hc) as ((r1 & Hr1 & E1) & (r2 & Hr2 & E2) & Hb).
  assert (Hp : (0 < / (mx c - mn c))%R) by (apply Rinv_0_lt_compat; lra).
  split; [|split; [|split]].
  - intros r Hr. rewrite F by auto. specialize (Hb r Hr). unfold Rdiv. split.
    + apply Rmult_le_pos; lra.
    + apply Rmult_le_reg_r with (mx c - mn c)%R; [lra|].
      rewrite Rmult_assoc, Rinv_l by lra. lra.
  - exists r1. split; auto. rewrite F by auto. rewrite <- E1. unfold Rdiv. ring.
  - exists r2. split; auto. rewrite F by auto. rewrite <- E2. field. lra.
  - intros s1 s2 H1 H2. rewrite !F by auto. unfold Rdiv. split; intros H.
    + apply Rmult_lt_compat_r; lra.
    + apply Rmult_lt_reg_r in H; lra.
Qed.
Print Assumptions c09_min_max_columns.

(** Normalising an empty dataset that has features reads past the end. *)
Theorem c09_empty_dataset_refuted :
  exists d : dataset R, wf d /\ ds_size d = 0 /\ ds_min_max_auto d = UB.
Proof.
  exists (DS [] 1 1 0 0 0 [] [0]).
  assert (W : wf (DS ([] : list R) 1 1 0 0 0 [] [0])).
  { constructor; cbn; try reflexivity; try (repeat constructor; fail).
    intros c. simpl. lia. }
  split; [exact W|]. split; [reflexivity|].
  apply min_max_auto_empty; cbn; auto.
Qed.
Print Assumptions c09_empty_dataset_refuted.

Example c09_example_hyps :
  let d := ds_vec 0%R [1; 5; 3; 5; 2; 7]%R 2 1 [] in
  wf d /\ 0 < ds_size d /\ NoDup [1] /\ Forall (fun c => c < fsize d) [1].
Proof.
  split; [apply ds_vec_wf; constructor|].
  split; [vm_compute; lia|]. split; [repeat constructor; simpl; tauto|].
  repeat constructor.
Qed.

(** *** C10 *)
Theorem c10_sequence_size :
  forall (T : Type) (dflt : T) (d : dataset T) s,
    wf d ->
    (ds_set_sequence_size dflt d s = UB <-> s = 0 \/ ds_size d = 0 \/ fsize d = 0) /\
    (0 < s -> 0 < ds_size d -> 0 < fsize d ->
     let s' := Nat.min s (ds_size d) in
     exists e, ds_set_sequence_size dflt d s = Ok e /\ wf e /\
       ssize e = s' /\ fsize e = fsize d /\ labels_i e = labels_i d /\
       rows e = firstn (ds_size d / s' * s') (rows d)).
Proof.
  intros T dflt d s W. destruct (set_sequence_spec dflt d s W) as (A & B).
  split; [split|exact B].
  - intros E. destruct (Nat.eq_dec s 0); auto. destruct (Nat.eq_dec (ds_size d) 0); auto.
    destruct (Nat.eq_dec (fsize d) 0); auto. unfold ds_size in *.
    destruct B as (e & E' & _); [lia|lia|lia|]. congruence.
  - exact A.
Qed.
Print Assumptions c10_sequence_size.

Example c10_example :
  exists e, ds_set_sequence_size 0 c04_ds 3 = Ok e /\ ssize e = 3 /\ ds_size e = 6 /\
    data e = [1; 2; 3; 4; 5; 6; 7; 8; 9; 10; 11; 12].
Proof. eexists. split; [reflexivity|]. vm_compute. auto. Qed.
