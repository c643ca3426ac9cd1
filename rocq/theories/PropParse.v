(** C84: Dataset::parse gives the training examples stored in the files. *)
From Verif Require Import Base Num StreamModel CsvModel ImageModel EncodingModel DatasetModel DatasetSpec DatasetProofs PropEncoding PropCsv PropImages TypeModel DumpModel ParseModel ParseProofs.
From Coq Require Import Sorting.Sorted Permutation Ascii String.
Local Open Scope list_scope. Local Notation length := List.length. Local Notation concat := List.concat.

Section Spec.
Context {T : Type} `{NumOps T}.
(** Every entry of [rows] as wide as [f], the labels [ls] are columns. *)
Definition table (rows : list (list T)) (f : nat) (ls : list nat) : Prop :=
  0 < f /\ Forall (fun row => length row = f) rows /\ StronglySorted lt ls /\ Forall (fun l => l < f) ls.
(** The number of examples and the length of the sequences: whole sequences only. *)
Definition sizes (D : DatasetModel.dataset T) (n ss : nat) : Prop :=
  ssize D = Nat.min ss n /\ ds_size D = n / Nat.min ss n * Nat.min ss n.
(** Example [i]: the columns that are not labels, in order, and the labels. *)
Definition default_example (D : DatasetModel.dataset T) (row : list T) (ls : list nat) (i : nat) : Prop :=
  exists cols, StronglySorted lt cols /\ (forall c, In c cols <-> c < length row /\ ~ In c ls) /\
    ds_input n0 D i = Ok (map (fun c => nth c row n0) cols) /\
    ds_label n0 D i = Ok (map (fun c => nth c row n0) ls).
(** Example [i]: the first [off] columns, and one code for each of the others. *)
Definition one_hot_example (D : DatasetModel.dataset T) (rows : list (list T)) (ls : list nat) (off i : nat) : Prop :=
  let row := nth i rows [] in
  ds_input n0 D i = Ok (firstn off row) /\
  exists cs, ds_label n0 D i = Ok (concat cs) /\
    Forall2 (fun l w => is_code (map (fun r => nth l r n0) rows) (nth l row n0) w) ls cs.
End Spec.

Section Generic.
Context {T : Type} `{NumOps T} {S : Type}.
Lemma sorted_filter (g : nat -> bool) l : StronglySorted lt l -> StronglySorted lt (filter g l).
Proof.
  induction 1 as [|x l Sl IH F]; cbn; [constructor|]. destruct (g x); [|exact IH]. constructor; [exact IH|].
  rewrite Forall_forall in F |- *. intros y Hy. apply filter_In in Hy as (Hy & _). auto.
Qed.
Lemma sorted_seq n : forall a, StronglySorted lt (seq a n).
Proof. induction n as [|n IH]; intros a; cbn; constructor; [apply IH|]. apply Forall_forall. intros y Hy. apply in_seq in Hy. lia. Qed.

Theorem c84_parse_default : forall (P : sparser T S) I rows f ls s ss order,
  presents P I rows f ls -> I s -> table rows f ls -> 0 < ss -> Permutation order [AData; AFeatures; ALabels] ->
  exists D s', parse P DefaultEncoding ss order s = Ok (D, s') /\ I s' /\ sizes D (length rows) ss /\
    forall i, i < ds_size D -> i < length rows /\ default_example D (nth i rows []) ls i.
Proof.
  intros P I rows f ls s ss order W J (Hf & Fr & Sl & Fl) Hs Pm.
  destruct (parse_any_order P I DefaultEncoding ss order s (concat rows) f ls J Pm) as (s' & E & J').
  - intros s0 J0. pose proof (c50_default (mkDParser rows f ls) Fr) as Q. cbn [dp_rows] in Q. rewrite <- Q. now apply default_data_agrees.
  - intros s0 J0. destruct (W s0 J0) as (_ & E & _). cbn. rewrite E. eauto.
  - intros s0 J0. destruct (W s0 J0) as (_ & _ & E & _). cbn. rewrite E. eauto.
  - eexists. exists s'. split; [exact E|]. split; [exact J'|].
    assert (L : length (concat rows) = length rows * f).
    { clear - Fr. induction Fr as [|r rows Lr _ IH]; [reflexivity|]. cbn [concat length]. rewrite app_length, IH, Lr. lia. }
    destruct (table_dataset (concat rows) (length rows) f ss ls Hf Hs L Sl Fl) as (E1 & E2 & E3). split; [split; assumption|].
    intros i Hi. destruct (E3 i Hi) as (Hin & Ei & El). split; [exact Hin|].
    rewrite (concat_blocks f rows i Fr Hin) in Ei, El.
    assert (Lr : length (nth i rows []) = f) by (rewrite Forall_forall in Fr; apply Fr, nth_In, Hin).
    exists (other_cols f ls). split; [apply sorted_filter, sorted_seq|]. split; [|split; [exact Ei|exact El]].
    intros c. unfold other_cols. rewrite filter_In, in_seq, Lr. unfold mem.
    split; [intros (A & B)|intros (A & B)].
    + split; [lia|]. intros Ic. apply negb_true_iff in B. assert (existsb (Nat.eqb c) ls = true); [|congruence]. apply existsb_exists. exists c. split; [exact Ic|apply Nat.eqb_refl].
    + split; [lia|]. apply negb_true_iff. destruct (existsb (Nat.eqb c) ls) eqn:Q; [|reflexivity]. apply existsb_exists in Q as (x & Ix & Ex). apply Nat.eqb_eq in Ex. subst. contradiction.
Qed.

Theorem c84_parse_one_hot : forall (P : sparser T S) I rows f off s ss order,
  let ls := seq off (f - off) in
  total_order -> presents P I rows f ls -> I s -> table rows f ls -> off <= f -> 0 < ss ->
  Permutation order [AData; AFeatures; ALabels] ->
  exists D s', parse P OneHotEncoding ss order s = Ok (D, s') /\ I s' /\ sizes D (length rows) ss /\
    forall i, i < ds_size D -> i < length rows /\ one_hot_example D rows ls off i.
Proof.
  intros P I rows f off s ss order ls O W J (Hf & Fr & Sl & Fl) Ho Hs Pm.
  set (p := mkDParser rows f ls). assert (OK : parser_ok p) by (split; [exact Fr|split; [exact Sl|exact Fl]]).
  destruct (c50_one_hot_partial p off O OK eq_refl Ho) as (es & data & Ef & El & Ed & Ld & Er).
  destruct (c50_one_hot_actual p O OK) as (es' & data' & Ef' & Ho' & _). rewrite Ef in Ef'. injection Ef' as <-.
  assert (Eo : dp_features p - length (dp_labels p) = off) by (cbn; unfold ls; rewrite seq_length; lia). rewrite Eo in Ho'.
  destruct (parse_any_order P I OneHotEncoding ss order s data es (seq off (es - off)) J Pm) as (s' & E & J').
  - intros s0 J0. rewrite <- Ed. now apply one_hot_data_agrees.
  - intros s0 J0. rewrite <- Ef. now apply one_hot_size_agrees.
  - intros s0 J0. rewrite <- El. now apply one_hot_labels_agrees.
  - eexists. exists s'. split; [exact E|]. split; [exact J'|].
    assert (Hlen : forall i, i < length rows -> length (firstn off (nth i rows [])) = off).
    { intros i Hi. rewrite firstn_length. rewrite Forall_forall in Fr. rewrite (Fr _ (nth_In _ [] Hi)). lia. }
    destruct (Nat.eq_dec (length rows) 0) as [Zr|Zr].
    { (* no entries *) cbn [dp_rows p length] in Ld. rewrite Zr, Nat.mul_0_r in Ld. apply length_zero_iff_nil in Ld. subst data.
      rewrite Zr. unfold sizes, ds_vec, ds_size. cbn [length ssize famount]. rewrite !Nat.min_0_r. cbn. repeat split; lia. }
    assert (Hr : 0 < length rows) by lia.
    assert (He : 0 < es).
    { destruct (Er 0 Hr) as (cs & Eb & F2). pose proof (f_equal (@length T) Eb) as Lb. unfold row_of in Lb. cbn [skipn Nat.mul] in Lb.
      rewrite firstn_length, app_length in Lb. cbn [dp_rows p] in Lb, Ld. rewrite (Hlen 0 Hr) in Lb.
      destruct (Nat.eq_dec off 0) as [Z|Z]; [|lia]. change (dp_labels p) with ls in F2.
      assert (El0 : ls = 0 :: seq 1 (f - 1)) by (unfold ls; rewrite Z, Nat.sub_0_r; destruct f; [lia|]; cbn; now rewrite Nat.sub_0_r).
      rewrite El0 in F2. destruct cs as [|w cs']; [inversion F2|]. assert (Hw := F2). inversion Hw as [|? ? ? ? Hw' _]; clear Hw. pose proof Hw' as Hw. destruct (c50_one_one _ _ _ O Hw) as (k & Hk & _). cbn [concat] in Lb. rewrite app_length in Lb. lia. }
    assert (Ld' : length data = length rows * es) by (rewrite Ld; cbn; lia).
    assert (S2 : StronglySorted lt (seq off (es - off))) by apply sorted_seq.
    assert (F2 : Forall (fun l => l < es) (seq off (es - off))) by (apply Forall_forall; intros x Hx; apply in_seq in Hx; lia).
    destruct (table_dataset data (length rows) es ss (seq off (es - off)) He Hs Ld' S2 F2) as (E1 & E2 & E3).
    split; [split; assumption|]. intros i Hi. destruct (E3 i Hi) as (Hin & Ein & Elb). split; [exact Hin|].
    destruct (Er i Hin) as (cs & Eb & Fc). cbn [dp_rows p] in Eb. change (row_of es i data) with (block es data i) in Eb.
    assert (Lb : length (block es data i) = es) by (unfold block; rewrite firstn_length, skipn_length; nia).
    assert (Lc : length (concat cs) = es - off) by (rewrite Eb, app_length, (Hlen i Hin) in Lb; lia).
    rewrite Eb in Ein, Elb. split.
    + rewrite Ein. f_equal.
      assert (OC : other_cols es (seq off (es - off)) = seq 0 off).
      { unfold other_cols. replace (seq 0 es) with (seq 0 off ++ seq off (es - off)) by (etransitivity; [symmetry; apply (seq_app off (es - off) 0)|]; now replace (off + (es - off)) with es by lia). rewrite filter_app.
        assert (M : forall x, mem x (seq off (es - off)) = (off <=? x) && (x <? es)).
        { intros x. unfold mem. apply Bool.eq_iff_eq_true. rewrite existsb_exists, andb_true_iff, Nat.leb_le, Nat.ltb_lt. split.
          - intros (y & Iy & Ey). apply Nat.eqb_eq in Ey. apply in_seq in Iy. lia.
          - intros B. exists x. split; [apply in_seq; lia|apply Nat.eqb_refl]. }
        assert (A1 : filter (fun i => negb (mem i (seq off (es - off)))) (seq 0 off) = seq 0 off).
        { assert (G : forall l, Forall (fun x => x < off) l -> filter (fun i => negb (mem i (seq off (es - off)))) l = l).
          { induction 1 as [|x l Hx _ IH]; [reflexivity|]. cbn [filter]. rewrite M. destruct (Nat.leb_spec off x); [lia|]. cbn. now rewrite IH. }
          apply G. apply Forall_forall. intros x Hx. apply in_seq in Hx. lia. }
        assert (A2 : filter (fun i => negb (mem i (seq off (es - off)))) (seq off (es - off)) = []).
        { assert (G : forall l, Forall (fun x => off <= x < es) l -> filter (fun i => negb (mem i (seq off (es - off)))) l = []).
          { induction 1 as [|x l Hx _ IH]; [reflexivity|]. cbn [filter]. rewrite M. destruct (Nat.leb_spec off x); [|lia]. destruct (Nat.ltb_spec x es); [|lia]. exact IH. }
          apply G. apply Forall_forall. intros x Hx. apply in_seq in Hx. lia. }
        rewrite A1, A2. apply app_nil_r. }
      rewrite OC. apply (list_ext_nth n0); [rewrite map_length, seq_length; symmetry; apply Hlen, Hin|].
      intros j Hj. rewrite map_length, seq_length in Hj.
      rewrite (nth_indep _ n0 (nth 0 (firstn off (nth i rows []) ++ concat cs) n0)) by (rewrite map_length, seq_length; lia).
      rewrite (map_nth (fun c => nth c (firstn off (nth i rows []) ++ concat cs) n0)), seq_nth by lia. apply app_nth1. rewrite (Hlen i Hin). exact Hj.
    + exists cs. split; [|exact Fc]. rewrite Elb. f_equal.
      apply (list_ext_nth n0); [rewrite map_length, seq_length; lia|].
      intros j Hj. rewrite map_length, seq_length in Hj.
      rewrite (nth_indep _ n0 (nth 0 (firstn off (nth i rows []) ++ concat cs) n0)) by (rewrite map_length, seq_length; lia).
      rewrite (map_nth (fun c => nth c (firstn off (nth i rows []) ++ concat cs) n0)), seq_nth by lia. rewrite app_nth2 by (rewrite (Hlen i Hin); lia). f_equal. rewrite (Hlen i Hin). lia.
Qed.
End Generic.

(** *** Labelled images *)
Section Images.
Context {T : Type} `{NumOps T}.
(** Example [i] of [n]: the image [x i], and its label [y i] or the code of the label among all
    labels. *)
Definition image_examples (D : DatasetModel.dataset T) (e : encoding) (n ss : nat) (x : nat -> list T) (y : nat -> T) : Prop :=
  sizes D n ss /\
  forall i, i < ds_size D -> i < n /\ ds_input n0 D i = Ok (x i) /\
    match e with
    | DefaultEncoding => ds_label n0 D i = Ok [y i]
    | OneHotEncoding => exists w, ds_label n0 D i = Ok w /\ is_code (map y (seq 0 n)) (y i) w
    end.

Lemma sorted_same (a : list nat) : forall b, StronglySorted lt a -> StronglySorted lt b -> (forall c, In c a <-> In c b) -> a = b.
Proof.
  induction a as [|x a IH]; intros [|y b] Sa Sb E; [reflexivity|destruct (proj2 (E y) (or_introl eq_refl))|destruct (proj1 (E x) (or_introl eq_refl))|].
  inversion Sa as [|? ? Sa' Fa]; inversion Sb as [|? ? Sb' Fb]; subst. rewrite Forall_forall in Fa, Fb.
  assert (x = y) as <-.
  { destruct (proj1 (E x) (or_introl eq_refl)) as [->|I1]; [reflexivity|]. destruct (proj2 (E y) (or_introl eq_refl)) as [->|I2]; [reflexivity|].
    specialize (Fa _ I2). specialize (Fb _ I1). lia. }
  f_equal. apply IH; auto. intros c. split; intros Ic.
  - destruct (proj1 (E c) (or_intror Ic)) as [<-|]; [specialize (Fa _ Ic); lia|assumption].
  - destruct (proj2 (E c) (or_intror Ic)) as [<-|]; [specialize (Fb _ Ic); lia|assumption].
Qed.
Lemma map_nth_seq (x z : list T) : map (fun c => nth c (x ++ z) n0) (seq 0 (length x)) = x.
Proof.
  apply (list_ext_nth n0); [now rewrite map_length, seq_length|]. intros j Hj. rewrite map_length, seq_length in Hj.
  rewrite (nth_indep _ n0 (nth 0 (x ++ z) n0)) by (rewrite map_length, seq_length; lia).
  rewrite (map_nth (fun c => nth c (x ++ z) n0)), seq_nth by lia. now apply app_nth1.
Qed.
Lemma default_last D (x : list T) y i : default_example D (x ++ [y]) [length x] i -> ds_input n0 D i = Ok x /\ ds_label n0 D i = Ok [y].
Proof.
  intros (cols & Sc & Ic & Ei & El). assert (cols = seq 0 (length x)) as ->.
  { apply sorted_same; [exact Sc|apply sorted_seq|]. intros c. rewrite Ic, in_seq, app_length. cbn. lia. }
  rewrite map_nth_seq in Ei. split; [exact Ei|]. rewrite El. cbn [map]. rewrite app_nth2, Nat.sub_diag by lia. reflexivity.
Qed.
Lemma one_hot_last D n (x : nat -> list T) y off i : (forall k, k < n -> length (x k) = off) -> i < n ->
  one_hot_example D (tab n (fun k => x k ++ [y k])) [off] off i ->
  ds_input n0 D i = Ok (x i) /\ exists w, ds_label n0 D i = Ok w /\ is_code (map y (seq 0 n)) (y i) w.
Proof.
  intros L Hi (Ei & cs & El & F). rewrite nth_tab in Ei, F by exact Hi. split.
  - rewrite Ei. rewrite <- (L i Hi), firstn_app, Nat.sub_diag, firstn_all. cbn [firstn]. now rewrite app_nil_r.
  - inversion F as [|? w ? cs' C F']; subst. inversion F'; subst. exists w. split; [rewrite El; cbn [concat]; now rewrite app_nil_r|].
    rewrite app_nth2, (L i Hi), Nat.sub_diag in C by (rewrite (L i Hi); lia). cbn [nth] in C.
    replace (map y (seq 0 n)) with (map (fun r => nth off r n0) (tab n (fun k => x k ++ [y k]))); [exact C|].
    unfold tab. rewrite map_map. apply map_ext_in. intros k Hk. apply in_seq in Hk. rewrite app_nth2, L, Nat.sub_diag by (rewrite ?L; lia). reflexivity.
Qed.
Lemma image_parse {S} (P : sparser T S) I n x y off s e ss order : total_order ->
  presents P I (tab n (fun k => x k ++ [y k])) (off + 1) [off] -> I s -> (forall k, k < n -> length (x k) = off) -> 0 < ss ->
  Permutation order [AData; AFeatures; ALabels] ->
  exists D s', parse P e ss order s = Ok (D, s') /\ I s' /\ image_examples D e n ss x y.
Proof.
  intros O W J L Hs Pm. set (rows := tab n (fun k => x k ++ [y k])) in *.
  assert (Lr : length rows = n) by apply tab_length.
  assert (Tb : table rows (off + 1) [off]).
  { split; [lia|]. split; [|split; repeat constructor; lia]. apply Forall_forall. intros r Hr. unfold rows, tab in Hr. apply in_map_iff in Hr as (k & <- & Hk).
    apply in_seq in Hk. rewrite app_length, L by lia. reflexivity. }
  destruct e.
  - destruct (c84_parse_default P I rows (off + 1) [off] s ss order W J Tb Hs Pm) as (D & s' & E & J' & Sz & Ex).
    exists D, s'. split; [exact E|]. split; [exact J'|]. rewrite Lr in *. split; [exact Sz|]. intros i Hi. destruct (Ex i Hi) as (Hin & Q). split; [exact Hin|].
    unfold rows in Q. rewrite nth_tab in Q by exact Hin. rewrite <- (L i Hin) in Q. now apply default_last in Q.
  - assert (Es : seq off (off + 1 - off) = [off]) by (replace (off + 1 - off) with 1 by lia; reflexivity).
    destruct (c84_parse_one_hot P I rows (off + 1) off s ss order O) as (D & s' & E & J' & Sz & Ex); rewrite ?Es; auto; [lia|].
    exists D, s'. split; [exact E|]. split; [exact J'|]. rewrite Lr in *. split; [exact Sz|]. intros i Hi. destruct (Ex i Hi) as (Hin & Q). split; [exact Hin|].
    rewrite Es in Q. now apply one_hot_last in Q.
Qed.

(** MNIST files with complete headers and items: every image with its label. *)
Theorem c84_mnist : forall (num : Z -> T) little img lab m e ss order, total_order ->
  mnist_new little (Some img) (Some lab) = Ok m -> 16 <= length img -> 8 <= length lab ->
  let size := be32 img 4 in
  (0 < size)%Z -> (16 + 784 * size <= Z.of_nat (length img))%Z -> (8 + size <= Z.of_nat (length lab))%Z ->
  0 < ss -> Permutation order [AData; AFeatures; ALabels] ->
  exists D m', parse (mnist_parser num) e ss order m = Ok (D, m') /\
    image_examples D e (Z.to_nat size) ss
      (fun k => map num (firstn 784 (skipn (16 + 784 * k) img))) (fun k => num (nth (8 + k) lab 0%Z)).
Proof.
  intros num little img lab m e ss order O E Hi Hl size Ps Li Ll Hs Pm.
  destruct (c51_accepts_partial little img lab Hi Hl) as (A1 & A2).
  assert (I0 : mnist_inv img lab m /\ m_size m = size).
  { revert E. unfold mnist_new, s_open. rewrite !read_uint32_ok by lia. cbn [bind Nat.add].
    rewrite !read_uint32_ok by lia. cbn [bind Nat.add]. rewrite !read_uint32_ok by lia. cbn [bind Nat.add]. rewrite !read_uint32_ok by lia. cbn [bind Nat.add].
    unfold guard. repeat match goal with |- context [if ?b then _ else _] => destruct b; cbn [bind]; [|discriminate] end.
    intros X. injection X as <-. split; [|reflexivity]. repeat split. }
  set (I := fun m => mnist_inv img lab m /\ m_size m = size).
  destruct (image_parse (mnist_parser num) I (Z.to_nat size) (fun k => map num (firstn 784 (skipn (16 + 784 * k) img))) (fun k => num (nth (8 + k) lab 0%Z)) 784 m e ss order O) as (D & m' & Ep & _ & X); auto.
  - intros m1 (J & Js). cbn [sp_amount sp_features sp_labels sp_entry mnist_parser]. rewrite tab_length, Js. repeat (split; [reflexivity|]).
    intros k Hk. unfold mnist_entry.
    destruct (mnist_image_ok img lab m1 (Z.of_nat k) J) as (m2 & E2 & J2 & S2); [lia..|]. rewrite E2. cbn [bind].
    destruct (mnist_label_ok img lab m2 (Z.of_nat k) J2) as (b & m3 & E3 & B3 & J3 & S3); [lia..|]. rewrite E3. cbn [bind].
    exists m3. split; [|split; [exact J3|congruence]]. rewrite nth_tab by exact Hk. do 2 f_equal.
    rewrite Js, (Z.mod_small (Z.of_nat k) size) by lia. rewrite S2, Js, (Z.mod_small (Z.of_nat k) size) in B3 by lia. unfold stored_image, stored_label in *. rewrite Nat2Z.id in *. rewrite map_app. f_equal. cbn [map]. do 2 f_equal.
    assert (Eb : nth 0 (firstn 1 (skipn (8 + k) lab)) 0%Z = b) by (rewrite B3; reflexivity). rewrite <- Eb.
    rewrite nth_firstn_lt by lia. rewrite nth_skipn_add. f_equal. lia.
  - intros k Hk. rewrite map_length, firstn_length, skipn_length. lia.
  - eauto.
Qed.

(** The pixels of an image in the chosen order *)
Definition pixels_of (o : order) (bytes out : list Z) : Prop :=
  length out = 3072 /\
  forall ch row col, ch < 3 -> row < 32 -> col < 32 ->
    nth (match o with ChnRowCol => ch * 1024 + row * 32 + col | RowColChn => (row * 32 + col) * 3 + ch end) out 0%Z =
    nth (ch * 1024 + row * 32 + col) bytes 0%Z.
Theorem c84_cifar : forall (num : Z -> T) file coarse o ds fine e ss order, total_order ->
  (ds = Cifar100 -> fine <> None) ->
  let w := label_bytes ds in
  (Z.of_nat (length file) >= 10000 * Z.of_nat (w + 3072))%Z ->
  0 < ss -> Permutation order [AData; AFeatures; ALabels] ->
  exists D c' x, parse (cifar_parser num) e ss order (cifar_new (Some file) coarse o ds fine) = Ok (D, c') /\
    image_examples D e (Z.to_nat 10000) ss (fun k => map num (x k)) (fun k => num (nth (k * (w + 3072) + w - 1) file 0%Z)) /\
    forall k, (Z.of_nat k < 10000)%Z -> pixels_of o (firstn 3072 (skipn (k * (w + 3072) + w) file)) (x k).
Proof.
  intros num file coarse o ds fine e ss order O Hf w Lf Hs Pm.
  assert (I0 : cifar_inv file o ds (cifar_new (Some file) coarse o ds fine)).
  { unfold cifar_new, cifar_inv. destruct fine as [f|], ds; cbn; repeat split; now specialize (Hf eq_refl). }
  set (bytes := fun k => firstn 3072 (skipn (k * (w + 3072) + w) file)).
  set (x := fun k => match cifar_data o (bytes k) with Ok d => d | _ => [] end).
  assert (Lb : forall k, (Z.of_nat k < 10000)%Z -> length (bytes k) = 3072).
  { intros k Hk. unfold bytes. rewrite firstn_length, skipn_length. nia. }
  assert (Hx : forall k, (Z.of_nat k < 10000)%Z -> cifar_data o (bytes k) = Ok (x k) /\ pixels_of o (bytes k) (x k)).
  { intros k Hk. unfold x. destruct o.
    - cbn [cifar_data]. split; [reflexivity|]. split; [now apply Lb|]. reflexivity.
    - destruct (c52_transposition (bytes k) (Lb k Hk)) as (out & Eo & L & Q). rewrite Eo. split; [reflexivity|]. split; [exact L|exact Q]. }
  remember (Z.to_nat 10000) as N eqn:EN. assert (HN : Z.of_nat N = 10000%Z) by (rewrite EN; now rewrite Z2Nat.id).
  destruct (image_parse (cifar_parser num) (cifar_inv file o ds) N (fun k => map num (x k)) (fun k => num (nth (k * (w + 3072) + w - 1) file 0%Z)) 3072
     (cifar_new (Some file) coarse o ds fine) e ss order O) as (D & c' & Ep & _ & X); auto.
  - intros c J. unfold cifar_parser. cbn [sp_amount sp_features sp_labels sp_entry]. rewrite tab_length. unfold cifar_size. rewrite <- EN. split; [reflexivity|]. split; [reflexivity|]. split; [reflexivity|].
    intros k Hk. unfold cifar_entry.
    destruct (cifar_image_ok file o ds c (Z.of_nat k) J) as (c1 & E1 & J1 & _); [exact Lf|]. rewrite E1.
    assert (Jo : f_order c1 = o) by apply J1. rewrite Jo. rewrite Z.mod_small by lia.
    destruct (skipn_crecord file w k) as (Er & _ & En); [nia|]. fold w. rewrite Er. fold (bytes k). rewrite (proj1 (Hx k ltac:(lia))). cbn [bind].
    destruct (cifar_label_ok file o ds c1 (Z.of_nat k) J1) as (a & b & c2 & E2 & Q & J2); [exact Lf|]. rewrite E2. cbn [bind].
    assert (Jd : f_dataset c2 = ds) by apply J2. rewrite Jd. exists c2. split; [|exact J2]. rewrite nth_tab by exact Hk. do 2 f_equal. rewrite map_app. f_equal. cbn [map]. do 2 f_equal.
    rewrite Z.mod_small in Q by lia. unfold rec_labels in Q. fold w in Q.
    destruct ds; injection Q as -> ->; rewrite En by (unfold w; cbn; lia); f_equal; unfold w; cbn [label_bytes]; lia.
  - intros k Hk. rewrite map_length. apply Hx. lia.
  - exists D, c', x. split; [exact Ep|]. split; [exact X|]. intros k Hk. apply Hx, Hk.
Qed.
End Images.

(** *** Tables in CSV files *)
Section Csv.
Context {T : Type} `{NumOps T}.
(** The values of a file with the lines [ps] (the last one after the last line end): every line
    but the first and the last, as many fields as the header has. *)
Definition csv_values (conv : chars -> res T) (sep : ascii) (ps : list chars) (rows : list (list T)) : Prop :=
  let cols := count sep (nth 0 ps []) + 1 in
  length rows + 2 = length ps /\ Forall (fun r => length r = cols) rows /\
  forall i, i < length rows -> exists qs, is_split sep (nth (i + 1) ps []) qs /\
    forall c, c < cols -> conv (nth c qs []) = Ok (nth c (nth i rows []) n0).

Lemma mapM_pointwise (conv : chars -> res T) : forall fs row, length fs = length row ->
  (forall c, c < length fs -> conv (nth c fs []) = Ok (nth c row n0)) -> mapM conv fs = Ok row.
Proof.
  induction fs as [|a fs IH]; intros [|b row] L Q; try discriminate; [reflexivity|]. cbn [mapM].
  pose proof (Q 0 ltac:(cbn; lia)) as Q0. cbn [nth] in Q0. rewrite Q0. cbn [bind]. rewrite (IH row); [reflexivity|cbn in L; lia|]. intros c Hc. apply (Q (Datatypes.S c)). cbn. lia.
Qed.
Lemma csv_presents conv file types sep labels ps rows : is_split nl file ps -> 3 <= length ps -> (Z.of_nat (length ps) < 2 ^ 64)%Z ->
  csv_values conv sep ps rows ->
  exists I, presents (csv_parser conv labels) I rows (count sep (nth 0 ps []) + 1) labels /\ I (csv_new file types sep).
Proof.
  intros Sp L3 L64 (Lr & Fr & Vr). destruct (new_inv file types sep ps Sp L3) as (ty & I0 & B & _). set (cols := count sep (nth 0 ps []) + 1) in *.
  exists (csv_inv ps cols sep ty). split; [|exact I0]. intros v J. cbn [sp_amount sp_features sp_labels sp_entry csv_parser].
  destruct J as (Rw & J2). assert (J : csv_inv ps cols sep ty v) by (split; assumption).
  split; [|split; [apply J2|split; [reflexivity|]]].
  - unfold csv_entries, wrap. rewrite Rw, Z.mod_small by lia. lia.
  - intros i Hi. unfold csv_entry. destruct (at_inv ps cols sep ty v (i + 1) J B) as (v' & E & J'). rewrite E. cbn [bind].
    rewrite Nat.mod_small by lia. destruct (Vr i Hi) as (qs & Sq & Q).
    assert (Lrow : length (nth i rows []) = cols) by (rewrite Forall_forall in Fr; apply Fr, nth_In, Hi).
    assert (M : mapM conv (row_fields (mkRow (nth (i + 1) ps []) (i + 1) cols sep)) = Ok (nth i rows [])).
    { assert (C : 0 < cols) by (unfold cols; lia).
      destruct (c47_vector_columns (nth (i + 1) ps []) (i + 1) cols [] sep qs 0 Sq C) as (Lf & _). cbn [row_new fst] in Lf.
      apply mapM_pointwise; [now rewrite Lf, Lrow|]. rewrite Lf. intros c Hc.
      destruct (c47_vector_columns (nth (i + 1) ps []) (i + 1) cols [] sep qs c Sq Hc) as (_ & Ec). cbn [row_new fst] in Ec. rewrite Ec. now apply Q. }
    rewrite M. cbn [bind]. eauto.
Qed.

Theorem c84_csv_default : forall conv file types sep labels ps rows ss order,
  is_split nl file ps -> 3 <= length ps -> (Z.of_nat (length ps) < 2 ^ 64)%Z -> csv_values conv sep ps rows ->
  StronglySorted lt labels -> Forall (fun l => l < count sep (nth 0 ps []) + 1) labels -> 0 < ss ->
  Permutation order [AData; AFeatures; ALabels] ->
  exists D v', parse (csv_parser conv labels) DefaultEncoding ss order (csv_new file types sep) = Ok (D, v') /\
    sizes D (length rows) ss /\ forall i, i < ds_size D -> i < length rows /\ default_example D (nth i rows []) labels i.
Proof.
  intros conv file types sep labels ps rows ss order Sp L3 L64 V Sl Fl Hs Pm.
  destruct (csv_presents conv file types sep labels ps rows Sp L3 L64 V) as (I & W & J).
  destruct (c84_parse_default _ I rows _ labels _ ss order W J) as (D & v' & E & _ & X); auto.
  - split; [lia|]. split; [apply V|]. split; assumption.
  - eauto.
Qed.
Theorem c84_csv_one_hot : forall conv file types sep ps rows off ss order, total_order ->
  is_split nl file ps -> 3 <= length ps -> (Z.of_nat (length ps) < 2 ^ 64)%Z -> csv_values conv sep ps rows ->
  let cols := count sep (nth 0 ps []) + 1 in
  off <= cols -> let labels := seq off (cols - off) in 0 < ss ->
  Permutation order [AData; AFeatures; ALabels] ->
  exists D v', parse (csv_parser conv labels) OneHotEncoding ss order (csv_new file types sep) = Ok (D, v') /\
    sizes D (length rows) ss /\ forall i, i < ds_size D -> i < length rows /\ one_hot_example D rows labels off i.
Proof.
  intros conv file types sep ps rows off ss order O Sp L3 L64 V cols Ho labels Hs Pm.
  destruct (csv_presents conv file types sep labels ps rows Sp L3 L64 V) as (I & W & J).
  destruct (c84_parse_one_hot _ I rows cols off _ ss order O W J) as (D & v' & E & _ & X); auto.
  - split; [unfold cols; lia|]. split; [apply V|]. split; [apply sorted_seq|]. apply Forall_forall. intros x Hx. apply in_seq in Hx. lia.
  - eauto.
Qed.
End Csv.

(** *** Files with fewer items than announced *)
Section Truncated.
Context {T : Type} `{NumOps T}.
Lemma read_image_failed n (st : stream Z) : s_fail st = true -> exists st', read_image n st = (repeat 0%Z n, st') /\ s_fail st' = true /\ s_data st' = s_data st.
Proof.
  intros F. unfold read_image, sread, good. rewrite F, andb_false_r. cbn [negb]. eexists. split; [cbn [length app]; rewrite Nat.sub_0_r; reflexivity|]. split; reflexivity.
Qed.
Lemma read_image_any n (st : stream Z) : exists d st', read_image n st = (d, st') /\ length d = n /\ s_data st' = s_data st /\
  (length (rest st) < n -> s_fail st' = true).
Proof.
  unfold read_image, sread. destruct (good st).
  - do 2 eexists. split; [reflexivity|]. rewrite app_length, repeat_length, firstn_length. split; [lia|]. split; [reflexivity|].
    intros L. cbn [s_fail]. replace (Nat.min n (length (rest st)) =? n) with false by (symmetry; apply Nat.eqb_neq; lia). reflexivity.
  - do 2 eexists. split; [reflexivity|]. cbn [app length]. rewrite repeat_length. split; [lia|]. split; reflexivity.
Qed.
Lemma seekg_any {A} p (st : stream A) : s_data (seekg p st) = s_data st /\ (s_fail st = true -> s_fail (seekg p st) = true) /\ (s_fail st = false -> seekg p st = mkS (s_data st) p false false).
Proof. unfold seekg. destruct (s_fail st) eqn:F; cbn; rewrite ?F; repeat split; congruence. Qed.

Lemma map_zeros (num : Z -> T) n : map num (repeat 0%Z n) = repeat (num 0%Z) n.
Proof. induction n as [|n IH]; [reflexivity|]. cbn [repeat map]. now rewrite IH. Qed.

(** The image file ends before the last announced image; the labels are complete. With the
    one-hot encoding every input is zero, those of the images that are stored too: the pass over
    the labels has left the stream failed. *)
Theorem c84_mnist_truncated : forall (num : Z -> T) little img lab m ss order, total_order ->
  mnist_new little (Some img) (Some lab) = Ok m -> 16 <= length img -> 8 <= length lab ->
  let size := be32 img 4 in
  (0 < size)%Z -> (Z.of_nat (length img) < 16 + 784 * size)%Z -> (8 + size <= Z.of_nat (length lab))%Z ->
  0 < ss -> Permutation order [AData; AFeatures; ALabels] ->
  exists D m', parse (mnist_parser num) OneHotEncoding ss order m = Ok (D, m') /\
    image_examples D OneHotEncoding (Z.to_nat size) ss
      (fun _ => repeat (num 0%Z) 784) (fun k => num (nth (8 + k) lab 0%Z)).
Proof.
  intros num little img lab m ss order O E Hi Hl size Ps Li Ll Hs Pm.
  assert (I0 : s_data (m_img m) = img /\ s_data (m_lab m) = lab /\ s_fail (m_lab m) = false /\ m_size m = size).
  { revert E. unfold mnist_new, s_open. rewrite !read_uint32_ok by lia. cbn [bind Nat.add].
    rewrite !read_uint32_ok by lia. cbn [bind Nat.add]. rewrite !read_uint32_ok by lia. cbn [bind Nat.add]. rewrite !read_uint32_ok by lia. cbn [bind Nat.add].
    unfold guard. repeat match goal with |- context [if ?b then _ else _] => destruct b; cbn [bind]; [|discriminate] end.
    intros X. injection X as <-. repeat split. }
  set (J := fun m => s_data (m_img m) = img /\ s_data (m_lab m) = lab /\ s_fail (m_lab m) = false /\ m_size m = size).
  set (F := fun m => J m /\ s_fail (m_img m) = true).
  set (n := Z.to_nat size). set (y := fun k => num (nth (8 + k) lab 0%Z)).
  assert (Entry : forall m1 k, J m1 -> k < n -> exists d m2, sp_entry (mnist_parser num) m1 k = Ok (d ++ [y k], m2) /\ length d = 784 /\ J m2 /\
     (s_fail (m_img m1) = true -> d = repeat (num 0%Z) 784 /\ s_fail (m_img m2) = true) /\ (k = n - 1 -> s_fail (m_img m2) = true)).
  { intros m1 k (J1 & J2 & J3 & J4) Hk. cbn [sp_entry mnist_parser]. unfold mnist_entry, mnist_image. rewrite J4.
    replace (size =? 0)%Z with false by (symmetry; apply Z.eqb_neq; lia). cbn [negb require bind]. rewrite Z.mod_small by lia.
    change (mnist_side * mnist_side) with 784. change (Z.of_nat mnist_side) with 28%Z.
    replace (Z.to_nat (16 + Z.of_nat k * 28 * 28)) with (16 + 784 * k) by lia.
    destruct (seekg_any (16 + 784 * k) (m_img m1)) as (S1 & S2 & S3).
    destruct (read_image_any 784 (seekg (16 + 784 * k) (m_img m1))) as (d & st' & Er & Ld & Dd & Fd). rewrite Er. cbn [bind].
    assert (Lm : mnist_inv (s_data st') lab (mkMnist (mkS (s_data st') 0 false false) (m_lab m1) size)) by (repeat split; assumption).
    assert (Elab : exists m2, mnist_label (mkMnist st' (m_lab m1) size) (Z.of_nat k) = Ok (nth (8 + k) lab 0%Z, Z.of_nat k, m2) /\ m_img m2 = st' /\ s_data (m_lab m2) = lab /\ s_fail (m_lab m2) = false /\ m_size m2 = size).
    { unfold mnist_label. cbn [m_size m_lab m_img]. replace (size =? 0)%Z with false by (symmetry; apply Z.eqb_neq; lia). cbn [negb require bind]. rewrite Z.mod_small by lia.
      rewrite seek_ok by exact J3. rewrite J2. replace (Z.to_nat (8 + Z.of_nat k)) with (8 + k) by lia.
      destruct (read_byte_ok lab (8 + k)) as (b & Eb & _ & ->); [lia|]. rewrite Eb. eexists. split; [reflexivity|]. repeat split. }
    destruct Elab as (m2 & El & M1 & M2 & M3 & M4). rewrite El. cbn [bind]. exists (map num d), m2. rewrite map_app. split; [reflexivity|].
    split; [now rewrite map_length|]. split; [unfold J; rewrite M1, Dd, S1; auto|]. rewrite M1. split.
    - intros Fl. destruct (read_image_failed 784 _ (S2 Fl)) as (st2 & E2 & F2 & _). rewrite Er in E2. apply pair_equal_spec in E2 as (-> & ->). split; [|exact F2].
      apply map_zeros.
    - intros ->. destruct (s_fail (m_img m1)) eqn:Fm.
      + destruct (read_image_failed 784 _ (S2 eq_refl)) as (st2 & E2 & F2 & _). rewrite Er in E2. apply pair_equal_spec in E2 as (_ & ->). exact F2.
      + apply Fd. rewrite (S3 eq_refl). unfold rest. cbn [s_data s_pos]. rewrite J1, skipn_length. lia. }
  set (rows := tab n (fun k => repeat (num 0%Z) 784 ++ [y k])).
  assert (Lr : length rows = n) by apply tab_length.
  assert (WF : presents (mnist_parser num) F rows 785 [784]).
  { intros m1 (J1 & F1). cbn [sp_amount sp_features sp_labels mnist_parser]. destruct J1 as (A & B & C & Sz). rewrite Sz, Lr. repeat (split; [reflexivity|]).
    intros i Hi2. destruct (Entry m1 i ltac:(repeat split; assumption) Hi2) as (d & m2 & E2 & _ & J2 & Q & _). destruct (Q F1) as (-> & F2).
    exists m2. rewrite E2. unfold rows. rewrite nth_tab by exact Hi2. split; [reflexivity|]. split; assumption. }
  assert (Uq : forall m1, J m1 -> agrees F (s_unique (mnist_parser num) 784 m1) (unique (mkDParser rows 785 [784]) 784)).
  { intros m1 J1. unfold s_unique, unique. cbn [dp_rows]. rewrite Lr.
    assert (Ea : sp_amount (mnist_parser num) m1 = n) by (cbn [sp_amount mnist_parser]; destruct J1 as (_ & _ & _ & ->); reflexivity). rewrite Ea.
    assert (G : forall q, q <= n -> exists m2, for_ q (fun i st => let '(ret, s) := st in '(row, s) <- sp_entry (mnist_parser num) s i ;; v <- rd row 784 ;; Ok (ret ++ [v], s)) ([], m1) = Ok (tab q y, m2) /\
        for_ q (fun i ret => row <- rd rows i ;; v <- rd row 784 ;; Ok (ret ++ [v])) [] = Ok (tab q y) /\ J m2 /\ (q = n -> s_fail (m_img m2) = true)).
    { induction q as [|q IH]; intros Hq.
      - exists m1. split; [reflexivity|]. split; [reflexivity|]. split; [exact J1|]. unfold n in *. lia.
      - destruct (IH ltac:(lia)) as (m2 & E1 & E2 & J2 & _). rewrite !for_S, E1, E2. cbn [bind].
        destruct (Entry m2 q J2 ltac:(lia)) as (d & m3 & E3 & Ld & J3 & _ & Fl). rewrite E3. cbn [bind].
        rewrite (rd_nth (d ++ [y q]) 784 n0) by (rewrite app_length, Ld; cbn; lia). rewrite (app_nth2 d), Ld, Nat.sub_diag by lia. cbn [bind nth].
        rewrite (rd_nth rows q []) by lia. unfold rows. rewrite nth_tab by lia. cbn [bind].
        rewrite (rd_nth _ 784 n0) by (rewrite app_length, repeat_length; cbn; lia). rewrite app_nth2, repeat_length, Nat.sub_diag by (rewrite repeat_length; lia). cbn [bind nth].
        exists m3. rewrite tab_S. split; [reflexivity|]. split; [reflexivity|]. split; [exact J3|]. intros Eq. apply Fl. lia. }
    destruct (G n (le_n n)) as (m2 & E1 & E2 & J2 & Fl). rewrite E1, E2. cbn [bind]. apply agrees_ret. split; [exact J2|now apply Fl]. }
  set (p := mkDParser rows 785 [784]) in *.
  assert (FJ : forall A (r : res (A * mnist)) q, agrees F r q -> agrees J r q).
  { intros A r [a| |]; cbn; auto. intros (s & Er & (Js & _)). eauto. }
  assert (OK : parser_ok p).
  { split; [|split; repeat constructor]. cbn [dp_rows dp_features p]. apply Forall_forall. intros r Hr. unfold rows, tab in Hr. apply in_map_iff in Hr as (k & <- & _). now rewrite app_length, repeat_length. }
  assert (Sz : forall m1, J m1 -> agrees F (s_feature_size (mnist_parser num) OneHotEncoding m1) (one_hot_feature_size p)).
  { intros m1 J1. unfold s_feature_size, one_hot_feature_size. cbn [sp_labels sp_features mnist_parser dp_labels dp_features p mnist_labels_idx foldM length].
    change (mnist_feature_size - 1) with 784. change (mnist_feature_size - 1) with (785 - 1).
    pose proof (Uq m1 J1) as U. destruct (unique p 784) as [u| |]; cbn [agrees] in U; cbn [bind]; [|now rewrite U..]. destruct U as (m2 & -> & F2). cbn [bind]. now apply agrees_ret. }
  destruct (c50_one_hot_actual p O OK) as (es & data & Ef & _ & El0 & Ed & _).
  assert (El : one_hot_labels p = Ok (seq 784 (es - 784))) by exact El0. clear El0.
  destruct (parse_any_order (mnist_parser num) J OneHotEncoding ss order m data es (seq 784 (es - 784)) I0 Pm) as (m' & Ep & _).
  - intros m1 J1. apply FJ. rewrite <- Ed. unfold s_data_to, data_one_hot. cbn [sp_labels mnist_parser dp_labels p]. unfold mnist_labels_idx. change (mnist_feature_size - 1) with 784.
    cbn [foldM]. unfold s_unique_map, unique_map. pose proof (Uq m1 J1) as U. cbn [sp_features dp_features dp_rows length]. change (mnist_feature_size - 1) with (785 - 1).
    destruct (unique p 784) as [u| |]; cbn [agrees] in U; cbn [bind]; [|now rewrite U..]. destruct U as (m2 & -> & F2). cbn [bind app].
    destruct (WF m2 F2) as (Ea & _). change (Z.to_nat (m_size m2)) with (sp_amount (mnist_parser num) m2). rewrite Ea.
    apply agrees_for; [exact F2|]. intros r a m3 Hr F3. unfold p. rewrite one_hot_row_eq.
    refine (agrees_bind F _ _ (fun row s => ret <- encode_row mnist_feature_size [784] _ _ r row a ;; Ok (ret, s)) _ _ _).
    + apply (entry_agrees _ _ _ _ _ WF); assumption.
    + intros row m4 F4. change mnist_feature_size with 785. cbn beta. destruct (encode_row _ _ _ _ _ _ _); cbn [bind agrees]; try reflexivity. exists m4. auto.
  - intros m1 J1. apply FJ. rewrite <- Ef. now apply Sz.
  - intros m1 J1. apply FJ. rewrite <- El. unfold s_labels_idx, one_hot_labels.
    pose proof (Sz m1 J1) as U. destruct (one_hot_feature_size p) as [u| |]; cbn [agrees] in U; cbn [bind]; [|now rewrite U..]. destruct U as (m2 & -> & F2). cbn [bind]. now apply agrees_ret.
  - eexists. exists m'. split; [exact Ep|].
    (* the same dataset as from an object whose stream has already failed *)
    set (mf := mkMnist (mkS img 0 false true) (mkS lab 0 false false) size).
    assert (Fm : F mf) by (repeat split).
    destruct (image_parse (mnist_parser num) F n (fun _ => repeat (num 0%Z) 784) y 784 mf OneHotEncoding ss order O) as (D & m2 & E2 & _ & X); auto.
    destruct (parse_any_order (mnist_parser num) F OneHotEncoding ss order mf data es (seq 784 (es - 784)) Fm Pm) as (m3 & E3 & _).
    { intros s Fs. rewrite <- Ed. now apply (one_hot_data_agrees _ _ _ _ _ WF). }
    { intros s Fs. rewrite <- Ef. now apply (one_hot_size_agrees _ _ _ _ _ WF). }
    { intros s Fs. rewrite <- El. now apply (one_hot_labels_agrees _ _ _ _ _ WF). }
    rewrite E2 in E3. injection E3 as <- _. exact X.
Qed.
End Truncated.

(** The inputs depend on the encoding of the labels: an image file of two announced images that
    ends after the first. *)
Definition be (n : Z) : list Z := [0; 0; n / 256; n mod 256]%Z.
Definition some_images (announced : Z) (images : list (list Z)) : list Z :=
  be 2051 ++ be announced ++ be 28 ++ be 28 ++ concat images.
Definition some_labels (labels : list Z) : list Z := be 2049 ++ be (Z.of_nat (length labels)) ++ labels.
Definition run_parse {S} (P : sparser Z S) (e : encoding) (s : S) (i : nat) : res (nat * list Z * list Z) :=
  '(D, _) <- parse P e 1 [AData; AFeatures; ALabels] s ;;
  x <- ds_input 0%Z D i ;; y <- ds_label 0%Z D i ;; Ok (ds_size D, x, y).
Theorem c84_mnist_encoding_refuted : exists img lab m image x,
  mnist_new true (Some img) (Some lab) = Ok m /\
  firstn 784 (skipn 16 img) = image /\ length image = 784 /\
  run_parse (mnist_parser (fun z => z)) DefaultEncoding m 0 = Ok (2, image, [3%Z]) /\
  run_parse (mnist_parser (fun z => z)) OneHotEncoding m 0 = Ok (2, x, [1%Z; 0%Z]) /\ image <> x.
Proof.
  exists (some_images 2 [repeat 7%Z 784]), (some_labels [3; 5]%Z). eexists. exists (repeat 7%Z 784), (repeat 0%Z 784).
  split; [vm_compute; reflexivity|]. split; [vm_compute; reflexivity|]. split; [reflexivity|].
  split; [vm_compute; reflexivity|]. split; [vm_compute; reflexivity|]. intros E. apply (f_equal (hd 1%Z)) in E. discriminate E.
Qed.

(** A CSV file in which every field can be converted but one, which is empty: undefined, whatever
    the conversion does with other texts. *)
Theorem c84_csv_blank_refuted : forall (conv : chars -> res Z), conv [] = UB ->
  exists file, count nl file = 3 /\
    forall e order, Permutation order [AData; AFeatures; ALabels] ->
    parse (csv_parser conv [1]) e 1 order (csv_new file [TypeModel.TAuto] ",") = UB.
Proof.
  intros conv B. exists (TypeModel.txt "a,b" ++ nl :: TypeModel.txt ",1" ++ nl :: TypeModel.txt "2,3" ++ [nl]). split; [reflexivity|].
  intros e order Pm. set (s := csv_new _ _ _).
  assert (En : sp_entry (csv_parser conv [1]) s 0 = UB).
  { cbn [sp_entry csv_parser]. replace (csv_entry s 0) with (Ok ([[]; TypeModel.txt "1"], s)) by (vm_compute; reflexivity). cbn [bind mapM]. rewrite B. reflexivity. }
  assert (Am : sp_amount (csv_parser conv [1]) s = 2) by (vm_compute; reflexivity).
  assert (First : forall X n (body : nat -> X -> res X) x, body 0 x = UB -> for_ (Datatypes.S n) body x = UB) by (intros X n body x E; unfold for_; cbn [for_from]; now rewrite E).
  assert (Uq : forall l, s_unique (csv_parser conv [1]) l s = UB).
  { intros l. unfold s_unique. rewrite Am. rewrite First; [reflexivity|]. now rewrite En. }
  assert (Ud : forall e, s_data_to (csv_parser conv [1]) e s = UB).
  { intros []; cbn [s_data_to].
    - rewrite Am. apply First. now rewrite En.
    - cbn [sp_labels csv_parser foldM]. unfold s_unique_map. change (mkSParser _ _ _ _) with (csv_parser conv [1]). now rewrite Uq. }
  assert (Uf : s_feature_size (csv_parser conv [1]) OneHotEncoding s = UB).
  { cbn [s_feature_size sp_labels csv_parser foldM]. change (mkSParser _ _ _ _) with (csv_parser conv [1]). now rewrite Uq. }
  assert (Ul : s_labels_idx (csv_parser conv [1]) OneHotEncoding s = UB) by (unfold s_labels_idx; now rewrite Uf).
  assert (G : forall order v, In AData order -> foldM (eval_arg (csv_parser conv [1]) e) order (v, s) = UB).
  { clear order Pm. induction order as [|a order IH]; intros v Ia; [destruct Ia|]. cbn [foldM]. destruct a, e; cbn [eval_arg].
    1, 2: rewrite Ud; reflexivity.
    - cbn [s_feature_size bind]. apply IH. destruct Ia as [Ia|Ia]; [discriminate|exact Ia].
    - rewrite Uf. reflexivity.
    - cbn [s_labels_idx bind]. apply IH. destruct Ia as [Ia|Ia]; [discriminate|exact Ia].
    - rewrite Ul. reflexivity. }
  unfold parse. rewrite G; [reflexivity|]. apply (Permutation_in _ (Permutation_sym Pm)). left. reflexivity.
Qed.
(** The line after the last line end is not an example. *)
Theorem c84_csv_last_line_refuted : exists file,
  run_parse (csv_parser DumpModel.read_int [1]) DefaultEncoding (csv_new file [TypeModel.TAuto] ",") 0 = Ok (1, [1%Z], [2%Z]) /\
  run_parse (csv_parser DumpModel.read_int [1]) DefaultEncoding (csv_new (file ++ [nl]) [TypeModel.TAuto] ",") 1 = Ok (2, [3%Z], [4%Z]).
Proof.
  exists (TypeModel.txt "a,b" ++ nl :: TypeModel.txt "1,2" ++ nl :: TypeModel.txt "3,4"). split; vm_compute; reflexivity.
Qed.

(** *** The hypotheses are met *)
Lemma total_order_Z : @total_order Z _.
Proof.
  split; [|split]; cbn [nltb NumZ]; intros; rewrite ?Z.ltb_irrefl; try reflexivity.
  - apply Z.ltb_lt in H, H0. apply Z.ltb_lt. lia.
  - apply Z.ltb_ge in H, H0. lia.
Qed.
Example c84_blank_converts : DumpModel.read_int [] = UB /\ forall fl, DumpModel.read_double fl (TypeModel.txt "  ") = UB.
Proof. split; reflexivity. Qed.
Example c84_mnist_met : exists img lab m,
  mnist_new true (Some img) (Some lab) = Ok m /\ 16 <= length img /\ 8 <= length lab /\ be32 img 4 = 2%Z /\
  (16 + 784 * be32 img 4 <= Z.of_nat (length img))%Z /\ (8 + be32 img 4 <= Z.of_nat (length lab))%Z /\
  run_parse (mnist_parser (fun z => z)) OneHotEncoding m 0 = Ok (2, repeat 7%Z 784, [0%Z; 1%Z]) /\
  run_parse (mnist_parser (fun z => z)) OneHotEncoding m 1 = Ok (2, repeat 9%Z 784, [1%Z; 0%Z]).
Proof.
  exists (some_images 2 [repeat 7%Z 784; repeat 9%Z 784]), (some_labels [5; 3]%Z). eexists. split; [vm_compute; reflexivity|].
  split; [apply Nat.leb_le; vm_compute; reflexivity|]. split; [apply Nat.leb_le; vm_compute; reflexivity|]. split; [vm_compute; reflexivity|].
  split; [apply Z.leb_le; vm_compute; reflexivity|]. split; [apply Z.leb_le; vm_compute; reflexivity|]. split; vm_compute; reflexivity.
Qed.
Example c84_mnist_truncated_met : exists img lab m,
  mnist_new true (Some img) (Some lab) = Ok m /\ 16 <= length img /\ (Z.of_nat (length img) < 16 + 784 * be32 img 4)%Z /\
  (8 + be32 img 4 <= Z.of_nat (length lab))%Z /\ (0 < be32 img 4)%Z.
Proof.
  exists (some_images 2 [repeat 7%Z 784]), (some_labels [5; 3]%Z). eexists. split; [vm_compute; reflexivity|].
  split; [apply Nat.leb_le; vm_compute; reflexivity|]. split; [apply Z.ltb_lt; vm_compute; reflexivity|]. split; [apply Z.leb_le; vm_compute; reflexivity|apply Z.ltb_lt; vm_compute; reflexivity].
Qed.
Example c84_cifar_met : exists file, (Z.of_nat (length file) >= 10000 * Z.of_nat (label_bytes Cifar100 + 3072))%Z /\ nth 1 file 0%Z = 4%Z.
Proof.
  exists (1%Z :: 4%Z :: repeat 5%Z (Z.to_nat (10000 * Z.of_nat (label_bytes Cifar100 + 3072)))). split; [|reflexivity].
  cbn [length]. rewrite repeat_length. rewrite !Nat2Z.inj_succ, Z2Nat.id; [lia|]. cbn [label_bytes]. lia.
Qed.
Example c84_csv_met :
  let ps := [TypeModel.txt "h,x,y"; TypeModel.txt "1,2,8"; TypeModel.txt "3,4,6,99"; TypeModel.txt "5,0,8"; []] in
  let rows := [[1; 2; 8]; [3; 4; 6]; [5; 0; 8]]%Z in
  is_split nl (join nl ps) ps /\ csv_values DumpModel.read_int "," ps rows /\
  run_parse (csv_parser DumpModel.read_int [0; 2]) DefaultEncoding (csv_new (join nl ps) [TypeModel.TAuto] ",") 1 = Ok (3, [4%Z], [3; 6]%Z) /\
  run_parse (csv_parser DumpModel.read_int [2]) OneHotEncoding (csv_new (join nl ps) [TypeModel.TAuto] ",") 2 = Ok (3, [5; 0]%Z, [0; 1]%Z).
Proof.
  cbn zeta. split; [|split; [|split; vm_compute; reflexivity]].
  - split; [discriminate|]. split; [reflexivity|]. repeat constructor; intros I; vm_compute in I; repeat destruct I as [I|I]; try discriminate; contradiction.
  - split; [reflexivity|]. split; [repeat constructor|].
    assert (Sp : forall a b c : ascii, a <> ","%char -> b <> ","%char -> c <> ","%char -> is_split "," [a; ","%char; b; ","%char; c] [[a]; [b]; [c]]).
    { intros a b c Ha Hb Hc. split; [discriminate|]. split; [reflexivity|]. repeat constructor; intros [I|[]]; auto. }
    intros i Hi. cbn in Hi. destruct i as [|[|[|i]]]; [| | |lia].
    + exists [TypeModel.txt "1"; TypeModel.txt "2"; TypeModel.txt "8"]. split; [apply Sp; discriminate|]. intros c Hc. destruct c as [|[|[|c]]]; [reflexivity..|cbn in Hc; lia].
    + exists [TypeModel.txt "3"; TypeModel.txt "4"; TypeModel.txt "6"; TypeModel.txt "99"]. split.
      * split; [discriminate|]. split; [reflexivity|]. repeat constructor; intros I; vm_compute in I; repeat destruct I as [I|I]; try discriminate; contradiction.
      * intros c Hc. destruct c as [|[|[|c]]]; [reflexivity..|cbn in Hc; lia].
    + exists [TypeModel.txt "5"; TypeModel.txt "0"; TypeModel.txt "8"]. split; [apply Sp; discriminate|]. intros c Hc. destruct c as [|[|[|c]]]; [reflexivity..|cbn in Hc; lia].
Qed.

Print Assumptions c84_parse_default.
Print Assumptions c84_parse_one_hot.
Print Assumptions c84_mnist.
Print Assumptions c84_cifar.
Print Assumptions c84_csv_default.
Print Assumptions c84_csv_one_hot.
Print Assumptions c84_mnist_truncated.
Print Assumptions c84_mnist_encoding_refuted.
Print Assumptions c84_csv_blank_refuted.
Print Assumptions c84_csv_last_line_refuted.
