(** C51 (MNIST files), C52 (CIFAR files), C53 (printing images). *)
From Verif Require Import Base StreamModel TypeModel CsvModel PropTypes PropCsv ImageModel.
From Coq Require Import Ascii String.
Local Open Scope list_scope.
Local Notation length := List.length. Local Notation concat := List.concat.

(** *** Streams of bytes *)
Lemma sread_ok {A} (d : list A) p n : p + n <= length d ->
  sread n (mkS d p false false) = (firstn n (skipn p d), mkS d (p + n) false false).
Proof.
  intros H. unfold sread, good, rest. cbn [s_eof s_fail s_data s_pos negb andb].
  assert (L : length (firstn n (skipn p d)) = n) by (rewrite firstn_length, skipn_length; lia).
  now rewrite L, Nat.eqb_refl.
Qed.
Lemma sread_short {A} (st : stream A) n : length (rest st) < n -> exists st', sread n st = (if good st then rest st else [], st') /\ s_fail st' = true.
Proof.
  intros H. unfold sread. destruct (good st); [|eexists; split; reflexivity].
  rewrite (firstn_all2 (rest st)) by lia. eexists. split; [reflexivity|]. cbn. now replace (length (rest st) =? n) with false by (symmetry; apply Nat.eqb_neq; lia).
Qed.
Lemma sread_failed {A} (st : stream A) n : s_fail st = true -> exists st', sread n st = ([], st') /\ s_fail st' = true.
Proof. intros F. unfold sread, good. rewrite F, andb_false_r. eexists. split; reflexivity. Qed.

(** *** MNIST *)
(** Specification: the big-endian number at a place of a file. *)
Definition be32 (file : list Z) (p : nat) : Z :=
  (((nth p file 0 * 256 + nth (p + 1) file 0) * 256 + nth (p + 2) file 0) * 256 + nth (p + 3) file 0)%Z.

Lemma read_uint32_ok little (d : list Z) p : p + 4 <= length d ->
  read_uint32 little (mkS d p false false) = Ok (be32 d p, mkS d (p + 4) false false).
Proof.
  intros H. unfold read_uint32. rewrite sread_ok by exact H.
  assert (E : firstn 4 (skipn p d) = [nth p d 0; nth (p + 1) d 0; nth (p + 2) d 0; nth (p + 3) d 0]%Z).
  { apply (list_ext_nth 0%Z); [rewrite firstn_length, skipn_length; change (length [nth p d 0; nth (p + 1) d 0; nth (p + 2) d 0; nth (p + 3) d 0]%Z) with 4; lia|]. intros i Hi. rewrite firstn_length, skipn_length in Hi.
    rewrite nth_firstn_lt by lia. rewrite nth_skipn_add. destruct i as [|[|[|[|i]]]]; cbn [nth]; try lia; f_equal; lia. }
  rewrite E. clear E. unfold be32. generalize (nth p d 0%Z) (nth (p + 1) d 0%Z) (nth (p + 2) d 0%Z) (nth (p + 3) d 0%Z). intros a b c e.
  cbn [length Nat.eqb require bind]. destruct little; unfold endian_order, swap, rd, wr, uint_of, uint_le; cbn -[Z.add Z.mul];
    (f_equal; f_equal; ring).
Qed.
Lemma read_uint32_short little (st : stream Z) : length (rest st) < 4 -> read_uint32 little st = UB.
Proof.
  intros H. unfold read_uint32. destruct (sread_short st 4 H) as (st' & -> & _).
  replace (length _ =? 4) with false; [reflexivity|]. symmetry. apply Nat.eqb_neq. destruct (good st); cbn [length]; lia.
Qed.

Definition well_formed (img lab : list Z) : Prop :=
  be32 img 0 = 2051%Z /\ be32 lab 0 = 2049%Z /\ be32 img 4 = be32 lab 4 /\ be32 img 8 = 28%Z /\ be32 img 12 = 28%Z.

(** With complete headers: accepted exactly when they are well formed, on machines of either
    byte order; otherwise an exception. *)
Theorem c51_accepts_partial : forall little img lab, 16 <= length img -> 8 <= length lab ->
  (well_formed img lab -> exists m, mnist_new little (Some img) (Some lab) = Ok m /\ m_size m = be32 img 4) /\
  (~ well_formed img lab -> mnist_new little (Some img) (Some lab) = Throw).
Proof.
  intros little img lab Hi Hl. unfold mnist_new, s_open. rewrite !read_uint32_ok by lia. cbn [bind Nat.add].
  rewrite !read_uint32_ok by lia. cbn [bind Nat.add]. rewrite !read_uint32_ok by lia. cbn [bind Nat.add]. rewrite !read_uint32_ok by lia. cbn [bind Nat.add].
  unfold well_formed, guard, image_magic, label_magic. change (Z.of_nat mnist_side) with 28%Z.
  destruct (Z.eqb_spec (be32 img 0) 2051), (Z.eqb_spec (be32 lab 0) 2049), (Z.eqb_spec (be32 lab 4) (be32 img 4)), (Z.eqb_spec (be32 img 8) 28), (Z.eqb_spec (be32 img 12) 28); cbn [bind andb];
    (split; [intros (A & B & C & D & E)|intros N]); try congruence; try reflexivity; try (exfalso; apply N; repeat split; congruence).
  eexists. split; reflexivity.
Qed.
Theorem c51_not_opened : forall little img lab, mnist_new little None lab = Throw /\ mnist_new little img None = Throw.
Proof. intros little [img|] [lab|]; split; reflexivity. Qed.
(** Fewer than four bytes: the number that is compared is not initialised. *)
Theorem c51_short_header_refuted : forall little img lab, length img < 4 -> mnist_new little (Some img) (Some lab) = UB.
Proof. intros little img lab H. unfold mnist_new. now rewrite read_uint32_short by exact H. Qed.

(** Sequences of accesses *)
Inductive access := AImage (i : Z) | ALabel (i : Z) | AEntry (i : Z).
Definition a_idx (a : access) : Z := match a with AImage i | ALabel i | AEntry i => i end.
Definition mnist_access (m : mnist) (a : access) : res (list Z * mnist) :=
  match a with
  | AImage i => '(d, _, m) <- mnist_image m i ;; Ok (d, m)
  | ALabel i => '(b, _, m) <- mnist_label m i ;; Ok ([b], m)
  | AEntry i => mnist_entry m i
  end.
Fixpoint mnist_run (m : mnist) (l : list access) : res (list (list Z)) :=
  match l with [] => Ok [] | a :: l => '(d, m) <- mnist_access m a ;; ds <- mnist_run m l ;; Ok (d :: ds) end.
(** Specification: where item [k] is stored. *)
Definition stored_image (img : list Z) (k : Z) : list Z := firstn 784 (skipn (16 + 784 * Z.to_nat k) img).
Definition stored_label (lab : list Z) (k : Z) : list Z := firstn 1 (skipn (8 + Z.to_nat k) lab).
Definition stored (img lab : list Z) (size : Z) (a : access) : list Z :=
  match a with
  | AImage i => stored_image img (i mod size)
  | ALabel i => stored_label lab (i mod size)
  | AEntry i => stored_image img (i mod size) ++ stored_label lab (i mod size)
  end.

Definition mnist_inv (img lab : list Z) (m : mnist) : Prop :=
  s_data (m_img m) = img /\ s_fail (m_img m) = false /\ s_data (m_lab m) = lab /\ s_fail (m_lab m) = false.
Lemma seek_ok {A} (st : stream A) p : s_fail st = false -> seekg p st = mkS (s_data st) p false false.
Proof. intros F. unfold seekg. now rewrite F. Qed.
Lemma read_image_ok (d : list Z) p n : p + n <= length d ->
  read_image n (mkS d p false false) = (firstn n (skipn p d), mkS d (p + n) false false).
Proof.
  intros H. unfold read_image. rewrite sread_ok by exact H. rewrite firstn_length, skipn_length.
  replace (n - Nat.min n (length d - p)) with 0 by lia. cbn [repeat]. now rewrite app_nil_r.
Qed.
Lemma read_byte_ok (d : list Z) p : p + 1 <= length d ->
  exists b, read_byte (mkS d p false false) = (b, mkS d (p + 1) false false) /\ firstn 1 (skipn p d) = [b] /\ b = nth p d 0%Z.
Proof.
  intros H. unfold read_byte. rewrite sread_ok by exact H. exists (nth p d 0%Z). rewrite (skipn_cons d p 0%Z) by lia. cbn. auto.
Qed.
Lemma mnist_image_ok img lab m i : mnist_inv img lab m -> (0 < m_size m)%Z -> (16 + 784 * m_size m <= Z.of_nat (length img))%Z ->
  exists m', mnist_image m i = Ok (stored_image img (i mod m_size m), (i mod m_size m)%Z, m') /\ mnist_inv img lab m' /\ m_size m' = m_size m.
Proof.
  intros (D & F & D' & F') P L. unfold mnist_image. replace (m_size m =? 0)%Z with false by (symmetry; apply Z.eqb_neq; lia). cbn [negb require bind].
  pose proof (Z.mod_pos_bound i (m_size m) P) as B. rewrite seek_ok by exact F. rewrite D.
  change (mnist_side * mnist_side) with 784. change (Z.of_nat mnist_side) with 28%Z.
  assert (Ep : Z.to_nat (16 + i mod m_size m * 28 * 28) = 16 + 784 * Z.to_nat (i mod m_size m)) by lia. rewrite Ep.
  rewrite read_image_ok by lia. eexists. split; [reflexivity|]. split; [|reflexivity]. split; [reflexivity|]. split; [reflexivity|]. split; [exact D'|exact F'].
Qed.
Lemma mnist_label_ok img lab m i : mnist_inv img lab m -> (0 < m_size m)%Z -> (8 + m_size m <= Z.of_nat (length lab))%Z ->
  exists b m', mnist_label m i = Ok (b, (i mod m_size m)%Z, m') /\ stored_label lab (i mod m_size m) = [b] /\ mnist_inv img lab m' /\ m_size m' = m_size m.
Proof.
  intros (D & F & D' & F') P L. unfold mnist_label. replace (m_size m =? 0)%Z with false by (symmetry; apply Z.eqb_neq; lia). cbn [negb require bind].
  pose proof (Z.mod_pos_bound i (m_size m) P) as B. rewrite seek_ok by exact F'. rewrite D'.
  assert (Ep : Z.to_nat (8 + i mod m_size m) = 8 + Z.to_nat (i mod m_size m)) by lia. rewrite Ep.
  destruct (read_byte_ok lab (8 + Z.to_nat (i mod m_size m))) as (b & E & E2 & _); [lia|]. rewrite E. exists b. eexists. split; [reflexivity|].
  split; [exact E2|]. split; [|reflexivity]. split; [exact D|]. split; [exact F|]. split; reflexivity.
Qed.

(** Files that hold all announced items: every access, in any order, gives the stored bytes. *)
Theorem c51_accesses : forall little img lab m accesses,
  mnist_new little (Some img) (Some lab) = Ok m -> 16 <= length img -> 8 <= length lab ->
  let size := be32 img 4 in
  (0 < size)%Z -> (16 + 784 * size <= Z.of_nat (length img))%Z -> (8 + size <= Z.of_nat (length lab))%Z ->
  mnist_run m accesses = Ok (map (stored img lab size) accesses).
Proof.
  intros little img lab m accesses E Hi Hl size P Li Ll.
  assert (Es : mnist_inv img lab m /\ m_size m = size).
  { revert E. unfold mnist_new, s_open. rewrite !read_uint32_ok by lia. cbn [bind Nat.add].
    rewrite !read_uint32_ok by lia. cbn [bind Nat.add]. rewrite !read_uint32_ok by lia. cbn [bind Nat.add]. rewrite !read_uint32_ok by lia. cbn [bind Nat.add].
    unfold guard. repeat (match goal with |- context [if ?b then _ else _] => destruct b end; cbn [bind]; [|discriminate]). intros E. injection E as <-. repeat split. }
  clear E. destruct Es as (I & Es). revert m I Es. induction accesses as [|a l IH]; intros m I Es; [reflexivity|]. cbn [mnist_run map].
  assert (A : exists m', mnist_access m a = Ok (stored img lab size a, m') /\ mnist_inv img lab m' /\ m_size m' = size).
  { rewrite <- Es in P, Li, Ll. destruct a as [i|i|i]; cbn [mnist_access stored].
    - destruct (mnist_image_ok img lab m i I P Li) as (m' & -> & I' & S'). cbn [bind]. rewrite Es. exists m'. split; [reflexivity|]. split; [exact I'|congruence].
    - destruct (mnist_label_ok img lab m i I P Ll) as (b & m' & -> & Eb & I' & S'). cbn [bind]. rewrite <- Es, Eb. exists m'. split; [reflexivity|]. split; [exact I'|congruence].
    - unfold mnist_entry. destruct (mnist_image_ok img lab m i I P Li) as (m1 & -> & I1 & S1). cbn [bind]. rewrite <- S1 in P, Ll.
      destruct (mnist_label_ok img lab m1 i I1 P Ll) as (b & m' & -> & Eb & I' & S'). cbn [bind]. rewrite S1 in Eb. rewrite <- Es, Eb. exists m'. split; [reflexivity|]. split; [exact I'|congruence]. }
  destruct A as (m' & -> & I' & S'). cbn [bind]. rewrite (IH m' I' S'). reflexivity.
Qed.
(** Shape of an entry: 784 pixels, then the label, at the announced index. *)
Theorem c51_entry_shape : forall img lab size i, (0 < size)%Z ->
  (16 + 784 * size <= Z.of_nat (length img))%Z -> (8 + size <= Z.of_nat (length lab))%Z ->
  length (stored img lab size (AEntry i)) = mnist_feature_size /\
  map (fun k => nth k (stored img lab size (AEntry i)) 0%Z) mnist_labels_idx = stored img lab size (ALabel i).
Proof.
  intros img lab size i P Li Ll. cbn [stored]. pose proof (Z.mod_pos_bound i size P) as B.
  assert (L1 : length (stored_image img (i mod size)) = 784) by (unfold stored_image; rewrite firstn_length, skipn_length; lia).
  assert (L2 : length (stored_label lab (i mod size)) = 1) by (unfold stored_label; rewrite firstn_length, skipn_length; lia).
  split; [rewrite app_length, L1, L2; reflexivity|]. unfold mnist_labels_idx. change (mnist_feature_size - 1) with 784. cbn [map].
  rewrite app_nth2 by lia. rewrite L1. destruct (stored_label lab (i mod size)) as [|b [|]]; try discriminate. reflexivity.
Qed.
(** No items: the index is reduced modulo zero. *)
Theorem c51_no_items : forall m i, m_size m = 0%Z -> mnist_image m i = UB /\ mnist_label m i = UB.
Proof. intros m i E. unfold mnist_image, mnist_label. rewrite E. split; reflexivity. Qed.
(** A file with fewer items than announced: after one access beyond its end, all images are
    zero, also those that are stored. *)
Theorem c51_short_file : forall m i m' d k, mnist_image m i = Ok (d, k, m') ->
  (Z.of_nat (length (s_data (m_img m))) < 16 + 784 * (i mod m_size m + 1))%Z -> (0 < m_size m)%Z ->
  forall j, exists m'', mnist_image m' j = Ok (repeat 0%Z 784, (j mod m_size m)%Z, m'').
Proof.
  intros m i m' d k E L P j. revert E. unfold mnist_image. replace (m_size m =? 0)%Z with false by (symmetry; apply Z.eqb_neq; lia). cbn [negb require bind].
  pose proof (Z.mod_pos_bound i (m_size m) P) as B. change (mnist_side * mnist_side) with 784. change (Z.of_nat mnist_side) with 28%Z.
  set (st := seekg _ (m_img m)). unfold read_image.
  assert (Q : exists g st', sread 784 st = (g, st') /\ s_fail st' = true).
  { unfold st, seekg. destruct (s_fail (m_img m)) eqn:F.
    - destruct (sread_failed (mkS (s_data (m_img m)) (s_pos (m_img m)) false true) 784 eq_refl) as (st' & -> & F'). eauto.
    - match goal with |- context [sread 784 ?s] => destruct (sread_short s 784) as (st' & -> & F') end; [|eauto].
      unfold rest. cbn [s_pos s_data]. rewrite skipn_length. lia. }
  destruct Q as (g & st' & -> & F). intros E. injection E as _ _ <-. cbn [m_size]. replace (m_size m =? 0)%Z with false by (symmetry; apply Z.eqb_neq; lia). cbn [negb require bind m_img m_lab].
  unfold seekg. rewrite F. match goal with |- context [sread 784 ?s] => destruct (sread_failed s 784 eq_refl) as (st2 & -> & _) end.
  eexists. reflexivity.
Qed.

(** *** CIFAR *)
Lemma cifar_pixel_bound n i j c : i < n -> j < n -> c < 3 -> (i * n + j) * 3 + c < n * n * 3.
Proof. intros. assert (i * n + j < n * n) by nia. lia. Qed.

(** data() in row-column-channel order *)
Theorem c52_transposition : forall image, length image = 3072 ->
  exists out, cifar_data RowColChn image = Ok out /\ length out = 3072 /\
    forall ch row col, ch < 3 -> row < 32 -> col < 32 ->
      nth ((row * 32 + col) * 3 + ch) out 0%Z = nth (ch * 1024 + row * 32 + col) image 0%Z.
Proof.
  intros image L. unfold cifar_data. rewrite L.
  rewrite for_nested.
  set (v := fun q => nth (q mod 3 * 1024 + q / 3) image 0%Z).
  destruct (for_inv (fun k d => length d = 3072 /\ forall p, p < k * 3 -> nth p d 0%Z = v p) (cifar_side * cifar_side)
    (fun q ret =>
          x <- rd image (q / cifar_side * cifar_side + q mod cifar_side) ;;
          ret <- wr ret (q / cifar_side * cifar_side * cifar_channels + q mod cifar_side * cifar_channels) x ;;
          x <- rd image (cifar_side * cifar_side + q / cifar_side * cifar_side + q mod cifar_side) ;;
          ret <- wr ret (q / cifar_side * cifar_side * cifar_channels + q mod cifar_side * cifar_channels + 1) x ;;
          x <- rd image (2 * cifar_side * cifar_side + q / cifar_side * cifar_side + q mod cifar_side) ;;
          wr ret (q / cifar_side * cifar_side * cifar_channels + q mod cifar_side * cifar_channels + 2) x)
    (repeat 0%Z 3072)) as (out & E & Lo & I).
  - split; [apply repeat_length|]. intros; lia.
  - intros q d Hq (Ld & Id). change cifar_side with 32 in *. change cifar_channels with 3. change (32 * 32) with 1024 in *.
    pose proof (Nat.div_mod q 32 ltac:(lia)) as Dm.
    replace (q / 32 * 32 + q mod 32) with q by lia. replace (q / 32 * 32 * 3 + q mod 32 * 3) with (q * 3) by lia.
    replace (1024 + q / 32 * 32 + q mod 32) with (1024 + q) by lia. replace (2 * 32 * 32 + q / 32 * 32 + q mod 32) with (2048 + q) by lia.
    rewrite !(rd_nth image _ 0%Z) by lia. cbn [bind].
    rewrite wr_ok by lia. cbn [bind]. rewrite wr_ok by (rewrite upd_length; lia). cbn [bind]. rewrite wr_ok by (rewrite !upd_length; lia).
    eexists. split; [reflexivity|]. split; [now rewrite !upd_length|]. intros p Hp.
    assert (C : p < q * 3 \/ p = q * 3 + 2 \/ p = q * 3 + 1 \/ p = q * 3) by lia.
    assert (V : forall c, c < 3 -> v (q * 3 + c) = nth (c * 1024 + q) image 0%Z).
    { intros c Hc. unfold v. destruct (divmod_unique 3 q c Hc) as (-> & ->). reflexivity. }
    destruct C as [C|[C|[C|C]]].
    + rewrite !nth_upd_neq by lia. apply Id. lia.
    + subst p. rewrite nth_upd_eq by (rewrite !upd_length; lia). now rewrite V by lia.
    + subst p. rewrite nth_upd_neq, nth_upd_eq by (rewrite ?upd_length; lia). now rewrite V by lia.
    + subst p. rewrite !nth_upd_neq, nth_upd_eq by (rewrite ?upd_length; lia). replace (q * 3) with (q * 3 + 0) by lia. now rewrite V by lia.
  - exists out. split; [exact E|]. split; [exact Lo|]. intros ch row col Hc Hr Hl. rewrite I by (change (cifar_side * cifar_side) with 1024; lia).
    unfold v. destruct (divmod_unique 3 (row * 32 + col) ch Hc) as (-> & ->). f_equal. lia.
Qed.
(** Nothing is lost. *)
Theorem c52_lossless : forall a b, length a = 3072 -> length b = 3072 -> cifar_data RowColChn a = cifar_data RowColChn b -> a = b.
Proof.
  intros a b La Lb E. destruct (c52_transposition a La) as (oa & Ea & _ & Ia). destruct (c52_transposition b Lb) as (ob & Eb & _ & Ib).
  rewrite Ea, Eb in E. injection E as <-. apply (list_ext_nth 0%Z); [congruence|]. intros p Hp.
  assert (D1 := Nat.div_mod p 1024 ltac:(lia)). assert (D2 := Nat.div_mod (p mod 1024) 32 ltac:(lia)).
  assert (p / 1024 < 3) by (apply Nat.div_lt_upper_bound; lia). assert (p mod 1024 < 1024) by (apply Nat.mod_upper_bound; lia).
  assert (p mod 1024 / 32 < 32) by (apply Nat.div_lt_upper_bound; lia). assert (p mod 1024 mod 32 < 32) by (apply Nat.mod_upper_bound; lia).
  replace p with (p / 1024 * 1024 + p mod 1024 / 32 * 32 + p mod 1024 mod 32) by lia. rewrite <- Ia, <- Ib by lia. reflexivity.
Qed.
Theorem c52_plain_order : forall image, cifar_data ChnRowCol image = Ok image.
Proof. reflexivity. Qed.

(** Sequences of accesses; an image is its bytes as stored in the object *)
Inductive caccess := CImage (i : Z) | CLabel (i : Z) | CEntry (i : Z).
Definition cifar_access (c : cifar) (a : caccess) : res (list Z * cifar) :=
  match a with
  | CImage i => let '(d, _, c) := cifar_image c i in Ok (d, c)
  | CLabel i => let '(coarse, fine, _, c) := cifar_label c i in Ok ([coarse; fine], c)
  | CEntry i => cifar_entry c i
  end.
Fixpoint cifar_run (c : cifar) (l : list caccess) : res (list (list Z)) :=
  match l with [] => Ok [] | a :: l => '(d, c) <- cifar_access c a ;; ds <- cifar_run c l ;; Ok (d :: ds) end.
(** Specification: record [k] of the file: [off] label bytes (the last is the class: the fine
    label of CIFAR-100), then 3072 image bytes. *)
Definition crecord (file : list Z) (off : nat) (k : Z) : list Z :=
  firstn (off + 3072) (skipn (Z.to_nat k * (off + 3072)) file).
Definition rec_image (off : nat) (r : list Z) : list Z := skipn off r.
Definition rec_labels (ds : dataset) (r : list Z) : list Z :=
  match ds with Cifar10 => [nth 0 r 0%Z; 0%Z] | Cifar100 => [nth 0 r 0%Z; nth 1 r 0%Z] end.
Definition label_bytes (ds : dataset) : nat := match ds with Cifar10 => 1 | Cifar100 => 2 end.
Definition cifar_stored (file : list Z) (o : order) (ds : dataset) (a : caccess) (out : list Z) : Prop :=
  let r i := crecord file (label_bytes ds) (i mod 10000) in
  match a with
  | CImage i => out = rec_image (label_bytes ds) (r i)
  | CLabel i => out = rec_labels ds (r i)
  | CEntry i => exists d, cifar_data o (rec_image (label_bytes ds) (r i)) = Ok d /\ out = d ++ [nth (label_bytes ds - 1) (r i) 0%Z]
  end.

Lemma skipn_crecord file off k : (Z.of_nat (length file) >= (Z.of_nat k + 1) * Z.of_nat (off + 3072))%Z ->
  rec_image off (crecord file off (Z.of_nat k)) = firstn 3072 (skipn (k * (off + 3072) + off) file) /\
  length (rec_image off (crecord file off (Z.of_nat k))) = 3072 /\
  forall j, j < off -> nth j (crecord file off (Z.of_nat k)) 0%Z = nth (k * (off + 3072) + j) file 0%Z.
Proof.
  intros H. unfold rec_image, crecord. rewrite Nat2Z.id.
  assert (B : k * (off + 3072) + off + 3072 <= length file) by nia. split; [|split].
  - apply (list_ext_nth 0%Z).
    + rewrite skipn_length, !firstn_length, !skipn_length. lia.
    + intros j Hj. rewrite skipn_length, firstn_length, skipn_length in Hj. rewrite nth_skipn_add. rewrite !nth_firstn_lt by lia. rewrite !nth_skipn_add. f_equal. lia.
  - rewrite skipn_length, firstn_length, skipn_length. lia.
  - intros j Hj. rewrite nth_firstn_lt by lia. now rewrite nth_skipn_add.
Qed.

Definition cifar_inv (file : list Z) (o : order) (ds : dataset) (c : cifar) : Prop :=
  s_data (f_batch c) = file /\ s_fail (f_batch c) = false /\ f_order c = o /\ f_dataset c = ds /\ f_label_offset c = label_bytes ds.
Lemma cifar_image_ok file o ds c i : cifar_inv file o ds c -> (Z.of_nat (length file) >= 10000 * Z.of_nat (label_bytes ds + 3072))%Z ->
  exists c', cifar_image c i = (rec_image (label_bytes ds) (crecord file (label_bytes ds) (i mod 10000)), (i mod 10000)%Z, c') /\ cifar_inv file o ds c' /\
    length (rec_image (label_bytes ds) (crecord file (label_bytes ds) (i mod 10000))) = 3072.
Proof.
  intros (D & F & Eo & Ed & El) L. unfold cifar_image, cifar_size. pose proof (Z.mod_pos_bound i 10000 ltac:(lia)) as B. rewrite seek_ok by exact F. rewrite D, El.
  rewrite <- (Z2Nat.id (i mod 10000)) by lia. set (k := Z.to_nat (i mod 10000)) in *. change cifar_pixels with 3072.
  assert (Kb : (Z.of_nat k < 10000)%Z) by lia.
  assert (L2 : (Z.of_nat (length file) >= (Z.of_nat k + 1) * Z.of_nat (label_bytes ds + 3072))%Z) by nia.
  destruct (skipn_crecord file (label_bytes ds) k L2) as (E1 & E2 & _). rewrite E2, E1.
  set (p := Z.to_nat _). assert (Ep : p = k * (label_bytes ds + 3072) + label_bytes ds) by (unfold p; nia).
  rewrite Ep. rewrite read_image_ok by (destruct ds; cbn [label_bytes] in *; nia). eexists. split; [reflexivity|]. split; [|reflexivity]. repeat split; assumption.
Qed.
Lemma cifar_label_ok file o ds c i : cifar_inv file o ds c -> (Z.of_nat (length file) >= 10000 * Z.of_nat (label_bytes ds + 3072))%Z ->
  exists x y c', cifar_label c i = (x, y, (i mod 10000)%Z, c') /\ [x; y] = rec_labels ds (crecord file (label_bytes ds) (i mod 10000)) /\ cifar_inv file o ds c'.
Proof.
  intros (D & F & Eo & Ed & El) L. unfold cifar_label, cifar_size. pose proof (Z.mod_pos_bound i 10000 ltac:(lia)) as B. rewrite seek_ok by exact F. rewrite D, El, Ed.
  rewrite <- (Z2Nat.id (i mod 10000)) by lia. set (k := Z.to_nat (i mod 10000)) in *. change cifar_pixels with 3072.
  assert (Kb : (Z.of_nat k < 10000)%Z) by lia.
  assert (L2 : (Z.of_nat (length file) >= (Z.of_nat k + 1) * Z.of_nat (label_bytes ds + 3072))%Z) by nia.
  destruct (skipn_crecord file (label_bytes ds) k L2) as (_ & _ & E3).
  set (p := Z.to_nat _). assert (Ep : p = k * (label_bytes ds + 3072)) by (unfold p; nia). clearbody p. subst p.
  assert (Lf : k * (label_bytes ds + 3072) + label_bytes ds <= length file) by nia.
  destruct (read_byte_ok file (k * (label_bytes ds + 3072))) as (x & E & _ & Ex); [destruct ds; cbn [label_bytes] in *; lia|]. rewrite E.
  destruct ds; cbn [rec_labels label_bytes] in *.
  - exists x, 0%Z. eexists. split; [reflexivity|]. rewrite E3 by lia. rewrite Nat.add_0_r. split; [now rewrite Ex|]. repeat split; assumption.
  - destruct (read_byte_ok file (k * (2 + 3072) + 1)) as (y & E' & _ & Ey); [lia|]. rewrite E'. exists x, y. eexists. split; [reflexivity|]. rewrite !E3 by lia. rewrite Nat.add_0_r. split; [now rewrite Ex, Ey|]. repeat split; assumption.
Qed.

(** Files with 10000 records: every access, in any order, gives the stored record. *)
Theorem c52_accesses : forall file coarse o ds fine accesses,
  (ds = Cifar100 -> fine <> None) ->
  (Z.of_nat (length file) >= 10000 * Z.of_nat (label_bytes ds + 3072))%Z ->
  exists outs, cifar_run (cifar_new (Some file) coarse o ds fine) accesses = Ok outs /\
    Forall2 (cifar_stored file o ds) accesses outs.
Proof.
  intros file coarse o ds fine accesses Hf L.
  assert (I : cifar_inv file o ds (cifar_new (Some file) coarse o ds fine)).
  { unfold cifar_new. destruct fine as [f|], ds; try (exfalso; now apply (Hf eq_refl)); repeat split. }
  revert I. generalize (cifar_new (Some file) coarse o ds fine) as c. induction accesses as [|a l IH]; intros c I; [exists []; split; [reflexivity|constructor]|].
  assert (A : exists out c', cifar_access c a = Ok (out, c') /\ cifar_stored file o ds a out /\ cifar_inv file o ds c').
  { destruct a as [i|i|i]; cbn [cifar_access cifar_stored].
    - destruct (cifar_image_ok file o ds c i I L) as (c' & -> & I' & _). eauto.
    - destruct (cifar_label_ok file o ds c i I L) as (x & y & c' & -> & E & I'). exists [x; y], c'. auto.
    - unfold cifar_entry. destruct (cifar_image_ok file o ds c i I L) as (c1 & -> & I1 & L1).
      assert (Dd : exists d, cifar_data o (rec_image (label_bytes ds) (crecord file (label_bytes ds) (i mod 10000))) = Ok d).
      { destruct o; [eexists; reflexivity|]. destruct (c52_transposition _ L1) as (d & Ed & _). eauto. }
      destruct Dd as (d & Ed). destruct I1 as (D1 & F1 & O1 & S1 & Lo1). rewrite O1, Ed. cbn [bind].
      destruct (cifar_label_ok file o ds c1 i (conj D1 (conj F1 (conj O1 (conj S1 Lo1)))) L) as (x & y & c' & -> & E & I'). cbn [bind].
      eexists. exists c'. split; [reflexivity|]. split; [|exact I']. exists d. split; [reflexivity|]. f_equal. f_equal.
      destruct I' as (_ & _ & _ & Ds & _). rewrite Ds. destruct ds; cbn [rec_labels label_bytes Nat.sub] in *; congruence. }
  destruct A as (out & c' & Ea & Sa & Ic). destruct (IH c' Ic) as (outs & Er & Fo). exists (out :: outs). cbn [cifar_run]. rewrite Ea. cbn [bind]. rewrite Er. split; [reflexivity|]. now constructor.
Qed.
(** CIFAR-100 without a path for the fine labels is read as CIFAR-10. *)
Theorem c52_format : forall file coarse o ds fine, let c := cifar_new file coarse o ds fine in
  f_dataset c = match fine with None => Cifar10 | Some _ => ds end /\ f_label_offset c = label_bytes (f_dataset c).
Proof. intros file coarse o [|] [f|]; split; reflexivity. Qed.
(** Label names: the non-empty lines of the file. *)
Theorem c52_label_names : forall text ps, is_split nl text ps ->
  file_names (Some text) = filter (fun p => match p with [] => false | _ => true end) ps.
Proof.
  intros text ps S. unfold file_names. cbn [open_file]. change (s_data (s_open text)) with text.
  assert (B := open_before nl text ps S). assert (Ln : length (rest (s_open text)) < Datatypes.S (length text)) by (cbn; lia).
  revert B Ln. generalize (s_open text) as st. generalize (Datatypes.S (length text)) as n. generalize (@nil ascii) as line. clear S.
  intros line n. revert line ps. induction n as [|n IH]; intros line ps st B Ln; [lia|]. cbn [read_names]. unfold sgetline.
  destruct ps as [|p [|q ps]].
  - destruct B as (_ & Bs & _). now destruct Bs.
  - destruct (getline_last nl st p line B) as (st' & E & Ee & _ & F). rewrite E.
    assert (Nx : forall str, s_eof st' = true -> read_names n st' str = []).
    { intros str Es. destruct n; [reflexivity|]. cbn [read_names]. unfold sgetline. destruct (getline_done nl st' str) as (s2 & -> & _ & ->); [unfold good; now rewrite Es|reflexivity]. }
    destruct p as [|a p]; [replace (s_fail st') with true by (symmetry; now apply F); reflexivity|].
    replace (s_fail st') with false; [cbn [filter]; now rewrite Nx|]. destruct (s_fail st') eqn:Fs; [|reflexivity]. exfalso. discriminate (proj1 F eq_refl).
  - destruct (getline_more nl st p q ps line B) as (st' & E & B' & F & _). rewrite E, F.
    assert (Ln' : length (rest st') < n).
    { destruct B as (_ & _ & R & _). destruct B' as (_ & _ & R' & _). rewrite R' . rewrite R in Ln. rewrite join_cons, app_length in Ln. cbn [length] in Ln. lia. }
    destruct p as [|a p]; cbn [filter]; [now apply (IH [] (q :: ps))|]. f_equal. now apply (IH (a :: p) (q :: ps)).
Qed.

(** *** Printing *)
Lemma for_append {A} (f : nat -> list A) n body : forall s, (forall i s, i < n -> body i s = Ok (s ++ f i)) ->
  for_ n body s = Ok (s ++ concat (tab n f)).
Proof.
  induction n as [|n IH]; intros s H; [cbn; now rewrite app_nil_r|].
  rewrite for_S, IH by (intros; apply H; lia). cbn [bind]. rewrite H by lia. rewrite tab_S, concat_app. cbn [concat]. now rewrite app_nil_r, app_assoc.
Qed.
Lemma for_ub {S} n (body : nat -> S -> res S) : forall s,
  (forall i s, i < n -> body i s = UB \/ exists s', body i s = Ok s') ->
  (exists i, i < n /\ forall s, body i s = UB) -> for_ n body s = UB.
Proof.
  induction n as [|n IH]; intros s H (i & Hi & Hu); [lia|]. rewrite for_S.
  destruct (Nat.eq_dec i n) as [->|Ne].
  - clear IH. assert (Q : for_ n body s = UB \/ exists s', for_ n body s = Ok s').
    { clear - H. induction n as [|n IH]; [right; eexists; reflexivity|]. rewrite for_S. destruct IH as [->|(s' & ->)]; [intros; apply H; lia|now left|]. cbn [bind]. apply H. lia. }
    destruct Q as [->|(s' & ->)]; [reflexivity|]. apply Hu.
  - rewrite IH; [reflexivity|intros; apply H; lia|]. exists i. split; [lia|exact Hu].
Qed.
(** Specification: each row gives two equal characters per pixel and a line end; an empty line
    before and after. A grey value 0 .. 255 picks entry g * 70 / 256 of the 70 characters. *)
Definition grey_pick (g : Z) : ascii := nth (Z.to_nat (g * 70 / 256)) grey_table "000"%char.
Definition picture (side : nat) (g : nat -> nat -> Z) : chars :=
  [nl] ++ concat (tab side (fun i => concat (tab side (fun j => [grey_pick (g i j); grey_pick (g i j)])) ++ [nl])) ++ [nl].
Lemma grey_char_ok g : byte g -> grey_char g = Ok (grey_pick g) /\ Z.to_nat (g * 70 / 256) < 70.
Proof.
  intros B. unfold byte in B. unfold grey_char, grey_pick. assert (K : (0 <= g * 70 / 256 < 70)%Z).
  { split; [apply Z.div_pos; lia|apply Z.div_lt_upper_bound; lia]. }
  assert (L : length grey_table = 70) by reflexivity. split; [|lia]. rewrite (rd_nth _ _ "000"%char) by (rewrite app_length, L; cbn [length]; lia).
  now rewrite app_nth1 by lia.
Qed.
Lemma image_text_ok side grey g : (forall i j, i < side -> j < side -> grey i j = Ok (g i j) /\ byte (g i j)) ->
  image_text side grey = Ok (picture side g).
Proof.
  intros H. unfold image_text, picture.
  rewrite (for_append (fun i => concat (tab side (fun j => [grey_pick (g i j); grey_pick (g i j)])) ++ [nl])).
  - cbn [bind]. now rewrite <- app_assoc.
  - intros i s Hi. rewrite (for_append (fun j => [grey_pick (g i j); grey_pick (g i j)])).
    + cbn [bind]. now rewrite app_assoc.
    + intros j s' Hj. destruct (H i j Hi Hj) as (-> & B). cbn [bind]. now rewrite (proj1 (grey_char_ok _ B)).
Qed.

(** Every MNIST image of bytes prints; every pixel picks one of the 70 characters. *)
Theorem c53_mnist : forall image, length image = 784 -> Forall byte image ->
  mnist_text image = Ok (picture 28 (fun i j => nth (i * 28 + j) image 0%Z)) /\
  length grey_table = 70 /\ forall g, In g image -> Z.to_nat (g * 70 / 256) < 70.
Proof.
  intros image L F. split; [|split; [reflexivity|]].
  - unfold mnist_text. apply image_text_ok. change mnist_side with 28. intros i j Hi Hj.
    rewrite (rd_nth image _ 0%Z) by lia. split; [reflexivity|]. rewrite Forall_forall in F. apply F. apply nth_In. lia.
  - intros g Hg. rewrite Forall_forall in F. now apply grey_char_ok, F.
Qed.
(** Size of the picture *)
Theorem c53_picture_size : forall side g, length (picture side g) = side * (2 * side + 1) + 2.
Proof.
  intros side g. unfold picture. rewrite !app_length. cbn [length].
  assert (C : forall {A} n m (f : nat -> list A), (forall i, i < n -> length (f i) = m) -> length (concat (tab n f)) = n * m).
  { intros A n m f. induction n as [|n IH]; intros Hf; [reflexivity|]. rewrite tab_S, concat_app, app_length, IH by (intros; apply Hf; lia). cbn [concat]. rewrite app_nil_r, Hf by lia. lia. }
  rewrite (C _ side (2 * side + 1)); [lia|]. intros i _. rewrite app_length, (C _ side 2) by reflexivity. cbn [length]. lia.
Qed.
Definition pixel_value (image : list Z) (i j : nat) : Z :=
  (2100 * nth (i * 32 + j) image 0 + 504 * nth (1024 + i * 32 + j) image 0 * nth (2048 + i * 32 + j) image 0)%Z.
(** A CIFAR image prints exactly when 0.21 r + 0.0504 g b stays below 256 in every pixel (the
    formula multiplies green and blue); otherwise the conversion to a byte is undefined. *)
Theorem c53_cifar_actual : forall image, length image = 3072 -> Forall byte image ->
  ((forall i j, i < 32 -> j < 32 -> (pixel_value image i j < 2560000)%Z) ->
     cifar_text image = Ok (picture 32 (fun i j => (pixel_value image i j / 10000)%Z))) /\
  (forall i j, i < 32 -> j < 32 -> (2560000 <= pixel_value image i j)%Z -> cifar_text image = UB).
Proof.
  intros image L F.
  assert (G : forall i j, i < 32 -> j < 32 -> (0 <= pixel_value image i j)%Z /\
     (r <- rd image (i * cifar_side + j) ;; g <- rd image (cifar_side * cifar_side + i * cifar_side + j) ;; b <- rd image (2 * cifar_side * cifar_side + i * cifar_side + j) ;; brightness r g b) =
     if (pixel_value image i j / 10000 <? 256)%Z then Ok (pixel_value image i j / 10000)%Z else UB).
  { intros i j Hi Hj. change (2 * cifar_side * cifar_side) with 2048. change (cifar_side * cifar_side) with 1024. change cifar_side with 32.
    rewrite !(rd_nth image _ 0%Z) by lia. cbn [bind]. unfold brightness. fold (pixel_value image i j).
    assert (B : forall k, (0 <= nth k image 0)%Z).
    { intros k. destruct (Nat.lt_ge_cases k (length image)); [|rewrite nth_overflow by lia; lia]. rewrite Forall_forall in F. apply F. now apply nth_In. }
    split; [unfold pixel_value; pose proof (B (i * 32 + j)); pose proof (B (1024 + i * 32 + j)); pose proof (B (2048 + i * 32 + j)); nia|].
    destruct (pixel_value image i j / 10000 <? 256)%Z; reflexivity. }
  split.
  - intros H. unfold cifar_text. apply image_text_ok. intros i j Hi Hj. change cifar_side with 32 in Hi, Hj. destruct (G i j Hi Hj) as (P & E). cbv zeta. rewrite E.
    assert (Q : (0 <= pixel_value image i j / 10000 < 256)%Z) by (split; [apply Z.div_pos; lia|apply Z.div_lt_upper_bound; [lia|]; pose proof (H i j Hi Hj); lia]).
    rewrite (proj2 (Z.ltb_lt _ _)) by lia. split; [reflexivity|exact Q].
  - intros i j Hi Hj Hv. unfold cifar_text, image_text.
    assert (Px : forall i' j' s, i' < 32 -> j' < 32 -> let body := (g <- (r <- rd image (i' * cifar_side + j') ;; g <- rd image (cifar_side * cifar_side + i' * cifar_side + j') ;; b <- rd image (2 * cifar_side * cifar_side + i' * cifar_side + j') ;; brightness r g b) ;; c <- grey_char g ;; Ok (s ++ [c] ++ [c])) in
      body = UB \/ exists s', body = Ok s').
    { intros i' j' s Hi' Hj' body. unfold body. destruct (G i' j' Hi' Hj') as (P & ->). destruct (Z.ltb_spec (pixel_value image i' j' / 10000) 256) as [Lt|]; [|now left]. cbn [bind].
      assert (Q : byte (pixel_value image i' j' / 10000)) by (split; [apply Z.div_pos; lia|exact Lt]). rewrite (proj1 (grey_char_ok _ Q)). right. eexists. reflexivity. }
    rewrite for_ub; [reflexivity| |].
    + intros i' s Hi'. cbv zeta.
      assert (Row : forall n, n <= 32 -> forall s, for_ n (fun j0 ret => g <- (r <- rd image (i' * cifar_side + j0) ;; g <- rd image (cifar_side * cifar_side + i' * cifar_side + j0) ;; b <- rd image (2 * cifar_side * cifar_side + i' * cifar_side + j0) ;; brightness r g b) ;; c <- grey_char g ;; Ok (ret ++ [c] ++ [c])) s = UB \/ exists s', for_ n (fun j0 ret => g <- (r <- rd image (i' * cifar_side + j0) ;; g <- rd image (cifar_side * cifar_side + i' * cifar_side + j0) ;; b <- rd image (2 * cifar_side * cifar_side + i' * cifar_side + j0) ;; brightness r g b) ;; c <- grey_char g ;; Ok (ret ++ [c] ++ [c])) s = Ok s').
      { induction n as [|n IH]; intros Hn s0; [right; eexists; reflexivity|]. rewrite for_S. destruct (IH ltac:(lia) s0) as [->|(s1 & ->)]; [now left|]. cbn [bind]. apply Px; [exact Hi'|lia]. }
      destruct (Row cifar_side ltac:(change cifar_side with 32; lia) s) as [->|(s' & ->)]; [now left|right; eexists; reflexivity].
    + exists i. split; [exact Hi|]. intros s. cbv zeta. rewrite for_ub; [reflexivity| |].
      * intros j' s' Hj'. apply Px; [exact Hi|exact Hj'].
      * exists j. split; [exact Hj|]. intros s'. destruct (G i j Hi Hj) as (P & E). rewrite E.
        assert (Q : (256 <= pixel_value image i j / 10000)%Z) by (apply Z.div_le_lower_bound; lia).
        rewrite (proj2 (Z.ltb_ge _ _)) by lia. reflexivity.
Qed.
(** A white image does not print. *)
Theorem c53_cifar_refuted : exists image, length image = 3072 /\ Forall byte image /\ cifar_text image = UB.
Proof.
  exists (repeat 255%Z 3072).
  assert (L : length (repeat 255%Z 3072) = 3072) by apply repeat_length.
  assert (F : Forall byte (repeat 255%Z 3072)) by (apply Forall_forall; intros x Hx; apply repeat_spec in Hx; subst; unfold byte; lia).
  split; [exact L|]. split; [exact F|]. apply (proj2 (c53_cifar_actual _ L F) 0 0); [lia|lia|].
  unfold pixel_value. rewrite !(nth_indep _ 0%Z 255%Z) by (rewrite L; lia). rewrite !nth_repeat. lia.
Qed.

(** *** The hypotheses can be met *)
Definition ex_img : list Z := [0; 0; 8; 3;  0; 0; 0; 2;  0; 0; 0; 28;  0; 0; 0; 28]%Z ++ repeat 7%Z 784 ++ repeat 9%Z 784.
Definition ex_lab : list Z := [0; 0; 8; 1;  0; 0; 0; 2;  5; 6]%Z.
Example c51_hypotheses_met : well_formed ex_img ex_lab /\ be32 ex_img 4 = 2%Z /\ (16 + 784 * 2 <= Z.of_nat (length ex_img))%Z /\ (8 + 2 <= Z.of_nat (length ex_lab))%Z /\
  exists m, mnist_new true (Some ex_img) (Some ex_lab) = Ok m /\ mnist_run m [ALabel 1; AImage 3; ALabel 0] = Ok [[6]; repeat 9 784; [5]]%Z.
Proof. split; [repeat split|]. split; [reflexivity|]. split; [vm_compute; discriminate|]. split; [vm_compute; discriminate|]. eexists. split; vm_compute; reflexivity. Qed.
Example c51_not_well_formed_met : ~ well_formed (repeat 0%Z 16) ex_lab.
Proof. intros (H & _). vm_compute in H. discriminate. Qed.
Example c51_short_file_met : exists m d k m', mnist_new true (Some (firstn 1000 ex_img)) (Some ex_lab) = Ok m /\ mnist_image m 1 = Ok (d, k, m') /\
  (Z.of_nat (length (s_data (m_img m))) < 16 + 784 * (1 mod m_size m + 1))%Z /\ (0 < m_size m)%Z.
Proof. eexists _, _, _, _. split; [vm_compute; reflexivity|]. split; [vm_compute; reflexivity|]. split; vm_compute; reflexivity. Qed.
(** A file of the size asked for exists (10000 equal records). *)
Example c52_hypotheses_met : exists file : list Z, (Z.of_nat (length file) >= 10000 * Z.of_nat (label_bytes Cifar10 + 3072))%Z.
Proof. exists (repeat 3%Z (Z.to_nat (10000 * 3073))). rewrite repeat_length. cbn [label_bytes]. lia. Qed.
Example c52_names_met : is_split nl (txt "cat" ++ [nl] ++ [nl] ++ txt "dog") [txt "cat"; []; txt "dog"] /\
  file_names (Some (txt "cat" ++ [nl] ++ [nl] ++ txt "dog")) = [txt "cat"; txt "dog"].
Proof. split; [split; [discriminate|split; [reflexivity|repeat constructor; cbn; intuition discriminate]]|reflexivity]. Qed.
Example c53_hypotheses_met : length (repeat 200%Z 784) = 784 /\ Forall byte (repeat 200%Z 784) /\
  length (repeat 60%Z 3072) = 3072 /\ (2100 * 60 + 504 * 60 * 60 < 2560000)%Z.
Proof.
  split; [apply repeat_length|]. split; [apply Forall_forall; intros x Hx; apply repeat_spec in Hx; subst; unfold byte; lia|]. split; [apply repeat_length|lia].
Qed.

Print Assumptions c51_accepts_partial.
Print Assumptions c51_not_opened.
Print Assumptions c51_short_header_refuted.
Print Assumptions c51_accesses.
Print Assumptions c51_entry_shape.
Print Assumptions c51_no_items.
Print Assumptions c51_short_file.
Print Assumptions c52_transposition.
Print Assumptions c52_lossless.
Print Assumptions c52_plain_order.
Print Assumptions c52_accesses.
Print Assumptions c52_format.
Print Assumptions c52_label_names.
Print Assumptions c53_mnist.
Print Assumptions c53_picture_size.
Print Assumptions c53_cifar_actual.
Print Assumptions c53_cifar_refuted.
