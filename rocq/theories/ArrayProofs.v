From Verif Require Import Base ArrayModel ArraySpec.

Lemma shape_size_prod sh : shape_size sh = prod sh.
Proof.
  unfold shape_size. rewrite <- (Nat.mul_1_l (prod sh)). generalize 1 as a.
  induction sh as [|s t IH]; intros a; simpl; [lia|]. rewrite IH. lia.
Qed.

Definition ap_step (axis : nat) (f : nat -> nat) : nat * nat -> nat -> nat * nat :=
  fun '(it, off) i =>
    if i <? axis then (it * f i, off)
    else if axis <? i then (it, off * f i)
    else (it, off).

Lemma ap_after axis f n k p :
  axis < k ->
  fold_left (ap_step axis f) (seq k n) p =
  (fst p, snd p * prod (map f (seq k n))).
Proof.
  revert k p; induction n as [|n IH]; intros k [it off] Hk; simpl.
  - f_equal; lia.
  - rewrite IH by lia. destruct (Nat.ltb_spec k axis); [lia|].
    destruct (Nat.ltb_spec axis k); [|lia]. simpl. f_equal. lia.
Qed.

Lemma ap_before axis f n k p :
  k + n <= axis ->
  fold_left (ap_step axis f) (seq k n) p =
  (fst p * prod (map f (seq k n)), snd p).
Proof.
  revert k p; induction n as [|n IH]; intros k [it off] Hk; simpl.
  - f_equal; lia.
  - rewrite IH by lia. destruct (Nat.ltb_spec k axis); [|lia]. simpl. f_equal. lia.
Qed.

Lemma map_nth_seq_app pre l : map (fun i => nth i (pre ++ l) 0) (seq 0 (length pre)) = pre.
Proof.
  apply (list_ext_nth 0); rewrite map_length, seq_length; auto.
  intros i Hi. change (map (fun i => nth i (pre ++ l) 0) (seq 0 (length pre))) with
    (tab (length pre) (fun i => nth i (pre ++ l) 0)).
  rewrite nth_tab by auto. now rewrite app_nth1.
Qed.

Lemma map_nth_seq_shift pre l :
  map (fun i => nth i (pre ++ l) 0) (seq (length pre) (length l)) = l.
Proof.
  revert pre; induction l as [|h t IH]; intros pre; simpl; auto.
  rewrite app_nth2, Nat.sub_diag by lia. simpl. f_equal.
  specialize (IH (pre ++ [h])). rewrite <- app_assoc in IH. simpl in IH.
  rewrite app_length in IH. simpl in IH. rewrite Nat.add_1_r in IH. exact IH.
Qed.

Lemma axis_products_spec pre a post :
  axis_products (pre ++ a :: post) (length pre) = (prod pre, prod post).
Proof.
  unfold axis_products. set (sh := pre ++ a :: post).
  change (fold_left _ (seq 0 (length sh)) (1, 1)) with
    (fold_left (ap_step (length pre) (fun i => nth i sh 0)) (seq 0 (length sh)) (1, 1)).
  unfold sh at 2. rewrite app_length. simpl length.
  rewrite seq_app, fold_left_app. simpl.
  rewrite (ap_before _ _ (length pre) 0) by lia. simpl. rewrite Nat.ltb_irrefl, ap_after by lia.
  cbn [fst snd]. unfold sh. rewrite map_nth_seq_app.
  pose proof (map_nth_seq_shift (pre ++ [a]) post) as E.
  rewrite app_length, Nat.add_1_r, <- app_assoc in E. simpl in E. rewrite E.
  f_equal; lia.
Qed.

Lemma rd_axis {A} pre (a : A) post : rd (pre ++ a :: post) (length pre) = Ok a.
Proof.
  apply rd_ok. rewrite nth_error_app2, Nat.sub_diag by lia. reflexivity.
Qed.

Lemma nth_axis {A} pre (a : A) post d : nth (length pre) (pre ++ a :: post) d = a.
Proof. rewrite app_nth2, Nat.sub_diag by lia. reflexivity. Qed.

Lemma upd_axis {A} pre (a b : A) post :
  upd (pre ++ a :: post) (length pre) b = pre ++ b :: post.
Proof. rewrite upd_app, Nat.ltb_irrefl, Nat.sub_diag. reflexivity. Qed.

Section Copy.
Context {T : Type} (d0 : T).

(** Core of append: [iters] blocks of [n] values copied into rows of length [D]. *)
Lemma copy_in (dst src : list T) iters n D O base :
  O + n <= D -> iters * D <= length dst -> base + iters * n <= length src ->
  exists dst',
    for_ iters (fun i dst =>
      for_ n (fun s dst =>
        v <- rd src (base + (i * n + s)) ;;
        wr dst (i * D + O + s) v) dst) dst = Ok dst' /\
    length dst' = length dst /\
    (forall i y, i < iters -> y < D ->
       nth (i * D + y) dst' d0 =
       if (O <=? y) && (y <? O + n) then nth (base + (i * n + (y - O))) src d0
       else nth (i * D + y) dst d0) /\
    (forall p, iters * D <= p -> nth p dst' d0 = nth p dst d0).
Proof.
  intros HO HD HS. rewrite for_nested.
  assert (Hq : forall q, q < iters * n ->
    q / n < iters /\ q mod n < n /\ q = q / n * n + q mod n).
  { intros q Hq. assert (n <> 0) by (intros ->; lia).
    repeat split.
    - apply Nat.div_lt_upper_bound; lia.
    - apply Nat.mod_upper_bound; auto.
    - pose proof (Nat.div_mod q n). lia. }
  destruct (for_scatter d0 (fun q => q / n * D + O + q mod n)
    (fun q _ => nth (base + q) src d0) (iters * n)
    (fun q s => v <- rd src (base + (q / n * n + q mod n));;
                wr s (q / n * D + O + q mod n) v) dst) as (dst' & E & H1 & H2 & H3).
  - intros q Hlt. destruct (Hq q Hlt) as (A & B & C). nia.
  - intros q1 q2 Hq1 Hq2 Eq.
    destruct (Hq q1 Hq1) as (A1 & B1 & C1). destruct (Hq q2 Hq2) as (A2 & B2 & C2).
    assert (q1 / n = q2 / n) by nia. rewrite C1, C2. nia.
  - intros q d Hlt Hl. destruct (Hq q Hlt) as (A & B & C).
    rewrite <- C. rewrite (rd_nth src _ d0) by lia. simpl.
    apply wr_ok. nia.
  - exists dst'. split; [exact E|]. split; [auto|]. split.
    + intros i y Hi Hy.
      destruct (Nat.leb_spec O y); destruct (Nat.ltb_spec y (O + n)); simpl.
      * destruct (divmod_unique n i (y - O)) as [E1 E2]; [lia|].
        specialize (H2 (i * n + (y - O)) ltac:(nia)). simpl in H2.
        rewrite E1, E2 in H2. rewrite <- H2. f_equal. lia.
      * apply H3. intros q Hlt Ep. destruct (Hq q Hlt) as (A & B & C).
        assert (i = q / n) by nia. nia.
      * apply H3. intros q Hlt Ep. destruct (Hq q Hlt) as (A & B & C).
        assert (i = q / n) by nia. nia.
      * apply H3. intros q Hlt Ep. destruct (Hq q Hlt) as (A & B & C).
        assert (i = q / n) by nia. nia.
    + intros p Hp. apply H3. intros q Hlt Ep.
      destruct (Hq q Hlt) as (A & B & C). nia.
Qed.

(** Core of extract. *)
Lemma copy_out (dst src : list T) iters n D O base :
  O + n <= D -> iters * D <= length src -> base + iters * n <= length dst ->
  exists dst',
    for_ iters (fun i dst =>
      for_ n (fun s dst =>
        v <- rd src (i * D + O + s) ;;
        wr dst (base + (i * n + s)) v) dst) dst = Ok dst' /\
    length dst' = length dst /\
    (forall i y, i < iters -> y < n ->
       nth (base + (i * n + y)) dst' d0 = nth (i * D + O + y) src d0) /\
    (forall p, p < base \/ base + iters * n <= p -> nth p dst' d0 = nth p dst d0).
Proof.
  intros HO HD HS. rewrite for_nested.
  assert (Hq : forall q, q < iters * n ->
    q / n < iters /\ q mod n < n /\ q = q / n * n + q mod n).
  { intros q Hq. assert (n <> 0) by (intros ->; lia).
    repeat split.
    - apply Nat.div_lt_upper_bound; lia.
    - apply Nat.mod_upper_bound; auto.
    - pose proof (Nat.div_mod q n). lia. }
  destruct (for_scatter d0 (fun q => base + q)
    (fun q _ => nth (q / n * D + O + q mod n) src d0) (iters * n)
    (fun q s => v <- rd src (q / n * D + O + q mod n);;
                wr s (base + (q / n * n + q mod n)) v) dst) as (dst' & E & H1 & H2 & H3).
  - intros q Hlt. lia.
  - intros q1 q2 Hq1 Hq2 Eq. lia.
  - intros q d Hlt Hl. destruct (Hq q Hlt) as (A & B & C).
    rewrite <- C. rewrite (rd_nth src _ d0) by nia. simpl.
    apply wr_ok. lia.
  - exists dst'. split; [exact E|]. split; [auto|]. split.
    + intros i y Hi Hy. destruct (divmod_unique n i y) as [E1 E2]; [lia|].
      specialize (H2 (i * n + y) ltac:(nia)). simpl in H2. rewrite E1, E2 in H2. exact H2.
    + intros p Hp. apply H3. intros q Hlt Ep. lia.
Qed.

(** Position of a multi-index around the axis. *)
Lemma flat_axis pre a post ip x iq :
  length ip = length pre ->
  flat (pre ++ a :: post) (ip ++ x :: iq) =
  flat pre ip * (prod post * a) + (prod post * x + flat post iq).
Proof. intros H. rewrite flat_app by auto. simpl. lia. Qed.

Lemma append_at_spec (dst src : list T) pre a b post off base :
  off + b <= a ->
  prod (pre ++ a :: post) <= length dst ->
  base + prod (pre ++ b :: post) <= length src ->
  exists dst',
    append_at dst (pre ++ a :: post) src base b (length pre) off = Ok dst' /\
    length dst' = length dst /\
    (forall ip x iq, inb pre ip -> x < a -> inb post iq ->
       at_ d0 (pre ++ a :: post) dst' (ip ++ x :: iq) =
       if (off <=? x) && (x <? off + b)
       then nth (base + flat (pre ++ b :: post) (ip ++ (x - off) :: iq)) src d0
       else at_ d0 (pre ++ a :: post) dst (ip ++ x :: iq)) /\
    (forall p, prod (pre ++ a :: post) <= p -> nth p dst' d0 = nth p dst d0).
Proof.
  intros Ho Hd Hs. unfold append_at. rewrite axis_products_spec, rd_axis. simpl.
  rewrite prod_app in Hd, Hs. simpl in Hd, Hs.
  destruct (copy_in dst src (prod pre) (prod post * b) (prod post * a) (prod post * off) base)
    as (dst' & E & H1 & H2 & H3); [nia|nia|nia|].
  exists dst'. split; [exact E|]. split; [auto|]. split.
  - intros ip x iq Hip Hx Hiq. unfold at_.
    pose proof (inb_length _ _ Hip) as Hl. pose proof (flat_lt _ _ Hip) as Hf.
    pose proof (flat_lt _ _ Hiq) as Hg.
    rewrite !flat_axis by auto. rewrite H2 by nia.
    destruct (Nat.leb_spec off x); destruct (Nat.ltb_spec x (off + b)); simpl.
    + destruct (Nat.leb_spec (prod post * off) (prod post * x + flat post iq)); [|nia].
      destruct (Nat.ltb_spec (prod post * x + flat post iq) (prod post * off + prod post * b));
        [|nia]. simpl. f_equal. nia.
    + destruct (Nat.ltb_spec (prod post * x + flat post iq) (prod post * off + prod post * b));
        [nia|]. now rewrite andb_false_r.
    + destruct (Nat.leb_spec (prod post * off) (prod post * x + flat post iq)); [nia|].
      reflexivity.
    + lia.
  - intros p Hp. apply H3. rewrite prod_app in Hp. simpl in Hp. nia.
Qed.

Lemma extract_at_spec (dst src : list T) pre a b post off base :
  off + b <= a ->
  prod (pre ++ a :: post) <= length src ->
  base + prod (pre ++ b :: post) <= length dst ->
  exists dst',
    extract_at dst base (pre ++ b :: post) src a (length pre) off = Ok dst' /\
    length dst' = length dst /\
    (forall ip x iq, inb pre ip -> x < b -> inb post iq ->
       nth (base + flat (pre ++ b :: post) (ip ++ x :: iq)) dst' d0 =
       at_ d0 (pre ++ a :: post) src (ip ++ (off + x) :: iq)) /\
    (forall p, p < base \/ base + prod (pre ++ b :: post) <= p ->
       nth p dst' d0 = nth p dst d0).
Proof.
  intros Ho Hd Hs. unfold extract_at. rewrite axis_products_spec, rd_axis. simpl.
  rewrite prod_app in Hd, Hs. simpl in Hd, Hs.
  destruct (copy_out dst src (prod pre) (prod post * b) (prod post * a) (prod post * off) base)
    as (dst' & E & H1 & H2 & H3); [nia|nia|nia|].
  exists dst'. split; [exact E|]. split; [auto|]. split.
  - intros ip x iq Hip Hx Hiq. unfold at_.
    pose proof (inb_length _ _ Hip) as Hl. pose proof (flat_lt _ _ Hip) as Hf.
    pose proof (flat_lt _ _ Hiq) as Hg.
    rewrite !flat_axis by auto. rewrite H2 by nia. f_equal. nia.
  - intros p Hp. apply H3. rewrite prod_app in Hp. simpl in Hp. nia.
Qed.

Lemma inb_axis_inv pre a post idx :
  inb (pre ++ a :: post) idx ->
  exists ip x iq, idx = ip ++ x :: iq /\ inb pre ip /\ x < a /\ inb post iq.
Proof.
  intros H. apply inb_app_inv in H as (ip & i2 & -> & H1 & H2).
  inversion H2; subst. eauto 8.
Qed.

Lemma extract_append (dst buf src : list T) pre a b post off :
  off + b <= a ->
  prod (pre ++ a :: post) <= length dst ->
  prod (pre ++ b :: post) = length src -> prod (pre ++ b :: post) = length buf ->
  exists dst',
    append dst (pre ++ a :: post) src b (length pre) off = Ok dst' /\
    extract buf (pre ++ b :: post) dst' a (length pre) off = Ok src.
Proof.
  intros Ho Hd Hs Hb.
  destruct (append_at_spec dst src pre a b post off 0) as (d1 & E1 & L1 & H1 & _);
    [lia|lia|lia|].
  exists d1. split; [exact E1|].
  destruct (extract_at_spec buf d1 pre a b post off 0) as (d2 & E2 & L2 & H2 & _);
    [lia|lia|lia|].
  unfold extract. rewrite E2. f_equal.
  apply (at_ext d0 (pre ++ b :: post)); try lia.
  intros idx Hi. apply inb_axis_inv in Hi as (ip & x & iq & -> & Hp & Hx & Hq).
  unfold at_. specialize (H2 ip x iq Hp Hx Hq). simpl in H2. rewrite H2.
  rewrite H1 by (auto; lia).
  destruct (Nat.leb_spec off (off + x)); [|lia].
  destruct (Nat.ltb_spec (off + x) (off + b)); [|lia]. simpl.
  f_equal. f_equal. f_equal. f_equal. lia.
Qed.

(** Two-operand concatenation of cubes, at any axis. *)
Lemma concatenate2_spec (dst src1 src2 : list T) pre a b post :
  length (pre ++ a :: post) = 3 ->
  length dst = prod (pre ++ (a + b) :: post) ->
  length src1 = prod (pre ++ a :: post) ->
  length src2 = prod (pre ++ b :: post) ->
  exists dst',
    concatenate2 dst src1 (pre ++ a :: post) src2 (pre ++ b :: post) (length pre) = Ok dst' /\
    length dst' = length dst /\
    (forall ip x iq, inb pre ip -> x < a + b -> inb post iq ->
       at_ d0 (pre ++ (a + b) :: post) dst' (ip ++ x :: iq) =
       if x <? a then at_ d0 (pre ++ a :: post) src1 (ip ++ x :: iq)
       else at_ d0 (pre ++ b :: post) src2 (ip ++ (x - a) :: iq)).
Proof.
  intros H3 Hd H1 H2. unfold concatenate2, append.
  assert (Ha : length pre < 3) by (rewrite app_length in H3; simpl in H3; lia).
  apply Nat.ltb_lt in Ha. rewrite Ha. simpl guard. rewrite bind_Ok.
  assert (Hs : same_but (length pre) (pre ++ a :: post) (pre ++ b :: post) = true).
  { unfold same_but. apply forallb_forall. intros i _.
    destruct (Nat.eqb_spec i (length pre)); simpl; auto. apply Nat.eqb_eq.
    destruct (Nat.lt_ge_cases i (length pre)).
    - rewrite !app_nth1 by auto. reflexivity.
    - rewrite !app_nth2 by auto. destruct (i - length pre) as [|k] eqn:E; [lia|]. reflexivity. }
  rewrite Hs. simpl guard. rewrite bind_Ok.
  unfold grow. rewrite !nth_axis, upd_axis.
  destruct (append_at_spec dst src1 pre (a + b) a post 0 0) as (d1 & E1 & L1 & S1 & _);
    [lia|lia|lia|].
  rewrite E1. simpl.
  destruct (append_at_spec d1 src2 pre (a + b) b post a 0) as (d2 & E2 & L2 & S2 & _);
    [lia|lia|lia|].
  exists d2. split; [exact E2|]. split; [congruence|].
  intros ip x iq Hp Hx Hq. rewrite S2 by auto.
  destruct (Nat.leb_spec a x).
  - destruct (Nat.ltb_spec x (a + b)); [|lia]. destruct (Nat.ltb_spec x a); [lia|].
    reflexivity.
  - destruct (Nat.ltb_spec x a); [|lia]. simpl. rewrite S1 by auto.
    destruct (Nat.ltb_spec x (0 + a)); [|lia]. simpl. rewrite Nat.sub_0_r. reflexivity.
Qed.

Lemma separate2_concatenate2 (dst src1 src2 b1 b2 : list T) pre a b post :
  length (pre ++ a :: post) = 3 ->
  length dst = prod (pre ++ (a + b) :: post) ->
  length src1 = prod (pre ++ a :: post) -> length b1 = length src1 ->
  length src2 = prod (pre ++ b :: post) -> length b2 = length src2 ->
  exists dst',
    concatenate2 dst src1 (pre ++ a :: post) src2 (pre ++ b :: post) (length pre) = Ok dst' /\
    separate2 b1 (pre ++ a :: post) b2 (pre ++ b :: post) dst' (length pre) = Ok (src1, src2).
Proof.
  intros H3 Hd H1 Hb1 H2 Hb2.
  destruct (concatenate2_spec dst src1 src2 pre a b post H3 Hd H1 H2) as (d & E & L & S).
  exists d. split; [exact E|].
  unfold concatenate2 in E. apply bind_Ok_inv in E as ([] & G1 & E).
  apply bind_Ok_inv in E as ([] & G2 & _).
  unfold separate2, extract. rewrite G1, G2. simpl. rewrite !nth_axis.
  destruct (extract_at_spec b1 d pre (a + b) a post 0 0) as (d1 & E1 & L1 & S1 & _);
    [lia|lia|lia|].
  destruct (extract_at_spec b2 d pre (a + b) b post a 0) as (d2 & E2 & L2 & S2 & _);
    [lia|lia|lia|].
  rewrite E1. simpl. rewrite E2. simpl. f_equal. f_equal.
  - apply (at_ext d0 (pre ++ a :: post)); try lia.
    intros idx Hi. apply inb_axis_inv in Hi as (ip & x & iq & -> & Hp & Hx & Hq).
    unfold at_ at 1. specialize (S1 ip x iq Hp Hx Hq). simpl in S1. rewrite S1.
    rewrite S by (auto; lia). destruct (Nat.ltb_spec x a); [|lia]. reflexivity.
  - apply (at_ext d0 (pre ++ b :: post)); try lia.
    intros idx Hi. apply inb_axis_inv in Hi as (ip & x & iq & -> & Hp & Hx & Hq).
    unfold at_ at 1. specialize (S2 ip x iq Hp Hx Hq). simpl in S2. rewrite S2.
    rewrite S by (auto; lia). destruct (Nat.ltb_spec (a + x) a); [lia|].
    now replace (a + x - a) with x by lia.
Qed.

(** N cubes. [bs] are the sizes along the axis. *)
Lemma concat_loop_spec (src : list T) pre post n bs : forall (dst : list T) doff soff,
  doff + sumn bs <= n ->
  length dst = prod (pre ++ n :: post) ->
  soff + sumn (map (fun b => prod (pre ++ b :: post)) bs) <= length src ->
  exists dst',
    concat_loop dst (pre ++ n :: post) src (map (fun b => pre ++ b :: post) bs)
      (length pre) doff soff = Ok dst' /\
    length dst' = length dst /\
    (forall k ip x iq, k < length bs -> inb pre ip -> x < nth k bs 0 -> inb post iq ->
       at_ d0 (pre ++ n :: post) dst' (ip ++ (doff + sumn (firstn k bs) + x) :: iq) =
       nth (soff + sumn (map (fun b => prod (pre ++ b :: post)) (firstn k bs))
            + flat (pre ++ nth k bs 0 :: post) (ip ++ x :: iq)) src d0) /\
    (forall ip x iq, inb pre ip -> x < n -> inb post iq ->
       x < doff \/ doff + sumn bs <= x ->
       at_ d0 (pre ++ n :: post) dst' (ip ++ x :: iq) =
       at_ d0 (pre ++ n :: post) dst (ip ++ x :: iq)).
Proof.
  induction bs as [|b bs IH]; intros dst doff soff Hn Hd Hs.
  - exists dst. simpl. repeat split; auto. intros; lia.
  - simpl in Hn, Hs. simpl map. cbn [concat_loop]. rewrite nth_axis, shape_size_prod.
    destruct (append_at_spec dst src pre n b post doff soff) as (d1 & E1 & L1 & S1 & _);
      [lia|lia|lia|].
    rewrite E1. simpl bind.
    destruct (IH d1 (doff + b) (soff + prod (pre ++ b :: post))) as (d2 & E2 & L2 & S2 & S3);
      [lia|lia|lia|].
    exists d2. split; [exact E2|]. split; [congruence|]. split.
    + intros [|k] ip x iq Hk Hp Hx Hq; simpl in *.
      * rewrite S3 by (auto; lia). rewrite S1 by (auto; lia).
        destruct (Nat.leb_spec doff (doff + 0 + x)); [|lia].
        destruct (Nat.ltb_spec (doff + 0 + x) (doff + b)); [|lia]. simpl.
        replace (doff + 0 + x - doff) with x by lia. f_equal. lia.
      * specialize (S2 k ip x iq ltac:(lia) Hp Hx Hq).
        replace (doff + (b + sumn (firstn k bs)) + x)
          with (doff + b + sumn (firstn k bs) + x) by lia.
        rewrite S2. f_equal. lia.
    + intros ip x iq Hp Hx Hq Ho. simpl in Ho. rewrite S3 by (auto; lia).
      rewrite S1 by auto.
      destruct (Nat.leb_spec doff x); destruct (Nat.ltb_spec x (doff + b)); simpl; auto; lia.
Qed.

Lemma shapes_agree_map pre post bs :
  shapes_agree (length pre) (map (fun b => pre ++ b :: post) bs) = true.
Proof.
  induction bs as [|b bs IH]; simpl; auto. destruct bs as [|c bs]; simpl in *; auto.
  rewrite IH, andb_true_r. unfold same_but. apply forallb_forall. intros i _.
  destruct (Nat.eqb_spec i (length pre)); simpl; auto. apply Nat.eqb_eq.
  destruct (Nat.lt_ge_cases i (length pre)).
  - rewrite !app_nth1 by auto. reflexivity.
  - rewrite !app_nth2 by auto. destruct (i - length pre) as [|k] eqn:E; [lia|]. reflexivity.
Qed.

Lemma grow_fold pre post bs : forall a,
  fold_left (fun d sh => grow d (length pre) (nth (length pre) sh 0))
    (map (fun b => pre ++ b :: post) bs) (pre ++ a :: post) =
  pre ++ (a + sumn bs) :: post.
Proof.
  induction bs as [|b bs IH]; intros a; simpl.
  - now rewrite Nat.add_0_r.
  - unfold grow at 2. rewrite !nth_axis, upd_axis, IH. f_equal. f_equal. lia.
Qed.

Lemma concatenateN_spec (dst src : list T) pre post bs :
  bs <> [] -> length pre < 3 ->
  length dst = prod (pre ++ sumn bs :: post) ->
  length src = sumn (map (fun b => prod (pre ++ b :: post)) bs) ->
  exists dst',
    concatenateN dst src (map (fun b => pre ++ b :: post) bs) (length pre) = Ok dst' /\
    length dst' = length dst /\
    (forall k ip x iq, k < length bs -> inb pre ip -> x < nth k bs 0 -> inb post iq ->
       at_ d0 (pre ++ sumn bs :: post) dst' (ip ++ (sumn (firstn k bs) + x) :: iq) =
       at_ d0 (pre ++ nth k bs 0 :: post)
         (skipn (sumn (map (fun b => prod (pre ++ b :: post)) (firstn k bs))) src)
         (ip ++ x :: iq)).
Proof.
  intros Hb Hp Hd Hs. unfold concatenateN. apply Nat.ltb_lt in Hp. rewrite Hp.
  simpl guard. rewrite bind_Ok, shapes_agree_map. simpl guard. rewrite bind_Ok.
  destruct bs as [|b bs]; [congruence|]. simpl map. unfold rd.
  cbn [nth_error bind tl]. rewrite grow_fold.
  destruct (concat_loop_spec src pre post (b + sumn bs) (b :: bs) dst 0 0)
    as (d & E & L & S & _); [simpl; lia | exact Hd | rewrite Hs; simpl; lia |].
  exists d. split; [exact E|]. split; [exact L|].
  intros k ip x iq Hk Hip Hx Hiq. unfold at_ at 2. rewrite nth_skipn_add.
  exact (S k ip x iq Hk Hip Hx Hiq).
Qed.

Lemma separate_loop_spec (src : list T) pre post n bs : forall (dst : list T) soff doff,
  soff + sumn bs <= n ->
  prod (pre ++ n :: post) <= length src ->
  doff + sumn (map (fun b => prod (pre ++ b :: post)) bs) <= length dst ->
  exists dst',
    separate_loop dst (map (fun b => pre ++ b :: post) bs) src n
      (length pre) soff doff = Ok dst' /\
    length dst' = length dst /\
    (forall k ip x iq, k < length bs -> inb pre ip -> x < nth k bs 0 -> inb post iq ->
       nth (doff + sumn (map (fun b => prod (pre ++ b :: post)) (firstn k bs))
            + flat (pre ++ nth k bs 0 :: post) (ip ++ x :: iq)) dst' d0 =
       at_ d0 (pre ++ n :: post) src (ip ++ (soff + sumn (firstn k bs) + x) :: iq)) /\
    (forall p, p < doff -> nth p dst' d0 = nth p dst d0).
Proof.
  induction bs as [|b bs IH]; intros dst soff doff Hn Hs Hd.
  - exists dst. simpl. repeat split; auto. intros; lia.
  - simpl in Hn, Hd. simpl map. cbn [separate_loop]. rewrite nth_axis, shape_size_prod.
    destruct (extract_at_spec dst src pre n b post soff doff) as (d1 & E1 & L1 & S1 & U1);
      [lia|lia|lia|].
    rewrite E1. simpl bind.
    destruct (IH d1 (soff + b) (doff + prod (pre ++ b :: post))) as (d2 & E2 & L2 & S2 & U2);
      [lia|lia|lia|].
    exists d2. split; [exact E2|]. split; [congruence|]. split.
    + intros [|k] ip x iq Hk Hp Hx Hq; simpl in *.
      * assert (Hf : flat (pre ++ b :: post) (ip ++ x :: iq) < prod (pre ++ b :: post))
          by (apply flat_lt, inb_app; auto; constructor; auto).
        rewrite U2 by lia. rewrite Nat.add_0_r, S1 by auto.
        now replace (soff + 0 + x) with (soff + x) by lia.
      * specialize (S2 k ip x iq ltac:(lia) Hp Hx Hq).
        replace (soff + (b + sumn (firstn k bs)) + x)
          with (soff + b + sumn (firstn k bs) + x) by lia.
        rewrite <- S2. f_equal. lia.
    + intros p Hp. rewrite U2 by lia. apply U1. lia.
Qed.

(** Position inside the packed buffer of N cubes. *)
Lemma packed_pos (f : nat -> nat) bs p :
  p < sumn (map f bs) ->
  exists k r, k < length bs /\ r < f (nth k bs 0) /\
    p = sumn (map f (firstn k bs)) + r.
Proof.
  revert p; induction bs as [|b bs IH]; intros p H; simpl in H; [lia|].
  destruct (Nat.lt_ge_cases p (f b)).
  - exists 0, p. simpl. repeat split; auto; lia.
  - destruct (IH (p - f b) ltac:(lia)) as (k & r & Hk & Hr & E).
    exists (S k), r. simpl. repeat split; auto; lia.
Qed.

Lemma sum_axis_fold pre post bs a :
  fold_left (fun a sh => a + nth (length pre) sh 0) (map (fun b => pre ++ b :: post) bs) a
  = a + sumn bs.
Proof.
  revert a; induction bs as [|b bs IH]; intros a; simpl; [lia|].
  rewrite nth_axis, IH. lia.
Qed.

Lemma separateN_concatenateN (dst src buf : list T) pre post bs :
  bs <> [] -> length pre < 3 ->
  length dst = prod (pre ++ sumn bs :: post) ->
  length src = sumn (map (fun b => prod (pre ++ b :: post)) bs) ->
  length buf = length src ->
  exists dst',
    concatenateN dst src (map (fun b => pre ++ b :: post) bs) (length pre) = Ok dst' /\
    separateN buf (map (fun b => pre ++ b :: post) bs) dst' (length pre) = Ok src.
Proof.
  intros Hb Hp Hd Hs Hbuf.
  destruct (concatenateN_spec dst src pre post bs Hb Hp Hd Hs) as (d & E & L & S).
  exists d. split; [exact E|].
  unfold separateN. apply Nat.ltb_lt in Hp. rewrite Hp.
  simpl guard. rewrite bind_Ok, shapes_agree_map. simpl guard. rewrite bind_Ok.
  rewrite sum_axis_fold. simpl.
  destruct (separate_loop_spec d pre post (sumn bs) bs buf 0 0) as (b2 & E2 & L2 & S2 & _);
    [lia|lia|lia|].
  rewrite E2. f_equal. apply (list_ext_nth d0); [lia|]. intros p Hpb.
  destruct (packed_pos (fun b => prod (pre ++ b :: post)) bs p) as (k & r & Hk & Hr & ->);
    [lia|].
  destruct (flat_surj _ _ Hr) as (idx & Hi & <-).
  apply inb_axis_inv in Hi as (ip & x & iq & -> & Hip & Hx & Hiq).
  specialize (S2 k ip x iq Hk Hip Hx Hiq). simpl in S2. rewrite S2.
  rewrite S by auto. unfold at_. now rewrite nth_skipn_add.
Qed.

End Copy.
