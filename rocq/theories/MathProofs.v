(** Lemmas about the kernels of [MathModel]. *)
From Verif Require Import Base Num RSum MathModel.
From Coq Require Import Reals Lra.

(** *** Loop shapes *)

(** A loop that overwrites the first [n] cells. *)
Lemma for_fill_pre {A} (f : nat -> A) n body dst :
  n <= length dst ->
  (forall i d, i < n -> length d = length dst -> body i d = Ok (upd d i (f i))) ->
  for_ n body dst = Ok (tab n f ++ skipn n dst).
Proof.
  intros Hl Hb.
  destruct (for_inv (fun k d => length d = length dst /\
    forall p, nth_error d p = if p <? k then Some (f p) else nth_error dst p) n body dst)
    as (d & E & L & I).
  - split; auto.
  - intros k d Hk (L & I). rewrite Hb by auto. eexists; split; [reflexivity|].
    rewrite upd_length. split; auto. intros p. rewrite nth_error_upd, I.
    destruct (Nat.eqb_spec p k) as [->|Hne]; simpl.
    + destruct (Nat.ltb_spec k (length d)); [|lia].
      destruct (Nat.ltb_spec k (S k)); [auto|lia].
    + destruct (Nat.ltb_spec p k), (Nat.ltb_spec p (S k)); auto; lia.
  - rewrite E. f_equal. apply list_ext.
    + rewrite app_length, tab_length, skipn_length. lia.
    + intros p Hp. rewrite I. destruct (Nat.ltb_spec p n).
      * rewrite nth_error_app1 by (rewrite tab_length; auto).
        rewrite nth_error_tab. destruct (Nat.ltb_spec p n); [auto|lia].
      * rewrite nth_error_app2 by (rewrite tab_length; auto). rewrite tab_length.
        rewrite <- (firstn_skipn n dst) at 1.
        rewrite nth_error_app2 by (rewrite firstn_length; lia).
        rewrite firstn_length. f_equal. lia.
Qed.

(** Loop [dst[i] += t(j)]. *)
Lemma for_acc_cell {T} `{NumOps T} (t : nat -> T) i n body dst d0 :
  i < length dst ->
  (forall j d, j < n -> length d = length dst ->
     body j d = Ok (upd d i (nadd (nth i d d0) (t j)))) ->
  for_ n body dst = Ok (upd dst i (nsum_from (nth i dst d0) n t)).
Proof.
  intros Hi Hb. induction n as [|n IH].
  - unfold for_, nsum_from; simpl. f_equal. symmetry. apply upd_same.
    now apply nth_error_nth'.
  - rewrite for_S, IH by (intros; apply Hb; auto; lia). cbn [bind].
    rewrite Hb; [|lia|now rewrite upd_length].
    rewrite nth_upd_eq by auto. rewrite upd_upd, nsum_from_S. reflexivity.
Qed.

Section Generic.
Context {T : Type} `{NumOps T} `{TransOps T} `{LimOps T}.
Variable d0 : T.

Lemma map_into_spec f (dst src : list T) n :
  n <= length dst -> n <= length src ->
  map_into f dst src n = Ok (tab n (fun i => f (nth i src d0)) ++ skipn n dst).
Proof.
  intros Hd Hs. apply for_fill_pre; auto. intros i d Hi Hl.
  rewrite (rd_nth src i d0) by lia. cbn [bind]. apply wr_ok. lia.
Qed.

Lemma map2_into_spec f (dst a b : list T) n :
  n <= length dst -> n <= length a -> n <= length b ->
  map2_into f dst a b n = Ok (tab n (fun i => f (nth i a d0) (nth i b d0)) ++ skipn n dst).
Proof.
  intros Hd Ha Hb. apply for_fill_pre; auto. intros i d Hi Hl.
  rewrite (rd_nth a i d0), (rd_nth b i d0) by lia. cbn [bind]. apply wr_ok. lia.
Qed.

Lemma for_inplace (f : nat -> T -> T) n body dst :
  n <= length dst ->
  (forall i d, i < n -> length d = length dst -> body i d = Ok (upd d i (f i (nth i d d0)))) ->
  for_ n body dst = Ok (tab n (fun i => f i (nth i dst d0)) ++ skipn n dst).
Proof.
  intros Hl Hb.
  destruct (for_scatter d0 (fun i => i) f n body dst) as (d & E & L & I & J); auto.
  - intros; lia.
  - rewrite E. f_equal. apply (list_ext_nth d0).
    + rewrite app_length, tab_length, skipn_length. lia.
    + intros p Hp. destruct (Nat.lt_ge_cases p n).
      * rewrite app_nth1 by (rewrite tab_length; auto). rewrite nth_tab by auto. now apply I.
      * rewrite J by (intros; lia). rewrite app_nth2 by (rewrite tab_length; auto).
        rewrite tab_length, nth_skipn_add. f_equal. lia.
Qed.

Lemma map_inplace_spec f (dst : list T) n :
  n <= length dst ->
  map_inplace f dst n = Ok (tab n (fun i => f (nth i dst d0)) ++ skipn n dst).
Proof.
  intros Hd. apply (for_inplace (fun _ => f)); auto. intros i d Hi Hl.
  rewrite (rd_nth d i d0) by lia. cbn [bind]. apply wr_ok. lia.
Qed.

Lemma map2_inplace_spec f (dst b : list T) n :
  n <= length dst -> n <= length b ->
  map2_inplace f dst b n = Ok (tab n (fun i => f (nth i dst d0) (nth i b d0)) ++ skipn n dst).
Proof.
  intros Hd Hb. apply (for_inplace (fun i x => f x (nth i b d0))); auto. intros i d Hi Hl.
  rewrite (rd_nth d i d0), (rd_nth b i d0) by lia. cbn [bind]. apply wr_ok. lia.
Qed.

Lemma mul_add_le i m j n : i < m -> j < n -> i * n + j < m * n.
Proof. intros. nia. Qed.

Lemma matarr_mul_spec (dst mat src : list T) rows cols :
  rows <= length dst -> rows * cols <= length mat -> cols <= length src ->
  matarr_mul_no_check dst mat src rows cols =
  Ok (tab rows (fun i => nsum cols (fun j => nmul (nth (i * cols + j) mat d0) (nth j src d0)))
      ++ skipn rows dst).
Proof.
  intros Hd Hm Hs. apply for_fill_pre; auto. intros i d Hi Hl.
  rewrite wr_ok by lia. cbn [bind].
  rewrite (for_acc_cell (fun j => nmul (nth (i * cols + j) mat d0) (nth j src d0)) i _ _ _ d0).
  - rewrite upd_upd, nth_upd_eq by lia. reflexivity.
  - rewrite upd_length. lia.
  - intros j e Hj He. rewrite upd_length in He.
    pose proof (mul_add_le i rows j cols Hi Hj).
    rewrite (rd_nth mat _ d0), (rd_nth src _ d0), (rd_nth e _ d0) by lia. cbn [bind].
    apply wr_ok. lia.
Qed.

Lemma dense_row_spec (dst src w bias : list T) inp i :
  i < length dst -> i * inp + inp <= length w -> inp <= length src -> i < length bias ->
  dense_row dst src w bias inp i =
  Ok (upd dst i (nsum_from (nth i bias d0) inp
        (fun j => nmul (nth (i * inp + j) w d0) (nth j src d0)))).
Proof.
  intros Hd Hw Hs Hb. unfold dense_row. rewrite (rd_nth bias i d0) by auto. cbn [bind].
  rewrite wr_ok by auto. cbn [bind].
  rewrite (for_acc_cell (fun j => nmul (nth (i * inp + j) w d0) (nth j src d0)) i _ _ _ d0).
  - rewrite upd_upd, nth_upd_eq by lia. reflexivity.
  - rewrite upd_length. lia.
  - intros j e Hj He. rewrite upd_length in He.
    rewrite (rd_nth w _ d0), (rd_nth src _ d0), (rd_nth e _ d0) by lia. cbn [bind].
    apply wr_ok. lia.
Qed.

Lemma dense_spec (dst src w bias : list T) inp out :
  out <= length dst -> out * inp <= length w -> inp <= length src -> out <= length bias ->
  dense dst src w bias inp out =
  Ok (tab out (fun i => nsum_from (nth i bias d0) inp
        (fun j => nmul (nth (i * inp + j) w d0) (nth j src d0))) ++ skipn out dst).
Proof.
  intros Hd Hw Hs Hb. apply for_fill_pre; auto. intros i d Hi Hl.
  apply dense_row_spec; try lia. nia.
Qed.

Lemma fill0_spec (l : list T) n : n <= length l ->
  fill0 l n = Ok (tab n (fun _ => n0) ++ skipn n l).
Proof.
  intros Hn. apply for_fill_pre; auto. intros i d Hi Hl. apply wr_ok. lia.
Qed.

Lemma dense_1_row_spec (g last w ig wg bg : list T) inp i :
  i < length g -> inp <= length last -> i * inp + inp <= length w ->
  inp <= length ig -> i * inp + inp <= length wg -> i < length bg ->
  exists ig' wg', dense_1_row g last w inp i (ig, wg, bg)
    = Ok (ig', wg', upd bg i (nadd (nth i bg d0) (nth i g d0))) /\
    length ig' = length ig /\ length wg' = length wg /\
    (forall p, nth p ig' d0 =
       if p <? inp then nadd (nth p ig d0) (nmul (nth i g d0) (nth (i * inp + p) w d0))
       else nth p ig d0) /\
    (forall p, nth p wg' d0 =
       if (i * inp <=? p) && (p <? i * inp + inp)
       then nadd (nth p wg d0) (nmul (nth i g d0) (nth (p - i * inp) last d0))
       else nth p wg d0).
Proof.
  intros Hg Hx Hw Hig Hwg Hbg. unfold dense_1_row.
  rewrite (rd_nth g i d0), (rd_nth bg i d0) by auto. cbn [bind].
  rewrite wr_ok by auto. cbn [bind].
  set (bg' := upd bg i _).
  match goal with |- context [for_ inp ?b ?s] => destruct (for_inv (fun k st =>
    let '(ig', wg', b') := st in b' = bg' /\ length ig' = length ig /\ length wg' = length wg /\
    (forall p, nth p ig' d0 =
       if p <? k then nadd (nth p ig d0) (nmul (nth i g d0) (nth (i * inp + p) w d0))
       else nth p ig d0) /\
    (forall p, nth p wg' d0 =
       if (i * inp <=? p) && (p <? i * inp + k)
       then nadd (nth p wg d0) (nmul (nth i g d0) (nth (p - i * inp) last d0))
       else nth p wg d0)) inp b s) as (((ig', wg'), b') & E & -> & L1 & L2 & I1 & I2) end.
  - repeat split; auto. intros p. destruct (Nat.leb_spec (i * inp) p); auto.
    destruct (Nat.ltb_spec p (i * inp + 0)); auto; lia.
  - intros k ((a, b), c) Hk (-> & La & Lb & Ia & Ib).
    cbv beta iota. rewrite (rd_nth last k d0), (rd_nth b _ d0) by lia. cbn [bind].
    rewrite wr_ok by lia. cbn [bind].
    rewrite (rd_nth w _ d0), (rd_nth a _ d0) by lia. cbn [bind].
    rewrite wr_ok by lia. cbn [bind].
    eexists. split; [reflexivity|]. cbv beta iota. rewrite !upd_length. split; [auto|].
    split; [auto|]. split; [auto|]. split.
    + intros p. rewrite nth_upd. destruct (Nat.eqb_spec p k) as [->|Hne]; simpl.
      * destruct (Nat.ltb_spec k (length a)); [|lia].
        destruct (Nat.ltb_spec k (S k)); [|lia]. rewrite Ia.
        destruct (Nat.ltb_spec k k); [lia|reflexivity].
      * rewrite Ia. destruct (Nat.ltb_spec p k), (Nat.ltb_spec p (S k)); auto; lia.
    + intros p. rewrite nth_upd. destruct (Nat.eqb_spec p (i * inp + k)) as [->|Hne]; simpl.
      * destruct (Nat.ltb_spec (i * inp + k) (length b)); [|lia]. rewrite Ib.
        destruct (Nat.leb_spec (i * inp) (i * inp + k)); [|lia]. simpl.
        destruct (Nat.ltb_spec (i * inp + k) (i * inp + S k)); [|lia].
        destruct (Nat.ltb_spec (i * inp + k) (i * inp + k)); [lia|].
        do 3 f_equal. lia.
      * rewrite Ib. destruct (Nat.leb_spec (i * inp) p); simpl; auto.
        destruct (Nat.ltb_spec p (i * inp + k)), (Nat.ltb_spec p (i * inp + S k)); auto; lia.
  - exists ig', wg'. auto.
Qed.

Lemma dense_1_spec (ig wg bg g last w : list T) inp out :
  inp <= length ig -> out * inp <= length wg -> out <= length bg ->
  out <= length g -> inp <= length last -> out * inp <= length w ->
  exists ig' wg' bg', dense_1 ig wg bg g last w inp out = Ok (ig', wg', bg') /\
    length ig' = length ig /\ length wg' = length wg /\ length bg' = length bg /\
    (forall p, nth p ig' d0 =
       if p <? inp then nsum out (fun i => nmul (nth i g d0) (nth (i * inp + p) w d0))
       else nth p ig d0) /\
    (forall i j, i < out -> j < inp -> nth (i * inp + j) wg' d0 =
       nadd (nth (i * inp + j) wg d0) (nmul (nth i g d0) (nth j last d0))) /\
    (forall p, out * inp <= p -> nth p wg' d0 = nth p wg d0) /\
    (forall p, nth p bg' d0 = if p <? out then nadd (nth p bg d0) (nth p g d0)
                              else nth p bg d0).
Proof.
  intros Hig Hwg Hbg Hg Hx Hw. unfold dense_1.
  rewrite fill0_spec by auto. cbn [bind].
  set (ig0 := tab inp (fun _ => n0) ++ skipn inp ig).
  assert (L0 : length ig0 = length ig).
  { unfold ig0. rewrite app_length, tab_length, skipn_length. lia. }
  assert (I0 : forall p, nth p ig0 d0 = if p <? inp then n0 else nth p ig d0).
  { intros p. unfold ig0. destruct (Nat.ltb_spec p inp).
    - rewrite app_nth1, nth_tab by (rewrite ?tab_length; auto). reflexivity.
    - rewrite app_nth2, tab_length, nth_skipn_add by (rewrite tab_length; auto).
      f_equal. lia. }
  match goal with |- context [for_ out ?b ?s] => destruct (for_inv (fun k st =>
    let '(ig', wg', bg') := st in
    length ig' = length ig /\ length wg' = length wg /\ length bg' = length bg /\
    (forall p, nth p ig' d0 =
       if p <? inp then nsum k (fun i => nmul (nth i g d0) (nth (i * inp + p) w d0))
       else nth p ig d0) /\
    (forall i j, i < k -> j < inp -> nth (i * inp + j) wg' d0 =
       nadd (nth (i * inp + j) wg d0) (nmul (nth i g d0) (nth j last d0))) /\
    (forall p, k * inp <= p -> nth p wg' d0 = nth p wg d0) /\
    (forall p, nth p bg' d0 = if p <? k then nadd (nth p bg d0) (nth p g d0)
                              else nth p bg d0)) out b s)
    as (((ig', wg'), bg') & E & R) end.
  - repeat split; auto. intros i j Hi. lia.
  - intros k ((a, b), c) Hk (La & Lb & Lc & Ia & Ib & Ib' & Ic).
    assert (Hki : k * inp + inp <= out * inp) by nia.
    destruct (dense_1_row_spec g last w a b c inp k)
      as (a' & b' & E & La' & Lb' & Ia' & Ib''); try lia.
    rewrite E. eexists. split; [reflexivity|]. cbv beta iota.
    rewrite upd_length. split; [lia|]. split; [lia|]. split; [lia|].
    split; [|split; [|split]].
    + intros p. rewrite Ia', Ia. destruct (Nat.ltb_spec p inp); auto.
      unfold nsum. now rewrite nsum_from_S.
    + intros i j Hi Hj. rewrite Ib''.
      destruct (Nat.eq_dec i k) as [->|Hne].
      * destruct (Nat.leb_spec (k * inp) (k * inp + j)); [|lia]. simpl.
        destruct (Nat.ltb_spec (k * inp + j) (k * inp + inp)); [|lia].
        rewrite Ib' by lia. do 3 f_equal. lia.
      * assert (i * inp + j < k * inp) by (apply mul_add_le; lia).
        destruct (Nat.leb_spec (k * inp) (i * inp + j)); [lia|]. simpl. apply Ib; lia.
    + intros p Hp. rewrite Ib''.
      destruct (Nat.ltb_spec p (k * inp + inp)); [simpl in Hp; lia|].
      rewrite andb_false_r. apply Ib'. simpl in Hp. lia.
    + intros p. rewrite nth_upd. destruct (Nat.eqb_spec p k) as [->|Hne]; simpl.
      * destruct (Nat.ltb_spec k (length c)); [|lia].
        destruct (Nat.ltb_spec k (S k)); [|lia]. rewrite Ic.
        destruct (Nat.ltb_spec k k); [lia|reflexivity].
      * rewrite Ic. destruct (Nat.ltb_spec p k), (Nat.ltb_spec p (S k)); auto; lia.
  - exists ig', wg', bg'. split; [exact E|exact R].
Qed.

(** *** Softmax *)
Lemma softmax_with_spec (e : T -> T) (dst src : list T) n :
  n <= length dst -> n <= length src ->
  softmax_with e dst src n =
  Ok (tab n (fun i => nmul (e (nth i src d0)) (ndiv n1 (nsum n (fun j => e (nth j src d0)))))
      ++ skipn n dst).
Proof.
  intros Hd Hs. unfold softmax_with.
  match goal with |- context [for_ n ?b ?z] =>
    destruct (for_inv (fun k (st : list T * T) => let (d, s) := st in length d = length dst /\
      s = nsum k (fun j => e (nth j src d0)) /\
      forall p, nth p d d0 = if p <? k then e (nth p src d0) else nth p dst d0) n b z)
      as ((d, s') & E & L & -> & I) end.
  - auto.
  - intros k (d, s) Hk (L & -> & I).
    rewrite (rd_nth src k d0) by lia. cbn [bind]. rewrite wr_ok by lia. cbn [bind].
    rewrite (rd_nth _ k d0) by (rewrite upd_length; lia). cbn [bind].
    eexists. split; [reflexivity|]. cbv beta iota. rewrite upd_length. split; [auto|]. split.
    + rewrite nth_upd_eq by lia. unfold nsum. now rewrite nsum_from_S.
    + intros p. rewrite nth_upd. destruct (Nat.eqb_spec p k) as [->|Hne]; simpl.
      * destruct (Nat.ltb_spec k (length d)); [|lia].
        destruct (Nat.ltb_spec k (S k)); [auto|lia].
      * rewrite I. destruct (Nat.ltb_spec p k), (Nat.ltb_spec p (S k)); auto; lia.
  - rewrite E. cbn [bind]. rewrite map_inplace_spec by lia. f_equal.
    assert (Es : skipn n d = skipn n dst).
    { apply (list_ext_nth d0); [rewrite !skipn_length; lia|].
      intros p Hp. rewrite !nth_skipn_add, I. destruct (Nat.ltb_spec (n + p) n); auto; lia. }
    rewrite Es. f_equal. apply tab_ext. intros i Hi. rewrite I.
    destruct (Nat.ltb_spec i n); [auto|lia].
Qed.

(** *** max_element *)
Definition strict_weak : Prop :=
  (forall a, nltb a a = false) /\
  (forall a b c, nltb a b = true -> nltb b c = true -> nltb a c = true) /\
  (forall a b c, nltb b a = false -> nltb c b = false -> nltb c a = false).

Lemma max_element_spec (src : list T) n :
  strict_weak -> 0 < n -> n <= length src ->
  exists m, max_element src n = Ok m /\ m < n /\
    (forall i, i < n -> nltb (nth m src d0) (nth i src d0) = false) /\
    (forall i, i < m -> nltb (nth i src d0) (nth m src d0) = true).
Proof.
  intros (Hirr & Htr & Hneg) Hn Hs. unfold max_element.
  destruct (Nat.eqb_spec n 0); [lia|].
  match goal with |- context [for_from 1 (n - 1) ?b ?s] =>
    destruct (for_from_inv (fun k m => m < k /\
      (forall i, i < k -> nltb (nth m src d0) (nth i src d0) = false) /\
      (forall i, i < m -> nltb (nth i src d0) (nth m src d0) = true)) 1 (n - 1) b s)
      as (m & E & Hm & H1' & H2') end.
  - split; [lia|]. split; intros i Hi; [|lia].
    assert (i = 0) by lia. subst i. apply Hirr.
  - intros k m Hk (Hm & I1 & I2).
    rewrite (rd_nth src m d0), (rd_nth src k d0) by lia. cbn [bind].
    eexists. split; [reflexivity|].
    destruct (nltb (nth m src d0) (nth k src d0)) eqn:E.
    + split; [lia|].
      assert (G : forall i, i < k -> nltb (nth i src d0) (nth k src d0) = true).
      { intros i Hi. destruct (nltb (nth i src d0) (nth k src d0)) eqn:Ei; auto.
        exfalso. specialize (I1 i Hi).
        assert (nltb (nth m src d0) (nth k src d0) = false) by (apply (Hneg _ (nth i src d0)); auto).
        congruence. }
      split; [|exact G]. intros i Hi. destruct (Nat.eq_dec i k) as [->|]; [apply Hirr|].
      destruct (nltb (nth k src d0) (nth i src d0)) eqn:Ei; auto.
      specialize (G i ltac:(lia)).
      specialize (Htr _ _ _ Ei G). rewrite Hirr in Htr. discriminate.
    + split; [lia|]. split; [|exact I2]. intros i Hi.
      destruct (Nat.eq_dec i k) as [->|]; auto. apply I1. lia.
  - exists m. replace (1 + (n - 1)) with n in * by lia. auto.
Qed.

Lemma max_element_nil (src : list T) : max_element src 0 = Ok 0.
Proof. reflexivity. Qed.

Lemma max_spec (src : list T) n :
  strict_weak -> 0 < n -> n <= length src ->
  exists m, argmax src n = Ok m /\ max_ src n = Ok (nth m src d0) /\
    max_and_argmax src n = Ok (nth m src d0, m) /\ m < n /\
    (forall i, i < n -> nltb (nth m src d0) (nth i src d0) = false) /\
    (forall i, i < m -> nltb (nth i src d0) (nth m src d0) = true).
Proof.
  intros Hw Hn Hs. destruct (max_element_spec src n Hw Hn Hs) as (m & E & Hm & I1 & I2).
  exists m. unfold argmax, max_, max_and_argmax. rewrite E. cbn [bind].
  destruct (Nat.ltb_spec m n); [|lia]. unfold require. cbn [bind].
  rewrite (rd_nth src m d0) by lia. cbn [bind]. auto 10.
Qed.

Lemma softmax_1_opt_spec (dst src grad : list T) n :
  n <= length dst -> n <= length src -> n <= length grad ->
  softmax_1_opt dst src grad n =
  Ok (tab n (fun i => nsum n (fun j =>
        nmul (nmul (nth i src d0) (nsub (if i =? j then n1 else n0) (nth j src d0)))
             (nth j grad d0))) ++ skipn n dst).
Proof.
  intros Hd Hs Hg. apply for_fill_pre; auto. intros i d Hi Hl.
  rewrite wr_ok by lia. cbn [bind].
  rewrite (for_acc_cell (fun j =>
    nmul (nmul (nth i src d0) (nsub (if i =? j then n1 else n0) (nth j src d0)))
         (nth j grad d0)) i _ _ _ d0).
  - rewrite upd_upd, nth_upd_eq by lia. reflexivity.
  - rewrite upd_length. lia.
  - intros j e Hj He. rewrite upd_length in He.
    rewrite (rd_nth src i d0), (rd_nth src j d0), (rd_nth grad j d0), (rd_nth e i d0) by lia.
    cbn [bind]. apply wr_ok. lia.
Qed.

(** *** Losses *)
Lemma for_acc_val (t : nat -> T) n body acc :
  (forall i a, i < n -> body i a = Ok (nadd a (t i))) ->
  for_ n body acc = Ok (nsum_from acc n t).
Proof.
  intros Hb. induction n as [|n IH]; [reflexivity|].
  rewrite for_S, IH by (intros; apply Hb; lia). cbn [bind].
  rewrite Hb by lia. now rewrite nsum_from_S.
Qed.

Lemma cross_entropy_spec (y y_hat : list T) n :
  n <= length y -> n <= length y_hat ->
  cross_entropy y y_hat n = Ok (nsum n (fun i => cross_entropy1 (nth i y d0) (nth i y_hat d0))).
Proof.
  intros Hy Hh. apply for_acc_val. intros i a Hi.
  rewrite (rd_nth y i d0), (rd_nth y_hat i d0) by lia. reflexivity.
Qed.

Lemma mean_squared_error_spec (y y_hat : list T) n :
  n <= length y -> n <= length y_hat ->
  mean_squared_error y y_hat n =
  Ok (ndiv (nsum n (fun i => squared_error (nth i y d0) (nth i y_hat d0))) (nofnat n)).
Proof.
  intros Hy Hh. unfold mean_squared_error.
  rewrite (for_acc_val (fun i => squared_error (nth i y d0) (nth i y_hat d0))); [reflexivity|].
  intros i a Hi. rewrite (rd_nth y i d0), (rd_nth y_hat i d0) by lia. reflexivity.
Qed.

End Generic.

(** *** Real instances *)
Lemma strict_weak_R : @strict_weak R NumR.
Proof.
  split; [|split]; intros; cbn [nltb NumR] in *; rewrite ?Rltb_false, ?Rltb_true in *; lra.
Qed.
