(** Sliding-window kernels: output sides, forward convolution and pooling. *)
From Verif Require Import Base Num RSum MathModel MathProofs ConvModel ConvSpec.
From Coq Require Import Reals Lra.

(** *** Output side *)
Lemma slide_side_eq n k s p :
  0 < n -> 1 <= k <= n + 2 * p -> 1 <= s -> (Z.of_nat (n + 2 * p) < 2 ^ 64)%Z ->
  slide_side n k s p = (n + 2 * p - k) / s + 1.
Proof.
  intros Hn Hk Hs Hb. unfold slide_side. destruct (Nat.eqb_spec n 0); [lia|].
  rewrite Nat.max_l by lia. unfold w64.
  assert (E : (Z.of_nat n - Z.of_nat k + 2 * Z.of_nat p)%Z = Z.of_nat (n + 2 * p - k)) by lia.
  rewrite E. rewrite (Z.mod_small (Z.of_nat (n + 2 * p - k))) by lia.
  rewrite <- Nat2Z.inj_div by lia.
  assert ((n + 2 * p - k) / s <= n + 2 * p - k) by (apply Nat.div_le_upper_bound; nia).
  rewrite Z.mod_small by lia. lia.
Qed.

Lemma conv_output_side_eq n k s p :
  1 <= s -> conv_output_side n k s p = Ok (slide_side n k s p).
Proof.
  intros Hs. unfold conv_output_side, slide_side. destruct (Nat.eqb_spec n 0); auto.
  destruct (Nat.eqb_spec s 0); [lia|]. cbn [negb require bind]. now rewrite Nat.max_l by lia.
Qed.

Lemma conv_output_side_0 n k p : n <> 0 -> conv_output_side n k 0 p = UB.
Proof. intros Hn. unfold conv_output_side. destruct (Nat.eqb_spec n 0); [lia|reflexivity]. Qed.

(** Window [r] fits iff [r] is below the side. *)
Lemma slide_side_windows n k s p r :
  0 < n -> 1 <= k <= n + 2 * p -> 1 <= s -> (Z.of_nat (n + 2 * p) < 2 ^ 64)%Z ->
  (r < slide_side n k s p <-> r * s + k <= n + 2 * p).
Proof.
  intros Hn Hk Hs Hb. rewrite slide_side_eq by auto.
  pose proof (Nat.div_mod (n + 2 * p - k) s ltac:(lia)) as D.
  pose proof (Nat.mod_upper_bound (n + 2 * p - k) s ltac:(lia)) as M.
  set (q := (n + 2 * p - k) / s) in *. set (m := (n + 2 * p - k) mod s) in *.
  split; intros Hr.
  - assert (r * s <= q * s) by (apply Nat.mul_le_mono_r; lia). lia.
  - destruct (Nat.lt_ge_cases r (q + 1)) as [|Hge]; auto. exfalso.
    assert ((q + 1) * s <= r * s) by (apply Nat.mul_le_mono_r; lia). lia.
Qed.

Lemma slide_side_wrap n k s p :
  0 < n -> n + 2 * p < k -> 1 <= s -> (Z.of_nat k < 2 ^ 64)%Z ->
  Z.of_nat (slide_side n k s p)
  = (((2 ^ 64 - Z.of_nat (k - n - 2 * p)) / Z.of_nat s + 1) mod 2 ^ 64)%Z.
Proof.
  intros Hn Hk Hs Hb. unfold slide_side. destruct (Nat.eqb_spec n 0); [lia|].
  rewrite Nat.max_l by lia. unfold w64.
  assert (E : ((Z.of_nat n - Z.of_nat k + 2 * Z.of_nat p) mod 2 ^ 64)%Z
              = (2 ^ 64 - Z.of_nat (k - n - 2 * p))%Z).
  { symmetry. apply (Z.mod_unique _ _ (-1)); lia. }
  rewrite E. rewrite Z2Nat.id; [reflexivity|]. apply Z.mod_pos_bound. lia.
Qed.

(** *** Loops *)
Lemma slide_fill {T} (d0 : T) (val : nat -> nat -> nat -> T)
    (op : nat -> nat -> nat -> nat -> Z -> Z -> list T -> res (list T)) body
    H W C kh kw sh sw ph pw nf dst hd wd :
  hd = slide_side H kh (Nat.max sh 1) ph -> wd = slide_side W kw (Nat.max sw 1) pw ->
  hd * wd * nf <= length dst ->
  (forall r c d, op hd wd r c (Z.of_nat (r * Nat.max sh 1) - Z.of_nat ph)%Z
     ((Z.of_nat (c * Nat.max sw 1) - Z.of_nat pw) * Z.of_nat C)%Z d
     = for_ nf (body r c) d) ->
  (forall r c k d, r < hd -> c < wd -> k < nf -> length d = length dst ->
     body r c k d = Ok (upd d ((r * wd + c) * nf + k) (val r c k))) ->
  exists dst', kernel_slide op H W C kh kw sh sw ph pw dst = Ok dst' /\
    length dst' = length dst /\
    (forall r c k, r < hd -> c < wd -> k < nf -> nth ((r * wd + c) * nf + k) dst' d0 = val r c k) /\
    (forall p, hd * wd * nf <= p -> nth p dst' d0 = nth p dst d0).
Proof.
  intros Ehd Ewd Hl Hop Hb. unfold kernel_slide. rewrite <- Ehd, <- Ewd.
  rewrite for_nested.
  erewrite for_ext; [|intros q s Hq; apply Hop].
  rewrite for_nested.
  rewrite (for_fill_pre (fun q => val (q / nf / wd) ((q / nf) mod wd) (q mod nf))).
  - eexists. split; [reflexivity|]. split; [|split].
    + rewrite app_length, tab_length, skipn_length. lia.
    + intros r c k Hr Hc Hk.
      assert (H1 : r * wd + c < hd * wd) by (apply mul_add_le; auto).
      assert (H2 : (r * wd + c) * nf + k < hd * wd * nf) by (apply mul_add_le; auto).
      rewrite app_nth1 by (rewrite tab_length; auto). rewrite nth_tab by auto.
      destruct (divmod_unique nf (r * wd + c) k Hk) as [-> ->].
      destruct (divmod_unique wd r c Hc) as [-> ->]. reflexivity.
    + intros p Hp. rewrite app_nth2 by (rewrite tab_length; auto).
      rewrite tab_length, nth_skipn_add. f_equal. lia.
  - exact Hl.
  - intros q d Hq Hd.
    assert (nf <> 0) by (intros ->; lia).
    assert (wd <> 0) by (intros E; rewrite E in Hq; lia).
    assert (Q1 : q / nf < hd * wd) by (apply Nat.div_lt_upper_bound; lia).
    assert (Q2 : q / nf / wd < hd) by (apply Nat.div_lt_upper_bound; lia).
    rewrite Hb; auto; try (apply Nat.mod_upper_bound; auto).
    do 2 f_equal. pose proof (Nat.div_mod q nf). pose proof (Nat.div_mod (q / nf) wd). nia.
Qed.

Lemma rdZ_ok {A} (l : list A) z d0 : (0 <= z < Z.of_nat (length l))%Z ->
  rdZ l z = Ok (nth (Z.to_nat z) l d0).
Proof.
  intros Hz. unfold rdZ. destruct (Z.ltb_spec z 0); [lia|]. apply rd_nth. lia.
Qed.

(** Sum of the terms selected by [b], in loop order. *)
Definition csum {T} `{NumOps T} (n : nat) (b : nat -> bool) (t : nat -> T) : T :=
  fold_left (fun a k => if b k then nadd a (t k) else a) (seq 0 n) n0.

Lemma csum_S {T} `{NumOps T} n b (t : nat -> T) :
  csum (S n) b t = if b n then nadd (csum n b t) (t n) else csum n b t.
Proof. unfold csum. rewrite seq_S, fold_left_app. reflexivity. Qed.

Lemma csum_Rsum n b t : csum n b t = Rsum n (fun k => if b k then t k else 0%R).
Proof.
  induction n as [|n IH]; [reflexivity|]. rewrite csum_S, IH. simpl.
  destruct (b n); simpl; lra.
Qed.

Lemma inside_true row col H W C c b :
  (c < C) ->
  inside row (col * Z.of_nat C + Z.of_nat (b * C + c)) H (W * C)
  = ((0 <=? row) && (row <? Z.of_nat H) && (0 <=? col + Z.of_nat b)
     && (col + Z.of_nat b <? Z.of_nat W))%Z.
Proof.
  intros Hc. unfold inside.
  assert (E : (col * Z.of_nat C + Z.of_nat (b * C + c)
               = (col + Z.of_nat b) * Z.of_nat C + Z.of_nat c)%Z) by lia.
  rewrite E. set (x := (col + Z.of_nat b)%Z). clearbody x. clear E.
  replace (Z.of_nat (W * C)) with (Z.of_nat W * Z.of_nat C)%Z by lia.
  assert (H1 : ((x * Z.of_nat C + Z.of_nat c <? 0) = (x <? 0))%Z).
  { destruct (Z.ltb_spec x 0); [apply Z.ltb_lt|apply Z.ltb_ge]; nia. }
  assert (H2 : ((Z.of_nat W * Z.of_nat C <=? x * Z.of_nat C + Z.of_nat c)
               = (Z.of_nat W <=? x))%Z).
  { destruct (Z.leb_spec (Z.of_nat W) x); [apply Z.leb_le|apply Z.leb_gt]; nia. }
  rewrite H1, H2.
  destruct (Z.ltb_spec x 0), (Z.leb_spec 0 x), (Z.ltb_spec row 0), (Z.leb_spec 0 row),
    (Z.leb_spec (Z.of_nat W) x), (Z.ltb_spec x (Z.of_nat W)),
    (Z.leb_spec (Z.of_nat H) row), (Z.ltb_spec row (Z.of_nat H)); try lia; reflexivity.
Qed.

(** Decomposition of the kernel counter. *)
Lemma ki_split kh kw C ki : ki < kh * kw * C ->
  let a := ki / (kw * C) in let b := (ki / C) mod kw in let c := ki mod C in
  a < kh /\ b < kw /\ c < C /\ 0 < kw * C /\
  ki = (a * kw + b) * C + c /\ ki mod (kw * C) = b * C + c.
Proof.
  intros Hk a b c.
  assert (HC : C <> 0) by (intros ->; lia).
  assert (Hw : kw <> 0) by (intros ->; lia).
  assert (Hc : c < C) by (apply Nat.mod_upper_bound; auto).
  assert (Hb : b < kw) by (apply Nat.mod_upper_bound; auto).
  assert (Hp : 0 < kw * C) by nia.
  assert (Ha : a < kh) by (apply Nat.div_lt_upper_bound; nia).
  assert (Ea : a = ki / C / kw).
  { unfold a. rewrite (Nat.mul_comm kw C). now rewrite Nat.div_div by auto. }
  assert (E : ki = (a * kw + b) * C + c).
  { pose proof (Nat.div_mod ki C HC). pose proof (Nat.div_mod (ki / C) kw Hw).
    rewrite Ea. unfold b, c. nia. }
  repeat split; auto.
  rewrite E at 1. replace ((a * kw + b) * C + c) with (b * C + c + a * (kw * C)) by lia.
  rewrite Nat.mod_add by lia. apply Nat.mod_small. nia.
Qed.

Lemma pix_index H W C y x c :
  (0 <= y < Z.of_nat H)%Z -> (0 <= x < Z.of_nat W)%Z -> c < C ->
  Z.to_nat (y * Z.of_nat (W * C) + (x * Z.of_nat C + Z.of_nat c))
  = (Z.to_nat y * W + Z.to_nat x) * C + c /\
  (Z.to_nat y * W + Z.to_nat x) * C + c < H * W * C.
Proof.
  intros Hy Hx Hc. split.
  - rewrite <- (Z2Nat.id y), <- (Z2Nat.id x) at 1 by lia. lia.
  - apply mul_add_le; auto. apply mul_add_le; lia.
Qed.

Section Forward.
Context {T : Type} {NT : NumOps T}.
Variable d0 : T.

(** One output value as computed: terms outside the image are skipped. *)
Definition conv_cell (src k : list T) (H W C kh kw nf : nat) (y x : Z) (f : nat) : T :=
  csum (kh * kw * C)
    (fun ki => let a := ki / (kw * C) in let b := (ki / C) mod kw in
       ((0 <=? y + Z.of_nat a) && (y + Z.of_nat a <? Z.of_nat H)
        && (0 <=? x + Z.of_nat b) && (x + Z.of_nat b <? Z.of_nat W))%Z)
    (fun ki => let a := ki / (kw * C) in let b := (ki / C) mod kw in
       nmul (pix d0 src H W C (y + Z.of_nat a) (x + Z.of_nat b) (ki mod C))
            (nth (ki * nf + f) k d0)).

Lemma conv_cell_loop (src k : list T) H W C kh kw nf (y x : Z) f :
  H * W * C <= length src -> kh * kw * C * nf <= length k -> f < nf ->
  for_ (kh * kw * C) (fun ki sum =>
      _ <- require (negb (kw * C =? 0)) ;;
      let row_src := (y + Z.of_nat (ki / (kw * C)))%Z in
      let col_src := (x * Z.of_nat C + Z.of_nat (ki mod (kw * C)))%Z in
      if inside row_src col_src H (W * C) then
        v <- rdZ src (row_src * Z.of_nat (W * C) + col_src)%Z ;;
        w <- rd k (ki * nf + f) ;;
        Ok (nadd sum (nmul v w))
      else Ok sum) n0
  = Ok (conv_cell src k H W C kh kw nf y x f).
Proof.
  intros Hs Hk Hf. unfold conv_cell.
  assert (G : forall n, n <= kh * kw * C -> forall b,
    (forall ki s, ki < kh * kw * C -> b ki s = (_ <- require (negb (kw * C =? 0)) ;;
      let row_src := (y + Z.of_nat (ki / (kw * C)))%Z in
      let col_src := (x * Z.of_nat C + Z.of_nat (ki mod (kw * C)))%Z in
      if inside row_src col_src H (W * C) then
        v <- rdZ src (row_src * Z.of_nat (W * C) + col_src)%Z ;;
        w <- rd k (ki * nf + f) ;;
        Ok (nadd s (nmul v w))
      else Ok s)) ->
    for_ n b n0 = Ok (csum n
    (fun ki => let a := ki / (kw * C) in let b := (ki / C) mod kw in
       ((0 <=? y + Z.of_nat a) && (y + Z.of_nat a <? Z.of_nat H)
        && (0 <=? x + Z.of_nat b) && (x + Z.of_nat b <? Z.of_nat W))%Z)
    (fun ki => let a := ki / (kw * C) in let b := (ki / C) mod kw in
       nmul (pix d0 src H W C (y + Z.of_nat a) (x + Z.of_nat b) (ki mod C))
            (nth (ki * nf + f) k d0)))).
  { induction n as [|n IH]; intros Hn b Hb; [reflexivity|].
    rewrite for_S, IH by (auto; lia). cbn [bind]. rewrite Hb by lia.
    rewrite csum_S. cbv zeta.
    destruct (ki_split kh kw C n ltac:(lia)) as (Ha & Hbb & Hc & Hp & E & Em).
    destruct (Nat.eqb_spec (kw * C) 0); [lia|]. cbn [negb require bind].
    rewrite Em. rewrite inside_true by auto.
    set (Y := (y + Z.of_nat (n / (kw * C)))%Z). set (X := (x + Z.of_nat ((n / C) mod kw))%Z).
    destruct ((0 <=? Y) && (Y <? Z.of_nat H) && (0 <=? X) && (X <? Z.of_nat W))%Z eqn:Ein;
      [|reflexivity].
    unfold pix. rewrite Ein.
    apply andb_prop in Ein. destruct Ein as (Ein & E4).
    apply andb_prop in Ein. destruct Ein as (Ein & E3).
    apply andb_prop in Ein. destruct Ein as (E1 & E2).
    apply Z.leb_le in E1. apply Z.ltb_lt in E2. apply Z.leb_le in E3. apply Z.ltb_lt in E4.
    replace (x * Z.of_nat C + Z.of_nat ((n / C) mod kw * C + n mod C))%Z
      with (X * Z.of_nat C + Z.of_nat (n mod C))%Z by (unfold X; lia).
    destruct (pix_index H W C Y X (n mod C)) as (P1 & P2); [lia|lia|auto|].
    rewrite (rdZ_ok _ _ d0) by (rewrite <- P1 in P2; lia). cbn [bind]. rewrite P1.
    assert (n * nf + f < kh * kw * C * nf) by (apply mul_add_le; auto; lia).
    rewrite (rd_nth k _ d0) by lia. reflexivity. }
  apply G; auto.
Qed.

Lemma cross_correlation_spec (dst src k : list T) H W C kh kw nf sh sw ph pw hd wd :
  hd = slide_side H kh (Nat.max sh 1) ph -> wd = slide_side W kw (Nat.max sw 1) pw ->
  hd * wd * nf <= length dst -> H * W * C <= length src -> kh * kw * C * nf <= length k ->
  exists dst', cross_correlation dst src k H W C kh kw nf sh sw ph pw = Ok dst' /\
    length dst' = length dst /\
    (forall r c f, r < hd -> c < wd -> f < nf ->
       nth ((r * wd + c) * nf + f) dst' d0 =
       conv_cell src k H W C kh kw nf (Z.of_nat (r * Nat.max sh 1) - Z.of_nat ph)
         (Z.of_nat (c * Nat.max sw 1) - Z.of_nat pw) f) /\
    (forall p, hd * wd * nf <= p -> nth p dst' d0 = nth p dst d0).
Proof.
  intros Eh Ew Hd Hs Hk. unfold cross_correlation.
  eapply slide_fill; eauto.
  - intros r c d. unfold conv4d_op. reflexivity.
  - intros r c f d Hr Hc Hf Hl. cbv beta. rewrite conv_cell_loop by auto. cbn [bind].
    assert (r * wd + c < hd * wd) by (apply mul_add_le; auto).
    assert ((r * wd + c) * nf + f < hd * wd * nf) by (apply mul_add_le; auto).
    replace (r * wd * nf + c * nf + f) with ((r * wd + c) * nf + f) by lia.
    apply wr_ok. lia.
Qed.

(** *** Pooling windows *)

(** Source position of cell (a, b) of the window at output (r, c), channel ch. *)
Definition pool_pos (W C sh sw r c a b ch : nat) : nat :=
  ((r * sh + a) * W + (c * sw + b)) * C + ch.

Lemma pool_idx_pos W C kw sh sw r c ch ki :
  pool_idx W C kw (Z.of_nat (r * sh)) (Z.of_nat (c * sw) * Z.of_nat C) ch ki
  = Z.of_nat (pool_pos W C sh sw r c (ki / kw) (ki mod kw) ch).
Proof. unfold pool_idx, pool_pos. lia. Qed.

Lemma pool_pos_lt H W C kh kw sh sw r c a b ch :
  0 < H -> 0 < W -> 1 <= kh <= H -> 1 <= kw <= W -> 1 <= sh -> 1 <= sw ->
  (Z.of_nat H < 2 ^ 64)%Z -> (Z.of_nat W < 2 ^ 64)%Z ->
  r < slide_side H kh sh 0 -> c < slide_side W kw sw 0 -> a < kh -> b < kw -> ch < C ->
  pool_pos W C sh sw r c a b ch < H * W * C.
Proof.
  intros HH HW Hkh Hkw Hsh Hsw BH BW Hr Hc Ha Hb Hch.
  apply slide_side_windows in Hr; try lia. apply slide_side_windows in Hc; try lia.
  unfold pool_pos. apply mul_add_le; auto. apply mul_add_le; lia.
Qed.

Lemma ki_pool kh kw ki : ki < kh * kw -> ki / kw < kh /\ ki mod kw < kw.
Proof.
  intros Hk. assert (kw <> 0) by (intros ->; lia). split.
  - apply Nat.div_lt_upper_bound; lia.
  - apply Nat.mod_upper_bound; auto.
Qed.

(** Running maximum as computed. *)
Definition fold_max (m0 : T) (n : nat) (f : nat -> T) : T :=
  fold_left (fun m i => if nltb m (f i) then f i else m) (seq 1 n) m0.

Lemma fold_max_spec (f : nat -> T) n : strict_weak ->
  (exists i, i < S n /\ fold_max (f 0) n f = f i) /\
  forall i, i < S n -> nltb (fold_max (f 0) n f) (f i) = false.
Proof.
  intros (Hirr & Htr & Hneg). induction n as [|n (IH1 & IH2)].
  - split; [exists 0; auto|]. intros i Hi. assert (i = 0) by lia. subst. apply Hirr.
  - assert (E : fold_max (f 0) (S n) f =
      let m := fold_max (f 0) n f in if nltb m (f (S n)) then f (S n) else m).
    { unfold fold_max. rewrite seq_S, fold_left_app. reflexivity. }
    rewrite E. cbv zeta. set (m := fold_max (f 0) n f) in *.
    destruct (nltb m (f (S n))) eqn:Em.
    + split; [exists (S n); auto|]. intros i Hi.
      destruct (Nat.eq_dec i (S n)) as [->|]; [apply Hirr|].
      destruct (nltb (f (S n)) (f i)) eqn:Ei; auto.
      specialize (IH2 i ltac:(lia)). rewrite (Htr _ _ _ Em Ei) in IH2. discriminate.
    + split; [destruct IH1 as (i & Hi & Ei); exists i; split; [lia|exact Ei]|].
      intros i Hi. destruct (Nat.eq_dec i (S n)) as [->|]; [exact Em|]. apply IH2. lia.
Qed.

Lemma max_pool_spec (dst src : list T) H W C kh kw sh sw hd wd :
  0 < H -> 0 < W -> 1 <= kh <= H -> 1 <= kw <= W -> 1 <= sh -> 1 <= sw ->
  (Z.of_nat H < 2 ^ 64)%Z -> (Z.of_nat W < 2 ^ 64)%Z ->
  hd = slide_side H kh sh 0 -> wd = slide_side W kw sw 0 ->
  hd * wd * C <= length dst -> H * W * C <= length src ->
  exists dst', max_pool dst src H W C kh kw sh sw = Ok dst' /\
    length dst' = length dst /\
    (forall r c ch, r < hd -> c < wd -> ch < C ->
       nth ((r * wd + c) * C + ch) dst' d0 =
       let cell := fun ki => nth (pool_pos W C sh sw r c (ki / kw) (ki mod kw) ch) src d0 in
       fold_max (cell 0) (kh * kw - 1) cell) /\
    (forall p, hd * wd * C <= p -> nth p dst' d0 = nth p dst d0).
Proof.
  intros HH HW Hkh Hkw Hsh Hsw BH BW Eh Ew Hd Hs. unfold max_pool.
  eapply slide_fill; rewrite ?(Nat.max_l sh 1), ?(Nat.max_l sw 1) by lia; eauto.
  - intros r c d. unfold max_pool_op. reflexivity.
  - intros r c ch d Hr Hc Hch Hl. cbv beta.
    set (cell := fun ki => nth (pool_pos W C sh sw r c (ki / kw) (ki mod kw) ch) src d0).
    assert (Hcell : forall ki, ki < kh * kw ->
      rdZ src (pool_idx W C kw (Z.of_nat (r * sh) - Z.of_nat 0)
        ((Z.of_nat (c * sw) - Z.of_nat 0) * Z.of_nat C) ch ki) = Ok (cell ki)).
    { intros ki Hki. rewrite !Z.sub_0_r, pool_idx_pos.
      destruct (ki_pool kh kw ki Hki) as (Ha & Hb).
      assert (Hp : pool_pos W C sh sw r c (ki / kw) (ki mod kw) ch < H * W * C).
      { apply (pool_pos_lt H W C kh kw); auto; congruence. }
      rewrite (rdZ_ok _ _ d0) by lia. now rewrite Nat2Z.id. }
    assert (Hk0 : 0 < kh * kw) by nia.
    assert (E0 : rdZ src ((Z.of_nat (r * sh) - Z.of_nat 0) * Z.of_nat (W * C)
        + (Z.of_nat (c * sw) - Z.of_nat 0) * Z.of_nat C + Z.of_nat ch) = Ok (cell 0)).
    { rewrite <- Hcell by auto. f_equal. unfold pool_idx.
      rewrite Nat.div_0_l, Nat.mod_0_l by lia. lia. }
    rewrite E0. cbn [bind].
    rewrite (for_from_pure (fun ki m => if nltb m (cell ki) then cell ki else m)
               (fun _ _ => True)); auto.
    + cbn [bind].
      assert (r * wd + c < hd * wd) by (apply mul_add_le; auto).
      assert ((r * wd + c) * C + ch < hd * wd * C) by (apply mul_add_le; auto).
      replace (r * (wd * C) + c * C + ch) with ((r * wd + c) * C + ch) by lia.
      apply wr_ok. lia.
    + intros ki m Hki _. split; auto. rewrite Hcell by lia. reflexivity.
Qed.

Lemma avg_pool_spec (dst src : list T) H W C kh kw sh sw hd wd :
  0 < H -> 0 < W -> 1 <= kh <= H -> 1 <= kw <= W -> 1 <= sh -> 1 <= sw ->
  (Z.of_nat H < 2 ^ 64)%Z -> (Z.of_nat W < 2 ^ 64)%Z ->
  hd = slide_side H kh sh 0 -> wd = slide_side W kw sw 0 ->
  hd * wd * C <= length dst -> H * W * C <= length src ->
  exists dst', avg_pool dst src H W C kh kw sh sw = Ok dst' /\
    length dst' = length dst /\
    (forall r c ch, r < hd -> c < wd -> ch < C ->
       nth ((r * wd + c) * C + ch) dst' d0 =
       ndiv (nsum (kh * kw) (fun ki => nth (pool_pos W C sh sw r c (ki / kw) (ki mod kw) ch) src d0))
            (nofnat (kh * kw))) /\
    (forall p, hd * wd * C <= p -> nth p dst' d0 = nth p dst d0).
Proof.
  intros HH HW Hkh Hkw Hsh Hsw BH BW Eh Ew Hd Hs. unfold avg_pool.
  eapply slide_fill; rewrite ?(Nat.max_l sh 1), ?(Nat.max_l sw 1) by lia; eauto.
  - intros r c d. unfold avg_pool_op. reflexivity.
  - intros r c ch d Hr Hc Hch Hl. cbv beta.
    set (cell := fun ki => nth (pool_pos W C sh sw r c (ki / kw) (ki mod kw) ch) src d0).
    rewrite (for_acc_val cell).
    + cbn [bind].
      assert (r * wd + c < hd * wd) by (apply mul_add_le; auto).
      assert ((r * wd + c) * C + ch < hd * wd * C) by (apply mul_add_le; auto).
      replace (r * (wd * C) + c * C + ch) with ((r * wd + c) * C + ch) by lia.
      apply wr_ok. lia.
    + intros ki m Hki. rewrite !Z.sub_0_r, pool_idx_pos.
      destruct (ki_pool kh kw ki Hki) as (Ha & Hb).
      assert (Hp : pool_pos W C sh sw r c (ki / kw) (ki mod kw) ch < H * W * C).
      { apply (pool_pos_lt H W C kh kw); auto; congruence. }
      rewrite (rdZ_ok _ _ d0) by lia. now rewrite Nat2Z.id.
Qed.

End Forward.

(** *** Real instances *)
Local Open Scope R_scope.

Lemma conv_cell_R src k H W C kh kw nf y x f :
  conv_cell 0 src k H W C kh kw nf y x f =
  Rsum kh (fun a => Rsum kw (fun b => Rsum C (fun c =>
    pix 0 src H W C (y + Z.of_nat a) (x + Z.of_nat b) c
    * nth (((a * kw + b) * C + c) * nf + f)%nat k 0))).
Proof.
  unfold conv_cell. rewrite csum_Rsum.
  rewrite Rsum_mul, Rsum_mul. apply Rsum_ext. intros a Ha. apply Rsum_ext. intros b Hb.
  apply Rsum_ext. intros c Hc. cbv zeta.
  assert (Hi : ((a * kw + b) * C + c < kh * kw * C)%nat).
  { apply mul_add_le; auto. apply mul_add_le; auto. }
  destruct (divmod_unique C (a * kw + b) c Hc) as [E1 E2].
  destruct (divmod_unique kw a b Hb) as [E3 E4].
  assert (Ea : (((a * kw + b) * C + c) / (kw * C) = a)%nat).
  { rewrite (Nat.mul_comm kw C), <- Nat.div_div by lia. now rewrite E1. }
  rewrite Ea, E1, E2, E4.
  unfold pix. cbn [nmul NumR].
  destruct ((0 <=? y + Z.of_nat a) && (y + Z.of_nat a <? Z.of_nat H) &&
            (0 <=? x + Z.of_nat b) && (x + Z.of_nat b <? Z.of_nat W))%Z; [reflexivity|].
  lra.
Qed.
