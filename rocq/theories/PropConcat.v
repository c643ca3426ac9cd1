(** C28: the concatenate layer. *)
From Verif Require Import Base Num ArrayModel ArraySpec ArrayProofs PropArray ConcatModel.
Local Open Scope nat_scope.

Definition lmax (bs : list nat) : nat := fold_right Nat.max 0 bs.

Section Concat.
Context {T : Type} `{NumOps T}.

(** Shapes that agree except along the axis, whose extents are [bs]. *)
Definition shapes (pre post bs : list nat) : list (list nat) := map (fun b => pre ++ b :: post) bs.

Lemma rd_axis {pre post : list nat} {b} : rd (pre ++ b :: post) (length pre) = Ok b.
Proof. apply rd_ok. rewrite nth_error_app2 by lia. now rewrite Nat.sub_diag. Qed.
Lemma wr_axis {pre post : list nat} {b c} : wr (pre ++ b :: post) (length pre) c = Ok (pre ++ c :: post).
Proof.
  rewrite wr_ok by (rewrite app_length; cbn; lia). rewrite upd_app.
  destruct (Nat.ltb_spec (length pre) (length pre)); [lia|]. now rewrite Nat.sub_diag.
Qed.
Lemma at_axis {pre post : list nat} {b} : at_chk (pre ++ b :: post) (length pre) = Ok b.
Proof. unfold at_chk. rewrite nth_error_app2 by lia. now rewrite Nat.sub_diag. Qed.

Lemma check_ok pre post bs : length pre + length post = 2 -> bs <> [] ->
  concat_check (shapes pre post bs) (length pre) = Ok tt.
Proof.
  intros L NB. unfold concat_check. destruct bs as [|b0 bs]; [congruence|].
  cbn [shapes map]. replace (length pre <? 3) with true by (symmetry; apply Nat.ltb_lt; lia). cbn [guard bind].
  change ((pre ++ b0 :: post) :: map _ bs) with (shapes pre post (b0 :: bs)).
  assert (LS : length (shapes pre post (b0 :: bs)) = S (length bs)) by (unfold shapes; rewrite map_length; reflexivity).
  destruct (for_from_inv (fun (_ : nat) (u : unit) => u = tt) 1 (length (shapes pre post (b0 :: bs)) - 1)
    (fun k _ => for_ 3 (fun i _ =>
       a <- rd (shapes pre post (b0 :: bs)) (k - 1) ;; b <- rd (shapes pre post (b0 :: bs)) k ;;
       x <- rd a i ;; y <- rd b i ;; guard (negb (negb (i =? length pre) && negb (x =? y)))) tt) tt) as (u & E & Eu).
  - reflexivity.
  - intros k u Hk _.
    assert (G : forall j, j < S (length bs) -> exists b, rd (shapes pre post (b0 :: bs)) j = Ok (pre ++ b :: post)).
    { intros j Hj. exists (nth j (b0 :: bs) 0). apply rd_ok. unfold shapes.
      apply (map_nth_error (fun b => pre ++ b :: post)). now apply nth_error_nth'. }
    destruct (G (k - 1)) as (b1 & E1); [lia|]. destruct (G k) as (b2 & E2); [lia|].
    rewrite E1, E2. cbn [bind].
    destruct (for_inv (fun (_ : nat) (u : unit) => u = tt) 3 (fun i _ =>
       x <- rd (pre ++ b1 :: post) i ;; y <- rd (pre ++ b2 :: post) i ;; guard (negb (negb (i =? length pre) && negb (x =? y)))) tt)
      as (v & Ev & Qv); [reflexivity| |exists v; auto].
    intros i v Hi _. exists tt. split; [|reflexivity].
    rewrite (rd_nth (pre ++ b1 :: post) i 0) by (rewrite app_length; cbn; lia).
    rewrite (rd_nth (pre ++ b2 :: post) i 0) by (rewrite app_length; cbn; lia). cbn [bind].
    destruct (Nat.eqb_spec i (length pre)) as [->|Hne]; [reflexivity|].
    replace (nth i (pre ++ b2 :: post) 0) with (nth i (pre ++ b1 :: post) 0); [now rewrite Nat.eqb_refl|].
    destruct (Nat.lt_ge_cases i (length pre)).
    + rewrite !app_nth1 by lia. reflexivity.
    + rewrite !app_nth2 by lia. destruct (i - length pre) eqn:Ei; [lia|reflexivity].
  - cbn [length shapes map] in E |- *. rewrite E. now subst u.
Qed.

Lemma input_shape_ok pre post bs : length pre + length post = 2 -> bs <> [] ->
  concat_input_shape (shapes pre post bs) (length pre) = Ok (pre ++ lmax bs :: post).
Proof.
  intros L NB. unfold concat_input_shape. rewrite check_ok by assumption. cbn [bind].
  destruct bs as [|b0 bs]; [congruence|]. cbn [shapes map rd nth_error bind tl].
  assert (G : forall bs b, foldM (fun s sh => a <- rd s (length pre) ;; b <- rd sh (length pre) ;; if a <? b then wr s (length pre) b else Ok s)
    (map (fun b => pre ++ b :: post) bs) (pre ++ b :: post) = Ok (pre ++ Nat.max b (lmax bs) :: post)).
  { clear. induction bs as [|c bs IH]; intros b.
    - cbn. do 3 f_equal. lia.
    - cbn [map foldM]. rewrite !rd_axis. cbn [bind]. destruct (Nat.ltb_spec b c).
      + rewrite wr_axis. cbn [bind]. rewrite IH. do 3 f_equal. cbn [lmax fold_right]. fold (lmax bs). lia.
      + cbn [bind]. rewrite IH. do 3 f_equal. cbn [lmax fold_right]. fold (lmax bs). lia. }
  apply G.
Qed.
Lemma output_shape_ok pre post bs : length pre + length post = 2 -> bs <> [] ->
  concat_output_shape (shapes pre post bs) (length pre) = Ok (pre ++ sumn bs :: post).
Proof.
  intros L NB. unfold concat_output_shape. rewrite check_ok by assumption. cbn [bind].
  destruct bs as [|b0 bs]; [congruence|]. cbn [shapes map rd nth_error bind tl].
  assert (G : forall bs b, foldM (fun s sh => a <- rd s (length pre) ;; b <- rd sh (length pre) ;; wr s (length pre) (a + b))
    (map (fun b => pre ++ b :: post) bs) (pre ++ b :: post) = Ok (pre ++ (b + sumn bs) :: post)).
  { clear. induction bs as [|c bs IH]; intros b.
    - cbn. do 3 f_equal. lia.
    - cbn [map foldM]. rewrite !rd_axis. cbn [bind]. rewrite wr_axis. cbn [bind]. rewrite IH. do 3 f_equal.
      cbn [sumn fold_right]. fold (sumn bs). lia. }
  apply G.
Qed.
Lemma new_ok pre post bs : length pre + length post = 2 -> bs <> [] ->
  concl_new (shapes pre post bs) (length pre) =
  Ok (mkConcl (length pre) [pre ++ lmax bs :: post] (pre ++ sumn bs :: post) 0 [0; 0; 0] (repeat n0 (prod (pre ++ sumn bs :: post)))).
Proof.
  intros L NB. unfold concl_new. rewrite input_shape_ok, output_shape_ok by assumption. cbn [bind]. now rewrite shape_size_prod.
Qed.

(** ** C28 *)
(** What the first call does: the input is taken to have the largest extent [m] and is put
    at [m], not at 0. *)
Theorem c28_first_call_actual : forall pre post bs x l,
  length pre + length post = 2 -> bs <> [] ->
  concl_new (shapes pre post bs) (length pre) = Ok l ->
  let m := lmax bs in let a := sumn bs in
  2 * m <= a -> length x = prod (pre ++ m :: post) ->
  exists l', concl_forward l x = Ok l' /\
    forall ip k iq, inb pre ip -> k < a -> inb post iq ->
      at_ n0 (pre ++ a :: post) (c_buf l') (ip ++ k :: iq) =
      if (m <=? k) && (k <? 2 * m) then at_ n0 (pre ++ m :: post) x (ip ++ (k - m) :: iq) else n0.
Proof.
  intros pre post bs x l L NB E m a Ha Hx. rewrite new_ok in E by assumption. injection E as <-.
  unfold concl_forward. cbn [c_cur c_ins c_axis c_outsh c_buf c_cursh Nat.eqb rd nth_error bind at_chk length].
  change (0 <? 0) with false. cbv iota.
  rewrite at_axis. cbn [bind]. rewrite rd_axis. cbn [bind].
  destruct (c20_append_places_block T n0 (repeat n0 (prod (pre ++ a :: post))) x pre a m post m) as (d & Ed & Ld & Sd).
  - lia.
  - apply repeat_length.
  - exact Hx.
  - fold m a. rewrite Ed. cbn [bind]. eexists. split; [reflexivity|]. cbn [c_buf]. intros ip k iq H1 H2 H3.
    rewrite (Sd ip k iq H1 H2 H3). replace (m + m) with (2 * m) by lia.
    destruct ((m <=? k) && (k <? 2 * m)); [reflexivity|].
    unfold at_. apply nth_repeat.
Qed.

(** Any second call throws: only one input shape was given to the base class. *)
Theorem c28_second_call_throws : forall shs axis l x l' y,
  concl_new shs axis = Ok l -> concl_forward l x = Ok l' -> concl_forward l' y = Throw.
Proof.
  intros shs axis l x l' y E E1. unfold concl_new in E.
  destruct (concat_input_shape shs axis) as [i| |]; try discriminate. cbn [bind] in E.
  destruct (concat_output_shape shs axis) as [o| |]; try discriminate. cbn [bind] in E. injection E as <-.
  unfold concl_forward in E1. cbn [c_cur c_ins c_axis c_outsh c_buf c_cursh Nat.eqb rd nth_error bind at_chk length] in E1.
  destruct (at_chk i axis) as [ax| |]; try discriminate. cbn [bind] in E1.
  destruct (rd i axis) as [off| |]; try discriminate. cbn [bind] in E1.
  destruct (append _ _ _ _ _ _) as [b| |]; try discriminate. cbn [bind] in E1.
  injection E1 as <-. reflexivity.
Qed.

(** Loops without exceptions. *)
Lemma for_no_throw {S} n (b : nat -> S -> res S) s : (forall i s, b i s <> Throw) -> for_ n b s <> Throw.
Proof.
  intros P. revert s. induction n as [|n IH]; intros s; [discriminate|]. rewrite for_S.
  destruct (for_ n b s) as [s'| |] eqn:E; cbn [bind]; [apply P| |discriminate]. now destruct (IH s).
Qed.

Lemma for_ok_at {S} (P : S -> Prop) n (b : nat -> S -> res S) s s' :
  for_ n b s = Ok s' -> P s -> (forall i s s', b i s = Ok s' -> P s -> P s') ->
  P s' /\ forall i, i < n -> exists t t', P t /\ b i t = Ok t'.
Proof.
  intros E Ps St. revert s' E. induction n as [|n IH]; intros s' E.
  - cbn in E. injection E as <-. split; [exact Ps|]. lia.
  - rewrite for_S in E. destruct (for_ n b s) as [s1| |] eqn:E1; try discriminate. cbn [bind] in E.
    destruct (IH s1 eq_refl) as (P1 & Q). split; [eauto|]. intros i Hi.
    destruct (Nat.eq_dec i n) as [->|Hne]; [eauto|]. apply Q. lia.
Qed.

(** The first call leaves the buffer when the largest input takes more than half of the
    total extent, in particular with a single input. *)
Theorem c28_first_call_outside : forall pre post bs x l,
  length pre + length post = 2 -> bs <> [] ->
  concl_new (shapes pre post bs) (length pre) = Ok l ->
  1 <= prod pre -> 1 <= prod post -> sumn bs < 2 * lmax bs ->
  concl_forward l x = UB.
Proof.
  intros pre post bs x l L NB E P1 P2 Hs. rewrite new_ok in E by assumption. injection E as <-.
  unfold concl_forward. cbn [c_cur c_ins c_axis c_outsh c_buf c_cursh Nat.eqb rd nth_error bind at_chk length].
  change (0 <? 0) with false. cbv iota.
  rewrite at_axis. cbn [bind]. rewrite rd_axis. cbn [bind]. set (m := lmax bs) in *. set (a := sumn bs) in *.
  unfold append, append_at. rewrite axis_products_spec, rd_axis. cbn [bind].
  set (B := fun (i : nat) (dst : list T) => for_ (prod post * m) (fun s dst =>
      v <- rd x (0 + (i * (prod post * m) + s)) ;; wr dst (i * (prod post * a) + prod post * m + s) v) dst).
  assert (NT : for_ (prod pre) B (repeat n0 (prod (pre ++ a :: post))) <> Throw).
  { apply for_no_throw. intros i s. unfold B. apply for_no_throw. intros j d.
    unfold rd. destruct (nth_error x _); cbn [bind]; [|discriminate]. unfold wr. destruct (_ <? _); discriminate. }
  assert (NO : forall d, for_ (prod pre) B (repeat n0 (prod (pre ++ a :: post))) <> Ok d).
  { intros d Ed.
    set (N := prod (pre ++ a :: post)) in *.
    assert (LB : forall i s s', B i s = Ok s' -> length s = N ->
      length s' = N /\ forall j, j < prod post * m -> i * (prod post * a) + prod post * m + j < N).
    { intros i s s' EB Ls. unfold B in EB.
      destruct (for_ok_at (fun d => length d = N) _ _ _ _ EB Ls) as (L' & Q).
      - intros j t t' Et Lt. destruct (rd x _) as [v| |]; try discriminate. cbn [bind] in Et.
        unfold wr in Et. destruct (_ <? _); try discriminate. injection Et as <-. now rewrite upd_length.
      - split; [exact L'|]. intros j Hj. destruct (Q j Hj) as (t & t' & Lt & Et).
        destruct (rd x _) as [v| |]; try discriminate. cbn [bind] in Et. unfold wr in Et.
        destruct (Nat.ltb_spec (i * (prod post * a) + prod post * m + j) (length t)); [lia|discriminate]. }
    destruct (for_ok_at (fun d => length d = N) _ _ _ _ Ed (repeat_length _ _)) as (_ & Q).
    { intros i s s' EB Ls. now apply (LB i s s' EB). }
    destruct (Q (prod pre - 1)) as (t & t' & Lt & Et); [lia|]. destruct (LB _ _ _ Et Lt) as (_ & Q2).
    specialize (Q2 (prod post * m - 1)).
    assert (HN : N = prod pre * (a * prod post)) by (unfold N; rewrite prod_app; cbn [prod fold_right]; reflexivity).
    clear - HN Q2 P1 P2 Hs. assert (1 <= m) by lia.
    assert (1 <= prod post * m) by (destruct (prod post); destruct m; nia).
    specialize (Q2 ltac:(lia)).
    assert (prod post * (a + 1) <= prod post * (2 * m)) by (apply Nat.mul_le_mono_l; lia).
    destruct (prod pre) as [|p]; [lia|]. replace (S p - 1) with p in Q2 by lia.
    assert (S p * (a * prod post) = p * (prod post * a) + prod post * a) by ring. nia. }
  destruct (for_ (prod pre) B _) as [d| |]; [now destruct (NO d)|congruence|reflexivity].
Qed.
End Concat.


(** The claim: forward called once per input leaves the inputs joined along the axis. *)
Definition joins : Prop := forall pre post bs (xs : list (list Z)),
  length pre + length post = 2 -> bs <> [] ->
  Forall2 (fun b x => length x = prod (pre ++ b :: post)) bs xs ->
  exists l l', concl_new (shapes pre post bs) (length pre) = Ok l /\ foldM concl_forward xs l = Ok l' /\
    forall ip k j iq, inb pre ip -> inb post iq -> j < length bs -> k < nth j bs 0 ->
      at_ 0%Z (pre ++ sumn bs :: post) (c_buf l') (ip ++ (sumn (firstn j bs) + k) :: iq) =
      at_ 0%Z (pre ++ nth j bs 0 :: post) (nth j xs []) (ip ++ k :: iq).
Theorem c28_joins_refuted : ~ joins.
Proof.
  intros J. destruct (J [] [1; 1] [1; 1] [[7%Z]; [8%Z]] eq_refl) as (l & l' & E & F & _); [discriminate| |].
  - repeat constructor.
  - assert (V : (l <- concl_new (T:=Z) (shapes [] [1; 1] [1; 1]) 0 ;; foldM concl_forward [[7%Z]; [8%Z]] l) = Throw) by reflexivity.
    cbn [length] in E. rewrite E in V. cbn [bind] in V. rewrite F in V. discriminate.
Qed.
(** Already one input is enough. *)
Theorem c28_one_input_refuted : exists l, concl_new (shapes [] [1; 1] [2]) 0 = Ok l /\ concl_forward l [7%Z; 8%Z] = UB.
Proof. eexists. split; reflexivity. Qed.

Example c28_hypotheses_met : exists l l', concl_new (T:=Z) (shapes [2] [1] [1; 1; 2]) 1 = Ok l /\
  2 * lmax [1; 1; 2] <= sumn [1; 1; 2] /\ concl_forward l [1; 2; 3; 4]%Z = Ok l' /\
  c_buf l' = [0; 0; 1; 2; 0; 0; 3; 4]%Z /\ concl_forward l' [5; 6]%Z = Throw.
Proof. eexists. eexists. split; [reflexivity|]. split; [cbn; lia|]. split; [reflexivity|]. split; reflexivity. Qed.
Example c28_outside_hypotheses_met : sumn [1; 2] < 2 * lmax [1; 2] /\ 1 <= prod [2] /\ 1 <= prod [3].
Proof. cbn. lia. Qed.

Print Assumptions c28_first_call_actual.
Print Assumptions c28_first_call_outside.
Print Assumptions c28_second_call_throws.
Print Assumptions c28_joins_refuted.
Print Assumptions c28_one_input_refuted.
