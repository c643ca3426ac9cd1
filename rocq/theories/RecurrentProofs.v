(** Proofs about the recurrent layer: forward and backward in closed form. *)
From Verif Require Import Base Num MathModel MathProofs RecurrentModel.
Local Open Scope nat_scope.

Section Rec.
Context {T : Type} `{NumOps T} `{TransOps T}.

(** [v] written into [buf] at [off]. *)
Definition put (off : nat) (v buf : list T) : list T := firstn off buf ++ v ++ skipn (off + length v) buf.

Lemma put_length off v buf : off + length v <= length buf -> length (put off v buf) = length buf.
Proof. intros L. unfold put. rewrite !app_length, firstn_length, skipn_length. lia. Qed.
Lemma nth_put_in off v buf i d : off + length v <= length buf -> i < length v -> nth (off + i) (put off v buf) d = nth i v d.
Proof.
  intros L Hi. unfold put. rewrite app_nth2 by (rewrite firstn_length; lia).
  rewrite firstn_length, Nat.min_l by lia. replace (off + i - off) with i by lia. now rewrite app_nth1 by lia.
Qed.
Lemma nth_put_out off v buf i d : off + length v <= length buf -> i < off \/ off + length v <= i ->
  nth i (put off v buf) d = nth i buf d.
Proof.
  intros L [Hi|Hi]; unfold put.
  - rewrite app_nth1 by (rewrite firstn_length; lia). now rewrite nth_firstn_lt by lia.
  - rewrite app_nth2 by (rewrite firstn_length; lia). rewrite firstn_length, Nat.min_l by lia.
    rewrite app_nth2 by lia. rewrite nth_skipn_add. f_equal. lia.
Qed.
Lemma skipn_put off v buf : off + length v <= length buf -> skipn off (put off v buf) = v ++ skipn (off + length v) buf.
Proof.
  intros L. unfold put. rewrite skipn_app, firstn_length, Nat.min_l by lia.
  rewrite skipn_all2 by (rewrite firstn_length; lia). now rewrite Nat.sub_diag.
Qed.
Lemma put_put off v w buf : off + length v <= length buf -> length w = length v -> put off w (put off v buf) = put off w buf.
Proof.
  intros L E. apply (list_ext_nth n0).
  - rewrite !put_length; rewrite ?put_length; lia.
  - intros i Hi. rewrite put_length in Hi by (rewrite put_length; lia).
    destruct (Nat.lt_ge_cases i off) as [H1|H1]; [|destruct (Nat.lt_ge_cases i (off + length w)) as [H2|H2]].
    + rewrite !nth_put_out; rewrite ?put_length; lia || auto.
    + replace i with (off + (i - off)) by lia. rewrite !nth_put_in; rewrite ?put_length; try lia. reflexivity.
    + rewrite !nth_put_out; rewrite ?put_length; lia || auto.
Qed.
Lemma at_off_put off n v f buf : off + n <= length buf -> length v = n ->
  f (skipn off buf) = Ok (v ++ skipn n (skipn off buf)) -> at_off off f buf = Ok (put off v buf).
Proof.
  intros L E F. unfold at_off. replace (off <=? length buf) with true by (symmetry; apply Nat.leb_le; lia).
  cbn [require bind]. rewrite F. cbn [bind]. unfold put. do 3 f_equal. rewrite E. apply (list_ext_nth n0).
  - rewrite !skipn_length. lia.
  - intros i Hi. rewrite !nth_skipn_add. f_equal. lia.
Qed.
(** A kernel applied again to the place just written. *)
Lemma at_off_again off n v w f buf : off + n <= length buf -> length v = n -> length w = n ->
  f (v ++ skipn (off + n) buf) = Ok (w ++ skipn n (v ++ skipn (off + n) buf)) ->
  at_off off f (put off v buf) = Ok (put off w buf).
Proof.
  intros L Ev Ew F. rewrite (at_off_put off n w).
  - rewrite put_put by lia. reflexivity.
  - rewrite put_length; lia.
  - exact Ew.
  - rewrite skipn_put, Ev by lia. exact F.
Qed.

(** Buffers of the constructed sizes. *)
Record rec_wf (l : recl T) : Prop := {
  rw_wih : length (r_wih l) = r_in l * r_hid l;
  rw_whh : length (r_whh l) = r_hid l * r_hid l;
  rw_who : length (r_who l) = r_hid l * r_out l;
  rw_bh : length (r_bh l) = r_hid l;
  rw_bo : length (r_bo l) = r_out l;
  rw_gwih : length (r_gwih l) = r_in l * r_hid l;
  rw_gwhh : length (r_gwhh l) = r_hid l * r_hid l;
  rw_gwho : length (r_gwho l) = r_hid l * r_out l;
  rw_gbh : length (r_gbh l) = r_hid l;
  rw_gbo : length (r_gbo l) = r_out l;
  rw_hs : length (r_hs l) = r_hid l * Nat.max (r_steps l) 1;
  rw_act : length (r_act l) = r_out l * r_steps l;
  rw_ig : length (r_ig l) = r_in l * r_steps l
}.
Lemma rec_new_wf n k h s : rec_wf (rec_new n k h s).
Proof. constructor; cbn [rec_new r_in r_out r_hid r_steps r_wih r_whh r_who r_bh r_bo r_gwih r_gwhh r_gwho r_gbh r_gbo r_hs r_act r_ig]; apply repeat_length. Qed.

(** W_ih x_t *)
Definition drive (l : recl T) (x : list T) (t i : nat) : T :=
  nsum (r_in l) (fun j => nmul (nth (i * r_in l + j) (r_wih l) n0) (nth (t * r_in l + j) x n0)).
(** tanh(drive + W_hh p + b_h) *)
Definition hid_of (l : recl T) (x : list T) (t : nat) (p : nat -> T) : list T :=
  tab (r_hid l) (fun i => ntanh (nadd (nadd (drive l x t i)
    (nsum (r_hid l) (fun j => nmul (nth (i * r_hid l + j) (r_whh l) n0) (p j)))) (nth i (r_bh l) n0))).
(** W_ho h + b_o *)
Definition out_of (l : recl T) (h : list T) : list T :=
  tab (r_out l) (fun i => nadd (nsum (r_hid l) (fun j => nmul (nth (i * r_hid l + j) (r_who l) n0) (nth j h n0)))
    (nth i (r_bo l) n0)).

Lemma matarr_ok (dst mat src : list T) rows cols : rows <= length dst -> rows * cols <= length mat -> cols <= length src ->
  matarr_mul false dst mat src rows cols =
  Ok (tab rows (fun i => nsum cols (fun j => nmul (nth (i * cols + j) mat n0) (nth j src n0))) ++ skipn rows dst).
Proof. intros. unfold matarr_mul. cbn [negb guard bind]. now apply matarr_mul_spec. Qed.

Lemma inplace2_app f (v rest b : list T) n : length v = n -> n <= length b ->
  map2_inplace f (v ++ rest) b n = Ok (tab n (fun i => f (nth i v n0) (nth i b n0)) ++ skipn n (v ++ rest)).
Proof.
  intros E L. rewrite (map2_inplace_spec n0) by (rewrite ?app_length; lia). do 2 f_equal. apply tab_ext. intros i Hi.
  now rewrite app_nth1 by lia.
Qed.
Lemma inplace1_app f (v rest : list T) n : length v = n ->
  map_inplace f (v ++ rest) n = Ok (tab n (fun i => f (nth i v n0)) ++ skipn n (v ++ rest)).
Proof.
  intros E. rewrite (map_inplace_spec n0) by (rewrite ?app_length; lia). do 2 f_equal. apply tab_ext. intros i Hi.
  now rewrite app_nth1 by lia.
Qed.

Definition next_slot (l : recl T) (t : nat) : nat := if t =? r_steps l - 1 then 0 else t + 1.

Lemma rec_step_spec l x t hs act tmp : rec_wf l -> r_in l * r_steps l <= length x -> t < r_steps l ->
  length hs = r_hid l * r_steps l -> length act = r_out l * r_steps l -> length tmp = r_hid l ->
  let nx := next_slot l t in
  let hs1 := put (nx * r_hid l) (tab (r_hid l) (drive l x t)) hs in
  let hv := hid_of l x t (fun j => nth (t * r_hid l + j) hs1 n0) in
  exists tmp', rec_step l x t (hs, act, tmp) = Ok (put (nx * r_hid l) hv hs, put (t * r_out l) (out_of l hv) act, tmp') /\
    length tmp' = r_hid l.
Proof.
  intros W Hx Ht Lh La Lt nx hs1 hv. unfold rec_step. fold (next_slot l t). fold nx.
  set (h := r_hid l) in *. set (n := r_in l) in *. set (o := r_out l) in *. set (S := r_steps l) in *.
  assert (Hnx : nx < S) by (unfold nx, next_slot; fold S; destruct (Nat.eqb_spec t (S - 1)); lia).
  assert (B1 : nx * h + h <= length hs) by (rewrite Lh; clear - Hnx; nia).
  assert (B2 : t * h + h <= length hs) by (rewrite Lh; clear - Ht; nia).
  assert (B3 : t * n + n <= length x) by (clear - Hx Ht; nia).
  assert (B4 : t * o + o <= length act) by (rewrite La; clear - Ht; nia).
  rewrite (at_off_put (nx * h) h (tab h (drive l x t))).
  2: exact B1. 2: apply tab_length.
  2: { rewrite matarr_ok; rewrite ?skipn_length, ?(rw_wih l W); try lia.
       do 2 f_equal. apply tab_ext. intros i Hi. unfold drive. fold n.
       apply nsum_from_ext. intros j Hj. now rewrite nth_skipn_add. }
  cbn [bind]. fold hs1.
  assert (L1 : length hs1 = length hs) by (apply put_length; rewrite tab_length; exact B1).
  rewrite matarr_ok; rewrite ?skipn_length, ?(rw_whh l W), ?L1; try (fold h; lia).
  cbn [bind]. rewrite (skipn_all2 tmp) by lia. rewrite app_nil_r.
  set (tm := tab h (fun i => nsum h (fun j => nmul (nth (i * h + j) (r_whh l) n0) (nth j (skipn (t * h) hs1) n0)))).
  unfold hs1 at 1.
  rewrite (at_off_again (nx * h) h _ (tab h (fun i => nadd (nth i (tab h (drive l x t)) n0) (nth i tm n0)))).
  2: exact B1. 2,3: apply tab_length.
  2: { apply inplace2_app; [apply tab_length|]. unfold tm. rewrite tab_length. lia. }
  cbn [bind].
  rewrite (at_off_again (nx * h) h _
    (tab h (fun i => nadd (nth i (tab h (fun i => nadd (nth i (tab h (drive l x t)) n0) (nth i tm n0))) n0) (nth i (r_bh l) n0)))).
  2: exact B1. 2,3: apply tab_length.
  2: { apply inplace2_app; [apply tab_length|]. rewrite (rw_bh l W). fold h. lia. }
  cbn [bind].
  rewrite (at_off_again (nx * h) h _ hv).
  2: exact B1. 2: apply tab_length. 2: unfold hv, hid_of; apply tab_length.
  2: { rewrite inplace1_app by apply tab_length. do 2 f_equal. unfold hv, hid_of. fold h. apply tab_ext. intros i Hi.
       rewrite !nth_tab by exact Hi. unfold tm. rewrite nth_tab by exact Hi. do 3 f_equal.
       apply nsum_from_ext. intros j Hj. now rewrite nth_skipn_add. }
  cbn [bind].
  assert (Lhv : length hv = h) by (unfold hv, hid_of; apply tab_length).
  assert (Eov : at_off (t * o) (fun d => matarr_mul false d (r_who l) (skipn (nx * h) (put (nx * h) hv hs)) o h) act =
     Ok (put (t * o) (tab o (fun i => nsum h (fun j => nmul (nth (i * h + j) (r_who l) n0) (nth j hv n0)))) act)).
  { apply (at_off_put (t * o) o); [exact B4|apply tab_length|].
    rewrite matarr_ok.
    - do 2 f_equal. apply tab_ext. intros i Hi. apply nsum_from_ext. intros j Hj. f_equal.
      rewrite nth_skipn_add, nth_put_in by lia. reflexivity.
    - rewrite skipn_length. lia.
    - rewrite (rw_who l W). fold h o. lia.
    - rewrite skipn_length, put_length by lia. lia. }
  rewrite Eov. cbn [bind].
  rewrite (at_off_again (t * o) o _ (out_of l hv)).
  2: exact B4. 2: apply tab_length. 2: unfold out_of; apply tab_length.
  2: { rewrite inplace2_app; [|apply tab_length|rewrite (rw_bo l W); fold o; lia].
       do 2 f_equal. unfold out_of. fold o h. apply tab_ext. intros i Hi. rewrite nth_tab by exact Hi. reflexivity. }
  cbn [bind]. exists tm. split; [reflexivity|]. apply tab_length.
Qed.

(** The hidden states: [hidden l x 0] is the first slot of _hidden_state. *)
Fixpoint hidden (l : recl T) (x : list T) (t : nat) : list T :=
  match t with
  | 0 => tab (r_hid l) (fun j => nth j (r_hs l) n0)
  | S t' => hid_of l x t' (fun j => nth j (hidden l x t') n0)
  end.
Lemma hidden_length l x t : length (hidden l x t) = r_hid l.
Proof. destruct t; apply tab_length. Qed.

Definition set_forward (l : recl T) (hs act : list T) : recl T :=
  mkRec (r_in l) (r_out l) (r_hid l) (r_steps l) (r_wih l) (r_whh l) (r_who l) (r_bh l) (r_bo l)
        (r_gwih l) (r_gwhh l) (r_gwho l) (r_gbh l) (r_gbo l) hs act (r_ig l).

Lemma hid_of_ext l x t p q : (forall j, j < r_hid l -> p j = q j) -> hid_of l x t p = hid_of l x t q.
Proof.
  intros E. unfold hid_of. apply tab_ext. intros i Hi. do 3 f_equal. apply nsum_from_ext. intros j Hj. now rewrite E.
Qed.

Lemma rec_forward_spec l x : rec_wf l -> r_in l * r_steps l <= length x -> 2 <= r_steps l ->
  exists hs act, rec_forward l x = Ok (set_forward l hs act) /\
    length hs = r_hid l * r_steps l /\ length act = r_out l * r_steps l /\
    (forall t j, 1 <= t < r_steps l -> j < r_hid l -> nth (t * r_hid l + j) hs n0 = nth j (hidden l x t) n0) /\
    (forall j, j < r_hid l -> nth j hs n0 = nth j (hidden l x (r_steps l)) n0) /\
    (forall t i, t < r_steps l -> i < r_out l -> nth (t * r_out l + i) act n0 = nth i (out_of l (hidden l x (S t))) n0).
Proof.
  intros W Hx HS. unfold rec_forward. pose proof (rw_hs l W) as Lh0. rewrite Nat.max_l in Lh0 by lia.
  destruct (for_inv (fun k (st : list T * list T * list T) => let '(hs, act, tmp) := st in
    length hs = r_hid l * r_steps l /\ length act = r_out l * r_steps l /\ length tmp = r_hid l /\
    (forall t j, 1 <= t <= k -> t < r_steps l -> j < r_hid l -> nth (t * r_hid l + j) hs n0 = nth j (hidden l x t) n0) /\
    (forall j, j < r_hid l -> nth j hs n0 = nth j (hidden l x (if k =? r_steps l then k else 0)) n0) /\
    (forall t i, t < k -> i < r_out l -> nth (t * r_out l + i) act n0 = nth i (out_of l (hidden l x (S t))) n0))
    (r_steps l) (rec_step l x) (r_hs l, r_act l, repeat n0 (r_hid l))) as (((hs, act), tmp) & E & P).
  - split; [exact Lh0|]. split; [apply (rw_act l W)|]. split; [apply repeat_length|]. split; [intros; lia|]. split; [|intros; lia].
    intros j Hj. replace (0 =? r_steps l) with false by (symmetry; apply Nat.eqb_neq; lia). cbn [hidden]. now rewrite nth_tab.
  - intros k ((hs, act), tmp) Hk (Lh & La & Lt & P1 & P2 & P3).
    destruct (rec_step_spec l x k hs act tmp W Hx Hk Lh La Lt) as (tmp' & E & Lt').
    set (nx := next_slot l k) in *.
    assert (Hnx : nx < r_steps l /\ nx <> k) by (unfold nx, next_slot; destruct (Nat.eqb_spec k (r_steps l - 1)); lia).
    assert (B1 : nx * r_hid l + r_hid l <= length hs) by (rewrite Lh; clear - Hnx; nia).
    assert (B4 : k * r_out l + r_out l <= length act) by (rewrite La; clear - Hk; nia).
    assert (Ehv : hid_of l x k (fun j => nth (k * r_hid l + j) (put (nx * r_hid l) (tab (r_hid l) (drive l x k)) hs) n0) =
      hidden l x (S k)).
    { cbn [hidden]. apply hid_of_ext. intros j Hj. rewrite nth_put_out.
      - destruct k as [|k'].
        + cbn [Nat.mul Nat.add]. rewrite P2 by exact Hj. replace (0 =? r_steps l) with false by (symmetry; apply Nat.eqb_neq; lia). reflexivity.
        + apply P1; lia.
      - rewrite tab_length. exact B1.
      - rewrite tab_length. clear - Hnx Hj. destruct (Nat.lt_ge_cases k nx); [left|right]; nia. }
    rewrite Ehv in E. eexists. split; [exact E|].
    pose proof (hidden_length l x (S k)) as LH.
    assert (LO : length (out_of l (hidden l x (S k))) = r_out l) by apply tab_length.
    split; [rewrite put_length; [exact Lh|rewrite LH; exact B1]|].
    split; [rewrite put_length; [exact La|rewrite LO; exact B4]|]. split; [exact Lt'|].
    split; [|split].
    + intros t j Ht1 Ht2 Hj. destruct (Nat.eq_dec t nx) as [->|Hne].
      * rewrite nth_put_in by (rewrite LH; assumption). unfold nx, next_slot in *.
        destruct (Nat.eqb_spec k (r_steps l - 1)); [lia|]. now replace (k + 1) with (S k) by lia.
      * rewrite nth_put_out.
        -- apply P1; try lia. unfold nx, next_slot in *. destruct (Nat.eqb_spec k (r_steps l - 1)); lia.
        -- rewrite LH; exact B1.
        -- rewrite LH. clear - Hne Hj. destruct (Nat.lt_ge_cases t nx); [left|right]; nia.
    + intros j Hj. unfold nx, next_slot in *. destruct (Nat.eqb_spec k (r_steps l - 1)) as [Ek|Ek].
      * replace (S k =? r_steps l) with true by (symmetry; apply Nat.eqb_eq; lia).
        cbn [Nat.mul]. exact (nth_put_in 0 (hidden l x (S k)) hs j n0 ltac:(rewrite LH; exact B1) ltac:(lia)).
      * replace (S k =? r_steps l) with false by (symmetry; apply Nat.eqb_neq; lia).
        rewrite nth_put_out.
        -- rewrite P2 by exact Hj. now replace (k =? r_steps l) with false by (symmetry; apply Nat.eqb_neq; lia).
        -- rewrite LH; exact B1.
        -- left. clear - Hj. nia.
    + intros t i Ht Hi. destruct (Nat.eq_dec t k) as [->|Hne].
      * now rewrite nth_put_in by (rewrite LO; assumption).
      * rewrite nth_put_out.
        -- apply P3; lia.
        -- rewrite LO; exact B4.
        -- left. clear - Hne Ht Hi. nia.
  - rewrite E. cbn [bind]. destruct P as (Lh & La & Lt & P1 & P2 & P3). exists hs, act.
    split; [reflexivity|]. split; [exact Lh|]. split; [exact La|]. split; [|split].
    + intros t j Ht Hj. apply P1; lia.
    + intros j Hj. rewrite P2 by exact Hj. now rewrite Nat.eqb_refl.
    + exact P3.
Qed.

(** *** backward *)
Lemma outer_acc_spec (g a b : list T) rows cols : length g = rows * cols -> rows <= length a -> cols <= length b ->
  outer_acc g a b rows cols =
  Ok (tab (rows * cols) (fun q => nadd (nth q g n0) (nmul (nth (q / cols) a n0) (nth (q mod cols) b n0)))).
Proof.
  intros Lg La Lb. unfold outer_acc.
  rewrite (for_nested rows cols (fun i j g => x <- rd a i ;; y <- rd b j ;; c <- rd g (i * cols + j) ;;
    wr g (i * cols + j) (nadd c (nmul x y)))).
  rewrite (for_inplace n0 (fun q c => nadd c (nmul (nth (q / cols) a n0) (nth (q mod cols) b n0)))).
  - rewrite skipn_all2 by lia. now rewrite app_nil_r.
  - lia.
  - intros q d Hq Hd. assert (cols <> 0) by (intros ->; lia).
    assert (q / cols < rows) by (apply Nat.div_lt_upper_bound; lia).
    pose proof (Nat.mod_upper_bound q cols ltac:(lia)).
    assert (Eq : q / cols * cols + q mod cols = q) by (pose proof (Nat.div_mod q cols ltac:(lia)); lia).
    rewrite Eq. rewrite (rd_nth a _ n0), (rd_nth b _ n0), (rd_nth d _ n0) by lia. cbn [bind]. apply wr_ok. lia.
Qed.
Lemma mat_t_arr_spec (d w a : list T) rows cols : length d = cols -> rows * cols <= length w -> rows <= length a ->
  mat_t_arr d w a rows cols =
  Ok (tab cols (fun j => nsum rows (fun i => nmul (nth (i * cols + j) w n0) (nth i a n0)))).
Proof.
  intros Hd Hw Ha. unfold mat_t_arr. apply (for_fill (fun j => nsum rows (fun i => nmul (nth (i * cols + j) w n0) (nth i a n0)))); auto.
  intros j e Hj Le. rewrite wr_ok by lia. cbn [bind].
  rewrite (for_acc_cell (fun i => nmul (nth (i * cols + j) w n0) (nth i a n0)) j _ _ _ n0).
  - rewrite upd_upd, nth_upd_eq by lia. reflexivity.
  - rewrite upd_length. lia.
  - intros i e' Hi He. rewrite upd_length in He. pose proof (mul_add_le i rows j cols Hi Hj).
    rewrite (rd_nth w _ n0), (rd_nth a _ n0), (rd_nth e' _ n0) by lia. cbn [bind]. apply wr_ok. lia.
Qed.
Lemma in_grad_spec (d w a : list T) rows cols : cols <= length d -> rows * cols <= length w -> rows <= length a ->
  in_grad d w a rows cols =
  Ok (tab cols (fun j => nsum rows (fun i => nmul (nth i a n0) (nth (i * cols + j) w n0))) ++ skipn cols d).
Proof.
  intros Hd Hw Ha. unfold in_grad.
  assert (E0 : fill0 d cols = Ok (tab cols (fun _ => n0) ++ skipn cols d)).
  { unfold fill0. apply (for_inplace n0 (fun _ _ => n0)); [exact Hd|]. intros i e Hi Le. apply wr_ok. lia. }
  rewrite E0. cbn [bind].
  destruct (for_inv (fun k e => e = tab cols (fun j => nsum k (fun i => nmul (nth i a n0) (nth (i * cols + j) w n0))) ++ skipn cols d)
    rows (fun i d => for_ cols (fun j d =>
      y <- rd a i ;; x <- rd w (i * cols + j) ;; c <- rd d j ;; wr d j (nadd c (nmul y x))) d)
    (tab cols (fun _ => n0) ++ skipn cols d)) as (e & E & ->).
  - reflexivity.
  - intros k e Hk ->. eexists. split; [|reflexivity].
    rewrite (for_inplace n0 (fun j c => nadd c (nmul (nth k a n0) (nth (k * cols + j) w n0)))).
    + f_equal. f_equal.
      * apply tab_ext. intros j Hj. rewrite app_nth1 by (rewrite tab_length; lia). rewrite nth_tab by exact Hj.
        unfold nsum. now rewrite nsum_from_S.
      * rewrite skipn_app, tab_length, Nat.sub_diag, skipn_all2 by (rewrite tab_length; lia). reflexivity.
    + rewrite app_length, tab_length. lia.
    + intros j e Hj Le. rewrite app_length, tab_length in Le.
      pose proof (mul_add_le k rows j cols Hk Hj).
      rewrite (rd_nth a _ n0), (rd_nth w _ n0), (rd_nth e _ n0) by lia. cbn [bind]. apply wr_ok. lia.
  - exact E.
Qed.

(** What backward propagates; step [k] handles time [_time_steps - k]. [slot]: where it
    finds the hidden state of that time. *)
Definition slot (l : recl T) (k : nat) : nat := if k =? 0 then 0 else r_steps l - k.
Definition delta (l : recl T) (g nxt : list T) (k : nat) : list T :=
  tab (r_hid l) (fun j => nmul (tanh_1 (nth (slot l k * r_hid l + j) (r_hs l) n0))
    (nadd (nsum (r_out l) (fun i => nmul (nth (i * r_hid l + j) (r_who l) n0) (nth ((r_steps l - 1 - k) * r_out l + i) g n0)))
          (nth j nxt n0))).
Fixpoint carry (l : recl T) (g : list T) (k : nat) : list T :=
  match k with
  | 0 => repeat n0 (r_hid l)
  | S k' => tab (r_hid l) (fun j => nsum (r_hid l) (fun i => nmul (nth (i * r_hid l + j) (r_whh l) n0) (nth i (delta l g (carry l g k') k') n0)))
  end.
Definition del (l : recl T) (g : list T) (k : nat) : list T := delta l g (carry l g k) k.

Definition acc_spec (l : recl T) (last g : list T) (k : nat) (s : racc T) : Prop :=
  let h := r_hid l in let n := r_in l in let o := r_out l in let t k' := r_steps l - 1 - k' in
  a_bo s = tab o (fun i => nsum_from (nth i (r_gbo l) n0) k (fun k' => nth (t k' * o + i) g n0)) /\
  a_who s = tab (o * h) (fun q => nsum_from (nth q (r_gwho l) n0) k (fun k' =>
    nmul (nth (t k' * o + q / h) g n0) (nth (slot l k' * h + q mod h) (r_hs l) n0))) /\
  a_bh s = tab h (fun i => nsum_from (nth i (r_gbh l) n0) k (fun k' => nth i (del l g k') n0)) /\
  a_wih s = tab (h * n) (fun q => nsum_from (nth q (r_gwih l) n0) k (fun k' =>
    nmul (nth (q / n) (del l g k') n0) (nth (t k' * n + q mod n) last n0))) /\
  a_whh s = tab (h * h) (fun q => nsum_from (nth q (r_gwhh l) n0) k (fun k' =>
    nmul (nth (q / h) (del l g k') n0) (nth (t k' * h + q mod h) (r_hs l) n0))) /\
  length (a_ig s) = length (r_ig l) /\
  (forall k' j, k' < k -> j < n -> nth (t k' * n + j) (a_ig s) n0 =
     nsum h (fun i => nmul (nth i (del l g k') n0) (nth (i * n + j) (r_wih l) n0))) /\
  a_next s = carry l g k.

Lemma tab_add_acc n (old : list T) k (f : nat -> nat -> T) (tm : nat -> T) :
  (forall i, i < n -> tm i = f i k) ->
  tab n (fun i => nadd (nth i (tab n (fun i => nsum_from (nth i old n0) k (f i))) n0) (tm i)) =
  tab n (fun i => nsum_from (nth i old n0) (S k) (f i)).
Proof. intros E. apply tab_ext. intros i Hi. rewrite nth_tab by exact Hi. rewrite nsum_from_S, E by exact Hi. reflexivity. Qed.

Lemma back_step_spec l last g k s : rec_wf l -> r_in l * r_steps l <= length last -> r_out l * r_steps l <= length g ->
  k < r_steps l -> acc_spec l last g k s -> exists s', rec_back_step l last g k s = Ok s' /\ acc_spec l last g (S k) s'.
Proof.
  intros W Hx Hg Hk (A1 & A2 & A3 & A4 & A5 & A6 & A7 & A8). unfold rec_back_step. cbv zeta.
  replace (if r_steps l <=? r_steps l - k then 0 else r_steps l - k) with (slot l k).
  2: { unfold slot. destruct (Nat.eqb_spec k 0), (Nat.leb_spec (r_steps l) (r_steps l - k)); lia. }
  replace (r_steps l - k - 1) with (r_steps l - 1 - k) by lia.
  pose proof (rw_hs l W) as Lhs. rewrite Nat.max_l in Lhs by lia.
  set (h := r_hid l) in *. set (n := r_in l) in *. set (o := r_out l) in *. set (ti := r_steps l - 1 - k) in *.
  assert (Hti : ti < r_steps l) by (unfold ti; lia).
  assert (Hsl : slot l k < r_steps l) by (unfold slot; destruct (Nat.eqb_spec k 0); lia).
  assert (B1 : ti * o + o <= length g) by (clear - Hg Hti; nia).
  assert (B2 : slot l k * h + h <= length (r_hs l)) by (rewrite Lhs; clear - Hsl; nia).
  assert (B3 : ti * n + n <= length last) by (clear - Hx Hti; nia).
  assert (B5 : ti * h + h <= length (r_hs l)) by (rewrite Lhs; clear - Hti; nia).
  assert (B6 : ti * n + n <= length (a_ig s)) by (rewrite A6, (rw_ig l W); fold n; clear - Hti; nia).
  assert (Lnx : length (a_next s) = h) by (rewrite A8; destruct k; [apply repeat_length|apply tab_length]).
  rewrite (map2_inplace_spec n0) by (rewrite ?A1, ?tab_length, ?skipn_length; lia).
  rewrite (skipn_all2 (a_bo s)), app_nil_r by (rewrite A1, tab_length; lia). cbn [bind].
  rewrite outer_acc_spec by (rewrite ?A2, ?tab_length, ?skipn_length; lia). cbn [bind].
  rewrite mat_t_arr_spec by (rewrite ?repeat_length, ?skipn_length, ?(rw_who l W); fold h o; lia). cbn [bind].
  rewrite (map2_inplace_spec n0) by (rewrite ?tab_length; lia).
  rewrite (skipn_all2 (tab h _)), app_nil_r by (rewrite tab_length; lia). cbn [bind].
  rewrite (map_into_spec n0) by (rewrite ?skipn_length; lia).
  rewrite (skipn_all2 (a_next s)), app_nil_r by lia. cbn [bind].
  rewrite (map2_inplace_spec n0) by (rewrite ?tab_length; lia).
  rewrite (skipn_all2 (tab h (fun i => tanh_1 _))), app_nil_r by (rewrite tab_length; lia). cbn [bind].
  match goal with |- context [map2_inplace nadd (a_bh s) ?v h] => assert (ED : v = del l g k) end.
  { unfold del, delta. fold h o ti. apply tab_ext. intros j Hj. rewrite !nth_tab by exact Hj. rewrite nth_skipn_add, A8. f_equal. f_equal.
    apply nsum_from_ext. intros i Hi. now rewrite nth_skipn_add. }
  rewrite ED. clear ED.
  assert (LD : length (del l g k) = h) by apply tab_length.
  rewrite (map2_inplace_spec n0) by (rewrite ?A3, ?tab_length; lia).
  rewrite (skipn_all2 (a_bh s)), app_nil_r by (rewrite A3, tab_length; lia). cbn [bind].
  rewrite outer_acc_spec by (rewrite ?A4, ?tab_length, ?skipn_length; lia). cbn [bind].
  rewrite outer_acc_spec by (rewrite ?A5, ?tab_length, ?skipn_length; lia). cbn [bind].
  rewrite (at_off_put (ti * n) n (tab n (fun j => nsum h (fun i => nmul (nth i (del l g k) n0) (nth (i * n + j) (r_wih l) n0))))).
  2: exact B6. 2: apply tab_length.
  2: { apply in_grad_spec; rewrite ?skipn_length, ?(rw_wih l W); fold n h; lia. }
  cbn [bind].
  rewrite mat_t_arr_spec by (rewrite ?tab_length, ?(rw_whh l W); fold h; lia). cbn [bind].
  eexists. split; [reflexivity|]. unfold acc_spec. cbn [a_bo a_who a_bh a_wih a_whh a_ig a_next]. fold h n o.
  split; [|split; [|split; [|split; [|split; [|split; [|split]]]]]].
  - rewrite A1. rewrite (tab_add_acc o (r_gbo l) k (fun i k' => nth ((r_steps l - 1 - k') * o + i) g n0)); [reflexivity|].
    intros i Hi. now rewrite nth_skipn_add.
  - rewrite A2. rewrite (tab_add_acc (o * h) (r_gwho l) k (fun q k' => nmul (nth ((r_steps l - 1 - k') * o + q / h) g n0) (nth (slot l k' * h + q mod h) (r_hs l) n0))); [reflexivity|].
    intros i Hi. now rewrite !nth_skipn_add.
  - rewrite A3. rewrite (tab_add_acc h (r_gbh l) k (fun i k' => nth i (del l g k') n0)); [reflexivity|].
    intros i Hi. reflexivity.
  - rewrite A4. rewrite (tab_add_acc (h * n) (r_gwih l) k (fun q k' => nmul (nth (q / n) (del l g k') n0) (nth ((r_steps l - 1 - k') * n + q mod n) last n0))); [reflexivity|].
    intros i Hi. now rewrite nth_skipn_add.
  - rewrite A5. rewrite (tab_add_acc (h * h) (r_gwhh l) k (fun q k' => nmul (nth (q / h) (del l g k') n0) (nth ((r_steps l - 1 - k') * h + q mod h) (r_hs l) n0))); [reflexivity|].
    intros i Hi. now rewrite nth_skipn_add.
  - rewrite put_length; [exact A6|]. rewrite tab_length. exact B6.
  - intros k' j Hk' Hj. destruct (Nat.eq_dec k' k) as [->|Hne].
    + fold ti. rewrite nth_put_in by (rewrite tab_length; assumption). now rewrite nth_tab.
    + rewrite nth_put_out.
      * apply A7; [lia|exact Hj].
      * rewrite tab_length. exact B6.
      * rewrite tab_length. right. unfold ti. assert (S (r_steps l - 1 - k) <= r_steps l - 1 - k') as Q by lia.
        clear - Q. nia.
  - reflexivity.
Qed.

Lemma rec_backward_spec l last g : rec_wf l -> r_in l * r_steps l <= length last -> r_out l * r_steps l <= length g ->
  exists s, rec_backward l last g = Ok (mkRec (r_in l) (r_out l) (r_hid l) (r_steps l) (r_wih l) (r_whh l) (r_who l) (r_bh l) (r_bo l)
        (a_wih s) (a_whh s) (a_who s) (a_bh s) (a_bo s) (r_hs l) (r_act l) (a_ig s)) /\ acc_spec l last g (r_steps l) s.
Proof.
  intros W Hx Hg. unfold rec_backward.
  destruct (for_inv (acc_spec l last g) (r_steps l) (rec_back_step l last g)
    (mkAcc (r_gwih l) (r_gwhh l) (r_gwho l) (r_gbh l) (r_gbo l) (r_ig l) (repeat n0 (r_hid l)))) as (s & E & P).
  - assert (G : forall n (v : list T), length v = n -> v = tab n (fun i => nsum_from (nth i v n0) 0 (fun _ => n0))).
    { intros n v <-. rewrite <- (tab_nth v n0) at 1. reflexivity. }
    unfold acc_spec. cbn [a_bo a_who a_bh a_wih a_whh a_ig a_next].
    repeat split; try (intros; lia).
    + apply G, (rw_gbo l W).
    + apply G. rewrite (rw_gwho l W). lia.
    + apply G, (rw_gbh l W).
    + apply G. rewrite (rw_gwih l W). lia.
    + apply G, (rw_gwhh l W).
  - intros k s Hk P. now apply back_step_spec.
  - exists s. rewrite E. split; [reflexivity|exact P].
Qed.
End Rec.
