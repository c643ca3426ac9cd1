(** Flat indexing and optimizer loops. *)
From Verif Require Import Base Num OptModel.

(** Position of flat index [i] in consecutive blocks of the given sizes. *)
Fixpoint split_pos (s : list nat) (i : nat) : nat * nat :=
  match s with
  | [] => (0, i)
  | n :: s' => if i <? n then (0, i) else let '(b, o) := split_pos s' (i - n) in (S b, o)
  end.

Definition nsum_list (s : list nat) : nat := fold_right Nat.add 0 s.

Lemma split_pos_bound s : forall i, i < nsum_list s ->
  fst (split_pos s i) < length s /\ snd (split_pos s i) < nth (fst (split_pos s i)) s 0.
Proof.
  induction s as [|n s IH]; simpl; intros i Hi; [lia|].
  destruct (Nat.ltb_spec i n); simpl; [lia|].
  specialize (IH (i - n) ltac:(lia)). destruct (split_pos s (i - n)) as [b o]. simpl in *. lia.
Qed.

Lemma split_pos_inj s : forall i j, i < nsum_list s -> j < nsum_list s ->
  split_pos s i = split_pos s j -> i = j.
Proof.
  induction s as [|n s IH]; simpl; intros i j Hi Hj E; [lia|].
  destruct (Nat.ltb_spec i n), (Nat.ltb_spec j n).
  - congruence.
  - destruct (split_pos s (j - n)). discriminate.
  - destruct (split_pos s (i - n)). discriminate.
  - assert (i - n = j - n); [|lia]. apply IH; try lia.
    destruct (split_pos s (i - n)), (split_pos s (j - n)). congruence.
Qed.

Lemma split_pos_surj s : forall b o, b < length s -> o < nth b s 0 ->
  exists i, i < nsum_list s /\ split_pos s i = (b, o).
Proof.
  induction s as [|n s IH]; simpl; intros b o Hb Ho; [lia|].
  destruct b as [|b].
  - exists o. split; [lia|]. destruct (Nat.ltb_spec o n); [reflexivity|lia].
  - destruct (IH b o ltac:(lia) Ho) as (i & Hi & E). exists (n + i). split; [lia|].
    destruct (Nat.ltb_spec (n + i) n); [lia|]. replace (n + i - n) with i by lia. now rewrite E.
Qed.

Lemma firstn_S_nth {A} (d : A) l : forall i, i < length l ->
  firstn (S i) l = firstn i l ++ [nth i l d].
Proof.
  induction l as [|x l IH]; intros i Hi; simpl in Hi; [lia|].
  destruct i; [reflexivity|]. cbn [firstn app nth]. f_equal. apply IH. lia.
Qed.

Section G.
Context {T : Type} {NT : NumOps T} {TT : TransOps T}.
Variable d0 : T.

Lemma concat_len (B : list (list T)) : length (concat B) = nsum_list (map (@length T) B).
Proof. induction B as [|b B IH]; simpl; auto. rewrite app_length. lia. Qed.

Lemma rd_cons {A} (x : A) l i : rd (x :: l) (S i) = rd l i.
Proof. reflexivity. Qed.

Lemma bget_split (B : list (list T)) : forall i, i < length (concat B) ->
  bget B (split_pos (map (@length T) B) i) = Ok (nth i (concat B) d0).
Proof.
  induction B as [|b B IH]; simpl; intros i Hi; [lia|]. rewrite app_length in Hi.
  destruct (Nat.ltb_spec i (length b)).
  - unfold bget. cbn. rewrite (rd_nth b i d0) by auto. now rewrite app_nth1.
  - specialize (IH (i - length b) ltac:(lia)).
    destruct (split_pos (map (@length T) B) (i - length b)) as [q o].
    unfold bget in *. cbn [fst snd] in *. rewrite rd_cons.
    rewrite app_nth2 by auto. exact IH.
Qed.

Lemma upd_app_l {A} (a b : list A) i x : i < length a -> upd (a ++ b) i x = upd a i x ++ b.
Proof.
  revert i. induction a as [|h a IH]; simpl; intros i Hi; [lia|].
  destruct i; simpl; auto. now rewrite IH by lia.
Qed.
Lemma upd_app_r {A} (a b : list A) i x : length a <= i -> upd (a ++ b) i x = a ++ upd b (i - length a) x.
Proof.
  revert i. induction a as [|h a IH]; simpl; intros i Hi; [now rewrite Nat.sub_0_r|].
  destruct i; simpl; [lia|]. now rewrite IH by lia.
Qed.

Lemma bset_split (B : list (list T)) : forall i x, i < length (concat B) ->
  exists B', bset B (split_pos (map (@length T) B) i) x = Ok B' /\
    map (@length T) B' = map (@length T) B /\ concat B' = upd (concat B) i x.
Proof.
  induction B as [|b B IH]; simpl; intros i x Hi; [lia|]. rewrite app_length in Hi.
  destruct (Nat.ltb_spec i (length b)) as [Hl|Hl].
  - unfold bset. cbn [fst snd]. rewrite (rd_nth (b :: B) 0 b) by (simpl; lia). cbn [nth bind].
    rewrite wr_ok by auto. cbn [bind]. rewrite wr_ok by (simpl; lia).
    exists (upd b i x :: B). split; [reflexivity|]. split.
    + simpl. now rewrite upd_length.
    + simpl. now rewrite upd_app_l.
  - destruct (IH (i - length b) x ltac:(lia)) as (B' & E & L & C).
    destruct (split_pos (map (@length T) B) (i - length b)) as [q o].
    unfold bset in *. cbn [fst snd] in *. rewrite rd_cons.
    destruct (rd B q) as [bq| |] eqn:Eq; try discriminate. cbn [bind] in *.
    destruct (wr bq o x) as [bq'| |]; try discriminate. cbn [bind] in *.
    exists (b :: B'). split.
    + unfold wr in *. cbn [length]. destruct (Nat.ltb_spec q (length B)); [|discriminate].
      destruct (Nat.ltb_spec (S q) (S (length B))); [|lia]. simpl. injection E as <-. reflexivity.
    + split; [simpl; now rewrite L|]. simpl. now rewrite C, upd_app_r.
Qed.

(** The buffers have the sizes the constructor gave them. *)
Definition blocks_ok (k : pkind) (B : list (list T)) : Prop := map (@length T) B = block_sizes k.
Definition wf_player (l : player T) : Prop :=
  blocks_ok (pk l) (pblocks l) /\ blocks_ok (pk l) (gblocks l).

Lemma pcount_sum k : pcount k = nsum_list (block_sizes k).
Proof. destruct k; simpl; nia. Qed.

Lemma blocks_total k B : blocks_ok k B -> length (concat B) = pcount k.
Proof. intros E. rewrite concat_len, E, pcount_sum. reflexivity. Qed.

Lemma loc_split k B i : blocks_ok k B ->
  loc k B i = if i <? pcount k then Ok (split_pos (map (@length T) B) i) else Throw.
Proof.
  intros E. unfold loc. unfold blocks_ok in E.
  destruct k as [inp out|ks ch nf|inp hid out|]; [| | |reflexivity]; rewrite !E.
  1,2: unfold loc2, guard; destruct (Nat.ltb_spec i (pcount (PDense inp out))) || 
       destruct (Nat.ltb_spec i (pcount (PConv ks ch nf))).
  - cbn [bind block_sizes nth split_pos].
    destruct (Nat.ltb_spec i (out * inp)); [reflexivity|].
    destruct (Nat.ltb_spec (i - out * inp) out); [reflexivity|]. simpl in *. lia.
  - reflexivity.
  - cbn [bind block_sizes nth split_pos].
    destruct (Nat.ltb_spec i (ks * ch * nf)); [reflexivity|].
    destruct (Nat.ltb_spec (i - ks * ch * nf) nf); [reflexivity|]. simpl in *. lia.
  - reflexivity.
  - unfold loc5, guard. destruct (Nat.ltb_spec i (pcount (PRec inp hid out))) as [Hi|Hi]; [|reflexivity].
    rewrite pcount_sum in Hi. cbn [nsum_list block_sizes fold_right] in Hi.
    cbn [bind block_sizes nth split_pos]. rewrite !Nat.add_0_l.
    set (a := inp * hid) in *. set (b := hid * hid) in *. set (c := hid * out) in *.
    destruct (Nat.ltb_spec i a); [reflexivity|].
    destruct (Nat.ltb_spec i (a + b)), (Nat.ltb_spec (i - a) b); try lia; [reflexivity|].
    destruct (Nat.ltb_spec i (a + b + hid)), (Nat.ltb_spec (i - a - b) hid); try lia.
    { f_equal. f_equal. lia. }
    destruct (Nat.ltb_spec i (a + b + hid + c)), (Nat.ltb_spec (i - a - b - hid) c); try lia.
    { f_equal. f_equal. lia. }
    destruct (Nat.ltb_spec (i - a - b - hid - c) out); [|lia].
    f_equal. f_equal. lia.
Qed.

(** Reconstruct blocks from the flat contents. *)
Lemma concat_inj (B B' : list (list T)) :
  map (@length T) B = map (@length T) B' -> concat B = concat B' -> B = B'.
Proof.
  revert B'. induction B as [|b B IH]; intros [|b' B'] L C; simpl in *; try discriminate; auto.
  injection L as L1 L2. apply app_inv_head_iff in C || idtac.
  assert (b = b' /\ concat B = concat B') as (-> & E).
  { clear IH L2. revert b' L1 C. induction b as [|x b IHb]; intros [|x' b'] L1 C; simpl in *; try discriminate; auto.
    injection C as -> C. destruct (IHb b' ltac:(lia) C) as (-> & ?). auto. }
  f_equal. now apply IH.
Qed.

Lemma wf_new k : wf_player (player_new k).
Proof.
  split; unfold blocks_ok, player_new; cbn [pblocks gblocks pk];
    rewrite map_map; erewrite map_ext; try apply map_id; intros; apply repeat_length.
Qed.

Lemma wf_set_input n l : wf_player l -> wf_player (set_input n l).
Proof.
  intros (W1 & W2). unfold set_input, wf_player, blocks_ok in *.
  destruct (pk l) eqn:K; cbn [pk pblocks gblocks block_sizes] in *; rewrite ?K; auto;
  (split; [destruct (pblocks l) as [|b B]|destruct (gblocks l) as [|b B]];
    simpl in *; try discriminate;
    match goal with E : _ :: _ = _ :: _ |- _ => idtac | _ => idtac end;
    rewrite resize_length; congruence).
Qed.

(** *** Gradient descent *)

Lemma gd_train2_spec eta k (P G : list (list T)) :
  blocks_ok k P -> blocks_ok k G ->
  exists P' G', gd_train2 eta k k P G = Ok (P', G') /\ blocks_ok k P' /\ blocks_ok k G' /\
    concat P' = tab (pcount k) (fun i => nsub (nth i (concat P) d0) (nmul eta (nth i (concat G) d0))) /\
    concat G' = repeat n0 (pcount k).
Proof.
  intros WP WG. set (n := pcount k).
  pose proof (blocks_total k P WP) as LP. pose proof (blocks_total k G WG) as LG. fold n in LP, LG.
  set (new := fun i => nsub (nth i (concat P) d0) (nmul eta (nth i (concat G) d0))).
  destruct (for_inv (fun i (st : list (list T) * list (list T)) =>
      blocks_ok k (fst st) /\ blocks_ok k (snd st) /\
      (forall j, j < n -> nth j (concat (fst st)) d0 = if j <? i then new j else nth j (concat P) d0) /\
      (forall j, j < n -> nth j (concat (snd st)) d0 = if j <? i then n0 else nth j (concat G) d0))
      n (gd_body eta k k) (P, G)) as ((P' & G') & E & I1 & I2 & I3 & I4).
  - cbn [fst snd]. repeat split; auto.
  - intros i (Pi & Gi) Hi (W1 & W2 & J1 & J2). cbn [fst snd] in *. unfold gd_body.
    rewrite (loc_split k Pi i W1), (loc_split k Gi i W2). fold n.
    destruct (Nat.ltb_spec i n) as [Hin|]; [|lia]. cbn [bind].
    pose proof (blocks_total k Pi W1) as L1. pose proof (blocks_total k Gi W2) as L2. fold n in L1, L2.
    rewrite !bget_split by lia. cbn [bind].
    rewrite J1, J2 by auto. rewrite Nat.ltb_irrefl.
    destruct (bset_split Pi i (new i) ltac:(lia)) as (P'' & EP & LP'' & CP).
    fold (new i). rewrite EP. cbn [bind].
    destruct (bset_split Gi i n0 ltac:(lia)) as (G'' & EG & LG'' & CG). rewrite EG. cbn [bind].
    eexists. split; [reflexivity|]. cbn [fst snd].
    split; [unfold blocks_ok in *; congruence|]. split; [unfold blocks_ok in *; congruence|].
    split; intros j Hj.
    + rewrite CP. destruct (Nat.eq_dec j i) as [->|Hne].
      * rewrite nth_upd_eq by lia. destruct (Nat.ltb_spec i (S i)); [reflexivity|lia].
      * rewrite nth_upd_neq by auto. rewrite J1 by auto.
        destruct (Nat.ltb_spec j i), (Nat.ltb_spec j (S i)); auto; lia.
    + rewrite CG. destruct (Nat.eq_dec j i) as [->|Hne].
      * rewrite nth_upd_eq by lia. destruct (Nat.ltb_spec i (S i)); [reflexivity|lia].
      * rewrite nth_upd_neq by auto. rewrite J2 by auto.
        destruct (Nat.ltb_spec j i), (Nat.ltb_spec j (S i)); auto; lia.
  - cbn [fst snd] in *. exists P', G'. unfold gd_train2. fold n. split; [exact E|].
    split; [exact I1|]. split; [exact I2|].
    pose proof (blocks_total k P' I1) as L1. pose proof (blocks_total k G' I2) as L2. fold n in L1, L2.
    split.
    + apply (list_ext_nth d0); [rewrite tab_length; lia|]. intros j Hj. rewrite nth_tab by lia.
      rewrite I3 by lia. destruct (Nat.ltb_spec j n); [reflexivity|lia].
    + apply (list_ext_nth d0); [rewrite repeat_length; lia|]. intros j Hj.
      rewrite I4 by lia. destruct (Nat.ltb_spec j n); [|lia].
      rewrite (nth_indep _ d0 n0) by (rewrite repeat_length; lia). now rewrite nth_repeat.
Qed.

(** *** Adam *)
(** One visit: new state and the amount subtracted. *)
Definition adam_visit (a : adam T) (g : T) : adam T :=
  mkAdam (a_eta a) (a_b1 a) (a_b2 a) (a_eps a)
    (nadd (nmul (a_b1 a) (a_m a)) (nmul (nsub n1 (a_b1 a)) g))
    (nadd (nmul (a_b2 a) (a_v a)) (nmul (nsub n1 (a_b2 a)) (nmul g g))) (S (a_t a)).
Definition adam_delta (a : adam T) (g : T) : T :=
  let a' := adam_visit a g in
  nmul (a_eta a)
    (ndiv (ndiv (a_m a') (nsub n1 (npow (a_b1 a) (a_t a))))
          (nadd (nsqrt (ndiv (a_v a') (nsub n1 (npow (a_b2 a) (a_t a))))) (a_eps a))).

Lemma adam_train2_spec a k (P G : list (list T)) :
  blocks_ok k P -> blocks_ok k G ->
  exists P' G', adam_train2 a k k P G =
      Ok (fold_left adam_visit (concat G) a, P', G') /\ blocks_ok k P' /\ blocks_ok k G' /\
    concat P' = tab (pcount k) (fun i => nsub (nth i (concat P) d0)
       (adam_delta (fold_left adam_visit (firstn i (concat G)) a) (nth i (concat G) d0))) /\
    concat G' = repeat n0 (pcount k).
Proof.
  intros WP WG. set (n := pcount k).
  pose proof (blocks_total k P WP) as LP. pose proof (blocks_total k G WG) as LG. fold n in LP, LG.
  set (st_at := fun i => fold_left adam_visit (firstn i (concat G)) a).
  set (new := fun i => nsub (nth i (concat P) d0) (adam_delta (st_at i) (nth i (concat G) d0))).
  assert (step : forall i, i < n -> st_at (S i) = adam_visit (st_at i) (nth i (concat G) d0)).
  { intros i Hi. unfold st_at.
    rewrite (firstn_S_nth d0) by lia. rewrite fold_left_app. reflexivity. }
  destruct (for_inv (fun i (st : adam T * list (list T) * list (list T)) =>
      fst (fst st) = st_at i /\
      blocks_ok k (snd (fst st)) /\ blocks_ok k (snd st) /\
      (forall j, j < n -> nth j (concat (snd (fst st))) d0 = if j <? i then new j else nth j (concat P) d0) /\
      (forall j, j < n -> nth j (concat (snd st)) d0 = if j <? i then n0 else nth j (concat G) d0))
      n (adam_body k k) (a, P, G)) as (((a' & P') & G') & E & I0 & I1 & I2 & I3 & I4).
  - cbn [fst snd]. repeat split; auto.
  - intros i ((ai & Pi) & Gi) Hi (J0 & W1 & W2 & J1 & J2). cbn [fst snd] in *. unfold adam_body.
    rewrite (loc_split k Pi i W1), (loc_split k Gi i W2). fold n.
    destruct (Nat.ltb_spec i n) as [Hin|]; [|lia]. cbn [bind].
    pose proof (blocks_total k Pi W1) as L1. pose proof (blocks_total k Gi W2) as L2. fold n in L1, L2.
    rewrite !bget_split by lia. cbn [bind].
    rewrite J1, J2 by auto. rewrite Nat.ltb_irrefl. subst ai.
    destruct (bset_split Pi i (new i) ltac:(lia)) as (P'' & EP & LP'' & CP).
    unfold new, adam_delta, adam_visit in EP. cbn [a_m a_v] in EP. rewrite EP. cbn [bind].
    destruct (bset_split Gi i n0 ltac:(lia)) as (G'' & EG & LG'' & CG). rewrite EG. cbn [bind].
    eexists. split; [reflexivity|]. cbn [fst snd].
    split; [rewrite step by auto; reflexivity|].
    split; [unfold blocks_ok in *; congruence|]. split; [unfold blocks_ok in *; congruence|].
    split; intros j Hj.
    + rewrite CP. destruct (Nat.eq_dec j i) as [->|Hne].
      * rewrite nth_upd_eq by lia. destruct (Nat.ltb_spec i (S i)); [reflexivity|lia].
      * rewrite nth_upd_neq by auto. rewrite J1 by auto.
        destruct (Nat.ltb_spec j i), (Nat.ltb_spec j (S i)); auto; lia.
    + rewrite CG. destruct (Nat.eq_dec j i) as [->|Hne].
      * rewrite nth_upd_eq by lia. destruct (Nat.ltb_spec i (S i)); [reflexivity|lia].
      * rewrite nth_upd_neq by auto. rewrite J2 by auto.
        destruct (Nat.ltb_spec j i), (Nat.ltb_spec j (S i)); auto; lia.
  - cbn [fst snd] in *. exists P', G'. unfold adam_train2. fold n.
    split; [|split; [exact I1|split; [exact I2|]]].
    + rewrite E. subst a'. unfold st_at. rewrite firstn_all2 by lia. reflexivity.
    + pose proof (blocks_total k P' I1) as L1. pose proof (blocks_total k G' I2) as L2. fold n in L1, L2.
      split.
      * apply (list_ext_nth d0); [rewrite tab_length; lia|]. intros j Hj. rewrite nth_tab by lia.
        rewrite I3 by lia. destruct (Nat.ltb_spec j n); [reflexivity|lia].
      * apply (list_ext_nth d0); [rewrite repeat_length; lia|]. intros j Hj.
        rewrite I4 by lia. destruct (Nat.ltb_spec j n); [|lia].
        rewrite (nth_indep _ d0 n0) by (rewrite repeat_length; lia). now rewrite nth_repeat.
Qed.
End G.
