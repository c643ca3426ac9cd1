From Verif Require Import Base Num ArrayModel ArraySpec ArrayProofs DatasetModel DatasetSpec
  DatasetProofs.
From Coq Require Import Reals Lra QArith Qround Qminmax.
Close Scope Q_scope. Close Scope R_scope.

(** ** split with a rational fraction *)
Lemma clamp01_spec p : (clamp01 p == Qmax 0 (Qmin 1 p))%Q /\ (0 <= clamp01 p <= 1)%Q.
Proof.
  unfold clamp01. destruct (Qlt_le_dec 1 p) as [H|H].
  - assert (E : (Qmin 1 p == 1)%Q) by (apply Q.min_l; now apply Qlt_le_weak).
    destruct (Qlt_le_dec 1 0) as [H0|H0]; [exfalso; apply (Qlt_not_le _ _ H0); discriminate|].
    split; [|split; [exact H0|apply Qle_refl]].
    rewrite E. symmetry. apply Q.max_r. exact H0.
  - assert (E : (Qmin 1 p == p)%Q) by (apply Q.min_r; auto).
    destruct (Qlt_le_dec p 0) as [H0|H0].
    + split; [|split; [apply Qle_refl|discriminate]].
      rewrite E. symmetry. apply Q.max_l. now apply Qlt_le_weak.
    + split; [|split; auto]. rewrite E. symmetry. now apply Q.max_r.
Qed.

Lemma qnat_pos n : 0 < n -> (0 < qnat n)%Q.
Proof. intros H. unfold qnat. change 0%Q with (inject_Z 0). rewrite <- Zlt_Qlt. lia. Qed.

Lemma split_count sa ss p :
  0 < ss ->
  let x := (clamp01 p * qnat (sa * ss) / qnat ss)%Q in
  let k := Z.to_nat (Qfloor x) in
  k <= sa /\ (qnat k <= x)%Q /\ (x < qnat (S k))%Q.
Proof.
  intros Hs x k. pose proof (qnat_pos ss Hs) as Hp.
  destruct (clamp01_spec p) as (_ & H0 & H1).
  assert (Ex : (x == clamp01 p * qnat sa)%Q).
  { unfold x, qnat. rewrite Nat2Z.inj_mul, inject_Z_mult. field.
    intros E. unfold qnat in Hp. rewrite E in Hp. now apply Qlt_irrefl in Hp. }
  assert (Hn : (0 <= qnat sa)%Q).
  { unfold qnat. change 0%Q with (inject_Z 0). rewrite <- Zle_Qle. lia. }
  assert (X0 : (0 <= x)%Q) by (rewrite Ex; apply Qmult_le_0_compat; auto).
  assert (X1 : (x <= qnat sa)%Q).
  { rewrite Ex. rewrite <- (Qmult_1_l (qnat sa)) at 2. apply Qmult_le_compat_r; auto. }
  assert (F0 : (0 <= Qfloor x)%Z).
  { change 0%Z with (Qfloor (inject_Z 0)). now apply Qfloor_resp_le. }
  assert (F1 : (Qfloor x <= Z.of_nat sa)%Z).
  { rewrite <- (Qfloor_Z (Z.of_nat sa)). apply Qfloor_resp_le. exact X1. }
  split; [|split].
  - unfold k. lia.
  - unfold qnat, k. rewrite Z2Nat.id by auto. apply Qfloor_le.
  - unfold qnat, k. rewrite Nat2Z.inj_succ, Z2Nat.id by auto.
    unfold Z.succ. apply Qlt_floor.
Qed.

Section DS2.
Context {T : Type} (dflt : T).

Lemma split_spec (d : dataset T) (p : Q) :
  wf d -> 0 < fsize d -> 0 < ssize d ->
  exists tr te k, ds_split dflt d p = Ok (tr, te) /\ wf tr /\ wf te /\
    rows tr ++ rows te = rows d /\
    ds_size tr = k * ssize d /\
    (qnat k <= Qmax 0 (Qmin 1 p) * qnat (ds_size d) / qnat (ssize d) < qnat (S k))%Q /\
    (ds_size tr <> 0 -> fsize tr = fsize d /\ ssize tr = ssize d /\ labels_i tr = labels_i d) /\
    (ds_size te <> 0 -> fsize te = fsize d /\ ssize te = ssize d /\ labels_i te = labels_i d).
Proof.
  intros W Hf Hs. unfold ds_split.
  destruct (Nat.eqb_spec (ssize d) 0); [lia|]. cbn [negb require bind].
  destruct (split_count (samount d) (ssize d) p Hs) as (K1 & K2 & K3).
  rewrite <- (wf_seq d W) in K1, K2, K3.
  set (k := Z.to_nat _) in *.
  destruct (split_at_spec dflt d k W Hf K1) as (tr & te & E & W1 & W2 & R & S & A & B).
  exists tr, te, k. split; [exact E|]. split; [exact W1|]. split; [exact W2|].
  split; [exact R|]. split; [exact S|]. split; [|split; [exact A|exact B]].
  unfold ds_size. split; rewrite <- (proj1 (clamp01_spec p)); [exact K2|exact K3].
Qed.

Lemma split_no_sequence (d : dataset T) p : ssize d = 0 -> ds_split dflt d p = UB.
Proof. intros E. unfold ds_split. rewrite E. reflexivity. Qed.

(** ** Concatenation *)
Definition shape3 (d : dataset T) : list nat := [samount d; ssize d; fsize d].

Lemma eqb_list_spec a b : eqb_list a b = true <-> a = b.
Proof.
  revert b; induction a as [|x a IH]; intros [|y b]; simpl; split; intros H; auto; try discriminate.
  - apply andb_true_iff in H as (H1 & H2). apply Nat.eqb_eq in H1. apply IH in H2. congruence.
  - inversion H; subst. rewrite Nat.eqb_refl. simpl. now apply IH.
Qed.

Lemma concat_finish (r : list T) q s f lab :
  length r = prod [q; s; f] -> 0 < q * s * f ->
  StronglySorted lt lab -> Forall (fun c => c < f) lab ->
  let e := ds_vec dflt r f s lab in
  wf e /\ data e = r /\ shape3 e = [q; s; f] /\ labels_i e = lab.
Proof.
  intros Hl Hp Hs Hf e. simpl in Hl. rewrite Nat.mul_1_r in Hl.
  destruct (ds_vec_exact dflt r f s lab q) as (D1 & D2 & D3 & D4 & D5 & D6 & D7 & D8);
    [nia|nia|nia|lia|].
  fold e in D1, D2, D3, D4, D5, D6, D7, D8.
  split; [now apply ds_vec_wf|]. split; [auto|]. split.
  - unfold shape3. now rewrite D2, D3, D6.
  - rewrite D7. now apply erase_ge_id.
Qed.

(** The axis coordinate selects the operand; the coordinate is shifted for the second. *)
Definition pick2 (sh1 : list nat) (l1 : list T) (sh2 : list nat) (l2 : list T)
    (axis : nat) (idx : list nat) : T :=
  let x := nth axis idx 0 in
  let a := nth axis sh1 0 in
  if x <? a then at_ dflt sh1 l1 idx
  else at_ dflt sh2 l2 (upd idx axis (x - a)).

Lemma concatenate_spec (d1 d2 : dataset T) axis :
  wf d1 -> wf d2 -> data d1 <> [] -> data d2 <> [] -> axis <= 2 ->
  (forall i, i <= 2 -> i <> axis -> nth i (shape3 d1) 0 = nth i (shape3 d2) 0) ->
  (axis <> 2 -> labels_i d1 = labels_i d2) ->
  exists e, ds_concatenate dflt d1 d2 axis = Ok e /\ wf e /\
    shape3 e = upd (shape3 d1) axis (nth axis (shape3 d1) 0 + nth axis (shape3 d2) 0) /\
    labels_i e = (if axis =? 2 then [] else labels_i d1) /\
    forall idx, inb (shape3 e) idx ->
      at_ dflt (shape3 e) (data e) idx =
      pick2 (shape3 d1) (data d1) (shape3 d2) (data d2) axis idx.
Proof.
  intros W1 W2 N1 N2 Ha Hsh Hlab. unfold ds_concatenate, ds_is_empty.
  assert (L1 : length (data d1) = prod (shape3 d1)).
  { rewrite (wf_data d1 W1), (wf_seq d1 W1). simpl. lia. }
  assert (L2 : length (data d2) = prod (shape3 d2)).
  { rewrite (wf_data d2 W2), (wf_seq d2 W2). simpl. lia. }
  assert (P1 : length (data d1) <> 0) by (intros E; apply length_zero_iff_nil in E; auto).
  assert (P2 : length (data d2) <> 0) by (intros E; apply length_zero_iff_nil in E; auto).
  destruct (Nat.eqb_spec (length (data d1)) 0); [lia|].
  destruct (Nat.eqb_spec (length (data d2)) 0); [lia|].
  apply Nat.leb_le in Ha as Ha'. rewrite Ha'. cbn [guard bind].
  assert (G : (axis =? 2) || eqb_list (labels_i d1) (labels_i d2) = true).
  { destruct (Nat.eqb_spec axis 2); auto. apply eqb_list_spec. auto. }
  rewrite G. cbn [guard bind]. rewrite shape_size_prod.
  rewrite L1 in P1. rewrite L2 in P2. unfold shape3 in P1, P2, L1, L2. simpl in P1, P2.
  destruct axis as [|[|[|axis]]]; [| | |lia].
  - pose proof (Hsh 1 ltac:(lia) ltac:(lia)) as E1. pose proof (Hsh 2 ltac:(lia) ltac:(lia)) as E2.
    simpl in E1, E2. cbn [nth grow upd]. rewrite <- E1, <- E2 in *.
    set (rs := [samount d1 + samount d2; ssize d1; fsize d1]).
    destruct (concatenate2_spec dflt (repeat dflt (prod rs)) (data d1) (data d2) []
      (samount d1) (samount d2) [ssize d1; fsize d1]) as (r & E & L & S); auto;
      [apply repeat_length|].
    simpl length in E. cbn [app] in E. unfold rs in E. unfold rs.
    simpl (grow _ _ _). rewrite E. cbn [bind nth Nat.eqb].
    rewrite repeat_length in L.
    destruct (concat_finish r (samount d1 + samount d2) (ssize d1) (fsize d1) (labels_i d1))
      as (We & De & Se & Le); [exact L| nia | apply W1 | apply W1|].
    eexists. split; [reflexivity|]. split; [exact We|]. split; [exact Se|].
    split; [exact Le|].
    intros idx Hi. rewrite De, Se in *.
    destruct (inb_axis_inv [] _ _ _ Hi) as (ip & x & iq & -> & Hp & Hx & Hq).
    inversion Hp; subst ip. specialize (S [] x iq Hp Hx Hq). cbn [app] in *.
    unfold pick2. cbn [nth upd shape3]. unfold shape3. rewrite <- E1, <- E2. exact S.
  - pose proof (Hsh 0 ltac:(lia) ltac:(lia)) as E1. pose proof (Hsh 2 ltac:(lia) ltac:(lia)) as E2.
    simpl in E1, E2. cbn [nth grow upd]. rewrite <- E1, <- E2 in *.
    set (rs := [samount d1; ssize d1 + ssize d2; fsize d1]).
    destruct (concatenate2_spec dflt (repeat dflt (prod rs)) (data d1) (data d2) [samount d1]
      (ssize d1) (ssize d2) [fsize d1]) as (r & E & L & S); auto;
      [apply repeat_length|].
    simpl length in E. cbn [app] in E. unfold rs in E. unfold rs.
    simpl (grow _ _ _). rewrite E. cbn [bind nth Nat.eqb].
    rewrite repeat_length in L.
    destruct (concat_finish r (samount d1) (ssize d1 + ssize d2) (fsize d1) (labels_i d1))
      as (We & De & Se & Le); [exact L| nia | apply W1 | apply W1|].
    eexists. split; [reflexivity|]. split; [exact We|]. split; [exact Se|].
    split; [exact Le|].
    intros idx Hi. rewrite De, Se in *.
    destruct (inb_axis_inv [samount d1] _ _ _ Hi) as (ip & x & iq & -> & Hp & Hx & Hq).
    specialize (S ip x iq Hp Hx Hq).
    pose proof (inb_length _ _ Hp) as Lp. destruct ip as [|i0 [|]]; try discriminate.
    cbn [app] in *.
    unfold pick2. cbn [nth upd shape3]. unfold shape3. rewrite <- E1, <- E2. exact S.
  - pose proof (Hsh 0 ltac:(lia) ltac:(lia)) as E1. pose proof (Hsh 1 ltac:(lia) ltac:(lia)) as E2.
    simpl in E1, E2. cbn [nth grow upd]. rewrite <- E1, <- E2 in *.
    set (rs := [samount d1; ssize d1; fsize d1 + fsize d2]).
    destruct (concatenate2_spec dflt (repeat dflt (prod rs)) (data d1) (data d2)
      [samount d1; ssize d1] (fsize d1) (fsize d2) []) as (r & E & L & S); auto;
      [apply repeat_length|].
    simpl length in E. cbn [app] in E. unfold rs in E. unfold rs.
    simpl (grow _ _ _). rewrite E. cbn [bind nth Nat.eqb].
    rewrite repeat_length in L.
    destruct (concat_finish r (samount d1) (ssize d1) (fsize d1 + fsize d2) [])
      as (We & De & Se & Le); [exact L| nia | constructor | constructor|].
    eexists. split; [reflexivity|]. split; [exact We|]. split; [exact Se|].
    split; [exact Le|].
    intros idx Hi. rewrite De, Se in *.
    destruct (inb_axis_inv [samount d1; ssize d1] _ _ _ Hi) as (ip & x & iq & -> & Hp & Hx & Hq).
    specialize (S ip x iq Hp Hx Hq).
    pose proof (inb_length _ _ Hp) as Lp. destruct ip as [|i0 [|i1 [|]]]; try discriminate.
    cbn [app] in *.
    unfold pick2. cbn [nth upd shape3]. unfold shape3. rewrite <- E1, <- E2. exact S.
Qed.

Lemma concatenate_empty (d1 d2 : dataset T) axis :
  (data d1 = [] -> ds_concatenate dflt d1 d2 axis = Ok d2) /\
  (data d1 <> [] -> data d2 = [] -> ds_concatenate dflt d1 d2 axis = Ok d1).
Proof.
  unfold ds_concatenate, ds_is_empty. split.
  - intros ->. reflexivity.
  - intros N1 ->. destruct (Nat.eqb_spec (length (data d1)) 0) as [E|E]; [|reflexivity].
    apply length_zero_iff_nil in E. congruence.
Qed.

Lemma same_but_false axis s1 s2 i :
  i <= 2 -> i <> axis -> nth i s1 0 <> nth i s2 0 -> same_but axis s1 s2 = false.
Proof.
  intros Hi Hn Hd. unfold same_but. apply not_true_iff_false. rewrite forallb_forall.
  intros H. specialize (H i). rewrite in_seq in H. specialize (H ltac:(lia)).
  apply orb_true_iff in H as [H|H]; apply Nat.eqb_eq in H; auto.
Qed.

Lemma concatenate_throws (d1 d2 : dataset T) axis :
  data d1 <> [] -> data d2 <> [] ->
  (2 < axis \/ (axis <> 2 /\ labels_i d1 <> labels_i d2) \/
   (exists i, i <= 2 /\ i <> axis /\ nth i (shape3 d1) 0 <> nth i (shape3 d2) 0)) ->
  ds_concatenate dflt d1 d2 axis = Throw.
Proof.
  intros N1 N2 H. unfold ds_concatenate, ds_is_empty.
  destruct (Nat.eqb_spec (length (data d1)) 0) as [E|E];
    [apply length_zero_iff_nil in E; congruence|].
  destruct (Nat.eqb_spec (length (data d2)) 0) as [E'|E'];
    [apply length_zero_iff_nil in E'; congruence|].
  destruct (Nat.leb_spec axis 2) as [Ha|Ha]; [|reflexivity]. cbn [guard bind].
  destruct H as [H|[(H1 & H2)|(i & Hi & Hne & Hd)]].
  - lia.
  - destruct (Nat.eqb_spec axis 2); [congruence|].
    destruct (eqb_list (labels_i d1) (labels_i d2)) eqn:E2.
    + apply eqb_list_spec in E2. congruence.
    + reflexivity.
  - destruct ((axis =? 2) || eqb_list (labels_i d1) (labels_i d2)); [|reflexivity].
    cbn [guard bind]. unfold concatenate2.
    destruct (Nat.ltb_spec axis 3); [|reflexivity]. cbn [guard bind].
    unfold shape3 in Hd. rewrite (same_but_false axis _ _ i) by auto. reflexivity.
Qed.

End DS2.

(** ** Normalisation over the reals *)
Lemma foldM_cols (f : R -> R) fs row idx (l : list R) :
  NoDup idx -> Forall (fun c => c < fs) idx -> (row + 1) * fs <= length l ->
  exists l', foldM (fun l col => v <- rd l (row * fs + col) ;;
                                 wr l (row * fs + col) (f v)) idx l = Ok l' /\
    length l' = length l /\
    forall p, nth p l' 0%R =
      if (row * fs <=? p) && (p <? (row + 1) * fs) && mem (p - row * fs) idx
      then f (nth p l 0%R) else nth p l 0%R.
Proof.
  intros Nd. revert l. induction Nd as [|c idx Hc Nd IH]; intros l Hf Hl.
  - exists l. simpl. repeat split; auto. intros p. now rewrite andb_false_r.
  - inversion Hf; subst. cbn [foldM].
    rewrite (rd_nth l _ 0%R) by nia. cbn [bind]. rewrite wr_ok by nia. cbn [bind].
    set (l1 := upd l (row * fs + c) (f (nth (row * fs + c) l 0%R))).
    destruct (IH l1) as (l' & E & L & S); auto.
    { unfold l1. now rewrite upd_length. }
    exists l'. split; [exact E|]. unfold l1 in L. rewrite upd_length in L. split; [exact L|].
    intros p. rewrite S. unfold l1. rewrite nth_upd.
    assert (Hin : (row * fs + c <? length l) = true) by (apply Nat.ltb_lt; nia).
    rewrite Hin, andb_true_r. simpl mem. fold (mem (p - row * fs) idx).
    destruct (Nat.leb_spec (row * fs) p); destruct (Nat.ltb_spec p ((row + 1) * fs)); simpl;
      try (destruct (Nat.eqb_spec p (row * fs + c)); [nia|reflexivity]).
    change (existsb (Nat.eqb (p - row * fs)) (c :: idx))
      with ((p - row * fs =? c) || mem (p - row * fs) idx).
    destruct (Nat.eqb_spec p (row * fs + c)) as [->|Hp].
    + replace (row * fs + c - row * fs) with c by lia. rewrite Nat.eqb_refl. simpl.
      destruct (mem c idx) eqn:M; [apply mem_In in M; contradiction|]. reflexivity.
    + destruct (Nat.eqb_spec (p - row * fs) c); [lia|]. simpl. reflexivity.
Qed.

Lemma rows_map_loop (body : nat -> list R -> res (list R)) (g : nat -> nat -> R -> R) fa fs
    (l0 : list R) :
  length l0 = fa * fs ->
  (forall row l, row < fa -> length l = fa * fs ->
     exists l', body row l = Ok l' /\ length l' = length l /\
       forall p, nth p l' 0%R =
         if (row * fs <=? p) && (p <? (row + 1) * fs)
         then g row (p - row * fs) (nth p l 0%R) else nth p l 0%R) ->
  exists l', for_ fa body l0 = Ok l' /\ length l' = length l0 /\
    forall r c, r < fa -> c < fs ->
      nth (r * fs + c) l' 0%R = g r c (nth (r * fs + c) l0 0%R).
Proof.
  intros Hl Hb.
  destruct (for_inv (fun k l => length l = fa * fs /\
    (forall r c, r < k -> c < fs -> nth (r * fs + c) l 0%R = g r c (nth (r * fs + c) l0 0%R)) /\
    (forall r c, k <= r -> c < fs -> nth (r * fs + c) l 0%R = nth (r * fs + c) l0 0%R))
    fa body l0) as (l' & E & L & S & _).
  - repeat split; auto. intros; lia.
  - intros k l Hk (L & S1 & S2). destruct (Hb k l Hk L) as (l' & E & L' & S').
    exists l'. split; [exact E|]. split; [lia|]. split.
    + intros r c Hr Hc. rewrite S'.
      destruct (Nat.eq_dec r k) as [->|Hne].
      * destruct (Nat.leb_spec (k * fs) (k * fs + c)); [|lia].
        destruct (Nat.ltb_spec (k * fs + c) ((k + 1) * fs)); [|nia]. simpl.
        replace (k * fs + c - k * fs) with c by lia. rewrite S2 by lia. reflexivity.
      * destruct (Nat.leb_spec (k * fs) (r * fs + c)); [nia|]. simpl. apply S1; lia.
    + intros r c Hr Hc. rewrite S'.
      destruct (Nat.ltb_spec (r * fs + c) ((k + 1) * fs)); [nia|]. rewrite andb_false_r.
      apply S2; lia.
  - exists l'. rewrite Hl. auto.
Qed.

Definition cell (d : dataset R) (r c : nat) : R := nth c (nth r (rows d) []) 0%R.

Lemma cell_data (d : dataset R) r c :
  r < famount d -> c < fsize d -> cell d r c = nth (r * fsize d + c) (data d) 0%R.
Proof. intros Hr Hc. unfold cell. rewrite nth_rows by auto. now apply nth_block. Qed.

Lemma wf_with_data (d : dataset R) l : wf d -> length l = length (data d) -> wf (with_data d l).
Proof.
  intros W E. constructor; cbn [with_data data fsize ssize famount labels_i input_i dsize samount];
    try apply W; rewrite E; apply W.
Qed.

Lemma mem_seq c n : mem c (seq 0 n) = (c <? n).
Proof.
  apply eq_true_iff_eq. rewrite mem_In, in_seq, Nat.ltb_lt. lia.
Qed.

(** Any arithmetic on [R] whose comparisons are exact. *)
Section AnyArithmetic.
Context {NT : NumOps R}.
Hypothesis Hltb : forall a b, nltb a b = Rltb a b.
Hypothesis Heqb : forall a b, neqb a b = Reqb a b.

Lemma min_max_spec_g (d : dataset R) mn mx idx :
  wf d -> NoDup idx -> Forall (fun c => c < fsize d) idx ->
  (mn = mx -> ds_min_max d mn mx idx = Throw) /\
  (mn <> mx -> exists e, ds_min_max d mn mx idx = Ok e /\ wf e /\
     ds_size e = ds_size d /\ fsize e = fsize d /\ ssize e = ssize d /\
     labels_i e = labels_i d /\
     forall r c, r < ds_size d -> c < fsize d ->
       cell e r c = if match idx with [] => true | _ => mem c idx end
                    then ndiv (nsub (cell d r c) mn) (nsub mx mn) else cell d r c).
Proof.
  intros W Nd Hf. unfold ds_min_max. split.
  - intros ->. rewrite Heqb. replace (Reqb mx mx) with true; [reflexivity|].
    symmetry. now apply Reqb_true.
  - intros Hne. rewrite Heqb. apply Reqb_false in Hne as Hb. rewrite Hb. cbn [negb guard bind].
    set (idx' := match idx with [] => seq 0 (fsize d) | _ => idx end).
    assert (Nd' : NoDup idx') by (unfold idx'; destruct idx; auto using seq_NoDup).
    assert (Hf' : Forall (fun c => c < fsize d) idx').
    { unfold idx'; destruct idx; auto. apply Forall_forall. intros c Hc. apply in_seq in Hc. lia. }
    pose proof (wf_data d W) as HD.
    destruct (rows_map_loop
      (fun row l => foldM (fun l col => v <- rd l (row * fsize d + col) ;;
          wr l (row * fsize d + col) (ndiv (nsub v mn) (nsub mx mn))) idx' l)
      (fun _ c v => if mem c idx' then (ndiv (nsub v mn) (nsub mx mn)) else v)
      (famount d) (fsize d) (data d) HD) as (l & E & L & S).
    { intros row l Hr Hl.
      destruct (foldM_cols (fun v => (ndiv (nsub v mn) (nsub mx mn))) (fsize d) row idx' l Nd' Hf')
        as (l' & E' & L' & S'); [nia|].
      exists l'. split; [exact E'|]. split; [exact L'|]. intros p. rewrite S'.
      destruct ((row * fsize d <=? p) && (p <? (row + 1) * fsize d)); reflexivity. }
    change (for_ (famount d) _ (data d)) with
      (for_ (famount d) (fun row l => foldM (fun l col => v <- rd l (row * fsize d + col) ;;
          wr l (row * fsize d + col) (ndiv (nsub v mn) (nsub mx mn))) idx' l) (data d)).
    rewrite E. cbn [bind].
    eexists. split; [reflexivity|]. split; [now apply wf_with_data|].
    repeat split; auto. intros r c Hr Hc.
    rewrite (cell_data (with_data d l)) by auto. cbn [with_data fsize data].
    rewrite S by auto. rewrite cell_data by auto.
    unfold idx'. destruct idx; [|reflexivity].
    rewrite mem_seq. apply Nat.ltb_lt in Hc. now rewrite Hc.
Qed.

Lemma min_max_auto_spec_g (d : dataset R) :
  wf d -> 0 < ds_size d ->
  exists mn mx e, ds_min_max_auto d = Ok e /\ wf e /\
    ds_size e = ds_size d /\ fsize e = fsize d /\ ssize e = ssize d /\ labels_i e = labels_i d /\
    (forall c, c < fsize d ->
      (exists r, r < ds_size d /\ mn c = cell d r c) /\
      (exists r, r < ds_size d /\ mx c = cell d r c) /\
      (forall r, r < ds_size d -> (mn c <= cell d r c <= mx c)%R)) /\
    (forall r c, r < ds_size d -> c < fsize d ->
       cell e r c = ndiv (nsub (cell d r c) (mn c)) (nsub (mx c) (mn c))).
Proof.
  intros W Hn. pose proof (wf_data d W) as HD. unfold ds_size in *.
  set (fs := fsize d) in *. set (fa := famount d) in *.
  unfold ds_min_max_auto. fold fs fa.
  (* first loop *)
  destruct (for_inv (fun k (s : list R * list R) => length (fst s) = fs /\ length (snd s) = fs /\
     forall c, c < k -> nth c (fst s) 0%R = nth c (data d) 0%R /\ nth c (snd s) 0%R = nth c (data d) 0%R)
     fs (fun col '(mn, mx) =>
      v <- rd (data d) col ;; mn <- wr mn col v ;; mx <- wr mx col v ;; Ok (mn, mx))
     (repeat n0 fs, repeat n0 fs)) as ([mn1 mx1] & E1 & L1 & L1' & S1).
  { simpl. rewrite !repeat_length. repeat split; intros; lia. }
  { intros k [mn mx] Hk (A & B & C). simpl in A, B, C.
    rewrite (rd_nth (data d) k 0%R) by nia. cbn [bind].
    rewrite wr_ok by lia. cbn [bind]. rewrite wr_ok by lia. cbn [bind].
    eexists. split; [reflexivity|]. cbn [fst snd]. rewrite !upd_length.
    split; [auto|]. split; [auto|]. intros c Hc. rewrite !nth_upd.
    destruct (Nat.eqb_spec c k) as [->|Hck]; simpl.
    - destruct (Nat.ltb_spec k (length mn)); [|lia].
      destruct (Nat.ltb_spec k (length mx)); [|lia]. auto.
    - apply C. lia. }
  simpl in L1, L1', S1. rewrite E1. cbn [bind].
  (* min / max loop *)
  set (bnd := fun k (s : list R * list R) => length (fst s) = fs /\ length (snd s) = fs /\
     forall c, c < fs ->
      (exists r, r < k /\ nth c (fst s) 0%R = nth (r * fs + c) (data d) 0%R) /\
      (exists r, r < k /\ nth c (snd s) 0%R = nth (r * fs + c) (data d) 0%R) /\
      (forall r, r < k -> (nth c (fst s) 0 <= nth (r * fs + c) (data d) 0 <= nth c (snd s) 0)%R)).
  destruct (for_from_inv bnd 1 (fa - 1)
    (fun row s => for_ fs (fun col '(mn, mx) =>
        v <- rd (data d) (row * fs + col) ;;
        M <- rd mx col ;;
        mx <- (if nltb M v then wr mx col v else Ok mx) ;;
        m <- rd mn col ;;
        mn <- (if nltb v m then wr mn col v else Ok mn) ;;
        Ok (mn, mx)) s) (mn1, mx1)) as ([mn2 mx2] & E2 & L2 & L2' & S2).
  { split; [exact L1|]. split; [exact L1'|]. intros c Hc. destruct (S1 c Hc) as (A & B).
    simpl. split; [exists 0; simpl; auto|]. split; [exists 0; simpl; auto|].
    intros r Hr. replace r with 0 by lia. simpl. rewrite A, B. lra. }
  { intros row [mn mx] Hrow (A & B & C). simpl in A, B, C.
    destruct (for_inv (fun k (s : list R * list R) => length (fst s) = fs /\ length (snd s) = fs /\
      (forall c, k <= c -> nth c (fst s) 0%R = nth c mn 0%R /\ nth c (snd s) 0%R = nth c mx 0%R) /\
      (forall c, c < k ->
        nth c (fst s) 0%R = Rmin (nth (row * fs + c) (data d) 0%R) (nth c mn 0%R) /\
        nth c (snd s) 0%R = Rmax (nth (row * fs + c) (data d) 0%R) (nth c mx 0%R)))
      fs (fun col '(mn, mx) =>
        v <- rd (data d) (row * fs + col) ;;
        M <- rd mx col ;;
        mx <- (if nltb M v then wr mx col v else Ok mx) ;;
        m <- rd mn col ;;
        mn <- (if nltb v m then wr mn col v else Ok mn) ;;
        Ok (mn, mx)) (mn, mx)) as ([mn' mx'] & E' & L' & L'' & _ & S').
    { simpl. repeat split; auto; intros; lia. }
    { intros k [mn' mx'] Hk (A' & B' & C' & D'). simpl in A', B', C', D'.
      rewrite (rd_nth (data d) _ 0%R) by nia. cbn [bind].
      rewrite (rd_nth mx' k 0%R) by lia. cbn [bind].
      set (v := nth (row * fs + k) (data d) 0%R).
      destruct (C' k ltac:(lia)) as (C1 & C2).
      assert (X : exists mx2, (if nltb (nth k mx' 0%R) v then wr mx' k v else Ok mx') = Ok mx2 /\
        length mx2 = fs /\ nth k mx2 0%R = Rmax v (nth k mx 0%R) /\
        forall c, c <> k -> nth c mx2 0%R = nth c mx' 0%R).
      { rewrite ?Hltb. destruct (Rltb (nth k mx' 0%R) v) eqn:Q.
        - apply Rltb_true in Q. rewrite wr_ok by lia. eexists. split; [reflexivity|].
          rewrite upd_length. split; [auto|]. split.
          + rewrite nth_upd_eq by lia. rewrite <- C2. unfold Rmax.
            destruct (Rle_dec v (nth k mx' 0%R)); lra.
          + intros c Hc. now apply nth_upd_neq.
        - apply Rltb_false in Q. exists mx'. split; [auto|]. split; [auto|]. split; [|auto].
          rewrite C2 in *. unfold Rmax. destruct (Rle_dec v (nth k mx 0%R)); lra. }
      destruct X as (mx2 & -> & X1 & X2 & X3). cbn [bind].
      rewrite (rd_nth mn' k 0%R) by lia. cbn [bind].
      assert (X : exists mn2, (if nltb v (nth k mn' 0%R) then wr mn' k v else Ok mn') = Ok mn2 /\
        length mn2 = fs /\ nth k mn2 0%R = Rmin v (nth k mn 0%R) /\
        forall c, c <> k -> nth c mn2 0%R = nth c mn' 0%R).
      { rewrite ?Hltb. destruct (Rltb v (nth k mn' 0%R)) eqn:Q.
        - apply Rltb_true in Q. rewrite wr_ok by lia. eexists. split; [reflexivity|].
          rewrite upd_length. split; [auto|]. split.
          + rewrite nth_upd_eq by lia. rewrite <- C1. unfold Rmin.
            destruct (Rle_dec v (nth k mn' 0%R)); lra.
          + intros c Hc. now apply nth_upd_neq.
        - apply Rltb_false in Q. exists mn'. split; [auto|]. split; [auto|]. split; [|auto].
          rewrite C1 in *. unfold Rmin. destruct (Rle_dec v (nth k mn 0%R)); lra. }
      destruct X as (mn2 & -> & Y1 & Y2 & Y3). cbn [bind].
      eexists. split; [reflexivity|]. cbn [fst snd].
      split; [auto|]. split; [auto|]. split.
      - intros c Hc. rewrite X3, Y3 by lia. apply C'. lia.
      - intros c Hc. destruct (Nat.eq_dec c k) as [->|Hck]; [auto|].
        rewrite X3, Y3 by lia. apply D'. lia. }
    exists (mn', mx'). split; [exact E'|]. split; [exact L'|]. split; [exact L''|].
    intros c Hc. simpl. simpl in S'. destruct (S' c Hc) as (A1 & A2).
    destruct (C c Hc) as ((r1 & Hr1 & Q1) & (r2 & Hr2 & Q2) & Q3).
    set (v := nth (row * fs + c) (data d) 0%R) in *.
    split; [|split].
    - rewrite A1. unfold Rmin. destruct (Rle_dec v (nth c mn 0%R)).
      + exists row. split; [lia|reflexivity].
      + exists r1. split; [lia|exact Q1].
    - rewrite A2. unfold Rmax. destruct (Rle_dec v (nth c mx 0%R)).
      + exists r2. split; [lia|exact Q2].
      + exists row. split; [lia|reflexivity].
    - intros r Hr. rewrite A1, A2.
      pose proof (Rmin_l v (nth c mn 0%R)). pose proof (Rmin_r v (nth c mn 0%R)).
      pose proof (Rmax_l v (nth c mx 0%R)). pose proof (Rmax_r v (nth c mx 0%R)).
      destruct (Nat.eq_dec r row) as [->|Hne].
      + fold v. lra.
      + specialize (Q3 r ltac:(lia)). lra. }
  simpl in L2, L2'. rewrite E2. cbn [bind].
  replace (1 + (fa - 1)) with fa in S2 by lia. simpl in S2.
  destruct (rows_map_loop
    (fun row l => for_ fs (fun col l =>
      v <- rd l (row * fs + col) ;;
      m <- rd mn2 col ;;
      M <- rd mx2 col ;;
      wr l (row * fs + col) (ndiv (nsub v m) (nsub M m))) l)
    (fun _ c v => ndiv (nsub v (nth c mn2 0%R)) (nsub (nth c mx2 0%R) (nth c mn2 0%R)))
    fa fs (data d) HD) as (l & E3 & L3 & S3).
  { intros row l Hr Hl.
    destruct (for_scatter 0%R (fun c => row * fs + c)
      (fun c v => ndiv (nsub v (nth c mn2 0%R)) (nsub (nth c mx2 0%R) (nth c mn2 0%R))) fs
      (fun col l =>
      v <- rd l (row * fs + col) ;;
      m <- rd mn2 col ;;
      M <- rd mx2 col ;;
      wr l (row * fs + col) (ndiv (nsub v m) (nsub M m))) l) as (l' & E' & L' & S1' & S2').
    - intros i Hi. nia.
    - intros i j Hi Hj Q. lia.
    - intros i x Hi Hx. rewrite (rd_nth x _ 0%R) by nia. cbn [bind].
      rewrite (rd_nth mn2 i 0%R) by lia. cbn [bind].
      rewrite (rd_nth mx2 i 0%R) by lia. cbn [bind]. apply wr_ok. nia.
    - exists l'. split; [exact E'|]. split; [exact L'|]. intros p.
      destruct (Nat.leb_spec (row * fs) p); destruct (Nat.ltb_spec p ((row + 1) * fs)); simpl.
      + specialize (S1' (p - row * fs) ltac:(lia)). cbv beta in S1'.
        replace (row * fs + (p - row * fs)) with p in S1' by lia. exact S1'.
      + apply S2'. intros i Hi. lia.
      + apply S2'. intros i Hi. lia.
      + apply S2'. intros i Hi. lia. }
  rewrite E3. cbn [bind].
  exists (fun c => nth c mn2 0%R), (fun c => nth c mx2 0%R). eexists.
  split; [reflexivity|]. split; [now apply wf_with_data|].
  repeat split; auto.
  - destruct (S2 c H) as ((r & Hr & Q) & _). exists r. split; auto. rewrite cell_data by auto. exact Q.
  - destruct (S2 c H) as (_ & (r & Hr & Q) & _). exists r. split; auto. rewrite cell_data by auto. exact Q.
  - destruct (S2 c H) as (_ & _ & Q). rewrite cell_data by auto. apply Q; auto.
  - destruct (S2 c H) as (_ & _ & Q). rewrite cell_data by auto. apply Q; auto.
  - intros r c Hr Hc. rewrite (cell_data (with_data d l)) by auto. cbn [with_data fsize data].
    fold fs. rewrite S3 by auto. rewrite cell_data by auto. reflexivity.
Qed.
End AnyArithmetic.

Lemma min_max_spec (d : dataset R) mn mx idx :
  wf d -> NoDup idx -> Forall (fun c => c < fsize d) idx ->
  (mn = mx -> ds_min_max d mn mx idx = Throw) /\
  (mn <> mx -> exists e, ds_min_max d mn mx idx = Ok e /\ wf e /\
     ds_size e = ds_size d /\ fsize e = fsize d /\ ssize e = ssize d /\
     labels_i e = labels_i d /\
     forall r c, r < ds_size d -> c < fsize d ->
       cell e r c = if match idx with [] => true | _ => mem c idx end
                    then ((cell d r c - mn) / (mx - mn))%R else cell d r c).
Proof. exact (@min_max_spec_g NumR (fun _ _ => eq_refl) d mn mx idx). Qed.

Lemma min_max_auto_spec (d : dataset R) :
  wf d -> 0 < ds_size d ->
  exists mn mx e, ds_min_max_auto d = Ok e /\ wf e /\
    ds_size e = ds_size d /\ fsize e = fsize d /\ ssize e = ssize d /\ labels_i e = labels_i d /\
    (forall c, c < fsize d ->
      (exists r, r < ds_size d /\ mn c = cell d r c) /\
      (exists r, r < ds_size d /\ mx c = cell d r c) /\
      (forall r, r < ds_size d -> (mn c <= cell d r c <= mx c)%R)) /\
    (forall r c, r < ds_size d -> c < fsize d ->
       cell e r c = ((cell d r c - mn c) / (mx c - mn c))%R).
Proof. exact (@min_max_auto_spec_g NumR (fun _ _ => eq_refl) d). Qed.

(** On an empty dataset with features the first loop reads past the end. *)
Lemma min_max_auto_empty (d : dataset R) :
  wf d -> ds_size d = 0 -> 0 < fsize d -> ds_min_max_auto d = UB.
Proof.
  intros W E Hf. pose proof (wf_data d W) as HD. unfold ds_size in E. rewrite E in HD.
  simpl in HD. apply length_zero_iff_nil in HD. unfold ds_min_max_auto. rewrite HD.
  destruct (fsize d) as [|n]; [lia|]. unfold for_. cbn [for_from bind]. reflexivity.
Qed.
