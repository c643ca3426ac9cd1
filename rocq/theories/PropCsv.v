(** C47-C49: CSV rows, files and iterators. *)
From Verif Require Import Base StreamModel TypeModel CsvModel.
From Coq Require Import Ascii String.
Local Open Scope list_scope.
Local Notation length := List.length.

(** *** Specification: splitting a text at a delimiter *)
Fixpoint join (d : ascii) (ps : list chars) : chars :=
  match ps with [] => [] | [p] => p | p :: ps => p ++ d :: join d ps end.
Definition is_split (d : ascii) (s : chars) (ps : list chars) : Prop :=
  ps <> [] /\ join d ps = s /\ Forall (fun p => ~ In d p) ps.

(** *** Splits *)
Lemma join_cons d p q ps : join d (p :: q :: ps) = p ++ d :: join d (q :: ps).
Proof. reflexivity. Qed.
Lemma split_exists d s : exists ps, is_split d s ps.
Proof.
  induction s as [|c s (ps & N & J & F)].
  - exists [[]]. split; [discriminate|]. split; [reflexivity|]. repeat constructor. easy.
  - destruct (ascii_dec c d) as [->|Ne].
    + exists ([] :: ps). split; [discriminate|]. destruct ps as [|q ps]; [easy|]. split; [rewrite join_cons, J; reflexivity|]. constructor; [easy|exact F].
    + destruct ps as [|p ps]; [easy|]. exists ((c :: p) :: ps). split; [discriminate|]. split.
      * destruct ps; cbn in *; now rewrite J.
      * inversion F; subst. constructor; [|assumption]. intros [E|I]; [congruence|contradiction].
Qed.
Lemma count_app c u v : count c (u ++ v) = count c u + count c v.
Proof. unfold count. now rewrite filter_app, app_length. Qed.
Lemma count_none c u : ~ In c u -> count c u = 0.
Proof.
  unfold count. induction u as [|a u IH]; intros N; [reflexivity|]. cbn. destruct (Ascii.eqb_spec c a) as [->|Ne]; [exfalso; apply N; now left|].
  apply IH. intros I. apply N. now right.
Qed.
Lemma count_split d s ps : is_split d s ps -> length ps = count d s + 1.
Proof.
  intros (N & <- & F). induction ps as [|p ps IH]; [easy|]. inversion F; subst. destruct ps as [|q ps].
  - cbn [join length]. now rewrite count_none.
  - rewrite join_cons, count_app. rewrite (count_none d p) by assumption. cbn [length]. cbn [length] in IH. rewrite IH; [|discriminate|assumption].
    unfold count at 2. cbn [filter]. rewrite Ascii.eqb_refl. cbn [length]. unfold count. lia.
Qed.
Lemma cut_found d p w : ~ In d p -> cut Ascii.eqb d (p ++ d :: w) = (p, true).
Proof.
  induction p as [|c p IH]; intros N; cbn; [now rewrite Ascii.eqb_refl|].
  destruct (Ascii.eqb_spec c d) as [->|_]; [exfalso; apply N; now left|]. rewrite IH; [reflexivity|]. intros I; apply N; now right.
Qed.
Lemma cut_end d p : ~ In d p -> cut Ascii.eqb d p = (p, false).
Proof.
  induction p as [|c p IH]; intros N; cbn; [reflexivity|].
  destruct (Ascii.eqb_spec c d) as [->|_]; [exfalso; apply N; now left|]. rewrite IH; [reflexivity|]. intros I; apply N; now right.
Qed.

(** A good stream in front of pieces [ps]. *)
Definition before (d : ascii) (s : stream ascii) (ps : list chars) : Prop :=
  good s = true /\ ps <> [] /\ rest s = join d ps /\ Forall (fun p => ~ In d p) ps.
Lemma rest_adv (s : stream ascii) n e f w : n <= length (rest s) -> skipn n (rest s) = w -> rest (mkS (s_data s) (s_pos s + n) e f) = w.
Proof.
  intros L <-. unfold rest. cbn. apply (list_ext_nth "000"%char).
  - rewrite !skipn_length. lia.
  - intros i Hi. rewrite !nth_skipn_add. f_equal. lia.
Qed.
Lemma skipn_app_exact {A} (u v : list A) n : n = length u -> skipn n (u ++ v) = v.
Proof. intros ->. rewrite skipn_app, skipn_all, Nat.sub_diag. reflexivity. Qed.
Lemma getline_more d s p q ps str : before d s (p :: q :: ps) ->
  exists s', getline Ascii.eqb d s str = (p, s') /\ before d s' (q :: ps) /\ s_fail s' = false /\ s_data s' = s_data s.
Proof.
  intros (G & _ & E & F). inversion F as [|? ? Np F2]; subst. unfold getline. rewrite G, E, join_cons, cut_found by exact Np.
  eexists. split; [reflexivity|]. split; [|split].
  - split; [unfold good; cbn; destruct (length p + 1) eqn:Q; [lia|reflexivity]|]. split; [discriminate|]. split; [|exact F2].
    apply rest_adv.
    + rewrite E, join_cons, app_length. cbn. lia.
    + rewrite E, join_cons. change (p ++ d :: join d (q :: ps)) with (p ++ [d] ++ join d (q :: ps)). rewrite app_assoc.
      apply skipn_app_exact. rewrite app_length. reflexivity.
  - cbn. destruct (length p + 1) eqn:Q; [lia|reflexivity].
  - reflexivity.
Qed.
Lemma getline_last d s p str : before d s [p] ->
  exists s', getline Ascii.eqb d s str = (p, s') /\ s_eof s' = true /\ s_data s' = s_data s /\ (s_fail s' = true <-> p = []).
Proof.
  intros (G & _ & E & F). inversion F as [|? ? Np F2]; subst. unfold getline. cbn [join] in E. rewrite G, E, cut_end by exact Np.
  eexists. split; [reflexivity|]. cbn. split; [reflexivity|]. split; [reflexivity|].
  destruct p; cbn; split; congruence.
Qed.
Lemma getline_done d (s : stream ascii) str : good s = false ->
  exists s', getline Ascii.eqb d s str = (str, s') /\ good s' = false /\ s_fail s' = true.
Proof. intros G. unfold getline. rewrite G. eexists. split; [reflexivity|]. split; [unfold good; cbn; apply andb_false_r|reflexivity]. Qed.
Lemma ignore_more d s p q ps : before d s (p :: q :: ps) ->
  before d (ignore Ascii.eqb d s) (q :: ps) /\ s_data (ignore Ascii.eqb d s) = s_data s.
Proof.
  intros (G & _ & E & F). inversion F as [|? ? Np F2]; subst. unfold ignore. rewrite G, E, join_cons, cut_found by exact Np. split; [|reflexivity].
  split; [reflexivity|]. split; [discriminate|]. split; [|exact F2].
  replace (s_pos s + length p + 1) with (s_pos s + (length p + 1)) by lia. apply rest_adv.
  - rewrite E, join_cons, app_length. cbn. lia.
  - rewrite E, join_cons. change (p ++ d :: join d (q :: ps)) with (p ++ [d] ++ join d (q :: ps)). rewrite app_assoc.
    apply skipn_app_exact. rewrite app_length. reflexivity.
Qed.
Lemma open_before d w ps : is_split d w ps -> before d (s_open w) ps.
Proof. intros (N & E & F). split; [reflexivity|]. split; [exact N|]. split; [now rewrite E|exact F]. Qed.

(** *** C47: rows *)
Fixpoint reads (d : ascii) (n : nat) (st : stream ascii) : list chars :=
  match n with O => [] | S n => let '(s, st') := sgetline d st [] in s :: reads d n st' end.
Lemma fold_reads d n : forall i ret st,
  fst (fold_left (fun '(ret, st) (_ : nat) => let '(s, st) := sgetline d st [] in (ret ++ [s], st)) (seq i n) (ret, st)) = ret ++ reads d n st.
Proof.
  induction n as [|n IH]; intros i ret st; cbn [seq fold_left reads]; [now rewrite app_nil_r|].
  destruct (sgetline d st []) as [s st']. rewrite IH, <- app_assoc. reflexivity.
Qed.
Lemma reads_done d n : forall st, good st = false -> reads d n st = repeat [] n.
Proof.
  induction n as [|n IH]; intros st G; cbn [reads repeat]; [reflexivity|]. unfold sgetline.
  destruct (getline_done d st [] G) as (s' & -> & G' & _). f_equal. now apply IH.
Qed.
Lemma reads_split d n : forall st ps, before d st ps -> reads d n st = firstn n (ps ++ repeat [] n).
Proof.
  induction n as [|n IH]; intros st ps B; [reflexivity|]. cbn [reads]. destruct ps as [|p [|q ps]].
  - destruct B as (_ & N & _). easy.
  - unfold sgetline. destruct (getline_last d st p [] B) as (s' & -> & E & _). cbn [app firstn]. f_equal.
    rewrite reads_done by (unfold good; rewrite E; reflexivity).
    apply (list_ext_nth []); [rewrite firstn_length, !repeat_length; lia|].
    intros i Hi. rewrite repeat_length in Hi. rewrite nth_firstn_lt by exact Hi. now rewrite !nth_repeat.
  - unfold sgetline. destruct (getline_more d st p q ps [] B) as (s' & -> & B' & _). cbn [app firstn]. f_equal.
    rewrite (IH s' (q :: ps) B'). apply (list_ext_nth []).
    + rewrite !firstn_length. change (q :: ps ++ repeat [] (S n)) with ((q :: ps) ++ @repeat chars [] (S n)). rewrite !app_length, !repeat_length. lia.
    + intros i Hi. rewrite firstn_length in Hi. rewrite !nth_firstn_lt by lia.
      change (q :: ps ++ repeat [] (S n)) with ((q :: ps) ++ @repeat chars [] (S n)).
      destruct (Nat.lt_ge_cases i (length (q :: ps))) as [L|L]; [now rewrite !app_nth1|].
      rewrite !app_nth2 by exact L. now rewrite !nth_repeat.
Qed.
Lemma fields_split line sep cols ps : is_split sep line ps -> fields line sep cols = firstn cols (ps ++ repeat [] cols).
Proof. intros S. unfold fields. rewrite fold_reads. cbn [app]. apply reads_split. now apply open_before. Qed.

(** The fields of a row of its own number of columns: one more than separators, none with a
    separator in it, and joining them gives back the line. *)
Theorem c47_vector : forall line idx types sep,
  let r := fst (row_new_auto line idx types sep) in
  length (row_fields r) = count sep line + 1 /\ join sep (row_fields r) = line /\
  Forall (fun f => ~ In sep f) (row_fields r).
Proof.
  intros line idx types sep r. destruct (split_exists sep line) as (ps & S). pose proof (count_split _ _ _ S) as L.
  assert (E : row_fields r = ps).
  { unfold r, row_fields, row_new_auto, row_new. cbn [fst c_line c_sep c_cols]. rewrite (fields_split line sep _ ps S), <- L.
    rewrite firstn_app, Nat.sub_diag, firstn_all. cbn. apply app_nil_r. }
  rewrite E. destruct S as (N & J & F). auto.
Qed.
(** A row of [cols] columns: the first [cols] fields, missing ones empty. *)
Theorem c47_vector_columns : forall line idx cols types sep ps i,
  is_split sep line ps -> i < cols ->
  let r := fst (row_new line idx cols types sep) in
  length (row_fields r) = cols /\ nth i (row_fields r) [] = nth i ps [].
Proof.
  intros line idx cols types sep ps i S Hi r. unfold r, row_fields, row_new. cbn [fst c_line c_sep c_cols].
  rewrite (fields_split line sep cols ps S). split.
  - rewrite firstn_length, app_length, repeat_length. lia.
  - rewrite nth_firstn_lt by exact Hi. destruct (Nat.lt_ge_cases i (length ps)) as [L|L].
    + now rewrite app_nth1.
    + rewrite app_nth2 by exact L. rewrite nth_repeat. symmetry. now apply nth_overflow.
Qed.
(** Types of a row: inferred from its fields when the given ones contain AUTO or do not
    match the columns, otherwise kept. *)
Theorem c47_types : forall line idx cols types sep,
  let '(r, ty) := row_new line idx cols types sep in
  (In TAuto types \/ length types <> cols \/ types = [] -> ty = map parse_type (row_fields r)) /\
  (~ In TAuto types -> length types = cols -> types <> [] -> ty = types).
Proof.
  intros line idx cols types sep. unfold row_new.
  assert (HA : has_auto types = true <-> In TAuto types).
  { unfold has_auto. rewrite existsb_exists. split; [intros (x & I & E); destruct x; try discriminate; exact I|]. intros I. eauto. }
  destruct (bad_types types cols) eqn:B; unfold bad_types in B; split; intros; auto.
  - exfalso. apply orb_prop in B as [B|B]; [apply orb_prop in B as [B|B]|].
    + apply HA in B. contradiction.
    + apply Nat.eqb_eq in B. destruct types; [easy|discriminate].
    + apply negb_true_iff, Nat.eqb_neq in B. contradiction.
  - exfalso. apply orb_false_iff in B as [B B3]. apply orb_false_iff in B as [B1 B2]. apply negb_false_iff, Nat.eqb_eq in B3. apply Nat.eqb_neq in B2.
    destruct H as [H|[H|H]]; [apply HA in H; congruence|contradiction|subst; easy].
Qed.

Lemma row_find_spec d idx : forall n i st field ps, before d st ps -> length (rest st) < n -> i <= idx ->
  row_find n i idx d st field =
  match nth_error ps (idx - i) with
  | Some f => if (idx - i =? length ps - 1) && (length f =? 0) then Throw else Ok f
  | None => Throw
  end.
Proof.
  induction n as [|n IH]; intros i st field ps B L Hi; [lia|]. cbn [row_find]. unfold sgetline. destruct ps as [|p [|q ps]].
  - destruct B as (_ & N & _). easy.
  - destruct (getline_last d st p field B) as (s' & -> & E & _ & Fl). destruct (s_fail s') eqn:Ef.
    + assert (p = []) as -> by now apply Fl. destruct (idx - i) as [|m]; cbn [nth_error]; [reflexivity|]. now destruct m.
    + assert (Np : p <> []) by (intros Ep; pose proof (proj2 Fl Ep); discriminate).
      destruct (Nat.eqb_spec i idx) as [->|Ne].
      * rewrite Nat.sub_diag. cbn. destruct p; [easy|reflexivity].
      * assert (Q : idx - i = S (idx - S i)) by lia. rewrite Q. cbn [nth_error].
        destruct n as [|n]; [cbn; destruct (idx - S i); reflexivity|]. cbn [row_find]. unfold sgetline.
        destruct (getline_done d s' p) as (s2 & -> & _ & F2); [unfold good; rewrite E; reflexivity|]. rewrite F2. now destruct (idx - S i).
  - destruct (getline_more d st p q ps field B) as (s' & -> & B' & F & D). rewrite F.
    destruct (Nat.eqb_spec i idx) as [->|Ne].
    + rewrite Nat.sub_diag. cbn [nth_error length]. destruct (Nat.eqb_spec 0 (S (S (length ps)) - 1)); [lia|reflexivity].
    + rewrite (IH (S i) s' p (q :: ps) B'); [| |lia].
      * assert (Q : idx - i = S (idx - S i)) by lia. rewrite Q. cbn [nth_error].
        destruct (nth_error (q :: ps) (idx - S i)); [|reflexivity]. cbn [length].
        replace (S (idx - S i) =? S (S (length ps)) - 1) with (idx - S i =? S (length ps) - 1); [reflexivity|].
        destruct (Nat.eqb_spec (idx - S i) (S (length ps) - 1)), (Nat.eqb_spec (S (idx - S i)) (S (S (length ps)) - 1)); auto; lia.
      * destruct B as (_ & _ & E & _), B' as (_ & _ & E' & _). rewrite E in L. rewrite E'. rewrite join_cons, app_length in L. cbn [length] in L. lia.
Qed.
(** Access by index gives the field of that index and its type, except an empty last field,
    which throws. *)
Theorem c47_at_actual : forall line idx types sep ps i,
  is_split sep line ps -> ~ In TAuto types -> length types = length ps ->
  let r := fst (row_new_auto line idx types sep) in
  row_at r types i =
    if i <? length ps then
      if (i =? length ps - 1) && (length (nth i ps []) =? 0) then Throw
      else Ok (nth i ps [], nth i types TAuto)
    else Throw.
Proof.
  intros line idx types sep ps i S NA LT r. unfold row_at, r, row_new_auto, row_new. cbn [fst c_cols c_line c_sep].
  rewrite <- (count_split _ _ _ S). destruct (Nat.ltb_spec i (length ps)) as [L|L]; [|reflexivity]. cbn [guard bind].
  rewrite (row_find_spec sep i _ 0 _ [] ps); [|now apply open_before|unfold rest, s_open; cbn; lia|lia].
  rewrite Nat.sub_0_r. rewrite (nth_error_nth' ps []) by exact L.
  destruct ((i =? length ps - 1) && (length (nth i ps []) =? 0)); [reflexivity|]. cbn [bind].
  destruct (Nat.ltb_spec i (length types)) as [L2|L2]; [|lia]. cbn [guard bind]. rewrite (rd_nth types i TAuto) by exact L2. cbn [bind].
  destruct (nth i types TAuto) eqn:E; try reflexivity. exfalso. apply NA. rewrite <- E. now apply nth_In.
Qed.
Theorem c47_at_partial : forall line idx types sep ps i,
  is_split sep line ps -> ~ In TAuto types -> length types = length ps -> i < length ps ->
  (i < length ps - 1 \/ nth i ps [] <> []) ->
  let r := fst (row_new_auto line idx types sep) in
  row_at r types i = Ok (nth i (row_fields r) [], nth i types TAuto).
Proof.
  intros line idx types sep ps i S NA LT Hi Hn r. unfold r. rewrite (c47_at_actual line idx types sep ps i S NA LT).
  destruct (Nat.ltb_spec i (length ps)) as [_|L]; [|lia].
  assert (E : (i =? length ps - 1) && (length (nth i ps []) =? 0) = false).
  { destruct Hn as [Hn|Hn]; [destruct (Nat.eqb_spec i (length ps - 1)); [lia|reflexivity]|].
    destruct (nth i ps []); [easy|]. apply andb_false_r. }
  rewrite E. do 2 f_equal. unfold row_new_auto.
  destruct (c47_vector_columns line idx (count sep line + 1) types sep ps i S) as (_ & Q); [|symmetry; exact Q].
  rewrite <- (count_split _ _ _ S). exact Hi.
Qed.
Theorem c47_last_empty_refuted : exists line types sep i,
  let r := fst (row_new_auto line 0 types sep) in
  i < length (row_fields r) /\ length types = length (row_fields r) /\ row_at r types i = Throw.
Proof. exists (txt "a,"), [TString; TNone], ","%char, 1. cbn. split; [lia|]. split; reflexivity. Qed.

(** *** C48: rows of a file *)
Lemma iter_S {A} n (f : A -> A) x : Nat.iter (S n) f x = Nat.iter n f (f x).
Proof. induction n as [|n IH]; [reflexivity|]. cbn in *. now rewrite IH. Qed.
Lemma ignore_lines d k : forall st ps, before d st ps -> k < length ps ->
  before d (Nat.iter k (signore d) st) (skipn k ps) /\ s_data (Nat.iter k (signore d) st) = s_data st.
Proof.
  induction k as [|k IH]; intros st ps B Hk; [split; [exact B|reflexivity]|]. rewrite iter_S.
  destruct ps as [|p [|q ps]]; cbn in Hk; try lia. destruct (ignore_more d st p q ps B) as (B' & D).
  destruct (IH _ (q :: ps) B' ltac:(cbn; lia)) as (B2 & D2). split; [exact B2|]. exact (eq_trans D2 D).
Qed.
Lemma getline_any d st ps str : before d st ps -> exists s', getline Ascii.eqb d st str = (hd [] ps, s').
Proof.
  intros B. destruct ps as [|p [|q ps]].
  - destruct B as (_ & N & _). easy.
  - destruct (getline_last d st p str B) as (s' & E & _). eauto.
  - destruct (getline_more d st p q ps str B) as (s' & E & _). eauto.
Qed.
Lemma hd_skipn {A} (l : list A) k d : hd d (skipn k l) = nth k l d.
Proof. revert k. induction l as [|a l IH]; intros [|k]; cbn; auto. Qed.
Lemma read_line file ps k : is_split nl file ps -> k < length ps ->
  exists s', sgetline nl (Nat.iter k (signore nl) (s_open file)) [] = (nth k ps [], s').
Proof.
  intros S Hk. destruct (ignore_lines nl k (s_open file) ps (open_before _ _ _ S) Hk) as (B & _).
  destruct (getline_any nl _ _ [] B) as (s' & E). exists s'. unfold sgetline. now rewrite E, hd_skipn.
Qed.

(** One request after the other. *)
Fixpoint requests (v : csv) (is : list nat) : res (list crow * csv) :=
  match is with
  | [] => Ok ([], v)
  | i :: is => '(r, v) <- csv_at v i ;; '(rs, v) <- requests v is ;; Ok (r :: rs, v)
  end.
(** The state of a CSV object of a file of at least two rows. *)
Definition csv_inv (ps : list chars) (cols : nat) (sep : ascii) (ty : list ftype) (v : csv) : Prop :=
  v_rows v = length ps - 1 /\ is_split nl (v_file v) ps /\ v_cols v = cols /\ v_sep v = sep /\ v_types v = ty /\
  exists k, k < v_rows v /\ v_cache v = mkRow (nth k ps []) k cols sep.
Lemma types_stable line idx cols types sep : bad_types types cols = false -> row_new line idx cols types sep = (mkRow line idx cols sep, types).
Proof. intros B. unfold row_new. now rewrite B. Qed.
Lemma at_inv ps cols sep ty v i : csv_inv ps cols sep ty v -> bad_types ty cols = false ->
  exists v', csv_at v i = Ok (mkRow (nth (i mod (length ps - 1)) ps []) (i mod (length ps - 1)) cols sep, v') /\ csv_inv ps cols sep ty v'.
Proof.
  intros (R & S & C & Se & Ty & k & Hk & K) B. unfold csv_at. rewrite K. cbn [c_idx]. rewrite R in Hk.
  destruct (Nat.eqb_spec k i) as [->|Ne].
  - rewrite Nat.mod_small by exact Hk. exists v. split; [reflexivity|]. unfold csv_inv. repeat split; auto; try apply S. exists i. rewrite R. auto.
  - rewrite R. destruct (Nat.ltb_spec 0 (length ps - 1)); [|lia]. cbn [require bind].
    set (j := i mod (length ps - 1)). assert (Hj : j < length ps - 1) by (apply Nat.mod_upper_bound; lia).
    destruct (read_line (v_file v) ps j S) as (s' & E); [lia|]. rewrite E. rewrite types_stable by (rewrite Ty, C; exact B).
    rewrite C, Se. eexists. split; [reflexivity|]. unfold csv_inv. cbn [v_rows v_file v_cols v_sep v_types v_cache].
    repeat split; auto; try apply S. exists j. auto.
Qed.
Lemma inferred_ok (w : list chars) cols : length w = cols -> 1 <= cols -> bad_types (map parse_type w) cols = false.
Proof.
  intros L1 L2. unfold bad_types. rewrite map_length, L1, Nat.eqb_refl. cbn [negb].
  destruct (Nat.eqb_spec cols 0); [lia|]. rewrite !orb_false_r. unfold has_auto. apply Bool.not_true_is_false. rewrite existsb_exists.
  intros (x & I & E). apply in_map_iff in I as (s & <- & _). revert E. unfold parse_type. destruct s; [discriminate|].
  repeat match goal with |- context[if ?b then _ else _] => destruct b end; discriminate.
Qed.
Lemma new_inv file types sep ps : is_split nl file ps -> 3 <= length ps ->
  exists ty, csv_inv ps (count sep (nth 0 ps []) + 1) sep ty (csv_new file types sep) /\
    bad_types ty (count sep (nth 0 ps []) + 1) = false /\
    v_header (csv_new file types sep) = mkRow (nth 0 ps []) 0 (count sep (nth 0 ps []) + 1) sep.
Proof.
  intros S L. pose proof (open_before _ _ _ S) as B. destruct ps as [|p [|q [|w ps]]]; cbn in L; try lia.
  unfold csv_new, sgetline. destruct (getline_more nl _ p q (w :: ps) [] B) as (s1 & -> & B1 & _).
  destruct (getline_more nl _ q w ps [] B1) as (s2 & -> & _ & _). cbn [nth].
  set (cols := count sep p + 1).
  set (ty := if bad_types types cols then map parse_type (fields q sep cols) else types).
  assert (TB : bad_types ty cols = false).
  { unfold ty. destruct (bad_types types cols) eqn:E; [|exact E]. apply inferred_ok; [|unfold cols; lia].
    destruct (split_exists sep q) as (qs & Sq). rewrite (fields_split q sep cols qs Sq), firstn_length, app_length, repeat_length. lia. }
  rewrite !types_stable by exact TB. exists ty. split; [|split; [exact TB|reflexivity]].
  unfold csv_inv. cbn [v_rows v_file v_cols v_sep v_types v_cache]. pose proof (count_split _ _ _ S) as CS.
  split; [lia|]. split; [exact S|]. split; [reflexivity|]. split; [reflexivity|]. split; [reflexivity|]. exists 1. split; [cbn in CS; lia|reflexivity].
Qed.

(** A file with at least two line ends: whatever was requested before, request [i] gives
    line (i mod number of line ends), with that index and the columns of the header. *)
Theorem c48_requests_partial : forall file types sep ps is,
  is_split nl file ps -> 3 <= length ps ->
  exists rs v, requests (csv_new file types sep) is = Ok (rs, v) /\
    rs = map (fun i => mkRow (nth (i mod (length ps - 1)) ps []) (i mod (length ps - 1)) (count sep (nth 0 ps []) + 1) sep) is.
Proof.
  intros file types sep ps is S L. destruct (new_inv file types sep ps S L) as (ty & I & B & _).
  revert I. generalize (csv_new file types sep). induction is as [|i is IH]; intros v I; cbn [requests map].
  - eexists. eexists. split; reflexivity.
  - destruct (at_inv _ _ _ _ v i I B) as (v' & E & I'). rewrite E. cbn [bind].
    destruct (IH v' I') as (rs & v2 & E2 & ->). rewrite E2. cbn [bind]. eexists. eexists. split; reflexivity.
Qed.
(** With one line end the answer depends on what was requested before. *)
Theorem c48_one_row_refuted : exists file i,
  count nl file = 1 /\
  (exists r v, csv_at (csv_new file [TAuto] ",") i = Ok (r, v) /\ c_line r = txt "b") /\
  (exists r0 v0 r v, csv_at (csv_new file [TAuto] ",") 0 = Ok (r0, v0) /\ csv_at v0 i = Ok (r, v) /\ c_line r = txt "a").
Proof.
  exists (txt "a" ++ nl :: txt "b"), 1. split; [reflexivity|]. split.
  - eexists. eexists. split; [vm_compute; reflexivity|reflexivity].
  - do 4 eexists. split; [vm_compute; reflexivity|]. split; [vm_compute; reflexivity|reflexivity].
Qed.
(** Without line end any request other than 1 divides by zero. *)
Theorem c48_no_row_refuted : forall file types sep i, count nl file = 0 -> i <> 1 -> csv_at (csv_new file types sep) i = UB.
Proof.
  intros file types sep i C N. unfold csv_new. destruct (sgetline nl (s_open file) []) as [h st]. destruct (sgetline nl st []) as [f st2].
  unfold row_new. unfold csv_at. cbn [v_cache c_idx v_rows]. destruct (Nat.eqb_spec 1 i); [congruence|]. rewrite C. reflexivity.
Qed.

(** The conversion to lines. *)
Theorem c48_lines : forall file types sep ps, is_split nl file ps ->
  csv_lines (csv_new file types sep) = firstn (length ps - 1) ps.
Proof.
  intros file types sep ps Sp. pose proof (count_split _ _ _ Sp) as CS. unfold csv_lines.
  assert (ER : v_rows (csv_new file types sep) = length ps - 1 /\ v_file (csv_new file types sep) = file).
  { unfold csv_new. destruct (sgetline nl (s_open file) []) as [h st]. destruct (sgetline nl st []) as [f st2]. unfold row_new. cbn. split; [lia|reflexivity]. }
  destruct ER as (-> & ->). set (n := length ps - 1).
  assert (G : forall m k st ret, k + m = n -> before nl st (skipn k ps) -> length ret = n -> (forall j, j < k -> nth j ret [] = nth j ps []) ->
    let '(ret', _, _) := fold_left (fun '(ret, st, stop) i =>
      if (stop : bool) then (ret, st, stop)
      else let '(line, st) := sgetline nl st [] in
           if s_fail st then (ret, st, true) else (upd ret i line, st, false)) (seq k m) (ret, st, false) in
    length ret' = n /\ forall j, j < n -> nth j ret' [] = nth j ps []).
  { induction m as [|m IH]; intros k st ret Hk B Lr P; cbn [seq fold_left].
    - split; [exact Lr|]. intros j Hj. apply P. lia.
    - assert (Lk : length (skipn k ps) = S (length ps - k - 1)) by (rewrite skipn_length; unfold n in Hk; lia).
      destruct (skipn k ps) as [|p [|q rs]] eqn:E; cbn in Lk; [lia|unfold n in Hk; lia|].
      unfold sgetline at 2. destruct (getline_more nl st p q rs [] B) as (s' & -> & B' & F & _). rewrite F.
      assert (Ep : nth k ps [] = p) by (rewrite <- hd_skipn, E; reflexivity).
      assert (Es : skipn (S k) ps = q :: rs).
      { apply (list_ext_nth []).
        - rewrite skipn_length. assert (LL : length (skipn k ps) = length (p :: q :: rs)) by now rewrite E. rewrite skipn_length in LL. cbn in *. lia.
        - intros j _. rewrite nth_skipn_add. assert (Q : nth (S j) (skipn k ps) [] = nth (S j) (p :: q :: rs) []) by now rewrite E.
          rewrite nth_skipn_add in Q. change (nth (S j) (p :: q :: rs) []) with (nth j (q :: rs) []) in Q. rewrite <- Q. f_equal. lia. }
      apply IH; [lia|rewrite Es; exact B'|now rewrite upd_length|].
      intros j Hj. destruct (Nat.eq_dec j k) as [->|Ne].
      + rewrite nth_upd_eq by lia. now symmetry.
      + rewrite nth_upd_neq by congruence. apply P. lia. }
  specialize (G n 0 (s_open file) (repeat [] n) eq_refl (open_before _ _ _ Sp) (repeat_length _ _) ltac:(intros; lia)).
  destruct (fold_left _ _ _) as [[ret st] stop]. destruct G as (L & P). apply (list_ext_nth []).
  - rewrite firstn_length. unfold n in L. lia.
  - intros j Hj. rewrite L in Hj. rewrite nth_firstn_lt by exact Hj. now apply P.
Qed.
(** Entry i is the fields of line i+1 (cut or padded to the columns of the header). *)
Theorem c48_entries : forall file types sep ps i, is_split nl file ps -> 3 <= length ps -> i + 1 < length ps - 1 ->
  csv_entries (csv_new file types sep) = wrap (Z.of_nat (length ps) - 2) /\
  exists fs v, csv_entry (csv_new file types sep) i = Ok (fs, v) /\ fs = fields (nth (i + 1) ps []) sep (count sep (nth 0 ps []) + 1).
Proof.
  intros file types sep ps i S L Hi. destruct (new_inv file types sep ps S L) as (ty & I & B & _). split.
  - unfold csv_entries. destruct I as (-> & _). f_equal. lia.
  - unfold csv_entry. destruct (at_inv _ _ _ _ _ (i + 1) I B) as (v' & -> & _). cbn [bind].
    rewrite Nat.mod_small by exact Hi. eexists. eexists. split; [reflexivity|]. reflexivity.
Qed.

(** *** C49: iterators *)
(** Lines that exist: those before a line end, and a non-empty rest. *)
Definition readable (ps : list chars) (k : nat) : Prop :=
  k < length ps /\ (k < length ps - 1 \/ nth k ps [] <> []).
(** What can be done with an iterator; the postfix forms also give a copy, which may replace
    the iterator. *)
Inductive iop := Inc | Dec | Copy | PostInc (keep_copy : bool) | PostDec (keep_copy : bool) | Deref.
Fixpoint run (ops : list iop) (it : citer) : list chars :=
  match ops with
  | [] => []
  | Inc :: ops => run ops (iter_inc it)
  | Dec :: ops => run ops (iter_dec it)
  | Copy :: ops => run ops (iter_copy it)
  | PostInc k :: ops => run ops (if k then fst (iter_post_inc it) else snd (iter_post_inc it))
  | PostDec k :: ops => run ops (if k then fst (iter_post_dec it) else snd (iter_post_dec it))
  | Deref :: ops => let '(line, it) := iter_deref it in line :: run ops it
  end.
(** Specification: a position that moves by one (size_t arithmetic). *)
Fixpoint positions (ops : list iop) (pos : Z) : list Z :=
  match ops with
  | [] => []
  | Inc :: ops => positions ops ((pos + 1) mod 2 ^ 64)
  | Dec :: ops => positions ops ((pos - 1) mod 2 ^ 64)
  | Copy :: ops => positions ops pos
  | PostInc k :: ops => positions ops (if k then pos else (pos + 1) mod 2 ^ 64)
  | PostDec k :: ops => positions ops (if k then pos else (pos - 1) mod 2 ^ 64)
  | Deref :: ops => pos :: positions ops pos
  end.

Definition iter_inv (file : chars) (ps : list chars) (it : citer) : Prop :=
  i_file it = file /\ s_data (i_stream it) = file /\ i_line it = nth (i_idx it) ps [] /\
  (before nl (i_stream it) (skipn (S (i_idx it)) ps) \/ (S (i_idx it) = length ps /\ s_eof (i_stream it) = true)) /\
  s_fail (i_stream it) = false /\ i_idx it < length ps.

Lemma split_nonempty file ps : is_split nl file ps -> file <> [] -> readable ps 0.
Proof.
  intros (N & J & F) NE. destruct ps as [|p [|q ps]]; [easy| |].
  - split; [cbn; lia|]. right. cbn in *. now subst.
  - split; cbn; lia.
Qed.
Lemma skipn_cons {A} (l : list A) k d : k < length l -> skipn k l = nth k l d :: skipn (S k) l.
Proof.
  revert k. induction l as [|a l IH]; intros [|k] Hk; cbn in Hk; try lia; [reflexivity|].
  change (skipn (S k) (a :: l)) with (skipn k l). change (skipn (S (S k)) (a :: l)) with (skipn (S k) l). change (nth (S k) (a :: l) d) with (nth k l d).
  apply IH. lia.
Qed.
(** Reading line [k] with the stream in front of it. *)
Lemma getline_step file ps k st str : s_data st = file -> before nl st (skipn k ps) -> readable ps k ->
  exists st', sgetline nl st str = (nth k ps [], st') /\ s_data st' = file /\ s_fail st' = false /\
    (before nl st' (skipn (S k) ps) \/ (S k = length ps /\ s_eof st' = true)).
Proof.
  intros D B (Lk & R). rewrite (skipn_cons ps k [] Lk) in B. destruct (skipn (S k) ps) as [|q rs] eqn:E.
  - assert (S k = length ps).
    { assert (Q : length (skipn (S k) ps) = 0) by now rewrite E. rewrite skipn_length in Q. lia. }
    destruct (getline_last nl st _ str B) as (st' & G & Ee & D' & F). exists st'. split; [exact G|]. split; [congruence|]. split.
    + destruct (s_fail st'); [|reflexivity]. exfalso. destruct R as [R|R]; [lia|]. now apply R, F.
    + right. auto.
  - destruct (getline_more nl st _ q rs str B) as (st' & G & B' & F & D'). exists st'. split; [exact G|]. split; [congruence|]. split; [exact F|]. now left.
Qed.
Lemma new_iter_inv file ps pos : is_split nl file ps -> file <> [] -> iter_inv file ps (iter_new file pos) /\ i_req (iter_new file pos) = pos.
Proof.
  intros S NE. unfold iter_new. destruct (getline_step file ps 0 (s_open file) [] eq_refl (open_before _ _ _ S) (split_nonempty _ _ S NE)) as (st & -> & D & F & B).
  split; [|reflexivity]. split; [reflexivity|]. split; [exact D|]. split; [reflexivity|]. split; [exact B|]. split; [exact F|]. cbn. now apply split_nonempty in S as (L & _).
Qed.
Lemma seek_before file ps st : is_split nl file ps -> s_data st = file -> s_fail st = false -> before nl (seekg 0 st) ps /\ s_data (seekg 0 st) = file.
Proof.
  intros S D F. unfold seekg. rewrite F, D. split; [|reflexivity]. exact (open_before _ _ _ S).
Qed.
Lemma update_inv file ps it k : is_split nl file ps -> file <> [] -> iter_inv file ps it -> i_req it = Z.of_nat k -> readable ps k ->
  iter_inv file ps (update_row it) /\ i_idx (update_row it) = k /\ i_req (update_row it) = Z.of_nat k.
Proof.
  intros S NE I Rq Rk. unfold update_row.
  (* back to the start if the row lies behind *)
  set (it1 := if (i_req it <? Z.of_nat (i_idx it))%Z then let '(line, st) := sgetline nl (seekg 0 (i_stream it)) (i_line it) in mkIter (i_file it) line 0 (i_req it) st else it).
  assert (I1 : iter_inv file ps it1 /\ i_req it1 = Z.of_nat k /\ i_idx it1 <= k).
  { unfold it1. destruct (Z.ltb_spec (i_req it) (Z.of_nat (i_idx it))) as [L|L].
    - destruct I as (If & Id & Il & Ib & Ifl & Ix). destruct (seek_before file ps _ S Id Ifl) as (B & D).
      destruct (getline_step file ps 0 _ (i_line it) D B (split_nonempty _ _ S NE)) as (st & -> & D' & F' & B'). cbn. split; [|split; [exact Rq|lia]].
      split; [exact If|]. split; [exact D'|]. split; [reflexivity|]. split; [exact B'|]. split; [exact F'|]. cbn. now apply split_nonempty in S as (LL & _).
    - split; [exact I|]. split; [exact Rq|lia]. }
  clearbody it1. destruct I1 as ((If & Id & Il & Ib & Ifl & Ix) & Rq1 & Le). rewrite Rq1.
  destruct (Z.eqb_spec (Z.of_nat (i_idx it1)) (Z.of_nat k)) as [E|E].
  - assert (Ek : i_idx it1 = k) by lia. replace (Z.to_nat (Z.of_nat k - Z.of_nat (i_idx it1 + 1))) with 0 by lia. cbn [Nat.iter].
    split; [|split; [exact Ek|reflexivity]]. split; [exact If|]. split; [exact Id|]. split; [exact Il|]. split; [exact Ib|]. split; [exact Ifl|exact Ix].
  - assert (Lt : i_idx it1 < k) by lia. destruct Ib as [B|(Q & _)]; [|destruct Rk; lia].
    replace (Z.to_nat (Z.of_nat k - Z.of_nat (i_idx it1 + 1))) with (k - Datatypes.S (i_idx it1)) by lia.
    destruct (ignore_lines nl (k - Datatypes.S (i_idx it1)) _ _ B) as (B2 & D2); [rewrite skipn_length; destruct Rk; lia|].
    assert (Es : skipn (k - Datatypes.S (i_idx it1)) (skipn (Datatypes.S (i_idx it1)) ps) = skipn k ps).
    { apply (list_ext_nth []); [rewrite !skipn_length; lia|]. intros j _. rewrite !nth_skipn_add. f_equal. lia. }
    rewrite Es in B2. destruct (getline_step file ps k _ (i_line it1) (eq_trans D2 Id) B2 Rk) as (st & -> & D' & F' & B').
    cbn. rewrite Nat2Z.id. split; [|split; [reflexivity|reflexivity]].
    split; [exact If|]. split; [exact D'|]. split; [reflexivity|]. split; [exact B'|]. split; [exact F'|]. cbn. apply Rk.
Qed.

(** Any sequence of moves, copies and dereferences: each dereference at an existing line
    gives that line. *)
Theorem c49_iterator : forall file ps pos ops,
  is_split nl file ps -> file <> [] ->
  Forall (fun p => (0 <= p)%Z /\ readable ps (Z.to_nat p)) (positions ops pos) ->
  run ops (iter_new file pos) = map (fun p => nth (Z.to_nat p) ps []) (positions ops pos).
Proof.
  intros file ps pos ops S NE. destruct (new_iter_inv file ps pos S NE) as (I & R).
  revert I R. generalize (iter_new file pos) as it. revert pos.
  induction ops as [|o ops IH]; intros pos it I R F; [reflexivity|].
  assert (Mv : forall q, iter_inv file ps (mkIter (i_file it) (i_line it) (i_idx it) q (i_stream it))) by (intros q; exact I).
  assert (Cp : iter_inv file ps (iter_copy it) /\ i_req (iter_copy it) = pos).
  { unfold iter_copy. destruct I as (-> & _). rewrite R. now apply new_iter_inv. }
  destruct o as [| | |b|b|]; cbn [run positions] in *.
  - apply IH; [apply Mv|cbn; now rewrite R|exact F].
  - apply IH; [apply Mv|cbn; now rewrite R|exact F].
  - apply IH; [apply Cp|apply Cp|exact F].
  - destruct b; (apply IH; [|  |exact F]); try apply Cp; [apply Mv|cbn; now rewrite R].
  - destruct b; (apply IH; [|  |exact F]); try apply Cp; [apply Mv|cbn; now rewrite R].
  - inversion F as [|? ? (P0 & Rd) F2]; subst x l. unfold iter_deref.
    destruct (update_inv file ps it (Z.to_nat pos) S NE I) as (I2 & Ix & R2); [rewrite R; lia|exact Rd|].
    cbn [map]. f_equal.
    + destruct I2 as (_ & _ & -> & _). now rewrite Ix.
    + apply IH; [exact I2|rewrite R2; lia|exact F2].
Qed.

(** for (it = begin; it != end; ++it) visit *it *)
Inductive loop : citer -> Z -> list chars -> Prop :=
| loop_end it stop : i_req it = stop -> loop it stop []
| loop_step it stop line it' out : i_req it <> stop -> iter_deref it = (line, it') ->
    loop (iter_inc it') stop out -> loop it stop (line :: out).
Lemma loop_from file ps stop : is_split nl file ps -> file <> [] -> (0 <= stop < 2 ^ 64)%Z ->
  (Z.to_nat stop < length ps) ->
  forall m it, iter_inv file ps it -> i_req it = (stop - Z.of_nat m)%Z -> (0 <= stop - Z.of_nat m)%Z ->
  loop it stop (firstn m (skipn (Z.to_nat (i_req it)) ps)).
Proof.
  intros S NE Hs HL. induction m as [|m IH]; intros it I R P.
  - apply loop_end. lia.
  - set (k := Z.to_nat (i_req it)). assert (Hk : k < length ps - 1) by (unfold k; lia).
    destruct (update_inv file ps it k S NE I) as (I2 & Ix & R2); [unfold k; lia|split; lia|].
    assert (Ef : firstn (Datatypes.S m) (skipn k ps) = nth k ps [] :: firstn m (skipn (Datatypes.S k) ps)) by (rewrite (skipn_cons ps k []) by lia; reflexivity).
    rewrite Ef. eapply loop_step; [lia| |].
    + unfold iter_deref. f_equal. destruct I2 as (_ & _ & -> & _). now rewrite Ix.
    + assert (Rq : i_req (iter_inc (update_row it)) = (stop - Z.of_nat m)%Z).
      { cbn. unfold wrap. rewrite R2. rewrite Z.mod_small; unfold k; lia. }
      replace (Datatypes.S k) with (Z.to_nat (i_req (iter_inc (update_row it)))) by (rewrite Rq; unfold k; lia).
      apply IH; [exact I2|exact Rq|lia].
Qed.
(** Looping from begin() to end() visits the lines 1 .. rows-2: the last data row is left
    out (and a rest without line end too). *)
Theorem c49_loop_actual : forall file types sep ps, is_split nl file ps -> 3 <= length ps -> (Z.of_nat (length ps) < 2 ^ 64)%Z ->
  let v := csv_new file types sep in
  loop (csv_begin v) (i_req (csv_end v)) (firstn (length ps - 3) (skipn 1 ps)).
Proof.
  intros file types sep ps S L L2 v. assert (NE : file <> []).
  { destruct S as (_ & J & _). intros ->. destruct ps as [|p [|q ps]]; cbn in L; try lia. rewrite join_cons in J. clear - J. destruct p; discriminate J. }
  destruct (new_inv file types sep ps S L) as (ty & (Rw & Sf & _) & _). fold v in Rw, Sf.
  assert (Ef : v_file v = file).
  { unfold v, csv_new. destruct (sgetline nl (s_open file) []) as [h st]. destruct (sgetline nl st []) as [f st2]. reflexivity. }
  unfold csv_begin, csv_end. rewrite Ef, Rw.
  destruct (new_iter_inv file ps 1%Z S NE) as (I & R). destruct (new_iter_inv file ps (wrap (Z.of_nat (length ps - 1) - 1)) S NE) as (_ & R').
  rewrite R'. assert (W : wrap (Z.of_nat (length ps - 1) - 1) = (Z.of_nat (length ps) - 2)%Z) by (unfold wrap; rewrite Z.mod_small; lia). rewrite W.
  pose proof (loop_from file ps (Z.of_nat (length ps) - 2) S NE ltac:(lia) ltac:(lia) (length ps - 3) (iter_new file 1%Z) I ltac:(rewrite R; lia) ltac:(lia)) as Q.
  rewrite R in Q. exact Q.
Qed.
Theorem c49_loop_refuted : exists file out,
  is_split nl file [txt "h"; txt "a"; txt "b"; []] /\
  loop (csv_begin (csv_new file [TAuto] ",")) (i_req (csv_end (csv_new file [TAuto] ","))) out /\
  out = [txt "a"].
Proof.
  assert (S : is_split nl (join nl [txt "h"; txt "a"; txt "b"; []]) [txt "h"; txt "a"; txt "b"; []]).
  { split; [discriminate|]. split; [reflexivity|]. repeat constructor; cbn; intuition discriminate. }
  eexists. eexists. split; [exact S|]. split; [apply (c49_loop_actual _ _ _ _ S); cbn; lia|]. reflexivity.
Qed.
(** A file with a single line: end() lies before begin(), the loop passes begin() + n for
    every n up to the wrap of size_t. *)
Theorem c49_single_line_refuted : exists file, forall n, (Z.of_nat n < 2 ^ 64 - 1)%Z ->
  let v := csv_new file [TAuto] "," in
  count nl file = 1 /\ i_req (Nat.iter n iter_inc (csv_begin v)) <> i_req (csv_end v).
Proof.
  exists (txt "h" ++ [nl]). intros n Hn v. split; [reflexivity|].
  assert (E : i_req (Nat.iter n iter_inc (csv_begin v)) = (1 + Z.of_nat n)%Z).
  { revert Hn. induction n as [|n IH]; intros Hn; [reflexivity|]. change (Nat.iter (Datatypes.S n) iter_inc (csv_begin v)) with (iter_inc (Nat.iter n iter_inc (csv_begin v))).
    unfold iter_inc at 1. cbn [i_req]. rewrite IH by lia. unfold wrap. rewrite Z.mod_small; lia. }
  rewrite E. change (i_req (csv_end v)) with 0%Z. lia.
Qed.

(** *** The hypotheses can be met *)
Example c47_hypotheses_met :
  let line := txt "1,,x," in is_split "," line [txt "1"; []; txt "x"; []] /\ ~ In TAuto [TInt; TNone; TString; TNone] /\
  row_at (fst (row_new_auto line 0 [TInt; TNone; TString; TNone] ",")) [TInt; TNone; TString; TNone] 2 = Ok (txt "x", TString).
Proof.
  split; [|split; [cbn; intuition discriminate|reflexivity]]. split; [discriminate|]. split; [reflexivity|].
  repeat constructor; cbn; intuition discriminate.
Qed.
Example c48_hypotheses_met : exists ps, is_split nl (join nl [txt "h,g"; txt "1,2"; txt "3,4"; []]) ps /\ 3 <= length ps.
Proof.
  eexists. split; [|shelve]. split; [|split; [reflexivity|]]; [discriminate|]. repeat constructor; cbn; intuition discriminate.
  Unshelve. cbn. lia.
Qed.
Example c49_hypotheses_met :
  let ps := [txt "h"; txt "a"; txt "b"] in let ops := [Deref; Inc; Deref; PostInc false; Deref; Dec; PostDec true; Deref; Copy; Dec; Deref] in
  is_split nl (join nl ps) ps /\ Forall (fun p => (0 <= p)%Z /\ readable ps (Z.to_nat p)) (positions ops 0%Z) /\
  run ops (iter_new (join nl ps) 0%Z) = [txt "h"; txt "a"; txt "b"; txt "a"; txt "h"].
Proof.
  split; [split; [discriminate|split; [reflexivity|repeat constructor; cbn; intuition discriminate]]|]. split; [|vm_compute; reflexivity].
  match goal with |- Forall _ ?l => let l' := eval vm_compute in l in change l with l' end.
  assert (A : forall k, k < 3 -> readable [txt "h"; txt "a"; txt "b"] k).
  { intros k Hk. split; [cbn; lia|]. destruct k as [|[|[|k]]]; [left; cbn; lia|left; cbn; lia|right; discriminate|lia]. }
  repeat (apply Forall_cons; [split; [lia|apply A; lia]|]). apply Forall_nil.
Qed.

Print Assumptions c47_vector.
Print Assumptions c47_vector_columns.
Print Assumptions c47_types.
Print Assumptions c47_at_actual.
Print Assumptions c47_at_partial.
Print Assumptions c47_last_empty_refuted.
Print Assumptions c48_requests_partial.
Print Assumptions c48_one_row_refuted.
Print Assumptions c48_no_row_refuted.
Print Assumptions c48_lines.
Print Assumptions c48_entries.
Print Assumptions c49_iterator.
Print Assumptions c49_loop_actual.
Print Assumptions c49_loop_refuted.
Print Assumptions c49_single_line_refuted.
