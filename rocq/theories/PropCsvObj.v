(** C86: CSV files, rows and fields as values. *)
From Verif Require Import Base StreamModel TypeModel CsvModel CsvObjModel PropCsv.
From Coq Require Import Ascii String.
Local Open Scope nat_scope.
Local Notation length := List.length.

(** *** Values *)
(** A CSV value is that of C48; a row value has types of its own; a field value has a type of its
    own. The last component says on which CSV variable the lifetime of the types depends: a row
    made by [\[\]] or header() depends on what the rows of the CSV depend on, a row made by the
    conversion to rows on the CSV itself, a copy on what the original depends on, and an
    assigned variable on what it did before. For fields the position in the types is added. *)
Record vals := mkVals {
  x_csvs : list (option (csv * nat));
  x_rows : list (crow * list ftype * nat);
  x_fields : list (chars * ftype * nat * (nat * nat)) }.
Definition vals_new : vals := mkVals [] [] [].

Definition value_step (s : vals) (o : vop) : res (vals * shown) :=
  let 'mkVals cs rs fs := s in
  match o with
  | COpen file types sep => Ok (mkVals (cs ++ [Some (csv_new file types sep, length cs)]) rs fs, SNone)
  | CCopy v => x <- live cs v ;; Ok (mkVals (cs ++ [Some x]) rs fs, SNone)
  | CAssign v w =>
      '(_, d) <- live cs v ;; '(y, _) <- live cs w ;; cs <- wr cs v (Some (y, d)) ;; Ok (mkVals cs rs fs, SNone)
  | CDrop v => _ <- live cs v ;; cs <- wr cs v None ;; Ok (mkVals cs rs fs, SNone)
  | CAt v i =>
      '(x, d) <- live cs v ;; '(r, x) <- csv_at x i ;; cs <- wr cs v (Some (x, d)) ;;
      Ok (mkVals cs (rs ++ [(r, v_types x, d)]) fs, SNone)
  | CHeader v => '(x, d) <- live cs v ;; Ok (mkVals cs (rs ++ [(v_header x, v_types x, d)]) fs, SNone)
  | CAll v => '(x, _) <- live cs v ;;
      Ok (mkVals cs (rs ++ map (fun il => (mkRow (snd il) (fst il) (v_cols x) (v_sep x), v_types x, v))
                             (read_lines (v_file x) (v_rows x))) fs, SNone)
  | RCopy r => x <- rd rs r ;; Ok (mkVals cs (rs ++ [x]) fs, SNone)
  | RAssign r r' =>
      '(_, _, d) <- rd rs r ;; '(y, t, _) <- rd rs r' ;; rs <- wr rs r (y, t, d) ;; Ok (mkVals cs rs fs, SNone)
  | RAt r i => '(x, t, d) <- rd rs r ;; '(f, ty) <- row_at x t i ;; Ok (mkVals cs rs (fs ++ [(f, ty, i, (d, i))]), SNone)
  | FCopy f => x <- rd fs f ;; Ok (mkVals cs rs (fs ++ [x]), SNone)
  | FAssign f g =>
      '(_, _, _, d) <- rd fs f ;; '(x, t, c, _) <- rd fs g ;; fs <- wr fs f (x, t, c, d) ;; Ok (mkVals cs rs fs, SNone)
  | CTypes v => '(x, _) <- live cs v ;; Ok (s, STypes (v_types x))
  | RText r => '(x, _, _) <- rd rs r ;; Ok (s, SRow (c_idx x) (c_cols x) (c_line x) (row_fields x))
  | RTypes r => '(_, t, _) <- rd rs r ;; Ok (s, STypes t)
  | FShow f => '(x, t, c, _) <- rd fs f ;; Ok (s, SField x t c)
  end.
Definition value_run (os : list vop) : res (vals * list shown) :=
  foldM (fun st o => let '(s, out) := st in '(s, x) <- value_step s o ;; Ok (s, out ++ [x])) os (vals_new, []).

(** *** When a program may treat them as values *)
Definition alive (s : vals) (d : nat) : Prop := exists x, nth_error (x_csvs s) d = Some (Some x).
(** Nothing but the CSV itself depends on it. *)
Definition alone (s : vals) (v : nat) : Prop :=
  (forall a x, nth_error (x_csvs s) a = Some (Some (x, v)) -> a = v) /\
  (forall r x t, nth_error (x_rows s) r <> Some (x, t, v)) /\
  (forall f x t c p, nth_error (x_fields s) f <> Some (x, t, c, (v, p))).
(** Types are only used while the CSV they depend on exists, and only things with the same
    types are assigned to each other; a CSV that was opened, not copied, may also be assigned
    something else while nothing depends on it. *)
Definition allowed (s : vals) (o : vop) : Prop :=
  match o with
  | CAt v _ => forall x d, nth_error (x_csvs s) v = Some (Some (x, d)) -> alive s d
  | CAssign v w => forall x d y e,
      nth_error (x_csvs s) v = Some (Some (x, d)) -> nth_error (x_csvs s) w = Some (Some (y, e)) ->
      alive s d /\ alive s e /\ (v_types x = v_types y \/ d = v /\ alone s v)
  | RAssign r r' => forall x t d y u e,
      nth_error (x_rows s) r = Some (x, t, d) -> nth_error (x_rows s) r' = Some (y, u, e) ->
      alive s d /\ alive s e /\ t = u
  | RAt r _ | RTypes r => forall x t d, nth_error (x_rows s) r = Some (x, t, d) -> alive s d
  | FAssign f g => forall x t c d p y u e k q,
      nth_error (x_fields s) f = Some (x, t, c, (d, p)) -> nth_error (x_fields s) g = Some (y, u, e, (k, q)) ->
      alive s d /\ alive s k /\ t = u
  | FShow f => forall x t c d p, nth_error (x_fields s) f = Some (x, t, c, (d, p)) -> alive s d
  | _ => True
  end.
Fixpoint safe_from (s : vals) (os : list vop) : Prop :=
  match os with
  | [] => True
  | o :: os => allowed s o /\ match value_step s o with Ok (s', _) => safe_from s' os | _ => True end
  end.
Definition safe (os : list vop) : Prop := safe_from vals_new os.

(** *** The objects of a state of values *)
Definition as_ocsv (x : csv * nat) : ocsv :=
  let '(v, d) := x in mkOCsv (v_file v) (mkORow (v_header v) d) (mkORow (v_cache v) d) (v_cols v) (v_rows v) (v_sep v).
Definition as_orow (x : crow * list ftype * nat) : orow := let '(r, _, d) := x in mkORow r d.
Definition as_ofield (x : chars * ftype * nat * (nat * nat)) : ofield :=
  let '(f, _, c, (d, p)) := x in mkOField f d p c.
Definition objects (s : vals) : world :=
  mkWorld (map (option_map (fun x => v_types (fst x))) (x_csvs s)) (map (option_map as_ocsv) (x_csvs s))
    (map as_orow (x_rows s)) (map as_ofield (x_fields s)).

Definition types_of (cs : list (option (csv * nat))) (d : nat) (t : list ftype) : Prop :=
  d < length cs /\ forall x e, nth_error cs d = Some (Some (x, e)) -> v_types x = t.
Record Inv (s : vals) : Prop := {
  inv_csv : forall a x d, nth_error (x_csvs s) a = Some (Some (x, d)) ->
    bad_types (v_types x) (v_cols x) = false /\ types_of (x_csvs s) d (v_types x);
  inv_row : forall r x t d, nth_error (x_rows s) r = Some (x, t, d) -> types_of (x_csvs s) d t;
  inv_field : forall f x t c d p, nth_error (x_fields s) f = Some (x, t, c, (d, p)) ->
    exists u, types_of (x_csvs s) d u /\ nth_error u p = Some t }.

Lemma live_map {A B} (f : A -> B) l i : live (map (option_map f) l) i = (x <- live l i ;; Ok (f x)).
Proof.
  unfold live, rd. rewrite nth_error_map. destruct (nth_error l i) as [[x|]|]; reflexivity.
Qed.
Lemma rd_map {A B} (f : A -> B) l i : rd (map f l) i = (x <- rd l i ;; Ok (f x)).
Proof. unfold rd. rewrite nth_error_map. destruct (nth_error l i); reflexivity. Qed.
Lemma upd_map {A B} (f : A -> B) l : forall i x, upd (map f l) i (f x) = map f (upd l i x).
Proof. induction l as [|y l IH]; intros [|i] x; cbn; try reflexivity. now rewrite IH. Qed.
Lemma wr_map {A B} (f : A -> B) l i x : wr (map f l) i (f x) = (y <- wr l i x ;; Ok (map f y)).
Proof. unfold wr. rewrite map_length. destruct (i <? length l); cbn [bind]; [now rewrite upd_map|reflexivity]. Qed.
Lemma live_inv {A} (l : list (option A)) i x : live l i = Ok x -> nth_error l i = Some (Some x).
Proof. unfold live, rd. destruct (nth_error l i) as [[y|]|]; cbn; congruence. Qed.
Lemma live_cases {A} (l : list (option A)) i : (exists x, live l i = Ok x /\ nth_error l i = Some (Some x)) \/ live l i = UB.
Proof. unfold live, rd. destruct (nth_error l i) as [[y|]|]; cbn; eauto. Qed.
Lemma rd_cases {A} (l : list A) i : (exists x, rd l i = Ok x /\ nth_error l i = Some x) \/ rd l i = UB.
Proof. unfold rd. destruct (nth_error l i) as [y|]; cbn; eauto. Qed.
Lemma nth_error_lt {A} (l : list A) i x : nth_error l i = Some x -> i < length l.
Proof. intros E. apply nth_error_Some. congruence. Qed.

Lemma tread_ok m a t : nth_error m a = Some (Some t) -> tread m a = Ok t.
Proof. intros E. unfold tread. now rewrite (rd_ok _ _ _ E). Qed.
Lemma twrite_same m a t : nth_error m a = Some (Some t) -> twrite m a t = Ok m.
Proof.
  intros E. unfold twrite. rewrite (tread_ok _ _ _ E). cbn [bind]. rewrite wr_ok by (eapply nth_error_lt; eauto).
  now rewrite upd_same.
Qed.
Lemma row_make_good m a t line idx cols sep : nth_error m a = Some (Some t) -> bad_types t cols = false ->
  row_make m a line idx cols sep = Ok (mkORow (mkRow line idx cols sep) a, m).
Proof. intros E B. unfold row_make. rewrite (tread_ok _ _ _ E). cbn [bind]. unfold row_new. now rewrite B. Qed.
Lemma row_assign_same m r r' t : nth_error m (r_ref r) = Some (Some t) -> nth_error m (r_ref r') = Some (Some t) ->
  row_assign m r r' = Ok (mkORow (r_own r') (r_ref r), m).
Proof. intros E E'. unfold row_assign. rewrite (tread_ok _ _ _ E'). cbn [bind]. now rewrite (twrite_same _ _ _ E). Qed.

(** The constructor gives the value of C48. *)
Lemma fields_len line sep cols : length (fields line sep cols) = cols.
Proof.
  destruct (split_exists sep line) as (qs & Sq).
  rewrite (fields_split line sep cols qs Sq), firstn_length, app_length, repeat_length. lia.
Qed.
Lemma bad_zero t : bad_types t 0 = true.
Proof. unfold bad_types. destruct (has_auto t), (length t =? 0); reflexivity. Qed.

Lemma end_read m t : tread (m ++ [Some t]) (length m) = Ok t.
Proof. apply tread_ok. rewrite nth_error_app2, Nat.sub_diag by lia. reflexivity. Qed.
Lemma end_nth (m : tmem) t : nth_error (m ++ [Some t]) (length m) = Some (Some t).
Proof. rewrite nth_error_app2, Nat.sub_diag by lia. reflexivity. Qed.
Lemma end_write m t u : twrite (m ++ [Some t]) (length m) u = Ok (m ++ [Some u]).
Proof.
  unfold twrite. rewrite end_read. cbn [bind]. rewrite wr_ok by (rewrite app_length; cbn; lia).
  f_equal. clear. induction m as [|x m IH]; cbn; [reflexivity|]. now rewrite IH.
Qed.
Lemma end_make m t line idx cols sep : row_make (m ++ [Some t]) (length m) line idx cols sep =
  Ok (mkORow (mkRow line idx cols sep) (length m), m ++ [Some (if bad_types t cols then map parse_type (fields line sep cols) else t)]).
Proof.
  unfold row_make. rewrite end_read. cbn [bind]. unfold row_new. destruct (bad_types t cols); [|reflexivity].
  now rewrite end_write.
Qed.
Lemma end_assign m t r r' : r_ref r = length m -> r_ref r' = length m ->
  row_assign (m ++ [Some t]) r r' = Ok (mkORow (r_own r') (length m), m ++ [Some t]).
Proof. intros E E'. rewrite (row_assign_same _ _ _ t); rewrite ?E, ?E'; auto using end_nth. Qed.

Lemma csv_new_good file types sep : bad_types (v_types (csv_new file types sep)) (v_cols (csv_new file types sep)) = false.
Proof.
  unfold csv_new. destruct (sgetline nl (s_open file) []) as [header st], (sgetline nl st []) as [first st'].
  set (cols := count sep header + 1).
  set (ty := if bad_types types cols then map parse_type (fields first sep cols) else types).
  assert (TB : bad_types ty cols = false).
  { unfold ty. destruct (bad_types types cols) eqn:E; [|exact E]. apply inferred_ok; [apply fields_len|unfold cols; lia]. }
  rewrite !types_stable by exact TB. exact TB.
Qed.
Lemma ocsv_new_ok m file types sep :
  ocsv_new m file types sep = Ok (as_ocsv (csv_new file types sep, length m), m ++ [Some (v_types (csv_new file types sep))]).
Proof.
  unfold ocsv_new, csv_new. rewrite end_make, bad_zero. cbn [bind]. rewrite end_make, bad_zero. cbn [bind].
  replace (map parse_type (fields [] "," 0)) with (@nil ftype) by reflexivity.
  destruct (sgetline nl (s_open file) []) as [header st], (sgetline nl st []) as [first st'].
  set (cols := count sep header + 1).
  set (ty := if bad_types types cols then map parse_type (fields first sep cols) else types).
  assert (TB : bad_types ty cols = false).
  { unfold ty. destruct (bad_types types cols) eqn:E; [|exact E]. apply inferred_ok; [apply fields_len|unfold cols; lia]. }
  replace (if bad_types types cols then _ else _) with (Ok (m ++ [Some ty])).
  2:{ unfold ty. destruct (bad_types types cols); [rewrite end_read; cbn [bind app]|]; now rewrite end_write. }
  cbn [bind]. rewrite end_make, TB. cbn [bind]. rewrite end_assign by reflexivity. cbn [bind].
  rewrite end_make, TB. cbn [bind]. rewrite end_assign by reflexivity. cbn [bind].
  rewrite !types_stable by exact TB. reflexivity.
Qed.

Lemma all_good m a x d : nth_error m a = Some (Some (v_types x)) -> bad_types (v_types x) (v_cols x) = false ->
  ocsv_all m a (as_ocsv (x, d)) =
  Ok (map as_orow (map (fun il => (mkRow (snd il) (fst il) (v_cols x) (v_sep x), v_types x, a)) (read_lines (v_file x) (v_rows x))), m).
Proof.
  intros E B. unfold ocsv_all. cbn [as_ocsv o_cols o_sep o_file o_rows].
  assert (G : forall l acc, foldM (fun st il => let '(ret, m) := st in
    '(r, m) <- row_make m a (snd il) (fst il) (v_cols x) (v_sep x) ;; Ok (ret ++ [r], m)) l (acc, m) =
    Ok (acc ++ map as_orow (map (fun il => (mkRow (snd il) (fst il) (v_cols x) (v_sep x), v_types x, a)) l), m)).
  { induction l as [|il l IH]; intros acc; cbn [foldM map].
    - now rewrite app_nil_r.
    - rewrite (row_make_good _ _ _ _ _ _ _ E B). cbn [bind]. rewrite IH. now rewrite <- app_assoc. }
  rewrite G. reflexivity.
Qed.

Lemma mem_nth s a x d : nth_error (x_csvs s) a = Some (Some (x, d)) -> nth_error (w_mem (objects s)) a = Some (Some (v_types x)).
Proof. intros E. cbn [objects w_mem]. rewrite nth_error_map, E. reflexivity. Qed.
Lemma alive_mem s d t : types_of (x_csvs s) d t -> alive s d -> nth_error (w_mem (objects s)) d = Some (Some t).
Proof. intros (_ & T) ((x & e) & E). rewrite (mem_nth _ _ _ _ E). now rewrite (T _ _ E). Qed.

Lemma types_of_app cs c d t : types_of cs d t -> types_of (cs ++ [c]) d t.
Proof.
  intros (L & T). split; [rewrite app_length; cbn; lia|]. intros x e E. rewrite nth_error_app1 in E by exact L. eauto.
Qed.
(** An assignment to a CSV variable that keeps the types, or its end *)
Lemma types_of_upd cs v c d t : (forall x e, c = Some (x, e) -> exists y k, nth_error cs v = Some (Some (y, k)) /\ v_types y = v_types x) ->
  types_of cs d t -> types_of (upd cs v c) d t.
Proof.
  intros K (L & T). split; [now rewrite upd_length|]. intros x e E. rewrite nth_error_upd in E.
  destruct ((d =? v) && (v <? length cs)) eqn:B; [|eauto]. apply andb_prop in B. destruct B as (B & _). apply Nat.eqb_eq in B. subst v.
  destruct c as [[x' e']|]; [|discriminate]. injection E as <- <-.
  destruct (K _ _ eq_refl) as (y & k & Ey & <-). eauto.
Qed.
Lemma Inv_upd cs rs fs v c : Inv (mkVals cs rs fs) ->
  (forall x e, c = Some (x, e) -> exists y k, nth_error cs v = Some (Some (y, k)) /\ v_types y = v_types x /\
     bad_types (v_types x) (v_cols x) = false /\ types_of cs e (v_types x)) ->
  Inv (mkVals (upd cs v c) rs fs).
Proof.
  intros [IC IR IF] K. cbn [x_csvs x_rows x_fields] in *.
  assert (K' : forall x e, c = Some (x, e) -> exists y k, nth_error cs v = Some (Some (y, k)) /\ v_types y = v_types x).
  { intros x e Ec. destruct (K x e Ec) as (y & k & A & B & _). eauto. }
  split; cbn [x_csvs x_rows x_fields].
  - intros a x d E. rewrite nth_error_upd in E. destruct ((a =? v) && (v <? length cs)) eqn:B.
    + destruct c as [[x' e']|]; [|discriminate]. injection E as <- <-.
      destruct (K _ _ eq_refl) as (y & k & _ & _ & G & T). split; [exact G|]. now apply types_of_upd.
    + destruct (IC a x d E) as (G & T). split; [exact G|]. now apply types_of_upd.
  - intros r x t d E. apply types_of_upd; eauto.
  - intros f x t c0 d p E. destruct (IF f x t c0 d p E) as (u & T & N). exists u. split; [now apply types_of_upd|exact N].
Qed.
Lemma Inv_csv cs rs fs x d : Inv (mkVals cs rs fs) -> bad_types (v_types x) (v_cols x) = false ->
  types_of (cs ++ [Some (x, d)]) d (v_types x) -> Inv (mkVals (cs ++ [Some (x, d)]) rs fs).
Proof.
  intros [IC IR IF] G T. cbn [x_csvs x_rows x_fields] in *. split; cbn [x_csvs x_rows x_fields].
  - intros a y e E. destruct (Nat.lt_ge_cases a (length cs)) as [L|L].
    + rewrite nth_error_app1 in E by exact L. destruct (IC a y e E) as (Gy & Ty). split; [exact Gy|now apply types_of_app].
    + rewrite nth_error_app2 in E by exact L. destruct (a - length cs) as [|k]; [|destruct k; discriminate].
      injection E as <- <-. split; assumption.
  - intros r y t e E. apply types_of_app; eauto.
  - intros f y t c e p E. destruct (IF f y t c e p E) as (u & Tu & N). exists u. split; [now apply types_of_app|exact N].
Qed.
Lemma Inv_row cs rs fs l : Inv (mkVals cs rs fs) -> (forall x t d, In (x, t, d) l -> types_of cs d t) -> Inv (mkVals cs (rs ++ l) fs).
Proof.
  intros [IC IR IF] T. cbn [x_csvs x_rows x_fields] in *. split; cbn [x_csvs x_rows x_fields]; auto.
  intros r y u e E. destruct (Nat.lt_ge_cases r (length rs)) as [L|L].
  - rewrite nth_error_app1 in E by exact L. eauto.
  - rewrite nth_error_app2 in E by exact L. apply nth_error_In in E. eauto.
Qed.
Lemma Inv_field cs rs fs x t c d p u : Inv (mkVals cs rs fs) -> types_of cs d u -> nth_error u p = Some t ->
  Inv (mkVals cs rs (fs ++ [(x, t, c, (d, p))])).
Proof.
  intros [IC IR IF] T N. cbn [x_csvs x_rows x_fields] in *. split; cbn [x_csvs x_rows x_fields]; auto.
  intros f y v c' e q E. destruct (Nat.lt_ge_cases f (length fs)) as [L|L].
  - rewrite nth_error_app1 in E by exact L. eauto.
  - rewrite nth_error_app2 in E by exact L. destruct (f - length fs) as [|k]; [|destruct k; discriminate].
    injection E as <- <- <- <- <-. eauto.
Qed.

Definition agree (a : res (world * shown)) (b : res (vals * shown)) : Prop :=
  match b with
  | Ok (s', x) => a = Ok (objects s', x) /\ Inv s'
  | Throw => a = Throw
  | UB => a = UB
  end.

Lemma at_types x i r x' : csv_at x i = Ok (r, x') -> bad_types (v_types x) (v_cols x) = false ->
  v_types x' = v_types x /\ v_cols x' = v_cols x.
Proof.
  unfold csv_at. intros E B. destruct (c_idx (v_cache x) =? i); [injection E as _ <-; auto|].
  destruct (0 <? v_rows x); [|discriminate]. cbn [require bind] in E.
  destruct (sgetline nl (Nat.iter (i mod v_rows x) (signore nl) (s_open (v_file x))) []) as [line st'].
  rewrite types_stable in E by exact B. injection E as _ <-. auto.
Qed.

Lemma at_agree m v x d i : nth_error m v = Some (Some (v_types x)) -> nth_error m d = Some (Some (v_types x)) ->
  bad_types (v_types x) (v_cols x) = false ->
  ocsv_at m v (as_ocsv (x, d)) i =
  match csv_at x i with Ok (r, x') => Ok (mkORow r d, as_ocsv (x', d), m) | Throw => Throw | UB => UB end.
Proof.
  intros Ev Ed B. unfold ocsv_at, csv_at. cbn [as_ocsv o_cache r_own o_rows o_file o_cols o_sep o_header].
  destruct (c_idx (v_cache x) =? i); [reflexivity|].
  destruct (0 <? v_rows x); [|reflexivity]. cbn [require bind].
  destruct (sgetline nl (Nat.iter (i mod v_rows x) (signore nl) (s_open (v_file x))) []) as [line st'].
  rewrite (row_make_good _ _ _ _ _ _ _ Ev B). cbn [bind].
  rewrite (row_assign_same _ _ _ (v_types x)) by assumption. cbn [bind r_own r_ref].
  rewrite types_stable by exact B. reflexivity.
Qed.

Lemma upd_self_map {A B} (f : A -> B) l v x y : nth_error l v = Some y -> f y = f x -> map f (upd l v x) = map f l.
Proof.
  intros E Ef. rewrite <- upd_map. apply upd_same. rewrite nth_error_map, E. cbn. now rewrite Ef.
Qed.

Lemma ftype_eq_dec (a b : ftype) : {a = b} + {a <> b}.
Proof. decide equality. Qed.

(** Assigning something with other types to a CSV on which nothing else depends *)
Lemma assign_alone cs rs fs v w x y e : Inv (mkVals cs rs fs) ->
  nth_error cs v = Some (Some (x, v)) -> nth_error cs w = Some (Some (y, e)) ->
  v_types x <> v_types y -> alive (mkVals cs rs fs) e -> alone (mkVals cs rs fs) v ->
  agree ('(c, m) <- ocsv_assign (map (option_map (fun x => v_types (fst x))) cs) v (as_ocsv (x, v)) w (as_ocsv (y, e)) ;;
         cs' <- wr (map (option_map as_ocsv) cs) v (Some c) ;; Ok (mkWorld m cs' (map as_orow rs) (map as_ofield fs), SNone))
    (cs' <- wr cs v (Some (y, v)) ;; Ok (mkVals cs' rs fs, SNone)).
Proof.
  intros I E E' Ne Ae (A1 & A2 & A3). pose proof I as [IC IR IF]. cbn [x_csvs x_rows x_fields] in *.
  destruct (IC _ _ _ E') as (G' & T').
  assert (Ew : w <> v) by (intros ->; congruence).
  assert (Ee : e <> v) by (intros ->; specialize (A1 _ _ E'); contradiction).
  pose proof (mem_nth (mkVals cs rs fs)) as MN. pose proof (alive_mem (mkVals cs rs fs)) as AM.
  cbn [objects w_mem x_csvs] in MN, AM.
  set (m := map (option_map (fun x : csv * nat => v_types (fst x))) cs) in *.
  assert (Lv : v < length m) by (unfold m; rewrite map_length; eapply nth_error_lt; eauto).
  set (m' := upd m v (Some (v_types y))).
  assert (Mv : nth_error m' v = Some (Some (v_types y))).
  { unfold m'. rewrite nth_error_upd, Nat.eqb_refl. apply Nat.ltb_lt in Lv. now rewrite Lv. }
  assert (Me : nth_error m' e = Some (Some (v_types y))).
  { unfold m'. rewrite nth_error_upd. apply Nat.eqb_neq in Ee. rewrite Ee. cbn [andb]. now apply AM. }
  unfold ocsv_assign. rewrite (tread_ok _ _ _ (MN _ _ _ E')). cbn [bind]. unfold twrite at 1.
  rewrite (tread_ok _ _ _ (MN _ _ _ E)). cbn [bind]. rewrite wr_ok by exact Lv. fold m'. cbn [bind as_ocsv o_header o_cache].
  rewrite (row_assign_same m' _ _ (v_types y)) by assumption. cbn [bind r_own r_ref].
  rewrite (row_assign_same m' _ _ (v_types y)) by assumption. cbn [bind r_own r_ref o_file o_cols o_rows o_sep].
  change (Some (mkOCsv (v_file y) (mkORow (v_header y) v) (mkORow (v_cache y) v) (v_cols y) (v_rows y) (v_sep y)))
    with (option_map as_ocsv (Some (y, v))).
  rewrite wr_map, wr_ok by (eapply nth_error_lt; eauto). cbn [bind agree]. split.
  - unfold objects. cbn [x_csvs x_rows x_fields]. f_equal. f_equal. f_equal. unfold m', m.
    exact (upd_map (option_map (fun x : csv * nat => v_types (fst x))) cs v (Some (y, v))).
  - assert (U : forall d t, d <> v -> types_of cs d t -> types_of (upd cs v (Some (y, v))) d t).
    { intros d t Nd (L & T). split; [now rewrite upd_length|]. intros z k Ez. rewrite nth_error_upd in Ez.
      apply Nat.eqb_neq in Nd. rewrite Nd in Ez. cbn [andb] in Ez. eauto. }
    split; cbn [x_csvs x_rows x_fields].
    + intros a z d Ez. rewrite nth_error_upd in Ez. destruct (Nat.eqb_spec a v) as [->|Na].
      * assert (Hl : v <? length cs = true) by (apply Nat.ltb_lt; eapply nth_error_lt; eauto). rewrite Hl in Ez. cbn [andb] in Ez. injection Ez as <- <-.
        split; [exact G'|]. split; [rewrite upd_length; eapply nth_error_lt; eauto|].
        intros z k Ez. rewrite nth_error_upd, Nat.eqb_refl, Hl in Ez. cbn [andb] in Ez. injection Ez as <- <-. reflexivity.
      * cbn [andb] in Ez. destruct (IC _ _ _ Ez) as (Gz & Tz). split; [exact Gz|]. apply U; [|exact Tz].
        intros ->. apply Na. eauto.
    + intros r z t d Ez. apply U; [|eauto]. intros ->. eapply A2; eauto.
    + intros f z t c d p Ez. destruct (IF _ _ _ _ _ _ Ez) as (u & Tu & N). exists u. split; [|exact N].
      apply U; [|exact Tu]. intros ->. eapply A3; eauto.
Qed.

Lemma step_agree s o : Inv s -> allowed s o -> agree (vexec (objects s) o) (value_step s o).
Proof.
  destruct s as [cs rs fs]. intros I A. pose proof I as [IC IR IF]. cbn [x_csvs x_rows x_fields] in *.
  pose proof (mem_nth (mkVals cs rs fs)) as MN. pose proof (alive_mem (mkVals cs rs fs)) as AM.
  cbn [objects w_mem x_csvs] in MN, AM.
  unfold objects. cbn [x_csvs x_rows x_fields].
  destruct o as [file types sep|v|v w|v|v i|v|v|r|r r'|r i|f|f g|v|r|r|f]; cbn [vexec value_step].
  - rewrite ocsv_new_ok. cbn [bind agree]. split.
    + unfold objects. cbn [x_csvs x_rows x_fields]. rewrite !map_app, map_length. reflexivity.
    + apply Inv_csv; [exact I|apply csv_new_good|]. split; [rewrite app_length; cbn; lia|].
      intros x e E. rewrite nth_error_app2, Nat.sub_diag in E by lia. injection E as <- <-. reflexivity.
  - rewrite live_map. destruct (live_cases cs v) as [((x & d) & -> & E)| ->]; cbn [bind agree]; [|reflexivity].
    unfold ocsv_copy. rewrite (tread_ok _ _ _ (MN _ _ _ E)). cbn [bind]. split.
    + unfold objects. cbn [x_csvs x_rows x_fields]. rewrite !map_app. reflexivity.
    + destruct (IC _ _ _ E) as (G & T). apply Inv_csv; [exact I|exact G|now apply types_of_app].
  - rewrite !live_map. destruct (live_cases cs v) as [((x & d) & -> & E)| ->]; cbn [bind agree]; [|reflexivity].
    destruct (live_cases cs w) as [((y & e) & -> & E')| ->]; cbn [bind agree]; [|reflexivity].
    cbn [allowed x_csvs] in A. destruct (A _ _ _ _ E E') as (Ad & Ae & Ty).
    destruct (IC _ _ _ E) as (G & T), (IC _ _ _ E') as (G' & T').
    assert (Dec : v_types x = v_types y \/ v_types x <> v_types y).
    { destruct (list_eq_dec ftype_eq_dec (v_types x) (v_types y)); auto. }
    destruct Dec as [Eq|Ne].
    2:{ destruct Ty as [Ty|(-> & Al)]; [contradiction|]. exact (assign_alone cs rs fs v w x y e I E E' Ne Ae Al). }
    clear Ty. rename Eq into Ty.
    unfold ocsv_assign. rewrite (tread_ok _ _ _ (MN _ _ _ E')). cbn [bind].
    rewrite twrite_same by (rewrite <- Ty; exact (MN _ _ _ E)). cbn [bind as_ocsv o_header o_cache].
    rewrite (row_assign_same _ _ _ (v_types x)); [|exact (AM _ _ T Ad)|rewrite Ty; exact (AM _ _ T' Ae)]. cbn [bind r_own r_ref].
    rewrite (row_assign_same _ _ _ (v_types x)); [|exact (AM _ _ T Ad)|rewrite Ty; exact (AM _ _ T' Ae)]. cbn [bind r_own r_ref o_file o_cols o_rows o_sep].
    change (Some (mkOCsv (v_file y) (mkORow (v_header y) d) (mkORow (v_cache y) d) (v_cols y) (v_rows y) (v_sep y)))
      with (option_map as_ocsv (Some (y, d))).
    rewrite wr_map, wr_ok by (eapply nth_error_lt; eauto). cbn [bind agree]. split.
    + unfold objects. cbn [x_csvs x_rows x_fields]. f_equal. f_equal.
      rewrite (upd_self_map (option_map (fun x : csv * nat => v_types (fst x))) _ _ _ _ E); [reflexivity|]. cbn. now rewrite Ty.
    + apply Inv_upd; [exact I|]. intros x0 e0 E0. injection E0 as <- <-. exists x, d.
      split; [exact E|]. split; [exact Ty|]. split; [exact G'|]. now rewrite <- Ty.
  - rewrite live_map. destruct (live_cases cs v) as [((x & d) & -> & E)| ->]; cbn [bind agree]; [|reflexivity].
    pose proof (wr_map (option_map as_ocsv) cs v None) as W1. cbn [option_map] in W1.
    pose proof (wr_map (option_map (fun x : csv * nat => v_types (fst x))) cs v None) as W2. cbn [option_map] in W2.
    rewrite W1, W2, wr_ok by (eapply nth_error_lt; eauto). cbn [bind agree]. split; [reflexivity|].
    apply Inv_upd; [exact I|]. intros x0 e0 E0. discriminate.
  - rewrite live_map. destruct (live_cases cs v) as [((x & d) & -> & E)| ->]; cbn [bind agree]; [|reflexivity].
    destruct (IC _ _ _ E) as (G & T). cbn [allowed x_csvs] in A. specialize (A _ _ E).
    rewrite at_agree; [|exact (MN _ _ _ E)|exact (AM _ _ T A)|exact G].
    destruct (csv_at x i) as [[r x']| |] eqn:Ea; cbn [bind agree]; try reflexivity.
    destruct (at_types _ _ _ _ Ea G) as (Tt & Tc).
    change (Some (as_ocsv (x', d))) with (option_map as_ocsv (Some (x', d))).
    rewrite wr_map, wr_ok by (eapply nth_error_lt; eauto). cbn [bind agree]. split.
    + unfold objects. cbn [x_csvs x_rows x_fields]. rewrite map_app. f_equal. f_equal.
      rewrite (upd_self_map (option_map (fun x : csv * nat => v_types (fst x))) _ _ _ _ E); [reflexivity|]. cbn. now rewrite Tt.
    + assert (U : forall x0 e, Some (x', d) = Some (x0, e) -> exists y k, nth_error cs v = Some (Some (y, k)) /\ v_types y = v_types x0 /\
        bad_types (v_types x0) (v_cols x0) = false /\ types_of cs e (v_types x0)).
      { intros x0 e0 E0. injection E0 as <- <-. exists x, d. rewrite Tt, Tc. auto. }
      apply Inv_row; [now apply Inv_upd|]. intros x0 t0 d0 [E0|[]]. apply pair_equal_spec in E0. destruct E0 as (E0 & <-).
      apply pair_equal_spec in E0. destruct E0 as (_ & <-). rewrite Tt. apply types_of_upd; [|exact T].
      intros x1 e1 E1. destruct (U _ _ E1) as (y & k & B1 & B2 & _). eauto.
  - rewrite live_map. destruct (live_cases cs v) as [((x & d) & -> & E)| ->]; cbn [bind agree]; [|reflexivity].
    split; [unfold objects; cbn [x_csvs x_rows x_fields]; rewrite map_app; reflexivity|].
    apply Inv_row; [exact I|]. intros x0 t0 d0 [E0|[]]. apply pair_equal_spec in E0. destruct E0 as (E0 & <-).
    apply pair_equal_spec in E0. destruct E0 as (_ & <-). exact (proj2 (IC _ _ _ E)).
  - rewrite live_map. destruct (live_cases cs v) as [((x & d) & -> & E)| ->]; cbn [bind agree]; [|reflexivity].
    destruct (IC _ _ _ E) as (G & T). rewrite (all_good _ _ _ _ (MN _ _ _ E) G). cbn [bind].
    split; [unfold objects; cbn [x_csvs x_rows x_fields]; rewrite map_app; reflexivity|].
    apply Inv_row; [exact I|]. intros x0 t0 d0 Hin. apply in_map_iff in Hin. destruct Hin as (il & E0 & _).
    apply pair_equal_spec in E0. destruct E0 as (E0 & <-). apply pair_equal_spec in E0. destruct E0 as (_ & <-).
    split; [eapply nth_error_lt; eauto|]. intros y e Ey. congruence.
  - rewrite rd_map. destruct (rd_cases rs r) as [(x & -> & E)| ->]; cbn [bind agree]; [|reflexivity].
    split; [unfold objects; cbn [x_csvs x_rows x_fields]; rewrite map_app; reflexivity|].
    apply Inv_row; [exact I|]. intros x0 t0 d0 [->|[]]. eauto.
  - rewrite !rd_map. destruct (rd_cases rs r) as [([[x t] d] & -> & E)| ->]; cbn [bind agree]; [|reflexivity].
    destruct (rd_cases rs r') as [([[y u] e] & -> & E')| ->]; cbn [bind agree]; [|reflexivity].
    cbn [allowed x_rows] in A. destruct (A _ _ _ _ _ _ E E') as (Ad & Ae & <-).
    rewrite (row_assign_same _ _ _ t); [|exact (AM _ _ (IR _ _ _ _ E) Ad)|exact (AM _ _ (IR _ _ _ _ E') Ae)].
    cbn [bind r_own r_ref as_orow]. change (mkORow y d) with (as_orow (y, t, d)).
    rewrite wr_map, wr_ok by (eapply nth_error_lt; eauto). cbn [bind]. split; [reflexivity|].
    split; cbn [x_csvs x_rows x_fields]; auto. intros r0 x0 t0 d0 E0. rewrite nth_error_upd in E0.
    destruct ((r0 =? r) && (r <? length rs)); [|eauto]. injection E0 as <- <- <-. eauto.
  - rewrite rd_map. destruct (rd_cases rs r) as [([[x t] d] & -> & E)| ->]; cbn [bind agree]; [|reflexivity].
    cbn [allowed x_rows] in A. specialize (A _ _ _ E). pose proof (AM _ _ (IR _ _ _ _ E) A) as Mt.
    unfold row_field, row_at. cbn [as_orow r_own r_ref].
    destruct (i <? c_cols x); cbn [guard bind]; [|reflexivity].
    destruct (row_find (S (S (length (c_line x)))) 0 i (c_sep x) (s_open (c_line x)) []) as [ftxt| |]; cbn [bind]; try reflexivity.
    rewrite (tread_ok _ _ _ Mt). cbn [bind]. destruct (i <? length t); cbn [guard bind]; [|reflexivity].
    destruct (rd_cases t i) as [(ty & -> & En)| ->]; cbn [bind]; [|reflexivity].
    assert (Na : ty <> TAuto).
    { intros ->. destruct A as ((y & e) & Ey). cbn [x_csvs] in Ey. destruct (IC _ _ _ Ey) as (By & _).
      rewrite (proj2 (IR _ _ _ _ E) _ _ Ey) in By. unfold bad_types in By.
      assert (has_auto t = true); [|now rewrite H in By].
      unfold has_auto. apply existsb_exists. exists TAuto. split; [eapply nth_error_In; eauto|reflexivity]. }
    assert (En' : agree (Ok (mkWorld (map (option_map (fun x => v_types (fst x))) cs) (map (option_map as_ocsv) cs) (map as_orow rs) (map as_ofield fs ++ [mkOField ftxt d i i]), SNone))
                    (Ok (mkVals cs rs (fs ++ [(ftxt, ty, i, (d, i))]), SNone))).
    { cbn [agree]. split; [unfold objects; cbn [x_csvs x_rows x_fields]; rewrite map_app; reflexivity|].
      apply Inv_field with (u := t); [exact I|exact (IR _ _ _ _ E)|exact En]. }
    destruct ty; try (exact En'). contradiction.
  - rewrite rd_map. destruct (rd_cases fs f) as [([[[x t] c] [d p]] & -> & E)| ->]; cbn [bind agree]; [|reflexivity].
    split; [unfold objects; cbn [x_csvs x_rows x_fields]; rewrite map_app; reflexivity|].
    destruct (IF _ _ _ _ _ _ E) as (u & T & N). apply Inv_field with (u := u); assumption.
  - rewrite !rd_map. destruct (rd_cases fs f) as [([[[x t] c] [d p]] & -> & E)| ->]; cbn [bind agree]; [|reflexivity].
    destruct (rd_cases fs g) as [([[[y t'] c'] [e q]] & -> & E')| ->]; cbn [bind agree]; [|reflexivity].
    cbn [allowed x_fields] in A. destruct (A _ _ _ _ _ _ _ _ _ _ E E') as (Ad & Ae & <-).
    destruct (IF _ _ _ _ _ _ E) as (u & T & N), (IF _ _ _ _ _ _ E') as (u' & T' & N').
    unfold field_assign, field_type. cbn [as_ofield f_vec f_pos f_text f_col].
    rewrite (tread_ok _ _ _ (AM _ _ T' Ae)). cbn [bind]. rewrite (rd_ok _ _ _ N'). cbn [bind].
    rewrite (tread_ok _ _ _ (AM _ _ T Ad)). cbn [bind]. rewrite wr_ok by (eapply nth_error_lt; eauto). cbn [bind].
    rewrite (upd_same _ _ _ N), (twrite_same _ _ _ (AM _ _ T Ad)). cbn [bind].
    change (mkOField y d p c') with (as_ofield (y, t, c', (d, p))).
    rewrite wr_map, wr_ok by (eapply nth_error_lt; eauto). cbn [bind]. split; [reflexivity|].
    split; cbn [x_csvs x_rows x_fields]; auto. intros f0 x0 t0 c0 d0 p0 E0. rewrite nth_error_upd in E0.
    destruct ((f0 =? f) && (f <? length fs)); [|eauto]. injection E0 as <- <- <- <- <-. eauto.
  - rewrite live_map. destruct (live_cases cs v) as [((x & d) & -> & E)| ->]; cbn [bind agree]; [|reflexivity].
    rewrite (tread_ok _ _ _ (MN _ _ _ E)). cbn [bind]. split; [reflexivity|exact I].
  - rewrite rd_map. destruct (rd_cases rs r) as [([[x t] d] & -> & E)| ->]; cbn [bind agree]; [|reflexivity].
    split; [reflexivity|exact I].
  - rewrite rd_map. destruct (rd_cases rs r) as [([[x t] d] & -> & E)| ->]; cbn [bind agree]; [|reflexivity].
    cbn [allowed x_rows] in A. specialize (A _ _ _ E).
    cbn [as_orow r_ref]. rewrite (tread_ok _ _ _ (AM _ _ (IR _ _ _ _ E) A)). cbn [bind]. split; [reflexivity|exact I].
  - rewrite rd_map. destruct (rd_cases fs f) as [([[[x t] c] [d p]] & -> & E)| ->]; cbn [bind agree]; [|reflexivity].
    cbn [allowed x_fields] in A. specialize (A _ _ _ _ _ E). destruct (IF _ _ _ _ _ _ E) as (u & T & N).
    unfold field_type. cbn [as_ofield f_vec f_pos f_text f_col]. rewrite (tread_ok _ _ _ (AM _ _ T A)). cbn [bind].
    rewrite (rd_ok _ _ _ N). cbn [bind]. split; [reflexivity|exact I].
Qed.

(** *** Theorems *)
(** What a program reads, or how it ends. *)
Definition shows {S} (r : res (S * list shown)) : res (list shown) :=
  match r with Ok (_, out) => Ok out | Throw => Throw | UB => UB end.

Theorem c86_values : forall os, safe os -> shows (vrun os) = shows (value_run os).
Proof.
  assert (I0 : Inv vals_new) by (split; intros [|?]; discriminate).
  assert (G : forall os s out, Inv s -> safe_from s os ->
    shows (foldM (fun st o => let '(s, out) := st in '(s, x) <- vexec s o ;; Ok (s, out ++ [x])) os (objects s, out)) =
    shows (foldM (fun st o => let '(s, out) := st in '(s, x) <- value_step s o ;; Ok (s, out ++ [x])) os (s, out))).
  { induction os as [|o os IH]; intros s out I Hs; [reflexivity|].
    cbn [safe_from] in Hs. destruct Hs as (A & Hs). pose proof (step_agree s o I A) as G.
    cbn [foldM]. destruct (value_step s o) as [[s' x]| |]; cbn [agree] in G.
    - destruct G as (G & I'). rewrite G. cbn [bind]. now apply IH.
    - now rewrite G.
    - now rewrite G. }
  intros os Hs. exact (G os vals_new [] I0 Hs).
Qed.
Print Assumptions c86_values.

(** Programs that assign and destroy nothing: opening, copying and reading in any order. *)
Definition only_reads (o : vop) : bool :=
  match o with CAssign _ _ | CDrop _ | RAssign _ _ | FAssign _ _ => false | _ => true end.

Record closed (s : vals) : Prop := {
  cl_all : forall a, a < length (x_csvs s) -> alive s a;
  cl_csv : forall a x d, nth_error (x_csvs s) a = Some (Some (x, d)) -> d < length (x_csvs s);
  cl_row : forall r x t d, nth_error (x_rows s) r = Some (x, t, d) -> d < length (x_csvs s);
  cl_field : forall f x t c d p, nth_error (x_fields s) f = Some (x, t, c, (d, p)) -> d < length (x_csvs s) }.

Theorem c86_reading : forall os, forallb only_reads os = true -> shows (vrun os) = shows (value_run os).
Proof.
  intros os Hos. apply c86_values. unfold safe.
  assert (C0 : closed vals_new) by (split; [intros a L; cbn in L; lia|intros [|?]; discriminate|intros [|?]; discriminate|intros [|?]; discriminate]).
  revert C0. generalize vals_new. induction os as [|o os IH]; intros s C; [exact Logic.I|].
  cbn [forallb] in Hos. apply andb_prop in Hos. destruct Hos as (Ho & Hos). cbn [safe_from].
  pose proof C as [CA CC CR CF]. split.
  { destruct o; try discriminate Ho; cbn [allowed]; eauto. }
  destruct (value_step s o) as [[s' x]| |] eqn:E; try exact Logic.I. apply (IH Hos). clear IH Hos.
  destruct s as [cs rs fs]. cbn [x_csvs x_rows x_fields] in *.
  assert (app_inv : forall {A} (l l' : list A) i y, nth_error (l ++ l') i = Some y -> nth_error l i = Some y \/ In y l').
  { intros A l l' i y Ey. destruct (Nat.lt_ge_cases i (length l)) as [L|L].
    - rewrite nth_error_app1 in Ey by exact L. auto.
    - rewrite nth_error_app2 in Ey by exact L. right. eapply nth_error_In; eauto. }
  assert (newcsv : forall y d, d <= length cs -> closed (mkVals (cs ++ [Some (y, d)]) rs fs)).
  { intros y d Ld. assert (Len : length (cs ++ [Some (y, d)]) = S (length cs)) by (rewrite app_length; cbn; lia).
    split; unfold alive; cbn [x_csvs x_rows x_fields]; rewrite Len.
    - intros a La. destruct (Nat.eq_dec a (length cs)) as [->|Na].
      + rewrite nth_error_app2, Nat.sub_diag by lia. exists (y, d). reflexivity.
      + rewrite nth_error_app1 by lia. apply CA. lia.
    - intros a z e Ez. apply app_inv in Ez. destruct Ez as [Ez|[Ez|[]]]; [specialize (CC _ _ _ Ez); lia|]. injection Ez as <- <-. lia.
    - intros r z t e Ez. specialize (CR _ _ _ _ Ez). lia.
    - intros f z t c e p Ez. specialize (CF _ _ _ _ _ _ Ez). lia. }
  assert (newrows : forall l, (forall z t d, In (z, t, d) l -> d < length cs) -> closed (mkVals cs (rs ++ l) fs)).
  { intros l Hl. split; unfold alive; cbn [x_csvs x_rows x_fields]; auto.
    intros r z t d Ez. apply app_inv in Ez. destruct Ez; eauto. }
  assert (newfield : forall z t c d p, d < length cs -> closed (mkVals cs rs (fs ++ [(z, t, c, (d, p))]))).
  { intros z t c d p Ld. split; unfold alive; cbn [x_csvs x_rows x_fields]; auto.
    intros f z' t' c' d' p' Ez. apply app_inv in Ez. destruct Ez as [Ez|[Ez|[]]]; [eauto|]. injection Ez as <- <- <- <- <-. exact Ld. }
  destruct o as [file types sep|v|v w|v|v i|v|v|r|r r'|r i|f|f g|v|r|r|f]; try discriminate Ho; cbn [value_step] in E.
  - injection E as <- _. apply newcsv. lia.
  - destruct (live_cases cs v) as [([y d] & El & En)|El]; rewrite El in E; [|discriminate]. cbn [bind] in E. injection E as <- _.
    apply newcsv. specialize (CC _ _ _ En). lia.
  - destruct (live_cases cs v) as [([y d] & El & En)|El]; rewrite El in E; [|discriminate]. cbn [bind] in E.
    destruct (csv_at y i) as [[r y']| |]; try discriminate. cbn [bind] in E.
    rewrite wr_ok in E by (eapply nth_error_lt; eauto). cbn [bind] in E. injection E as <- _.
    assert (Ld : d < length cs) by eauto.
    assert (Hn : forall a z, nth_error (upd cs v (Some (y', d))) a = Some (Some z) -> (a = v /\ z = (y', d)) \/ nth_error cs a = Some (Some z)).
    { intros a z Ez. rewrite nth_error_upd in Ez. destruct (Nat.eqb_spec a v); [|auto]. destruct (v <? length cs); cbn [andb] in Ez; [|auto].
      injection Ez as <-. auto. }
    split; unfold alive; cbn [x_csvs x_rows x_fields]; rewrite upd_length.
    + intros a La. rewrite nth_error_upd. destruct ((a =? v) && (v <? length cs)); [eexists; reflexivity|now apply CA].
    + intros a z e Ez. apply Hn in Ez. destruct Ez as [(-> & Ez)|Ez]; [injection Ez as -> ->; exact Ld|eauto].
    + intros r0 z t e Ez. apply app_inv in Ez. destruct Ez as [Ez|[Ez|[]]]; [eauto|]. injection Ez as _ _ <-. exact Ld.
    + eauto.
  - destruct (live_cases cs v) as [([y d] & El & En)|El]; rewrite El in E; [|discriminate]. cbn [bind] in E. injection E as <- _.
    apply newrows. intros z t e [Ez|[]]. injection Ez as _ _ <-. eauto.
  - destruct (live_cases cs v) as [([y d] & El & En)|El]; rewrite El in E; [|discriminate]. cbn [bind] in E. injection E as <- _.
    apply newrows. intros z t e Hin. apply in_map_iff in Hin. destruct Hin as (il & Ez & _). injection Ez as _ _ <-. eapply nth_error_lt; eauto.
  - destruct (rd_cases rs r) as [(y & El & En)|El]; rewrite El in E; [|discriminate]. cbn [bind] in E. injection E as <- _.
    apply newrows. intros z t e [->|[]]. eauto.
  - destruct (rd_cases rs r) as [([[y t] d] & El & En)|El]; rewrite El in E; [|discriminate]. cbn [bind] in E.
    destruct (row_at y t i) as [[f ty]| |]; try discriminate. cbn [bind] in E. injection E as <- _. apply newfield. eauto.
  - destruct (rd_cases fs f) as [([[[y t] c] [d p]] & El & En)|El]; rewrite El in E; [|discriminate]. cbn [bind] in E. injection E as <- _.
    apply newfield. eauto.
  - destruct (live_cases cs v) as [([y d] & El & En)|El]; rewrite El in E; [|discriminate]. cbn [bind] in E. injection E as <- _. exact C.
  - destruct (rd_cases rs r) as [([[y t] d] & El & En)|El]; rewrite El in E; [|discriminate]. cbn [bind] in E. injection E as <- _. exact C.
  - destruct (rd_cases rs r) as [([[y t] d] & El & En)|El]; rewrite El in E; [|discriminate]. cbn [bind] in E. injection E as <- _. exact C.
  - destruct (rd_cases fs f) as [([[[y t] c] [d p]] & El & En)|El]; rewrite El in E; [|discriminate]. cbn [bind] in E. injection E as <- _. exact C.
Qed.
Print Assumptions c86_reading.

(** *** What is not so *)
Definition text_of (s : string) : chars := list_ascii_of_string s.
Definition line_end : string := String "010" EmptyString.
(** Two files: numbers, and one column of words *)
Definition numbers : chars := text_of ("a,b" ++ line_end ++ "1,2" ++ line_end ++ "3,4" ++ line_end)%string.
Definition words : chars := text_of ("c" ++ line_end ++ "x" ++ line_end ++ "y" ++ line_end)%string.

(** The conversion to rows gives the lines of the file, with their numbers. *)
Lemma read_lines_split file ps : is_split nl file ps ->
  read_lines file (length ps - 1) = combine (seq 0 (length ps - 1)) (firstn (length ps - 1) ps).
Proof.
  intros Sp. set (n := length ps - 1).
  assert (G : forall m k st ret, k + m = n -> before nl st (skipn k ps) ->
    let '(ret', _, _) := fold_left (fun '(ret, st, stop) i =>
      if (stop : bool) then (ret, st, stop)
      else let '(line, st) := sgetline nl st [] in
           if s_fail st then (ret, st, true) else (ret ++ [(i, line)], st, false)) (seq k m) (ret, st, false) in
    ret' = ret ++ combine (seq k m) (firstn m (skipn k ps))).
  { induction m as [|m IH]; intros k st ret Hk B; cbn [seq fold_left].
    - cbn. now rewrite app_nil_r.
    - assert (Lk : length (skipn k ps) = S (length ps - k - 1)) by (rewrite skipn_length; unfold n in Hk; lia).
      destruct (skipn k ps) as [|p [|q rs]] eqn:E; cbn in Lk; [lia|unfold n in Hk; lia|].
      unfold sgetline at 2. destruct (getline_more nl st p q rs [] B) as (s' & -> & B' & F & _). rewrite F.
      assert (Es : skipn (S k) ps = q :: rs).
      { replace (S k) with (1 + k) by lia. clear - E. revert ps E. induction k as [|k IHk]; intros [|x ps] E; cbn in *; try discriminate; [now injection E as _ <-|].
        apply IHk. exact E. }
      specialize (IH (S k) s' (ret ++ [(k, p)]) ltac:(lia)). rewrite Es in IH. specialize (IH B').
      destruct (fold_left _ _ _) as [[ret' st'] stop]. rewrite IH, <- app_assoc. reflexivity. }
  specialize (G n 0 (s_open file) [] eq_refl (open_before _ _ _ Sp)). unfold read_lines.
  destruct (fold_left _ _ _) as [[ret' st'] stop]. exact G.
Qed.
Theorem c86_all : forall file types sep ps, is_split nl file ps ->
  exists w, vrun [COpen file types sep; CAll 0] = Ok (w, [SNone; SNone]) /\ length (w_rows w) = length ps - 1 /\
  forall i, i < length ps - 1 -> exists r, nth_error (w_rows w) i = Some r /\
    r_own r = mkRow (nth i ps []) i (count sep (hd [] ps) + 1) sep.
Proof.
  intros file types sep ps Sp. unfold vrun, world_new. cbn [foldM vexec]. rewrite ocsv_new_ok. cbn [bind app length].
  set (x := csv_new file types sep). cbn [foldM vexec live rd nth_error bind].
  rewrite (all_good [Some (v_types x)] 0 x 0 eq_refl (csv_new_good file types sep)). cbn [bind app foldM].
  eexists. split; [reflexivity|]. cbn [w_rows].
  assert (ER : v_rows x = length ps - 1 /\ v_file x = file /\ v_cols x = count sep (hd [] ps) + 1 /\ v_sep x = sep).
  { pose proof (count_split _ _ _ Sp) as CS. pose proof (open_before _ _ _ Sp) as B. destruct ps as [|p ps]; [now destruct Sp|]. unfold x, csv_new.
    assert (Eh : fst (sgetline nl (s_open file) []) = p).
    { destruct ps as [|q ps].
      - destruct (getline_last nl _ p [] B) as (s' & E & _). unfold sgetline. now rewrite E.
      - destruct (getline_more nl _ p q ps [] B) as (s' & E & _). unfold sgetline. now rewrite E. }
    destruct (sgetline nl (s_open file) []) as [h st]. cbn [fst] in Eh. subst h. destruct (sgetline nl st []) as [f st2].
    unfold row_new. cbn [v_rows v_file v_cols v_sep hd]. repeat split. lia. }
  destruct ER as (E1 & E2 & E3 & E4). rewrite E1, E2, E3, E4, read_lines_split by exact Sp.
  assert (L : length (firstn (length ps - 1) ps) = length ps - 1) by (rewrite firstn_length; lia).
  split; [rewrite !map_length, combine_length, seq_length, L; lia|].
  intros i Hi. rewrite !map_map.
  eexists. split; [apply map_nth_error; apply nth_error_nth' with (d := (0, [])); rewrite combine_length, seq_length, L; lia|].
  rewrite combine_nth by (rewrite seq_length, L; reflexivity). cbn [as_orow r_own fst snd].
  now rewrite seq_nth, nth_firstn_lt by lia.
Qed.
Print Assumptions c86_all.
(** Three lines, the last without a line end: two rows *)
Example c86_all_met : is_split nl (text_of ("a,b" ++ line_end ++ "1,2" ++ line_end ++ "3")%string) [text_of "a,b"; text_of "1,2"; text_of "3"].
Proof. split; [discriminate|]. split; [reflexivity|]. repeat constructor; cbn; intuition discriminate. Qed.
(** Assigning a row of another file to a row variable changes the column types of the whole
    first file, and the second column of its other rows has no type any more: reading it
    throws. *)
Theorem c86_row_assign_refuted :
  let os := [COpen numbers [] ","; COpen words [] ","; CAt 0 1; CAt 0 2; CAt 1 1; CTypes 0; RAssign 0 2; CTypes 0; RAt 1 1; FShow 0] in
  (exists out, shows (value_run os) = Ok out /\ nth 7 out SNone = STypes [TInt; TInt] /\ nth 9 out SNone = SField (text_of "4") TInt 1) /\
  shows (vrun os) = Throw /\
  exists out, shows (vrun (firstn 8 os)) = Ok out /\ nth 5 out SNone = STypes [TInt; TInt] /\ nth 7 out SNone = STypes [TString].
Proof.
  cbv zeta. split; [eexists; split; [vm_compute; reflexivity|split; reflexivity]|]. split; [vm_compute; reflexivity|].
  eexists. split; [vm_compute; reflexivity|]. split; reflexivity.
Qed.
Print Assumptions c86_row_assign_refuted.

(** Assigning a field changes the type of a column. *)
Theorem c86_field_assign_refuted :
  let os := [COpen numbers [] ","; COpen words [] ","; CAt 0 1; CAt 1 1; RAt 0 0; RAt 1 0; FAssign 0 1; CTypes 0] in
  (exists out, shows (value_run os) = Ok out /\ nth 7 out SNone = STypes [TInt; TInt]) /\
  exists out, shows (vrun os) = Ok out /\ nth 7 out SNone = STypes [TString; TInt].
Proof. cbv zeta. split; eexists; (split; [vm_compute; reflexivity|reflexivity]). Qed.
Print Assumptions c86_field_assign_refuted.

(** A copy of a CSV object does not survive the original: reading its rows is undefined. *)
Theorem c86_copy_refuted :
  let os := [COpen numbers [] ","; CCopy 0; CDrop 0; CTypes 1; CAt 1 2; RTypes 0] in
  (exists out, shows (value_run os) = Ok out) /\ shows (vrun os) = UB /\ shows (vrun (firstn 5 os)) = UB /\
  exists out, shows (vrun (firstn 4 os)) = Ok out.
Proof.
  cbv zeta. split; [eexists; vm_compute; reflexivity|]. split; [vm_compute; reflexivity|]. split; [vm_compute; reflexivity|].
  eexists. vm_compute. reflexivity.
Qed.
Print Assumptions c86_copy_refuted.

(** Assigning a CSV object changes the types of rows taken from it before. *)
Theorem c86_csv_assign_refuted :
  let os := [COpen numbers [] ","; COpen words [] ","; CAt 0 1; CAssign 0 1; RText 0; RTypes 0] in
  (exists out, shows (value_run os) = Ok out /\ nth 5 out SNone = STypes [TInt; TInt]) /\
  exists out, shows (vrun os) = Ok out /\ nth 5 out SNone = STypes [TString] /\
    nth 4 out SNone = SRow 1 2 (text_of "1,2") [text_of "1"; text_of "2"].
Proof. cbv zeta. split; eexists; (split; [vm_compute; reflexivity|]); [|split]; reflexivity. Qed.
Print Assumptions c86_csv_assign_refuted.

(** *** The hypotheses can be met *)
Lemma safe_cons s o os s' x : value_step s o = Ok (s', x) -> allowed s o -> safe_from s' os -> safe_from s (o :: os).
Proof. intros E A Hs. cbn [safe_from]. rewrite E. auto. Qed.

Ltac exists_alive := unfold alive; cbn [x_csvs nth_error]; eexists; reflexivity.
Ltac alone_now :=
  unfold alone; cbn [x_csvs x_rows x_fields]; repeat apply conj;
  intros k; intros; repeat (destruct k as [|k]; cbn [nth_error] in *; try discriminate; try reflexivity);
  try (destruct k; discriminate); congruence.
(** Rows of one file assigned to each other, a copy that ends before the original, and an
    assignment between files while nothing depends on the target. *)
Example c86_values_met :
  let os := [COpen numbers [] ","; CAt 0 1; CAt 0 2; RAssign 0 1; RText 0; RTypes 0; RAt 0 1; FShow 0;
             CCopy 0; CAt 1 1; CDrop 1; RTypes 2; COpen words [] ","; COpen numbers [] ","; CAssign 3 2; CAt 3 1; RTypes 3] in
  safe os /\ exists out, shows (vrun os) = Ok out /\
    nth 4 out SNone = SRow 2 2 (text_of "3,4") [text_of "3"; text_of "4"] /\ nth 7 out SNone = SField (text_of "4") TInt 1 /\
    nth 16 out SNone = STypes [TString].
Proof.
  cbv zeta. split.
  - unfold safe.
    repeat (eapply safe_cons; [vm_compute; reflexivity|
      first [exact Logic.I
            |cbn [allowed x_csvs x_rows x_fields nth_error]; intros;
             repeat match goal with E : Some _ = Some _ |- _ => inversion E; clear E; subst end;
             repeat apply conj; first [exists_alive | reflexivity | right; split; [reflexivity|alone_now]]]|]).
    exact Logic.I.
  - eexists. split; [vm_compute; reflexivity|]. split; [|split]; reflexivity.
Qed.
Example c86_reading_met :
  let os := [COpen numbers [] ","; CCopy 0; CHeader 1; CAll 1; CAt 1 2; RCopy 4; RAt 5 1; FCopy 0; FShow 1; RText 1; RTypes 5] in
  forallb only_reads os = true /\ exists out, shows (vrun os) = Ok out /\
    nth 8 out SNone = SField (text_of "4") TInt 1 /\ nth 9 out SNone = SRow 0 2 (text_of "a,b") [text_of "a"; text_of "b"].
Proof. cbv zeta. split; [reflexivity|]. eexists. split; [vm_compute; reflexivity|]. split; reflexivity. Qed.
