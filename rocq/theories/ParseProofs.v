(** Parsing through a changing parser object agrees with the encodings of its rows. *)
From Verif Require Import Base Num StreamModel CsvModel ImageModel EncodingModel DatasetModel DatasetSpec DatasetProofs ParseModel.
From Coq Require Import Sorting.Sorted Permutation.

Section Agree.
Context {S : Type} (I : S -> Prop).
Definition agrees {A} (m : res (A * S)) (p : res A) : Prop :=
  match p with Ok a => exists s, m = Ok (a, s) /\ I s | Throw => m = Throw | UB => m = UB end.
Lemma agrees_ret {A} (a : A) s : I s -> agrees (Ok (a, s)) (Ok a).
Proof. intros J. exists s. auto. Qed.
Lemma agrees_bind {A B} (m : res (A * S)) p (k : A -> S -> res (B * S)) h :
  agrees m p -> (forall a s, I s -> agrees (k a s) (h a)) ->
  agrees ('(a, s) <- m ;; k a s) (a <- p ;; h a).
Proof. destruct p as [a| |]; cbn; intros E Q; [|now rewrite E..]. destruct E as (s & -> & J). cbn. auto. Qed.
Lemma agrees_lift {A B} (p : res A) (k : A -> res (B * S)) h :
  (forall a, agrees (k a) (h a)) -> agrees (a <- p ;; k a) (a <- p ;; h a).
Proof. intros Q. destruct p as [a| |]; cbn; auto. Qed.
Lemma agrees_for {A} n (body : nat -> A * S -> res (A * S)) pbody : forall a s, I s ->
  (forall i a s, i < n -> I s -> agrees (body i (a, s)) (pbody i a)) ->
  agrees (for_ n body (a, s)) (for_ n pbody a).
Proof.
  induction n as [|n IH]; intros a s J Q; [now apply agrees_ret|]. rewrite !for_S.
  specialize (IH a s J ltac:(intros; apply Q; auto)). destruct (for_ n pbody a) as [a'| |]; cbn in *; [|now rewrite IH..].
  destruct IH as (s' & -> & J'). cbn. apply Q; auto.
Qed.
Lemma agrees_foldM {A B} (l : list B) (f : A * S -> B -> res (A * S)) pf : forall a s, I s ->
  (forall x a s, In x l -> I s -> agrees (f (a, s) x) (pf a x)) ->
  agrees (foldM f l (a, s)) (foldM pf l a).
Proof.
  induction l as [|x l IH]; intros a s J Q; [now apply agrees_ret|]. cbn [foldM].
  pose proof (Q x a s (or_introl eq_refl) J) as E. destruct (pf a x) as [a'| |]; cbn in E; cbn [bind]; [|now rewrite E..].
  destruct E as (s' & -> & J'). cbn [bind]. apply IH; [exact J'|]. intros; apply Q; [right|]; assumption.
Qed.
End Agree.

Section Refine.
Context {T : Type} `{NumOps T} {S : Type}.
(** A parser object in a state of [I] presents a table: every row can be read any number of times. *)
Definition presents (P : sparser T S) (I : S -> Prop) (rows : list (list T)) (f : nat) (ls : list nat) : Prop :=
  forall s, I s -> sp_amount P s = length rows /\ sp_features P s = f /\ sp_labels P s = ls /\
    forall i, i < length rows -> exists s', sp_entry P s i = Ok (nth i rows [], s') /\ I s'.
Context (P : sparser T S) (I : S -> Prop) (rows : list (list T)) (f : nat) (ls : list nat) (W : presents P I rows f ls).
Let p := mkDParser rows f ls.

Lemma entry_agrees i s : i < length rows -> I s -> agrees I (sp_entry P s i) (rd rows i).
Proof. intros Hi J. rewrite (rd_nth rows i []) by exact Hi. destruct (W s J) as (_ & _ & _ & E). cbn. apply E, Hi. Qed.
Lemma unique_agrees idx s : I s -> agrees I (s_unique P idx s) (unique p idx).
Proof.
  intros J. unfold s_unique, unique. cbn [dp_rows p]. destruct (W s J) as (-> & _).
  apply (agrees_bind I _ _ (fun vals s => Ok (fold_left (fun u v => set_insert v u) vals [], s))).
  - apply agrees_for; [exact J|]. intros i a s' Hi J'.
    apply (agrees_bind I _ _ (fun row s => v <- rd row idx ;; Ok (a ++ [v], s))); [now apply entry_agrees|].
    intros row s2 J2. apply agrees_lift. intros v. now apply agrees_ret.
  - intros vals s' J'. now apply agrees_ret.
Qed.
Lemma unique_map_agrees idx s : I s -> agrees I (s_unique_map P idx s) (unique_map p idx).
Proof.
  intros J. unfold s_unique_map, unique_map.
  apply (agrees_bind I _ _ (fun u s => Ok (fst (fold_left (fun '(m, i) l => (map_put l i m, i + 1)) u ([], 0)), s))); [now apply unique_agrees|].
  intros u s' J'. now apply agrees_ret.
Qed.
Lemma one_hot_size_agrees s : I s -> agrees I (s_feature_size P OneHotEncoding s) (one_hot_feature_size p).
Proof.
  intros J. unfold s_feature_size, one_hot_feature_size. destruct (W s J) as (_ & -> & -> & _). cbn [dp_labels dp_features p].
  apply agrees_foldM; [exact J|]. intros l a s' _ J'.
  apply (agrees_bind I _ _ (fun u s => Ok (a + length u, s))); [now apply unique_agrees|]. intros u s2 J2. now apply agrees_ret.
Qed.
Lemma one_hot_labels_agrees s : I s -> agrees I (s_labels_idx P OneHotEncoding s) (one_hot_labels p).
Proof.
  intros J. unfold s_labels_idx, one_hot_labels.
  apply (agrees_bind I _ _ (fun es s => Ok (seq (sp_features P s - length (sp_labels P s)) (es - (sp_features P s - length (sp_labels P s))), s))); [now apply one_hot_size_agrees|].
  intros es s' J'. destruct (W s' J') as (_ & -> & -> & _). now apply agrees_ret.
Qed.
Lemma one_hot_row_eq maps es r ret : one_hot_row p maps es r ret = (row <- rd rows r ;; encode_row f ls maps es r row ret).
Proof. reflexivity. Qed.
Lemma one_hot_data_agrees s : I s -> agrees I (s_data_to P OneHotEncoding s) (data_one_hot p).
Proof.
  intros J. unfold s_data_to, data_one_hot. destruct (W s J) as (_ & -> & -> & _). cbn [dp_labels dp_features dp_rows p].
  match goal with |- agrees I (bind ?m _) (bind ?q _) => assert (Q : agrees I m q) end.
  { apply agrees_foldM; [exact J|]. intros l [maps es] s' _ J'.
    apply (agrees_bind I _ _ (fun m s => Ok ((maps ++ [m], es + length m), s))); [now apply unique_map_agrees|].
    intros m s2 J2. now apply agrees_ret. }
  revert Q. match goal with |- agrees I ?m ?q -> _ => destruct q as [[maps es]| |] end; cbn [agrees bind]; [|intros ->; reflexivity..].
  intros (s' & -> & J'). cbn [bind]. destruct (W s' J') as (-> & _). apply agrees_for; [exact J'|]. intros r a s2 Hr J2. rewrite one_hot_row_eq.
  apply (agrees_bind I _ _ (fun row s => ret <- encode_row (sp_features P s) ls maps es r row a ;; Ok (ret, s))); [now apply entry_agrees|].
    intros row s3 J3. destruct (W s3 J3) as (_ & -> & _). destruct (encode_row f ls maps es r row a); cbn; try reflexivity. exists s3. auto.
Qed.
Lemma default_data_agrees s : I s -> agrees I (s_data_to P DefaultEncoding s) (data_default p).
Proof.
  intros J. unfold s_data_to, data_default. destruct (W s J) as (-> & -> & _ & _). cbn [dp_labels dp_features dp_rows p].
  apply agrees_for; [exact J|]. intros r a s2 Hr J2.
  apply (agrees_bind I _ _ (fun row s => ret <- for_ (sp_features P s) (fun c ret => x <- rd row c ;; wr ret (r * sp_features P s + c) x) a ;; Ok (ret, s))); [now apply entry_agrees|].
  intros row s3 J3. destruct (W s3 J3) as (_ & -> & _). destruct (for_ f _ a); cbn; try reflexivity. exists s3. auto.
Qed.

(** The three arguments in any order *)
Lemma parse_any_order e ss order s d fs lab : I s -> Permutation order [AData; AFeatures; ALabels] ->
  (forall s, I s -> agrees I (s_data_to P e s) (Ok d)) ->
  (forall s, I s -> agrees I (s_feature_size P e s) (Ok fs)) ->
  (forall s, I s -> agrees I (s_labels_idx P e s) (Ok lab)) ->
  exists s', parse P e ss order s = Ok (ds_vec n0 d fs ss lab, s') /\ I s'.
Proof.
  intros J Pm Ed Ef El. unfold parse.
  assert (G : forall order v s, I s -> exists v' s', foldM (eval_arg P e) order (v, s) = Ok (v', s') /\ I s' /\
     a_data v' = (if existsb (fun a => match a with AData => true | _ => false end) order then Some d else a_data v) /\
     a_features v' = (if existsb (fun a => match a with AFeatures => true | _ => false end) order then Some fs else a_features v) /\
     a_labels v' = (if existsb (fun a => match a with ALabels => true | _ => false end) order then Some lab else a_labels v)).
  { clear order Pm s J. induction order as [|a order IH]; intros v s J; [exists v, s; auto|]. cbn [foldM].
    assert (Q : exists v1 s1, eval_arg P e (v, s) a = Ok (v1, s1) /\ I s1 /\
      v1 = match a with AData => mkArgs (Some d) (a_features v) (a_labels v) | AFeatures => mkArgs (a_data v) (Some fs) (a_labels v) | ALabels => mkArgs (a_data v) (a_features v) (Some lab) end).
    { destruct a; cbn [eval_arg]; [destruct (Ed s J) as (s1 & -> & J1)|destruct (Ef s J) as (s1 & -> & J1)|destruct (El s J) as (s1 & -> & J1)]; cbn [bind]; do 2 eexists; split; try reflexivity; auto. }
    destruct Q as (v1 & s1 & -> & J1 & ->). cbn [bind].
    destruct (IH (match a with AData => mkArgs (Some d) (a_features v) (a_labels v) | AFeatures => mkArgs (a_data v) (Some fs) (a_labels v) | ALabels => mkArgs (a_data v) (a_features v) (Some lab) end) s1 J1) as (v' & s' & E & J' & E1 & E2 & E3).
    exists v', s'. split; [exact E|]. split; [exact J'|]. rewrite E1, E2, E3. destruct a; cbn [existsb orb a_data a_features a_labels]; repeat split; repeat match goal with |- context [if ?b then _ else _] => destruct b end; reflexivity. }
  destruct (G order (mkArgs None None None) s J) as (v' & s' & E & J' & E1 & E2 & E3). rewrite E. cbn [bind].
  assert (X : forall (g : arg -> bool), (g AData || g AFeatures || g ALabels)%bool = true -> existsb g order = true).
  { intros g Hg. apply existsb_exists. apply orb_prop in Hg as [Hg|Hg]; [apply orb_prop in Hg as [Hg|Hg]|]; eexists; (split; [|exact Hg]); apply (Permutation_in _ (Permutation_sym Pm)); cbn; auto. }
  rewrite !X in * by reflexivity. destruct v' as [vd vf vl]. cbn in E1, E2, E3. subst. eexists. split; [reflexivity|exact J'].
Qed.
End Refine.

(** *** The dataset of a table *)
Section Table.
Context {T : Type} `{NumOps T}.
Lemma concat_blocks (w : nat) (m : list (list T)) i : Forall (fun r => length r = w) m -> i < length m -> block w (concat m) i = nth i m [].
Proof.
  revert i. induction m as [|r m IH]; intros i F Hi; [cbn in Hi; lia|]. inversion F as [|? ? Lr Fm]; subst. unfold block in *. destruct i as [|i]; cbn [concat nth].
  - rewrite Nat.mul_0_l. cbn [skipn]. rewrite firstn_app, Nat.sub_diag, firstn_all. cbn [firstn]. apply app_nil_r.
  - rewrite <- (IH i Fm) by (cbn in Hi; lia). rewrite skipn_app. replace (Datatypes.S i * length r - length r) with (i * length r) by lia.
    rewrite skipn_all2 by lia. reflexivity.
Qed.
Lemma erase_ge_all fs l : Forall (fun x => x < fs) l -> erase_ge fs l = l.
Proof. induction 1 as [|x l Hx F IH]; cbn; [reflexivity|]. destruct (Nat.leb_spec fs x); [lia|]. now rewrite IH. Qed.
(** [n] rows of width [w] in [data] *)
Lemma table_dataset (data : list T) n w ss lab : 0 < w -> 0 < ss -> length data = n * w ->
  StronglySorted lt lab -> Forall (fun l => l < w) lab ->
  let D := ds_vec n0 data w ss lab in
  ssize D = Nat.min ss n /\ ds_size D = n / Nat.min ss n * Nat.min ss n /\
  forall i, i < ds_size D ->
    i < n /\
    ds_input n0 D i = Ok (map (fun c => nth c (block w data i) n0) (other_cols w lab)) /\
    ds_label n0 D i = Ok (map (fun c => nth c (block w data i) n0) lab).
Proof.
  intros Hw Hs L Sl Fl D.
  destruct (Nat.eq_dec n 0) as [->|Hn].
  { assert (data = []) as -> by (apply length_zero_iff_nil; lia). unfold D, ds_vec, ds_size. cbn [length famount ssize].
    rewrite !Nat.min_0_r. cbn. repeat split; lia. }
  assert (Ef : Nat.min w (length data) = w) by nia.
  assert (Ed : length data / w = n) by (rewrite L; apply Nat.div_mul; lia).
  set (t := Nat.min ss n). assert (Ht : 0 < t) by lia.
  assert (EF : fsize D = w) by (unfold D, ds_vec; cbn [fsize]; exact Ef).
  assert (ES : ssize D = t).
  { unfold D, ds_vec. cbn [ssize]. rewrite Ef, Nat.max_l by lia. rewrite Ed. reflexivity. }
  assert (EA : famount D = n / t * t).
  { unfold D, ds_vec. cbn [famount]. rewrite Ef, (Nat.max_l w 1) by lia. rewrite Ed. fold t. rewrite Nat.max_l by nia.
    rewrite L, (Nat.mul_comm n w), Nat.div_mul_cancel_l by lia.
    replace (n / t * (w * t)) with (n / t * t * w) by ring. apply Nat.div_mul. lia. }
  assert (EL : labels_i D = lab) by (unfold D, ds_vec; cbn [labels_i]; rewrite Ef; now apply erase_ge_all).
  assert (EI : input_i D = other_cols w lab) by (unfold D, ds_vec; cbn [input_i]; rewrite Ef; now rewrite erase_ge_all).
  split; [exact ES|]. split; [exact EA|]. intros i Hi. unfold ds_size in Hi.
  assert (Hin : i < n). { rewrite EA in Hi. pose proof (Nat.div_mod n t ltac:(lia)). nia. } split; [exact Hin|].
  assert (WD : wf D) by now apply ds_vec_wf.
  assert (ER : nth i (rows D) [] = block w data i).
  { rewrite nth_rows by exact Hi. rewrite EF. pose proof (wf_data D WD) as LD. pose proof (ds_vec_data n0 data w ss lab) as HD. fold D in HD.
    rewrite HD in LD |- *. unfold block. rewrite firstn_length in LD. rewrite skipn_firstn_comm, firstn_firstn. f_equal. rewrite EF in LD.
    assert (i * w + w <= famount D * w) by nia. lia. }
  rewrite input_ok, label_ok by auto. destruct (Nat.ltb_spec i (famount D)); [|lia]. unfold view. rewrite ER, EL, EI. auto.
Qed.
End Table.
