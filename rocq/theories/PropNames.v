(** C95: names of layers and models. *)
From Coq Require Import Ascii String ZArith Lia.
From Verif Require Import Base TypeModel PropTypes NameModel.
Local Open Scope list_scope.
Local Notation length := List.length.

(** *** Specification: histories, newest call first *)
(** How many objects were constructed (not copied), and how many of them without a name *)
Fixpoint news (h : list nop) : nat := match h with [] => 0 | ONew _ _ :: h => S (news h) | _ :: h => news h end.
Fixpoint autos (h : list nop) : nat := match h with [] => 0 | ONew _ [] :: h => S (autos h) | _ :: h => autos h end.
(** For each object the constructed one it is a copy of, by number of construction *)
Fixpoint roots (h : list nop) : list nat :=
  match h with
  | [] => []
  | ONew _ _ :: h => roots h ++ [news h]
  | OCopy i :: h => roots h ++ [nth i (roots h) 0]
  | OLoad _ _ :: h => roots h
  end.
(** Every call is about an object that exists. *)
Fixpoint valid (h : list nop) : Prop :=
  match h with [] => True | ONew _ _ :: h => valid h | OCopy i :: h | OLoad i _ :: h => i < length (roots h) /\ valid h end.
(** The name of the object constructed as number [r]: the last one loaded into it or a copy of it;
    or else the given one; or else the prefix of its class and the number of objects that were
    constructed without a name before it *)
Definition class_prefix (c : ncls) : text :=
  match c with
  | NRelu => txt "relu_layer_" | NElu => txt "elu_layer_" | NSoftmax => txt "softmax_layer_" | NTanh => txt "tanh_layer_"
  | NSigmoid => txt "sigmoid_layer_" | NLinear => txt "linear_layer_" | NAvg => txt "avg_pooling_layer_"
  | NMax => txt "max_pooling_layer_" | NCce => txt "cce_loss_layer_" | NMse => txt "mse_loss_layer_"
  | NConcat => txt "concatenate_layer_" | NConv => txt "convolutional_layer_" | NDense => txt "dense_layer_"
  | NDropout => txt "dropout_layer_" | NRec => txt "recurrent_layer_" | NModel => txt "model_" | NUser p => p
  end.
Definition automatic (c : ncls) (k : nat) : text := class_prefix c ++ print_int (Z.of_nat k mod 2 ^ 64).
Fixpoint said (h : list nop) (r : nat) : text :=
  match h with
  | [] => []
  | ONew c g :: h => if r =? news h then match g with [] => automatic c (autos h) | _ => g end else said h r
  | OCopy _ :: h => said h r
  | OLoad i t :: h => if r =? nth i (roots h) 0 then t else said h r
  end.

Lemma nth_snoc {A} (l : list A) x d i : nth i (l ++ [x]) d = if i =? length l then x else nth i l d.
Proof.
  destruct (Nat.eqb_spec i (length l)) as [->|N]; [apply nth_middle|]. destruct (Nat.lt_ge_cases i (length l)) as [L|G]; [now apply app_nth1|].
  rewrite !nth_overflow; [reflexivity|lia|]. rewrite app_length. cbn. lia.
Qed.
Lemma roots_lt h : valid h -> Forall (fun r => r < news h) (roots h).
Proof.
  induction h as [|o h IH]; cbn [valid roots news]; [constructor|]. destruct o as [c g|i|i t]; cbn [valid]; intros V.
  - apply Forall_app. split; [eapply Forall_impl; [|now apply IH]; cbn; intros; lia|repeat constructor].
  - destruct V as (L & V). apply Forall_app. split; [now apply IH|]. constructor; [|constructor]. pose proof (IH V) as F. rewrite Forall_forall in F. now apply F, nth_In.
  - now apply IH.
Qed.
Lemma run_history h : (valid h -> nm_run (rev h) = Ok (mkNames (Z.of_nat (autos h) mod 2 ^ 64) (tab (news h) (said h)) (roots h))) /\ (~ valid h -> nm_run (rev h) = UB).
Proof.
  induction h as [|o h (IH1 & IH2)]; [split; [reflexivity|intros []; exact I]|]. cbn [rev]. unfold nm_run in *. rewrite foldM_app.
  assert (DV : valid h \/ ~ valid h).
  { clear. induction h as [|o h IH]; cbn [valid]; [auto|]. destruct o; cbn [valid]; auto; destruct (lt_dec i (length (roots h))), IH; tauto. }
  destruct DV as [V|V].
  2:{ rewrite (IH2 V). cbn [bind]. split; [|reflexivity]. intros V'. exfalso. apply V. destruct o; cbn [valid] in V'; tauto. }
  rewrite (IH1 V). destruct o as [c g|i|i t]; cbn [bind foldM nm_step].
  - cbn [valid]. split; [intros _|tauto]. cbn [bind]. f_equal. unfold nm_new, nm_unique. cbn [nm_id nm_cells nm_objs].
    assert (T : forall x, tab (news h) (said h) ++ [x] = tab (S (news h)) (fun r => if r =? news h then x else said h r)).
    { intros x. apply (list_ext_nth []); [rewrite app_length, !tab_length; cbn; lia|]. intros j Hj. rewrite app_length, tab_length in Hj. cbn in Hj. rewrite nth_snoc, tab_length. rewrite (nth_tab (S (news h))) by lia. destruct (Nat.eqb_spec j (news h)); [reflexivity|]. rewrite nth_tab by lia. reflexivity. }
    destruct g as [|a g]; cbn [nm_id nm_cells nm_objs autos news roots said]; rewrite T, tab_length; [|reflexivity].
    f_equal. rewrite Zplus_mod_idemp_l. f_equal. lia.
  - cbn [valid]. unfold nm_copy. cbn [nm_objs nm_id nm_cells]. split.
    + intros (L & _). rewrite (rd_nth _ _ 0) by exact L. reflexivity.
    + intros NV. unfold rd. destruct (nth_error (roots h) i) eqn:E; [|reflexivity]. exfalso. apply NV. split; [|exact V]. apply nth_error_Some. congruence.
  - cbn [valid]. unfold nm_load. cbn [nm_objs nm_id nm_cells]. split.
    + intros (L & _). rewrite (rd_nth _ _ 0) by exact L. cbn [bind]. pose proof (roots_lt h V) as F. rewrite Forall_forall in F. pose proof (F _ (nth_In _ 0 L)) as Lr.
      rewrite wr_ok by (rewrite tab_length; exact Lr). cbn [bind autos news roots said]. do 2 f_equal. apply (list_ext_nth []); [now rewrite upd_length, !tab_length|].
      intros j Hj. rewrite upd_length, tab_length in Hj. rewrite nth_upd, tab_length, !nth_tab by exact Hj. destruct (Nat.eqb_spec j (nth i (roots h) 0)); cbn [andb]; [|reflexivity].
      destruct (Nat.ltb_spec (nth i (roots h) 0) (news h)); [reflexivity|lia].
    + intros NV. unfold rd. destruct (nth_error (roots h) i) eqn:E; [|reflexivity]. exfalso. apply NV. split; [|exact V]. apply nth_error_Some. congruence.
Qed.

(** *** The name of every object, after every program *)
Theorem c95_names : forall os : list nop, let h := rev os in
  (valid h -> exists s, nm_run os = Ok s /\ length (nm_objs s) = length (roots h) /\
     forall i, i < length (roots h) -> nm_name s i = Ok (said h (nth i (roots h) 0))) /\
  (~ valid h -> nm_run os = UB).
Proof.
  intros os h. destruct (run_history h) as (A & B). unfold h in A at 2, B at 2. rewrite rev_involutive in A, B. split; [|exact B].
  intros V. eexists. split; [exact (A V)|]. split; [reflexivity|]. intros i L. unfold nm_name. cbn [nm_objs nm_cells].
  rewrite (rd_nth _ _ 0) by exact L. cbn [bind]. pose proof (roots_lt h V) as F. rewrite Forall_forall in F. pose proof (F _ (nth_In _ 0 L)) as Lr.
  rewrite (rd_nth _ _ []) by (rewrite tab_length; exact Lr). now rewrite nth_tab.
Qed.

(** *** When names are equal *)
(** No digit at the end *)
Definition ends_plain (t : text) : Prop := exists u c, t = u ++ [c] /\ ~ is_digit c.
(** The name given to the object constructed as number [r] ([[]]: none) *)
Fixpoint given_to (h : list nop) (r : nat) : text :=
  match h with [] => [] | ONew _ g :: h => if r =? news h then g else given_to h r | _ :: h => given_to h r end.
(** No call loads, and no prefix or given name ends in a digit. *)
Definition plain_op (o : nop) : Prop :=
  match o with ONew c g => ends_plain (class_prefix c) /\ (g = [] \/ ends_plain g) | OCopy _ => True | OLoad _ _ => False end.

Lemma digit_suffix : forall p q u v, ends_plain p -> ends_plain q -> all_digits u -> all_digits v -> p ++ u = q ++ v -> p = q /\ u = v.
Proof.
  intros p q u v (p' & c & -> & Nc) (q' & d & -> & Nd) Du Dv E.
  assert (G : forall a b, all_digits a -> all_digits b -> a ++ c :: rev p' = b ++ d :: rev q' -> a = b /\ c :: rev p' = d :: rev q').
  { induction a as [|x a IH]; intros [|y b] Da Db Eq; cbn in Eq.
    - auto.
    - injection Eq as -> _. inversion Db. contradiction.
    - injection Eq as -> _. inversion Da. contradiction.
    - injection Eq as -> Eq. inversion Da; inversion Db; subst. destruct (IH b) as (-> & E2); auto. }
  assert (E' := f_equal (@rev _) E). rewrite !rev_app_distr in E'. cbn [rev app] in E'.
  destruct (G (rev u) (rev v)) as (E1 & E2); [now apply Forall_rev|now apply Forall_rev|exact E'|].
  split; [|now rewrite <- (rev_involutive u), E1, rev_involutive].
  injection E2 as -> E2. now rewrite <- (rev_involutive p'), E2, rev_involutive.
Qed.
Lemma print_int_digits n : (0 <= n)%Z -> all_digits (print_int n) /\ digits_value (print_int n) = n /\ print_int n <> [].
Proof.
  intros L. replace (print_int n) with (print_nonneg n) by (unfold print_int; destruct (Z.ltb_spec n 0); [lia|reflexivity]).
  destruct (print_nonneg_spec n L) as (A & B & C). split; [exact A|split; [exact B|]]. destruct C as [->|(d & ds & -> & _)]; discriminate.
Qed.
Lemma automatic_inj c k d l : ends_plain (class_prefix c) -> ends_plain (class_prefix d) -> (Z.of_nat k < 2 ^ 64)%Z -> (Z.of_nat l < 2 ^ 64)%Z ->
  automatic c k = automatic d l -> class_prefix c = class_prefix d /\ k = l.
Proof.
  intros Pc Pd Lk Ll E. unfold automatic in E. rewrite !Z.mod_small in E by lia.
  destruct (print_int_digits (Z.of_nat k)) as (A & B & _); [lia|]. destruct (print_int_digits (Z.of_nat l)) as (A' & B' & _); [lia|].
  destruct (digit_suffix _ _ _ _ Pc Pd A A' E) as (E1 & E2). split; [exact E1|]. rewrite E2, B' in B. lia.
Qed.
Lemma automatic_given c k g : ends_plain g -> automatic c k <> g.
Proof.
  intros (u & a & -> & N) E. unfold automatic in E. destruct (print_int_digits (Z.of_nat k mod 2 ^ 64)) as (A & _ & C); [apply Z.mod_pos_bound; reflexivity|].
  destruct (exists_last C) as (w & b & Ew). rewrite Ew, app_assoc in E. apply app_inj_tail in E as (_ & ->). apply N. unfold all_digits in A. rewrite Ew, Forall_app in A. destruct A as (_ & A). now inversion A.
Qed.
(** What an object constructed in a plain history is called *)
Lemma said_plain h : Forall plain_op h -> forall r, r < news h ->
  (given_to h r <> [] /\ ends_plain (given_to h r) /\ said h r = given_to h r) \/
  (given_to h r = [] /\ exists c k, ends_plain (class_prefix c) /\ k < autos h /\ said h r = automatic c k).
Proof.
  induction 1 as [|o h Po P IH]; cbn [news]; intros r L; [lia|]. destruct o as [c g|i|i t]; cbn [given_to said autos news plain_op] in *; [|auto|contradiction].
  destruct (Nat.eqb_spec r (news h)) as [->|N].
  - destruct Po as (Pc & [->|Pg]).
    + right. split; [reflexivity|]. exists c, (autos h). auto.
    + left. assert (g <> []). { destruct Pg as (u & a & -> & _). now destruct u. } destruct g; [congruence|auto].
  - destruct (IH r) as [A|(A & d & k & B1 & B2 & B3)]; [lia|now left|]. right. split; [exact A|]. exists d, k. repeat split; auto. destruct g; lia.
Qed.
Lemma said_distinct h : Forall plain_op h -> (Z.of_nat (autos h) <= 2 ^ 64)%Z -> forall r r', r < news h -> r' < news h ->
  (said h r = said h r' <-> r = r' \/ given_to h r = given_to h r' /\ given_to h r <> []).
Proof.
  intros P L. assert (W : forall r r', r < r' -> r' < news h -> given_to h r = [] -> given_to h r' = [] -> said h r <> said h r').
  { revert L. induction P as [|o h Po P IH]; cbn [news]; intros L r r' Lr Lr' Gr Gr'; [lia|]. destruct o as [c g|i|i t]; cbn [given_to said autos news plain_op] in *; [|auto|contradiction].
    destruct (Nat.eqb_spec r (news h)) as [->|N]; [lia|]. destruct (Nat.eqb_spec r' (news h)) as [->|N'].
    - subst g. destruct (said_plain h P r ltac:(lia)) as [(X & _)|(_ & d & k & B1 & B2 & ->)]; [contradiction|]. destruct Po as (Pc & _).
      intros E. apply automatic_inj in E; [|assumption|assumption|lia|lia]. lia.
    - apply IH; try lia; auto. destruct g; lia. }
  intros r r' Lr Lr'. split.
  - intros E. destruct (Nat.eq_dec r r') as [->|N]; [now left|]. right.
    destruct (said_plain h P r Lr) as [(X & Y & Z)|(X & c & k & Y1 & Y2 & Y3)], (said_plain h P r' Lr') as [(X' & Y' & Z')|(X' & c' & k' & Y1' & Y2' & Y3')].
    + split; [congruence|exact X].
    + exfalso. rewrite Z, Y3' in E. symmetry in E. revert E. now apply automatic_given.
    + exfalso. rewrite Z', Y3 in E. revert E. now apply automatic_given.
    + exfalso. destruct (Nat.lt_total r r') as [Q|[Q|Q]]; [|contradiction|]; [now apply (W r r')|]. now apply (W r' r).
  - intros [->|(E & N)]; [reflexivity|].
    destruct (said_plain h P r Lr) as [(_ & _ & ->)|(X & _)]; [|contradiction]. destruct (said_plain h P r' Lr') as [(_ & _ & ->)|(X & _)]; [exact E|]. congruence.
Qed.

(** As long as nothing is loaded and at most 2^64 names are made, two objects have one name only if
    one is a copy of the other (or both of a third), or if they were given one name. *)
Theorem c95_distinct : forall os s, nm_run os = Ok s -> Forall plain_op os -> (Z.of_nat (autos (rev os)) <= 2 ^ 64)%Z ->
  forall i j, i < length (nm_objs s) -> j < length (nm_objs s) ->
  exists x y, nm_name s i = Ok x /\ nm_name s j = Ok y /\
    let ri := nth i (roots (rev os)) 0 in let rj := nth j (roots (rev os)) 0 in
    (x = y <-> ri = rj \/ given_to (rev os) ri = given_to (rev os) rj /\ given_to (rev os) ri <> []).
Proof.
  intros os s E P L i j Li Lj. destruct (c95_names os) as (A & B).
  assert (V : valid (rev os)).
  { destruct (run_history (rev os)) as (_ & C). clear - E B. revert E B. generalize (rev os). intros h E B.
    assert (DV : valid h \/ ~ valid h). { clear. induction h as [|o h IH]; cbn [valid]; [auto|]. destruct o; cbn [valid]; auto; destruct (lt_dec i (length (roots h))), IH; tauto. }
    destruct DV as [V|V]; [exact V|]. rewrite (B V) in E. discriminate. }
  destruct (A V) as (s' & E' & Ln & N). rewrite E' in E. injection E as ->. rewrite Ln in Li, Lj.
  do 2 eexists. split; [apply N, Li|split; [apply N, Lj|]]. pose proof (roots_lt _ V) as F. rewrite Forall_forall in F.
  cbv zeta. apply said_distinct; [now apply Forall_rev|exact L|now apply F, nth_In|now apply F, nth_In].
Qed.

(** *** The names in the middleware *)
Definition made (ds : list ndesc) : list ndesc := match ds with [] => [] | d :: r => if nd_input d then r else ds end.
Definition is_new (o : nop) : Prop := match o with ONew _ _ => True | _ => False end.
Lemma fnn_made ds : fnn_ops ds = flat_map nd_ops (made ds).
Proof. destruct ds as [|d r]; [reflexivity|]. cbn. now destruct (nd_input d). Qed.
Lemma new_history h : Forall is_new h -> valid h /\ news h = length h /\ roots h = seq 0 (length h).
Proof.
  induction 1 as [|o h No N (V & E & Q)]; [repeat split|]. destruct o; try contradiction. cbn [valid news roots List.length].
  rewrite seq_S, Q, E. auto.
Qed.
Lemma said_newest h1 c g h2 : Forall is_new h1 -> g <> [] -> said (h1 ++ ONew c g :: h2) (news h2) = g.
Proof.
  intros N G. induction N as [|o h No N IH]; cbn [app said].
  - rewrite Nat.eqb_refl. now destruct g.
  - destruct o; try contradiction. destruct (Nat.eqb_spec (news h2) (news (h ++ ONew c g :: h2))) as [E|_]; [|exact IH].
    exfalso. clear - E N. assert (K : news h2 < news (h ++ ONew c g :: h2)); [|lia]. clear E. induction N as [|o h No N IH]; cbn; [lia|]. destruct o; try contradiction. lia.
Qed.
Lemma news_nd ds : Forall is_new (flat_map nd_ops ds).
Proof. induction ds; cbn; [constructor|]. repeat (constructor; [exact I|]). assumption. Qed.
Lemma plain_nd ds : Forall (fun d => nd_name d = [] /\ ends_plain (class_prefix (nd_layer d)) /\ ends_plain (class_prefix (nd_act d))) ds -> Forall plain_op (flat_map nd_ops ds).
Proof. induction 1 as [|d ds (A & B & C) F IH]; cbn [flat_map nd_ops app]; [constructor|]. repeat (constructor; [cbn; auto|]). exact IH. Qed.
Lemma autos_le h : autos h <= length h.
Proof. induction h as [|o h IH]; cbn; [lia|]. destruct o as [c [|]| |]; cbn; lia. Qed.
Lemma given_nd ds : Forall (fun d => nd_name d = []) ds -> forall r, given_to (rev (flat_map nd_ops ds)) r = [].
Proof.
  intros F. assert (G : Forall (fun o => match o with ONew _ g => g = [] | _ => True end) (rev (flat_map nd_ops ds))).
  { apply Forall_rev. induction F; cbn; [constructor|]. repeat (constructor; [cbn; assumption|]). assumption. }
  induction G as [|o h Go G IH]; intros r; cbn [given_to]; [reflexivity|]. destruct o; auto. destruct (r =? news h); auto.
Qed.

(** A network of the middleware: each descriptor makes two layers, the second of which is its
    activation. A descriptor with a name gives that name to both; when no descriptor has a name, no
    two layers have the same one. *)
Theorem c95_fnn : forall ds : list ndesc, exists s, nm_run (fnn_ops ds) = Ok s /\ length (nm_objs s) = 2 * length (made ds) /\
  (forall k d, nth_error (made ds) k = Some d -> nd_name d <> [] -> nm_name s (2 * k) = Ok (nd_name d) /\ nm_name s (2 * k + 1) = Ok (nd_name d)) /\
  (Forall (fun d => nd_name d = [] /\ ends_plain (class_prefix (nd_layer d)) /\ ends_plain (class_prefix (nd_act d))) (made ds) ->
   (Z.of_nat (length (made ds)) <= 2 ^ 63)%Z ->
   forall i j x, i < 2 * length (made ds) -> j < 2 * length (made ds) -> nm_name s i = Ok x -> nm_name s j = Ok x -> i = j).
Proof.
  intros ds. rewrite fnn_made. generalize (made ds). clear ds. intros ds.
  assert (LL : forall l, length (flat_map nd_ops l) = 2 * length l) by (induction l; cbn in *; lia).
  destruct (new_history (rev (flat_map nd_ops ds)) (Forall_rev (news_nd ds))) as (V & NE & RE).
  rewrite rev_length, LL in NE, RE. destruct (c95_names (flat_map nd_ops ds)) as (A & _). destruct (A V) as (s & E & Ln & Nm).
  rewrite RE, seq_length in Ln. exists s. split; [exact E|split; [exact Ln|split]].
  - intros k d Ek Gd. apply nth_error_split in Ek as (l1 & l2 & -> & Lk). rewrite RE in Nm. rewrite seq_length in Nm. rewrite app_length in Nm. cbn [List.length] in Nm.
    rewrite !Nm by lia. rewrite !seq_nth by lia. cbn [plus].
    assert (Eh : rev (flat_map nd_ops (l1 ++ d :: l2)) = rev (flat_map nd_ops l2) ++ ONew (nd_act d) (nd_name d) :: ONew (nd_layer d) (nd_name d) :: rev (flat_map nd_ops l1)).
    { rewrite flat_map_app, rev_app_distr. cbn [flat_map nd_ops app rev]. now rewrite <- !app_assoc. }
    destruct (new_history (rev (flat_map nd_ops l1)) (Forall_rev (news_nd l1))) as (_ & N1 & _). rewrite rev_length, LL, Lk in N1.
    rewrite Eh. split; f_equal.
    + rewrite <- N1. change (?a ++ ?x :: ?y :: ?b) with (a ++ [x] ++ y :: b). rewrite app_assoc. apply said_newest; [|exact Gd]. apply Forall_app. split; [apply Forall_rev, news_nd|repeat constructor].
    + replace (2 * k + 1) with (news (ONew (nd_layer d) (nd_name d) :: rev (flat_map nd_ops l1))) by (cbn [news]; lia). apply said_newest; [apply Forall_rev, news_nd|exact Gd].
  - intros F L i j x Li Lj Ei Ej. destruct (c95_distinct _ _ E (plain_nd ds F)) with (i := i) (j := j) as (x' & y' & Ex & Ey & W).
    + pose proof (autos_le (rev (flat_map nd_ops ds))) as Q. rewrite rev_length, LL in Q. lia.
    + lia.
    + lia.
    + rewrite Ei in Ex. rewrite Ej in Ey. injection Ex as <-. injection Ey as <-. cbv zeta in W. rewrite RE, !seq_nth in W by lia. cbn [plus] in W.
      destruct (proj1 W eq_refl) as [Q|(_ & Q)]; [exact Q|]. exfalso. apply Q, given_nd. eapply Forall_impl; [|exact F]. now intros a (? & _).
Qed.

(** *** Names that are not unique *)
Definition shares (os : list nop) (i j : nat) (t : text) : Prop :=
  exists s, nm_run os = Ok s /\ nm_name s i = Ok t /\ nm_name s j = Ok t /\ nth i (roots (rev os)) 0 <> nth j (roots (rev os)) 0.
(** A layer that gets its name from a file saved by another process has the name of the layer that
    is constructed next, which was not given one. *)
Theorem c95_load_refuted : forall c, exists s,
  nm_run [ONew c (txt "layer"); OLoad 0 (automatic c 0); ONew c []] = Ok s /\ nm_name s 0 = nm_name s 1 /\ nm_name s 1 = Ok (class_prefix c ++ txt "0").
Proof. intros c. eexists. split; [reflexivity|]. split; reflexivity. Qed.
(** A given name may be one of the automatic ones. *)
Theorem c95_given_refuted : forall c, class_prefix c <> [] -> shares [ONew NModel (class_prefix c ++ txt "0"); ONew c []] 0 1 (class_prefix c ++ txt "0").
Proof.
  intros c N. destruct (c95_names [ONew NModel (class_prefix c ++ txt "0"); ONew c []]) as (A & _). destruct A as (s & E & _ & Q); [exact I|].
  exists s. split; [exact E|]. cbn [rev app roots news List.length nth said autos] in Q. rewrite (Q 0), (Q 1) by lia. cbn [nth Nat.eqb].
  destruct (class_prefix c) as [|a t] eqn:Ec; [contradiction|]. cbn [app autos]. unfold automatic. rewrite Ec. split; [reflexivity|]. split; [reflexivity|]. cbn. lia.
Qed.
(** A prefix that ends in a digit runs into the number. *)
Fixpoint many (n : nat) (o : nop) (r : list nop) : list nop := match n with 0 => r | S n => o :: many n o r end.
Theorem c95_prefix_refuted : shares (ONew NDense [] :: ONew (NUser (txt "layer_1")) [] :: many 9 (ONew NDense []) [ONew (NUser (txt "layer_")) []]) 1 11 (txt "layer_11").
Proof. eexists. split; [reflexivity|]. split; [reflexivity|]. split; [reflexivity|]. cbn. lia. Qed.

(** *** Several threads *)
(** When no thread reads the counter between another's read and write, the calls are numbered in
    their order, so no number is given twice. *)
Definition whole (ts : list nat) : list nat := flat_map (fun t => [t; t]) ts.
Definition turns (ts : list nat) (t : nat) : list Z := map Z.of_nat (filter (fun k => nth k ts 0 =? t) (seq 0 (length ts))).
Lemma whole_run n ts : Forall (fun t => t < n) ts -> nt_run n (whole ts) = Ok (Z.of_nat (length ts) mod 2 ^ 64, tab n (fun t => mkNT None (map (fun z => z mod 2 ^ 64)%Z (turns ts t))))%Z.
Proof.
  induction ts as [|t ts IH] using rev_ind; intros F.
  - cbn. do 2 f_equal. apply (list_ext_nth (mkNT None [])); [now rewrite repeat_length, tab_length|]. intros i Li. rewrite repeat_length in Li. rewrite nth_tab by exact Li. apply nth_repeat.
  - apply Forall_app in F as (F & Ft). inversion_clear Ft as [|? ? Lt _]. unfold nt_run, whole in *. rewrite flat_map_app, foldM_app, (IH F). cbn [bind flat_map app foldM]. unfold nt_access at 1.
    rewrite (rd_nth _ _ (mkNT None [])) by (rewrite tab_length; exact Lt). rewrite nth_tab by exact Lt. cbn [bind nt_read nt_got].
    rewrite wr_ok by (rewrite tab_length; exact Lt). cbn [bind]. unfold nt_access.
    rewrite (rd_nth _ _ (mkNT None [])) by (rewrite upd_length, tab_length; exact Lt). rewrite nth_upd, tab_length, Nat.eqb_refl. destruct (Nat.ltb_spec t n) as [_|]; [|lia]. cbn [andb bind nt_read nt_got].
    rewrite wr_ok by (rewrite upd_length, tab_length; exact Lt). cbn [bind]. f_equal. f_equal.
    + rewrite Zplus_mod_idemp_l, app_length. cbn [List.length]. f_equal. lia.
    + apply (list_ext_nth (mkNT None [])); [now rewrite !upd_length, !tab_length|]. intros i Li. rewrite !upd_length, tab_length in Li. rewrite !nth_upd, !upd_length, !tab_length, !nth_tab by exact Li.
      assert (T : turns (ts ++ [t]) i = turns ts i ++ if t =? i then [Z.of_nat (length ts)] else []).
      { unfold turns. rewrite app_length. cbn [List.length]. rewrite Nat.add_1_r, seq_S, filter_app, map_app. cbn [plus filter]. rewrite nth_middle. f_equal.
        - f_equal. apply filter_ext_in. intros k Hk. apply in_seq in Hk. now rewrite app_nth1 by lia.
        - now destruct (t =? i). }
      rewrite T, map_app. destruct (Nat.eqb_spec i t) as [->|N].
      * destruct (Nat.ltb_spec t n) as [_|]; [|lia]. rewrite Nat.eqb_refl. reflexivity.
      * cbn [andb]. destruct (Nat.eqb_spec t i); [congruence|]. cbn [map]. now rewrite app_nil_r.
Qed.
Theorem c95_threads : forall n ts, Forall (fun t => t < n) ts -> (Z.of_nat (length ts) <= 2 ^ 64)%Z ->
  exists id th, nt_run n (whole ts) = Ok (id, th) /\ forall t, t < n -> nt_got (nth t th (mkNT None [])) = turns ts t.
Proof.
  intros n ts F L. rewrite (whole_run n ts F). do 2 eexists. split; [reflexivity|]. intros t Lt. rewrite nth_tab by exact Lt. cbn [nt_got].
  rewrite <- (map_id (turns ts t)) at 2. apply map_ext_in. intros z Hz. unfold turns in Hz. apply in_map_iff in Hz as (k & <- & Hk). apply filter_In in Hk as (Hk & _). apply in_seq in Hk. apply Z.mod_small. lia.
Qed.
(** But the counter is not atomic: two threads that construct at once may both get the number 0. *)
Theorem c95_threads_refuted : exists sched id th, nt_run 2 sched = Ok (id, th) /\ nt_got (nth 0 th (mkNT None [])) = [0%Z] /\ nt_got (nth 1 th (mkNT None [])) = [0%Z].
Proof. exists [0; 1; 0; 1], 1%Z, [mkNT None [0%Z]; mkNT None [0%Z]]. repeat split. Qed.

(** *** The hypotheses are met *)
Ltac plain := eexists _, _; split; [match goal with |- ?t = _ => let t := eval vm_compute in t in let r := eval vm_compute in (rev t) in
  match r with ?c :: ?u => instantiate (2 := rev u); instantiate (1 := c); reflexivity end end
  | let K := fresh in intros K; vm_compute in K; repeat (destruct K as [K|K]; [discriminate K|]); exact K].
(** The library's own prefixes *)
Lemma prefixes_plain c : match c with NUser _ => True | _ => ends_plain (class_prefix c) end.
Proof. destruct c; try exact I; plain. Qed.

Definition shop : list nop := [ONew NModel []; ONew NDense []; ONew NRelu (txt "hidden"); OCopy 1; ONew NMse []; OCopy 3; ONew NDense (txt "hidden")].
Example c95_met : exists s, nm_run shop = Ok s /\ Forall plain_op shop /\ (Z.of_nat (autos (rev shop)) <= 2 ^ 64)%Z /\ length (nm_objs s) = 7 /\
  mapM (nm_name s) (seq 0 7) = Ok [txt "model_0"; txt "dense_layer_1"; txt "hidden"; txt "dense_layer_1"; txt "mse_loss_layer_2"; txt "dense_layer_1"; txt "hidden"] /\
  roots (rev shop) = [0; 1; 2; 1; 3; 1; 4].
Proof.
  eexists. split; [reflexivity|]. split; [|vm_compute; repeat split; discriminate].
  unfold shop. repeat constructor; try (now left); try (right; plain); plain.
Qed.
(** Loading into a copy renames the original. *)
Example c95_loaded : exists s, nm_run [ONew NDense []; OCopy 0; OLoad 1 (txt "output")] = Ok s /\ nm_name s 0 = Ok (txt "output").
Proof. eexists. split; reflexivity. Qed.
Example c95_fnn_met : exists s, nm_run (fnn_ops [mkND true (txt "in") NDense NLinear; mkND false (txt "hidden") NDense NRelu; mkND false [] NDense NSoftmax]) = Ok s /\
  mapM (nm_name s) (seq 0 4) = Ok [txt "hidden"; txt "hidden"; txt "dense_layer_0"; txt "softmax_layer_1"].
Proof. eexists. split; reflexivity. Qed.
Example c95_threads_met : exists id th, nt_run 3 (whole [2; 0; 2; 1]) = Ok (id, th) /\ map nt_got th = [[1%Z]; [3%Z]; [0%Z; 2%Z]].
Proof. do 2 eexists. split; reflexivity. Qed.

Print Assumptions c95_names.
Print Assumptions c95_distinct.
Print Assumptions c95_fnn.
Print Assumptions c95_load_refuted.
Print Assumptions c95_given_refuted.
Print Assumptions c95_prefix_refuted.
Print Assumptions c95_threads.
Print Assumptions c95_threads_refuted.
